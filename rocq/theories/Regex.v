(** A small regular expression matcher with captures: the part of the external [regex] crate that
    src/mesdoc/selector/pattern.rs uses (lines 346-402).  Matching is anchored at the start ([^]), "leftmost first":
    alternatives are tried in order, a greedy repetition tries one more round first, a lazy one tries to stop first. *)
From Verif Require Import Base.

Inductive re :=
| REps
| RChr (p : char -> bool)
| RSeq (a b : re)
| RAlt (a b : re)
| RStar (greedy : bool) (a : re)
| RGrp (n : nat) (a : re).

(** Captured groups, the newest first. *)
Definition caps := list (nat * str).
Fixpoint cap (c : caps) (n : nat) : option str :=
  match c with
  | [] => None
  | (m, s) :: c' => if Nat.eqb m n then Some s else cap c' n
  end.

(** [rmatch r s c k]: match [r] at the start of [s], then go on with [k] on the rest.  A round of a repetition that
    consumes nothing is not repeated. *)
Fixpoint rmatch (r : re) (s : str) (c : caps) (k : str -> caps -> option (str * caps)) : option (str * caps) :=
  match r with
  | REps => k s c
  | RChr p => match s with x :: s' => if p x then k s' c else None | [] => None end
  | RSeq a b => rmatch a s c (fun s' c' => rmatch b s' c' k)
  | RAlt a b => match rmatch a s c k with Some x => Some x | None => rmatch b s c k end
  | RStar greedy a =>
      (fix loop (fuel : nat) (s : str) (c : caps) : option (str * caps) :=
         match fuel with
         | 0 => None
         | S f =>
             if greedy then
               match rmatch a s c (fun s' c' => if length s' <? length s then loop f s' c' else None) with
               | Some x => Some x
               | None => k s c
               end
             else
               match k s c with
               | Some x => Some x
               | None => rmatch a s c (fun s' c' => if length s' <? length s then loop f s' c' else None)
               end
         end) (S (length s)) s c
  | RGrp n a => rmatch a s c (fun s' c' => k s' ((n, firstn (length s - length s') s) :: c'))
  end.

(** pattern.rs:354-375: the matched prefix and the captures. *)
Definition re_exec (r : re) (s : str) : option (str * caps) :=
  match rmatch r s [] (fun s' c' => Some (s', c')) with
  | Some (rest, c) => Some (firstn (length s - length rest) s, c)
  | None => None
  end.

(** Abbreviations of the usual notation. *)
Definition ROpt (a : re) : re := RAlt a REps.                      (* a? *)
Definition RPlus (a : re) : re := RSeq a (RStar true a).            (* a+ *)
Definition chr (c : char) : re := RChr (char_eqb c).
Definition one_of (l : str) : re := RChr (fun c => existsb (char_eqb c) l).
Definition none_of (l : str) : re := RChr (fun c => negb (is_unicode_ws c) && negb (existsb (char_eqb c) l)).   (* [^\s...] *)
Definition re_s : re := RChr is_unicode_ws.                         (* \s *)
Definition re_dot : re := RChr (fun c => negb (char_eqb c 10%N)).     (* . *)
Fixpoint ralts (l : list re) : re :=
  match l with
  | [] => RChr (fun _ => false)
  | [a] => a
  | a :: l' => RAlt a (ralts l')
  end.
Fixpoint rseqs (l : list re) : re :=
  match l with
  | [] => REps
  | [a] => a
  | a :: l' => RSeq a (rseqs l')
  end.
