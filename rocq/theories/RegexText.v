(** Model of the texts of regular expressions: the part of the syntax of the external [regex] crate that the texts of
    pattern.rs:197, selector/mod.rs:17, rules/attr.rs:11 and pseudo.rs:857 use.  [RegExp::get_rule] (pattern.rs:387-401) puts a
    [^] in front of the text; here matching is anchored, and a [^] at the very start of the text is dropped.  What is outside
    this part of the syntax is rejected ([None]): lazy [+?] and [??], counted repetition, flags, named groups, other escapes. *)
From Verif Require Import Base Regex.

Section RegexText.
  Variable is_digit : char -> bool.

  (** One member of a bracketed class. *)
  Inductive citem := CChar (c : char) | CRange (a b : char) | CSpace | CDigit.
  Definition item_has (x : char) (i : citem) : bool :=
    match i with
    | CChar c => char_eqb x c
    | CRange a b => ((a <=? x) && (x <=? b))%N
    | CSpace => is_unicode_ws x
    | CDigit => is_digit x
    end.
  Definition class_has (neg : bool) (l : list citem) (x : char) : bool := xorb neg (existsb (item_has x) l).

  Definition ascii_punct (c : char) : bool :=
    ((33 <=? c) && (c <=? 47) || (58 <=? c) && (c <=? 64) || (91 <=? c) && (c <=? 96) || (123 <=? c) && (c <=? 126))%N.
  Definition escaped (c : char) : option citem :=
    if char_eqb c 115%N then Some CSpace
    else if char_eqb c 100%N then Some CDigit
    else if ascii_punct c then Some (CChar c)
    else None.

  (** The members up to the closing bracket, and what follows it. *)
  Fixpoint class_items (s : str) (first : bool) : option (list citem * str) :=
    match s with
    | [] => None
    | c :: s' =>
        if char_eqb c 93%N then if first then None else Some ([], s')
        else if char_eqb c 92%N then
          match s' with
          | d :: s2 =>
              match escaped d, class_items s2 false with
              | Some i, Some (l, r) => Some (i :: l, r)
              | _, _ => None
              end
          | [] => None
          end
        else if char_eqb c 91%N then None
        else
          match s' with
          | d :: ((e :: s3) as s2) =>
              if char_eqb d 45%N && negb (char_eqb e 93%N) then
                if char_eqb e 92%N || char_eqb e 91%N || char_eqb e 45%N || negb (c <=? e)%N then None
                else match class_items s3 false with Some (l, r) => Some (CRange c e :: l, r) | None => None end
              else match class_items s' false with Some (l, r) => Some (CChar c :: l, r) | None => None end
          | _ => match class_items s' false with Some (l, r) => Some (CChar c :: l, r) | None => None end
          end
    end.

  (** The repetition marks after an atom; a [?] directly after a mark makes it lazy. *)
  Fixpoint marks (a : re) (s : str) : option (re * str) :=
    match s with
    | c :: s' =>
        if char_eqb c 42%N then
          match s' with
          | d :: s2 => if char_eqb d 63%N then marks (RStar false a) s2 else marks (RStar true a) s'
          | [] => marks (RStar true a) s'
          end
        else if char_eqb c 43%N || char_eqb c 63%N then
          match s' with
          | d :: _ => if char_eqb d 63%N then None else marks (if char_eqb c 43%N then RPlus a else ROpt a) s'
          | [] => marks (if char_eqb c 43%N then RPlus a else ROpt a) s'
          end
        else Some (a, s)
    | [] => Some (a, [])
    end.

  (** [alt_of]: alternatives separated by [|]; [seq_of]: atoms with their marks.  [n]: the number of groups opened so far. *)
  Fixpoint alt_of (fuel : nat) (n : nat) (s : str) : option (re * nat * str) :=
    match fuel with
    | 0 => None
    | S f =>
        match seq_of f n s with
        | Some (l, n1, c :: s1) =>
            if char_eqb c 124%N then
              match alt_of f n1 s1 with
              | Some (r, n2, s2) => Some (RAlt (rseqs l) r, n2, s2)
              | None => None
              end
            else Some (rseqs l, n1, c :: s1)
        | Some (l, n1, []) => Some (rseqs l, n1, [])
        | None => None
        end
    end
  with seq_of (fuel : nat) (n : nat) (s : str) : option (list re * nat * str) :=
    match fuel with
    | 0 => None
    | S f =>
        match s with
        | [] => Some ([], n, [])
        | c :: s1 =>
            if char_eqb c 124%N || char_eqb c 41%N then Some ([], n, s)
            else
              match atom_of f n c s1 with
              | None => None
              | Some (a, n1, s2) =>
                  match marks a s2 with
                  | None => None
                  | Some (b, s3) =>
                      match seq_of f n1 s3 with
                      | Some (l, n2, s4) => Some (b :: l, n2, s4)
                      | None => None
                      end
                  end
              end
        end
    end
  with atom_of (fuel : nat) (n : nat) (c : char) (s : str) : option (re * nat * str) :=
    match fuel with
    | 0 => None
    | S f =>
        if char_eqb c 40%N then
          match s with
          | 63%N :: 58%N :: s' =>
              match alt_of f n s' with
              | Some (r, n', 41%N :: s2) => Some (r, n', s2)
              | _ => None
              end
          | 63%N :: _ => None
          | _ =>
              match alt_of f (S n) s with
              | Some (r, n', 41%N :: s2) => Some (RGrp (S n) r, n', s2)
              | _ => None
              end
          end
        else if char_eqb c 91%N then
          let '(neg, s1) := match s with 94%N :: s' => (true, s') | _ => (false, s) end in
          match class_items s1 true with
          | Some (l, s2) => Some (RChr (class_has neg l), n, s2)
          | None => None
          end
        else if char_eqb c 92%N then
          match s with
          | d :: s' =>
              match escaped d with
              | Some (CChar x) => Some (chr x, n, s')
              | Some CSpace => Some (re_s, n, s')
              | Some CDigit => Some (RChr is_digit, n, s')
              | _ => None
              end
          | [] => None
          end
        else if char_eqb c 46%N then Some (re_dot, n, s)
        else if existsb (char_eqb c) (lit "*+?{^$]}") then None
        else Some (chr c, n, s)
    end.

  (** The expression a text stands for. *)
  Definition regex_of (s : str) : option re :=
    let s := match s with 94%N :: s' => s' | _ => s end in
    match alt_of (3 * length s + 4) 0 s with
    | Some (r, _, []) => Some r
    | _ => None
    end.
End RegexText.
