(** Specification of rule templates: a template is a run of items, written in a fixed way.  Nothing here mentions the scanner of
    Template.v; only the alphabet of queues is shared. *)
From Verif Require Import Base Template.

(** A literal character; a named pattern; a regular expression between [k + 1] hashes on each side, with spaces before the
    closing brace. *)
Inductive titem := TLit (c : char) | TPat (n : pname) | TRaw (k : nat) (raw ws : str).

Definition name_of (n : pname) : str :=
  match n with
  | PnIdentity => lit "identity"
  | PnSpaces => lit "spaces"
  | PnAttrKey => lit "attr_key"
  | PnNth => lit "nth"
  | PnRegexp => lit "regexp"
  | PnSelector => lit "selector"
  end.

(** How an item is written: a brace is doubled. *)
Definition written (i : titem) : str :=
  match i with
  | TLit c => if char_eqb c LBRACE || char_eqb c RBRACE then [c; c] else [c]
  | TPat n => LBRACE :: name_of n ++ [RBRACE]
  | TRaw k raw ws => LBRACE :: lit "regexp" ++ repeat HASH (S k) ++ raw ++ repeat HASH (S k) ++ ws ++ [RBRACE]
  end.
Definition render (l : list titem) : str := flat_map written l.

(** No [m] hashes in a row. *)
Definition NoRun (m : nat) (s : str) : Prop := forall a b, s <> a ++ repeat HASH m ++ b.
(** The text of a regular expression that can stand between [k + 1] hashes: not empty, not starting with a hash or a closing
    brace, without the closing run of hashes inside, and without a hash among its first [k] characters (the text itself being
    at least [k] long). *)
Record RawOk (k : nat) (raw : str) : Prop := {
  raw_head : exists c r, raw = c :: r /\ c <> HASH /\ c <> RBRACE;
  raw_run : NoRun (S k) (raw ++ repeat HASH k);
  raw_early : forall i, nth_error raw i = Some HASH -> k <= i;
  raw_long : k <= length raw
}.
Definition ItemOk (i : titem) : Prop :=
  match i with
  | TRaw k raw ws => RawOk k raw /\ Forall (fun c => is_ascii_ws c = true) ws
  | _ => True
  end.

(** The queue of a template: a maximal run of literals before a pattern is one text; the run at the end is one character or one
    text. *)
Definition run_mid (p : str) : list qitem := match p with [] => [] | _ => [QVec p] end.
Definition run_last (p : str) : list qitem := match p with [] => [] | [c] => [QChar c] | _ => [QVec p] end.
Fixpoint queue_of (run : str) (l : list titem) : list qitem :=
  match l with
  | [] => run_last run
  | TLit c :: l' => queue_of (run ++ [c]) l'
  | TPat n :: l' => run_mid run ++ QNamed n [] :: queue_of [] l'
  | TRaw _ raw _ :: l' => run_mid run ++ QNamed PnRegexp raw :: queue_of [] l'
  end.
