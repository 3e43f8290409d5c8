(** Specification of the string helpers, independent of the model: what a user means by
    "the class names in an attribute", "substring", "equal ignoring ASCII case". *)
From Verif Require Import Base.

(** [Words s l]: [s] consists of the non-empty, whitespace-free words [l] in order, separated (and
    possibly surrounded) by ASCII white space. *)
Definition Word (w : str) : Prop := w <> [] /\ Forall (fun c => is_ascii_ws c = false) w.
Definition Blank (s : str) : Prop := Forall (fun c => is_ascii_ws c = true) s.

Inductive Words : str -> list str -> Prop :=
| Words_nil s : Blank s -> Words s []
| Words_one b w : Blank b -> Word w -> Words (b ++ w) [w]
| Words_cons b w c s l :
    Blank b -> Word w -> is_ascii_ws c = true -> Words s l -> Words (b ++ w ++ c :: s) (w :: l).

(** [Substring s t]: [s] occurs in [t] as a contiguous block. *)
Definition Substring (s t : str) : Prop := exists a b, t = a ++ s ++ b.

(** Equality up to ASCII case. *)
Definition EqIgnoreCase (a b : str) : Prop := str_lower a = str_lower b.

(** The elements of a list whose position (counted from [lo]) is not among [idx], in order. *)
Fixpoint drop_positions_from {A} (lo : nat) (l : list A) (idx : list nat) : list A :=
  match l with
  | [] => []
  | x :: l' =>
      if existsb (Nat.eqb lo) idx then drop_positions_from (S lo) l' idx
      else x :: drop_positions_from (S lo) l' idx
  end.
Definition drop_positions {A} (l : list A) (idx : list nat) : list A := drop_positions_from 0 l idx.

(** Strictly increasing list of positions. *)
Fixpoint StrictIncr (l : list nat) : Prop :=
  match l with
  | x :: l' => match l' with y :: _ => x < y | [] => True end /\ StrictIncr l'
  | _ => True
  end.
