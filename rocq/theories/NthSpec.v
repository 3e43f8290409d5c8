(** What [an+b] means (CSS Selectors): the positions [i], counted from 1, among [total] siblings for which
    some integer [k >= 0] gives [i = a*k + b]. *)
From Verif Require Import Base.
Open Scope Z_scope.

Definition NthPos (a b total i : Z) : Prop :=
  1 <= i <= total /\ exists k, 0 <= k /\ i = a * k + b.

(** The step a user writes when only an index is given is 0. *)
Definition formula_step (f : option Z * Z) : Z := match fst f with Some a => a | None => 0 end.

(** Strictly increasing integers. *)
Fixpoint ZIncr (l : list Z) : Prop :=
  match l with
  | [] => True
  | x :: l' => match l' with y :: _ => x < y | [] => True end /\ ZIncr l'
  end.

(** The library rounds wrongly in exactly these regimes (see [nth_unsafe_out_of_range]):
    - [b] negative but closer to 0 than one step ([3n-1]);
    - [b] beyond the last sibling by less than one step ([3n+2] with one sibling, [odd] with none);
    - the same for negative steps ([-2n+6] with five siblings). *)
Definition NthSafe (a b total : Z) : Prop :=
  ~ (0 < a /\ 1 - a < b /\ b < 0) /\
  ~ (0 < a /\ total < b /\ b < total + a) /\
  ~ (a < 0 /\ - a < b /\ total < b /\ b < total - a).

(** Magnitudes for which no 64-bit intermediate overflows. *)
Definition NthSmall (a b total : Z) : Prop :=
  - 2 ^ 62 < a < 2 ^ 62 /\ - 2 ^ 62 < b < 2 ^ 62 /\ 0 <= total < 2 ^ 62.
(** Numbers that fit an [isize]. *)
Definition Readable (z : Z) : Prop := - 2 ^ 63 <= z < 2 ^ 63.
Close Scope Z_scope.
