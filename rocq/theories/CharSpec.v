(** Specification of characters of attribute names and of rounded division, independent of the model. *)
From Verif Require Import Base.

(** The non-characters of Unicode: U+FDD0..U+FDEF and the last two of each of the seventeen planes. *)
Definition NonChar (c : char) : Prop :=
  (64976 <= c <= 65007)%N \/ exists plane, (plane <= 16)%N /\ (c = plane * 65536 + 65534 \/ c = plane * 65536 + 65535)%N.
(** What an attribute name of a selector is written with: letters, digits, [_ - . :] and everything outside ASCII
    that is a character. *)
Definition KeyChar (c : char) : Prop :=
  (48 <= c <= 57)%N \/ (65 <= c <= 90)%N \/ (97 <= c <= 122)%N \/ In c (lit "_-.:") \/ ((128 <= c)%N /\ ~ NonChar c).

(** The quotient of integers rounded down, rounded up, and rounded to the nearest integer (halves away from zero). *)
Definition IsFloor (a b q : Z) : Prop :=
  ((0 < b /\ q * b <= a < (q + 1) * b) \/ (b < 0 /\ (q + 1) * b < a <= q * b))%Z.
Definition IsCeil (a b q : Z) : Prop :=
  ((0 < b /\ (q - 1) * b < a <= q * b) \/ (b < 0 /\ q * b <= a < (q - 1) * b))%Z.
Definition IsRound (a b q : Z) : Prop :=
  (2 * Z.abs (a - q * b) <= Z.abs b /\ (2 * Z.abs (a - q * b) = Z.abs b -> Z.abs a < Z.abs (q * b)))%Z.
