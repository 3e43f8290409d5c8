(** Property theorems: rounded division (C48), characters of attribute names (C35). *)
From Verif Require Import Base CharSpec Utils CharProofs.
Local Open Scope Z_scope.

(** C48: the quotient is rounded as asked whenever it is not between -1 and 1. *)
Theorem C48_divide_partial (a b : Z) :
  b <> 0 -> Z.abs b <= Z.abs a \/ Z.rem a b = 0 ->
  IsFloor a b (divide_isize a b Floor) /\ IsCeil a b (divide_isize a b Ceil) /\ IsRound a b (divide_isize a b Round).
Proof.
  intros Hb H. split; [exact (divide_ok a b Floor Hb H)|]. split; [exact (divide_ok a b Ceil Hb H) | exact (divide_ok a b Round Hb H)].
Qed.
Print Assumptions C48_divide_partial.
(** Each of the three results is determined by its specification. *)
Theorem C48_unique (a b q q' : Z) :
  (IsFloor a b q -> IsFloor a b q' -> q = q') /\ (IsCeil a b q -> IsCeil a b q' -> q = q') /\ (b <> 0 -> IsRound a b q -> IsRound a b q' -> q = q').
Proof.
  split; [|split].
  - unfold IsFloor. nia.
  - unfold IsCeil. nia.
  - intros Hb [H1 H2] [H1' H2'].
    assert (E : a - q * b = (a - q' * b) + (q' - q) * b) by ring. set (r := a - q * b) in *. set (r' := a - q' * b) in *.
    assert (Eq : q * b = a - r) by (subst r; ring). assert (Eq' : q' * b = a - r') by (subst r'; ring). rewrite Eq in H2. rewrite Eq' in H2'.
    destruct (Z.eq_dec q q') as [|Hn]; [assumption|]. exfalso.
    assert (Hd : Z.abs b <= Z.abs (r - r')). { replace (r - r') with ((q' - q) * b) by lia. rewrite Z.abs_mul. nia. }
    assert (H2r : 2 * r = b \/ 2 * r = - b) by lia.
    assert (H2a : Z.abs b <= Z.abs (2 * a)).
    { destruct H2r as [Hr | Hr]; [replace (2 * a) with ((2 * q + 1) * b) by lia | replace (2 * a) with ((2 * q - 1) * b) by lia]; rewrite Z.abs_mul; nia. }
    lia.
Qed.
Print Assumptions C48_unique.
Example C48_ex : (-7) <> 0 /\ Z.abs 4 <= Z.abs (-6) /\ divide_isize (-6) 4 Floor = -2 /\ divide_isize (-6) 4 Ceil = -1 /\ divide_isize (-6) 4 Round = -2 /\ divide_isize 6 4 Round = 2 /\ divide_isize (-5) (-4) Ceil = 2.
Proof. repeat split; discriminate. Qed.
(** C48 is false for quotients between -1 and 1: they all become 0. *)
Theorem C48_divide_refuted :
  (exists a b, b <> 0 /\ ~ IsFloor a b (divide_isize a b Floor)) /\ (exists a b, b <> 0 /\ ~ IsCeil a b (divide_isize a b Ceil)) /\
  (exists a b, b <> 0 /\ ~ IsRound a b (divide_isize a b Round)).
Proof.
  split; [exists (-1), 2; split; [discriminate | vm_compute; intuition discriminate] | split; [exists 1, 2; split; [discriminate | vm_compute; intuition discriminate]|]].
  exists 3, 4. split; [discriminate|]. vm_compute. intuition discriminate.
Qed.
Print Assumptions C48_divide_refuted.
(** The failure is exactly there: a quotient strictly between 0 and 1 (in size) is never rounded away from zero. *)
Theorem C48_small (a b : Z) (r : round_type) : Z.abs a < Z.abs b -> divide_isize a b r = 0.
Proof.
  intros H. assert (E : Z.quot a b = 0) by (apply Z.quot_small_iff; lia). unfold divide_isize. rewrite E. destruct r; reflexivity.
Qed.
Print Assumptions C48_small.
Example C48_small_ex : Z.abs (-3) < Z.abs 4 /\ divide_isize (-3) 4 Floor = 0.
Proof. split; reflexivity. Qed.

(** C35: the characters accepted in the name of an attribute. *)
Theorem C35_key_characters (c : char) : is_char_available_in_key c = true <-> KeyChar c.
Proof. exact (key_char_ok c). Qed.
Print Assumptions C35_key_characters.
Example C35_key_ex : KeyChar 58%N /\ KeyChar 233%N /\ ~ KeyChar 131070%N /\ ~ KeyChar 64976%N /\ ~ KeyChar 43%N.
Proof. rewrite <- !key_char_ok. repeat split; vm_compute; congruence. Qed.
