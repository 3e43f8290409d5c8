(** Proofs about characters of attribute names and rounded division. *)
From Verif Require Import Base CharSpec Utils.

Lemma non_char_ok c : is_non_character c = true <-> NonChar c.
Proof.
  unfold is_non_character, NonChar. rewrite orb_true_iff, !andb_true_iff, !N.leb_le. split.
  - intros [H | [[H1 H2] H3]]; [left; exact H|]. right. exists (c / 65536)%N.
    pose proof (N.div_mod' c 65536). pose proof (N.mod_lt c 65536 ltac:(discriminate)).
    split; [|lia]. assert (c / 65536 <= 1114111 / 65536)%N by (apply N.div_le_mono; [discriminate | exact H2]). exact H4.
  - intros [H | (p & Hp & Hc)]; [left; exact H|]. right.
    assert (c mod 65536 = c - p * 65536)%N.
    { symmetry. apply (N.mod_unique c 65536 p); lia. }
    split; [split|]; lia.
Qed.

Lemma key_char_ok c : is_char_available_in_key c = true <-> KeyChar c.
Proof.
  unfold is_char_available_in_key, KeyChar. change (In c (lit "_-.:")) with (95%N = c \/ 45%N = c \/ 46%N = c \/ 58%N = c \/ False).
  destruct (is_ascii_alnum c || (c =? 95)%N || (c =? 45)%N || (c =? 46)%N || (c =? 58)%N) eqn:E.
  - split; [|reflexivity]. intros _. unfold is_ascii_alnum, is_ascii_digit, is_ascii_upper, is_ascii_lower in E.
    rewrite !orb_true_iff, !andb_true_iff, !N.leb_le, !N.eqb_eq in E. lia.
  - unfold is_ascii_alnum, is_ascii_digit, is_ascii_upper, is_ascii_lower in E. rewrite !orb_false_iff, !andb_false_iff, !N.leb_gt, !N.eqb_neq in E.
    rewrite negb_true_iff, !orb_false_iff. unfold is_ascii_ws, is_ascii_control, is_ascii_punct. rewrite !orb_false_iff, !andb_false_iff, !N.leb_gt, !N.eqb_neq.
    rewrite <- non_char_ok, not_true_iff_false. split.
    + intros ((((H1 & H2) & H3) & H4) & H5). right. right. right. right. split; [lia | exact H3].
    + intros [H | [H | [H | [H | [H1 H2]]]]]; try lia. repeat split; try exact H2; lia.
Qed.

Lemma divide_cases a b : b <> 0%Z -> (a = b * Z.quot a b + Z.rem a b /\ Z.abs (Z.rem a b) < Z.abs b /\ (0 <= a -> 0 <= Z.rem a b) /\ (a <= 0 -> Z.rem a b <= 0))%Z.
Proof.
  intros Hb. split; [apply Z.quot_rem'|]. split; [apply Z.rem_bound_abs; exact Hb|]. split; intros H; [apply Z.rem_nonneg | apply Z.rem_nonpos]; assumption.
Qed.
Local Open Scope Z_scope.
Lemma divide_ok a b r : b <> 0 -> Z.abs b <= Z.abs a \/ Z.rem a b = 0 ->
  match r with Floor => IsFloor | Ceil => IsCeil | Round => IsRound end a b (divide_isize a b r).
Proof.
  intros Hb Hd. pose proof (divide_cases a b Hb) as (E & Hr & Hp & Hn). unfold divide_isize. set (q := Z.quot a b) in *. set (m := Z.rem a b) in *.
  assert (Hq : q <> 0 \/ m = 0) by (destruct Hd as [Hd | Hd]; [left; intros Z; rewrite Z in E; lia | right; exact Hd]).
  destruct (Z.eqb_spec m 0) as [Em | Em]; cbn [negb]; rewrite ?andb_false_r, ?andb_true_r.
  - destruct r; rewrite ?andb_false_r; unfold IsFloor, IsCeil, IsRound; nia.
  - destruct Hq as [Hq | Hq]; [|contradiction]. destruct r; unfold IsFloor, IsCeil, IsRound.
    + destruct (Z.ltb_spec q 0); nia.
    + destruct (Z.ltb_spec 0 q); nia.
    + destruct (Z.eqb_spec q 0) as [? | _]; [contradiction|]. cbn [negb].
      assert (T : exists t, t = q * b /\ a = t + m /\ (0 < q -> 0 < b -> b <= t) /\ (0 < q -> b < 0 -> t <= b) /\ (q < 0 -> 0 < b -> t <= - b) /\ (q < 0 -> b < 0 -> - b <= t)).
      { exists (q * b). repeat split; nia. }
      destruct T as (t & Et & Ea & T1 & T2 & T3 & T4).
      destruct (Z.ltb_spec q 0) as [Hs | Hs].
      * assert (Hx : (q + -1) * b = t - b) by (rewrite Et; ring).
        destruct (Z.leb_spec 0 (m * 2 - -1 * b)), (Z.ltb_spec 0 a), (Z.leb_spec (m * 2 - -1 * b) 0), (Z.ltb_spec a 0); cbn [andb orb]; rewrite ?Hx, <- ?Et; clear Hx Et E; lia.
      * assert (Hx : (q + 1) * b = t + b) by (rewrite Et; ring).
        destruct (Z.leb_spec 0 (m * 2 - 1 * b)), (Z.ltb_spec 0 a), (Z.leb_spec (m * 2 - 1 * b) 0), (Z.ltb_spec a 0); cbn [andb orb]; rewrite ?Hx, <- ?Et; clear Hx Et E; lia.
Qed.
