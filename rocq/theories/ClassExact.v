(** Removing positions from a list when the positions come in any order: which element each step takes out, and when the
    result is the one meant. *)
From Coq Require Import Permutation Sorted.
From Verif Require Import Base Utils UtilsSpec UtilsProofs Attr AttrSpec AttrProofs ClassOps ClassSpec ClassProofs.

Lemma vec_remove_map {A B} (g : A -> B) (v : list A) : forall k,
  vec_remove (map g v) k = match vec_remove v k with Ok l => Ok (map g l) | Panic => Panic | OutOfFuel => OutOfFuel end.
Proof.
  induction v as [|x v IH]; intros k; cbn; [destruct k; reflexivity|].
  destruct k as [|k]; [reflexivity|]. rewrite IH. destruct (vec_remove v k); reflexivity.
Qed.

Lemma retain_map {A B} (g : A -> B) p : forall (v : list A) i,
  retain_loop (map g v) p i = match retain_loop v p i with Ok l => Ok (map g l) | Panic => Panic | OutOfFuel => OutOfFuel end.
Proof.
  induction p as [|x p IH]; intros v i; cbn; [reflexivity|].
  destruct (rsub x i) as [k| |]; cbn; try reflexivity.
  rewrite vec_remove_map. destruct (vec_remove v k) as [v'| |]; cbn; try reflexivity. apply IH.
Qed.

Lemma vec_remove_split {A} (v : list A) : forall k l, vec_remove v k = Ok l ->
  exists a x b, v = a ++ x :: b /\ l = a ++ b /\ length a = k.
Proof.
  induction v as [|y v IH]; intros k l H; cbn in H; [destruct k; discriminate|].
  destruct k as [|k].
  - injection H as <-. exists [], y, v. auto.
  - destruct (vec_remove v k) as [r| |] eqn:E; cbn in H; try discriminate. injection H as <-.
    destruct (IH _ _ E) as (a & x & b & -> & -> & <-). exists (y :: a), x, b. auto.
Qed.

(** Strictly increasing lists. *)
Definition Asc (l : list nat) : Prop := StronglySorted lt l.

Lemma asc_app a x b : Asc (a ++ x :: b) -> Asc (a ++ b) /\ Forall (fun y => y < x) a /\ Forall (fun y => x < y) b.
Proof.
  unfold Asc. induction a as [|y a IH]; cbn; intros H.
  - apply StronglySorted_inv in H as [H1 H2]. auto.
  - apply StronglySorted_inv in H as [H1 H2]. destruct (IH H1) as (K1 & K2 & K3).
    apply Forall_app in H2 as [H2 H3]. inversion H3; subst. split; [|split; [constructor; assumption | assumption]].
    constructor; [exact K1|]. apply Forall_app. auto.
Qed.

Lemma asc_seq n : forall lo, Asc (seq lo n).
Proof.
  induction n as [|n IH]; intros lo; cbn; constructor; [apply IH|].
  apply Forall_forall. intros y Hy. apply in_seq in Hy. lia.
Qed.

Lemma asc_nodup l : Asc l -> NoDup l.
Proof.
  induction 1 as [|x l Hl IH Hx]; constructor; [|exact IH].
  intros Hin. rewrite Forall_forall in Hx. specialize (Hx _ Hin). lia.
Qed.

(** How many of the numbers are below a bound. *)
Definition below (x : nat) (l : list nat) : nat := length (filter (fun y => y <? x) l).
Lemma below_app x a b : below x (a ++ b) = below x a + below x b.
Proof. unfold below. rewrite filter_app, app_length. reflexivity. Qed.
Lemma below_perm x a b : Permutation a b -> below x a = below x b.
Proof.
  intros H. unfold below. induction H as [|y l l' _ IH|y z l|l l' l'' _ IH1 _ IH2]; cbn [filter]; [reflexivity| | |etransitivity; eassumption].
  - destruct (y <? x); cbn [length]; congruence.
  - destruct (y <? x), (z <? x); reflexivity.
Qed.
Lemma below_all x l : Forall (fun y => y < x) l -> below x l = length l.
Proof.
  unfold below. induction 1 as [|y l Hy Hl IH]; cbn [filter length]; [reflexivity|].
  destruct (Nat.ltb_spec y x); cbn [length]; lia.
Qed.
Lemma below_none x l : Forall (fun y => x <= y) l -> below x l = 0.
Proof.
  unfold below. induction 1 as [|y l Hy Hl IH]; cbn [filter length]; [reflexivity|].
  destruct (Nat.ltb_spec y x); cbn [length]; lia.
Qed.
Lemma below_le x l : below x l <= length l.
Proof. unfold below. induction l as [|y l IH]; cbn [filter length]; [lia|]. destruct (y <? x); cbn [length]; lia. Qed.
Lemma below_full x l : below x l = length l -> Forall (fun y => y < x) l.
Proof.
  unfold below. induction l as [|y l IH]; cbn [filter length]; intros H; constructor.
  - destruct (Nat.ltb_spec y x); [assumption|]. pose proof (below_le x l). unfold below in *. cbn [length] in H. lia.
  - apply IH. pose proof (below_le x l). unfold below in *. destruct (y <? x); cbn [length] in H; lia.
Qed.
Lemma below_seq x n : forall lo, lo <= x <= lo + n -> below x (seq lo n) = x - lo.
Proof.
  unfold below. induction n as [|n IH]; intros lo H; cbn [seq filter]; [cbn; lia|].
  destruct (Nat.ltb_spec lo x) as [Hl|Hl].
  - cbn [length]. rewrite IH by lia. lia.
  - replace x with lo by lia. rewrite Nat.sub_diag. clear. 
    assert (K : forall m n, lo <= m -> filter (fun y => y <? lo) (seq m n) = []).
    { intros m k. revert m. induction k as [|k IHk]; intros m Hm; cbn [seq filter]; [reflexivity|].
      destruct (Nat.ltb_spec m lo); [lia|]. apply IHk. lia. }
    rewrite K by lia. reflexivity.
Qed.

(** Taking positions out of [0 .. N-1], having taken out [done] before: step [i] takes out an element that stood at or before the
    position asked for, and exactly there only if all taken out before stood further to the left. *)
Lemma retain_steps N p : forall v done f, Asc v -> Permutation (seq 0 N) (done ++ v) ->
  retain_loop v p (length done) = Ok f ->
  exists q, Forall2 le q p /\ Permutation v (q ++ f) /\ Asc f /\
    (q = p -> StronglySorted lt q /\ Forall (fun x => Forall (fun y => y < x) done) q).
Proof.
  induction p as [|x p IH]; intros v done f Ha Hp H; cbn in H.
  - injection H as <-. exists []. split; [constructor|]. split; [reflexivity|]. split; [exact Ha|]. intros _. split; constructor.
  - destruct (rsub x (length done)) as [k| |] eqn:Ek; cbn in H; try discriminate.
    destruct (vec_remove v k) as [v'| |] eqn:Ev; cbn in H; try discriminate.
    destruct (vec_remove_split _ _ _ Ev) as (a & y & b & -> & -> & Hk).
    destruct (asc_app _ _ _ Ha) as (Ha' & Hya & Hyb).
    assert (Hk' : x = k + length done).
    { unfold rsub in Ek. destruct (length done <=? x) eqn:El; [|discriminate].
      apply Nat.leb_le in El. injection Ek as <-. lia. }
    assert (Hyn : y < N).
    { assert (Hin : In y (seq 0 N)) by (rewrite Hp; apply in_or_app; right; apply in_or_app; right; left; reflexivity).
      apply in_seq in Hin. lia. }
    assert (Hy : y = below y done + length a).
    { pose proof (below_perm y _ _ Hp) as E. rewrite below_seq in E by lia.
      rewrite below_app, below_app in E. rewrite (below_all y a Hya) in E.
      rewrite (below_none y (y :: b)) in E; [lia|]. constructor; [lia|].
      eapply Forall_impl; [|exact Hyb]. cbn. intros; lia. }
    assert (Hp' : Permutation (seq 0 N) ((done ++ [y]) ++ (a ++ b))).
    { rewrite Hp, <- app_assoc. apply Permutation_app_head. cbn. rewrite Permutation_middle. reflexivity. }
    destruct (IH (a ++ b) (done ++ [y]) f Ha' Hp') as (q & Hq1 & Hq2 & Hq3 & Hq4).
    { rewrite app_length. cbn [length]. rewrite Nat.add_1_r. exact H. }
    exists (y :: q). pose proof (below_le y done) as Hle.
    split; [constructor; [lia | exact Hq1]|].
    split; [rewrite <- Permutation_middle; cbn; rewrite Hq2; reflexivity|]. split; [exact Hq3|].
    intros E. injection E as Ey Eq. destruct (Hq4 Eq) as [S1 S2].
    assert (Hd : Forall (fun z => z < y) done) by (apply below_full; lia).
    split.
    + constructor; [exact S1|]. rewrite Forall_forall in S2 |- *. intros z Hz. specialize (S2 _ Hz).
      apply Forall_app in S2 as [_ S2]. inversion S2; subst. assumption.
    + constructor; [exact Hd|]. rewrite Forall_forall in S2 |- *. intros z Hz. specialize (S2 _ Hz).
      apply Forall_app in S2. tauto.
Qed.

(** A list that is below another one term by term and has the same terms is that list. *)
Lemma sum_perm a b : Permutation a b -> list_sum a = list_sum b.
Proof. unfold list_sum. induction 1; cbn; lia. Qed.
Lemma le_sum q p : Forall2 le q p -> list_sum q <= list_sum p /\ (list_sum q = list_sum p -> q = p).
Proof.
  unfold list_sum. induction 1 as [|x y q p Hxy Hqp [IH1 IH2]]; cbn; [auto|].
  split; [lia|]. intros E. f_equal; [lia | apply IH2; lia].
Qed.
Lemma forall2_len {A B} (R : A -> B -> Prop) l m : Forall2 R l m -> length l = length m.
Proof. induction 1; cbn; congruence. Qed.

(** Sorted lists with the same members are equal. *)
Lemma asc_ext l : forall m, Asc l -> Asc m -> (forall x, In x l <-> In x m) -> l = m.
Proof.
  induction l as [|x l IH]; intros m Hl Hm H.
  - destruct m as [|y m]; [reflexivity|]. exfalso. apply (H y). left. reflexivity.
  - destruct m as [|y m]; [exfalso; apply (H x); left; reflexivity|].
    apply StronglySorted_inv in Hl as [Hl Hx], Hm as [Hm Hy]. rewrite Forall_forall in Hx, Hy.
    assert (x = y).
    { destruct (proj1 (H x) (or_introl eq_refl)) as [E|Hin]; [congruence|].
      destruct (proj2 (H y) (or_introl eq_refl)) as [E|Hin']; [congruence|].
      specialize (Hx _ Hin'). specialize (Hy _ Hin). lia. }
    subst y. f_equal. apply IH; try assumption. intros z. split; intros Hz.
    + destruct (proj1 (H z) (or_intror Hz)) as [E|K]; [|exact K]. subst z. specialize (Hx _ Hz). lia.
    + destruct (proj2 (H z) (or_intror Hz)) as [E|K]; [|exact K]. subst z. specialize (Hy _ Hz). lia.
Qed.

Lemma asc_filter P l : Asc l -> Asc (filter P l).
Proof.
  induction 1 as [|x l Hl IH Hx]; cbn; [constructor|]. destruct (P x); [|exact IH].
  constructor; [exact IH|]. rewrite Forall_forall in Hx |- *. intros y Hy. apply filter_In in Hy. apply Hx. tauto.
Qed.

Lemma map_nth_seq {A} (d : A) (l : list A) : map (fun i => nth i l d) (seq 0 (length l)) = l.
Proof.
  induction l as [|x l IH]; [reflexivity|]. cbn. f_equal. rewrite <- seq_shift, map_map. exact IH.
Qed.

Lemma filter_map_comm {A B} (g : A -> B) P l : filter P (map g l) = map g (filter (fun x => P (g x)) l).
Proof. induction l as [|x l IH]; cbn; [reflexivity|]. destruct (P (g x)); cbn; congruence. Qed.

Lemma position_nth x l : forall i, position x l = Some i -> i < length l /\ nth i l [] = x.
Proof.
  induction l as [|y l IH]; intros i H; cbn in H; [discriminate|].
  destruct (str_eqb y x) eqn:E.
  - injection H as <-. apply str_eqb_spec in E. cbn. split; [lia | exact E].
  - destruct (position x l) as [j|] eqn:Ej; [|discriminate]. injection H as <-.
    destruct (IH _ eq_refl). cbn. split; [lia | assumption].
Qed.

Lemma removed_positions_map orig names :
  map (fun i => nth i orig []) (removed_positions orig names) =
  filter (fun n => if in_dec str_dec n orig then true else false) names.
Proof.
  induction names as [|n names IH]; cbn; [reflexivity|].
  destruct (position n orig) as [i|] eqn:E.
  - pose proof (proj2 (position_nth _ _ _ E)) as Ex. cbn [map]. rewrite IH.
    destruct (in_dec str_dec n orig) as [_|Hn]; [f_equal; exact Ex|].
    apply position_none in Hn. congruence.
  - rewrite IH. destruct (in_dec str_dec n orig) as [Hin|_]; [|reflexivity].
    exfalso. apply position_none in E. tauto.
Qed.

Lemma removed_positions_bound orig names : Forall (fun i => i < length orig) (removed_positions orig names).
Proof.
  induction names as [|n names IH]; cbn; [constructor|].
  destruct (position n orig) as [i|] eqn:E; [|exact IH]. constructor; [apply (position_nth _ _ _ E) | exact IH].
Qed.

(** The names are taken out, and nothing else, only when they are given once and in the order of the list. *)
Lemma remove_spec_conv orig names : NoDup orig ->
  retain_by_index orig (removed_positions orig names) =
    Ok (filter (fun c => if in_dec str_dec c names then false else true) orig) ->
  SameOrder orig names.
Proof.
  intros Hnd H. set (p := removed_positions orig names) in *.
  set (g := fun i => nth i orig []). set (v := seq 0 (length orig)).
  assert (Ev : map g v = orig) by apply map_nth_seq.
  unfold retain_by_index in H. rewrite <- Ev in H at 1. rewrite retain_map in H.
  destruct (retain_loop v p 0) as [f| |] eqn:Er; try discriminate. injection H as H.
  destruct (retain_steps (length orig) p v [] f) as (q & Hqp & Hq & Hf & Hsort); [apply asc_seq | reflexivity | exact Er |].
  set (P := fun i => if in_dec str_dec (g i) names then true else false).
  assert (Hinj : forall i j, i < length orig -> j < length orig -> g i = g j -> i = j).
  { intros i j Hi Hj E. unfold g in E. apply (proj1 (NoDup_nth orig []) Hnd); assumption. }
  assert (Hvf : forall i, In i f -> In i v) by (intros i Hi; rewrite Hq; apply in_or_app; right; exact Hi).
  assert (Hvq : forall i, In i q -> In i v) by (intros i Hi; rewrite Hq; apply in_or_app; left; exact Hi).
  assert (Hlt : forall i, In i v -> i < length orig) by (intros i Hi; apply in_seq in Hi; lia).
  assert (Hnq : NoDup (q ++ f)) by (eapply Permutation_NoDup; [exact Hq | apply seq_NoDup]).
  (* what stays are the positions of the other names *)
  assert (Hf' : forall i, In i f <-> In i v /\ P i = false).
  { intros i. split.
    - intros Hi. split; [apply Hvf, Hi|]. assert (K : In (g i) (map g f)) by (apply in_map, Hi).
      rewrite H in K. apply filter_In in K as [_ K]. unfold P. destruct (in_dec str_dec (g i) names); [discriminate | reflexivity].
    - intros [Hi HP]. assert (K : In (g i) (map g f)).
      { rewrite H. apply filter_In. split; [rewrite <- Ev; apply in_map, Hi|].
        unfold P in HP. destruct (in_dec str_dec (g i) names); [discriminate | reflexivity]. }
      apply in_map_iff in K as (j & Ej & Hj). replace i with j; [exact Hj|]. apply Hinj; auto. }
  assert (Hq' : forall i, In i q <-> In i v /\ P i = true).
  { intros i. split.
    - intros Hi. split; [apply Hvq, Hi|]. destruct (P i) eqn:EP; [reflexivity|]. exfalso.
      assert (K : In i f) by (apply Hf'; split; [apply Hvq, Hi | exact EP]).
      apply in_split in Hi as (q1 & q2 & ->). rewrite <- app_assoc in Hnq. cbn in Hnq.
      apply NoDup_remove_2 in Hnq. apply Hnq. apply in_or_app. right. apply in_or_app. right. exact K.
    - intros [Hi HP]. rewrite Hq in Hi. apply in_app_or in Hi as [Hi|Hi]; [exact Hi|].
      apply Hf' in Hi. destruct Hi. congruence. }
  (* the positions asked for are the same *)
  assert (Em : map g p = filter (fun n => if in_dec str_dec n orig then true else false) names) by apply removed_positions_map.
  pose proof (removed_positions_bound orig names) as Hpb. fold p in Hpb. rewrite Forall_forall in Hpb.
  assert (Hqp' : incl q p).
  { intros i Hi. apply Hq' in Hi as [Hi HP]. unfold P in HP. destruct (in_dec str_dec (g i) names) as [Hin|]; [|discriminate].
    assert (K : In (g i) (map g p)).
    { rewrite Em. apply filter_In. split; [exact Hin|]. destruct (in_dec str_dec (g i) orig) as [_|Hn]; [reflexivity|].
      exfalso. apply Hn. rewrite <- Ev. apply in_map, Hi. }
    apply in_map_iff in K as (j & Ej & Hj). replace i with j; [exact Hj|]. apply Hinj; auto. }
  assert (Hlen : length q = length p) by (eapply forall2_len, Hqp).
  assert (Hndq : NoDup q) by (clear - Hnq; induction q as [|x q IHq]; constructor; inversion Hnq; subst; [intros Hin; match goal with K : ~ In _ _ |- _ => apply K end; apply in_or_app; left; exact Hin | apply IHq; assumption]).
  assert (Hndp : NoDup p) by (eapply NoDup_incl_NoDup; [exact Hndq | lia | exact Hqp']).
  assert (Hperm : Permutation q p) by (apply NoDup_Permutation_bis; [exact Hndq | lia | exact Hqp']).
  assert (Eq : q = p) by (apply (le_sum q p Hqp); apply sum_perm, Hperm).
  destruct (Hsort Eq) as [Hasc _]. rewrite Eq in *.
  assert (Ep : p = filter P v).
  { apply asc_ext; [exact Hasc | apply asc_filter, asc_seq|]. intros i. rewrite filter_In. apply Hq'. }
  unfold SameOrder. rewrite <- Em, Ep. transitivity (filter (fun c => if in_dec str_dec c names then true else false) (map g v)).
  - rewrite filter_map_comm. reflexivity.
  - rewrite Ev. reflexivity.
Qed.

(** The classes of an element are determined. *)
Lemma has_classes_fun m a b : HasClasses m a -> HasClasses m b -> a = b.
Proof.
  intros Ha Hb. destruct (class_cases _ _ Ha) as [(v & q & E & <-)|[E ->]], (class_cases _ _ Hb) as [(v' & q' & E' & <-)|[E' ->]].
  - congruence.
  - destruct E' as [E'|E']; rewrite E in E'; discriminate.
  - destruct E as [E|E]; rewrite E in E'; discriminate.
  - reflexivity.
Qed.

Lemma retain_keep {A} p : forall (v f : list A) i, retain_loop v p i = Ok f -> incl f v.
Proof.
  induction p as [|x p IH]; intros v f i H; cbn in H; [injection H as <-; apply incl_refl|].
  destruct (rsub x i) as [k| |]; cbn in H; try discriminate.
  destruct (vec_remove v k) as [v'| |] eqn:Ev; cbn in H; try discriminate.
  destruct (vec_remove_split _ _ _ Ev) as (a & y & b & -> & -> & _).
  apply IH in H. intros z Hz. apply H, in_app_or in Hz. apply in_or_app. cbn. tauto.
Qed.

Lemma same_order_disjoint orig names : (forall n, In n names -> ~ In n orig) -> SameOrder orig names.
Proof.
  intros H. unfold SameOrder. transitivity (@nil str).
  - clear - H. induction names as [|n names IH]; cbn; [reflexivity|].
    destruct (in_dec str_dec n orig) as [Hin|_]; [destruct (H n (or_introl eq_refl) Hin)|].
    apply IH. intros m Hm. apply H. right. exact Hm.
  - symmetry. assert (K : forall l, incl l orig -> filter (fun c => if in_dec str_dec c names then true else false) l = []).
    { induction l as [|c l IH]; intros Hi; cbn; [reflexivity|].
      destruct (in_dec str_dec c names) as [Hin|_]; [destruct (H c Hin); apply Hi; left; reflexivity|].
      apply IH. intros d Hd. apply Hi. right. exact Hd. }
    apply K, incl_refl.
Qed.

Lemma remove_class_conv o m arg names old m' :
  MetaOk m -> AsciiSpaced arg -> Words arg names -> HasClasses m old -> NoDup old -> NoMix [] old ->
  remove_class o m arg = Ok m' ->
  HasClasses m' (filter (fun c => if in_dec str_dec c names then false else true) old) ->
  SameOrder old names.
Proof.
  intros Hm Ha Hw Hold Hnd Hmix H Hc. unfold remove_class in H.
  pose proof (words_trim _ _ Ha Hw) as Hwt.
  destruct (trim arg) as [|c0 t0] eqn:Et.
  - assert (names = []) by (eapply trim_empty_words; eassumption). subst names.
    apply same_order_disjoint. intros ? [].
  - rewrite (get_class_list_words _ _ Hwt) in H.
    destruct (class_cases _ _ Hold) as [(v & q & E & Ev)|[E ->]]; [|apply same_order_disjoint; intros ? _ []].
    rewrite E in H. cbn [rbind] in H. rewrite Ev in H.
    destruct (removed_positions old names) as [|i0 is0] eqn:Er; [apply same_order_disjoint, removed_nil, Er|].
    rewrite <- Er in H. destruct (retain_by_index old (removed_positions old names)) as [l| |] eqn:El; cbn [rbind] in H; try discriminate.
    assert (Hincl : incl l old) by (eapply retain_keep, El).
    assert (Hall : Forall Word l).
    { assert (Ho : Forall Word old) by (rewrite <- Ev; eapply words_forall, get_class_list_spec).
      rewrite Forall_forall in Ho |- *. intros c Hc'. apply Ho, Hincl, Hc'. }
    pose proof (class_list_to_string_words _ Hall) as Hws.
    destruct (set_class o m _ _ Hm Hws) as (m2 & E' & Hm' & Hc' & Ho').
    { eapply nomix_words; [exact Hws | | exact Hmix]. exact Hincl. }
    rewrite H in E'. injection E' as ->. apply remove_spec_conv; [exact Hnd|]. rewrite El. f_equal.
    eapply has_classes_fun; [left; exact Hc' | exact Hc].
Qed.

Lemma toggle_class_conv o m arg names old m' :
  MetaOk m -> AsciiSpaced arg -> Words arg names -> HasClasses m old -> NoDup old -> NoMix names old ->
  toggle_class o m arg = Ok m' ->
  HasClasses m' (filter (fun c => if in_dec str_dec c names then false else true) old ++
                 filter (fun c => if in_dec str_dec c old then false else true) names) ->
  SameOrder old names.
Proof.
  intros Hm Ha Hw Hold Hnd Hmix H Hc. unfold toggle_class in H.
  pose proof (words_trim _ _ Ha Hw) as Hwt.
  destruct (trim arg) as [|c0 t0] eqn:Et.
  - assert (names = []) by (eapply trim_empty_words; eassumption). subst names.
    apply same_order_disjoint. intros ? [].
  - rewrite (get_class_list_words _ _ Hwt) in H.
    destruct (class_cases _ _ Hold) as [(v & q & E & Ev)|[E ->]]; [|apply same_order_disjoint; intros ? _ []].
    rewrite E in H. cbn [rbind] in H. rewrite Ev in H.
    assert (Eadd : filter (fun n => negb (match position n old with Some _ => true | None => false end)) names =
                   filter (fun c => if in_dec str_dec c old then false else true) names).
    { apply filter_ext. intros c. pose proof (position_none c old) as Hp.
      destruct (position c old) eqn:Ep, (in_dec str_dec c old) as [Hin|Hn]; try reflexivity.
      - apply Hp in Hn. discriminate.
      - exfalso. apply Hp; [reflexivity | exact Hin]. }
    rewrite Eadd in H. set (added := filter _ names) in *.
    destruct (removed_positions old names) as [|i0 is0] eqn:Er; [apply same_order_disjoint, removed_nil, Er|].
    rewrite <- Er in H. destruct (retain_by_index old (removed_positions old names)) as [l| |] eqn:El; cbn [rbind] in H; try discriminate.
    assert (H' : set_attribute o m ATTR_CLASS (Some (class_list_to_string (l ++ added))) = Ok m').
    { exact H. }
    clear H. assert (Hincl : incl l old) by (eapply retain_keep, El).
    assert (Hincl' : incl (l ++ added) (names ++ old)).
    { intros c Hc'. apply in_or_app. apply in_app_or in Hc' as [Hc'|Hc']; [right; apply Hincl, Hc'|].
      apply filter_In in Hc'. tauto. }
    assert (Hall : Forall Word (l ++ added)).
    { assert (Ho : Forall Word old) by (rewrite <- Ev; eapply words_forall, get_class_list_spec).
      apply words_forall in Hw. rewrite Forall_forall in Ho, Hw |- *. intros c Hc'.
      apply Hincl', in_app_or in Hc' as [Hc'|Hc']; [apply Hw, Hc' | apply Ho, Hc']. }
    pose proof (class_list_to_string_words _ Hall) as Hws.
    destruct (set_class o m _ _ Hm Hws) as (m2 & E' & Hm' & Hc' & Ho').
    { eapply nomix_words; [exact Hws | exact Hincl' | exact Hmix]. }
    rewrite H' in E'. injection E' as ->. apply remove_spec_conv; [exact Hnd|]. rewrite El. f_equal.
    eapply app_inv_tail. eapply has_classes_fun; [left; exact Hc' | exact Hc].
Qed.
