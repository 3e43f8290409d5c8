From Verif Require Import Base Utils Nth NthSpec.
From Coq Require Import ZifyBool ZifyNat.
Open Scope Z_scope.

Lemma divide_floor a b :
  0 < b -> divide_isize a b Floor = if (a <? 0) && (- b <? a) then 0 else a / b.
Proof.
  intros Hb. unfold divide_isize.
  destruct (Z_lt_le_dec a 0) as [Ha|Ha].
  - assert (Hq : Z.quot a b = - ((- a) / b)).
    { rewrite <- (Z.opp_involutive a) at 1. rewrite Z.quot_opp_l by lia.
      rewrite Z.quot_div_nonneg by lia. reflexivity. }
    assert (Hr : Z.rem a b = - ((- a) mod b)).
    { rewrite <- (Z.opp_involutive a) at 1. rewrite Z.rem_opp_l by lia.
      rewrite Z.rem_mod_nonneg by lia. reflexivity. }
    rewrite Hq, Hr.
    pose proof (Z.div_mod (- a) b ltac:(lia)) as Hdm.
    pose proof (Z.mod_pos_bound (- a) b Hb) as Hmb.
    pose proof (Z.div_mod a b ltac:(lia)) as Hdm'.
    pose proof (Z.mod_pos_bound a b Hb) as Hmb'.
    set (q := (- a) / b) in *. set (r := (- a) mod b) in *.
    set (q' := a / b) in *. set (r' := a mod b) in *.
    destruct (a <? 0) eqn:E1; [|lia]. cbn [andb].
    destruct (- b <? a) eqn:E2.
    + assert (q = 0) by nia. destruct (- q <? 0) eqn:E3; cbn [andb]; lia.
    + assert (1 <= q) by nia. destruct (- q <? 0) eqn:E3; [|lia]. cbn [andb].
      destruct (- r =? 0) eqn:E4; cbn [negb].
      * assert (q' = - q) by nia. lia.
      * assert (q' = - q - 1) by nia. lia.
  - rewrite Z.quot_div_nonneg, Z.rem_mod_nonneg by lia.
    pose proof (Z.div_pos a b Ha Hb).
    destruct (a <? 0) eqn:E1; [lia|]. cbn [andb].
    destruct (a / b <? 0) eqn:E2; [lia|]. reflexivity.
Qed.

Lemma divide_ceil a b :
  0 < b -> divide_isize a b Ceil = if (0 <? a) && (a <? b) then 0 else - ((- a) / b).
Proof.
  intros Hb. unfold divide_isize.
  destruct (Z_lt_le_dec a 0) as [Ha|Ha].
  - assert (Hq : Z.quot a b = - ((- a) / b)).
    { rewrite <- (Z.opp_involutive a) at 1. rewrite Z.quot_opp_l by lia.
      rewrite Z.quot_div_nonneg by lia. reflexivity. }
    rewrite Hq. pose proof (Z.div_pos (- a) b ltac:(lia) Hb).
    destruct (0 <? a) eqn:E1; [lia|]. cbn [andb].
    destruct (0 <? - (- a / b)) eqn:E2; [lia|]. reflexivity.
  - rewrite Z.quot_div_nonneg, Z.rem_mod_nonneg by lia.
    pose proof (Z.div_mod (- a) b ltac:(lia)) as Hdm.
    pose proof (Z.mod_pos_bound (- a) b Hb) as Hmb.
    pose proof (Z.div_mod a b ltac:(lia)) as Hdm'.
    pose proof (Z.mod_pos_bound a b Hb) as Hmb'.
    set (q := (- a) / b) in *. set (r := (- a) mod b) in *.
    set (q' := a / b) in *. set (r' := a mod b) in *.
    destruct (0 <? q') eqn:E1; cbn [andb].
    + destruct (0 <? a) eqn:E2; cbn [andb]; [|nia].
      destruct (a <? b) eqn:E3; [nia|].
      destruct (r' =? 0) eqn:E4; cbn [negb]; nia.
    + destruct (0 <? a) eqn:E2; cbn [andb].
      * destruct (a <? b) eqn:E3; nia.
      * assert (Ha0 : a = 0) by lia. unfold q, q'. rewrite Ha0, Z.opp_0, Z.div_0_l by lia. reflexivity.
Qed.

(** ** The loop *)

Lemma chk_ok z : - 2 ^ 63 <= z <= 2 ^ 63 - 1 -> chk z = Ok z.
Proof.
  intros H. unfold chk, isize_min, isize_max.
  destruct (- 2 ^ 63 <=? z) eqn:E1; [|lia].
  destruct (z <=? 2 ^ 63 - 1) eqn:E2; [|lia]. reflexivity.
Qed.

(** What one iteration contributes. *)
Definition contrib (n index i : Z) : list Z :=
  let c := as_usize (i * n + index) in if c <? 1 then [] else [c - 1].

Lemma nth_loop_acc n index is acc :
  (forall i, In i is -> chk (i * n) = Ok (i * n) /\ chk (i * n + index) = Ok (i * n + index)) ->
  rfold (fun acc i =>
           do p <- chk (i * n);
           do q <- chk (p + index);
           let cur_index := as_usize q in
           Ok (if cur_index <? 1 then acc else acc ++ [cur_index - 1])) is acc
  = Ok (acc ++ flat_map (contrib n index) is).
Proof.
  revert acc; induction is as [|i is IH]; intros acc H; cbn [rfold flat_map].
  - rewrite app_nil_r. reflexivity.
  - destruct (H i (or_introl eq_refl)) as [H1 H2]. rewrite H1. cbn [rbind]. rewrite H2. cbn [rbind].
    rewrite IH by (intros j Hj; apply H; right; exact Hj).
    unfold contrib at 2. cbv zeta. destruct (as_usize (i * n + index) <? 1).
    + reflexivity.
    + rewrite <- app_assoc. reflexivity.
Qed.

Lemma in_zrange s e x : In x (zrange s e) <-> s <= x <= e.
Proof.
  unfold zrange. rewrite in_map_iff. split.
  - intros (k & <- & Hk). apply in_seq in Hk. lia.
  - intros H. exists (Z.to_nat (x - s)). split; [lia|]. apply in_seq. lia.
Qed.

Lemma zrange_cons s e : s <= e -> zrange s e = s :: zrange (s + 1) e.
Proof.
  intros H. unfold zrange.
  replace (Z.to_nat (e - s + 1)) with (S (Z.to_nat (e - (s + 1) + 1))) by lia.
  cbn [seq map]. f_equal; [lia|]. rewrite <- seq_shift, map_map.
  apply map_ext. intros k. lia.
Qed.

(** Sorting of the produced list when all values are in range. *)
Lemma ZIncr_cons x l : ZIncr l -> Forall (fun y => x < y) l -> ZIncr (x :: l).
Proof.
  intros Hl Hf. cbn. split; [|exact Hl]. destruct l as [|y l]; [exact I|].
  inversion Hf; assumption.
Qed.

Lemma ZIncr_forall x l : ZIncr (x :: l) -> Forall (fun y => x < y) l.
Proof.
  revert x; induction l as [|y l IH]; intros x H; [constructor|].
  destruct H as [Hxy Hl]. constructor; [exact Hxy|].
  eapply Forall_impl; [|apply IH, Hl]. cbn. intros; lia.
Qed.

Lemma ZIncr_app l1 l2 :
  ZIncr l1 -> ZIncr l2 -> (forall x y, In x l1 -> In y l2 -> x < y) -> ZIncr (l1 ++ l2).
Proof.
  induction l1 as [|x l1 IH]; intros H1 H2 H; [exact H2|].
  cbn [app]. pose proof (ZIncr_forall _ _ H1) as Hf.
  apply ZIncr_cons.
  - apply IH; [exact (proj2 H1) | exact H2 |].
    intros a b Ha Hb. apply H; [right; exact Ha | exact Hb].
  - apply Forall_app; split; [exact Hf|]. apply Forall_forall. intros y Hy. apply H; [left; reflexivity | exact Hy].
Qed.

Lemma contrib_ok n index i :
  1 <= i * n + index <= 2 ^ 63 -> contrib n index i = [i * n + index - 1].
Proof.
  intros H. unfold contrib, as_usize. cbv zeta.
  rewrite Z.mod_small by lia. destruct (_ <? 1) eqn:E; [lia|]. reflexivity.
Qed.

Lemma flat_map_contrib n index is :
  (forall i, In i is -> 1 <= i * n + index <= 2 ^ 63) ->
  flat_map (contrib n index) is = map (fun i => i * n + index - 1) is.
Proof.
  induction is as [|i is IH]; intros H; [reflexivity|].
  cbn [flat_map map]. rewrite contrib_ok by (apply H; left; reflexivity).
  rewrite IH by (intros j Hj; apply H; right; exact Hj). reflexivity.
Qed.

Lemma zrange_map_incr n index s e :
  0 < n -> ZIncr (map (fun i => i * n + index - 1) (zrange s e)).
Proof.
  intros Hn. unfold zrange. rewrite map_map. generalize (Z.to_nat (e - s + 1)) as len. intros len.
  assert (H : forall len st, ZIncr (map (fun x => (s + Z.of_nat x) * n + index - 1) (seq st len)) /\
                       Forall (fun y => (s + Z.of_nat st) * n + index - 1 <= y)
                              (map (fun x => (s + Z.of_nat x) * n + index - 1) (seq st len))).
  { clear len. induction len as [|len IH]; intros st; cbn [seq map].
    - split; [exact I | constructor].
    - destruct (IH (S st)) as [IH1 IH2]. split.
      + apply ZIncr_cons; [exact IH1|]. eapply Forall_impl; [|exact IH2]. cbn. intros y Hy. nia.
      + constructor; [lia|]. eapply Forall_impl; [|exact IH2]. cbn. intros y Hy. nia. }
  apply H.
Qed.

Lemma zrange_map_decr n index s e :
  n < 0 -> ZIncr (rev (map (fun i => i * n + index - 1) (zrange s e))).
Proof.
  intros Hn. unfold zrange. rewrite map_map. generalize (Z.to_nat (e - s + 1)) as len. intros len.
  assert (H : forall len st, ZIncr (rev (map (fun x => (s + Z.of_nat x) * n + index - 1) (seq st len))) /\
                       Forall (fun y => y <= (s + Z.of_nat st) * n + index - 1)
                              (map (fun x => (s + Z.of_nat x) * n + index - 1) (seq st len))).
  { clear len. induction len as [|len IH]; intros st; cbn [seq map rev].
    - split; [exact I | constructor].
    - destruct (IH (S st)) as [IH1 IH2]. split.
      + apply ZIncr_app; [exact IH1 | cbn; tauto |].
        intros x y Hx [<-|[]]. rewrite <- in_rev in Hx. rewrite Forall_forall in IH2.
        specialize (IH2 _ Hx). nia.
      + constructor; [lia|]. eapply Forall_impl; [|exact IH2]. cbn. intros y Hy. nia. }
  apply H.
Qed.

(** ** Positive step *)

Lemma allowed_pos a b total :
  NthSmall a b total -> 0 < a -> NthSafe a b total ->
  exists l, allowed_with_n a b total = Ok l /\ ZIncr l /\
            forall x, In x l <-> NthPos a b total (x + 1).
Proof.
  intros (Ha & Hb & Ht) Hpos (S1 & S2 & _).
  unfold allowed_with_n.
  destruct (a =? 0) eqn:E0; [lia|]. destruct (a <? 0) eqn:E1; [lia|].
  rewrite (chk_ok (1 - b)) by lia. cbn [rbind]. rewrite (chk_ok (total - b)) by lia. cbn [rbind].
  rewrite divide_ceil, divide_floor by lia.
  destruct ((total - b <? 0) && (- a <? total - b)) eqn:E2.
  { exfalso. apply S2. lia. }
  set (s := if (0 <? 1 - b) && (1 - b <? a) then 0 else - (- (1 - b) / a)).
  set (e := (total - b) / a).
  assert (He : forall k, k <= e <-> a * k + b <= total).
  { intros k. pose proof (Z.div_mod (total - b) a ltac:(lia)). pose proof (Z.mod_pos_bound (total - b) a Hpos).
    fold e in H. split; intros; nia. }
  assert (Hs : (forall k, 0 <= k -> s <= k <-> 1 <= a * k + b) \/
               (b = 0 /\ s = 0)).
  { subst s. destruct ((0 <? 1 - b) && (1 - b <? a)) eqn:E3.
    - right. split; [|reflexivity]. assert (~ b < 0) by (intros ?; apply S1; lia). lia.
    - left. intros k Hk.
      pose proof (Z.div_mod (- (1 - b)) a ltac:(lia)). pose proof (Z.mod_pos_bound (- (1 - b)) a Hpos).
      set (q := - (1 - b) / a) in *. split; intros; nia. }
  set (s' := if s <? 0 then 0 else s).
  assert (Hs' : 0 <= s' /\ ((forall k, 0 <= k -> s' <= k <-> 1 <= a * k + b) \/ (b = 0 /\ s' = 0))).
  { subst s'. destruct Hs as [Hs|[-> Hs]].
    - destruct (s <? 0) eqn:E3; (split; [lia|]); left; intros k Hk; specialize (Hs k Hk); lia.
    - rewrite Hs. cbn. split; [lia|]. right. split; reflexivity. }
  clearbody s'. clear Hs. destruct Hs' as [Hs0 Hs].
  clearbody s. clear s. rename s' into s.
  destruct (e <? s) eqn:E4.
  - exists []. split; [reflexivity|]. split; [exact I|]. intros x. split; [intros []|].
    intros [Hx (k & Hk & E)]. destruct Hs as [Hs|[-> ->]].
    + specialize (Hs k Hk). specialize (He k). lia.
    + specialize (He k). lia.
  - assert (Hbound : forall i, s <= i <= e -> 0 <= i /\ a * i + b <= total).
    { intros i Hi. split; [lia|]. apply He. lia. }
    unfold nth_loop. rewrite nth_loop_acc.
    2:{ intros i Hi. apply in_zrange in Hi. destruct (Hbound i Hi).
        assert (Hia : - 2 ^ 62 <= i * a <= 0 \/ 0 <= i * a <= total - b) by nia.
        split; apply chk_ok; lia. }
    cbn [rbind app].
    destruct Hs as [Hs|[Hb0 Hs]].
    + rewrite flat_map_contrib.
      2:{ intros i Hi. apply in_zrange in Hi. destruct (Hbound i Hi).
          assert (1 <= a * i + b) by (apply Hs; lia). lia. }
      eexists. split; [reflexivity|]. split; [apply zrange_map_incr; exact Hpos|].
      intros x. rewrite in_map_iff. split.
      * intros (i & <- & Hi). apply in_zrange in Hi. destruct (Hbound i Hi).
        assert (1 <= a * i + b) by (apply Hs; lia). split; [lia|]. exists i. lia.
      * intros [Hx (k & Hk & E)]. exists k. split; [lia|]. apply in_zrange.
        split; [apply Hs; lia | apply He; lia].
    + (* b = 0: the k = 0 iteration gives position 0 and is skipped *)
      subst b s. rewrite zrange_cons by lia. cbn [flat_map].
      assert (E : contrib a 0 0 = []) by reflexivity. rewrite E. cbn [app].
      rewrite flat_map_contrib.
      2:{ intros i Hi. apply in_zrange in Hi. destruct (Hbound i ltac:(lia)). nia. }
      eexists. split; [reflexivity|]. split; [apply zrange_map_incr; exact Hpos|].
      intros x. rewrite in_map_iff. split.
      * intros (i & <- & Hi). apply in_zrange in Hi. destruct (Hbound i ltac:(lia)).
        split; [nia|]. exists i. lia.
      * intros [Hx (k & Hk & E')]. exists k. split; [lia|]. apply in_zrange.
        split; [nia | apply He; lia].
Qed.

(** ** Negative step *)

Lemma allowed_neg a b total :
  NthSmall a b total -> a < 0 -> NthSafe a b total ->
  exists l, allowed_with_n a b total = Ok l /\ ZIncr l /\
            forall x, In x l <-> NthPos a b total (x + 1).
Proof.
  intros (Ha & Hb & Ht) Hneg (_ & _ & S3).
  unfold allowed_with_n.
  destruct (a =? 0) eqn:E0; [lia|]. destruct (a <? 0) eqn:E1; [|lia].
  destruct (b <=? 0) eqn:E2.
  { exists []. split; [reflexivity|]. split; [exact I|]. intros x. split; [intros []|].
    intros [Hx (k & Hk & E)]. nia. }
  rewrite (chk_ok (- a)) by lia. cbn [rbind].
  destruct (b <=? - a) eqn:E3.
  { destruct (b <=? total) eqn:E4.
    - exists [b - 1]. split; [reflexivity|]. split; [cbn; tauto|]. intros x. split.
      + intros [<-|[]]. split; [lia|]. exists 0. lia.
      + intros [Hx (k & Hk & E)]. left. assert (k = 0) by nia. subst k. lia.
    - exists []. split; [reflexivity|]. split; [exact I|]. intros x. split; [intros []|].
      intros [Hx (k & Hk & E)]. assert (k = 0) by nia. subst k. lia. }
  rewrite (chk_ok (b - total)) by lia. cbn [rbind]. rewrite (chk_ok (b - 1)) by lia. cbn [rbind].
  rewrite divide_ceil, divide_floor by lia.
  set (m := - a) in *. assert (Hm : 0 < m) by lia.
  destruct ((0 <? b - total) && (b - total <? m)) eqn:E4.
  { exfalso. apply S3. lia. }
  destruct ((b - 1 <? 0) && (- m <? b - 1)) eqn:E5; [lia|].
  set (s := - (- (b - total) / m)). set (e := (b - 1) / m).
  assert (He : forall k, k <= e <-> 1 <= a * k + b).
  { intros k. pose proof (Z.div_mod (b - 1) m ltac:(lia)). pose proof (Z.mod_pos_bound (b - 1) m Hm).
    fold e in H. split; intros; nia. }
  assert (Hs : forall k, s <= k <-> a * k + b <= total).
  { intros k. pose proof (Z.div_mod (- (b - total)) m ltac:(lia)).
    pose proof (Z.mod_pos_bound (- (b - total)) m Hm). unfold s.
    set (q := - (b - total) / m) in *. split; intros; nia. }
  set (s' := if s <? 0 then 0 else s).
  assert (Hs' : 0 <= s' /\ forall k, 0 <= k -> s' <= k <-> a * k + b <= total).
  { subst s'. destruct (s <? 0) eqn:E6; (split; [lia|]); intros k Hk; specialize (Hs k); lia. }
  clearbody s'. clear Hs. destruct Hs' as [Hs0 Hs]. clearbody s. clear s. rename s' into s.
  destruct (e <? s) eqn:E6.
  - exists []. split; [reflexivity|]. split; [exact I|]. intros x. split; [intros []|].
    intros [Hx (k & Hk & E)]. specialize (Hs k Hk). specialize (He k). lia.
  - assert (Hbound : forall i, s <= i <= e -> 0 <= i /\ 1 <= a * i + b <= total).
    { intros i Hi. split; [lia|]. split; [apply He; lia | apply Hs; lia]. }
    unfold nth_loop. rewrite nth_loop_acc.
    2:{ intros i Hi. apply in_zrange in Hi. destruct (Hbound i Hi).
        assert (Hia : - 2 ^ 62 <= i * a <= 0 \/ 0 <= i * a <= total - b) by nia.
        split; apply chk_ok; lia. }
    cbn [rbind app]. rewrite flat_map_contrib.
    2:{ intros i Hi. apply in_zrange in Hi. destruct (Hbound i Hi). lia. }
    eexists. split; [reflexivity|]. split; [apply zrange_map_decr; exact Hneg|].
    intros x. rewrite <- in_rev, in_map_iff. split.
    + intros (i & <- & Hi). apply in_zrange in Hi. destruct (Hbound i Hi). split; [lia|]. exists i. lia.
    + intros [Hx (k & Hk & E)]. exists k. split; [lia|]. apply in_zrange.
      split; [apply Hs; lia | apply He; lia].
Qed.

Lemma chk_readable z : Readable z -> chk z = Ok z.
Proof.
  unfold Readable, chk, isize_min, isize_max. intros H. destruct (Z.leb_spec (- 2 ^ 63) z), (Z.leb_spec z (2 ^ 63 - 1)); cbn [andb]; try reflexivity; lia.
Qed.
Lemma small_readable a b t : NthSmall a b t -> Readable a /\ Readable b.
Proof. unfold NthSmall, Readable. lia. Qed.
Lemma allowed_correct (f : nth_formula) (total : nat) :
  NthSmall (formula_step f) (snd f) (Z.of_nat total) ->
  NthSafe (formula_step f) (snd f) (Z.of_nat total) ->
  exists l, get_allowed_indexs f total = Ok l /\ ZIncr l /\
            forall x, In x l <-> NthPos (formula_step f) (snd f) (Z.of_nat total) (x + 1).
Proof.
  destruct f as [[a|] b]; unfold formula_step, get_allowed_indexs; cbn [fst snd]; intros Hsm Hsafe;
    destruct (small_readable _ _ _ Hsm) as [Ra Rb]; rewrite ?(chk_readable _ Ra), (chk_readable _ Rb); cbn [rbind].
  - destruct (Z.lt_trichotomy a 0) as [H|[->|H]].
    + apply allowed_neg; assumption.
    + unfold allowed_with_n. cbn [Z.eqb].
      destruct (0 <? b) eqn:E1; [destruct (b <=? Z.of_nat total) eqn:E2|].
      * eexists; split; [reflexivity|]. split; [cbn; tauto|]. intros x. split.
        -- intros [<-|[]]. split; [lia|]. exists 0. lia.
        -- intros [Hx (k & Hk & E)]. left. lia.
      * eexists; split; [reflexivity|]. split; [exact I|]. intros x. split; [intros []|].
        intros [Hx (k & Hk & E)]. lia.
      * eexists; split; [reflexivity|]. split; [exact I|]. intros x. split; [intros []|].
        intros [Hx (k & Hk & E)]. lia.
    + apply allowed_pos; assumption.
  - unfold allowed_only_index. destruct ((b <=? 0) || (Z.of_nat total <? b)) eqn:E1.
    + eexists; split; [reflexivity|]. split; [exact I|]. intros x. split; [intros []|].
      intros [Hx (k & Hk & E)]. lia.
    + eexists; split; [reflexivity|]. split; [cbn; tauto|]. intros x. split.
      * intros [<-|[]]. split; [lia|]. exists 0. lia.
      * intros [Hx (k & Hk & E)]. left. lia.
Qed.

(** ** The unsafe regimes always produce a position outside 1..total. *)

Lemma contrib_any n index i :
  as_usize (i * n + index) <> 0 -> In (as_usize (i * n + index) - 1) (contrib n index i).
Proof.
  intros H. unfold contrib. cbv zeta.
  assert (0 <= as_usize (i * n + index)) by (apply Z.mod_pos_bound; lia).
  destruct (_ <? 1) eqn:E; [lia|]. left. reflexivity.
Qed.

Lemma allowed_unsafe a b total :
  NthSmall a b total -> ~ NthSafe a b total ->
  exists l x, allowed_with_n a b total = Ok l /\ In x l /\ total <= x.
Proof.
  intros (Ha & Hb & Ht) Hu.
  assert (H : (0 < a /\ 1 - a < b /\ b < 0) \/ (0 < a /\ total < b /\ b < total + a) \/
              (a < 0 /\ - a < b /\ total < b /\ b < total - a)).
  { unfold NthSafe in Hu. lia. }
  clear Hu. unfold allowed_with_n.
  destruct H as [(H1 & H2 & H3)|[(H1 & H2 & H3)|(H1 & H2 & H3 & H4)]].
  - destruct (a =? 0) eqn:E0; [lia|]. destruct (a <? 0) eqn:E1; [lia|].
    rewrite (chk_ok (1 - b)) by lia. cbn [rbind]. rewrite (chk_ok (total - b)) by lia. cbn [rbind].
    rewrite divide_ceil, divide_floor by lia.
    destruct ((0 <? 1 - b) && (1 - b <? a)) eqn:E2; [|lia].
    destruct ((total - b <? 0) && (- a <? total - b)) eqn:E3; [lia|].
    set (e := (total - b) / a). cbn [Z.ltb Z.compare].
    assert (He : 0 <= e) by (apply Z.div_pos; lia).
    assert (Heb : a * e <= total - b) by (pose proof (Z.mul_div_le (total - b) a); lia).
    destruct (e <? 0) eqn:E4; [lia|].
    unfold nth_loop. rewrite nth_loop_acc.
    2:{ intros i Hi. apply in_zrange in Hi.
        assert (Hia : - 2 ^ 62 <= i * a <= 0 \/ 0 <= i * a <= total - b) by nia.
        split; apply chk_ok; lia. }
    cbn [rbind app]. rewrite zrange_cons by lia. cbn [flat_map].
    assert (Hu : as_usize (0 * a + b) = b + 2 ^ 64).
    { unfold as_usize. rewrite Z.mul_0_l, Z.add_0_l. symmetry. apply Z.mod_unique with (q := -1); lia. }
    eexists. exists (b + 2 ^ 64 - 1). split; [reflexivity|]. split; [|lia].
    apply in_or_app. left. rewrite <- Hu. apply contrib_any. rewrite Hu. lia.
  - destruct (a =? 0) eqn:E0; [lia|]. destruct (a <? 0) eqn:E1; [lia|].
    rewrite (chk_ok (1 - b)) by lia. cbn [rbind]. rewrite (chk_ok (total - b)) by lia. cbn [rbind].
    rewrite divide_ceil, divide_floor by lia.
    destruct ((0 <? 1 - b) && (1 - b <? a)) eqn:E2; [lia|].
    destruct ((total - b <? 0) && (- a <? total - b)) eqn:E3; [|lia].
    set (s := - (- (1 - b) / a)).
    assert (Hs : s <= 0).
    { unfold s. assert (0 <= - (1 - b) / a) by (apply Z.div_pos; lia). lia. }
    assert (Hs' : (if s <? 0 then 0 else s) = 0) by (destruct (s <? 0) eqn:?; lia).
    rewrite Hs'. cbn [Z.ltb Z.compare].
    unfold nth_loop. rewrite nth_loop_acc.
    2:{ intros i Hi. apply in_zrange in Hi.
        assert (Hia : - 2 ^ 62 <= i * a <= 0 \/ 0 <= i * a <= total - b) by nia.
        split; apply chk_ok; lia. }
    cbn [rbind app]. rewrite zrange_cons by lia. cbn [flat_map].
    rewrite contrib_ok by lia.
    eexists. exists (b - 1). split; [reflexivity|]. split; [left; lia | lia].
  - destruct (a =? 0) eqn:E0; [lia|]. destruct (a <? 0) eqn:E1; [|lia].
    destruct (b <=? 0) eqn:E2; [lia|].
    rewrite (chk_ok (- a)) by lia. cbn [rbind].
    destruct (b <=? - a) eqn:E3; [lia|].
    rewrite (chk_ok (b - total)) by lia. cbn [rbind]. rewrite (chk_ok (b - 1)) by lia. cbn [rbind].
    rewrite divide_ceil, divide_floor by lia.
    destruct ((0 <? b - total) && (b - total <? - a)) eqn:E4; [|lia].
    destruct ((b - 1 <? 0) && (- - a <? b - 1)) eqn:E5; [lia|].
    set (e := (b - 1) / - a). cbn [Z.ltb Z.compare].
    assert (He : 0 <= e) by (apply Z.div_pos; lia).
    assert (Heb : - a * e <= b - 1) by (pose proof (Z.mul_div_le (b - 1) (- a)); lia).
    destruct (e <? 0) eqn:E6; [lia|].
    unfold nth_loop. rewrite nth_loop_acc.
    2:{ intros i Hi. apply in_zrange in Hi.
        assert (Hia : - 2 ^ 62 <= i * a <= 0 \/ 0 <= i * a <= total - b) by nia.
        split; apply chk_ok; lia. }
    cbn [rbind app]. rewrite zrange_cons by lia. cbn [flat_map].
    rewrite contrib_ok by lia.
    eexists. exists (b - 1). split; [reflexivity|]. split; [|lia].
    rewrite <- in_rev. left. lia.
Qed.
Close Scope Z_scope.
