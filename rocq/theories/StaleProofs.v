(** Proofs about the mutations of nodes that were removed before. *)
From Verif Require Import Base Utils UtilsSpec UtilsProofs Attr Dom DomSpec Order DomProofs Sets SetsProofs
  ClassProofs Mutate MutateSpec MutateProofs InsertProofs HistoryProofs StaleSpec.

(** * Removal *)
Lemma occupant_some h x z : In z (occupant h x) <-> exists p, parent h x = Some p /\ Listed h p (index h x) z.
Proof.
  unfold occupant, Listed. destruct (parent h x) as [p|]; [|split; [intros [] | intros (p & E & _); discriminate]].
  destruct (nth_error (kids h p) (index h x)) as [y|] eqn:E; cbn; split.
  - intros [<- | []]. exists p. split; [reflexivity | exact E].
  - intros (q & Eq & Hq). injection Eq as <-. left. congruence.
  - intros [].
  - intros (q & Eq & Hq). injection Eq as <-. congruence.
Qed.
(** A listed node is its own occupant. *)
Lemma occupant_self h x : WF h -> Attached h x -> occupant h x = [x].
Proof.
  intros wf (p & i & Hl). unfold occupant. rewrite (listed_parent h wf _ _ _ Hl), (listed_index h wf _ _ _ Hl).
  unfold Listed in Hl. rewrite Hl. reflexivity.
Qed.
Lemma occupant_cases h x : exists z, occupant h x = [z] \/ occupant h x = [].
Proof.
  unfold occupant. destruct (parent h x) as [p|]; [|exists 0; right; reflexivity].
  destruct (nth_error (kids h p) (index h x)) as [z|]; [exists z; left; reflexivity | exists 0; right; reflexivity].
Qed.
Lemma placed_not_dangling h x : WF h -> Placed h x -> ~ Dangling h x.
Proof.
  intros wf [_ [Hn | (p & i & Hl)]] (q & cs & Ep & Ec & Hle); [congruence|].
  pose proof (listed_parent h wf _ _ _ Hl) as E. assert (q = p) by congruence. subst q.
  rewrite (listed_index h wf _ _ _ Hl) in Hle. unfold Listed in Hl. rewrite (kids_some _ _ _ Ec) in Hl.
  assert (nth_error cs i <> None) by congruence. apply nth_error_Some in H. lia.
Qed.

Lemma takenout_all_one h h' z : TakenOut h h' z <-> TakenOutAll h h' [z].
Proof.
  unfold TakenOut, TakenOutAll. split; intros (A & B & C); (split; [exact A|]; split; [|exact C]); intros q; rewrite B;
    [rewrite without_all_cons, without_all_nil | rewrite without_all_cons, without_all_nil]; reflexivity.
Qed.
Lemma takenout_all_nil h : TakenOutAll h h [].
Proof. split; [apply same_nodes_refl|]. split; [|reflexivity]. intros q. symmetry. apply without_all_nil. Qed.
Lemma takenout_all_up h h1 d : TakenOutAll h h1 d -> forall a b, Up h1 a b <-> Up h a b.
Proof. intros (_ & _ & H) a b. split; apply up_same; [exact H | intros y; symmetry; apply H]. Qed.

(** What the removal of any node leaves. *)
Record Removed (h h' : heap) (x : id) : Prop := mkRem {
  rm_wf : WF h';
  rm_out : TakenOutAll h h' (occupant h x);
  rm_childs : forall q, childs h' q = None <-> childs h q = None;
  rm_unattached : ~ Attached h' x;
  rm_index : forall c p, parent h c = Some p -> ~ In c (without_all (occupant h x) (kids h p)) -> index h' c = index h c
}.
Lemma remove_any h x : WF h ->
  (~ Dangling h x -> exists h', remove_one h x = Ok h' /\ Removed h h' x) /\ (Dangling h x -> remove_one h x = Panic).
Proof.
  intros wf. split.
  - intros Hd.
    assert (G : occupant h x = [] -> remove_one h x = Ok h -> exists h', remove_one h x = Ok h' /\ Removed h h' x).
    { intros Eo Er. exists h. split; [exact Er|]. split; [exact wf | rewrite Eo; apply takenout_all_nil | tauto | | reflexivity].
      intros Ha. rewrite (occupant_self h x wf Ha) in Eo. discriminate. }
    unfold remove_one in *. destruct (parent h x) as [p|] eqn:Ep; [|apply G; [unfold occupant; rewrite Ep|]; reflexivity].
    destruct (childs h p) as [cs|] eqn:Ec.
    2: { apply G.
         - unfold occupant, kids. rewrite Ep, Ec. destruct (index h x); reflexivity.
         - unfold remove_child. rewrite Ep, Nat.eqb_refl, Ec. reflexivity. }
    clear G. destruct (nth_error cs (index h x)) as [z|] eqn:Ez.
    2: { exfalso. apply Hd. exists p, cs. split; [exact Ep|]. split; [exact Ec|]. apply nth_error_None. exact Ez. }
    assert (Hz : Listed h p (index h x) z) by (unfold Listed; rewrite (kids_some _ _ _ Ec); exact Ez).
    destruct (wf_listed h wf _ _ _ Hz) as (_ & Hp & Hi).
    assert (E' : remove_child h p x = remove_child h p z) by (unfold remove_child; rewrite Ep, Hp, Hi; reflexivity).
    destruct (remove_child_ok h p z wf (ex_intro (fun i => Listed h p i z) _ Hz)) as (h1 & E1 & T & I & C1 & C2 & X).
    assert (Eo : occupant h x = [z]) by (unfold occupant; rewrite Ep, (kids_some _ _ _ Ec), Ez; reflexivity).
    exists h1. split; [congruence|]. split.
    + exact (takenout_wf h h1 z wf T I).
    + rewrite Eo. apply takenout_all_one. exact T.
    + intros q. destruct (Nat.eq_dec q p) as [-> | Hq]; [split; congruence | rewrite (C2 q Hq); tauto].
    + intros Ha. assert (Hx : Attached h x).
      { destruct Ha as (q & Hc). exists q. apply child_in. apply child_in in Hc. rewrite (proj1 (proj2 T)) in Hc.
        apply without_in in Hc. tauto. }
      rewrite (occupant_self h x wf Hx) in Eo. injection Eo as <-. exact (takenout_unattached _ _ _ T Ha).
    + intros c q Eq Hc. apply X. intros Hin. apply Hc. rewrite Eo, without_all_cons, without_all_nil.
      assert (Hcp : Child h p c) by (apply child_in; apply without_in in Hin; tauto).
      rewrite (child_parent h wf _ _ Hcp) in Eq. injection Eq as <-. exact Hin.
  - intros (p & cs & Ep & Ec & Hle). unfold remove_one, remove_child. rewrite Ep, Nat.eqb_refl, Ec. cbv zeta.
    unfold rsub. destruct (1 <=? length cs); cbn [rbind]; [|reflexivity].
    unfold remove_at. replace (index h x <? length cs) with false by (symmetry; apply Nat.ltb_ge; exact Hle).
    destruct (Nat.eqb (index h x) (length cs - 1)); cbn [rbind]; [reflexivity|].
    destruct (S (index h x) <=? length cs); reflexivity.
Qed.
(** Removing a text node does the same as removing an element. *)
Lemma text_remove_any h x : WF h -> text_remove h x = remove_one h x.
Proof.
  intros wf. unfold remove_one. destruct (parent h x) as [p|] eqn:Ep; [|unfold text_remove; rewrite Ep; reflexivity].
  destruct (childs h p) as [cs|] eqn:Ec.
  2: { unfold text_remove, remove_child. rewrite Ep, Nat.eqb_refl, Ec. reflexivity. }
  destruct (nth_error cs (index h x)) as [z|] eqn:Ez.
  2: { apply nth_error_None in Ez. assert (Hd : Dangling h x) by (exists p, cs; tauto).
       pose proof (proj2 (remove_any h x wf) Hd) as E. unfold remove_one in E. rewrite Ep in E. rewrite E.
       unfold text_remove, remove_at. rewrite Ep, Ec. cbv zeta.
       replace (index h x <? length cs) with false by (symmetry; apply Nat.ltb_ge; exact Ez). reflexivity. }
  assert (Hz : Listed h p (index h x) z) by (unfold Listed; rewrite (kids_some _ _ _ Ec); exact Ez).
  destruct (wf_listed h wf _ _ _ Hz) as (_ & Hp & Hi).
  destruct (Nat.eq_dec x z) as [-> | Hne].
  { apply (text_remove_eq h p z wf). exists (index h z). exact Hz. }
  assert (Hx : ~ In x cs).
  { rewrite <- (kids_some _ _ _ Ec). intros H. apply child_in in H. destruct H as (j & H).
    pose proof (listed_index h wf _ _ _ H) as Ej. subst j. unfold Listed in *. congruence. }
  transitivity (remove_child h p z).
  2: { unfold remove_child. rewrite Ep, Hp, Hi. reflexivity. }
  rewrite <- (text_remove_eq h p z wf (ex_intro (fun i => Listed h p i z) _ Hz)).
  unfold text_remove. rewrite Ep, Hp, Hi, Ec. cbv zeta. unfold remove_at.
  destruct (index h x <? length cs); cbn [rbind]; [|reflexivity].
  set (cs' := firstn (index h x) cs ++ skipn (S (index h x)) cs).
  assert (E1 : includes (skipn (index h x) cs') x = false).
  { apply not_true_is_false. intros H. apply includes_spec in H. apply Hx.
    assert (In x cs') by (rewrite <- (firstn_skipn (index h x) cs'); apply in_or_app; right; exact H).
    unfold cs' in H0. apply in_app_or in H0.
    pose proof (nth_split_nodup _ _ _ (kids_nodup h wf p) Hz) as (Es & _). rewrite (kids_some _ _ _ Ec) in Es.
    rewrite Es. apply in_or_app. cbn [In]. tauto. }
  assert (E2 : includes (skipn (index h x) cs') z = false).
  { apply not_true_is_false. intros H. apply includes_spec in H.
    pose proof (nth_split_nodup _ _ _ (kids_nodup h wf p) Hz) as (Es & H1 & H2 & _). rewrite (kids_some _ _ _ Ec) in *.
    assert (In z cs') by (rewrite <- (firstn_skipn (index h x) cs'); apply in_or_app; right; exact H).
    unfold cs' in H0. apply in_app_or in H0. tauto. }
  rewrite E1, E2. reflexivity.
Qed.

Lemma take_eq h x : is_root h x = false -> nodes_to_insert h x = do h1 <- remove_one h x; Ok (h1, [x]).
Proof. intros Hr. unfold nodes_to_insert. rewrite (not_root_not_fragment _ _ Hr). reflexivity. Qed.

(** * Insertion *)
Lemma put_into h h1 h' x p l1 l2 : Removed h h1 x -> Inserted h1 h' p l1 [x] l2 ->
  PutInto h h' (occupant h x) p x l1 l2.
Proof.
  intros R ins. destruct (rm_out _ _ _ R) as (Hs & Hk & Hp).
  split; [exact (same_nodes_trans _ _ _ Hs (ins_same _ _ _ _ _ _ ins))|].
  split; [exact (ins_new _ _ _ _ _ _ ins)|].
  split; [intros q Hq; rewrite (ins_other _ _ _ _ _ _ ins q Hq); apply Hk|].
  split; [apply (ins_par _ _ _ _ _ _ ins); left; reflexivity|].
  intros y Hy. rewrite (ins_par_other _ _ _ _ _ _ ins); [apply Hp|]. intros [H | []]. congruence.
Qed.
Lemma put_insertable h h1 x p : WF h -> Removed h h1 x -> x < length h -> x <> p -> p < length h -> Insertable h1 p [x].
Proof.
  intros wf R Hx Hne Hp. destruct (rm_out _ _ _ R) as (Hs & _ & _).
  apply (insertable_wf h1 p [x] (rm_wf _ _ _ R)).
  - rewrite (proj1 Hs). exact Hp.
  - constructor; [intros [] | constructor].
  - intros y [<- | []]. split; [rewrite (proj1 Hs); exact Hx|]. split; [exact Hne | exact (rm_unattached _ _ _ R)].
Qed.
Lemma put_wf h h1 h' x p l1 l2 : WF h -> Removed h h1 x -> Inserted h1 h' p l1 [x] l2 -> Container h p -> p < length h ->
  x < length h -> x <> p -> ~ Up h p x -> is_root h x = false -> WF h'.
Proof.
  intros wf R ins Hc Hp Hx Hne Hup Hr. pose proof (rm_out _ _ _ R) as T. destruct T as (Hs & Hk & Hpa).
  apply (inserted_wf h1 h' p _ _ _ (rm_wf _ _ _ R) ins).
  - exact (same_container _ _ Hs p Hc).
  - rewrite (proj1 Hs). exact Hp.
  - intros y [<- | []]. split; [rewrite (proj1 Hs); exact Hx|]. split; [exact Hne|]. split; [|split].
    + rewrite (takenout_all_up _ _ _ (rm_out _ _ _ R)). exact Hup.
    + rewrite (same_root _ _ Hs). exact Hr.
    + exact (rm_unattached _ _ _ R).
Qed.
Lemma validate_takes h self x : WF h -> Takes h self x -> validate_dom_change h self x = Ok true.
Proof. intros wf [He Hl Hr Hne Hup]. exact (validate_true h self x wf He (not_root_not_document _ _ Hr) Hne Hup). Qed.
Lemma insert_dangling o h self pos x : WF h -> Takes h self x -> Dangling h x -> insert_adjacent o h self pos x = Panic.
Proof.
  intros wf Tk Hd. unfold insert_adjacent. rewrite (validate_takes h self x wf Tk). cbn [rbind negb].
  rewrite (take_eq h x (tk_root _ _ _ Tk)), (proj2 (remove_any h x wf) Hd). reflexivity.
Qed.
Lemma inside_any o h self (at_end : bool) x : WF h -> Takes h self x -> ~ Dangling h x ->
  od_allow_insert o (tag_names h self) (ntype_of h x) = true ->
  exists h', insert_adjacent o h self (if at_end then BeforeEnd else AfterBegin) x = Ok (h', []) /\ WF h' /\
    PutInto h h' (occupant h x) self x (if at_end then without_all (occupant h x) (kids h self) else [])
                                       (if at_end then [] else without_all (occupant h x) (kids h self)).
Proof.
  intros wf Tk Hd Hal. destruct (proj1 (remove_any h x wf) Hd) as (h1 & E1 & R).
  pose proof (rm_out _ _ _ R) as (Sm & Kk & _).
  pose proof (element_lt _ _ (tk_el _ _ _ Tk)) as Hs. pose proof (tk_ne _ _ _ Tk) as Hne.
  assert (Hne' : x <> self) by congruence.
  destruct (insert_inside_ok h1 self at_end [x] (put_insertable h h1 x self wf R (tk_lt _ _ _ Tk) Hne' Hs)) as (h' & E2 & ins).
  rewrite Kk in ins. exists h'. split; [|split; [|exact (put_into _ _ _ _ _ _ _ R ins)]].
  - unfold insert_adjacent. rewrite (validate_takes h self x wf Tk). cbn [rbind negb].
    rewrite (take_eq h x (tk_root _ _ _ Tk)), E1. cbn [rbind fst snd]. cbv zeta.
    assert (Er : remove_not_allowed o h1 (tag_names h1 self) [x] = Ok [x]).
    { rewrite remove_not_allowed_ok. cbn [filter].
      rewrite (same_tag _ _ Sm). unfold ntype_of in *. rewrite (proj1 (proj2 Sm x)), Hal. reflexivity. }
    destruct at_end; rewrite Er; cbn [rbind]; rewrite E2; reflexivity.
  - apply (put_wf h h1 h' x self _ _ wf R ins); [left; exact (tk_el _ _ _ Tk) | exact Hs | exact (tk_lt _ _ _ Tk) | exact Hne' | exact (tk_up _ _ _ Tk) | exact (tk_root _ _ _ Tk)].
Qed.
Lemma inside_any_refused o h self (at_end : bool) x : WF h -> Takes h self x -> ~ Dangling h x ->
  od_allow_insert o (tag_names h self) (ntype_of h x) = false ->
  exists h', insert_adjacent o h self (if at_end then BeforeEnd else AfterBegin) x = Ok (h', []) /\ WF h' /\
    TakenOutAll h h' (occupant h x).
Proof.
  intros wf Tk Hd Hal. destruct (proj1 (remove_any h x wf) Hd) as (h1 & E1 & R).
  pose proof (rm_out _ _ _ R) as (Sm & Kk & _). exists h1. split; [|split; [exact (rm_wf _ _ _ R) | exact (rm_out _ _ _ R)]].
  unfold insert_adjacent. rewrite (validate_takes h self x wf Tk). cbn [rbind negb].
  rewrite (take_eq h x (tk_root _ _ _ Tk)), E1. cbn [rbind fst snd]. cbv zeta.
  assert (Er : remove_not_allowed o h1 (tag_names h1 self) [x] = Ok []).
  { rewrite remove_not_allowed_ok. cbn [filter].
    rewrite (same_tag _ _ Sm). unfold ntype_of in *. rewrite (proj1 (proj2 Sm x)), Hal. reflexivity. }
  destruct at_end; rewrite Er; reflexivity.
Qed.
(** Beside a node that need not be listed: by the position it remembers. *)
Lemma beside_at h p self (after_ : bool) ns : Insertable h p ns -> parent h self = Some p -> childs h p <> None -> ~ In self ns ->
  let k := if after_ then S (index h self) else index h self in k <= length (kids h p) ->
  exists h', insert_beside h self after_ ns = Ok h' /\
    Inserted h h' p (firstn k (kids h p)) ns (skipn k (kids h p)).
Proof.
  intros ia Epar Hch Hns k Hk.
  pose proof (ia_p _ _ _ ia) as Hp.
  assert (Hin1 : includes ns self = false).
  { destruct (includes ns self) eqn:E; [|reflexivity]. apply includes_spec in E. contradiction. }
  assert (Hin2 : includes ns p = false).
  { destruct (includes ns p) eqn:E; [|reflexivity]. apply includes_spec in E. exfalso. exact (ia_notp _ _ _ ia E). }
  assert (Ec : childs h p = Some (kids h p)) by (unfold kids; destruct (childs h p); congruence).
  unfold insert_beside. cbv zeta.
  replace (if after_ then S (index h self) else index h self) with k by reflexivity.
  rewrite parent_reset, Epar, childs_reset, Ec, Hin1, Hin2. cbn [orb].
  set (cs := kids h p) in *.
  assert (En : (if k <? length cs then skipn k cs else []) = skipn k cs).
  { destruct (Nat.ltb_spec k (length cs)); [reflexivity|]. rewrite skipn_all2 by lia. reflexivity. }
  assert (Eq : (if k <? length cs then firstn k cs else cs) = firstn k cs).
  { destruct (Nat.ltb_spec k (length cs)); [reflexivity|]. rewrite firstn_all2 by lia. reflexivity. }
  rewrite En, Eq. clear En Eq.
  assert (Efs : cs = firstn k cs ++ skipn k cs) by (symmetry; apply firstn_skipn).
  assert (El : length (firstn k cs) = k) by (rewrite firstn_length; lia).
  destruct (three_segments h p (firstn k cs) ns (skipn k cs) ia Efs) as [T1 T2]. rewrite El in T1, T2.
  set (h1 := reset_index h k ns) in *. set (h2 := set_parents h1 p ns).
  set (h3 := upd h2 p (set_ch (Some (firstn k cs ++ ns)))).
  assert (L1 : length h1 = length h) by apply length_reset.
  assert (L2 : length h2 = length h) by (unfold h2; rewrite length_set_parents; exact L1).
  assert (S3 : SameNodes h h3).
  { apply same_nodes_trans with (h1 := h2); [|apply same_nodes_set_ch].
    apply same_nodes_trans with (h1 := h1); [apply same_nodes_reset | apply same_nodes_set_parents]. }
  assert (P3 : forall y, parent h3 y = parent (set_parents h1 p ns) y) by (intros y; unfold h3; apply parent_set_ch).
  assert (K3 : forall q, q <> p -> kids h3 q = kids h q).
  { intros q Hq. unfold h3. rewrite kids_set_ch_other by exact Hq. unfold h2. rewrite kids_set_parents. apply kids_reset. }
  assert (I3 : forall y, index h3 y = index h1 y).
  { intros y. unfold h3. rewrite index_set_ch. unfold h2. apply index_set_parents. }
  assert (Par1 : forall y, In y ns -> parent h3 y = Some p).
  { intros y Hy. rewrite P3. apply parent_set_parents; [exact Hy|]. rewrite L1. exact (ia_lt _ _ _ ia y Hy). }
  assert (Par2 : forall y, ~ In y ns -> parent h3 y = parent h y).
  { intros y Hy. rewrite P3, parent_set_parents_other by exact Hy. apply parent_reset. }
  destruct (skipn k cs) as [|n0 nexts] eqn:Esk.
  - exists h3. split; [reflexivity|]. split.
    + exact S3.
    + exact Efs.
    + unfold h3. rewrite kids_set_ch by lia. rewrite app_nil_r. reflexivity.
    + exact K3.
    + exact Par1.
    + exact Par2.
    + intros j c Hj. rewrite I3. exact (T1 j c Hj).
    + intros c Hc. rewrite I3. exact (T2 c Hc).
  - eexists. split; [reflexivity|]. rewrite <- Esk in *. split.
    + apply same_nodes_trans with (h1 := reset_index h3 (k + length ns) (skipn k cs)); [|apply same_nodes_set_ch].
      apply same_nodes_trans with (h1 := h3); [exact S3 | apply same_nodes_reset].
    + exact Efs.
    + rewrite kids_set_ch; [reflexivity|]. rewrite length_reset. destruct S3 as [-> _]. exact Hp.
    + intros q Hq. rewrite kids_set_ch_other by exact Hq. rewrite kids_reset. exact (K3 q Hq).
    + intros y Hy. rewrite parent_set_ch, parent_reset. exact (Par1 y Hy).
    + intros y Hy. rewrite parent_set_ch, parent_reset. exact (Par2 y Hy).
    + intros j c Hj. rewrite index_set_ch. rewrite <- (T1 j c Hj).
      apply index_reset_congr; [|apply I3]. destruct S3 as [-> _]. symmetry. exact L1.
    + intros c Hc. rewrite index_set_ch. rewrite <- (T2 c Hc).
      apply index_reset_congr; [|apply I3]. destruct S3 as [-> _]. symmetry. exact L1.
Qed.

(** Past the end of the list: at the end, but with the wrong number. *)
Lemma beside_past h p self (after_ : bool) x : Insertable h p [x] -> parent h self = Some p -> childs h p <> None -> self <> x ->
  let k := if after_ then S (index h self) else index h self in length (kids h p) < k ->
  exists h', insert_beside h self after_ [x] = Ok h' /\ SameNodes h h' /\ kids h' p = kids h p ++ [x] /\
    (forall q, q <> p -> kids h' q = kids h q) /\ parent h' x = Some p /\ (forall y, y <> x -> parent h' y = parent h y) /\
    index h' x = k.
Proof.
  intros ia Epar Hch Hns k Hk. pose proof (ia_p _ _ _ ia) as Hp.
  pose proof (ia_lt _ _ _ ia x (or_introl eq_refl)) as Hx.
  assert (Hin1 : includes [x] self = false).
  { destruct (includes [x] self) eqn:E; [|reflexivity]. apply includes_spec in E. destruct E as [E | []]. congruence. }
  assert (Hin2 : includes [x] p = false).
  { destruct (includes [x] p) eqn:E; [|reflexivity]. apply includes_spec in E. exfalso. exact (ia_notp _ _ _ ia E). }
  assert (Ec : childs h p = Some (kids h p)) by (unfold kids; destruct (childs h p); congruence).
  unfold insert_beside. cbv zeta.
  replace (if after_ then S (index h self) else index h self) with k by reflexivity.
  rewrite parent_reset, Epar, childs_reset, Ec, Hin1, Hin2. cbn [orb].
  replace (k <? length (kids h p)) with false by (symmetry; apply Nat.ltb_ge; lia).
  set (h1 := reset_index h k [x]). set (h2 := set_parents h1 p [x]).
  assert (L1 : length h1 = length h) by apply length_reset.
  assert (L2 : length h2 = length h) by (unfold h2; rewrite length_set_parents; exact L1).
  eexists. split; [reflexivity|]. split; [|split; [|split; [|split; [|split]]]].
  - apply same_nodes_trans with (h1 := h2); [|apply same_nodes_set_ch].
    apply same_nodes_trans with (h1 := h1); [apply same_nodes_reset | apply same_nodes_set_parents].
  - rewrite kids_set_ch by lia. reflexivity.
  - intros q Hq. rewrite kids_set_ch_other by exact Hq. unfold h2. rewrite kids_set_parents. apply kids_reset.
  - rewrite parent_set_ch. unfold h2. apply parent_set_parents; [left; reflexivity | lia].
  - intros y Hy. rewrite parent_set_ch. unfold h2. rewrite parent_set_parents_other by (intros [H | []]; congruence). apply parent_reset.
  - rewrite index_set_ch. unfold h2. rewrite index_set_parents. unfold h1.
    rewrite (index_reset [x] h k 0 x); [lia | constructor; [intros [] | constructor] | reflexivity | exact Hx].
Qed.

Lemma place_index h h1 self p x i : WF h -> Removed h h1 x -> parent h self = Some p ->
  Place h (without_all (occupant h x) (kids h p)) self i -> index h1 self = i.
Proof.
  intros wf R Epar [Hi | [Hi ->]].
  - apply (listed_index h1 (rm_wf _ _ _ R) p). unfold Listed. rewrite (proj1 (proj2 (rm_out _ _ _ R))). exact Hi.
  - exact (rm_index _ _ _ R self p Epar Hi).
Qed.
Lemma place_exists h cs self : exists i, Place h cs self i.
Proof.
  destruct (in_dec Nat.eq_dec self cs) as [H | H].
  - apply In_nth_error in H. destruct H as (i & H). exists i. left. exact H.
  - exists (index h self). right. split; [exact H | reflexivity].
Qed.
Lemma beside_any o h self p (after_ : bool) x i : WF h -> Takes h self x -> ~ Dangling h x ->
  parent h self = Some p -> childs h p <> None ->
  let cs := without_all (occupant h x) (kids h p) in Place h cs self i ->
  let k := if after_ then S i else i in
  exists h', insert_adjacent o h self (if after_ then AfterEnd else BeforeBegin) x = Ok (h', []) /\
    PutInto h h' (occupant h x) p x (firstn k cs) (skipn k cs) /\ (WF h' <-> k <= length cs).
Proof.
  intros wf Tk Hd Epar Hch cs Hpl k. destruct (proj1 (remove_any h x wf) Hd) as (h1 & E1 & R).
  pose proof (rm_out _ _ _ R) as (Sm & Kk & Pp). destruct (wf_parent h wf _ _ Epar) as [Hp Hco].
  pose proof (place_index h h1 self p x i wf R Epar Hpl) as Ei.
  assert (Hxp : x <> p).
  { intros ->. apply (tk_up _ _ _ Tk). constructor. exact Epar. }
  assert (Hupp : ~ Up h p x).
  { intros Hu. apply (tk_up _ _ _ Tk). exact (up_first _ _ _ _ Epar (or_intror Hu)). }
  pose proof (put_insertable h h1 x p wf R (tk_lt _ _ _ Tk) Hxp Hp) as Ia.
  assert (Epar1 : parent h1 self = Some p) by (rewrite Pp; exact Epar).
  assert (Hch1 : childs h1 p <> None) by (intros H; apply Hch; apply (rm_childs _ _ _ R); exact H).
  assert (Ek : (if after_ then S (index h1 self) else index h1 self) = k) by (rewrite Ei; reflexivity).
  assert (Ekk : kids h1 p = cs) by apply Kk.
  assert (Ad : forall h', insert_beside h1 self after_ [x] = Ok h' ->
    insert_adjacent o h self (if after_ then AfterEnd else BeforeBegin) x = Ok (h', [])).
  { intros h' E2. unfold insert_adjacent. rewrite (validate_takes h self x wf Tk). cbn [rbind negb].
    rewrite (take_eq h x (tk_root _ _ _ Tk)), E1. cbn [rbind fst snd]. cbv zeta.
    destruct after_; cbn [rbind]; rewrite E2; reflexivity. }
  destruct (le_gt_dec k (length cs)) as [Hk | Hk].
  - destruct (beside_at h1 p self after_ [x] Ia Epar1 Hch1) as (h' & E2 & ins).
    { intros [H | []]. pose proof (tk_ne _ _ _ Tk). congruence. }
    { rewrite Ek, Ekk. exact Hk. }
    rewrite Ek, Ekk in ins. exists h'. split; [exact (Ad h' E2)|]. split; [exact (put_into _ _ _ _ _ _ _ R ins)|].
    split; [intros _; exact Hk | intros _].
    exact (put_wf h h1 h' x p _ _ wf R ins Hco Hp (tk_lt _ _ _ Tk) Hxp Hupp (tk_root _ _ _ Tk)).
  - destruct (beside_past h1 p self after_ x Ia Epar1 Hch1 (tk_ne _ _ _ Tk)) as (h' & E2 & S2 & K2 & O2 & P2 & Q2 & I2).
    { rewrite Ek, Ekk. lia. }
    rewrite Ek in I2. rewrite Ekk in K2. exists h'. split; [exact (Ad h' E2)|]. split.
    + split; [exact (same_nodes_trans _ _ _ Sm S2)|]. rewrite firstn_all2, skipn_all2 by lia.
      split; [exact K2|]. split; [intros q Hq; rewrite (O2 q Hq); apply Kk|]. split; [exact P2|].
      intros y Hy. rewrite (Q2 y Hy). apply Pp.
    + split; [|lia]. intros wf'. exfalso.
      assert (Hl : Listed h' p (length cs) x).
      { unfold Listed. rewrite K2, nth_error_app2, Nat.sub_diag by lia. reflexivity. }
      pose proof (listed_index h' wf' _ _ _ Hl). lia.
Qed.
Lemma beside_any_lost o h self (after_ : bool) x : WF h -> Takes h self x -> ~ Dangling h x ->
  (forall p, parent h self = Some p -> childs h p = None) ->
  exists h', insert_adjacent o h self (if after_ then AfterEnd else BeforeBegin) x = Ok (h', []) /\ WF h' /\
    TakenOutAll h h' (occupant h x).
Proof.
  intros wf Tk Hd Hno. destruct (proj1 (remove_any h x wf) Hd) as (h1 & E1 & R).
  pose proof (rm_out _ _ _ R) as (Sm & Kk & Pp). pose proof (rm_wf _ _ _ R) as wf1.
  set (k := if after_ then S (index h1 self) else index h1 self).
  exists (reset_index h1 k [x]). split; [|split].
  - unfold insert_adjacent. rewrite (validate_takes h self x wf Tk). cbn [rbind negb].
    rewrite (take_eq h x (tk_root _ _ _ Tk)), E1. cbn [rbind fst snd]. cbv zeta.
    assert (E2 : insert_beside h1 self after_ [x] = Ok (reset_index h1 k [x])).
    { unfold insert_beside. cbv zeta. rewrite parent_reset, Pp. destruct (parent h self) as [p|] eqn:Ep; [|reflexivity].
      rewrite childs_reset, (proj2 (rm_childs _ _ _ R p) (Hno p eq_refl)). reflexivity. }
    destruct after_; cbn [rbind]; rewrite E2; reflexivity.
  - assert (T1 : TakenOut h1 (reset_index h1 k [x]) x).
    { split; [apply same_nodes_reset|]. split; [|intros y; apply parent_reset]. intros q. rewrite kids_reset.
      symmetry. apply without_notin. intros H. apply (rm_unattached _ _ _ R). exists q. apply child_in. exact H. }
    apply (takenout_wf h1 _ x wf1 T1). intros q j c Hl. rewrite index_reset_other.
    + apply (listed_index h1 wf1 q). unfold Listed in *. rewrite kids_reset in Hl. exact Hl.
    + intros [<- | []]. apply (takenout_unattached _ _ _ T1). exists q, j. exact Hl.
  - split; [exact (same_nodes_trans _ _ _ Sm (same_nodes_reset _ _ _))|]. split.
    + intros q. rewrite kids_reset. apply Kk.
    + intros y. rewrite parent_reset. apply Pp.
Qed.

(** * Replacement *)
Lemma replace_dangling h self y : WF h -> is_root h y = false -> Dangling h y -> replace_with h self y = Panic.
Proof. intros wf Hr Hd. unfold replace_with. rewrite (take_eq h y Hr), (proj2 (remove_any h y wf) Hd). reflexivity. Qed.
Lemma replace_any h p self (y : id) i : WF h -> y < length h -> is_root h y = false -> self <> y -> ~ Up h self y -> ~ Dangling h y ->
  parent h self = Some p -> childs h p <> None ->
  let cs0 := without_all (occupant h y) (kids h p) in Place h cs0 self i ->
  (i < length cs0 -> exists h', replace_with h self y = Ok (h', y) /\ WF h' /\
    PutInto h h' (occupant h y) p y (firstn i cs0) (skipn (S i) cs0)) /\
  (length cs0 <= i -> replace_with h self y = Panic).
Proof.
  intros wf Hy Hr Hne Hup Hd Epar Hch cs0 Hpl. destruct (proj1 (remove_any h y wf) Hd) as (h1 & E1 & R).
  pose proof (rm_wf _ _ _ R) as wf1. pose proof (rm_out _ _ _ R) as (Sm & Kk & Pp).
  pose proof (place_index h h1 self p y i wf R Epar Hpl) as Ei.
  assert (L1 : length h1 = length h) by apply Sm.
  assert (Hyp : y <> p).
  { intros ->. apply Hup. constructor. exact Epar. }
  assert (Hp1 : p < length h1) by (rewrite L1; apply (wf_parent h wf _ _ Epar)).
  assert (Hy1 : y < length h1) by (rewrite L1; exact Hy).
  assert (Hin1 : includes [y] self = false).
  { unfold includes. cbn. rewrite orb_false_r. apply Nat.eqb_neq. congruence. }
  assert (Hin2 : includes [y] p = false).
  { unfold includes. cbn. rewrite orb_false_r. apply Nat.eqb_neq. congruence. }
  assert (Hch1 : childs h1 p = Some cs0).
  { unfold cs0. rewrite <- Kk. unfold kids. destruct (childs h1 p) eqn:E; [reflexivity|].
    exfalso. apply Hch. apply (rm_childs _ _ _ R). exact E. }
  split.
  2: { intros Hle. unfold replace_with. rewrite (take_eq h y Hr), E1. cbn [rbind fst snd]. cbv zeta.
       rewrite Ei, Pp, Epar, Hch1, Hin1, Hin2. cbn [orb].
       replace (S i <=? length cs0) with false by (symmetry; apply Nat.leb_gt; lia). reflexivity. }
  intros Hi0. destruct (nth_error cs0 i) as [z|] eqn:Ez; [|apply nth_error_None in Ez; lia].
  assert (Hl : Listed h1 p i z) by (unfold Listed; rewrite Kk; exact Ez).
  assert (Hc1 : Child h1 p z) by (exists i; exact Hl).
  assert (Hcs0 : cs0 = kids h1 p) by (symmetry; apply Kk). rewrite Hcs0 in *. clear cs0 Hcs0 Hi0 Ez Hch1 Hpl.
  destruct (remove_child_ok h1 p z wf1 Hc1) as (h2 & _ & T2 & I2 & _ & _ & X2).
  pose proof (takenout_wf h1 h2 z wf1 T2 I2) as wf2. pose proof T2 as (Sm2 & Kk2 & Pp2).
  set (cs := kids h1 p) in *.
  destruct (nth_split_nodup cs i z (kids_nodup h1 wf1 p) Hl) as (Es & Hx1 & Hx2 & Ew).
  set (l1 := firstn i cs) in *. set (l2 := skipn (S i) cs) in *.
  assert (Hi : i < length cs).
  { apply nth_error_Some. unfold Listed in Hl. fold cs in Hl. rewrite Hl. discriminate. }
  assert (El : length l1 = i) by (unfold l1; rewrite firstn_length; lia).
  assert (Ec : childs h1 p = Some cs) by (apply (in_kids_childs h1 p z); exact (listed_in _ _ _ _ Hl)).
  assert (Hycs : ~ In y cs).
  { intros H. apply (rm_unattached _ _ _ R). exists p. apply child_in. exact H. }
  assert (Hyl : ~ In y l1 /\ ~ In y l2).
  { rewrite Es in Hycs. rewrite in_app_iff in Hycs. cbn in Hycs. tauto. }
  pose proof (three_segments_raw h1 l1 [y] l2) as Tr. rewrite El in Tr.
  destruct Tr as [T1' T2'].
  { pose proof (kids_nodup h1 wf1 p) as Hn. fold cs in Hn. rewrite Es in Hn. exact (NoDup_remove_1 _ _ _ Hn). }
  { constructor; [intros [] | constructor]. }
  { intros w [<- | []]. split; [exact Hy1 | exact Hyl]. }
  { intros c Hc2. assert (Hin : In c (kids h1 p)).
    { fold cs. rewrite Es. apply in_or_app. right. right. exact Hc2. }
    apply child_in in Hin. destruct Hin as (j & Hin). apply (wf_listed h1 wf1 _ _ _ Hin). }
  { intros j c Hj. apply (listed_index h1 wf1 p). unfold Listed. fold cs. rewrite Es, nth_error_app1; [exact Hj|].
    apply nth_error_Some. rewrite Hj. discriminate. }
  change (length [y]) with 1 in T1', T2'.
  set (h3 := reset_index (reset_index h1 i [y]) (i + 1) l2) in *.
  set (h' := upd (set_parents h3 p [y]) p (set_ch (Some (l1 ++ [y] ++ l2)))).
  assert (L3 : length h3 = length h1) by (unfold h3; rewrite !length_reset; reflexivity).
  assert (ins : Inserted h2 h' p l1 [y] l2).
  { split.
    - assert (S1 : SameNodes h1 h').
      { apply same_nodes_trans with (h1 := set_parents h3 p [y]); [|apply same_nodes_set_ch].
        apply same_nodes_trans with (h1 := h3); [|apply same_nodes_set_parents].
        apply same_nodes_trans with (h1 := reset_index h1 i [y]); apply same_nodes_reset. }
      clear - S1 Sm2. destruct S1 as [A1 B1], Sm2 as [A2 B2]. split; [congruence|]. intros w.
      destruct (B1 w) as (C1 & C2 & C3 & C4), (B2 w) as (D1 & D2 & D3 & D4).
      split; [congruence|]. split; [congruence|]. split; congruence.
    - rewrite Kk2. exact Ew.
    - unfold h'. rewrite kids_set_ch by (rewrite length_set_parents; lia). reflexivity.
    - intros q Hq. unfold h'. rewrite kids_set_ch_other by exact Hq. rewrite kids_set_parents. unfold h3.
      rewrite !kids_reset, Kk2. symmetry. apply without_notin. intros H. apply child_in in H. destruct H as (j & H).
      destruct (listed_inj h1 wf1 _ _ _ _ _ Hl H) as [E _]. congruence.
    - intros w Hz. unfold h'. rewrite parent_set_ch. apply parent_set_parents; [exact Hz|].
      destruct Hz as [<- | []]. lia.
    - intros w Hz. unfold h'. rewrite parent_set_ch, parent_set_parents_other by exact Hz. unfold h3.
      rewrite !parent_reset. symmetry. apply Pp2.
    - intros j c Hj. unfold h'. rewrite index_set_ch, index_set_parents. exact (T1' j c Hj).
    - intros c Hcn. unfold h'. rewrite index_set_ch, index_set_parents, (T2' c Hcn).
      symmetry. apply X2. fold cs. rewrite Ew. rewrite !in_app_iff in *. tauto. }
  exists h'. split; [|split].
  - unfold replace_with. rewrite (take_eq h y Hr), E1. cbn [rbind fst snd]. cbv zeta.
    rewrite (not_root_not_fragment _ _ Hr). rewrite Ei, Pp, Epar, Ec.
    rewrite Hin1, Hin2. cbn [orb].
    replace (i <? length cs) with true by (symmetry; apply Nat.ltb_lt; exact Hi).
    replace (S i <=? length cs) with true by (symmetry; apply Nat.leb_le; exact Hi).
    cbn [rbind]. reflexivity.
  - apply (inserted_wf h2 h' p _ _ _ wf2 ins).
    + destruct (wf_parent h wf _ _ Epar) as [_ Hco].
      exact (same_container _ _ Sm2 p (same_container _ _ Sm p Hco)).
    + rewrite (proj1 Sm2). exact Hp1.
    + intros w [<- | []]. split; [rewrite (proj1 Sm2); exact Hy1|]. split; [exact Hyp|]. split; [|split].
      * rewrite (takenout_up _ _ _ T2), (takenout_all_up _ _ _ (rm_out _ _ _ R)). intros Hu. apply Hup.
        exact (up_first _ _ _ _ Epar (or_intror Hu)).
      * rewrite (same_root _ _ Sm2), (same_root _ _ Sm). exact Hr.
      * intros (q & Ha). apply (rm_unattached _ _ _ R). exists q. apply child_in. apply child_in in Ha. rewrite Kk2 in Ha.
        apply without_in in Ha. tauto.
  - split; [exact (same_nodes_trans _ _ _ (same_nodes_trans _ _ _ Sm Sm2) (ins_same _ _ _ _ _ _ ins))|].
    split; [exact (ins_new _ _ _ _ _ _ ins)|].
    split.
    { intros q Hq. rewrite (ins_other _ _ _ _ _ _ ins q Hq), Kk2, Kk. apply without_notin.
      rewrite <- Kk. intros H. apply child_in in H. destruct H as (j & H).
      destruct (listed_inj h1 wf1 _ _ _ _ _ Hl H) as [E _]. congruence. }
    split; [apply (ins_par _ _ _ _ _ _ ins); left; reflexivity|].
    intros w Hw. rewrite (ins_par_other _ _ _ _ _ _ ins), Pp2; [apply Pp|]. intros [H | []]. congruence.
Qed.
Lemma replace_any_lost h self y : WF h -> is_root h y = false -> ~ Dangling h y ->
  (forall p, parent h self = Some p -> childs h p = None) ->
  exists h', replace_with h self y = Ok (h', y) /\ WF h' /\ TakenOutAll h h' (occupant h y).
Proof.
  intros wf Hr Hd Hno. destruct (proj1 (remove_any h y wf) Hd) as (h1 & E1 & R).
  pose proof (rm_out _ _ _ R) as (Sm & Kk & Pp). exists h1. split; [|split; [exact (rm_wf _ _ _ R) | exact (rm_out _ _ _ R)]].
  unfold replace_with. rewrite (take_eq h y Hr), E1. cbn [rbind fst snd]. cbv zeta.
  rewrite (not_root_not_fragment _ _ Hr), Pp. destruct (parent h self) as [p|] eqn:Ep; [|reflexivity].
  rewrite (proj2 (rm_childs _ _ _ R p) (Hno p eq_refl)). reflexivity.
Qed.
Lemma replace_itself h self p : WF h -> is_root h self = false -> parent h self = Some p -> childs h p <> None ->
  replace_with h self self = Panic.
Proof.
  intros wf Hr Ep Hch. unfold replace_with. rewrite (take_eq h self Hr).
  destruct (remove_one h self) as [h1| |] eqn:E1; [|reflexivity|].
  2: { exfalso. unfold remove_one, remove_child in E1. rewrite Ep, Nat.eqb_refl in E1.
       destruct (childs h p); [|congruence]. cbv zeta in E1. unfold rsub, remove_at in E1.
       destruct (1 <=? _); cbn [rbind] in E1; [|discriminate]. destruct (Nat.eqb _ _); cbn [rbind] in E1.
       - destruct (_ <? _); discriminate.
       - destruct (S _ <=? _); cbn [rbind] in E1; [|discriminate]. destruct (_ <? _); discriminate. }
  assert (Hd : ~ Dangling h self) by (intros Hd; rewrite (proj2 (remove_any h self wf) Hd) in E1; discriminate).
  destruct (proj1 (remove_any h self wf) Hd) as (h2 & E2 & R). rewrite E1 in E2. injection E2 as <-.
  cbn [rbind fst snd]. cbv zeta. rewrite (proj2 (proj2 (rm_out _ _ _ R))), Ep.
  destruct (childs h1 p) eqn:Ec; [|exfalso; apply Hch; apply (rm_childs _ _ _ R); exact Ec].
  replace (includes [self] self) with true by (symmetry; apply includes_spec; left; reflexivity). reflexivity.
Qed.

(** * Programs *)
Lemma childs_dec h p : childs h p = None \/ childs h p <> None.
Proof. destruct (childs h p); [right; discriminate | left; reflexivity]. Qed.
Lemma dangling_dec h x : Dangling h x \/ ~ Dangling h x.
Proof.
  destruct (parent h x) as [p|] eqn:Ep; [|right; intros (p & cs & E & _); congruence].
  destruct (childs h p) as [cs|] eqn:Ec; [|right; intros (q & cs & E & Ec' & _); congruence].
  destruct (le_gt_dec (length cs) (index h x)) as [H | H]; [left; exists p, cs; tauto|].
  right. intros (q & cs' & E & Ec' & Hle). assert (q = p) by congruence. subst q. assert (cs' = cs) by congruence. subst cs'. lia.
Qed.
Lemma sound_ok o h c h' : WF h -> Sound h c -> run_op o h c = Ok h' -> WF h'.
Proof.
  intros wf Hc E. destruct c as [self pos x | x | x y | x s | x | x s | x s]; cbn [run_op Sound] in *.
  - destruct Hc as (Hx & Hr & Hpos).
    destruct (validate_ok h self x wf) as ([|] & Ev & Hv).
    2: { unfold insert_adjacent in E. rewrite Ev in E. cbn [rbind negb fst] in E. injection E as <-. exact wf. }
    destruct (proj1 Hv eq_refl) as (He & _ & Hne & Hup).
    assert (Tk : Takes h self x) by (split; assumption).
    destruct (dangling_dec h x) as [Hd | Hd]; [rewrite (insert_dangling o h self pos x wf Tk Hd) in E; discriminate|].
    assert (Hin : forall b : bool, pos = (if b then BeforeEnd else AfterBegin) -> WF h').
    { intros b ->. destruct (od_allow_insert o (tag_names h self) (ntype_of h x)) eqn:Ea.
      - destruct (inside_any o h self b x wf Tk Hd Ea) as (h2 & E2 & W & _). rewrite E2 in E. injection E as <-. exact W.
      - destruct (inside_any_refused o h self b x wf Tk Hd Ea) as (h2 & E2 & W & _). rewrite E2 in E. injection E as <-. exact W. }
    assert (Hbe : forall b : bool, pos = (if b then AfterEnd else BeforeBegin) -> WF h').
    { intros b ->. destruct (parent h self) as [p|] eqn:Ep.
      - destruct (childs_dec h p) as [Hn | Hn].
        + destruct (beside_any_lost o h self b x wf Tk Hd) as (h2 & E2 & W & _).
          { intros q Eq. congruence. }
          rewrite E2 in E. injection E as <-. exact W.
        + destruct (place_exists h (without_all (occupant h x) (kids h p)) self) as (i & Hi).
          destruct (beside_any o h self p b x i wf Tk Hd Ep Hn Hi) as (h2 & E2 & _ & W).
          rewrite E2 in E. injection E as <-. apply W. destruct b; exact (Hpos p i Hne eq_refl Hn Hi).
      - destruct (beside_any_lost o h self b x wf Tk Hd) as (h2 & E2 & W & _).
        { intros q Eq. congruence. }
        rewrite E2 in E. injection E as <-. exact W. }
    destruct pos; [exact (Hbe false eq_refl) | exact (Hbe true eq_refl) | exact (Hin false eq_refl) | exact (Hin true eq_refl)].
  - destruct (dangling_dec h x) as [Hd | Hd]; [rewrite (proj2 (remove_any h x wf) Hd) in E; discriminate|].
    destruct (proj1 (remove_any h x wf) Hd) as (h1 & E1 & R). rewrite E1 in E. injection E as <-. exact (rm_wf _ _ _ R).
  - destruct Hc as (Hy & Hr & Hup).
    destruct (dangling_dec h y) as [Hd | Hd]; [rewrite (replace_dangling h x y wf Hr Hd) in E; discriminate|].
    assert (Lost : (forall p, parent h x = Some p -> childs h p = None) -> WF h').
    { intros Hno. destruct (replace_any_lost h x y wf Hr Hd Hno) as (h2 & E2 & W & _). rewrite E2 in E. injection E as <-. exact W. }
    destruct (parent h x) as [p|] eqn:Ep; [|apply Lost; discriminate].
    destruct (childs_dec h p) as [Hn | Hn]; [apply Lost; congruence|]. clear Lost.
    destruct (Nat.eq_dec x y) as [-> | Hne]; [rewrite (replace_itself h y p wf Hr Ep Hn) in E; discriminate|].
    destruct (place_exists h (without_all (occupant h y) (kids h p)) x) as (i & Hi).
    destruct (replace_any h p x y i wf Hy Hr Hne Hup Hd Ep Hn Hi) as (H1 & H2).
    destruct (le_gt_dec (length (without_all (occupant h y) (kids h p))) i) as [Hl | Hl]; [rewrite (H2 Hl) in E; discriminate|].
    destruct (H1 Hl) as (h2 & E2 & W & _). rewrite E2 in E. injection E as <-. exact W.
  - injection E as <-. exact (set_text_wf o h x s wf).
  - rewrite (text_remove_any h x wf) in E.
    destruct (dangling_dec h x) as [Hd | Hd]; [rewrite (proj2 (remove_any h x wf) Hd) in E; discriminate|].
    destruct (proj1 (remove_any h x wf) Hd) as (h1 & E1 & R). rewrite E1 in E. injection E as <-. exact (rm_wf _ _ _ R).
  - destruct (n_content (node_of h x)) as [t|] eqn:Et; [|unfold append_text in E; rewrite Et in E; discriminate].
    destruct (run_op_ok o h (OAppendText x s) wf) as (h2 & E2 & W); [cbn [Covered]; congruence|].
    cbn [run_op] in E2. rewrite E2 in E. injection E as <-. exact W.
  - destruct (n_content (node_of h x)) as [t|] eqn:Et; [|unfold prepend_text in E; rewrite Et in E; discriminate].
    destruct (run_op_ok o h (OPrependText x s) wf) as (h2 & E2 & W); [cbn [Covered]; congruence|].
    cbn [run_op] in E2. rewrite E2 in E. injection E as <-. exact W.
Qed.
Lemma sound_all_ok o l : forall h h', WF h -> SoundAll o h l -> run_ops o h l = Ok h' -> WF h'.
Proof.
  induction l as [|c l IH]; intros h h' wf Hc E; cbn [SoundAll] in Hc; unfold run_ops in *; cbn [rfold] in E.
  - injection E as <-. exact wf.
  - destruct Hc as [Hc Hl]. destruct (run_op o h c) as [h1| |] eqn:E1; [|discriminate|discriminate].
    exact (IH h1 h' (sound_ok o h c h1 wf Hc E1) (Hl h1 eq_refl) E).
Qed.
(** A covered call is sound. *)
Lemma covered_sound h c : WF h -> Covered h c -> Sound h c.
Proof.
  intros wf Hc. destruct c as [self pos x | x | x y | x s | x | x s | x s]; cbn [Covered Sound] in *; try exact I.
  - destruct Hc as ((_ & Hs) & (Hx & Hpx) & Hr). split; [exact Hx|]. split; [exact Hr|].
    assert (G : forall p i, parent h self = Some p -> childs h p <> None ->
      Place h (without_all (occupant h x) (kids h p)) self i -> self <> x ->
      S i <= length (without_all (occupant h x) (kids h p))).
    { intros p i Ep _ [Hi | [Hi _]] Hne.
      - apply nth_error_Some. congruence.
      - exfalso. apply Hi. destruct Hs as [Hs | (q & Hq)]; [congruence|].
        pose proof (child_parent h wf _ _ Hq) as Eq. assert (q = p) by congruence. subst q.
        apply without_all_in. split; [apply child_in; exact Hq|]. intros Ho.
        destruct Hpx as [Hpx | Hpx].
        + unfold occupant in Ho. rewrite Hpx in Ho. destruct Ho.
        + rewrite (occupant_self h x wf Hpx) in Ho. destruct Ho as [Ho | []]. congruence. }
    destruct pos; try exact I; intros p i Hne Ep Hn Hi; pose proof (G p i Ep Hn Hi Hne); lia.
  - destruct Hc as (_ & (Hy & _) & Hr & _ & Hup). tauto.
Qed.
