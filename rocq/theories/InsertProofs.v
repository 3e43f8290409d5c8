(** Proofs about insertion, replacement, removal and [set_text]. *)
From Verif Require Import Base Utils UtilsSpec UtilsProofs Attr Dom DomSpec Order DomProofs Sets SetsProofs
  ClassProofs Mutate MutateSpec MutateProofs.

(** * Validation *)
Lemma chain_has_ok h node : WF h -> forall n x, length (ups h n x) < n ->
  exists b, parent_chain_has n h x node = Ok b /\ (b = true <-> Up h x node).
Proof.
  intros wf. induction n as [|n IH]; intros x Hn; cbn [ups] in Hn; [cbn in Hn; lia|].
  cbn [parent_chain_has]. destruct (parent h x) as [p|] eqn:E.
  - cbn [length] in Hn. destruct (Nat.eqb_spec p node) as [Ep | Ep].
    + exists true. split; [reflexivity|]. split; [|reflexivity]. intros _. constructor. congruence.
    + destruct (IH p) as (b & Hb & Hs); [lia|]. exists b. split; [exact Hb|]. rewrite Hs. split.
      * intros H. exact (up_first _ _ _ _ E (or_intror H)).
      * intros H. destruct (up_inv_first _ _ _ H) as (p' & Ep' & Hr). assert (p' = p) by congruence. subst p'.
        destruct Hr as [Hr | Hr]; [contradiction | exact Hr].
  - exists false. split; [reflexivity|]. split; [discriminate|]. intros H.
    destruct (up_inv_first _ _ _ H) as (p' & Ep' & _). congruence.
Qed.
Lemma validate_ok h dom node : WF h ->
  exists b, validate_dom_change h dom node = Ok b /\
    (b = true <-> is_element h dom = true /\ is_document h node = false /\ dom <> node /\ ~ Up h dom node).
Proof.
  intros wf. unfold validate_dom_change.
  destruct (is_element h dom); cbn [negb]; [|exists false; split; [reflexivity | split; [discriminate | intros (H & _); discriminate]]].
  destruct (is_document h node); [exists false; split; [reflexivity | split; [discriminate | intros (_ & H & _); discriminate]]|].
  destruct (Nat.eqb_spec dom node) as [E | E].
  - exists false. split; [reflexivity|]. split; [discriminate|]. intros (_ & _ & H & _). contradiction.
  - destruct (chain_has_ok h node wf (S (length h)) dom) as (b & Hb & Hs).
    + pose proof (ups_length h wf (S (length h)) dom). lia.
    + rewrite Hb. cbn [rbind]. exists (negb b). split; [reflexivity|]. rewrite <- Hs.
      destruct b; cbn; split; intros H; try discriminate.
      * destruct H as (_ & _ & _ & H). exfalso. apply H. reflexivity.
      * split; [reflexivity|]. split; [reflexivity|]. split; [exact E | discriminate].
      * reflexivity.
Qed.
Lemma validate_true h dom node : WF h -> is_element h dom = true -> is_document h node = false -> dom <> node ->
  ~ Up h dom node -> validate_dom_change h dom node = Ok true.
Proof.
  intros wf H1 H2 H3 H4. destruct (validate_ok h dom node wf) as (b & E & Hs). rewrite E. f_equal.
  apply Hs. tauto.
Qed.
Lemma validate_false h dom node : WF h ->
  (is_element h dom = false \/ is_document h node = true \/ dom = node \/ Up h dom node) ->
  validate_dom_change h dom node = Ok false.
Proof.
  intros wf H. destruct (validate_ok h dom node wf) as (b & E & Hs). rewrite E. f_equal.
  destruct b; [|reflexivity]. destruct (proj1 Hs eq_refl) as (A & B & C & D).
  destruct H as [H | [H | [H | H]]]; congruence || contradiction.
Qed.

(** * Allowed children *)
Lemma not_allowed_idx o h tag l : forall i,
  not_allowed_from o h tag i l = idx_of (fun x => negb (od_allow_insert o tag (ntype_of h x))) i l.
Proof.
  induction l as [|x l IH]; intros i; cbn [not_allowed_from idx_of]; [reflexivity|]. rewrite IH.
  destruct (od_allow_insert o tag (ntype_of h x)); reflexivity.
Qed.
Lemma remove_not_allowed_ok o h tag l :
  remove_not_allowed o h tag l = Ok (filter (fun x => od_allow_insert o tag (ntype_of h x)) l).
Proof.
  unfold remove_not_allowed. rewrite not_allowed_idx.
  set (P := fun x => negb (od_allow_insert o tag (ntype_of h x))).
  assert (E : filter (fun x => od_allow_insert o tag (ntype_of h x)) l = drop_positions l (idx_of P 0 l)).
  { unfold drop_positions. rewrite drop_idx_of. apply filter_ext. intros x. unfold P. rewrite negb_involutive. reflexivity. }
  rewrite E. destruct (idx_of P 0 l) as [|i idx] eqn:Ei.
  - unfold drop_positions. rewrite drop_positions_nil. reflexivity.
  - rewrite <- Ei. apply retain_by_index_spec; [apply idx_of_incr|].
    eapply Forall_impl; [|apply (idx_of_bound P l 0)]. cbn. intros; lia.
Qed.

(** * Taking the node to insert *)
Lemma takenout_up h h1 x : TakenOut h h1 x -> forall a b, Up h1 a b <-> Up h a b.
Proof.
  intros (_ & _ & H) a b. split; apply up_same; [exact H | intros y; symmetry; apply H].
Qed.
Lemma takenout_unattached h h1 x : TakenOut h h1 x -> ~ Attached h1 x.
Proof. intros (_ & Hk & _) (q & Hc). apply child_in in Hc. rewrite Hk in Hc. apply without_in in Hc. tauto. Qed.
Lemma takenout_self h x : WF h -> parent h x = None -> TakenOut h h x.
Proof.
  intros wf H. split; [apply same_nodes_refl|]. split; [|reflexivity]. intros q. symmetry. apply without_notin.
  intros Hc. apply child_in in Hc. rewrite (child_parent h wf _ _ Hc) in H. discriminate.
Qed.
Lemma takenout_kids_listed h h1 p x c : TakenOut h h1 x -> Child h p c -> c <> x -> Child h1 p c.
Proof. intros (_ & Hk & _) H Hn. apply child_in. rewrite Hk. apply without_in. split; [apply child_in; exact H | exact Hn]. Qed.

Lemma not_root_not_fragment h x : is_root h x = false -> is_fragment h x = false.
Proof. unfold is_root, is_fragment. destruct (ntype_of h x); (reflexivity || discriminate). Qed.
Lemma not_root_not_document h x : is_root h x = false -> is_document h x = false.
Proof. unfold is_root, is_document. destruct (ntype_of h x); (reflexivity || discriminate). Qed.

Lemma take_ok h x : WF h -> Placed h x -> is_root h x = false ->
  exists h1, nodes_to_insert h x = Ok (h1, [x]) /\ TakenOut h h1 x /\ WF h1.
Proof.
  intros wf [Hl Hp] Hr. unfold nodes_to_insert. rewrite (not_root_not_fragment _ _ Hr).
  destruct (parent h x) as [p|] eqn:E.
  - destruct Hp as [Hp | Hp]; [discriminate|].
    pose proof (attached_listed h wf x p Hp E) as Hls.
    destruct (remove_child_ok h p x wf (ex_intro (fun i => Listed h p i x) (index h x) Hls)) as (h1 & E1 & H1 & H2 & _).
    exists h1. rewrite E1. cbn [rbind]. split; [reflexivity|]. split; [exact H1|].
    exact (takenout_wf h h1 x wf H1 H2).
  - exists h. split; [reflexivity|]. split; [exact (takenout_self h x wf E) | exact wf].
Qed.

Lemma insertable_wf h p ns : WF h -> p < length h -> NoDup ns ->
  (forall x, In x ns -> x < length h /\ x <> p /\ ~ Attached h x) -> Insertable h p ns.
Proof.
  intros wf Hp Hn H. split.
  - exact Hp.
  - exact Hn.
  - intros x Hx. apply (H x Hx).
  - intros x Hx Hc. destruct (H x Hx) as (_ & _ & Ha). apply Ha. exists p. apply child_in. exact Hc.
  - intros Hx. destruct (H p Hx) as (_ & Hne & _). congruence.
  - exact (kids_nodup h wf p).
  - intros c Hc. apply child_in in Hc. destruct Hc as (i & Hc). apply (wf_listed h wf _ _ _ Hc).
  - intros j c Hc. exact (listed_index h wf _ _ _ Hc).
Qed.

(** Taking out and putting in together. *)
Lemma moved_into h h1 h' p x l1 l2 : TakenOut h h1 x -> Inserted h1 h' p l1 [x] l2 -> MovedInto h h' p x l1 l2.
Proof.
  intros (Hs & Hk & Hp) ins. split; [exact (same_nodes_trans _ _ _ Hs (ins_same _ _ _ _ _ _ ins))|].
  split; [rewrite <- Hk; exact (ins_old _ _ _ _ _ _ ins)|].
  split; [exact (ins_new _ _ _ _ _ _ ins)|].
  split; [intros q Hq; rewrite (ins_other _ _ _ _ _ _ ins q Hq); apply Hk|].
  split; [apply (ins_par _ _ _ _ _ _ ins); left; reflexivity|].
  intros y Hy. rewrite (ins_par_other _ _ _ _ _ _ ins); [apply Hp|]. intros [H | []]. congruence.
Qed.

(** The precondition of an accepted insertion of one node. *)
Record Accepts (h : heap) (self x : id) : Prop := mkAcc {
  acc_el : is_element h self = true;
  acc_placed : Placed h x;
  acc_root : is_root h x = false;
  acc_ne : self <> x;
  acc_up : ~ Up h self x
}.

Lemma inside_ok o h self (at_end : bool) x : WF h -> Accepts h self x ->
  od_allow_insert o (tag_names h self) (ntype_of h x) = true ->
  exists h', insert_adjacent o h self (if at_end then BeforeEnd else AfterBegin) x = Ok (h', []) /\ WF h' /\
    MovedInto h h' self x (if at_end then without x (kids h self) else []) (if at_end then [] else without x (kids h self)).
Proof.
  intros wf [He Hpl Hr Hne Hup] Hal.
  destruct (take_ok h x wf Hpl Hr) as (h1 & E1 & T & wf1).
  assert (L1 : length h1 = length h) by apply T.
  assert (Hs : self < length h1) by (rewrite L1; exact (element_lt _ _ He)).
  pose proof T as (Sm & Kk & Pp).
  assert (Et : tag_names h1 self = tag_names h self) by apply (same_tag _ _ Sm).
  assert (Ent : ntype_of h1 x = ntype_of h x) by apply (proj2 Sm x).
  assert (Hx1 : x < length h1) by (rewrite L1; apply Hpl).
  assert (Ia : Insertable h1 self [x]).
  { apply (insertable_wf h1 self [x] wf1 Hs).
    - constructor; [intros [] | constructor].
    - intros y [<- | []]. split; [exact Hx1|]. split; [congruence | exact (takenout_unattached _ _ _ T)]. }
  destruct (insert_inside_ok h1 self at_end [x] Ia) as (h' & E2 & ins). rewrite Kk in ins.
  exists h'. split; [|split].
  - unfold insert_adjacent.
    rewrite (validate_true h self x wf He (not_root_not_document _ _ Hr) Hne Hup). cbn [rbind negb].
    rewrite E1. cbn [rbind fst snd]. cbv zeta.
    assert (Er : remove_not_allowed o h1 (tag_names h1 self) [x] = Ok [x]).
    { rewrite remove_not_allowed_ok. cbn [filter]. rewrite Et, Ent, Hal. reflexivity. }
    destruct at_end; rewrite Er; cbn [rbind]; rewrite E2; reflexivity.
  - apply (inserted_wf h1 h' self _ _ _ wf1 ins).
    + left. rewrite (same_element _ _ Sm). exact He.
    + exact Hs.
    + intros y [<- | []]. split; [exact Hx1|]. split; [congruence|]. split; [|split].
      * rewrite (takenout_up _ _ _ T). exact Hup.
      * rewrite (same_root _ _ Sm). exact Hr.
      * exact (takenout_unattached _ _ _ T).
  - exact (moved_into _ _ _ _ _ _ _ T ins).
Qed.

Lemma inside_not_allowed o h self (at_end : bool) x : WF h -> Accepts h self x ->
  od_allow_insert o (tag_names h self) (ntype_of h x) = false ->
  exists h', insert_adjacent o h self (if at_end then BeforeEnd else AfterBegin) x = Ok (h', []) /\ WF h' /\
    TakenOut h h' x.
Proof.
  intros wf [He Hpl Hr Hne Hup] Hal.
  destruct (take_ok h x wf Hpl Hr) as (h1 & E1 & T & wf1). pose proof T as (Sm & Kk & Pp).
  assert (Et : tag_names h1 self = tag_names h self) by apply (same_tag _ _ Sm).
  assert (Ent : ntype_of h1 x = ntype_of h x) by apply (proj2 Sm x).
  exists h1. split; [|split; [exact wf1 | exact T]].
  unfold insert_adjacent.
  rewrite (validate_true h self x wf He (not_root_not_document _ _ Hr) Hne Hup). cbn [rbind negb].
  rewrite E1. cbn [rbind fst snd]. cbv zeta.
  assert (Er : remove_not_allowed o h1 (tag_names h1 self) [x] = Ok []).
  { rewrite remove_not_allowed_ok. cbn [filter]. rewrite Et, Ent, Hal. reflexivity. }
  destruct at_end; rewrite Er; reflexivity.
Qed.

Lemma nodup_cut (l : list id) l1 l2 a i : l = l1 ++ a :: l2 -> NoDup l -> nth_error l i = Some a ->
  firstn i l = l1 /\ skipn i l = a :: l2 /\ firstn (S i) l = l1 ++ [a] /\ skipn (S i) l = l2.
Proof.
  intros E Hn Hi. assert (Ei : i = length l1).
  { assert (Hj : nth_error l (length l1) = Some a).
    { rewrite E, nth_error_app2 by lia. rewrite Nat.sub_diag. reflexivity. }
    rewrite NoDup_nth_error in Hn. apply Hn.
    - apply nth_error_Some. rewrite Hi. discriminate.
    - congruence. }
  subst i. clear Hi Hn. subst l. split; [|split; [|split]].
  - rewrite firstn_app, Nat.sub_diag, firstn_all, app_nil_r. reflexivity.
  - rewrite skipn_app, Nat.sub_diag, skipn_all. reflexivity.
  - rewrite firstn_app. replace (S (length l1) - length l1) with 1 by lia. rewrite firstn_all2 by lia. reflexivity.
  - rewrite skipn_app. replace (S (length l1) - length l1) with 1 by lia. rewrite skipn_all2 by lia. reflexivity.
Qed.

Lemma beside_ok o h self p (after_ : bool) x l1 l2 : WF h -> Accepts h self x ->
  Child h p self -> without x (kids h p) = l1 ++ self :: l2 ->
  exists h', insert_adjacent o h self (if after_ then AfterEnd else BeforeBegin) x = Ok (h', []) /\ WF h' /\
    MovedInto h h' p x (if after_ then l1 ++ [self] else l1) (if after_ then l2 else self :: l2).
Proof.
  intros wf [He Hpl Hr Hne Hup] Hc Ew.
  destruct (take_ok h x wf Hpl Hr) as (h1 & E1 & T & wf1).
  assert (L1 : length h1 = length h) by apply T.
  pose proof T as (Sm & Kk & Pp).
  pose proof (child_parent h wf _ _ Hc) as Epar.
  pose proof (takenout_kids_listed _ _ _ _ _ T Hc Hne) as (i & Hl).
  assert (Hxp : x <> p).
  { intros ->. apply Hup. constructor. exact Epar. }
  assert (Hp1 : p < length h1) by (rewrite L1; apply (wf_parent h wf _ _ Epar)).
  assert (Hx1 : x < length h1) by (rewrite L1; apply Hpl).
  assert (Ia : Insertable h1 p [x]).
  { apply (insertable_wf h1 p [x] wf1 Hp1).
    - constructor; [intros [] | constructor].
    - intros y [<- | []]. split; [exact Hx1|]. split; [exact Hxp | exact (takenout_unattached _ _ _ T)]. }
  destruct (insert_beside_ok h1 p i self after_ [x] Ia) as (h' & E2 & ins).
  { rewrite Pp. exact Epar. }
  { exact Hl. }
  rewrite Kk in ins. unfold Listed in Hl. rewrite Kk in Hl.
  assert (Hnd : NoDup (without x (kids h p))) by (rewrite <- Kk; exact (kids_nodup h1 wf1 p)).
  destruct (nodup_cut _ _ _ _ _ Ew Hnd Hl) as (C1 & C2 & C3 & C4).
  assert (ins' : Inserted h1 h' p (if after_ then l1 ++ [self] else l1) [x] (if after_ then l2 else self :: l2)).
  { destruct after_; [rewrite C3, C4 in ins | rewrite C1, C2 in ins]; exact ins. }
  exists h'. split; [|split].
  - unfold insert_adjacent.
    rewrite (validate_true h self x wf He (not_root_not_document _ _ Hr) Hne Hup). cbn [rbind negb].
    rewrite E1. cbn [rbind fst snd]. cbv zeta.
    destruct after_; cbn [rbind]; rewrite E2; reflexivity.
  - apply (inserted_wf h1 h' p _ _ _ wf1 ins').
    + destruct (wf_parent h wf _ _ Epar) as [_ Hco]. exact (same_container _ _ Sm p Hco).
    + exact Hp1.
    + intros y [<- | []]. split; [exact Hx1|]. split; [exact Hxp|]. split; [|split].
      * rewrite (takenout_up _ _ _ T). intros Hu. apply Hup. exact (up_first _ _ _ _ Epar (or_intror Hu)).
      * rewrite (same_root _ _ Sm). exact Hr.
      * exact (takenout_unattached _ _ _ T).
  - exact (moved_into _ _ _ _ _ _ _ T ins').
Qed.

(** A refused insertion. *)
Lemma refused o h self pos x : WF h ->
  (is_element h self = false \/ is_document h x = true \/ AncEq h x self) ->
  insert_adjacent o h self pos x = Ok (h, halt h self).
Proof.
  intros wf H. unfold insert_adjacent. rewrite (validate_false h self x wf); [reflexivity|].
  destruct H as [H | [H | [H | H]]].
  - left. exact H.
  - right. left. exact H.
  - right. right. left. congruence.
  - right. right. right. exact (anc_up h wf _ _ H).
Qed.

(** * Replacement *)
Lemma replace_ok h p x y : WF h -> Child h p x -> Placed h y -> is_root h y = false -> x <> y -> ~ Up h x y ->
  exists h' l1 l2, replace_with h x y = Ok (h', y) /\ WF h' /\ ReplacedBy h h' p x y l1 l2.
Proof.
  intros wf Hc Hpl Hr Hne Hup.
  destruct (take_ok h y wf Hpl Hr) as (h1 & E1 & T & wf1).
  assert (L1 : length h1 = length h) by apply T.
  pose proof T as (Sm & Kk & Pp).
  pose proof (child_parent h wf _ _ Hc) as Epar.
  pose proof (takenout_kids_listed _ _ _ _ _ T Hc Hne) as Hc1. pose proof Hc1 as (i & Hl).
  assert (Hyp : y <> p).
  { intros ->. apply Hup. constructor. exact Epar. }
  assert (Hp1 : p < length h1) by (rewrite L1; apply (wf_parent h wf _ _ Epar)).
  assert (Hy1 : y < length h1) by (rewrite L1; apply Hpl).
  pose proof (listed_index h1 wf1 _ _ _ Hl) as Ei.
  destruct (remove_child_ok h1 p x wf1 Hc1) as (h2 & _ & T2 & I2 & _ & _ & X2).
  pose proof (takenout_wf h1 h2 x wf1 T2 I2) as wf2. pose proof T2 as (Sm2 & Kk2 & Pp2).
  set (cs := kids h1 p) in *.
  destruct (nth_split_nodup cs i x (kids_nodup h1 wf1 p) Hl) as (Es & Hx1 & Hx2 & Ew).
  set (l1 := firstn i cs) in *. set (l2 := skipn (S i) cs) in *.
  assert (Hi : i < length cs).
  { apply nth_error_Some. unfold Listed in Hl. fold cs in Hl. rewrite Hl. discriminate. }
  assert (El : length l1 = i) by (unfold l1; rewrite firstn_length; lia).
  assert (Ec : childs h1 p = Some cs) by (apply (in_kids_childs h1 p x); exact (listed_in _ _ _ _ Hl)).
  assert (Hycs : ~ In y cs).
  { unfold cs. rewrite Kk. intros H. apply without_in in H. tauto. }
  assert (Hyl : ~ In y l1 /\ ~ In y l2).
  { rewrite Es in Hycs. rewrite in_app_iff in Hycs. cbn in Hycs. tauto. }
  pose proof (three_segments_raw h1 l1 [y] l2) as Tr. rewrite El in Tr.
  destruct Tr as [T1' T2'].
  { pose proof (kids_nodup h1 wf1 p) as Hn. fold cs in Hn. rewrite Es in Hn. exact (NoDup_remove_1 _ _ _ Hn). }
  { constructor; [intros [] | constructor]. }
  { intros z [<- | []]. split; [exact Hy1 | exact Hyl]. }
  { intros c Hc2. assert (Hin : In c (kids h1 p)).
    { fold cs. rewrite Es. apply in_or_app. right. right. exact Hc2. }
    apply child_in in Hin. destruct Hin as (j & Hin). apply (wf_listed h1 wf1 _ _ _ Hin). }
  { intros j c Hj. apply (listed_index h1 wf1 p). unfold Listed. fold cs. rewrite Es, nth_error_app1; [exact Hj|].
    apply nth_error_Some. rewrite Hj. discriminate. }
  change (length [y]) with 1 in T1', T2'.
  set (h3 := reset_index (reset_index h1 i [y]) (i + 1) l2) in *.
  set (h' := upd (set_parents h3 p [y]) p (set_ch (Some (l1 ++ [y] ++ l2)))).
  assert (L3 : length h3 = length h1) by (unfold h3; rewrite !length_reset; reflexivity).
  assert (ins : Inserted h2 h' p l1 [y] l2).
  { split.
    - assert (S1 : SameNodes h1 h').
      { apply same_nodes_trans with (h1 := set_parents h3 p [y]); [|apply same_nodes_set_ch].
        apply same_nodes_trans with (h1 := h3); [|apply same_nodes_set_parents].
        apply same_nodes_trans with (h1 := reset_index h1 i [y]); apply same_nodes_reset. }
      clear - S1 Sm2. destruct S1 as [A1 B1], Sm2 as [A2 B2]. split; [congruence|]. intros z.
      destruct (B1 z) as (C1 & C2 & C3 & C4), (B2 z) as (D1 & D2 & D3 & D4).
      split; [congruence|]. split; [congruence|]. split; congruence.
    - rewrite Kk2. exact Ew.
    - unfold h'. rewrite kids_set_ch by (rewrite length_set_parents; lia). reflexivity.
    - intros q Hq. unfold h'. rewrite kids_set_ch_other by exact Hq. rewrite kids_set_parents. unfold h3.
      rewrite !kids_reset, Kk2. symmetry. apply without_notin. intros H. apply child_in in H. destruct H as (j & H).
      destruct (listed_inj h1 wf1 _ _ _ _ _ Hl H) as [E _]. congruence.
    - intros z Hz. unfold h'. rewrite parent_set_ch. apply parent_set_parents; [exact Hz|].
      destruct Hz as [<- | []]. lia.
    - intros z Hz. unfold h'. rewrite parent_set_ch, parent_set_parents_other by exact Hz. unfold h3.
      rewrite !parent_reset. symmetry. apply Pp2.
    - intros j c Hj. unfold h'. rewrite index_set_ch, index_set_parents. exact (T1' j c Hj).
    - intros c Hcn. unfold h'. rewrite index_set_ch, index_set_parents, (T2' c Hcn).
      symmetry. apply X2. fold cs. rewrite Ew. rewrite !in_app_iff in *. tauto. }
  exists h', l1, l2. split; [|split].
  - unfold replace_with. rewrite E1. cbn [rbind fst snd]. cbv zeta.
    rewrite (not_root_not_fragment _ _ Hr). rewrite Ei, Pp, Epar, Ec.
    assert (Hin1 : includes [y] x = false).
    { unfold includes. cbn. rewrite orb_false_r. apply Nat.eqb_neq. congruence. }
    assert (Hin2 : includes [y] p = false).
    { unfold includes. cbn. rewrite orb_false_r. apply Nat.eqb_neq. congruence. }
    rewrite Hin1, Hin2. cbn [orb].
    replace (i <? length cs) with true by (symmetry; apply Nat.ltb_lt; exact Hi).
    replace (S i <=? length cs) with true by (symmetry; apply Nat.leb_le; exact Hi).
    cbn [rbind]. reflexivity.
  - apply (inserted_wf h2 h' p _ _ _ wf2 ins).
    + destruct (wf_parent h wf _ _ Epar) as [_ Hco].
      exact (same_container _ _ Sm2 p (same_container _ _ Sm p Hco)).
    + rewrite (proj1 Sm2). exact Hp1.
    + intros z [<- | []]. split; [rewrite (proj1 Sm2); exact Hy1|]. split; [exact Hyp|]. split; [|split].
      * rewrite (takenout_up _ _ _ T2), (takenout_up _ _ _ T). intros Hu. apply Hup.
        exact (up_first _ _ _ _ Epar (or_intror Hu)).
      * rewrite (same_root _ _ Sm2), (same_root _ _ Sm). exact Hr.
      * intros (q & Ha). apply child_in in Ha. rewrite Kk2, Kk in Ha. apply without_in in Ha. destruct Ha as [Ha _].
        apply without_in in Ha. tauto.
  - split; [exact (same_nodes_trans _ _ _ (same_nodes_trans _ _ _ Sm Sm2) (ins_same _ _ _ _ _ _ ins))|].
    split; [rewrite <- Kk; exact Es|].
    split; [exact (ins_new _ _ _ _ _ _ ins)|].
    split.
    { intros q Hq. rewrite (ins_other _ _ _ _ _ _ ins q Hq), Kk2, Kk. apply without_notin.
      rewrite <- Kk. intros H. apply child_in in H. destruct H as (j & H).
      destruct (listed_inj h1 wf1 _ _ _ _ _ Hl H) as [E _]. congruence. }
    split; [apply (ins_par _ _ _ _ _ _ ins); left; reflexivity|].
    intros z Hz. rewrite (ins_par_other _ _ _ _ _ _ ins), Pp2; [apply Pp|]. intros [H | []]. congruence.
Qed.
