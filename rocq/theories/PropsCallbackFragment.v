(** Property theorems: when insertions of fragments, refused insertions, texts appended to and removals of any node from a
    walk clash (C67). *)
From Verif Require Import Base Utils Attr Dom DomSpec DomProofs Sets SetsProofs Mutate MutateSpec MutateProofs InsertProofs HistoryProofs DomBuild DomBuildProofs
  PropsSets PropsMutate PropsAttr Html HtmlSpec HtmlProofs Live LiveSpec LiveProofs PropsFilter PropsLive Borrow BorrowSpec BorrowProofs ClassOps BorrowSets BorrowSetsProofs
  PropsBorrow Callback CallbackSpec CallbackProofs CallbackAny PropsCallback PropsCallbackMore PropsCallbackInsert.

(** The nodes an insertion of the fragment [x] writes to, which are none if there is no node to insert: the inserted ones,
    and the element or its parent with the siblings that are renumbered.  The fragment is not among them. *)
Definition FragmentTouches (o : oracles_dom) (h : heap) (self : id) (pos : position_) (x y : id) : Prop :=
  let moved k := Child h x k /\ match pos with
                                | BeforeEnd | AfterBegin => od_allow_insert o (tag_names h self) (ntype_of h k) = true
                                | _ => True
                                end in
  (exists k, moved k) /\
  (y = self \/ moved y \/
   match pos with
   | BeforeEnd => False
   | AfterBegin => Child h self y
   | BeforeBegin | AfterEnd => Touched h self y
   end).

Lemma held_more l ms rs : (forall y, In y l -> ~ In (CNode y) ms) ->
  existsb (fun y => held (mkGuards ms rs) (CNode y)) l = existsb (fun y => held (mkGuards [] rs) (CNode y)) l.
Proof.
  intros H. induction l as [|y l IH]; cbn [existsb]; [reflexivity|]. rewrite IH by (intros z Hz; apply H; right; exact Hz). f_equal.
  unfold held. cbn [g_mut g_ref existsb orb]. replace (existsb (cell_eqb (CNode y)) ms) with false; [reflexivity|].
  symmetry. apply not_true_is_false. intros E. apply cell_in in E. exact (H y (or_introl eq_refl) E).
Qed.
Lemma none_read rs l : existsb (fun y => held (mkGuards [] rs) (CNode y)) l = false -> forall y, In y l -> ~ In (CNode y) rs.
Proof. intros E y Hy Hr. assert (existsb (fun y => held (mkGuards [] rs) (CNode y)) l = true) by (apply any_held; exists y; tauto). congruence. Qed.
Lemma inside_list h self (at_end : bool) ns rs : WF h -> ~ In self ns ->
  (b_inside self at_end ns (mkGuards [] rs) h = BClash <->
   exists y, In (CNode y) rs /\ (y = self \/ In y ns \/ (at_end = false /\ In y (kids h self)))).
Proof.
  intros wf Hs. unfold b_inside. rewrite bind_eq, set_parents_eq.
  destruct (existsb (fun y => held (mkGuards [] rs) (CNode y)) ns) eqn:En.
  { split; [|reflexivity]. intros _. apply any_held in En. destruct En as (y & H1 & H2). exists y. tauto. }
  pose proof (none_read _ _ En) as Nn. set (h1 := set_parents h self ns). rewrite bind_eq. unfold holding_mut. cbn [g_mut g_ref existsb orb].
  destruct (existsb (cell_eqb (CNode self)) rs) eqn:Es.
  { split; [intros _; exists self; split; [apply cell_in; exact Es | tauto] | reflexivity]. }
  assert (Ns : ~ In (CNode self) rs) by (intros H; apply cell_in in H; congruence).
  rewrite bind_eq. unfold see at 1. change (n_childs (node_of h1 self)) with (childs h1 self).
  assert (Ec : childs h1 self = childs h self) by apply childs_set_parents. rewrite Ec. unfold kids.
  assert (Hn : forall l, ~ In self l -> forall y, In y l -> ~ In (CNode y) [CNode self]).
  { intros l N y Hy [F | []]. injection F as <-. exact (N Hy). }
  pose proof (not_own_kid h self wf) as Hk. unfold kids in Hk. destruct (childs h self) as [cs|].
  - rewrite bind_eq. destruct at_end.
    + rewrite bind_eq, reset_eq, (held_more ns _ _ (Hn ns Hs)), En. unfold put, ret. split; [discriminate|].
      intros (y & Hr & [-> | [H | (F & _)]]); [contradiction | destruct (Nn y H Hr) | discriminate].
    + rewrite bind_eq, reset_eq, (held_more ns _ _ (Hn ns Hs)), En, bind_eq, reset_eq, (held_more cs _ _ (Hn cs Hk)).
      destruct (existsb (fun y => held (mkGuards [] rs) (CNode y)) cs) eqn:Eh.
      * split; [|reflexivity]. intros _. apply any_held in Eh. destruct Eh as (y & Hy & Hr). exists y. tauto.
      * unfold put, ret. split; [discriminate|]. intros (y & Hr & [-> | [H | (_ & H)]]); [contradiction | destruct (Nn y H Hr) | destruct (none_read _ _ Eh y H Hr)].
  - unfold ret at 1. rewrite bind_eq, reset_eq, En, write_eq. unfold held. cbn [g_mut g_ref existsb orb]. rewrite Es. split; [discriminate|].
    intros (y & Hr & [-> | [H | (_ & [])]]); [contradiction | destruct (Nn y H Hr)].
Qed.
Lemma beside_list h self ns (after : bool) rs q l1 l2 : WF h -> ~ In self ns -> ~ In q ns -> kids h q = l1 ++ self :: l2 ->
  (b_beside self after ns (mkGuards [] rs) h = BClash <-> exists y, In (CNode y) rs /\ (y = self \/ In y ns \/ y = q \/ In y l2)).
Proof.
  intros wf Hne Hqx Ek.
  assert (Hl : Listed h q (length l1) self) by (unfold Listed; rewrite Ek, nth_error_app2, Nat.sub_diag by lia; reflexivity).
  destruct (wf_listed h wf _ _ _ Hl) as (_ & Hp & Hi).
  assert (Hqs : q <> self) by (intros ->; exact (not_own h self wf Hp)).
  assert (Ec : childs h q = Some (l1 ++ self :: l2)) by (unfold kids in Ek; destruct (childs h q); [congruence | destruct l1; discriminate]).
  unfold b_beside. rewrite bind_eq, index_eq by reflexivity. cbv zeta. rewrite Hi. set (i := if after then S (length l1) else length l1).
  rewrite bind_eq, reset_eq. destruct (existsb (fun y => held (mkGuards [] rs) (CNode y)) ns) eqn:Ex.
  { split; [|reflexivity]. intros _. apply any_held in Ex. destruct Ex as (y & H1 & H2). exists y. tauto. }
  pose proof (none_read _ _ Ex) as Nx.
  set (h1 := reset_index h i ns). rewrite bind_eq. unfold holding_mut at 1. cbn [g_mut g_ref existsb orb].
  destruct (existsb (cell_eqb (CNode self)) rs) eqn:Es.
  { split; [intros _; exists self; split; [apply cell_in; exact Es | tauto] | reflexivity]. }
  assert (Ns : ~ In (CNode self) rs) by (intros H; apply cell_in in H; congruence).
  rewrite bind_eq. unfold see at 1. change (n_parent (node_of h1 self)) with (parent h1 self).
  assert (Ep1 : parent h1 self = Some q) by (unfold h1; rewrite parent_reset; exact Hp). rewrite Ep1.
  unfold holding_mut at 1. cbn [g_mut g_ref existsb cell_eqb orb]. replace (Nat.eqb q self) with false by (symmetry; apply Nat.eqb_neq; exact Hqs). cbn [orb].
  destruct (existsb (cell_eqb (CNode q)) rs) eqn:Eq.
  { split; [intros _; exists q; split; [apply cell_in; exact Eq | tauto] | reflexivity]. }
  assert (Nq : ~ In (CNode q) rs) by (intros H; apply cell_in in H; congruence).
  rewrite bind_eq. unfold see at 1. change (n_childs (node_of h1 q)) with (childs h1 q).
  assert (Ec1 : childs h1 q = Some (l1 ++ self :: l2)) by (unfold h1; rewrite childs_reset; exact Ec). rewrite Ec1.
  rewrite bind_eq, set_parents_eq, (held_more ns), Ex.
  2: { intros y Hy [F | [F | []]]; injection F as <-; contradiction. }
  rewrite bind_eq. unfold put at 1, ret at 1.
  set (h3 := upd (set_parents h1 q ns) q _).
  assert (Hn : forall y, In (CNode y) rs -> (In y (if i <? length (l1 ++ self :: l2) then skipn i (l1 ++ self :: l2) else []) <-> In y l2)).
  { intros y Hy. unfold i. rewrite app_length. cbn [length]. destruct after.
    - rewrite skipn_app, skipn_all2 by lia. replace (S (length l1) - length l1) with 1 by lia. cbn [skipn app].
      destruct (S (length l1) <? length l1 + S (length l2)) eqn:E; [reflexivity|]. apply Nat.ltb_ge in E. destruct l2; [reflexivity | cbn in E; lia].
    - replace (length l1 <? length l1 + S (length l2)) with true by (symmetry; apply Nat.ltb_lt; lia).
      rewrite skipn_app, skipn_all, Nat.sub_diag. cbn [skipn app In]. split; [intros [-> | H]; [contradiction | exact H] | tauto]. }
  destruct (if i <? length (l1 ++ self :: l2) then skipn i (l1 ++ self :: l2) else []) as [|n nexts].
  { split; [discriminate|]. intros (y & Hr & [-> | [H | [-> | Hy]]]); try contradiction; [destruct (Nx y H Hr) | destruct (proj2 (Hn y Hr) Hy)]. }
  rewrite bind_eq, reset_eq. destruct (existsb (fun y => held (mkGuards [] rs) (CNode y)) (n :: nexts)) eqn:Eh.
  { split; [|reflexivity]. intros _. apply any_held in Eh. destruct Eh as (y & Hy & Hr). exists y. split; [exact Hr|]. do 3 right. exact (proj1 (Hn y Hr) Hy). }
  set (h4 := reset_index h3 _ (n :: nexts)). split.
  2: { intros (y & Hr & [-> | [H | [-> | Hy]]]); try contradiction; [destruct (Nx y H Hr)|]. destruct (none_read _ _ Eh y (proj2 (Hn y Hr) Hy) Hr). }
  unfold holding_mut at 1. cbn [g_mut g_ref existsb orb]. rewrite Es, bind_eq. unfold see at 1. change (n_parent (node_of h4 self)) with (parent h4 self).
  assert (E4 : parent h4 self = Some q).
  { unfold h4, h3, h1. rewrite parent_reset, parent_set_ch, parent_set_parents_other, parent_reset; [exact Hp | exact Hne]. }
  rewrite E4. unfold holding_mut. cbn [g_mut g_ref existsb cell_eqb orb]. replace (Nat.eqb q self) with false by (symmetry; apply Nat.eqb_neq; exact Hqs). cbn [orb]. rewrite Eq.
  rewrite bind_eq. unfold see, put, ret. destruct (n_childs (node_of h4 q)); discriminate.
Qed.
Lemma beside_list_none h self ns (after : bool) rs : parent h self = None ->
  (b_beside self after ns (mkGuards [] rs) h = BClash <-> exists y, In (CNode y) rs /\ (y = self \/ In y ns)).
Proof.
  intros Hp. unfold b_beside. rewrite bind_eq, index_eq by reflexivity. cbv zeta. set (i := if after then _ else _).
  rewrite bind_eq, reset_eq. destruct (existsb (fun y => held (mkGuards [] rs) (CNode y)) ns) eqn:Ex.
  { split; [|reflexivity]. intros _. apply any_held in Ex. destruct Ex as (y & H1 & H2). exists y. tauto. }
  set (h1 := reset_index h i ns). rewrite bind_eq. unfold holding_mut at 1. cbn [g_mut g_ref existsb orb].
  destruct (existsb (cell_eqb (CNode self)) rs) eqn:Es.
  { split; [intros _; exists self; split; [apply cell_in; exact Es | tauto] | reflexivity]. }
  rewrite bind_eq. unfold see at 1. change (n_parent (node_of h1 self)) with (parent h1 self).
  assert (Ep1 : parent h1 self = None) by (unfold h1; rewrite parent_reset; exact Hp). rewrite Ep1. unfold ret. split; [discriminate|].
  intros (y & Hy & [-> | H]); [apply cell_in in Hy; congruence | destruct (none_read _ _ Ex y H Hy)].
Qed.

(** * C67: insertions of fragments from a walk *)
(** Inserting the contents of a fragment clashes exactly when one of the nodes this writes to is being read, the fragment
    itself not being one; otherwise it has its usual outcome. *)
Theorem C67_insert_fragment o h self pos x rs : WF h -> is_fragment h x = true -> is_element h self = true -> ~ Up h self x ->
  (pos = BeforeBegin \/ pos = AfterEnd -> Placed h self) ->
  (b_insert_adjacent o (S (length h)) self pos x (mkGuards [] rs) h = BClash <-> exists y, In (CNode y) rs /\ FragmentTouches o h self pos x y) /\
  (b_insert_adjacent o (S (length h)) self pos x (mkGuards [] rs) h <> BClash ->
   b_insert_adjacent o (S (length h)) self pos x (mkGuards [] rs) h = as_b (insert_adjacent o h self pos x)).
Proof.
  intros wf Hf He Hup Hat. split.
  2: { intros Hn. rewrite <- (insert_adjacent_eq o h self pos x wf).
       destruct (proj1 (fr_insert [] o (S (length h)) self pos x [] [] h (fun x (F : In x []) => match F with end) (fun c (F : In c []) => match F with end)) rs) as [E | E]; [exfalso; exact (Hn E) | exact E]. }
  assert (Hne : self <> x).
  { intros ->. unfold is_fragment in Hf. unfold is_element in He. destruct (ntype_of h x); discriminate. }
  assert (Hdoc : is_document h x = false) by (unfold is_document; unfold is_fragment in Hf; destruct (ntype_of h x) as [[]| | | | | | |]; try discriminate; reflexivity).
  assert (Hsx : ~ In self (kids h x)).
  { intros H. apply In_nth_error in H. destruct H as (k & H). apply Hup. constructor. exact (proj1 (proj2 (wf_listed h wf _ _ _ H))). }
  unfold b_insert_adjacent, FragmentTouches. cbv zeta. destruct (validate_eq self x (mkGuards [] rs) h eq_refl wf) as (b & E1 & E2). rewrite bind_eq, E2.
  destruct (validate_ok h self x wf) as (b' & E1' & Hb). rewrite E1' in E1. injection E1 as ->.
  assert (b = true) as -> by (apply Hb; repeat split; assumption). cbn [fst snd negb].
  assert (En : b_nodes x (mkGuards [] rs) h = BOk (h, kids h x)).
  { unfold b_nodes. rewrite bind_eq, (type_eq x h (mkGuards [] rs) eq_refl). unfold is_fragment in Hf. destruct (ntype_of h x) as [[]| | | | | | |]; try discriminate. reflexivity. }
  rewrite bind_eq, En, bind_eq, (tag_eq self h (mkGuards [] rs) eq_refl), bind_eq.
  set (al := fun k => od_allow_insert o (tag_names h self) (ntype_of h k)).
  assert (Hal : (let! r := b_remove_not_allowed o (tag_names h self) (kids h x) in ret (fst r)) (mkGuards [] rs) h = BOk (h, filter al (kids h x))).
  { rewrite bind_eq, (not_allowed_nodes_eq o _ (kids h x) (mkGuards [] rs) h eq_refl). reflexivity. }
  assert (Hin : forall (m : B unit) ns (P Q : id -> Prop), (forall y, In y ns <-> P y) -> (m (mkGuards [] rs) h = BClash <-> exists y, In (CNode y) rs /\ (y = self \/ In y ns \/ Q y)) ->
    ((match ns with [] => ret [] | _ => m ;; ret ([] : errors) end) (mkGuards [] rs) h = BClash <->
     exists y, In (CNode y) rs /\ (exists k, P k) /\ (y = self \/ P y \/ Q y))).
  { intros m ns P Q HP H. destruct ns as [|n ns].
    - unfold ret. split; [discriminate|]. intros (y & _ & (k & Hk) & _). destruct (proj2 (HP k) Hk).
    - rewrite bind_eq. split.
      + intros E3. destruct (proj1 H) as (y & Hy & Hq); [destruct (m (mkGuards [] rs) h) as [[h2 u]| | |]; [discriminate | reflexivity | discriminate | discriminate]|].
        exists y. split; [exact Hy|]. split; [exists n; apply HP; left; reflexivity|]. rewrite (HP y) in Hq. exact Hq.
      + intros (y & Hy & _ & Hq). rewrite <- (HP y) in Hq. rewrite (proj2 H) by (exists y; tauto). reflexivity. }
  assert (Ha : forall y, In y (filter al (kids h x)) <-> Child h x y /\ od_allow_insert o (tag_names h self) (ntype_of h y) = true).
  { intros y. rewrite filter_In. unfold al. rewrite <- child_in. reflexivity. }
  assert (Hb' : forall y, In y (kids h x) <-> Child h x y /\ True) by (intros y; rewrite child_in; tauto).
  assert (Nsa : ~ In self (filter al (kids h x))) by (rewrite filter_In; tauto).
  assert (Hbe : forall after : bool, pos = BeforeBegin \/ pos = AfterEnd ->
    (b_beside self after (kids h x) (mkGuards [] rs) h = BClash <-> exists y, In (CNode y) rs /\ (y = self \/ In y (kids h x) \/ Touched h self y))).
  { intros after Hpos. destruct (Hat Hpos) as (_ & [Hnone | (q & j & Hj)]).
    { rewrite (beside_list_none h self (kids h x) after rs Hnone). split; intros (y & Hy & H); exists y; (split; [exact Hy|]); [tauto|].
      destruct H as [H | [H | (q & j & Hj & _)]]; [tauto | tauto|]. destruct (wf_listed h wf _ _ _ Hj) as (_ & F & _). congruence. }
    destruct (nth_error_split _ _ Hj) as (l1 & l2 & Ek & Lj).
    assert (Hqx : ~ In q (kids h x)).
    { intros H. apply In_nth_error in H. destruct H as (k & H). apply Hup. apply (Up_step h self q x).
      - constructor. exact (proj1 (proj2 (wf_listed h wf _ _ _ Hj))).
      - exact (proj1 (proj2 (wf_listed h wf _ _ _ H))). }
    rewrite (beside_list h self (kids h x) after rs q l1 l2 wf Hsx Hqx Ek).
    assert (T : forall y, Touched h self y <-> y = q \/ In y l2).
    { assert (L : forall y, In y l2 <-> exists k, j < k /\ Listed h q k y).
      { intros y. assert (E3 : l2 = skipn (S j) (kids h q)).
        { rewrite Ek, skipn_app, skipn_all2 by lia. replace (S j - length l1) with 1 by lia. reflexivity. }
        rewrite E3, skipn_nth. split; intros (k & H1 & H2); exists k; (split; [lia | exact H2]). }
      intros y. split.
      - intros (q' & j' & H1 & H2). destruct (wf_listed h wf _ _ _ H1) as (_ & P1 & I1), (wf_listed h wf _ _ _ Hj) as (_ & P2 & I2).
        assert (Eq' : q' = q) by congruence. assert (Ej' : j' = j) by congruence. rewrite Eq', Ej' in H2. destruct H2 as [-> | H2]; [left; reflexivity | right; apply L; exact H2].
      - intros [-> | H]; exists q, j; (split; [exact Hj|]); [left; reflexivity | right; apply L; exact H]. }
    split; intros (y & Hy & H); exists y; (split; [exact Hy|]); rewrite T in *; exact H. }
  destruct pos.
  - unfold ret at 1. apply Hin; [exact Hb'|]. apply Hbe. tauto.
  - unfold ret at 1. apply Hin; [exact Hb'|]. apply Hbe. tauto.
  - rewrite Hal. apply Hin; [exact Ha|]. rewrite (inside_list h self false _ rs wf Nsa).
    split; intros (y & Hy & H); exists y; (split; [exact Hy|]); rewrite child_in in *; tauto.
  - rewrite Hal. apply Hin; [exact Ha|]. rewrite (inside_list h self true _ rs wf Nsa).
    split; intros (y & Hy & H); exists y; (split; [exact Hy|]); [|tauto]. destruct H as [H | [H | (F & _)]]; [tauto | tauto | discriminate].
Qed.
Print Assumptions C67_insert_fragment.
(** The nodes whose reading makes an insertion of fragment 3, with nodes 4 and 5, clash. *)
Definition ex_frag_clash (self : id) (pos : position_) : list id :=
  filter (fun y => match b_insert_adjacent ex_od 7 self pos 3 (mkGuards [] [CNode y]) ex_frag with BClash => true | _ => false end) (seq 0 6).
Lemma ex_frag_up x y : x = 1 \/ x = 2 -> Up ex_frag x y -> y < 2.
Proof.
  intros Hx H. induction H as [x p H | x q p _ IH H].
  - destruct Hx as [-> | ->]; vm_compute in H; injection H as <-; lia.
  - specialize (IH Hx). destruct q as [|[|q]]; [| |lia]; vm_compute in H; [discriminate|]. injection H as <-. lia.
Qed.
Example C67_insert_fragment_ex : WF ex_frag /\ is_fragment ex_frag 3 = true /\ is_element ex_frag 1 = true /\ ~ Up ex_frag 1 3 /\ Placed ex_frag 1 /\
  ex_frag_clash 1 BeforeBegin = [0; 1; 4; 5] /\ ex_frag_clash 1 AfterEnd = [0; 1; 4; 5] /\ ex_frag_clash 1 AfterBegin = [1; 2; 4; 5] /\ ex_frag_clash 1 BeforeEnd = [1; 4; 5].
Proof.
  split; [exact ex_frag_wf|]. do 2 (split; [reflexivity|]). split; [intros H; apply ex_frag_up in H; lia|]. split; [apply (PropsMutate.placed_check _ _ 0); reflexivity|]. repeat split; vm_compute; reflexivity.
Qed.

(** * C67: replacements by fragments from a walk *)
(** Replacing a node by the contents of a fragment clashes exactly when there are such and a node being read is the node
    replaced, its parent, a sibling behind it, or one of the contents. *)
Theorem C67_replace_fragment h self x rs : WF h -> is_fragment h x = true -> Attached h self -> ~ Up h self x ->
  (b_replace_with self x (mkGuards [] rs) h = BClash <-> exists y, In (CNode y) rs /\ (exists k, Child h x k) /\ (y = self \/ Child h x y \/ Touched h self y)) /\
  (b_replace_with self x (mkGuards [] rs) h <> BClash -> b_replace_with self x (mkGuards [] rs) h = b_replace_with self x no_guards h).
Proof.
  intros wf Hf (q & j & Hj) Hup. split.
  2: { intros Hn. destruct (proj1 (fr_replace [] self x [] [] h (fun x (F : In x []) => match F with end) (fun c (F : In c []) => match F with end)) rs) as [E | E]; [exfalso; exact (Hn E) | exact E]. }
  destruct (wf_listed h wf _ _ _ Hj) as (_ & Hp & Hi).
  assert (Hqs : q <> self) by (intros ->; exact (not_own h self wf Hp)).
  assert (Hsx : ~ In self (kids h x)).
  { intros H. apply In_nth_error in H. destruct H as (k & H). apply Hup. constructor. exact (proj1 (proj2 (wf_listed h wf _ _ _ H))). }
  assert (Hqx : ~ In q (kids h x)).
  { intros H. apply In_nth_error in H. destruct H as (k & H). apply Hup. apply (Up_step h self q x); [constructor; exact Hp | exact (proj1 (proj2 (wf_listed h wf _ _ _ H)))]. }
  destruct (nth_error_split _ _ Hj) as (l1 & l2 & Ek & Lj).
  assert (T : forall y, Touched h self y <-> y = q \/ In y l2).
  { assert (L : forall y, In y l2 <-> exists k, j < k /\ Listed h q k y).
    { intros y. assert (E3 : l2 = skipn (S j) (kids h q)).
      { rewrite Ek, skipn_app, skipn_all2 by lia. replace (S j - length l1) with 1 by lia. reflexivity. }
      rewrite E3, skipn_nth. split; intros (k & H1 & H2); exists k; (split; [lia | exact H2]). }
    intros y. split.
    - intros (q' & j' & H1 & H2). destruct (wf_listed h wf _ _ _ H1) as (_ & P1 & I1).
      assert (Eq' : q' = q) by congruence. assert (Ej' : j' = j) by congruence. rewrite Eq', Ej' in H2. destruct H2 as [-> | H2]; [left; reflexivity | right; apply L; exact H2].
    - intros [-> | H]; exists q, j; (split; [exact Hj|]); [left; reflexivity | right; apply L; exact H]. }
  assert (Ec : childs h q = Some (l1 ++ self :: l2)) by (unfold kids in Ek; destruct (childs h q); [congruence | destruct l1; discriminate]).
  assert (Nq2 : ~ In q l2). { intros H. apply (not_own_kid h q wf). rewrite Ek. apply in_or_app. right. right. exact H. }
  assert (Ns2 : ~ In self l2). { pose proof (kids_nodup h wf q) as Nd. rewrite Ek in Nd. apply NoDup_remove_2 in Nd. intros H. apply Nd. apply in_or_app. right. exact H. }
  assert (Hm : forall l, ~ In q l -> ~ In self l -> forall y, In y l -> ~ In (CNode y) [CNode q; CNode self]).
  { intros l N1 N2 y Hy [F | [F | []]]; injection F as <-; contradiction. }
  unfold b_replace_with. rewrite bind_eq, (type_eq x h (mkGuards [] rs) eq_refl).
  assert (En : b_nodes x (mkGuards [] rs) h = BOk (h, kids h x)).
  { unfold b_nodes. rewrite bind_eq, (type_eq x h (mkGuards [] rs) eq_refl). unfold is_fragment in Hf. destruct (ntype_of h x) as [[]| | | | | | |]; try discriminate. reflexivity. }
  rewrite bind_eq, En. cbv zeta. set (ns := kids h x) in *.
  assert (Hch : forall y, Child h x y <-> In y ns) by (intros y; apply child_in).
  set (new := match ntype_of h x with NRoot false => _ | _ => _ end). clearbody new.
  destruct ns as [|n ns'] eqn:Ens.
  { unfold ret. split; [discriminate|]. intros (y & _ & (k & Hk) & _). apply Hch in Hk. destruct Hk. }
  rewrite <- Ens in *. assert (Hex : exists k, Child h x k) by (exists n; apply Hch; rewrite Ens; left; reflexivity).
  rewrite bind_eq, index_eq by reflexivity. rewrite Hi, bind_eq. unfold holding_mut at 1. cbn [g_mut g_ref existsb orb].
  destruct (existsb (cell_eqb (CNode self)) rs) eqn:Es.
  { split; [intros _; exists self; split; [apply cell_in; exact Es | tauto] | reflexivity]. }
  assert (Ns : ~ In (CNode self) rs) by (intros H; apply cell_in in H; congruence).
  rewrite bind_eq. unfold see at 1. change (n_parent (node_of h self)) with (parent h self). rewrite Hp.
  unfold holding_mut at 1. cbn [g_mut g_ref existsb cell_eqb orb]. replace (Nat.eqb q self) with false by (symmetry; apply Nat.eqb_neq; exact Hqs). cbn [orb].
  destruct (existsb (cell_eqb (CNode q)) rs) eqn:Eq.
  { split; [intros _; exists q; split; [apply cell_in; exact Eq | rewrite T; tauto] | reflexivity]. }
  assert (Nq : ~ In (CNode q) rs) by (intros H; apply cell_in in H; congruence).
  rewrite bind_eq. unfold see at 1. change (n_childs (node_of h q)) with (childs h q). rewrite Ec.
  rewrite bind_eq, reset_eq, (held_more ns _ _ (Hm ns Hqx Hsx)).
  destruct (existsb (fun y => held (mkGuards [] rs) (CNode y)) ns) eqn:Ex.
  { split; [|reflexivity]. intros _. apply any_held in Ex. destruct Ex as (y & H1 & H2). exists y. rewrite Hch. tauto. }
  replace (j <? length (l1 ++ self :: l2)) with true by (symmetry; apply Nat.ltb_lt; rewrite app_length; cbn; lia).
  assert (Sk : skipn (S j) (l1 ++ self :: l2) = l2).
  { rewrite skipn_app, skipn_all2 by lia. replace (S j - length l1) with 1 by lia. reflexivity. }
  rewrite Sk, bind_eq, reset_eq, (held_more l2 _ _ (Hm l2 Nq2 Ns2)).
  destruct (existsb (fun y => held (mkGuards [] rs) (CNode y)) l2) eqn:Eh.
  { split; [|reflexivity]. intros _. apply any_held in Eh. destruct Eh as (y & H1 & H2). exists y. rewrite T. tauto. }
  rewrite bind_eq, set_parents_eq, (held_more ns _ _ (Hm ns Hqx Hsx)), Ex. split; [destruct (_ <=? _); discriminate|].
  intros (y & Hr & _ & [-> | [H | H]]); [contradiction | apply Hch in H; destruct (none_read _ _ Ex y H Hr)|].
  apply T in H. destruct H as [-> | H]; [contradiction | destruct (none_read _ _ Eh y H Hr)].
Qed.
Print Assumptions C67_replace_fragment.
(** Node 2, the only child of 1, by the contents of fragment 3. *)
Example C67_replace_fragment_ex : WF ex_frag /\ is_fragment ex_frag 3 = true /\ Attached ex_frag 2 /\ ~ Up ex_frag 2 3 /\
  filter (fun y => match b_replace_with 2 3 (mkGuards [] [CNode y]) ex_frag with BClash => true | _ => false end) (seq 0 6) = [1; 2; 4; 5].
Proof. split; [exact ex_frag_wf|]. split; [reflexivity|]. split; [exists 1, 0; reflexivity|]. split; [intros H; apply ex_frag_up in H; lia | vm_compute; reflexivity]. Qed.

(** * C67: refused insertions and calls that append to texts *)
(** An insertion that is refused does so whatever is being read, leaves the nodes alone and is reported as usual. *)
Theorem C67_insert_refused o h self pos x rs : WF h ->
  is_element h self = false \/ is_document h x = true \/ self = x \/ Up h self x ->
  b_insert_adjacent o (S (length h)) self pos x (mkGuards [] rs) h = BOk (h, halt h self).
Proof.
  intros wf H. unfold b_insert_adjacent. destruct (validate_eq self x (mkGuards [] rs) h eq_refl wf) as (b & E1 & E2). rewrite bind_eq, E2.
  destruct (validate_ok h self x wf) as (b' & E1' & Hb). rewrite E1' in E1. injection E1 as ->. destruct b; [|reflexivity].
  destruct (proj1 Hb eq_refl) as (A & B & C & D). destruct H as [H | [H | [H | H]]]; [congruence | congruence | contradiction | contradiction].
Qed.
Print Assumptions C67_insert_refused.
(** Of element 1: into its own child 2, at text 3, and of the document, with all nodes being read. *)
Example C67_insert_refused_ex : WF ex_doc /\ Up ex_doc 2 1 /\ is_element ex_doc 3 = false /\ is_document ex_doc 0 = true /\
  forall self x, In (self, x) [(2, 1); (3, 1); (1, 0); (1, 1)] ->
    b_insert_adjacent ex_od 8 self BeforeEnd x (mkGuards [] (map CNode (seq 0 7))) ex_doc = BOk (ex_doc, halt ex_doc self).
Proof.
  split; [exact ex_doc_wf|]. split; [apply Up_parent; reflexivity|]. do 2 (split; [reflexivity|]).
  intros self x [H | [H | [H | [H | []]]]]; injection H as <- <-; vm_compute; reflexivity.
Qed.
(** Appending and prepending to a text clash exactly when the text is being read, or has no content: then also outside of
    any walk. *)
Theorem C67_append_text x t rs h :
  (b_append_text x t (mkGuards [] rs) h = BClash <-> In (CNode x) rs \/ n_content (node_of h x) = None) /\
  (b_prepend_text x t (mkGuards [] rs) h = BClash <-> In (CNode x) rs \/ n_content (node_of h x) = None) /\
  (forall c, ~ In (CNode x) rs -> n_content (node_of h x) = Some c ->
   b_append_text x t (mkGuards [] rs) h = BOk (upd h x (set_con (Some (c ++ t))), tt) /\
   b_prepend_text x t (mkGuards [] rs) h = BOk (upd h x (set_con (Some (t ++ c))), tt)).
Proof.
  assert (W : forall f g, write x f (mkGuards [CNode x] g) h = BClash).
  { intros f g. rewrite write_eq. unfold held. cbn [g_mut g_ref existsb cell_eqb]. rewrite Nat.eqb_refl. reflexivity. }
  unfold b_append_text, b_prepend_text, holding_mut. cbn [g_mut g_ref existsb orb]. destruct (existsb (cell_eqb (CNode x)) rs) eqn:Es.
  { apply cell_in in Es. split; [tauto|]. split; [tauto | intros c F; contradiction]. }
  assert (N : ~ In (CNode x) rs) by (intros H; apply cell_in in H; congruence).
  rewrite !bind_eq. unfold see. destruct (n_content (node_of h x)) as [c|].
  - unfold put. split; [split; [discriminate | intros [H | H]; [contradiction | discriminate]]|].
    split; [split; [discriminate | intros [H | H]; [contradiction | discriminate]]|]. intros c' _ H. injection H as <-. split; reflexivity.
  - rewrite !W. split; [tauto|]. split; [tauto|]. discriminate.
Qed.
Print Assumptions C67_append_text.
Example C67_append_text_ex : n_content (node_of ex_doc 3) = Some (lit "t") /\ n_content (node_of ex_doc 2) = None /\
  filter (fun y => match b_append_text 3 (lit "u") (mkGuards [] [CNode y]) ex_doc with BClash => true | _ => false end) (seq 0 7) = [3].
Proof. repeat split; vm_compute; reflexivity. Qed.

(** * C67: removals of any node *)
Lemma fr_remove_one X x : Framed X (b_remove_one x).
Proof. unfold b_remove_one. frs; apply fr_remove_child. Qed.
(** Also a node that was taken out before, or is not where it was, remembers a parent and a place in it: removing it
    clashes exactly when this parent or one of its children behind the place is being read; otherwise the outcome is the
    usual one (C25). *)
Theorem C67_remove_any h x rs : WF h ->
  (b_remove_one x (mkGuards [] rs) h = BClash <->
   exists p y, parent h x = Some p /\ In (CNode y) rs /\ (y = p \/ exists k, index h x < k /\ Listed h p k y)) /\
  (b_remove_one x (mkGuards [] rs) h <> BClash -> b_remove_one x (mkGuards [] rs) h = silent (remove_one h x)).
Proof.
  intros wf. split.
  2: { intros Hn. rewrite <- (remove_one_eq h x wf).
       destruct (proj1 (fr_remove_one [] x [] [] h (fun x (F : In x []) => match F with end) (fun c (F : In c []) => match F with end)) rs) as [E | E]; [exfalso; exact (Hn E) | exact E]. }
  unfold b_remove_one. rewrite bind_eq, (parent_eq x h (mkGuards [] rs) eq_refl). destruct (parent h x) as [p|] eqn:Hp.
  2: { unfold ret. split; [discriminate | intros (p & y & F & _); discriminate]. }
  assert (Hpx : p <> x) by (intros ->; exact (not_own h x wf Hp)).
  unfold b_remove_child. rewrite bind_eq, (parent_eq x h (mkGuards [] rs) eq_refl), Hp, Nat.eqb_refl. unfold holding_mut. cbn [g_mut g_ref existsb orb].
  destruct (existsb (cell_eqb (CNode p)) rs) eqn:Ep.
  { apply cell_in in Ep. split; [intros _; exists p, p; tauto | reflexivity]. }
  assert (Np : ~ In (CNode p) rs) by (intros H; apply cell_in in H; congruence).
  rewrite bind_eq. unfold see at 1. change (n_childs (node_of h p)) with (childs h p).
  assert (No : (exists q y, Some p = Some q /\ In (CNode y) rs /\ (y = q \/ exists k, index h x < k /\ Listed h q k y)) <->
    exists y, In y (skipn (S (index h x)) (kids h p)) /\ In (CNode y) rs).
  { split.
    - intros (q & y & E & Hr & H). injection E as <-. destruct H as [-> | (k & Hk & Hl)]; [contradiction|]. exists y. split; [|exact Hr].
      apply skipn_nth. exists k. split; [lia | exact Hl].
    - intros (y & H & Hr). apply skipn_nth in H. destruct H as (k & Hk & Hl). exists p, y. split; [reflexivity|]. split; [exact Hr|]. right. exists k. split; [lia | exact Hl]. }
  rewrite No. pose proof (not_own_kid h p wf) as Hk. unfold kids in *. destruct (childs h p) as [cs|].
  2: { rewrite skipn_nil. unfold ret. split; [discriminate | intros (y & [] & _)]. }
  rewrite bind_eq, index_eq by (unfold held_mut; cbn; rewrite orb_false_r; apply Nat.eqb_neq; congruence).
  set (i := index h x) in *. rewrite bind_eq. unfold pure at 1, rsub. destruct (1 <=? length cs) eqn:E1.
  2: { apply Nat.leb_gt in E1. destruct cs; [|cbn in E1; lia]. rewrite skipn_nil. split; [discriminate | intros (y & [] & _)]. }
  apply Nat.leb_le in E1. rewrite bind_eq.
  assert (Hend : forall h1 (g : guards), (let! cs' := pure (remove_at cs i) in put p (set_ch (Some cs'))) g h1 <> BClash).
  { intros h1 g. rewrite bind_eq. unfold pure. destruct (remove_at cs i); discriminate. }
  destruct (Nat.eqb i (length cs - 1)) eqn:E2.
  - apply Nat.eqb_eq in E2. rewrite skipn_all2 by lia. unfold ret at 1. split; [intros H; destruct (Hend _ _ H) | intros (y & [] & _)].
  - apply Nat.eqb_neq in E2. destruct (S i <=? length cs) eqn:E3.
    + rewrite reset_eq, held_more.
      2: { intros y Hy [F | []]. injection F as <-. apply skipn_nth in Hy. destruct Hy as (k & _ & Hy). exact (Hk (nth_error_In _ _ Hy)). }
      destruct (existsb (fun y => held (mkGuards [] rs) (CNode y)) (skipn (S i) cs)) eqn:Eh.
      * split; [intros _; apply any_held; exact Eh | reflexivity].
      * split; [intros H; destruct (Hend _ _ H)|]. intros (y & H & Hr). destruct (none_read _ _ Eh y H Hr).
    + apply Nat.leb_gt in E3. rewrite skipn_all2 by lia. split; [discriminate | intros (y & [] & _)].
Qed.
Print Assumptions C67_remove_any.
(** After node 2 was taken out, it remembers place 0 of node 1, where text 3 stands now. *)
Definition ex_out : heap := match remove_one ex_doc 2 with Ok h => h | _ => [] end.
Example C67_remove_any_ex : remove_one ex_doc 2 = Ok ex_out /\ WF ex_out /\ kids ex_out 1 = [3; 4] /\ ~ Attached ex_out 2 /\
  filter (fun y => match b_remove_one 2 (mkGuards [] [CNode y]) ex_out with BClash => true | _ => false end) (seq 0 7) = [1; 4].
Proof.
  assert (W : WF ex_out) by (apply wf_check_sound; vm_compute; reflexivity).
  split; [vm_compute; reflexivity|]. split; [exact W|]. split; [vm_compute; reflexivity|]. split; [|vm_compute; reflexivity].
  intros (q & k & H). destruct (wf_listed _ W _ _ _ H) as (_ & P & I'). vm_compute in P, I'. injection P as <-. rewrite <- I' in H. vm_compute in H. discriminate.
Qed.
