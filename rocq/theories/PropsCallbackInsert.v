(** Property theorems: when insertions from a walk clash (C67). *)
From Verif Require Import Base Utils Attr Dom DomSpec DomProofs Sets SetsProofs Mutate MutateSpec MutateProofs InsertProofs HistoryProofs DomBuild DomBuildProofs
  PropsSets PropsMutate PropsAttr Html HtmlSpec Live LiveSpec LiveProofs PropsFilter PropsLive Borrow BorrowSpec BorrowProofs ClassOps BorrowSets BorrowSetsProofs
  PropsBorrow Callback CallbackSpec CallbackProofs CallbackAny PropsCallback PropsCallbackMore.

(** The nodes an insertion of [x] writes to: those of taking [x] out of its place ([Touched]); then [x], and the element or
    its parent with the siblings that are renumbered. *)
Definition InsertTouches (o : oracles_dom) (h : heap) (self : id) (pos : position_) (x y : id) : Prop :=
  Touched h x y \/
  match pos with
  | BeforeEnd => od_allow_insert o (tag_names h self) (ntype_of h x) = true /\ (y = self \/ y = x)
  | AfterBegin => od_allow_insert o (tag_names h self) (ntype_of h x) = true /\ (y = self \/ y = x \/ Child h self y)
  | BeforeBegin | AfterEnd => y = self \/ y = x \/ Touched h self y
  end.

Lemma any_held rs l : existsb (fun y => held (mkGuards [] rs) (CNode y)) l = true <-> exists y, In y l /\ In (CNode y) rs.
Proof.
  rewrite existsb_exists. unfold held. cbn [g_mut g_ref existsb orb]. split; intros (y & H1 & H2); exists y; (split; [exact H1 | apply cell_in; exact H2]).
Qed.
(** Also for a node without parent, which is nowhere to be taken out. *)
Lemma remove_placed h x rs : WF h -> Placed h x ->
  (b_remove_one x (mkGuards [] rs) h = BClash /\ exists y, In (CNode y) rs /\ Touched h x y) \/
  (b_remove_one x (mkGuards [] rs) h = silent (remove_one h x) /\ forall y, In (CNode y) rs -> ~ Touched h x y).
Proof.
  intros wf (_ & [Hn | (p & i & Hl)]); [|exact (remove_reading h x p i rs wf Hl)]. right. split.
  - unfold b_remove_one, remove_one. rewrite bind_eq, (parent_eq x h (mkGuards [] rs) eq_refl), Hn. reflexivity.
  - intros y _ (p & i & Hl & _). destruct (wf_listed h wf _ _ _ Hl) as (_ & E & _). congruence.
Qed.
Lemma begin_under h self x rs : WF h -> self <> x ->
  (b_inside self false [x] (mkGuards [] rs) h = BClash <-> exists y, In (CNode y) rs /\ (y = self \/ y = x \/ In y (kids h self))).
Proof.
  intros wf Hne. unfold b_inside. rewrite bind_eq, set_parents_eq. cbn [existsb]. unfold held at 1. cbn [g_mut g_ref existsb orb].
  destruct (existsb (cell_eqb (CNode x)) rs) eqn:Ex; cbn [orb].
  { split; [intros _; exists x; split; [apply cell_in; exact Ex | tauto] | reflexivity]. }
  assert (Nx : ~ In (CNode x) rs) by (intros H; apply cell_in in H; congruence).
  set (h1 := set_parents h self [x]). rewrite bind_eq. unfold holding_mut. cbn [g_mut g_ref existsb orb].
  destruct (existsb (cell_eqb (CNode self)) rs) eqn:Es.
  { split; [intros _; exists self; split; [apply cell_in; exact Es | tauto] | reflexivity]. }
  assert (Ns : ~ In (CNode self) rs) by (intros H; apply cell_in in H; congruence).
  rewrite bind_eq. unfold see at 1. change (n_childs (node_of h1 self)) with (childs h1 self).
  assert (Ec : childs h1 self = childs h self) by apply childs_set_parents. rewrite Ec. unfold kids.
  pose proof (not_own_kid h self wf) as Hk. unfold kids in Hk. destruct (childs h self) as [cs|].
  - rewrite bind_eq, bind_eq, reset_eq. cbn [existsb]. unfold held at 1. cbn [g_mut g_ref existsb cell_eqb]. rewrite Ex.
    replace (Nat.eqb x self) with false by (symmetry; apply Nat.eqb_neq; congruence). cbn [orb]. rewrite bind_eq, reset_eq.
    replace (existsb (fun y => held (mkGuards [CNode self] rs) (CNode y)) cs) with (existsb (fun y => held (mkGuards [] rs) (CNode y)) cs).
    2: { clear - Hk. induction cs as [|y cs IH]; cbn [existsb]; [reflexivity|]. rewrite IH by (intros H; apply Hk; right; exact H).
         unfold held. cbn [g_mut g_ref existsb cell_eqb]. replace (Nat.eqb y self) with false; [reflexivity|].
         symmetry. apply Nat.eqb_neq. intros ->. apply Hk. left. reflexivity. }
    destruct (existsb (fun y => held (mkGuards [] rs) (CNode y)) cs) eqn:Eh.
    + split; [|reflexivity]. intros _. apply any_held in Eh. destruct Eh as (y & Hy & Hr). exists y. tauto.
    + unfold put, ret. split; [discriminate|]. intros (y & Hr & [-> | [-> | Hy]]); try contradiction.
      assert (existsb (fun y => held (mkGuards [] rs) (CNode y)) cs = true) by (apply any_held; exists y; tauto). congruence.
  - unfold ret at 1. rewrite bind_eq, reset_eq. cbn [existsb]. unfold held at 1. cbn [g_mut g_ref existsb orb]. rewrite Ex. cbn [orb].
    rewrite write_eq. unfold held. cbn [g_mut g_ref existsb orb]. rewrite Es. split; [discriminate|]. intros (y & Hr & [-> | [-> | []]]); contradiction.
Qed.
Lemma beside_under h self x (after : bool) rs q l1 l2 : WF h -> self <> x -> q <> x -> kids h q = l1 ++ self :: l2 ->
  (b_beside self after [x] (mkGuards [] rs) h = BClash <-> exists y, In (CNode y) rs /\ (y = self \/ y = x \/ y = q \/ In y l2)).
Proof.
  intros wf Hne Hqx Ek.
  assert (Hl : Listed h q (length l1) self) by (unfold Listed; rewrite Ek, nth_error_app2, Nat.sub_diag by lia; reflexivity).
  destruct (wf_listed h wf _ _ _ Hl) as (_ & Hp & Hi).
  assert (Hqs : q <> self) by (intros ->; exact (not_own h self wf Hp)).
  assert (Ec : childs h q = Some (l1 ++ self :: l2)) by (unfold kids in Ek; destruct (childs h q); [congruence | destruct l1; discriminate]).
  unfold b_beside. rewrite bind_eq, index_eq by reflexivity. cbv zeta. rewrite Hi. set (i := if after then S (length l1) else length l1).
  rewrite bind_eq, reset_eq. cbn [existsb]. unfold held at 1. cbn [g_mut g_ref existsb orb].
  destruct (existsb (cell_eqb (CNode x)) rs) eqn:Ex; cbn [orb].
  { split; [intros _; exists x; split; [apply cell_in; exact Ex | tauto] | reflexivity]. }
  assert (Nx : ~ In (CNode x) rs) by (intros H; apply cell_in in H; congruence).
  set (h1 := reset_index h i [x]). rewrite bind_eq. unfold holding_mut at 1. cbn [g_mut g_ref existsb orb].
  destruct (existsb (cell_eqb (CNode self)) rs) eqn:Es.
  { split; [intros _; exists self; split; [apply cell_in; exact Es | tauto] | reflexivity]. }
  assert (Ns : ~ In (CNode self) rs) by (intros H; apply cell_in in H; congruence).
  rewrite bind_eq. unfold see at 1. change (n_parent (node_of h1 self)) with (parent h1 self). 
  assert (Ep1 : parent h1 self = Some q) by (unfold h1; rewrite parent_reset; exact Hp). rewrite Ep1.
  unfold holding_mut at 1. cbn [g_mut g_ref existsb cell_eqb orb]. replace (Nat.eqb q self) with false by (symmetry; apply Nat.eqb_neq; exact Hqs). cbn [orb].
  destruct (existsb (cell_eqb (CNode q)) rs) eqn:Eq.
  { split; [intros _; exists q; split; [apply cell_in; exact Eq | tauto] | reflexivity]. }
  assert (Nq : ~ In (CNode q) rs) by (intros H; apply cell_in in H; congruence).
  rewrite bind_eq. unfold see at 1. change (n_childs (node_of h1 q)) with (childs h1 q). 
  assert (Ec1 : childs h1 q = Some (l1 ++ self :: l2)) by (unfold h1; rewrite childs_reset; exact Ec). rewrite Ec1.
  rewrite bind_eq, set_parents_eq. cbn [existsb]. unfold held at 1. cbn [g_mut g_ref existsb cell_eqb]. rewrite Ex.
  replace (Nat.eqb x q) with false by (symmetry; apply Nat.eqb_neq; congruence).
  replace (Nat.eqb x self) with false by (symmetry; apply Nat.eqb_neq; congruence). cbn [orb].
  rewrite bind_eq. unfold put at 1, ret at 1.
  set (h3 := upd (set_parents h1 q [x]) q _).
  assert (Hn : forall y, In (CNode y) rs -> (In y (if i <? length (l1 ++ self :: l2) then skipn i (l1 ++ self :: l2) else []) <-> In y l2)).
  { intros y Hy. unfold i. rewrite app_length. cbn [length]. destruct after.
    - rewrite skipn_app, skipn_all2 by lia. replace (S (length l1) - length l1) with 1 by lia. cbn [skipn app].
      destruct (S (length l1) <? length l1 + S (length l2)) eqn:E; [reflexivity|]. apply Nat.ltb_ge in E. destruct l2; [reflexivity | cbn in E; lia].
    - replace (length l1 <? length l1 + S (length l2)) with true by (symmetry; apply Nat.ltb_lt; lia).
      rewrite skipn_app, skipn_all, Nat.sub_diag. cbn [skipn app In]. split; [intros [-> | H]; [contradiction | exact H] | tauto]. }
  destruct (if i <? length (l1 ++ self :: l2) then skipn i (l1 ++ self :: l2) else []) as [|n nexts].
  { split; [discriminate|]. intros (y & Hr & [-> | [-> | [-> | Hy]]]); try contradiction. destruct (proj2 (Hn y Hr) Hy). }
  rewrite bind_eq, reset_eq. destruct (existsb (fun y => held (mkGuards [] rs) (CNode y)) (n :: nexts)) eqn:Eh.
  { split; [|reflexivity]. intros _. apply any_held in Eh. destruct Eh as (y & Hy & Hr). exists y. split; [exact Hr|]. do 3 right. exact (proj1 (Hn y Hr) Hy). }
  set (h4 := reset_index h3 _ (n :: nexts)). split.
  2: { intros (y & Hr & [-> | [-> | [-> | Hy]]]); try contradiction.
       assert (existsb (fun y => held (mkGuards [] rs) (CNode y)) (n :: nexts) = true) by (apply any_held; exists y; split; [apply (Hn y Hr); exact Hy | exact Hr]). congruence. }
  unfold holding_mut at 1. cbn [g_mut g_ref existsb orb]. rewrite Es, bind_eq. unfold see at 1. change (n_parent (node_of h4 self)) with (parent h4 self).
  assert (E4 : parent h4 self = Some q).
  { unfold h4, h3, h1. rewrite parent_reset, parent_set_ch, parent_set_parents_other, parent_reset; [exact Hp|]. intros [H | []]. congruence. }
  rewrite E4. unfold holding_mut. cbn [g_mut g_ref existsb cell_eqb orb]. replace (Nat.eqb q self) with false by (symmetry; apply Nat.eqb_neq; exact Hqs). cbn [orb]. rewrite Eq.
  rewrite bind_eq. unfold see, put, ret. destruct (n_childs (node_of h4 q)); discriminate.
Qed.
Lemma beside_none h self x (after : bool) rs : self <> x -> parent h self = None ->
  (b_beside self after [x] (mkGuards [] rs) h = BClash <-> exists y, In (CNode y) rs /\ (y = self \/ y = x)).
Proof.
  intros Hne Hp. unfold b_beside. rewrite bind_eq, index_eq by reflexivity. cbv zeta. set (i := if after then _ else _).
  rewrite bind_eq, reset_eq. cbn [existsb]. unfold held at 1. cbn [g_mut g_ref existsb orb].
  destruct (existsb (cell_eqb (CNode x)) rs) eqn:Ex; cbn [orb].
  { split; [intros _; exists x; split; [apply cell_in; exact Ex | tauto] | reflexivity]. }
  set (h1 := reset_index h i [x]). rewrite bind_eq. unfold holding_mut at 1. cbn [g_mut g_ref existsb orb].
  destruct (existsb (cell_eqb (CNode self)) rs) eqn:Es.
  { split; [intros _; exists self; split; [apply cell_in; exact Es | tauto] | reflexivity]. }
  rewrite bind_eq. unfold see at 1. change (n_parent (node_of h1 self)) with (parent h1 self).
  assert (Ep1 : parent h1 self = None) by (unfold h1; rewrite parent_reset; exact Hp). rewrite Ep1. unfold ret. split; [discriminate|].
  intros (y & Hy & [-> | ->]); apply cell_in in Hy; congruence.
Qed.

(** * C67: insertions from a walk *)
(** Inserting a node clashes exactly when one of the nodes this writes to is being read; otherwise it has its usual
    outcome. *)
Theorem C67_insert o h self pos x rs : WF h -> Placed h x -> is_element h self = true -> is_root h x = false -> self <> x -> ~ Up h self x ->
  (pos = BeforeBegin \/ pos = AfterEnd -> Placed h self) ->
  (b_insert_adjacent o (S (length h)) self pos x (mkGuards [] rs) h = BClash <-> exists y, In (CNode y) rs /\ InsertTouches o h self pos x y) /\
  (b_insert_adjacent o (S (length h)) self pos x (mkGuards [] rs) h <> BClash ->
   b_insert_adjacent o (S (length h)) self pos x (mkGuards [] rs) h = as_b (insert_adjacent o h self pos x)).
Proof.
  intros wf Hl He Hr Hne Hup Hat. split.
  2: { intros Hn. rewrite <- (insert_adjacent_eq o h self pos x wf).
       destruct (proj1 (fr_insert [] o (S (length h)) self pos x [] [] h (fun x (F : In x []) => match F with end) (fun c (F : In c []) => match F with end)) rs) as [E | E]; [exfalso; exact (Hn E) | exact E]. }
  unfold b_insert_adjacent, InsertTouches. destruct (validate_eq self x (mkGuards [] rs) h eq_refl wf) as (b & E1 & E2). rewrite bind_eq, E2.
  destruct (validate_ok h self x wf) as (b' & E1' & Hb). rewrite E1' in E1. injection E1 as ->.
  assert (Hdoc : is_document h x = false) by (unfold is_document; unfold is_root in Hr; destruct (ntype_of h x); [discriminate | reflexivity..]).
  assert (b = true) as -> by (apply Hb; repeat split; assumption). cbn [fst snd negb].
  assert (En : b_nodes x (mkGuards [] rs) h = (b_remove_one x ;; ret [x]) (mkGuards [] rs) h).
  { unfold b_nodes, b_remove_one. rewrite bind_eq, (type_eq x h (mkGuards [] rs) eq_refl). unfold is_root in Hr.
    destruct (ntype_of h x); [discriminate|..]; rewrite !bind_eq; destruct (b_parent x (mkGuards [] rs) h) as [[h1 q]| | |]; reflexivity. }
  rewrite bind_eq, En, bind_eq.
  destruct (remove_placed h x rs wf Hl) as [(E & y & Hy & Ht) | (E & Hno)]; rewrite E.
  { split; [intros _; exists y; tauto | reflexivity]. }
  destruct (remove_one_ok h x wf Hl) as (h1 & Er & wf1 & (Hs & Hk & Hpar)).
  rewrite Er. unfold silent. cbn [as_b rbind]. unfold ret at 1.
  assert (Tg : tag_names h1 self = tag_names h self).
  { unfold tag_names, is_element, ntype_of. destruct (proj2 Hs self) as (-> & _ & -> & _). reflexivity. }
  assert (Ty : ntype_of h1 x = ntype_of h x) by (exact (proj1 (proj2 Hs x))).
  rewrite bind_eq, (tag_eq self h1 (mkGuards [] rs) eq_refl), Tg, bind_eq.
  assert (Hin : forall (m : B unit) (Q : id -> Prop), (m (mkGuards [] rs) h1 = BClash <-> exists y, In (CNode y) rs /\ Q y) ->
    ((m ;; ret ([] : errors)) (mkGuards [] rs) h1 = BClash <-> exists y, In (CNode y) rs /\ (Touched h x y \/ Q y))).
  { intros m Q H. rewrite bind_eq. split.
    - intros E3. destruct (proj1 H) as (y & Hy & Hq); [|exists y; tauto]. destruct (m (mkGuards [] rs) h1) as [[h2 u]| | |]; [discriminate | reflexivity | discriminate | discriminate].
    - intros (y & Hy & [Ht | Hq]); [destruct (Hno y Hy Ht)|]. rewrite (proj2 H) by (exists y; tauto). reflexivity. }
  assert (Hbe : forall after : bool, pos = BeforeBegin \/ pos = AfterEnd ->
    (b_beside self after [x] (mkGuards [] rs) h1 = BClash <-> exists y, In (CNode y) rs /\ (y = self \/ y = x \/ Touched h self y))).
  { intros after Hpos. destruct (Hat Hpos) as (_ & [Hnone | (q & j & Hj)]).
    { rewrite (beside_none h1 self x after rs Hne) by (rewrite Hpar; exact Hnone). split; intros (y & Hy & H); exists y; (split; [exact Hy|]); [tauto|].
      destruct H as [H | [H | (q & j & Hj & _)]]; [tauto | tauto|]. destruct (wf_listed h wf _ _ _ Hj) as (_ & F & _). congruence. }
    destruct (nth_error_split _ _ Hj) as (l1 & l2 & Ek & Lj).
    assert (Hqx : q <> x). { intros ->. apply Hup. constructor. exact (proj1 (proj2 (wf_listed h wf _ _ _ Hj))). }
    rewrite (beside_under h1 self x after rs q (without x l1) (without x l2) wf1 Hne Hqx).
    2: { rewrite Hk, Ek, without_app. f_equal. unfold without. cbn [filter]. replace (Nat.eqb self x) with false by (symmetry; apply Nat.eqb_neq; exact Hne). reflexivity. }
    assert (T : forall y, Touched h self y <-> y = q \/ In y l2).
    { assert (L : forall y, In y l2 <-> exists k, j < k /\ Listed h q k y).
      { intros y. assert (E3 : l2 = skipn (S j) (kids h q)).
        { rewrite Ek, skipn_app, skipn_all2 by lia. replace (S j - length l1) with 1 by lia. reflexivity. }
        rewrite E3, skipn_nth. split; intros (k & H1 & H2); exists k; (split; [lia | exact H2]). }
      intros y. split.
      - intros (q' & j' & H1 & H2). destruct (wf_listed h wf _ _ _ H1) as (_ & P1 & I1), (wf_listed h wf _ _ _ Hj) as (_ & P2 & I2).
        assert (Eq' : q' = q) by congruence. assert (Ej' : j' = j) by congruence. rewrite Eq', Ej' in H2. destruct H2 as [-> | H2]; [left; reflexivity | right; apply L; exact H2].
      - intros [-> | H]; exists q, j; (split; [exact Hj|]); [left; reflexivity | right; apply L; exact H]. }
    split.
    - intros (y & Hy & H). exists y. split; [exact Hy|]. rewrite T. rewrite without_in in H. tauto.
    - intros (y & Hy & H). exists y. split; [exact Hy|]. rewrite T in H. rewrite without_in. destruct (Nat.eq_dec y x); tauto. }
  assert (Hno' : forall Q : id -> Prop, (BOk (h1, [] : errors) = BClash <-> exists y, In (CNode y) rs /\ (Touched h x y \/ (false = true /\ Q y)))).
  { intros Q. split; [discriminate|]. intros (y & Hy & [Ht | (F & _)]); [destruct (Hno y Hy Ht) | discriminate]. }
  assert (Hal : (let! r := b_remove_not_allowed o (tag_names h self) [x] in ret (fst r)) (mkGuards [] rs) h1 =
    BOk (h1, if od_allow_insert o (tag_names h self) (ntype_of h x) then [x] else [])).
  { rewrite bind_eq, (not_allowed_nodes_eq o _ [x] (mkGuards [] rs) h1 eq_refl). unfold ret. cbn [fst filter]. rewrite Ty. reflexivity. }
  destruct pos.
  - unfold ret at 1. apply Hin. apply Hbe. tauto.
  - unfold ret at 1. apply Hin. apply Hbe. tauto.
  - rewrite Hal. destruct (od_allow_insert o (tag_names h self) (ntype_of h x)); [|apply Hno'].
    apply Hin. rewrite (begin_under h1 self x rs wf1 Hne). split; intros (y & Hy & H); exists y; (split; [exact Hy|]).
    + split; [reflexivity|]. destruct H as [H | [H | H]]; [tauto | tauto|]. right. right. apply child_in. rewrite Hk in H. apply without_in in H. tauto.
    + destruct H as (_ & [H | [H | H]]); [tauto | tauto|]. apply child_in in H. rewrite Hk, without_in. destruct (Nat.eq_dec y x); tauto.
  - rewrite Hal. destruct (od_allow_insert o (tag_names h self) (ntype_of h x)); [|apply Hno'].
    apply Hin. rewrite (inside_under h1 self x rs Hne). split.
    + intros [H | H]; [exists self | exists x]; tauto.
    + intros (y & Hy & (_ & [-> | ->])); tauto.
Qed.
Print Assumptions C67_insert.

(** e moved next to b, or into a: which nodes may not be read meanwhile.  Root 0, a 1, b 2, text 3, c 4, d 5, e 6. *)
Definition ex_clash (self : id) (pos : position_) (x : id) : list id :=
  filter (fun y => match b_insert_adjacent ex_od 8 self pos x (mkGuards [] [CNode y]) ex_doc with BClash => true | _ => false end) (seq 0 7).
Example C67_insert_ex : WF ex_doc /\ Placed ex_doc 6 /\ Touched ex_doc 6 0 /\ is_element ex_doc 2 = true /\ is_root ex_doc 6 = false /\ Placed ex_doc 2 /\
  ex_clash 2 AfterEnd 6 = [0; 1; 2; 3; 4; 6] /\ ex_clash 4 AfterEnd 6 = [0; 1; 4; 6] /\ ex_clash 4 BeforeBegin 6 = [0; 1; 4; 6] /\
  ex_clash 1 AfterBegin 6 = [0; 1; 2; 3; 4; 6] /\ ex_clash 1 BeforeEnd 6 = [0; 1; 6] /\ ex_clash 5 AfterBegin 2 = [1; 2; 3; 4; 5].
Proof.
  split; [exact ex_doc_wf|]. split; [apply (PropsMutate.placed_check _ _ 0); reflexivity|]. split; [exists 0, 1; split; [reflexivity | left; reflexivity]|].
  do 2 (split; [reflexivity|]). split; [apply (PropsMutate.placed_check _ _ 1); reflexivity|]. repeat split; vm_compute; reflexivity.
Qed.
