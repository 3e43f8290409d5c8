(** Property theorems: when set_html and replacements from a walk clash (C67). *)
From Verif Require Import Base Utils Attr Dom DomSpec DomProofs Sets SetsProofs Mutate MutateSpec MutateProofs InsertProofs HistoryProofs DomBuild DomBuildProofs
  PropsSets PropsMutate PropsAttr Html HtmlSpec HtmlProofs Live LiveSpec LiveProofs PropsFilter PropsLive Borrow BorrowSpec BorrowProofs ClassOps BorrowSets BorrowSetsProofs
  PropsBorrow Callback CallbackSpec CallbackProofs CallbackAny PropsCallback PropsCallbackMore PropsCallbackInsert.

Lemma name_under {A} x (k : str -> B A) rs h : with_name x k (mkGuards [] rs) h =
  match n_meta (node_of h x) with Some m => k (m_name m) (mkGuards [] (CMeta x :: CNode x :: rs)) h | None => BFault end.
Proof.
  unfold with_name, holding_ref. cbn [g_mut g_ref existsb]. rewrite bind_eq. unfold see at 1. destruct (n_meta (node_of h x)); reflexivity.
Qed.
Lemma write_under x f rs h : write x f (mkGuards [] rs) h = BClash <-> In (CNode x) rs.
Proof.
  rewrite write_eq. unfold held. cbn [g_mut g_ref existsb orb]. rewrite <- (cell_in rs x). destruct (existsb (cell_eqb (CNode x)) rs); split; congruence.
Qed.
(** * C67: set_html from a walk *)
(** Of an element: it clashes exactly when the element is being read ([rs]: nodes of the heap). *)
Theorem C67_set_html o parse h x m s rs : WF h -> is_element h x = true -> n_meta (node_of h x) = Some m -> parse s <> None ->
  (forall y, In (CNode y) rs -> y < length h) ->
  (b_set_html o parse x s (mkGuards [] rs) h = BClash <-> In (CNode x) rs) /\
  (b_set_html o parse x s (mkGuards [] rs) h <> BClash -> b_set_html o parse x s (mkGuards [] rs) h = silent (set_html o parse h x s)).
Proof.
  intros wf He Em Hp Hrs. split.
  2: { intros Hn. rewrite <- (set_html_eq o parse h x s wf).
       destruct (proj1 (fr_set_html [] o parse x s [] [] h (fun x (F : In x []) => match F with end) (fun c (F : In c []) => match F with end)) rs) as [E | E]; [exfalso; exact (Hn E) | exact E]. }
  unfold b_set_html. rewrite bind_eq, (type_eq x h (mkGuards [] rs) eq_refl).
  assert (Ty : ntype_of h x = NTag) by (unfold is_element in He; destruct (ntype_of h x); congruence). rewrite Ty, bind_eq. unfold ret at 1.
  rewrite bind_eq, name_under, Em. unfold ret at 1. destruct (od_content_tag o (m_name m)); [apply write_under|].
  destruct (parse s) as [[ts|]|]; [| apply write_under | congruence].
  rewrite bind_eq. unfold create_all at 1. set (h1 := h ++ lay_list None 0 (length h) ts). set (all := roots_from (length h) ts).
  rewrite bind_eq, name_under.
  assert (En : node_of h1 x = node_of h x) by (apply node_app_old; exact (meta_lt h x m Em)).
  rewrite En, Em, (not_allowed_nodes_eq o (m_name m) all (mkGuards [] (CMeta x :: CNode x :: rs)) h1 eq_refl). cbn [fst snd]. cbv zeta.
  set (ns := filter (fun y => od_allow_insert o (m_name m) (ntype_of h1 y)) all).
  assert (Hns : existsb (fun y => held (mkGuards [] rs) (CNode y)) ns = false).
  { apply not_true_is_false. intros E. apply any_held in E. destruct E as (y & Hy & Hr). unfold ns in Hy. apply filter_In in Hy.
    pose proof (roots_ge _ _ _ (proj1 Hy)). specialize (Hrs y Hr). lia. }
  rewrite bind_eq. set (h2 := set_parents h1 x ns).
  assert (E2 : (if 0 <? length ns then b_set_parents x ns else ret tt) (mkGuards [] rs) h1 = BOk (h2, tt)).
  { unfold h2. destruct ns as [|n ns']; [reflexivity|]. cbn [length Nat.ltb Nat.leb]. rewrite set_parents_eq, Hns. reflexivity. }
  rewrite E2, bind_eq. destruct ((length ns <? length all) && (0 <? length ns)); [rewrite reset_eq, Hns | unfold ret at 1]; apply write_under.
Qed.
Print Assumptions C67_set_html.

(** * C67: replacements from a walk *)
Lemma two_nodes rs q self l : ~ In q l -> ~ In self l ->
  existsb (fun y => held (mkGuards [CNode q; CNode self] rs) (CNode y)) l = existsb (fun y => held (mkGuards [] rs) (CNode y)) l.
Proof.
  intros N1 N2. induction l as [|y l IH]; cbn [existsb]; [reflexivity|].
  rewrite IH by (intros H; first [apply N1; right; exact H | apply N2; right; exact H]). unfold held. cbn [g_mut g_ref existsb cell_eqb].
  replace (Nat.eqb y q) with false by (symmetry; apply Nat.eqb_neq; intros ->; apply N1; left; reflexivity).
  replace (Nat.eqb y self) with false by (symmetry; apply Nat.eqb_neq; intros ->; apply N2; left; reflexivity). reflexivity.
Qed.
(** A node with a place replaced by another one: a clash exactly when a node being read is touched by taking the latter out,
    is one of the two, or is the parent of the former or a sibling behind it. *)
Theorem C67_replace h self x rs : WF h -> Placed h x -> Attached h self -> is_root h x = false -> self <> x -> ~ Up h self x ->
  (b_replace_with self x (mkGuards [] rs) h = BClash <-> exists y, In (CNode y) rs /\ (Touched h x y \/ y = self \/ y = x \/ Touched h self y)) /\
  (b_replace_with self x (mkGuards [] rs) h <> BClash -> b_replace_with self x (mkGuards [] rs) h = b_replace_with self x no_guards h).
Proof.
  intros wf Hl (q & j & Hj) Hr Hne Hup. split.
  2: { intros Hn. destruct (proj1 (fr_replace [] self x [] [] h (fun x (F : In x []) => match F with end) (fun c (F : In c []) => match F with end)) rs) as [E | E]; [exfalso; exact (Hn E) | exact E]. }
  unfold b_replace_with. rewrite bind_eq, (type_eq x h (mkGuards [] rs) eq_refl).
  assert (En : b_nodes x (mkGuards [] rs) h = (b_remove_one x ;; ret [x]) (mkGuards [] rs) h).
  { unfold b_nodes, b_remove_one. rewrite bind_eq, (type_eq x h (mkGuards [] rs) eq_refl). unfold is_root in Hr.
    destruct (ntype_of h x); [discriminate|..]; rewrite !bind_eq; destruct (b_parent x (mkGuards [] rs) h) as [[h1 z]| | |]; reflexivity. }
  rewrite bind_eq, En, bind_eq.
  destruct (remove_placed h x rs wf Hl) as [(E & y & Hy & Ht) | (E & Hno)]; rewrite E.
  { split; [intros _; exists y; tauto | reflexivity]. }
  destruct (remove_one_ok h x wf Hl) as (h1 & Er & wf1 & (Hs & Hk & Hpar)).
  rewrite Er. unfold silent. cbn [as_b rbind]. unfold ret at 1.
  destruct (nth_error_split _ _ Hj) as (l1 & l2 & Ek & Lj).
  assert (Hqx : q <> x). { intros ->. apply Hup. constructor. exact (proj1 (proj2 (wf_listed h wf _ _ _ Hj))). }
  assert (T : forall y, Touched h self y <-> y = q \/ In y l2).
  { assert (L : forall y, In y l2 <-> exists k, j < k /\ Listed h q k y).
    { intros y. assert (E3 : l2 = skipn (S j) (kids h q)).
      { rewrite Ek, skipn_app, skipn_all2 by lia. replace (S j - length l1) with 1 by lia. reflexivity. }
      rewrite E3, skipn_nth. split; intros (k & H1 & H2); exists k; (split; [lia | exact H2]). }
    intros y. split.
    - intros (q' & j' & H1 & H2). destruct (wf_listed h wf _ _ _ H1) as (_ & P1 & I1), (wf_listed h wf _ _ _ Hj) as (_ & P2 & I2).
      assert (Eq' : q' = q) by congruence. assert (Ej' : j' = j) by congruence. rewrite Eq', Ej' in H2. destruct H2 as [-> | H2]; [left; reflexivity | right; apply L; exact H2].
    - intros [-> | H]; exists q, j; (split; [exact Hj|]); [left; reflexivity | right; apply L; exact H]. }
  set (m1 := without x l1). set (m2 := without x l2).
  assert (Ek1 : kids h1 q = m1 ++ self :: m2).
  { rewrite Hk, Ek, without_app. f_equal. unfold without. cbn [filter]. replace (Nat.eqb self x) with false by (symmetry; apply Nat.eqb_neq; exact Hne). reflexivity. }
  assert (Goal : (match (let! _ := (let! i0 := b_index self in
      holding_mut (CNode self) (let! p0 := see self n_parent in
        match p0 with
        | Some p0 => holding_mut (CNode p0) (let! cs := see p0 n_childs in
            match cs with
            | Some cs => b_reset i0 [x] ;; (if i0 <? length cs then b_reset (i0 + length [x]) (skipn (S i0) cs) else ret tt) ;; b_set_parents p0 [x] ;;
                (if S i0 <=? length cs then put p0 (set_ch (Some (firstn i0 cs ++ [x] ++ skipn (S i0) cs))) else fault)
            | None => ret tt
            end)
        | None => ret tt
        end)) in ret tt) (mkGuards [] rs) h1 with BClash => True | _ => False end) <-> exists y, In (CNode y) rs /\ (y = self \/ y = x \/ y = q \/ In y m2)).
  { assert (Hl1 : Listed h1 q (length m1) self) by (unfold Listed; rewrite Ek1, nth_error_app2, Nat.sub_diag by lia; reflexivity).
    destruct (wf_listed h1 wf1 _ _ _ Hl1) as (_ & Hp1 & Hi1).
    assert (Hqs : q <> self) by (intros ->; exact (not_own h1 self wf1 Hp1)).
    assert (Ec1 : childs h1 q = Some (m1 ++ self :: m2)) by (unfold kids in Ek1; destruct (childs h1 q); [congruence | destruct m1; discriminate]).
    assert (Nq2 : ~ In q m2). { intros H. apply (not_own_kid h1 q wf1). rewrite Ek1. apply in_or_app. right. right. exact H. }
    assert (Ns2 : ~ In self m2). { pose proof (kids_nodup h1 wf1 q) as Nd. rewrite Ek1 in Nd. apply NoDup_remove_2 in Nd. intros H. apply Nd. apply in_or_app. right. exact H. }
    rewrite bind_eq, bind_eq, index_eq by reflexivity. rewrite Hi1. unfold holding_mut at 1. cbn [g_mut g_ref existsb orb].
    destruct (existsb (cell_eqb (CNode self)) rs) eqn:Es.
    { split; [intros _; exists self; split; [apply cell_in; exact Es | tauto] | exact (fun _ => I)]. }
    rewrite bind_eq. unfold see at 1. change (n_parent (node_of h1 self)) with (parent h1 self). rewrite Hp1.
    unfold holding_mut at 1. cbn [g_mut g_ref existsb cell_eqb orb]. replace (Nat.eqb q self) with false by (symmetry; apply Nat.eqb_neq; exact Hqs). cbn [orb].
    destruct (existsb (cell_eqb (CNode q)) rs) eqn:Eq.
    { split; [intros _; exists q; split; [apply cell_in; exact Eq | tauto] | exact (fun _ => I)]. }
    rewrite bind_eq. unfold see at 1. change (n_childs (node_of h1 q)) with (childs h1 q). rewrite Ec1.
    assert (Nx1 : ~ In q [x]) by (intros [H | []]; congruence). assert (Nx2 : ~ In self [x]) by (intros [H | []]; congruence).
    rewrite bind_eq, reset_eq, (two_nodes rs q self [x] Nx1 Nx2). cbn [existsb]. unfold held at 1. cbn [g_mut g_ref existsb orb].
    destruct (existsb (cell_eqb (CNode x)) rs) eqn:Ex; cbn [orb].
    { split; [intros _; exists x; split; [apply cell_in; exact Ex | tauto] | exact (fun _ => I)]. }
    replace (length m1 <? length (m1 ++ self :: m2)) with true by (symmetry; apply Nat.ltb_lt; rewrite app_length; cbn; lia).
    assert (Sk : skipn (S (length m1)) (m1 ++ self :: m2) = m2).
    { rewrite skipn_app, skipn_all2 by lia. replace (S (length m1) - length m1) with 1 by lia. reflexivity. }
    rewrite Sk, bind_eq, reset_eq, (two_nodes rs q self m2 Nq2 Ns2).
    destruct (existsb (fun y => held (mkGuards [] rs) (CNode y)) m2) eqn:Eh.
    { split; [|exact (fun _ => I)]. intros _. apply any_held in Eh. destruct Eh as (y & Hy & Hry). exists y. tauto. }
    rewrite bind_eq, set_parents_eq, (two_nodes rs q self [x] Nx1 Nx2). cbn [existsb]. unfold held at 1. cbn [g_mut g_ref existsb orb]. rewrite Ex. cbn [orb].
    replace (S (length m1) <=? length (m1 ++ self :: m2)) with true by (symmetry; apply Nat.leb_le; rewrite app_length; cbn; lia).
    unfold put, ret. split; [intros []|]. intros (y & Hy & H). pose proof (proj2 (cell_in rs y) Hy) as Ey. destruct H as [-> | [-> | [-> | H]]]; try congruence.
    assert (existsb (fun y => held (mkGuards [] rs) (CNode y)) m2 = true) by (apply any_held; exists y; tauto). congruence. }
  assert (Fin : (exists y, In (CNode y) rs /\ (y = self \/ y = x \/ y = q \/ In y m2)) <-> (exists y, In (CNode y) rs /\ (Touched h x y \/ y = self \/ y = x \/ Touched h self y))).
  { unfold m2. split; intros (y & Hy & H); exists y; (split; [exact Hy|]).
    - rewrite T. rewrite without_in in H. tauto.
    - destruct H as [H | H]; [destruct (Hno y Hy H)|]. rewrite T in H. rewrite without_in. destruct (Nat.eq_dec y x); tauto. }
  rewrite <- Fin, <- Goal. clear Goal Fin. unfold ret, bind.
  destruct (b_index self (mkGuards [] rs) h1) as [[h2 i2]| | |]; try (split; [discriminate | intros []]); [|split; [exact (fun _ => I) | reflexivity]].
  match goal with |- context [holding_mut (CNode self) ?k ?g ?h'] => destruct (holding_mut (CNode self) k g h') as [[h3 u]| | |] end;
    try (split; [discriminate | intros []]). split; [exact (fun _ => I) | reflexivity].
Qed.
Print Assumptions C67_replace.

(** d replaced by e, b by e, e by d; new contents for c. *)
Definition ex_replace (self x : id) : list id :=
  filter (fun y => match b_replace_with self x (mkGuards [] [CNode y]) ex_doc with BClash => true | _ => false end) (seq 0 7).
Example C67_rest_ex : WF ex_doc /\ Placed ex_doc 6 /\ Attached ex_doc 5 /\ is_root ex_doc 6 = false /\
  ex_replace 5 6 = [0; 4; 5; 6] /\ ex_replace 2 6 = [0; 1; 2; 3; 4; 6] /\ ex_replace 6 5 = [0; 4; 5; 6] /\
  toy (lit "<i>x</i>y") <> None /\ n_meta (node_of ex_doc 4) <> None /\
  b_set_html ex_od toy 4 (lit "<i>x</i>y") (mkGuards [] [CNode 4]) ex_doc = BClash /\
  exists h', b_set_html ex_od toy 4 (lit "<i>x</i>y") (mkGuards [] [CNode 0; CNode 1; CNode 5]) ex_doc = BOk (h', tt) /\ length (kids h' 4) = 2.
Proof.
  split; [exact ex_doc_wf|]. split; [apply (PropsMutate.placed_check _ _ 0); reflexivity|]. split; [exists 4, 0; reflexivity|]. split; [reflexivity|].
  do 3 (split; [vm_compute; reflexivity|]). split; [discriminate|]. split; [discriminate|]. split; [vm_compute; reflexivity|].
  eexists. split; vm_compute; reflexivity.
Qed.

(** Of a text in its place: a clash exactly when a node being read is the text, its parent, or a sibling behind it, the
    latter unless the contents are not parsed or parsed to no list of nodes. *)
Theorem C67_set_html_text o parse h x p i m s rs : WF h -> Dom.is_text h x = true -> Listed h p i x -> n_meta (node_of h p) = Some m -> parse s <> None ->
  (forall y, In (CNode y) rs -> y < length h) ->
  (b_set_html o parse x s (mkGuards [] rs) h = BClash <-> exists y, In (CNode y) rs /\
     (y = x \/ y = p \/ (od_content_tag o (m_name m) = false /\ parse s <> Some None /\ Touched h x y))) /\
  (b_set_html o parse x s (mkGuards [] rs) h <> BClash -> b_set_html o parse x s (mkGuards [] rs) h = silent (set_html o parse h x s)).
Proof.
  intros wf Ht Hl Em Hps Hrs. split.
  2: { intros Hn. rewrite <- (set_html_eq o parse h x s wf).
       destruct (proj1 (fr_set_html [] o parse x s [] [] h (fun x (F : In x []) => match F with end) (fun c (F : In c []) => match F with end)) rs) as [E | E]; [exfalso; exact (Hn E) | exact E]. }
  destruct (wf_listed h wf _ _ _ Hl) as (Lx & Hp & Hi).
  assert (Hpx : p <> x) by (intros ->; exact (not_own h x wf Hp)).
  destruct (nth_error_split _ _ Hl) as (l1 & l2 & Ek & Lj).
  assert (T : forall y, Touched h x y <-> y = p \/ In y l2).
  { assert (L : forall y, In y l2 <-> exists k, i < k /\ Listed h p k y).
    { intros y. assert (E3 : l2 = skipn (S i) (kids h p)).
      { rewrite Ek, skipn_app, skipn_all2 by lia. replace (S i - length l1) with 1 by lia. reflexivity. }
      rewrite E3, skipn_nth. split; intros (k & H1 & H2); exists k; (split; [lia | exact H2]). }
    intros y. split.
    - intros (q' & j' & H1 & H2). destruct (wf_listed h wf _ _ _ H1) as (_ & P1 & I1).
      assert (Eq' : q' = p) by congruence. assert (Ej' : j' = i) by congruence. rewrite Eq', Ej' in H2. destruct H2 as [-> | H2]; [left; reflexivity | right; apply L; exact H2].
    - intros [-> | H]; exists p, i; (split; [exact Hl|]); [left; reflexivity | right; apply L; exact H]. }
  unfold b_set_html. rewrite bind_eq, (type_eq x h (mkGuards [] rs) eq_refl), bind_eq.
  assert (Et : (match ntype_of h x with
                | NTag => ret (Some (true, x))
                | NText | NSpaces => holding_mut (CNode x) (see x (fun n => option_map (fun p => (false, p)) (n_parent n)))
                | _ => ret None
                end) (mkGuards [] rs) h = if existsb (cell_eqb (CNode x)) rs then BClash else BOk (h, Some (false, p))).
  { unfold Dom.is_text in Ht. destruct (ntype_of h x); try discriminate; unfold holding_mut; cbn [g_mut g_ref existsb orb]; destruct (existsb (cell_eqb (CNode x)) rs);
      try reflexivity; unfold see; change (n_parent (node_of h x)) with (parent h x); rewrite Hp; reflexivity. }
  rewrite Et. clear Et. destruct (existsb (cell_eqb (CNode x)) rs) eqn:Ex.
  { split; [intros _; exists x; split; [apply cell_in; exact Ex | tauto] | reflexivity]. }
  assert (Nx : ~ In (CNode x) rs) by (intros H; apply cell_in in H; congruence).
  assert (Hw : forall f h0 (P : id -> Prop), (forall y, In (CNode y) rs -> P y -> y = p) ->
     (write p f (mkGuards [] rs) h0 = BClash <-> exists y, In (CNode y) rs /\ (y = x \/ y = p \/ P y))).
  { intros f h0 P HP. rewrite write_under. split; [intros H; exists p; tauto|]. intros (y & Hy & [-> | [-> | H]]); [contradiction | exact Hy|]. rewrite (HP y Hy H) in Hy. exact Hy. }
  rewrite bind_eq, name_under, Em. unfold ret at 1. destruct (od_content_tag o (m_name m)); [apply Hw; intros y _ (F & _); discriminate|].
  destruct (parse s) as [[ts|]|]; [| apply Hw; intros y _ (_ & F & _); congruence | congruence].
  rewrite bind_eq. unfold create_all at 1. set (h1 := h ++ lay_list None 0 (length h) ts). set (all := roots_from (length h) ts).
  rewrite bind_eq, name_under.
  pose proof (meta_lt h p m Em) as Lp.
  assert (En : node_of h1 p = node_of h p) by (apply node_app_old; exact Lp).
  assert (Enx : node_of h1 x = node_of h x) by (apply node_app_old; exact Lx).
  rewrite En, Em, (not_allowed_nodes_eq o (m_name m) all (mkGuards [] (CMeta p :: CNode p :: rs)) h1 eq_refl). cbn [fst snd]. cbv zeta.
  set (ns := filter (fun y => od_allow_insert o (m_name m) (ntype_of h1 y)) all).
  assert (Hge : forall y, In y ns -> length h <= y) by (intros y Hy; unfold ns in Hy; apply filter_In in Hy; exact (proj1 (roots_ge _ _ _ (proj1 Hy)))).
  assert (Hns : existsb (fun y => held (mkGuards [] rs) (CNode y)) ns = false).
  { apply not_true_is_false. intros E. apply any_held in E. destruct E as (y & Hy & Hr). specialize (Hge y Hy). specialize (Hrs y Hr). lia. }
  rewrite bind_eq. set (h2 := set_parents h1 p ns).
  assert (E2 : (if 0 <? length ns then b_set_parents p ns else ret tt) (mkGuards [] rs) h1 = BOk (h2, tt)).
  { unfold h2. destruct ns as [|n ns']; [reflexivity|]. cbn [length Nat.ltb Nat.leb]. rewrite set_parents_eq, Hns. reflexivity. }
  rewrite E2. unfold holding_mut. cbn [g_mut g_ref existsb orb].
  destruct (existsb (cell_eqb (CNode p)) rs) eqn:Ep.
  { split; [intros _; exists p; split; [apply cell_in; exact Ep | tauto] | reflexivity]. }
  assert (Np : ~ In (CNode p) rs) by (intros H; apply cell_in in H; congruence).
  assert (Ec : childs h2 p = Some (l1 ++ x :: l2)).
  { unfold h2. rewrite childs_set_parents. unfold childs. rewrite En. change (n_childs (node_of h p)) with (childs h p).
    unfold kids in Ek. destruct (childs h p); [congruence | destruct l1; discriminate]. }
  rewrite bind_eq. unfold see at 1. change (n_childs (node_of h2 p)) with (childs h2 p). rewrite Ec.
  assert (Ei : index h2 x = length l1) by (unfold h2; rewrite index_set_parents; unfold index; rewrite Enx; change (n_index (node_of h x)) with (index h x); congruence).
  rewrite bind_eq, index_eq by (unfold held_mut; cbn; rewrite orb_false_r; apply Nat.eqb_neq; congruence). rewrite Ei.
  assert (Ll : length (l1 ++ x :: l2) = S (length l1 + length l2)) by (rewrite app_length; cbn; lia).
  rewrite bind_eq. unfold pure at 1, rsub. rewrite Ll. cbn [Nat.leb Nat.sub]. rewrite Nat.sub_0_r.
  assert (Sk : skipn (S (length l1)) (l1 ++ x :: l2) = l2).
  { rewrite skipn_app, skipn_all2 by lia. replace (S (length l1) - length l1) with 1 by lia. reflexivity. }
  rewrite Sk, bind_eq.
  assert (Hone : forall l, ~ In p l -> existsb (fun y => held (mkGuards [CNode p] rs) (CNode y)) l = existsb (fun y => held (mkGuards [] rs) (CNode y)) l).
  { intros l N. induction l as [|y l IH]; cbn [existsb]; [reflexivity|]. rewrite IH by (intros H; apply N; right; exact H).
    unfold held. cbn [g_mut g_ref existsb cell_eqb]. replace (Nat.eqb y p) with false; [reflexivity|]. symmetry. apply Nat.eqb_neq. intros ->. apply N. left. reflexivity. }
  assert (Np2 : ~ In p l2). { intros H. apply (not_own_kid h p wf). rewrite Ek. apply in_or_app. right. right. exact H. }
  assert (Npn : ~ In p ns) by (intros H; specialize (Hge p H); lia).
  set (h3 := if length l1 <? length l1 + length l2 then reset_index h2 (length l1 + length ns) l2 else h2).
  assert (E3 : (if length l1 <? length l1 + length l2 then b_reset (length l1 + length ns) l2 else ret tt) (mkGuards [CNode p] rs) h2 =
    if existsb (fun y => held (mkGuards [] rs) (CNode y)) l2 then BClash else BOk (h3, tt)).
  { unfold h3. destruct (length l1 <? length l1 + length l2) eqn:E.
    - rewrite reset_eq, (Hone l2 Np2). reflexivity.
    - apply Nat.ltb_ge in E. destruct l2; [reflexivity | cbn in E; lia]. }
  rewrite E3. destruct (existsb (fun y => held (mkGuards [] rs) (CNode y)) l2) eqn:Eh.
  { split; [|reflexivity]. intros _. apply any_held in Eh. destruct Eh as (y & Hy & Hr). exists y. split; [exact Hr|]. right. right. split; [reflexivity|]. split; [discriminate|]. apply T. tauto. }
  assert (Hnot : ~ exists y, In (CNode y) rs /\ (y = x \/ y = p \/ false = false /\ Some (Some ts) <> Some None /\ Touched h x y)).
  { intros (y & Hr & [-> | [-> | (_ & _ & H)]]); try contradiction. apply T in H. destruct H as [-> | H]; [contradiction|].
    assert (existsb (fun y => held (mkGuards [] rs) (CNode y)) l2 = true) by (apply any_held; exists y; tauto). congruence. }
  split; [|intros H; exfalso; exact (Hnot H)]. intros H. exfalso. revert H. destruct (0 <? length ns).
  - rewrite bind_eq, reset_eq, (Hone ns Npn), Hns. destruct (_ <=? _); discriminate.
  - rewrite bind_eq. unfold pure. destruct (remove_at _ _); discriminate.
Qed.
Print Assumptions C67_set_html_text.
(** Text 3 of a, between b and c; then with contents of no nodes, which leave the siblings alone. *)
Example C67_html_text_ex : WF ex_doc /\ Dom.is_text ex_doc 3 = true /\ Listed ex_doc 1 1 3 /\ n_meta (node_of ex_doc 1) <> None /\
  filter (fun y => match b_set_html ex_od toy 3 (lit "<i>x</i>y") (mkGuards [] [CNode y]) ex_doc with BClash => true | _ => false end) (seq 0 7) = [1; 3; 4] /\
  filter (fun y => match b_set_html ex_od toy 3 [] (mkGuards [] [CNode y]) ex_doc with BClash => true | _ => false end) (seq 0 7) = [1; 3].
Proof. split; [exact ex_doc_wf|]. do 2 (split; [reflexivity|]). split; [discriminate|]. split; vm_compute; reflexivity. Qed.
