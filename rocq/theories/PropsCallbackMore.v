(** Property theorems: when modifying calls from a walk clash (C67). *)
From Verif Require Import Base Utils Attr Dom DomSpec DomProofs Sets SetsProofs Mutate MutateSpec MutateProofs InsertProofs HistoryProofs DomBuild DomBuildProofs
  PropsSets PropsMutate PropsAttr Html HtmlSpec Live LiveSpec LiveProofs PropsFilter PropsLive Borrow BorrowSpec BorrowProofs ClassOps BorrowSets BorrowSetsProofs
  PropsBorrow Callback CallbackSpec CallbackProofs CallbackAny PropsCallback.

(** * C67: calls that change a node being read *)
(** A program that would change the place, the children, the type or the content of a node being read always clashes. *)
Theorem C67_changed o oa parse l rs h h' y : WF h -> CallsOk o oa parse h (map plain_s l) -> run_calls o oa parse h (map plain_s l) = Ok h' ->
  y < length h -> In (CNode y) rs -> ~ SameFields h h' y -> s_calls o oa parse l (mkGuards [] rs) h = BClash.
Proof.
  intros wf Hc E Hy Hin Hn. destruct (C67_any o oa parse l rs h) as ([H | H] & K); [exact H|]. exfalso. apply Hn.
  apply (K h' tt); [|exact Hy | exact Hin]. rewrite H, (scalls_eq o oa parse l h wf Hc), E. reflexivity.
Qed.
Print Assumptions C67_changed.
(** Claim: it clashes only then.  False: appending the last child of a node once more leaves the node as it was, but its
    child list is taken apart and put together again. *)
Theorem C67_changed_refuted : exists o oa parse l rs h h', WF h /\ CallsOk o oa parse h (map plain_s l) /\
  run_calls o oa parse h (map plain_s l) = Ok h' /\ (forall y, In (CNode y) rs -> SameFields h h' y) /\ NodesRead rs /\
  s_calls o oa parse l (mkGuards [] rs) h = BClash.
Proof.
  exists ex_od, ex_oracle, toy, [SOne (BTree (OInsert 1 BeforeEnd 4))], [CNode 1], ex_doc. eexists. split; [exact ex_doc_wf|]. split.
  { cbn [map plain_s plain CallsOk CallOk]. split; [|intros ? _; exact I].
    split; [apply (PropsMutate.placed_check _ _ 0); reflexivity | split; [apply (PropsMutate.placed_check _ _ 1); reflexivity | reflexivity]]. }
  split; [vm_compute; reflexivity|]. split; [intros y [E | []]; injection E as <-; repeat split|].
  split; [intros x [E | []]; discriminate | vm_compute; reflexivity].
Qed.
Print Assumptions C67_changed_refuted.

(** * C67: any calls from a walk from a position *)
Lemma fr_walk X k cs : (forall c, Framed X (k c)) -> Framed X (b_walk cs k).
Proof.
  intros Hk. induction cs as [|c cs IH]; cbn [b_walk]; [apply fr_ret|]. apply fr_bind; [apply fr_node_type|]. intros t.
  destruct t; try exact IH. apply fr_bind; [apply Hk|]. intros go. destruct go; [exact IH | apply fr_ret].
Qed.
(** Inside the list: a clash, or what the walk over the part of the list gives with nothing borrowed; in the latter case no
    node walked over has changed. *)
Theorem C67_since_any o oa parse (k : id -> list scall) (go : id -> bool) x i (reverse : bool) rs h : i < length (kids h x) ->
  let call c := (s_calls o oa parse (k c) ;; ret (go c)) in
  let part := if reverse then rev (firstn (S i) (kids h x)) else skipn i (kids h x) in
  (b_since_by x i reverse call (mkGuards [] rs) h = BClash \/
   b_since_by x i reverse call (mkGuards [] rs) h = b_walk part call no_guards h) /\
  (forall h' u, b_since_by x i reverse call (mkGuards [] rs) h = BOk (h', u) ->
     forall y, y < length h -> y = x \/ In (CNode y) rs -> SameFields h h' y).
Proof.
  intros Hi call part. assert (Hm : Framed [] (b_walk part call)).
  { apply fr_walk. intros c. apply fr_bind; [apply fr_scalls | intros _; apply fr_ret]. }
  assert (E : b_since_by x i reverse call (mkGuards [] rs) h = b_walk part call (mkGuards [] (CNode x :: rs)) h).
  { unfold b_since_by, holding_ref. cbn [g_mut g_ref existsb]. rewrite bind_eq. unfold see, part. unfold kids, childs in *.
    destruct (n_childs (node_of h x)) as [cs|]; [|cbn in Hi; lia]. destruct reverse.
    - replace (S i <=? length cs) with true by (symmetry; apply Nat.leb_le; lia). reflexivity.
    - replace (i <=? length cs) with true by (symmetry; apply Nat.leb_le; lia). reflexivity. }
  rewrite E. split.
  - exact (proj1 (Hm [] [] h (fun x (F : In x []) => match F with end) (fun c (F : In c []) => match F with end)) (CNode x :: rs)).
  - intros h' u E' y Hy Hin. apply (proj2 (proj2 (Hm [] (CNode x :: rs) h (fun x (F : In x []) => match F with end) (fun c (F : In c []) => match F with end)) h' u E') y Hy).
    destruct Hin as [-> | Hin]; [left; reflexivity | right; exact Hin].
Qed.
Print Assumptions C67_since_any.

(** * C67: texts changed from a walk *)
(** Whether [set_text] writes to the node: texts and comments are not emptied. *)
Definition Writes (h : heap) (x : id) (s : str) : Prop := is_element h x = true \/ ((Dom.is_text h x = true \/ is_comment h x = true) /\ s <> []).
Lemma set_text_under o x s rs h :
  (In (CNode x) rs /\ Writes h x s /\ b_set_text o x s (mkGuards [] rs) h = BClash) \/
  (~ (In (CNode x) rs /\ Writes h x s) /\ b_set_text o x s (mkGuards [] rs) h = BOk (set_text o h x s)).
Proof.
  rewrite <- (set_text_eq o h x s). unfold b_set_text, Writes, Dom.is_text, is_element, is_comment.
  rewrite !bind_eq, (type_eq x h no_guards eq_refl), (type_eq x h (mkGuards [] rs) eq_refl).
  destruct (existsb (cell_eqb (CNode x)) rs) eqn:Er.
  - pose proof (proj1 (cell_in rs x) Er) as Hin.
    destruct (ntype_of h x) eqn:Et; try (right; split; [intros (_ & [H | ([H | H] & _)]); discriminate | reflexivity]);
      try (destruct s as [|c s]; [right; split; [intros (_ & [H | (_ & H)]); congruence |
        rewrite (halt_eq x h no_guards eq_refl), (halt_eq x h (mkGuards [] rs) eq_refl); reflexivity] |
        left; split; [exact Hin|]; split; [right; split; [tauto | discriminate]|]; rewrite bind_eq; unfold write, holding_mut; cbn [g_mut g_ref existsb orb]; rewrite Er; reflexivity]).
    left. split; [exact Hin|]. split; [left; reflexivity|]. rewrite bind_eq, (tag_eq x h (mkGuards [] rs) eq_refl). cbv zeta.
    unfold holding_mut. cbn [g_mut g_ref existsb orb]. rewrite Er. reflexivity.
  - right. split; [intros (H & _); apply cell_in in H; congruence|].
    destruct (ntype_of h x) eqn:Et; try reflexivity;
      try (destruct s as [|c s]; [rewrite (halt_eq x h no_guards eq_refl), (halt_eq x h (mkGuards [] rs) eq_refl); reflexivity |
        rewrite !bind_eq; unfold write, holding_mut; cbn [g_mut g_ref existsb orb no_guards]; rewrite Er; reflexivity]).
    rewrite !bind_eq, (tag_eq x h (mkGuards [] rs) eq_refl), (tag_eq x h no_guards eq_refl). cbv zeta.
    unfold holding_mut. cbn [g_mut g_ref existsb orb no_guards]. rewrite Er. destruct s, (negb (od_content_tag o (tag_names h x))); reflexivity.
Qed.
Theorem C67_set_text o x s rs h :
  (b_set_text o x s (mkGuards [] rs) h = BClash <-> In (CNode x) rs /\ Writes h x s) /\
  (b_set_text o x s (mkGuards [] rs) h <> BClash -> b_set_text o x s (mkGuards [] rs) h = BOk (set_text o h x s)).
Proof. destruct (set_text_under o x s rs h) as [(H1 & H2 & E) | (H & E)]; rewrite E; split; try tauto; split; try tauto; discriminate. Qed.
Print Assumptions C67_set_text.
(** A text in its place is removed from a walk exactly when neither it, nor its parent, nor a sibling behind it is being read. *)
Theorem C67_remove_text h x p i rs : WF h -> Listed h p i x ->
  (b_text_remove x (mkGuards [] rs) h = BClash <-> exists y, In (CNode y) rs /\ (y = x \/ Touched h x y)) /\
  (b_text_remove x (mkGuards [] rs) h <> BClash -> b_text_remove x (mkGuards [] rs) h = silent (text_remove h x)).
Proof.
  intros wf Hl. destruct (wf_listed h wf _ _ _ Hl) as (_ & Hp & Hi).
  assert (Huniq : forall q j, Listed h q j x -> q = p /\ j = i).
  { intros q j Hq. destruct (wf_listed h wf _ _ _ Hq) as (_ & Hp' & Hi'). split; congruence. }
  assert (Hc : exists cs, childs h p = Some cs /\ kids h p = cs).
  { unfold Listed, kids in Hl. unfold kids. destruct (childs h p) as [cs|]; [exists cs; split; reflexivity | destruct i; discriminate]. }
  destruct Hc as (cs & Ec & Ek).
  assert (Li : i < length cs) by (unfold Listed in Hl; rewrite Ek in Hl; apply nth_error_Some; congruence).
  assert (Hpx : p <> x) by (intros ->; exact (not_own h x wf Hp)).
  set (later := skipn (S i) cs).
  assert (Hlater : forall y, In y later <-> exists j, i < j /\ Listed h p j y).
  { intros y. unfold later, Listed. rewrite Ek, skipn_nth. split; intros (j & Hj & H); exists j; (split; [lia | exact H]). }
  destruct (later_apart h p x cs wf Hp Ec) as (H1 & H2). rewrite Hi in H1, H2. fold later in H1, H2.
  assert (Es : skipn i (firstn i cs ++ skipn (S i) cs) = later).
  { rewrite skipn_app, firstn_length, Nat.min_l by lia. rewrite Nat.sub_diag, skipn_all2 by (rewrite firstn_length; lia). reflexivity. }
  assert (E : forall rs, b_text_remove x (mkGuards [] rs) h =
    if existsb (cell_eqb (CNode x)) rs then BClash else if existsb (cell_eqb (CNode p)) rs then BClash else
    if existsb (fun y => existsb (cell_eqb (CNode y)) rs) later then BClash
    else BOk (reset_index (upd h p (set_ch (Some (firstn i cs ++ later)))) i later, tt)).
  { clear rs. intros rs. unfold b_text_remove. rewrite bind_eq, index_eq by reflexivity. rewrite Hi. unfold holding_mut. cbn [g_mut g_ref existsb orb].
    destruct (existsb (cell_eqb (CNode x)) rs); [reflexivity|]. rewrite bind_eq. unfold see at 1. change (n_parent (node_of h x)) with (parent h x). rewrite Hp.
    cbn [g_mut g_ref existsb cell_eqb orb]. replace (Nat.eqb p x) with false by (symmetry; apply Nat.eqb_neq; exact Hpx). cbn [orb].
    destruct (existsb (cell_eqb (CNode p)) rs); [reflexivity|]. rewrite bind_eq. unfold see. change (n_childs (node_of h p)) with (childs h p). rewrite Ec.
    rewrite bind_eq. unfold pure, remove_at. replace (i <? length cs) with true by (symmetry; apply Nat.ltb_lt; exact Li).
    rewrite bind_eq. unfold put. rewrite reset_eq, Es.
    replace (existsb (fun y => held (mkGuards [CNode p; CNode x] rs) (CNode y)) later) with (existsb (fun y => existsb (cell_eqb (CNode y)) rs) later); [reflexivity|].
    clear Es Hlater. revert H1 H2. generalize later. intros l. induction l as [|y l IH]; intros N1 N2; cbn [existsb]; [reflexivity|].
    rewrite IH by (intros H; first [apply N1; right; exact H | apply N2; right; exact H]). unfold held. cbn [g_mut g_ref existsb cell_eqb].
    replace (Nat.eqb y p) with false by (symmetry; apply Nat.eqb_neq; intros ->; (apply N1; left; reflexivity) || (apply N2; left; reflexivity)).
    replace (Nat.eqb y x) with false by (symmetry; apply Nat.eqb_neq; intros ->; (apply N2; left; reflexivity) || (apply N1; left; reflexivity)). reflexivity. }
  rewrite <- (text_remove_eq_b h x wf). unfold no_guards. rewrite (E rs), (E []). clear E.
  replace (existsb (fun y => existsb (cell_eqb (CNode y)) []) later) with false by (clear; induction later as [|y l IH]; [reflexivity | exact IH]).
  cbn [existsb].
  destruct (existsb (cell_eqb (CNode x)) rs) eqn:Ex.
  { split; [|tauto]. split; [|reflexivity]. intros _. exists x. split; [apply cell_in; exact Ex | left; reflexivity]. }
  destruct (existsb (cell_eqb (CNode p)) rs) eqn:Epr.
  { split; [|tauto]. split; [|reflexivity]. intros _. exists p. split; [apply cell_in; exact Epr | right; exists p, i; split; [exact Hl | left; reflexivity]]. }
  destruct (existsb (fun y => existsb (cell_eqb (CNode y)) rs) later) eqn:El.
  - split; [|tauto]. split; [|reflexivity]. intros _. apply existsb_exists in El. destruct El as (y & Hy & Ey). exists y. split; [apply cell_in; exact Ey|].
    right. exists p, i. split; [exact Hl|]. right. apply Hlater. exact Hy.
  - split; [|reflexivity]. split; [discriminate|]. intros (y & Hy & Ht). exfalso. apply cell_in in Hy. destruct Ht as [-> | (q & j & Hq & Ht)]; [congruence|].
    destruct (Huniq q j Hq) as (-> & ->). destruct Ht as [-> | Ht]; [congruence|].
    assert (X : existsb (fun y => existsb (cell_eqb (CNode y)) rs) later = true); [|congruence].
    apply existsb_exists. exists y. split; [apply Hlater; exact Ht | exact Hy].
Qed.
Print Assumptions C67_remove_text.
(** Text 3 stands between b 2 and c 4 in a 1. *)
Example C67_texts_ex : WF ex_doc /\ Listed ex_doc 1 1 3 /\ Writes ex_doc 4 [] /\ Writes ex_doc 3 (lit "z") /\ ~ Writes ex_doc 3 [] /\
  b_text_remove 3 (mkGuards [] [CNode 4]) ex_doc = BClash /\ b_text_remove 3 (mkGuards [] [CNode 3]) ex_doc = BClash /\
  (exists h', b_text_remove 3 (mkGuards [] [CNode 2; CNode 0]) ex_doc = BOk (h', tt) /\ kids h' 1 = [2; 4] /\ index h' 4 = 1) /\
  b_set_text ex_od 4 [] (mkGuards [] [CNode 4]) ex_doc = BClash /\
  (exists e, b_set_text ex_od 3 [] (mkGuards [] [CNode 3]) ex_doc = BOk (ex_doc, e)) /\
  (exists h', b_set_text ex_od 4 (lit "z") (mkGuards [] [CNode 1; CNode 5]) ex_doc = BOk (h', []) /\ kids h' 4 = [7]).
Proof.
  split; [exact ex_doc_wf|]. split; [reflexivity|]. split; [left; reflexivity|]. split; [right; split; [left; reflexivity | discriminate]|].
  split; [intros [H | (_ & H)]; [discriminate | congruence]|]. split; [vm_compute; reflexivity|]. split; [vm_compute; reflexivity|].
  split; [eexists; split; [vm_compute; reflexivity | repeat split]|]. split; [vm_compute; reflexivity|].
  split; eexists; [vm_compute; reflexivity | split; [vm_compute; reflexivity | reflexivity]].
Qed.

(** * C67: appending from a walk *)
Lemma inside_under h self x rs : self <> x ->
  (b_inside self true [x] (mkGuards [] rs) h = BClash <-> In (CNode self) rs \/ In (CNode x) rs).
Proof.
  intros Hne. unfold b_inside. rewrite bind_eq, set_parents_eq. cbn [existsb]. unfold held. cbn [g_mut g_ref existsb orb].
  destruct (existsb (cell_eqb (CNode x)) rs) eqn:Ex; cbn [orb].
  { split; [intros _; right; apply cell_in; exact Ex | reflexivity]. }
  assert (Nx : ~ In (CNode x) rs) by (intros H; apply cell_in in H; congruence).
  set (h1 := set_parents h self [x]). rewrite bind_eq. unfold holding_mut. cbn [g_mut g_ref existsb orb].
  destruct (existsb (cell_eqb (CNode self)) rs) eqn:Es.
  { split; [intros _; left; apply cell_in; exact Es | reflexivity]. }
  assert (Ns : ~ In (CNode self) rs) by (intros H; apply cell_in in H; congruence).
  rewrite bind_eq. unfold see at 1. destruct (n_childs (node_of h1 self)) as [cs|].
  - rewrite bind_eq, bind_eq, reset_eq. cbn [existsb]. unfold held. cbn [g_mut g_ref existsb cell_eqb]. rewrite Ex.
    replace (Nat.eqb x self) with false by (symmetry; apply Nat.eqb_neq; congruence). cbn [orb]. unfold put, ret. split; [discriminate | tauto].
  - unfold ret at 1. rewrite bind_eq, reset_eq. cbn [existsb]. unfold held. cbn [g_mut g_ref existsb orb]. rewrite Ex. cbn [orb].
    rewrite write_eq. unfold held. cbn [g_mut g_ref existsb orb]. rewrite Es. split; [discriminate | tauto].
Qed.
(** Moving a node that has a place to the end of an element clashes exactly when a node being read is its parent, a sibling
    behind it or, if it may stand in the element, the element or the node itself. *)
Theorem C67_append o h self x p i rs : WF h -> Listed h p i x -> is_element h self = true -> is_root h x = false -> self <> x -> ~ Up h self x ->
  (b_insert_adjacent o (S (length h)) self BeforeEnd x (mkGuards [] rs) h = BClash <->
   exists y, In (CNode y) rs /\ (Touched h x y \/ (od_allow_insert o (tag_names h self) (ntype_of h x) = true /\ (y = self \/ y = x)))) /\
  (b_insert_adjacent o (S (length h)) self BeforeEnd x (mkGuards [] rs) h <> BClash ->
   b_insert_adjacent o (S (length h)) self BeforeEnd x (mkGuards [] rs) h = as_b (insert_adjacent o h self BeforeEnd x)).
Proof.
  intros wf Hl He Hr Hne Hup. split.
  2: { intros Hn. rewrite <- (insert_adjacent_eq o h self BeforeEnd x wf).
       destruct (proj1 (fr_insert [] o (S (length h)) self BeforeEnd x [] [] h (fun x (F : In x []) => match F with end) (fun c (F : In c []) => match F with end)) rs) as [E | E]; [exfalso; exact (Hn E) | exact E]. }
  unfold b_insert_adjacent. destruct (validate_eq self x (mkGuards [] rs) h eq_refl wf) as (b & E1 & E2). rewrite bind_eq, E2.
  destruct (validate_ok h self x wf) as (b' & E1' & Hb). rewrite E1' in E1. injection E1 as ->.
  assert (Hdoc : is_document h x = false) by (unfold is_document; unfold is_root in Hr; destruct (ntype_of h x); [discriminate | reflexivity..]).
  assert (b = true) as -> by (apply Hb; repeat split; assumption). cbn [fst snd negb].
  assert (En : b_nodes x (mkGuards [] rs) h = (b_remove_one x ;; ret [x]) (mkGuards [] rs) h).
  { unfold b_nodes, b_remove_one. rewrite bind_eq, (type_eq x h (mkGuards [] rs) eq_refl). unfold is_root in Hr.
    destruct (ntype_of h x); [discriminate|..]; rewrite !bind_eq; destruct (b_parent x (mkGuards [] rs) h) as [[h1 q]| | |]; reflexivity. }
  assert (Hfr : is_fragment h x = false) by (unfold is_fragment; unfold is_root in Hr; destruct (ntype_of h x); [discriminate | reflexivity..]).
  rewrite bind_eq, En, bind_eq.
  destruct (remove_reading h x p i rs wf Hl) as [(E & y & Hy & Ht) | (E & Hno)]; rewrite E.
  { split; [intros _; exists y; tauto | reflexivity]. }
  assert (Hex : exists h1, remove_one h x = Ok h1 /\ nodes_to_insert h x = Ok (h1, [x])).
  { destruct (proj1 (takable_spec h x)) as (h1 & ns & Et).
    - right. intros q Eq _. destruct (wf_listed h wf _ _ _ Hl) as (_ & Hp & Hi). rewrite Hp in Eq. injection Eq as <-. rewrite Hi. apply nth_error_Some. unfold Listed in Hl. congruence.
    - destruct (nodes_ok h x h1 ns wf Et) as (_ & _ & _ & _ & [(Ef & _) | (_ & ->)]); [congruence|]. exists h1. split; [|exact Et].
      unfold nodes_to_insert in Et. rewrite Hfr in Et. unfold remove_one. destruct (parent h x); [|injection Et as ->; reflexivity].
      destruct (remove_child h _ x); cbn [rbind] in Et; congruence. }
  destruct Hex as (h1 & Er & Et). rewrite Er. unfold silent. cbn [as_b rbind]. unfold ret at 1.
  destruct (nodes_ok h x h1 [x] wf Et) as (_ & Hs & _).
  rewrite bind_eq, (tag_eq self h1 (mkGuards [] rs) eq_refl), bind_eq, bind_eq, (not_allowed_nodes_eq o _ [x] (mkGuards [] rs) h1 eq_refl). unfold ret at 1. cbn [fst filter].
  assert (Tg : tag_names h1 self = tag_names h self).
  { unfold tag_names, is_element, ntype_of. destruct (proj2 Hs self) as (-> & _ & -> & _). reflexivity. }
  assert (Ty : ntype_of h1 x = ntype_of h x) by (exact (proj1 (proj2 Hs x))). rewrite Tg, Ty.
  destruct (od_allow_insert o (tag_names h self) (ntype_of h x)).
  - rewrite bind_eq. pose proof (inside_under h1 self x rs Hne) as Hi. split.
    + intros H. destruct (proj1 Hi) as [Hy | Hy]; [|exists self; tauto | exists x; tauto].
      destruct (b_inside self true [x] (mkGuards [] rs) h1) as [[h2 u]| | |]; [discriminate | reflexivity | discriminate | discriminate].
    + intros (y & Hy & [Ht | (_ & [-> | ->])]); [destruct (Hno y Hy Ht) | rewrite (proj2 Hi (or_introl Hy)); reflexivity | rewrite (proj2 Hi (or_intror Hy)); reflexivity].
  - unfold ret. split; [discriminate|]. intros (y & Hy & [Ht | (F & _)]); [destruct (Hno y Hy Ht) | discriminate].
Qed.
Print Assumptions C67_append.
(** Moving b (first child of a) to the end of e clashes while a, text 3, c, b or e is read, not while d or the root is. *)
Example C67_append_ex : WF ex_doc /\ Listed ex_doc 1 0 2 /\ is_element ex_doc 6 = true /\ is_root ex_doc 2 = false /\ ~ Up ex_doc 6 2 /\
  map (fun y => match b_insert_adjacent ex_od 8 6 BeforeEnd 2 (mkGuards [] [CNode y]) ex_doc with BClash => true | _ => false end) [0; 1; 2; 3; 4; 5; 6] =
    [false; true; true; true; true; false; true] /\
  exists h', b_insert_adjacent ex_od 8 6 BeforeEnd 2 (mkGuards [] [CNode 0; CNode 5]) ex_doc = BOk (h', []) /\ kids h' 6 = [2] /\ kids h' 1 = [3; 4].
Proof.
  split; [exact ex_doc_wf|]. do 3 (split; [reflexivity|]). split.
  { assert (U : forall a z, Up ex_doc a z -> a = 6 -> z = 0).
    { intros a z H. induction H as [a z H | a q z _ IH H]; intros ->; [injection H as <-; reflexivity|]. rewrite (IH eq_refl) in H. discriminate. }
    intros H. discriminate (U 6 2 H eq_refl). }
  split; [vm_compute; reflexivity|]. eexists. split; [vm_compute; reflexivity | repeat split].
Qed.

(** Moving d into b while c, which loses it, is read; walking from c backwards over a, each child gets new contents, up to
    b; moving e into a is a clash. *)
Example C67_more_ex :
  (exists h', CallsOk ex_od ex_oracle toy ex_doc (map plain_s [SOne (BTree (OInsert 2 BeforeEnd 5))]) /\
     run_calls ex_od ex_oracle toy ex_doc (map plain_s [SOne (BTree (OInsert 2 BeforeEnd 5))]) = Ok h' /\ ~ SameFields ex_doc h' 4 /\ SameFields ex_doc h' 1 /\
     s_calls ex_od ex_oracle toy [SOne (BTree (OInsert 2 BeforeEnd 5))] (mkGuards [] [CNode 1]) ex_doc = BOk (h', tt)) /\
  2 < length (kids ex_doc 1) /\
  (exists h', b_since_by 1 2 true (fun c => s_calls ex_od ex_oracle toy (ex_inside c) ;; ret (Nat.eqb c 4)) no_guards ex_doc = BOk (h', tt) /\
     length (kids h' 4) = 2 /\ length (kids h' 2) = 2 /\ kids h' 1 = [2; 3; 4]) /\
  b_since_by 1 0 false (fun c => s_calls ex_od ex_oracle toy [SOne (BTree (OInsert 1 BeforeEnd 6))] ;; ret true) no_guards ex_doc = BClash.
Proof.
  split.
  { eexists. split.
    { cbn [map plain_s plain CallsOk CallOk]. split; [|intros ? _; exact I].
      split; [apply (PropsMutate.placed_check _ _ 1); reflexivity | split; [apply (PropsMutate.placed_check _ _ 4); reflexivity | reflexivity]]. }
    split; [vm_compute; reflexivity|]. split; [intros (_ & _ & _ & H & _); vm_compute in H; discriminate|]. split; [repeat split | vm_compute; reflexivity]. }
  split; [vm_compute; lia|]. split; [eexists; split; [vm_compute; reflexivity | repeat split] | vm_compute; reflexivity].
Qed.
