(** Property theorems: find (C05), its order (C06), the look-up (C07), the order of the parts of a compound (C08), unions (C33).
    [Walk h S g x]: [x] is reached from a node of [S] along the combinators of [g], every compound holding on the way. *)
From Verif Require Import Base Utils UtilsSpec UtilsProofs Nth NthSpec Attr AttrSpec AttrProofs ClassSpec Dom DomSpec Order OrderSpec DomProofs OrderProofs
  Sets SetsProofs AddProofs DomBuild DomBuildProofs NavProofs Engine Rules SelSpec FindSpec OneProofs PreProofs SelBool SibLists SibProofs StepProofs
  BackProofs FilterProofs RuleProofs SelBuild FindProofs FindRules SelectProofs FindBuild PropsFilter.
From Coq Require Import Sorting.Permutation.

(** What the theorems about one group assume: a document, its id look-up, a parsed group without the rules that go wrong on this document. *)
Record Searching (h : heap) (r : id) (text_of : id -> str) (by_id : id -> str -> option id) (els : list id) (g : list (list (rule * comb))) : Prop := mkSearching {
  sg_doc : DocOk h r;
  sg_ids : IdCache h r by_id;
  sg_ok : GroupOk h r text_of g;
  sg_wf : group_wf g = true;
  sg_els : Starts h r els
}.
Notation reached h text_of els g := (Walk h (fun s => In s els) (preds h text_of g)).

(** * Concrete searches *)
Definition nm (n : String.string) : rule := RName (lit n).
Definition cl (n : String.string) : rule := RClass (lit n).
Definition idr (n : String.string) : rule := RId (lit n).
Arguments nm n%string_scope.
Arguments cl n%string_scope.
Arguments idr n%string_scope.
(** [<body><div><div><p/></div><p><div><p><b class=a/></p></div></p></div><i id=y><u/></i><b id=x/></body>]:
    body 1, div 2, div 3, p 4, p 5, div 6, p 7, b 8, i 9, u 10, b 11. *)
Definition ndoc : heap := doc
  [E "body" []
    [E "div" [] [E "div" [] [E "p" [] []]; E "p" [] [E "div" [] [E "p" [] [E "b" [at_ "class" "a"] []]]]];
     E "i" [at_ "id" "y"] [E "u" [] []]; E "b" [at_ "id" "x"] []]].
Notation nfind els gs := (find_ast ndoc stext (ids_of ndoc) els gs).
Notation nplain els gs := (find_selector ndoc els (compile_selector ndoc stext (ids_of ndoc) false gs)).
Notation reaches els g x := (reached ndoc stext els g x).
Notation div_p := [[(nm "div", ChildrenAll)]; [(nm "p", Children)]].
Notation div_p_a := [[(nm "div", ChildrenAll)]; [(nm "p", Children)]; [(cl "a", ChildrenAll)]].

Definition searching (h : heap) (text_of : id -> str) (els : list id) (g : list (list (rule * comb))) : bool :=
  docok_check h 0 && ids_check h 0 && sel_check h text_of [g] && group_wf g && elset_check h 0 els.
Lemma searching_sound h text_of els g : searching h text_of els g = true ->
  Searching h 0 text_of (ids_of h) els g /\ (find_check h text_of els g = true -> FindOk h text_of els g) /\ (find_ord_check h text_of els g = true -> FindOrd h text_of els g) /\
  (steps_check h text_of (inb els) true g = true -> StepsOk h text_of (fun x => In x els) True g) /\
  (steps_ord_check h text_of (inb els) true g = true -> StepsOrd h text_of (fun x => In x els) True g).
Proof.
  unfold searching. rewrite !andb_true_iff. intros [[[[H1 H2] H3] H4] H5]. apply docok_check_sound in H1. pose proof (allin_check_sound h 0 _ H2) as W.
  destruct (elset_check_sound h 0 els H5) as [He Ho]. pose proof (sel_check_sound h 0 text_of [g] H1 H3 g (or_introl eq_refl)) as Hok.
  assert (Hw : forallb comp_wf g = true) by (unfold group_wf in H4; apply andb_true_iff in H4; apply H4).
  split; [|split; [|split; [|split]]].
  - split; [exact H1 | exact (ids_check_sound h 0 H1 H2) | exact Hok | exact H4 | split; [|exact Ho]].
    revert He. apply Forall_impl. intros x Hx. split; [apply Hx | left; apply Hx].
  - exact (find_check_sound h 0 text_of H1 W els g He H4 Hok).
  - exact (find_ord_sound h 0 text_of H1 W els g He H4 Hok).
  - intros H. exact (steps_check_sound h 0 text_of H1 W g Hw Hok _ _ true True (decides_in h 0 els He) (fun _ => I) H).
  - intros H. exact (steps_ord_sound h 0 text_of H1 W g Hw Hok _ _ true True (decides_in h 0 els He) (fun _ => I) H).
Qed.
(** A search from the document itself. *)
Lemma searching_root h text_of g : docok_check h 0 = true -> ids_check h 0 = true -> sel_check h text_of [g] = true -> group_wf g = true ->
  Searching h 0 text_of (ids_of h) [0] g.
Proof.
  intros H1 H2 H3 H4. apply docok_check_sound in H1. split; [exact H1 | exact (ids_check_sound h 0 H1 H2) | exact (sel_check_sound h 0 text_of [g] H1 H3 g (or_introl eq_refl)) | exact H4 |].
  split; [|constructor; constructor]. constructor; [|constructor]. split; [|right; reflexivity].
  pose proof (allin_check_sound h 0 _ H2) as W. rewrite Forall_forall in W. apply W. apply in_seq. split; [lia|]. 
  destruct h; [|cbn; lia]. destruct H1 as [_ H1 _ _]. discriminate.
Qed.
Lemma reached_spec els g x : searching ndoc stext els g = true -> In x (all_els ndoc) -> (walkb ndoc stext (inb els) g x = true <-> reaches els g x).
Proof.
  intros H Hx. unfold searching in H. rewrite !andb_true_iff in H. destruct H as [[[[H1 H2] H3] H4] H5]. apply docok_check_sound in H1. pose proof (allin_check_sound ndoc 0 _ H2) as W.
  destruct (elset_check_sound ndoc 0 els H5) as [He _]. pose proof (sel_check_sound ndoc 0 stext [g] H1 H3 g (or_introl eq_refl)) as Hok.
  assert (Hw : forallb comp_wf g = true) by (unfold group_wf in H4; apply andb_true_iff in H4; apply H4).
  apply (walkb_spec ndoc 0 stext H1 W g Hw Hok (inb els) (fun s => In s els) (decides_in ndoc 0 els He)). apply (all_spec ndoc 0 H1 W). exact Hx.
Qed.

(** * C05 *)
(** Full claim: any selector.  Missing: searches with a step that starts from a set on which the code of that step
    is wrong ([FindOk]; the refutations below show what goes wrong there). *)
Theorem C05_find_partial h r text_of by_id els g : Searching h r text_of by_id els g -> FindOk h text_of els g ->
  exists l, find_ast h text_of by_id els [g] = Ok l /\ forall x, In x l <-> reached h text_of els g x.
Proof.
  intros [D IC Hok Hw HS] HF. destruct (find_group_doc h r D text_of by_id IC els g HS Hok Hw HF) as (l & El & _ & _ & _ & H). exists l. split; assumption.
Qed.
Print Assumptions C05_find_partial.
(** The same with a condition on the selector only, for a search from one node (the document, say). *)
Theorem C05_find_static_partial h r text_of by_id x0 g s : Searching h r text_of by_id [x0] g -> find_shape SLevel g = Some s ->
  exists l, find_ast h text_of by_id [x0] [g] = Ok l /\ NoDup l /\ (s <> SAny -> Ordered h l) /\ forall x, In x l <-> reached h text_of [x0] g x.
Proof.
  intros [D IC Hok Hw HS] HF. assert (Hsh : Shaped h r SLevel [x0]).
  { split; [|split; constructor]. destruct HS as [HS _]. apply Forall_inv in HS. destruct HS as [[_ (l & Hl)] _]. exists (length l). intros x [<- | []]. exists l. split; [exact Hl | reflexivity]. }
  destruct (find_group h r D text_of by_id IC [x0] g SLevel s HS Hsh Hok Hw HF) as (l & El & _ & Hn & Hs & H). exists l. split; [exact El|]. split; [exact Hn|]. split; [|exact H].
  intros Hs'. destruct s; [apply Hs | exact Hs | congruence].
Qed.
Print Assumptions C05_find_static_partial.
(** From any set in document order, for selectors whose result is in document order by their form. *)
Theorem C05_find_set_partial h r text_of by_id els g s : Searching h r text_of by_id els g -> find_shape SOrdered g = Some s ->
  exists l, find_ast h text_of by_id els [g] = Ok l /\ NoDup l /\ (s <> SAny -> Ordered h l) /\ forall x, In x l <-> reached h text_of els g x.
Proof.
  intros [D IC Hok Hw HS] HF.
  destruct (find_group h r D text_of by_id IC els g SOrdered s HS (proj2 HS) Hok Hw HF) as (l & El & _ & Hn & Hs & H). exists l. split; [exact El|]. split; [exact Hn|]. split; [|exact H].
  intros Hs'. destruct s; [apply Hs | exact Hs | congruence].
Qed.
Print Assumptions C05_find_set_partial.


(** [div > p] from the elements 3, 5, 9; from the document, by the form of the selector, [div > p .a]. *)
Example C05_ex : Searching ndoc 0 stext (ids_of ndoc) [3; 5; 9] div_p /\ FindOk ndoc stext [3; 5; 9] div_p /\ nfind [3; 5; 9] [div_p] = Ok [7].
Proof.
  destruct (searching_sound ndoc stext [3; 5; 9] div_p) as (H1 & H2 & _); [vm_compute; reflexivity|].
  split; [exact H1|]. split; [apply H2; vm_compute; reflexivity | vm_compute; reflexivity].
Qed.
Example C05_static_ex : Searching ndoc 0 stext (ids_of ndoc) [0] div_p_a /\ find_shape SLevel div_p_a = Some SOrdered /\ nfind [0] [div_p_a] = Ok [8] /\
  find_shape SLevel div_p = Some SAny /\ find_shape SOrdered div_p = Some SAny.
Proof. split; [apply searching_root; vm_compute; reflexivity|]. repeat split; vm_compute; reflexivity. Qed.

(** [#y > #x] finds the element x although it is not a child of y: the id look-up goes through the whole document.
    [:last-child] panics inside an element without children. *)
Theorem C05_find_refuted :
  (exists h r text_of by_id els g l x, Searching h r text_of by_id els g /\ find_ast h text_of by_id els [g] = Ok l /\ In x l /\ ~ reached h text_of els g x) /\
  (exists h r text_of by_id els g, Searching h r text_of by_id els g /\ find_ast h text_of by_id els [g] = Panic).
Proof.
  split.
  - pose (g := [[(idr "y", ChildrenAll)]; [(idr "x", Children)]]). exists ndoc, 0, stext, (ids_of ndoc), [1], g, [11], 11.
    assert (HS : searching ndoc stext [1] g = true) by (vm_compute; reflexivity).
    split; [exact (proj1 (searching_sound _ _ _ _ HS))|]. split; [vm_compute; reflexivity|]. split; [left; reflexivity|].
    intros H. apply (reached_spec [1] g 11 HS) in H; [|vm_compute; tauto]. vm_compute in H. discriminate.
  - pose (g := [[(RFirstChild false, ChildrenAll)]]). exists ndoc, 0, stext, (ids_of ndoc), [4], g.
    split; [apply searching_sound; vm_compute; reflexivity | vm_compute; reflexivity].
Qed.
Print Assumptions C05_find_refuted.

(** * C06 *)
(** Full claim: always.  Missing: see C05, and results of steps that leave document order ([FindOrd]). *)
Theorem C06_find_order_partial h r text_of by_id els g : Searching h r text_of by_id els g -> FindOk h text_of els g ->
  exists l, find_ast h text_of by_id els [g] = Ok l /\ NoDup l /\ (FindOrd h text_of els g -> Ordered h l).
Proof.
  intros [D IC Hok Hw HS] HF. destruct (find_group_doc h r D text_of by_id IC els g HS Hok Hw HF) as (l & El & _ & Hn & Ho & _). exists l.
  split; [exact El|]. split; assumption.
Qed.
Print Assumptions C06_find_order_partial.


Example C06_ex : Searching ndoc 0 stext (ids_of ndoc) [3; 5; 9] div_p /\ FindOk ndoc stext [3; 5; 9] div_p /\ FindOrd ndoc stext [3; 5; 9] div_p /\
  FindOrd ndoc stext [1] [[(nm "body", ChildrenAll)]; [(nm "div", Children)]; [(nm "i", NextAll)]].
Proof.
  destruct (searching_sound ndoc stext [3; 5; 9] div_p) as (H1 & H2 & H3 & _); [vm_compute; reflexivity|].
  split; [exact H1|]. split; [apply H2; vm_compute; reflexivity|]. split; [apply H3; vm_compute; reflexivity|].
  apply (searching_sound ndoc stext [1]); vm_compute; reflexivity.
Qed.

(** [div > p] from body gives 5, 4, 7, which is not document order; [div > p b] gives the element 8 twice. *)
Theorem C06_find_order_refuted :
  (exists h r text_of by_id els g l, Searching h r text_of by_id els g /\ find_ast h text_of by_id els [g] = Ok l /\ ~ Ordered h l) /\
  (exists h r text_of by_id els g l, Searching h r text_of by_id els g /\ find_ast h text_of by_id els [g] = Ok l /\ ~ NoDup l).
Proof.
  split.
  - exists ndoc, 0, stext, (ids_of ndoc), [1], div_p, [5; 4; 7].
    assert (HS : searching ndoc stext [1] div_p = true) by (vm_compute; reflexivity). destruct (searching_sound _ _ _ _ HS) as [H _].
    split; [exact H|]. split; [vm_compute; reflexivity|].
    intros [HF _]. apply Forall_inv in HF.
    unfold searching in HS. rewrite !andb_true_iff in HS. destruct HS as [[[[H1 H2] _] _] _]. apply docok_check_sound in H1. pose proof (allin_check_sound ndoc 0 _ H2) as W.
    apply (beforeb_spec ndoc 0 H1) in HF; [vm_compute in HF; discriminate | |]; apply (all_spec ndoc 0 H1 W); vm_compute; tauto.
  - pose (g := [[(nm "div", ChildrenAll)]; [(nm "p", Children)]; [(nm "b", ChildrenAll)]]). exists ndoc, 0, stext, (ids_of ndoc), [1], g, [8; 8].
    split; [apply searching_sound; vm_compute; reflexivity|]. split; [vm_compute; reflexivity|].
    intros HN. apply NoDup_cons_iff in HN. apply (proj1 HN). left. reflexivity.
Qed.
Print Assumptions C06_find_order_refuted.

(** * C07 *)
(** Full claim: the search with the look-up and the one without give the same set.  Missing: see C05, for both. *)
Theorem C07_lookup_partial h r text_of by_id els g : Searching h r text_of by_id els g -> FindOk h text_of els g ->
  StepsOk h text_of (fun x => In x els) True g ->
  exists l l', find_selector h els (compile_selector h text_of by_id true [g]) = Ok l /\ find_selector h els (compile_selector h text_of by_id false [g]) = Ok l' /\
    Permutation l l' /\ (FindOrd h text_of els g -> StepsOrd h text_of (fun x => In x els) True g -> l = l').
Proof.
  intros [D IC Hok Hw HS] HF HP. destruct (find_group_doc h r D text_of by_id IC els g HS Hok Hw HF) as (l & El & He & Hn & Ho & H).
  destruct (find_plain_doc h r D text_of by_id IC els g HS Hok Hw HP) as (l' & El' & He' & Hn' & Ho' & H').
  assert (HI : forall x, In x l <-> In x l') by (intros x; rewrite H, H'; reflexivity).
  exists l, l'. split; [exact El|]. split; [exact El'|]. split; [apply NoDup_Permutation; assumption|].
  intros H1 H2. apply (ordered_unique h (do_wf h r D) r); [|exact (Ho H1) | exact (Ho' H2) | exact HI]. revert He. apply Forall_impl. intros x Hx. apply Hx.
Qed.
Print Assumptions C07_lookup_partial.

Example C07_ex : Searching ndoc 0 stext (ids_of ndoc) [3; 5; 9] div_p_a /\ looks_up div_p_a = true /\ FindOk ndoc stext [3; 5; 9] div_p_a /\
  StepsOk ndoc stext (fun x => In x [3; 5; 9]) True div_p_a /\ FindOrd ndoc stext [3; 5; 9] div_p_a /\ StepsOrd ndoc stext (fun x => In x [3; 5; 9]) True div_p_a /\
  nfind [3; 5; 9] [div_p_a] = Ok [8] /\ nplain [3; 5; 9] [div_p_a] = Ok [8].
Proof.
  destruct (searching_sound ndoc stext [3; 5; 9] div_p_a) as (H1 & H2 & H3 & H4 & H5); [vm_compute; reflexivity|].
  split; [exact H1|]. split; [reflexivity|]. split; [apply H2; vm_compute; reflexivity|]. split; [apply H4; vm_compute; reflexivity|].
  split; [apply H3; vm_compute; reflexivity|]. split; [apply H5; vm_compute; reflexivity|]. split; vm_compute; reflexivity.
Qed.

(** [i > #x]: the look-up finds nothing, the forward search finds the element x, which is not inside an i.
    [div > p .a]: the look-up finds 8 once, the forward search twice. *)
Theorem C07_lookup_refuted :
  (exists h r text_of by_id els g l l' x, Searching h r text_of by_id els g /\ find_selector h els (compile_selector h text_of by_id true [g]) = Ok l /\
     find_selector h els (compile_selector h text_of by_id false [g]) = Ok l' /\ ~ In x l /\ In x l') /\
  (exists h r text_of by_id els g l l', Searching h r text_of by_id els g /\ find_selector h els (compile_selector h text_of by_id true [g]) = Ok l /\
     find_selector h els (compile_selector h text_of by_id false [g]) = Ok l' /\ NoDup l /\ ~ NoDup l').
Proof.
  split.
  - pose (g := [[(nm "i", ChildrenAll)]; [(idr "x", Children)]]). exists ndoc, 0, stext, (ids_of ndoc), [1], g, [], [11], 11.
    split; [apply searching_sound; vm_compute; reflexivity|]. split; [vm_compute; reflexivity|]. split; [vm_compute; reflexivity|]. split; [intros [] | left; reflexivity].
  - exists ndoc, 0, stext, (ids_of ndoc), [1], div_p_a, [8], [8; 8].
    split; [apply searching_sound; vm_compute; reflexivity|]. split; [vm_compute; reflexivity|]. split; [vm_compute; reflexivity|].
    split; [repeat constructor; intros []|]. intros HN. apply NoDup_cons_iff in HN. apply (proj1 HN). left. reflexivity.
Qed.
Print Assumptions C07_lookup_refuted.

(** * C08 *)
(** The same parts in another order, under the same combinator. *)
Definition SameParts (cp cp' : list (rule * comb)) : Prop := comp_comb cp = comp_comb cp' /\ Permutation (map fst cp) (map fst cp').
Notation same_parts := (Forall2 SameParts).
Section Parts.
  Variable h : heap.
  Variable text_of : id -> str.
  Lemma parts_holds cp cp' x : SameParts cp cp' -> CompHolds (comp_preds h text_of cp) x -> CompHolds (comp_preds h text_of cp') x.
  Proof.
    intros [_ HP] H P c Hi. unfold comp_preds in Hi. apply in_map_iff in Hi. destruct Hi as ([rl c'] & E & Hi). inversion E; subst.
    assert (Hf : In rl (map fst cp)) by (apply (Permutation_in _ (Permutation_sym HP)); apply in_map_iff; exists (rl, c); split; [reflexivity | exact Hi]).
    apply in_map_iff in Hf. destruct Hf as ([rl' c''] & E' & Hf). cbn in E'. subst rl'. apply (H (Holds h text_of rl) c'').
    apply in_map_iff. exists (rl, c''). split; [reflexivity | exact Hf].
  Qed.
  Lemma parts_sym cp cp' : SameParts cp cp' -> SameParts cp' cp.
  Proof. intros [H1 H2]. split; [symmetry; exact H1 | apply Permutation_sym; exact H2]. Qed.
  Lemma same_sym g g' : same_parts g g' -> same_parts g' g.
  Proof. induction 1; constructor; [apply parts_sym; assumption | assumption]. Qed.
  Lemma sel_same_sym gs gs' : Forall2 (Forall2 SameParts) gs gs' -> Forall2 (Forall2 SameParts) gs' gs.
  Proof. induction 1; constructor; [apply same_sym; assumption | assumption]. Qed.
  Lemma parts_comb cp cp' : SameParts cp cp' -> comp_comb (comp_preds h text_of cp) = comp_comb (comp_preds h text_of cp').
  Proof. intros [H _]. unfold comp_preds. rewrite !comp_comb_map. exact H. Qed.
  Lemma parts_ok r cp cp' : SameParts cp cp' -> CompOk h r text_of cp -> CompOk h r text_of cp'.
  Proof.
    intros [_ HP] H rl c Hi. assert (Hf : In rl (map fst cp)) by (apply (Permutation_in _ (Permutation_sym HP)); apply in_map_iff; exists (rl, c); split; [reflexivity | exact Hi]).
    apply in_map_iff in Hf. destruct Hf as ([rl' c'] & E & Hf). cbn in E. subst rl'. exact (H rl c' Hf).
  Qed.
  Lemma same_ok r g g' : same_parts g g' -> GroupOk h r text_of g -> GroupOk h r text_of g'.
  Proof.
    induction 1 as [|cp cp' g g' HP _ IH]; intros H; [intros cp []|]. intros c [<- | Hc].
    - exact (parts_ok r cp cp' HP (H cp (or_introl eq_refl))).
    - exact (IH (fun c' Hc' => H c' (or_intror Hc')) c Hc).
  Qed.
  Lemma sel_same_ok r gs gs' : Forall2 (Forall2 SameParts) gs gs' -> SelOk h r text_of gs -> SelOk h r text_of gs'.
  Proof.
    induction 1 as [|g g' gs gs' HP _ IH]; intros H; [intros g []|]. intros c [<- | Hc].
    - exact (same_ok r g g' HP (H g (or_introl eq_refl))).
    - exact (IH (fun c' Hc' => H c' (or_intror Hc')) c Hc).
  Qed.
  Lemma same_rev g g' x : same_parts g g' -> MatchRev h (preds h text_of g) x -> MatchRev h (preds h text_of g') x.
  Proof.
    intros H. revert x. induction H as [|cp cp' g g' HP HG IH]; intros x H; [exact H|]. cbn [preds map MatchRev] in *. destruct H as [H1 H2].
    split; [exact (parts_holds cp cp' x HP H1)|]. change (comp_comb ?l) with (comp_comb (comp_preds h text_of cp')). change (comp_comb (map _ cp)) with (comp_comb (comp_preds h text_of cp)) in H2.
    rewrite <- (parts_comb cp cp' HP). fold (preds h text_of g') in *. fold (preds h text_of g) in *.
    destruct HG as [|c c' g g' HP' HG]; [exact I|]. destruct H2 as (y & Hy & HR & HM). exists y. split; [exact Hy|]. split; [exact HR | exact (IH y HM)].
  Qed.
  Lemma forall2_rev {A B} (R : A -> B -> Prop) l l' : Forall2 R l l' -> Forall2 R (rev l) (rev l').
  Proof. induction 1; [constructor|]. cbn. apply Forall2_app; [assumption | repeat constructor; assumption]. Qed.
  Lemma same_matches g g' x : same_parts g g' -> (Matches h (preds h text_of g) x <-> Matches h (preds h text_of g') x).
  Proof.
    intros H. unfold Matches, preds. rewrite <- !map_rev. apply forall2_rev in H. split; apply same_rev; [exact H | apply same_sym; exact H].
  Qed.
  Lemma same_meets gs gs' x : Forall2 (Forall2 SameParts) gs gs' -> meets h text_of gs x -> meets h text_of gs' x.
  Proof.
    intros H. induction H as [|g g' gs gs' HP _ IH]; intros (p & Hp & HM); [destruct Hp|]. destruct Hp as [<- | Hp].
    - exists (preds h text_of g'). split; [left; reflexivity | apply (same_matches g g' x HP); exact HM].
    - destruct IH as (p' & Hp' & HM'); [exists p; split; assumption|]. exists p'. split; [right; exact Hp' | exact HM'].
  Qed.
  Lemma same_walk g g' : same_parts g g' -> forall (S S' : id -> Prop), (forall x, S x -> S' x) -> forall x, Walk h S (preds h text_of g) x -> Walk h S' (preds h text_of g') x.
  Proof.
    induction 1 as [|cp cp' g g' HP _ IH]; intros S S' HS x H; [exact (HS x H)|]. cbn [preds map Walk] in *. revert H. apply IH.
    intros y [(s & Hs & HR) HC]. split; [|exact (parts_holds cp cp' y HP HC)]. exists s. split; [exact (HS s Hs)|].
    change (Rel h (comp_comb (comp_preds h text_of cp')) s y). rewrite <- (parts_comb cp cp' HP). exact HR.
  Qed.
  Lemma adds_ext (Bs Bs' : list (id -> Prop)) : Forall2 (fun B B' => forall x, B x <-> B' x) Bs Bs' -> forall A A' : id -> Prop, (forall x, A x <-> A' x) -> AddsFree h A Bs -> AddsFree h A' Bs'.
  Proof.
    induction 1 as [|B B' Bs Bs' HB _ IH]; intros A A' HA H; [exact I|]. destruct H as [H1 H2]. split.
    - exact (addfree_ext h A B A' B' HA HB H1).
    - revert H2. apply IH. intros x. rewrite HA, HB. reflexivity.
  Qed.
  Lemma same_union gs gs' els : Forall2 (Forall2 SameParts) gs gs' -> UnionOk h (map (fun g => meeting h text_of els g) gs) -> UnionOk h (map (fun g => meeting h text_of els g) gs').
  Proof.
    intros H. apply adds_ext; [|reflexivity]. induction H as [|g g' gs gs' HP _ IH]; constructor; [|exact IH]. intros x. rewrite (same_matches g g' x HP). reflexivity.
  Qed.
End Parts.
Lemma kept_unique {A} (P : A -> Prop) l l1 l2 : Kept P l l1 -> Kept P l l2 -> l1 = l2.
Proof.
  intros H. revert l2. induction H as [|x l l' Hx _ IH|x l l' Hx _ IH]; intros l2 H2; inversion H2; subst; try contradiction; [reflexivity | f_equal; apply IH; assumption | apply IH; assumption].
Qed.

Ltac same_parts_tac :=
  repeat first [apply Forall2_nil | apply Forall2_cons | split; [reflexivity | cbn [map fst]; try apply Permutation_refl; try apply perm_swap]].

(** Full claim: for every selector.  Missing: see C09 and C05. *)
Theorem C08_filter_partial h r text_of by_id els gs gs' : Setting h r text_of by_id gs -> Forall2 (Forall2 SameParts) gs gs' -> sel_wf gs' = true ->
  Forall (ElIn h r) els -> Ordered h els -> UnionOk h (map (fun g => meeting h text_of els g) gs) ->
  filter_ast h text_of by_id els gs' = filter_ast h text_of by_id els gs /\ not_ast h text_of by_id els gs' = not_ast h text_of by_id els gs /\
  is_ast h text_of by_id els gs' = is_ast h text_of by_id els gs /\ is_all_ast h text_of by_id els gs' = is_all_ast h text_of by_id els gs /\
  has_ast h text_of by_id els gs' = has_ast h text_of by_id els gs.
Proof.
  intros HS HP Hw He Ho HU.
  assert (HS' : Setting h r text_of by_id gs') by (destruct HS as [D IC Hok _]; split; [exact D | exact IC | exact (sel_same_ok h text_of r gs gs' HP Hok) | exact Hw]).
  assert (HM : forall x, meets h text_of gs' x <-> meets h text_of gs x) by (intros x; split; apply same_meets; [apply sel_same_sym|]; exact HP).
  pose proof (same_union h text_of gs gs' els HP HU) as HU'.
  destruct (C09_filter_not_partial h r text_of by_id els gs HS He Ho HU) as (l1 & l2 & E1 & K1 & E2 & K2).
  destruct (C09_filter_not_partial h r text_of by_id els gs' HS' He Ho HU') as (l1' & l2' & E1' & K1' & E2' & K2').
  destruct (C10_is_partial h r text_of by_id els gs HS He Ho) as (b & Eb & Hb). destruct (C10_is_partial h r text_of by_id els gs' HS' He Ho) as (b' & Eb' & Hb').
  destruct (C10_is_all_partial h r text_of by_id els gs HS He Ho HU) as (c & Ec & Hc). destruct (C10_is_all_partial h r text_of by_id els gs' HS' He Ho HU') as (c' & Ec' & Hc').
  assert (Hin : AllIn h r els) by (revert He; apply Forall_impl; intros x Hx; apply Hx).
  destruct (C11_has_partial h r text_of by_id els gs HS Hin) as (l3 & E3 & K3). destruct (C11_has_partial h r text_of by_id els gs' HS' Hin) as (l3' & E3' & K3').
  assert (Hbool : forall a a' : bool, (a = true <-> a' = true) -> a = a').
  { intros a a' [H1 H2]. destruct a, a'; try reflexivity; [symmetry; apply H1; reflexivity | apply H2; reflexivity]. }
  rewrite E1, E1', E2, E2', Eb, Eb', Ec, Ec', E3, E3'. repeat split; f_equal.
  - apply (kept_unique (meets h text_of gs) els); [|exact K1]. revert K1'. apply kept_ext. intros x _. apply HM.
  - apply (kept_unique (fun x => ~ meets h text_of gs x) els); [|exact K2]. revert K2'. apply kept_ext. intros x _. rewrite HM. reflexivity.
  - apply Hbool. rewrite Hb, Hb'. split; intros (x & Hx & H); exists x; (split; [exact Hx | apply HM; exact H]).
  - apply Hbool. rewrite Hc, Hc'. split; intros (H & H'); (split; [exact H | intros x Hx; apply HM; apply H'; exact Hx]).
  - apply (kept_unique (fun x => exists y, DescEl h x y /\ meets h text_of gs y) els); [|exact K3]. revert K3'. apply kept_ext. intros x _.
    split; intros (y & Hy & H); exists y; (split; [exact Hy | apply HM; exact H]).
Qed.
Print Assumptions C08_filter_partial.
Theorem C08_find_partial h r text_of by_id els g g' : Searching h r text_of by_id els g -> same_parts g g' -> group_wf g' = true ->
  FindOk h text_of els g -> FindOk h text_of els g' ->
  exists l l', find_ast h text_of by_id els [g] = Ok l /\ find_ast h text_of by_id els [g'] = Ok l' /\ Permutation l l' /\
    (FindOrd h text_of els g -> FindOrd h text_of els g' -> l = l').
Proof.
  intros [D IC Hok Hw HS] HP Hw' HF HF'. pose proof (same_ok h text_of r g g' HP Hok) as Hok'.
  destruct (find_group_doc h r D text_of by_id IC els g HS Hok Hw HF) as (l & El & He & Hn & Ho & H).
  destruct (find_group_doc h r D text_of by_id IC els g' HS Hok' Hw' HF') as (l' & El' & He' & Hn' & Ho' & H').
  assert (HI : forall x, In x l <-> In x l') by (intros x; rewrite H, H'; split; apply same_walk; trivial; apply same_sym; exact HP).
  exists l, l'. split; [exact El|]. split; [exact El'|]. split; [apply NoDup_Permutation; assumption|].
  intros H1 H2. apply (ordered_unique h (do_wf h r D) r); [|exact (Ho H1) | exact (Ho' H2) | exact HI]. revert He. apply Forall_impl. intros x Hx. apply Hx.
Qed.
Print Assumptions C08_find_partial.

(** [p.a.b, div > .b:first-child] and its parts in another order (not one a text can have: names come first). *)
Example C08_filter_ex : let gs := [[[(nm "p", ChildrenAll); (cl "a", Chain); (cl "b", Chain)]]; [[(nm "div", ChildrenAll)]; [(cl "b", Children); (RFirstChild true, Chain)]]] in
  let gs' := [[[(cl "b", ChildrenAll); (nm "p", Chain); (cl "a", Chain)]]; [[(nm "div", ChildrenAll)]; [(RFirstChild true, Children); (cl "b", Chain)]]] in
  Setting sdoc 0 stext (ids_of sdoc) gs /\ Forall2 (Forall2 SameParts) gs gs' /\ sel_wf gs' = true /\ Forall (ElIn sdoc 0) [1; 2; 4; 5] /\ Ordered sdoc [1; 2; 4; 5] /\
  filter_ast sdoc stext (ids_of sdoc) [1; 2; 4; 5] gs' = Ok [2].
Proof.
  cbv zeta. split; [apply sdoc_set; vm_compute; reflexivity|]. split.
  - same_parts_tac. apply (Permutation_trans (l' := [nm "p"; cl "b"; cl "a"])); [apply perm_skip, perm_swap | apply perm_swap].
  - split; [reflexivity|]. split; [|split]; [apply (elset_check_sound sdoc 0); vm_compute; reflexivity | apply (elset_check_sound sdoc 0); vm_compute; reflexivity | vm_compute; reflexivity].
Qed.
Example C08_find_ex : let g := [[(nm "div", ChildrenAll)]; [(cl "b", Children); (RFirstChild true, Chain)]] in
  let g' := [[(nm "div", ChildrenAll)]; [(RFirstChild true, Children); (cl "b", Chain)]] in
  Searching sdoc 0 stext (ids_of sdoc) [1] g /\ same_parts g g' /\ group_wf g' = true /\ FindOk sdoc stext [1] g /\ FindOk sdoc stext [1] g' /\
  find_ast sdoc stext (ids_of sdoc) [1] [g'] = Ok [5].
Proof.
  cbv zeta. destruct (searching_sound sdoc stext [1] [[(nm "div", ChildrenAll)]; [(cl "b", Children); (RFirstChild true, Chain)]]) as (H1 & H2 & _); [vm_compute; reflexivity|].
  destruct (searching_sound sdoc stext [1] [[(nm "div", ChildrenAll)]; [(RFirstChild true, Children); (cl "b", Chain)]]) as (_ & H2' & _); [vm_compute; reflexivity|].
  split; [exact H1|]. split; [same_parts_tac|]. split; [reflexivity|]. split; [apply H2; vm_compute; reflexivity|].
  split; [apply H2'; vm_compute; reflexivity | vm_compute; reflexivity].
Qed.
(** Inside an element without children [:first-child:last-child] finds nothing, [:last-child:first-child] panics. *)
Theorem C08_find_refuted : exists h r text_of by_id els g g', Searching h r text_of by_id els g /\ Searching h r text_of by_id els g' /\ same_parts g g' /\
  find_ast h text_of by_id els [g] = Ok [] /\ find_ast h text_of by_id els [g'] = Panic.
Proof.
  exists ndoc, 0, stext, (ids_of ndoc), [4], [[(RFirstChild true, ChildrenAll); (RFirstChild false, Chain)]], [[(RFirstChild false, ChildrenAll); (RFirstChild true, Chain)]].
  split; [apply searching_sound; vm_compute; reflexivity|]. split; [apply searching_sound; vm_compute; reflexivity|].
  split; [same_parts_tac|]. split; vm_compute; reflexivity.
Qed.
Print Assumptions C08_find_refuted.

(** * C33 *)
(** Full claim: all groups.  Missing: see C05 and C06 for each group; overlapping results that [add] merges wrongly (see C04). *)
Theorem C33_union_partial h r text_of by_id els gs : DocOk h r -> IdCache h r by_id -> SelOk h r text_of gs -> forallb group_wf gs = true -> Starts h r els ->
  (forall g, In g gs -> FindOk h text_of els g /\ FindOrd h text_of els g) ->
  UnionOk h (map (fun g => reached h text_of els g) gs) ->
  exists l, find_ast h text_of by_id els gs = Ok l /\ Ordered h l /\ NoDup l /\
    (forall x, In x l <-> exists g, In g gs /\ reached h text_of els g x) /\
    (forall x, In x l <-> exists g l', In g gs /\ find_ast h text_of by_id els [g] = Ok l' /\ In x l').
Proof.
  intros D IC Hok Hw HS HF HU. destruct (find_groups_doc h r D text_of by_id IC els gs HS Hok Hw HF HU) as (l & El & HD & _ & HI).
  exists l. split; [exact El|]. split; [apply HD|]. split; [exact (ordered_nodup h (do_wf h r D) r l (proj1 HD) (proj2 HD))|]. split; [exact HI|]. intros x. rewrite HI.
  rewrite forallb_forall in Hw. split.
  - intros (g & Hg & HW). destruct (find_group_doc h r D text_of by_id IC els g HS (Hok g Hg) (Hw g Hg) (proj1 (HF g Hg))) as (l' & El' & _ & _ & _ & H').
    exists g, l'. split; [exact Hg|]. split; [exact El' | apply H'; exact HW].
  - intros (g & l' & Hg & El' & Hx). destruct (find_group_doc h r D text_of by_id IC els g HS (Hok g Hg) (Hw g Hg) (proj1 (HF g Hg))) as (l2 & E2 & _ & _ & _ & H').
    exists g. split; [exact Hg|]. apply H'. congruence.
Qed.
Print Assumptions C33_union_partial.
(** Groups without common results, from one node, by their form. *)
Theorem C33_union_exclusive_partial h r text_of by_id x0 gs : DocOk h r -> IdCache h r by_id -> SelOk h r text_of gs -> forallb group_wf gs = true -> Starts h r [x0] ->
  (forall g, In g gs -> exists s, find_shape SLevel g = Some s /\ s <> SAny) ->
  ForallOrdPairs (fun g g' => forall x, reached h text_of [x0] g x -> ~ reached h text_of [x0] g' x) gs ->
  exists l, find_ast h text_of by_id [x0] gs = Ok l /\ Ordered h l /\ NoDup l /\ (forall x, In x l <-> exists g, In g gs /\ reached h text_of [x0] g x).
Proof.
  intros D IC Hok Hw HS HF HX. assert (Hsh : Shaped h r SLevel [x0]).
  { split; [|split; constructor]. destruct HS as [HS _]. apply Forall_inv in HS. destruct HS as [[_ (l & Hl)] _]. exists (length l). intros x [<- | []]. exists l. split; [exact Hl | reflexivity]. }
  destruct (find_groups h r D text_of by_id IC [x0] gs SLevel HS Hsh Hok Hw HF) as (l & El & HD & _ & HI).
  - apply exclusive_union. clear -HX. induction HX as [|g gs HF _ IH]; constructor; [|exact IH]. rewrite Forall_forall in *. intros B HB. apply in_map_iff in HB.
    destruct HB as (g' & <- & Hg'). exact (HF g' Hg').
  - exists l. split; [exact El|]. split; [apply HD|]. split; [exact (ordered_nodup h (do_wf h r D) r l (proj1 HD) (proj2 HD)) | exact HI].
Qed.
Print Assumptions C33_union_exclusive_partial.
(** [.b, .a] from the first div: the results overlap. *)
Example C33_ex : let gs := [[[(cl "b", ChildrenAll)]]; [[(cl "a", ChildrenAll)]]] in
  DocOk sdoc 0 /\ IdCache sdoc 0 (ids_of sdoc) /\ SelOk sdoc 0 stext gs /\ forallb group_wf gs = true /\ Starts sdoc 0 [1] /\
  (forall g, In g gs -> FindOk sdoc stext [1] g /\ FindOrd sdoc stext [1] g) /\ UnionOk sdoc (map (fun g => reached sdoc stext [1] g) gs) /\
  find_ast sdoc stext (ids_of sdoc) [1] gs = Ok [2; 4; 5].
Proof.
  cbv zeta. pose (ga := [[(cl "b", ChildrenAll)]]). pose (gb := [[(cl "a", ChildrenAll)]]). change [[[(cl "b", ChildrenAll)]]; [[(cl "a", ChildrenAll)]]] with [ga; gb].
  assert (D : DocOk sdoc 0) by (apply docok_check_sound; vm_compute; reflexivity).
  assert (W : AllIn sdoc 0 (seq 0 (length sdoc))) by (apply allin_check_sound; vm_compute; reflexivity).
  assert (He : Forall (ElIn sdoc 0) [1]) by (apply (elset_check_sound sdoc 0); vm_compute; reflexivity).
  assert (Ok' : SelOk sdoc 0 stext [ga; gb]) by (apply (sel_check_sound sdoc 0 stext _ D); vm_compute; reflexivity).
  destruct (searching_sound sdoc stext [1] ga) as (H1 & H2 & H3 & _); [vm_compute; reflexivity|].
  destruct (searching_sound sdoc stext [1] gb) as (H1' & H2' & H3' & _); [vm_compute; reflexivity|].
  split; [exact D|]. split; [apply H1|]. split; [exact Ok'|]. split; [reflexivity|]. split; [apply H1|]. split; [|split; [|vm_compute; reflexivity]].
  - intros g [<- | [<- | []]]; (split; [apply H2 || apply H2' | apply H3 || apply H3']; vm_compute; reflexivity).
  - apply (union_check_sound sdoc 0 D W (map (fun g => walkb sdoc stext (inb [1]) g) [ga; gb])); [|vm_compute; reflexivity].
    repeat apply Forall2_cons; [| |apply Forall2_nil].
    + apply (walkb_spec sdoc 0 stext D W ga eq_refl (Ok' ga (or_introl eq_refl)) _ _ (decides_in sdoc 0 [1] He)).
    + apply (walkb_spec sdoc 0 stext D W gb eq_refl (Ok' gb (or_intror (or_introl eq_refl))) _ _ (decides_in sdoc 0 [1] He)).
Qed.
(** [input, span] from the document. *)
Example C33_exclusive_ex : let gs := [[[(nm "input", ChildrenAll)]]; [[(nm "span", ChildrenAll)]]] in
  DocOk sdoc 0 /\ SelOk sdoc 0 stext gs /\ (forall g, In g gs -> exists s, find_shape SLevel g = Some s /\ s <> SAny) /\
  ForallOrdPairs (fun g g' => forall x, reached sdoc stext [0] g x -> ~ reached sdoc stext [0] g' x) gs /\
  find_ast sdoc stext (ids_of sdoc) [0] gs = Ok [7; 9; 10].
Proof.
  cbv zeta. assert (D : DocOk sdoc 0) by (apply docok_check_sound; vm_compute; reflexivity).
  split; [exact D|]. split; [apply (sel_check_sound sdoc 0 stext _ D); vm_compute; reflexivity|]. split.
  - intros g [<- | [<- | []]]; exists SOrdered; (split; [reflexivity | discriminate]).
  - split; [|vm_compute; reflexivity]. constructor; [|constructor; constructor]. constructor; [|constructor]. intros x [_ H1] [_ H2].
    destruct (H1 _ _ (or_introl eq_refl)) as (_ & m & Em & E1). destruct (H2 _ _ (or_introl eq_refl)) as (_ & m' & Em' & E2). rewrite Em in Em'. inversion Em'; subst m'.
    unfold EqIgnoreCase in *. assert (E : str_lower (lit "input") = str_lower (lit "span")) by (rewrite <- E1; exact E2). vm_compute in E. discriminate.
Qed.
(** [.a, .b] from the first div: the elements 4 and 5 of class b are lost. *)
Theorem C33_union_refuted : exists h r text_of by_id els g g' l l' x, DocOk h r /\ IdCache h r by_id /\ SelOk h r text_of [g; g'] /\ forallb group_wf [g; g'] = true /\
  Starts h r els /\ find_ast h text_of by_id els [g; g'] = Ok l /\ find_ast h text_of by_id els [g'] = Ok l' /\ In x l' /\ ~ In x l.
Proof.
  pose (ga := [[(cl "a", ChildrenAll)]]). pose (gb := [[(cl "b", ChildrenAll)]]). exists sdoc, 0, stext, (ids_of sdoc), [1], ga, gb, [2], [2; 4; 5], 4.
  destruct (searching_sound sdoc stext [1] ga) as (H1 & _); [vm_compute; reflexivity|].
  split; [apply H1|]. split; [apply H1|]. split; [apply (sel_check_sound sdoc 0 stext _ (sg_doc _ _ _ _ _ _ H1)); vm_compute; reflexivity|]. split; [reflexivity|].
  split; [apply H1|]. split; [vm_compute; reflexivity|]. split; [vm_compute; reflexivity|]. split; [right; left; reflexivity|].
  intros H. repeat (destruct H as [H | H]; [discriminate|]). destruct H.
Qed.
Print Assumptions C33_union_refuted.
