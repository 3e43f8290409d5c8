(** Property theorems: steps (C50) and _until walks (C51) from sets of several elements; C12 and C13 are about one. *)
From Verif Require Import Base Utils UtilsSpec UtilsProofs Nth NthSpec Attr AttrSpec AttrProofs ClassSpec Dom DomSpec Order OrderSpec DomProofs OrderProofs
  Sets SetsProofs AddProofs DomBuild DomBuildProofs NavProofs Engine Rules Traverse SelSpec FindSpec TravSpec SetSpec OneProofs PreProofs SelBool SibLists SibProofs StepProofs
  BackProofs FilterProofs RuleProofs SelBuild FindProofs FindRules SelectProofs FindBuild TravProofs PropsFilter PropsFind PropsTrav SetTrav.

(** A document with its id look-up, and a set of its elements in which siblings stand in their order. *)
Record Walkers (h : heap) (r : id) (by_id : id -> str -> option id) (els : list id) : Prop := mkWalkers {
  ws_doc : DocOk h r;
  ws_ids : IdCache h r by_id;
  ws_els : Forall (ElIn h r) els;
  ws_inc : SibInc h els
}.
Lemma walkers h els : docok_check h 0 = true -> ids_check h 0 = true -> elset_check h 0 els = true -> Walkers h 0 (ids_of h) els /\ Ordered h els.
Proof.
  intros H1 H2 H3. apply docok_check_sound in H1. destruct (elset_check_sound h 0 els H3) as [He Ho].
  split; [|exact Ho]. split; [exact H1 | exact (ids_check_sound h 0 H1 H2) | exact He | exact (ordered_sibinc h 0 H1 els He Ho)].
Qed.
Lemma nwalkers els : elset_check ndoc 0 els = true -> Walkers ndoc 0 (ids_of ndoc) els /\ Ordered ndoc els.
Proof. apply walkers; vm_compute; reflexivity. Qed.
(** Every set in document order is such a set. *)
Lemma ordered_walkers h r by_id els : DocOk h r -> IdCache h r by_id -> Forall (ElIn h r) els -> Ordered h els -> Walkers h r by_id els.
Proof. intros D IC He Ho. split; [exact D | exact IC | exact He | exact (ordered_sibinc h r D els He Ho)]. Qed.

(** * C50 *)
(** The step gives every element reached from some member, once; parents and siblings come in document order, children and
    next do when no member is inside another. *)
Theorem C50_set_step h r text_of by_id c els : Walkers h r by_id els -> step_comb c = true ->
  exists l, step_ast h text_of by_id c els None = Ok l /\ NoDup l /\ (forall y, In y l <-> exists x, In x els /\ Rel h c x y) /\
    (c <> Parent -> SibInc h l) /\ (c = ParentAll \/ c = Siblings -> Ordered h l) /\
    (c = Children \/ c = Next -> Ordered h els -> NestFree h (fun x => In x els) -> Ordered h l).
Proof.
  intros [D IC HE HI] Hc. destruct (step_set h r D text_of by_id c els Hc HE HI) as (l & E & L1 & L2 & L3 & L4 & L5 & L6).
  exists l. split; [exact E|]. split; [exact L2|]. split; [exact L6|]. split; [exact L3|]. split; [intros [-> | ->]; apply L5; reflexivity|].
  assert (HS : Forall (Start h r) els) by (rewrite Forall_forall in HE |- *; intros x Hx; exact (el_start h r x (HE x Hx))).
  intros [-> | ->] Ho Hf; rewrite (L4 eq_refl); cbn [set_base].
  - destruct (kids_base h r D els HS (sibinc_nodup h r D els HE HI)) as (_ & _ & K & _). exact (K Ho Hf).
  - destruct (next_base h r D els HS HI) as (_ & _ & K & _). exact (K Ho Hf).
Qed.
Print Assumptions C50_set_step.
Example C50_set_ex : Walkers ndoc 0 (ids_of ndoc) [3; 5; 9] /\ Ordered ndoc [3; 5; 9] /\ NestFree ndoc (fun x => In x [3; 5; 9]) /\
  step_ast ndoc stext (ids_of ndoc) Children [3; 5; 9] None = Ok [4; 6; 10] /\ step_ast ndoc stext (ids_of ndoc) Next [3; 5; 9] None = Ok [5; 11] /\
  step_ast ndoc stext (ids_of ndoc) Parent [3; 5; 9] None = Ok [2; 1] /\ step_ast ndoc stext (ids_of ndoc) ParentAll [3; 5; 9] None = Ok [1; 2] /\
  step_ast ndoc stext (ids_of ndoc) Siblings [3; 5; 9] None = Ok [2; 3; 5; 11].
Proof.
  destruct (nwalkers [3; 5; 9] ltac:(vm_compute; reflexivity)) as [W Ho]. split; [exact W|]. split; [exact Ho|]. split; [|repeat split; vm_compute; reflexivity].
  destruct W as [D IC HE _]. rewrite Forall_forall in HE. intros u v Hu Hv Ha.
  assert (HR : Rel ndoc ParentAll v u) by (split; [exact Ha | exact (proj2 (HE u Hu))]).
  apply (in_step ndoc 0 D ParentAll v u eq_refl (HE v Hv)) in HR.
  destruct Hv as [<- | [<- | [<- | []]]]; vm_compute in HR; destruct Hu as [<- | [<- | [<- | []]]]; repeat (destruct HR as [HR | HR]; [discriminate|]); destruct HR.
Qed.
(** One compound as the filter, any order of its matches.
    Full claim: any filter.  Missing: several groups, filters with combinators, compounds whose rules depend on the order of the
    set, and first rules that go wrong on the children of a member or of a parent two members share ([RuleSafe]). *)
Theorem C50_set_filter_partial h r text_of by_id c els cp : Walkers h r by_id els -> Ordered h els -> step_comb c = true -> TextOk h r text_of [[cp]] ->
  comp_any_order cp = true -> ((exists y, KidsAt h c els y) -> RuleSafe h Children (head_rule cp) (KidsAt h c els)) ->
  exists l, step_ast h text_of by_id c els (Some [[cp]]) = Ok l /\ NoDup l /\
    (forall y, In y l <-> (exists x, In x els /\ Rel h c x y) /\ meets h text_of [[cp]] y) /\
    (forall l0, step_ast h text_of by_id c els None = Ok l0 -> Ordered h l0 -> Ordered h l).
Proof.
  intros [D IC HE HI] Ho Hc HT Ha HR. pose proof HT as [HT1 HT2]. assert (Hw : comp_wf cp = true /\ comp_comb cp = ChildrenAll).
  { unfold sel_wf, group_wf, group_desc in HT2. cbn [forallb] in HT2. rewrite !andb_true_iff in HT2. destruct HT2 as [[[_ [H1 _]] H2] _]. split; [exact H1|]. destruct (comp_comb cp); try discriminate; reflexivity. }
  destruct (step_set_filter h r D text_of by_id IC c els cp Hc HE Ho (HT1 [cp] (or_introl eq_refl) cp (or_introl eq_refl)) (proj1 Hw) (proj2 Hw) Ha HR) as (l0 & l & E0 & E1 & El).
  destruct (step_set h r D text_of by_id c els Hc HE HI) as (l0' & E & L1 & L2 & _ & _ & _ & L6). rewrite E0 in E. injection E as <-.
  exists l. split; [exact E1|]. rewrite El. split; [apply NoDup_filter; exact L2|]. split.
  - intros y. rewrite filter_In, L6. rewrite Forall_forall in L1.
    assert (HM : In y l0 -> (matchesb h (predb h text_of [cp]) y = true <-> meets h text_of [[cp]] y)).
    { intros Hy. rewrite <- (meets_spec h r D text_of [[cp]] y HT1 HT2 (L1 y Hy)). cbn. rewrite orb_false_r. reflexivity. }
    split; intros [H1 H2]; (split; [exact H1|]); apply HM; try exact H2; apply L6; exact H1.
  - intros l1 E1' Ho1. rewrite E0 in E1'. injection E1' as <-. apply ordered_filter. exact Ho1.
Qed.
Print Assumptions C50_set_filter_partial.
Example C50_set_filter_ex : Walkers ndoc 0 (ids_of ndoc) [3; 5; 9] /\ Ordered ndoc [3; 5; 9] /\ TextOk ndoc 0 stext [[[(nm "p", ChildrenAll)]]] /\
  comp_any_order [(nm "p", ChildrenAll)] = true /\ (forall c P, RuleSafe ndoc c (head_rule [(nm "p", ChildrenAll)]) P) /\
  step_ast ndoc stext (ids_of ndoc) Children [3; 5; 9] (Some [[[(nm "p", ChildrenAll)]]]) = Ok [4] /\
  step_ast ndoc stext (ids_of ndoc) Siblings [3; 5; 9] (Some [[[(nm "p", ChildrenAll)]]]) = Ok [5] /\
  step_ast ndoc stext (ids_of ndoc) NextAll [3; 5; 9] (Some [[[(nm "p", ChildrenAll)]]]) = Ok [5].
Proof.
  destruct (nwalkers [3; 5; 9] ltac:(vm_compute; reflexivity)) as [W Ho]. split; [exact W|]. split; [exact Ho|]. split; [apply textok; vm_compute; reflexivity|].
  split; [reflexivity|]. split; [intros c P; apply head_fine_safe; destruct c; reflexivity | repeat split; vm_compute; reflexivity].
Qed.
Lemma not_ordered h x y : docok_check h 0 = true -> elset_check h 0 [x; y] = true -> forall l1 l2 l3, ~ Ordered h (l1 ++ y :: l2 ++ x :: l3).
Proof.
  intros H1 H2 l1 l2 l3 Ho. apply docok_check_sound in H1. destruct (elset_check_sound h 0 [x; y] H2) as [HE HO].
  apply ordered_pairs in Ho. apply pairs_app in Ho. destruct Ho as (_ & Ho & _). inversion Ho as [|? ? Hf _]; subst. rewrite Forall_forall in Hf.
  pose proof (Hf x ltac:(apply in_or_app; right; left; reflexivity)) as B1. apply ordered_pairs in HO. inversion HO as [|? ? Hf' _]; subst. pose proof (Forall_inv Hf') as B2.
  inversion HE as [|? ? Hx HE']; subst. inversion HE' as [|? ? Hy _]; subst.
  exact (before_asym h (do_wf h 0 H1) 0 x y (proj1 Hx) (proj1 Hy) B2 B1).
Qed.
(** The other steps, and those from nested members, can leave document order. *)
Theorem C50_order_refuted : forall c, In c [Children; Next; Prev; Parent; NextAll; PrevAll] ->
  exists h r text_of by_id els l, Walkers h r by_id els /\ Ordered h els /\ step_ast h text_of by_id c els None = Ok l /\ ~ Ordered h l.
Proof.
  assert (HG : forall c els l x y l1 l2 l3, elset_check ndoc 0 els = true -> step_ast ndoc stext (ids_of ndoc) c els None = Ok l -> elset_check ndoc 0 [x; y] = true -> l = l1 ++ y :: l2 ++ x :: l3 ->
    exists h r text_of by_id els l, Walkers h r by_id els /\ Ordered h els /\ step_ast h text_of by_id c els None = Ok l /\ ~ Ordered h l).
  { intros c els l x y l1 l2 l3 H1 H2 H3 ->. destruct (nwalkers els H1) as [W Ho]. eexists ndoc, 0, stext, (ids_of ndoc), els, _. split; [exact W|]. split; [exact Ho|]. split; [exact H2|].
    apply not_ordered; [vm_compute; reflexivity | exact H3]. }
  intros c Hc. cbn [In] in Hc.
  destruct Hc as [<- | [<- | [<- | [<- | [<- | [<- | []]]]]]].
  - apply (HG Children [1; 2] [2; 9; 11; 3; 5] 3 9 [2] [11] [5]); vm_compute; reflexivity.
  - apply (HG Next [2; 3] [9; 5] 5 9 [] [] []); vm_compute; reflexivity.
  - apply (HG Prev [5; 9] [3; 2] 2 3 [] [] []); vm_compute; reflexivity.
  - apply (HG Parent [6; 9] [5; 1] 1 5 [] [] []); vm_compute; reflexivity.
  - apply (HG NextAll [2; 3] [9; 11; 5] 5 9 [] [11] []); vm_compute; reflexivity.
  - apply (HG PrevAll [5; 9] [3; 2] 2 3 [] [] []); vm_compute; reflexivity.
Qed.
Print Assumptions C50_order_refuted.
(** [next_all] on a set out of document order misses elements; the filter "#x" brings in an element that is no sibling, or the
    same child twice. *)
Theorem C50_set_step_refuted :
  (exists h r text_of by_id els l x y, DocOk h r /\ IdCache h r by_id /\ Forall (ElIn h r) els /\ NoDup els /\
     step_ast h text_of by_id NextAll els None = Ok l /\ In x els /\ Rel h NextAll x y /\ ~ In y l) /\
  (exists h r text_of by_id els gs l y, Walkers h r by_id els /\ Ordered h els /\ TextOk h r text_of gs /\
     step_ast h text_of by_id Siblings els (Some gs) = Ok l /\ In y l /\ ~ exists x, In x els /\ Rel h Siblings x y) /\
  (exists h r text_of by_id els gs l, Walkers h r by_id els /\ Ordered h els /\ TextOk h r text_of gs /\
     step_ast h text_of by_id Children els (Some gs) = Ok l /\ ~ NoDup l).
Proof.
  split; [|split].
  - exists ndoc, 0, stext, (ids_of ndoc), [9; 2], [11], 2, 9. destruct (nwalkers [2; 9] ltac:(vm_compute; reflexivity)) as [[D IC HE _] _].
    split; [exact D|]. split; [exact IC|]. inversion HE as [|? ? H2 HE']; subst. split; [constructor; [exact (Forall_inv HE') | constructor; [exact H2 | constructor]]|].
    split; [repeat constructor; cbn; lia|]. split; [vm_compute; reflexivity|]. split; [right; left; reflexivity|]. split.
    + apply (in_step ndoc 0 D NextAll 2 9 eq_refl H2). vm_compute. tauto.
    + intros [H | []]. discriminate.
  - exists ndoc, 0, stext, (ids_of ndoc), [3; 5], [[[(idr "x", ChildrenAll)]]], [11], 11. destruct (nwalkers [3; 5] ltac:(vm_compute; reflexivity)) as [W Ho].
    split; [exact W|]. split; [exact Ho|]. split; [apply textok; vm_compute; reflexivity|]. split; [vm_compute; reflexivity|]. split; [left; reflexivity|].
    destruct W as [D _ HE _]. rewrite Forall_forall in HE. intros (x & Hx & HR). apply (in_step ndoc 0 D Siblings x 11 eq_refl (HE x Hx)) in HR.
    destruct Hx as [<- | [<- | []]]; vm_compute in HR; repeat (destruct HR as [HR | HR]; [discriminate|]); destruct HR.
  - exists ndoc, 0, stext, (ids_of ndoc), [3; 5], [[[(idr "x", ChildrenAll)]]], [11; 11]. destruct (nwalkers [3; 5] ltac:(vm_compute; reflexivity)) as [W Ho].
    split; [exact W|]. split; [exact Ho|]. split; [apply textok; vm_compute; reflexivity|]. split; [vm_compute; reflexivity|].
    intros H. inversion H as [|? ? Hn _]; subst. apply Hn. left. reflexivity.
Qed.
Print Assumptions C50_set_step_refuted.

(** * C51 *)
(** Any texts: of several siblings in the set only the first one (with [prev_until] the last one) starts a walk. *)
Theorem C51_set_until_tested h r text_of by_id c els stop flt contains : Walkers h r by_id els -> unit_comb c = true ->
  AnyText h r text_of stop -> OptAny h r text_of flt ->
  exists l, until_ast h text_of by_id c els stop flt contains = Ok l /\ NoDup l /\ (c = Parent -> Ordered h l) /\
    forall y, In y l <-> (exists x, Outer h c els x /\ Stretch h c (Tested h text_of stop) contains x y) /\ PassesT h text_of flt y.
Proof.
  intros [D IC HE HI] Hc HS HF. exact (until_set h r D text_of by_id IC c stop flt contains els Hc HS HF HE HI).
Qed.
Print Assumptions C51_set_until_tested.
Example C51_tested_ex : Walkers ndoc 0 (ids_of ndoc) [8; 10] /\ AnyText ndoc 0 stext [[[(nm "i", ChildrenAll)]; [(idr "x", ChildrenAll)]]] /\
  OptAny ndoc 0 stext (Some [[[(nm "i", Next)]]]) /\
  until_ast ndoc stext (ids_of ndoc) Parent [8; 10] [[[(nm "i", ChildrenAll)]; [(idr "x", ChildrenAll)]]] (Some [[[(nm "i", Next)]]]) false = Ok [9].
Proof.
  split; [exact (proj1 (nwalkers [8; 10] ltac:(vm_compute; reflexivity)))|]. split; [apply anytext; vm_compute; reflexivity|].
  split; [apply anytext; vm_compute; reflexivity | vm_compute; reflexivity].
Qed.
(** Of several siblings in the set only the first one (with [prev_until] the last one) starts a walk.
    Full claim: any texts.  Missing: texts in which a later compound outweighs the first one, as in [C13_until_partial]. *)
Theorem C51_set_until_partial h r text_of by_id c els stop flt contains : Walkers h r by_id els -> unit_comb c = true ->
  TextOk h r text_of stop -> no_lookup stop = true -> OptOk h r text_of flt -> opt_no_lookup flt = true ->
  exists l, until_ast h text_of by_id c els stop flt contains = Ok l /\ NoDup l /\ (c = Parent -> Ordered h l) /\
    forall y, In y l <-> (exists x, Outer h c els x /\ Stretch h c (meets h text_of stop) contains x y) /\ Passes h text_of flt y.
Proof.
  intros W Hc HS Hn1 HF Hn2.
  destruct (C51_set_until_tested h r text_of by_id c els stop flt contains W Hc (anytext_ok h r text_of stop HS) (optany_ok h r text_of flt HF)) as (l & E & N & Ho & Hl).
  exists l. split; [exact E|]. split; [exact N|]. split; [exact Ho|]. intros y.
  rewrite Hl, (passes_plain h r text_of flt y HF Hn2). apply and_iff_compat_r.
  split; intros (x & Hx & H); exists x; (split; [exact Hx | apply (stretch_ext h c _ _ contains x y (fun z => tested_plain h text_of stop z (proj2 HS) Hn1)); exact H]).
Qed.
Print Assumptions C51_set_until_partial.
(** Going up, or with no two members under one parent, these are the walks of all members.  Missing: as above. *)
Theorem C51_set_apart_partial h r text_of by_id c els stop flt contains : Walkers h r by_id els -> unit_comb c = true -> c = Parent \/ Apart h els ->
  TextOk h r text_of stop -> no_lookup stop = true -> OptOk h r text_of flt -> opt_no_lookup flt = true ->
  exists l, until_ast h text_of by_id c els stop flt contains = Ok l /\ NoDup l /\
    forall y, In y l <-> (exists x, In x els /\ Stretch h c (meets h text_of stop) contains x y) /\ Passes h text_of flt y.
Proof.
  intros W Hc Hap HS Hn1 HF Hn2. destruct (C51_set_until_partial h r text_of by_id c els stop flt contains W Hc HS Hn1 HF Hn2) as (l & E & N & _ & M).
  exists l. split; [exact E|]. split; [exact N|]. intros y. rewrite M.
  assert (HO : forall x, In x els -> Outer h c els x).
  { intros x Hx. split; [exact Hx|]. intros e He Ep. destruct c; try exact I; (destruct Hap as [Hap | Hap]; [discriminate|]); rewrite (Hap e x He Hx Ep); reflexivity. }
  split; intros [(x & Hx & Hst) Hp]; (split; [|exact Hp]); exists x; (split; [|exact Hst]); [exact (proj1 Hx) | exact (HO x Hx)].
Qed.
Print Assumptions C51_set_apart_partial.
Example C51_set_ex : Walkers ndoc 0 (ids_of ndoc) [3; 9] /\ Apart ndoc [3; 9] /\ TextOk ndoc 0 stext [[[(nm "body", ChildrenAll)]]] /\ no_lookup [[[(nm "body", ChildrenAll)]]] = true /\
  until_ast ndoc stext (ids_of ndoc) Next [3; 9] [[[(nm "body", ChildrenAll)]]] None false = Ok [5; 11] /\
  until_ast ndoc stext (ids_of ndoc) Parent [8; 10] [[[(nm "body", ChildrenAll)]]] None false = Ok [2; 5; 6; 7; 9].
Proof.
  split; [exact (proj1 (nwalkers [3; 9] ltac:(vm_compute; reflexivity)))|]. split.
  - intros x y [<- | [<- | []]] [<- | [<- | []]] H; try reflexivity; vm_compute in H; discriminate.
  - split; [apply textok; vm_compute; reflexivity|]. repeat split; vm_compute; reflexivity.
Qed.
(** [<div><p/><p/></div><div><b/><b/></div>]: div 1, p 2, p 3, div 4, b 5, b 6. *)
Definition twodoc : heap := doc [E "div" [] [E "p" [] []; E "p" [] []]; E "div" [] [E "b" [] []; E "b" [] []]].
(** [next_until("i")] from the div 2 and the i 9 behind it loses what follows the i; [prev_until] gives the later parent's
    elements first. *)
Theorem C51_set_until_refuted :
  (exists h r text_of by_id els stop l x y, Walkers h r by_id els /\ Ordered h els /\ TextOk h r text_of stop /\ no_lookup stop = true /\
     until_ast h text_of by_id Next els stop None false = Ok l /\ In x els /\ Stretch h Next (meets h text_of stop) false x y /\ ~ In y l) /\
  (exists h r text_of by_id els stop l, Walkers h r by_id els /\ Ordered h els /\ Apart h els /\ NestFree h (fun x => In x els) /\ TextOk h r text_of stop /\ no_lookup stop = true /\
     until_ast h text_of by_id Prev els stop None false = Ok l /\ ~ Ordered h l).
Proof.
  split.
  - pose (gs := [[[(nm "i", ChildrenAll)]]] : ast). exists ndoc, 0, stext, (ids_of ndoc), [2; 9], gs, [], 9, 11. destruct (nwalkers [2; 9] ltac:(vm_compute; reflexivity)) as [W Ho].
    split; [exact W|]. split; [exact Ho|]. assert (HT : TextOk ndoc 0 stext gs) by (apply textok; vm_compute; reflexivity). split; [exact HT|]. split; [reflexivity|].
    split; [vm_compute; reflexivity|]. split; [right; left; reflexivity|]. split; [|intros []]. destruct W as [D _ HE _]. rewrite Forall_forall in HE. pose proof (HE 9 (or_intror (or_introl eq_refl))) as H9.
    assert (HR : Rel ndoc NextAll 9 11) by (apply (in_step ndoc 0 D NextAll 9 11 eq_refl H9); vm_compute; tauto).
    split; [exact HR|]. assert (HN : forall y, Rel ndoc NextAll 9 y -> ~ meets ndoc stext gs y).
    { intros y Hy Hm. apply (meets_spec ndoc 0 D stext gs y (proj1 HT) (proj2 HT) (rel_sym_el ndoc 0 D NextAll 9 y eq_refl H9 Hy)) in Hm.
      apply (in_step ndoc 0 D NextAll 9 y eq_refl H9) in Hy. vm_compute in Hy. destruct Hy as [<- | []]; vm_compute in Hm; discriminate. }
    split; [intros z Hz _; exact (HN z Hz) | right; exact (HN 11 HR)].
  - pose (gs := [[[(nm "i", ChildrenAll)]]] : ast). exists twodoc, 0, stext, (ids_of twodoc), [3; 6], gs, [5; 2].
    destruct (walkers twodoc [3; 6] ltac:(vm_compute; reflexivity) ltac:(vm_compute; reflexivity) ltac:(vm_compute; reflexivity)) as [W Ho].
    split; [exact W|]. split; [exact Ho|]. split; [|split; [|split; [apply textok; vm_compute; reflexivity|]; split; [reflexivity|]; split; [vm_compute; reflexivity|]]].
    + intros x y [<- | [<- | []]] [<- | [<- | []]] H; try reflexivity; vm_compute in H; discriminate.
    + destruct W as [D IC HE _]. rewrite Forall_forall in HE. intros u v Hu Hv Ha.
      assert (HR : Rel twodoc ParentAll v u) by (split; [exact Ha | exact (proj2 (HE u Hu))]).
      apply (in_step twodoc 0 D ParentAll v u eq_refl (HE v Hv)) in HR.
      destruct Hv as [<- | [<- | []]]; vm_compute in HR; destruct Hu as [<- | [<- | []]]; repeat (destruct HR as [HR | HR]; [discriminate|]); destruct HR.
    + apply (not_ordered twodoc 2 5 ltac:(vm_compute; reflexivity) ltac:(vm_compute; reflexivity) [] [] []).
Qed.
Print Assumptions C51_set_until_refuted.
