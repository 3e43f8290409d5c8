(** Property theorems: steps whose filter text has combinators (C12, C50). *)
From Verif Require Import Base Utils UtilsSpec UtilsProofs Nth NthSpec Attr AttrSpec AttrProofs ClassSpec Dom DomSpec Order OrderSpec DomProofs OrderProofs
  Sets SetsProofs AddProofs DomBuild DomBuildProofs NavProofs Engine Rules Traverse SelSpec FindSpec TravSpec StepSpec OneProofs PreProofs SelBool SibLists SibProofs StepProofs
  BackProofs FilterProofs RuleProofs SelBuild FindProofs FindRules SelectProofs FindBuild TravProofs SetTrav StepWalk PropsFilter PropsFind PropsTrav PropsSetTrav.

(** * C12 *)
(** The text is walked from the element with the step in place of its first combinator: [x.children("div p")] gives the p inside
    the div children of x, [x.next("> p")] the p children of the next element.  This is what the call returns, not what C12 asks for;
    the two agree on texts of one compound (C12_step_filter_partial).
    Full claim: any filter.  Missing: texts with a step that goes wrong on this document ([StepOk]), and with [siblings] texts in
    which a later compound outweighs the first one ([no_lookup]). *)
Theorem C12_step_walk_partial h r text_of by_id c x g : Walking h r by_id x -> step_comb c = true -> AnyText h r text_of [g] ->
  StepOk h text_of c x g -> (c = Siblings -> no_lookup [g] = true) ->
  exists l, step_ast h text_of by_id c [x] (Some [g]) = Ok l /\ NoDup l /\ (StepOrd h text_of c x g \/ c = ParentAll \/ c = Siblings -> Ordered h l) /\
    forall y, In y l <-> StepTo h text_of c x g y.
Proof.
  intros [D IC Hx] Hc [HT1 HT2] HS Hn. cbn in HT2. rewrite andb_true_r in HT2.
  destruct (step_group h r D text_of by_id IC c x g Hc Hx (HT1 g (or_introl eq_refl)) HT2 HS Hn) as (l & E & _ & H2 & H3 & H4).
  exists l. split; [exact E|]. split; [exact H2|]. split; [exact H3 | exact H4].
Qed.
Print Assumptions C12_step_walk_partial.
(** Full claim: any filter.  Missing: as above for every group, and groups whose results are joined wrongly ([UnionOk], see C04). *)
Theorem C12_step_union_partial h r text_of by_id c x gs : Walking h r by_id x -> step_comb c = true -> AnyText h r text_of gs ->
  (forall g, In g gs -> StepOk h text_of c x g /\ StepOrd h text_of c x g) -> UnionOk h (map (StepTo h text_of c x) gs) -> (c = Siblings -> no_lookup gs = true) ->
  exists l, step_ast h text_of by_id c [x] (Some gs) = Ok l /\ Ordered h l /\ forall y, In y l <-> exists g, In g gs /\ StepTo h text_of c x g y.
Proof.
  intros [D IC Hx] Hc [HT1 HT2] HS HU Hn.
  destruct (step_groups h r D text_of by_id IC c x gs Hc Hx HT1 HT2 HS HU Hn) as (l & E & _ & H2 & H3). exists l. split; [exact E|]. split; [exact H2 | exact H3].
Qed.
Print Assumptions C12_step_union_partial.
(** On one compound the walk is the step with a test. *)
Theorem C12_step_one h r text_of c x cp y : DocOk h r -> TextOk h r text_of [[cp]] -> (StepTo h text_of c x [cp] y <-> Rel h c x y /\ meets h text_of [[cp]] y).
Proof.
  intros D [HT1 HT2]. unfold sel_wf, group_wf, group_desc in HT2. cbn [forallb] in HT2. rewrite !andb_true_iff in HT2. destruct HT2 as [[[_ [H1 _]] H2] _].
  unfold StepTo, meets, MatchesAny, Matches. cbn [preds map]. destruct cp as [|[rl c0] cp]; [discriminate|]. cbn in H2. destruct c0; try discriminate. cbn [map head_with Walk rev app MatchRev].
  unfold Step, CompHolds. cbn [comp_comb]. split.
  - intros [(e & -> & HR) HC]. split; [exact HR|]. eexists. split; [left; reflexivity|]. cbn [rev app MatchRev]. split; [|exact I].
    intros P c1 [E | Hi]; [injection E as <- <-; apply (HC (Holds h text_of rl) c); left; reflexivity | apply (HC P c1); right; exact Hi].
  - intros [HR (g & [<- | []] & HC)]. cbn [rev app MatchRev] in HC. destruct HC as [HC _]. split; [exists x; split; [reflexivity | exact HR]|].
    intros P c1 [E | Hi]; [injection E as <- <-; apply (HC (Holds h text_of rl) ChildrenAll); left; reflexivity | apply (HC P c1); right; exact Hi].
Qed.
Print Assumptions C12_step_one.

Definition div_p : list (list (rule * comb)) := [[(nm "div", ChildrenAll)]; [(nm "p", ChildrenAll)]].
Definition child_div : list (list (rule * comb)) := [[(nm "div", Children)]].
Lemma div_p_ok c x : StepOk ndoc stext c x div_p /\ StepOrd ndoc stext c x div_p.
Proof.
  split.
  - split; [intros _; apply head_fine_safe; destruct c; reflexivity|]. cbn. split; [left; reflexivity|]. split; [trivial|]. split; [discriminate | exact I].
  - exact I.
Qed.
Lemma child_div_ok c x : StepOk ndoc stext c x child_div.
Proof. split; [intros _; apply head_fine_safe; destruct c; reflexivity|]. cbn. split; [left; reflexivity|]. split; [discriminate|]. split; [split; [reflexivity|]; split; intros H; discriminate | exact I]. Qed.
Example C12_walk_ex : Walking ndoc 0 (ids_of ndoc) 1 /\ AnyText ndoc 0 stext [div_p] /\ (forall c x, StepOk ndoc stext c x div_p /\ StepOrd ndoc stext c x div_p) /\
  step_ast ndoc stext (ids_of ndoc) Children [1] (Some [div_p]) = Ok [4; 5; 7] /\ no_lookup [div_p] = true /\
  AnyText ndoc 0 stext [child_div] /\ (forall c x, StepOk ndoc stext c x child_div) /\ step_ast ndoc stext (ids_of ndoc) Parent [7] (Some [child_div]) = Ok [] /\
  step_ast ndoc stext (ids_of ndoc) Prev [9] (Some [child_div]) = Ok [3] /\ step_ast ndoc stext (ids_of ndoc) ParentAll [7] (Some [div_p]) = Ok [4; 5; 7].
Proof.
  split; [apply nwalking; vm_compute; reflexivity|]. split; [apply anytext; vm_compute; reflexivity|]. split; [exact div_p_ok|].
  split; [vm_compute; reflexivity|]. split; [vm_compute; reflexivity|]. split; [apply anytext; vm_compute; reflexivity|]. split; [exact child_div_ok|].
  repeat split; vm_compute; reflexivity.
Qed.
(** [siblings] with a text in which a later compound outweighs the first one never returns an element: the look-up is made among
    the descendants of the element and cannot be led back over a step to the siblings. *)
Theorem C12_siblings_lookup h r text_of by_id x g l : Walking h r by_id x -> AnyText h r text_of [g] -> looks_up g = true ->
  step_ast h text_of by_id Siblings [x] (Some [g]) = Ok l -> l = [].
Proof.
  intros [D IC Hx] [_ HT2] Hl E. cbn in HT2. rewrite andb_true_r in HT2. exact (siblings_lookup h r D text_of by_id x g l Hx HT2 Hl E).
Qed.
Print Assumptions C12_siblings_lookup.
Definition body_x : list (list (rule * comb)) := [[(nm "body", ChildrenAll)]; [(idr "x", ChildrenAll)]].
Example C12_lookup_ex : Walking ndoc 0 (ids_of ndoc) 9 /\ AnyText ndoc 0 stext [body_x] /\ looks_up body_x = true /\
  step_ast ndoc stext (ids_of ndoc) Siblings [9] (Some [body_x]) = Ok [].
Proof.
  split; [apply nwalking; vm_compute; reflexivity|]. split; [apply anytext; vm_compute; reflexivity|]. split; vm_compute; reflexivity.
Qed.
(** It panics when the look-up gets that far, and it misses siblings that match the text: x is a sibling of 9 and inside the body. *)
Theorem C12_siblings_lookup_refuted :
  (exists h r text_of by_id x g, Walking h r by_id x /\ TextOk h r text_of [g] /\ step_ast h text_of by_id Siblings [x] (Some [g]) = Panic) /\
  (exists h r text_of by_id x g l y, Walking h r by_id x /\ TextOk h r text_of [g] /\ step_ast h text_of by_id Siblings [x] (Some [g]) = Ok l /\
     Rel h Siblings x y /\ meets h text_of [g] y /\ ~ In y l).
Proof.
  split.
  - exists ndoc, 0, stext, (ids_of ndoc), 1, body_x. split; [apply nwalking; vm_compute; reflexivity|]. split; [apply textok; vm_compute; reflexivity | vm_compute; reflexivity].
  - exists ndoc, 0, stext, (ids_of ndoc), 9, body_x, [], 11. assert (W : Walking ndoc 0 (ids_of ndoc) 9) by (apply nwalking; vm_compute; reflexivity).
    assert (HT : TextOk ndoc 0 stext [body_x]) by (apply textok; vm_compute; reflexivity). split; [exact W|]. split; [exact HT|]. split; [vm_compute; reflexivity|].
    destruct W as [D _ Hx]. split; [apply (in_step ndoc 0 D Siblings 9 11 eq_refl Hx); vm_compute; tauto|]. split; [|intros []].
    apply (meets_spec ndoc 0 D stext [body_x] 11 (proj1 HT) (proj2 HT)); [|vm_compute; reflexivity].
    destruct (nwalking 11 ltac:(vm_compute; reflexivity)) as [_ _ H]. exact H.
Qed.
Print Assumptions C12_siblings_lookup_refuted.

(** * C50 *)
(** From a set in document order the text is walked from all members at once.  [l0] is what the step gives without the text.
    Full claim: any filter.  Missing: [siblings], several groups, texts with a step that goes wrong on this document ([SetStepOk]). *)
Theorem C50_set_walk_partial h r text_of by_id c els g l0 : Walkers h r by_id els -> Ordered h els -> step_comb c = true -> c <> Siblings -> AnyText h r text_of [g] ->
  step_ast h text_of by_id c els None = Ok l0 -> SetStepOk h text_of c els (Ordered h l0) g ->
  exists l, step_ast h text_of by_id c els (Some [g]) = Ok l /\ NoDup l /\ (SetStepOrd h text_of c els (Ordered h l0) g \/ c = ParentAll -> Ordered h l) /\
    forall y, In y l <-> StepFrom h text_of c els g y.
Proof.
  intros [D IC HE HI] Ho Hc Hn [HT1 HT2] E0 HS. cbn in HT2. rewrite andb_true_r in HT2.
  destruct (set_walk h r D text_of by_id IC c els g l0 Hc Hn HE Ho (HT1 g (or_introl eq_refl)) HT2 E0 HS) as (l & E & _ & H2 & H3 & H4).
  exists l. split; [exact E|]. split; [exact H2|]. split; [exact H3 | exact H4].
Qed.
Print Assumptions C50_set_walk_partial.
Example C50_walk_ex : Walkers ndoc 0 (ids_of ndoc) [2; 9] /\ Ordered ndoc [2; 9] /\ AnyText ndoc 0 stext [div_p] /\
  step_ast ndoc stext (ids_of ndoc) Children [2; 9] None = Ok [3; 5; 10] /\ Ordered ndoc [3; 5; 10] /\ SetStepOk ndoc stext Children [2; 9] (Ordered ndoc [3; 5; 10]) div_p /\
  step_ast ndoc stext (ids_of ndoc) Children [2; 9] (Some [div_p]) = Ok [4] /\
  AnyText ndoc 0 stext [child_div] /\ step_ast ndoc stext (ids_of ndoc) Prev [5; 9] None = Ok [3; 2] /\ ~ Ordered ndoc [3; 2] /\
  SetStepOk ndoc stext Prev [5; 9] (Ordered ndoc [3; 2]) child_div /\ step_ast ndoc stext (ids_of ndoc) Prev [5; 9] (Some [child_div]) = Ok [3].
Proof.
  destruct (nwalkers [2; 9] ltac:(vm_compute; reflexivity)) as [W Ho]. split; [exact W|]. split; [exact Ho|]. split; [apply anytext; vm_compute; reflexivity|].
  split; [vm_compute; reflexivity|]. assert (Ho2 : Ordered ndoc [3; 5; 10]) by exact (proj2 (nwalkers [3; 5; 10] ltac:(vm_compute; reflexivity))). split; [exact Ho2|].
  split; [|split; [vm_compute; reflexivity|]; split; [apply anytext; vm_compute; reflexivity|]; split; [vm_compute; reflexivity|]; split; [|split; [|vm_compute; reflexivity]]].
  - split; [intros _; split; [reflexivity | apply head_fine_safe; reflexivity]|]. cbn. split; [left; reflexivity|]. split; [intros _; exact Ho2|]. split; [discriminate | exact I].
  - apply (not_ordered ndoc 2 3) with (l1 := []) (l2 := []) (l3 := []); vm_compute; reflexivity.
  - split; [intros H; discriminate|]. cbn. split; [left; reflexivity|]. split; [discriminate|]. split; [split; [reflexivity|]; split; intros H; discriminate | exact I].
Qed.
(** [siblings("div p")] from two elements gives the same p twice: it is inside a sibling of both. *)
Theorem C50_siblings_walk_refuted : exists h r text_of by_id els g l, Walkers h r by_id els /\ Ordered h els /\ TextOk h r text_of [g] /\
  step_ast h text_of by_id Siblings els (Some [g]) = Ok l /\ ~ NoDup l.
Proof.
  exists ndoc, 0, stext, (ids_of ndoc), [5; 9], div_p, [4; 4; 5; 7].
  destruct (nwalkers [5; 9] ltac:(vm_compute; reflexivity)) as [W Ho]. split; [exact W|]. split; [exact Ho|]. split; [apply textok; vm_compute; reflexivity|].
  split; [vm_compute; reflexivity|]. intros H. inversion H as [|? ? H3 _]; subst. apply H3. left. reflexivity.
Qed.
Print Assumptions C50_siblings_walk_refuted.
