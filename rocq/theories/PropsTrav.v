(** Property theorems: single steps (C12), the _until walks (C13), closest (C14).
    A set in document order is determined by its members, so "in document order, with exactly these members" fixes the result. *)
From Verif Require Import Base Utils UtilsSpec UtilsProofs Nth NthSpec Attr AttrSpec AttrProofs ClassSpec Dom DomSpec Order OrderSpec DomProofs OrderProofs
  Sets SetsProofs AddProofs DomBuild DomBuildProofs NavProofs Engine Rules Traverse SelSpec FindSpec TravSpec OneProofs PreProofs SelBool SibLists SibProofs StepProofs
  BackProofs FilterProofs RuleProofs SelBuild FindProofs FindRules SelectProofs FindBuild TravProofs PropsFilter PropsFind.

(** A document with its id look-up, and an element of it. *)
Record Walking (h : heap) (r : id) (by_id : id -> str -> option id) (x : id) : Prop := mkWalking {
  wk_doc : DocOk h r;
  wk_ids : IdCache h r by_id;
  wk_el : ElIn h r x
}.
Lemma walking h x : docok_check h 0 = true -> ids_check h 0 = true -> elset_check h 0 [x] = true -> Walking h 0 (ids_of h) x.
Proof.
  intros H1 H2 H3. apply docok_check_sound in H1. destruct (elset_check_sound h 0 [x] H3) as [He _].
  split; [exact H1 | exact (ids_check_sound h 0 H1 H2) | exact (Forall_inv He)].
Qed.
Lemma textok h text_of gs : docok_check h 0 = true -> sel_check h text_of gs = true -> sel_wf gs = true -> TextOk h 0 text_of gs.
Proof. intros H1 H2 H3. apply docok_check_sound in H1. split; [exact (sel_check_sound h 0 text_of gs H1 H2) | exact H3]. Qed.
Lemma anytext h text_of gs : docok_check h 0 = true -> sel_check h text_of gs = true -> forallb group_wf gs = true -> AnyText h 0 text_of gs.
Proof. intros H1 H2 H3. apply docok_check_sound in H1. split; [exact (sel_check_sound h 0 text_of gs H1 H2) | exact H3]. Qed.
Lemma nwalking x : elset_check ndoc 0 [x] = true -> Walking ndoc 0 (ids_of ndoc) x.
Proof. apply walking; vm_compute; reflexivity. Qed.
(** One group as a filter. *)
Definition flt_check (h : heap) (text_of : id -> str) (c : comb) (g : list (list (rule * comb))) : bool :=
  docok_check h 0 && sel_check h text_of [g] && sel_wf [g] && one_compound [g] && forallb (fun cp => head_fine c (head_rule cp)) g.
Lemma flt_check_sound h text_of c g x : flt_check h text_of c g = true -> FltOk h 0 text_of c (Some [g]) x.
Proof.
  unfold flt_check. rewrite !andb_true_iff. intros [[[[H1 H2] H3] H4] H5]. apply docok_check_sound in H1.
  split; [exact (sel_check_sound h 0 text_of [g] H1 H2)|]. split; [exact H3|]. split; [exact H4|]. split.
  - intros g' cp [<- | []] Hc. apply head_fine_safe. rewrite forallb_forall in H5. exact (H5 cp Hc).
  - exact (union_one h _).
Qed.

(** * C12 *)
(** Without a filter the step is exact for every element of every document. *)
Theorem C12_step h r text_of by_id c x : Walking h r by_id x -> step_comb c = true ->
  exists l, step_ast h text_of by_id c [x] None = Ok l /\ Ordered h l /\ forall y, In y l <-> Rel h c x y.
Proof.
  intros [D IC Hx] Hc. rewrite (step_ast_ok h r D text_of by_id IC c None x Hc Hx I). eexists. split; [reflexivity|].
  split; [exact (proj2 (passes_docset h r D text_of None c x Hc Hx))|]. intros y. rewrite filter_In, (in_step h r D c x y Hc Hx). cbn. tauto.
Qed.
Print Assumptions C12_step.
(** Full claim: any filter.  Missing: filters with combinators, filters whose rules go wrong on the children of this
    element ([FilterSafe]), and several groups that share matches ([UnionOk], see C04). *)
Theorem C12_step_filter_partial h r text_of by_id c x gs : Walking h r by_id x -> step_comb c = true -> FltOk h r text_of c (Some gs) x ->
  exists l, step_ast h text_of by_id c [x] (Some gs) = Ok l /\ Ordered h l /\ forall y, In y l <-> Rel h c x y /\ meets h text_of gs y.
Proof.
  intros [D IC Hx] Hc HF. rewrite (step_ast_ok h r D text_of by_id IC c (Some gs) x Hc Hx HF). eexists. split; [reflexivity|].
  split; [exact (proj2 (passes_docset h r D text_of (Some gs) c x Hc Hx))|]. intros y. rewrite filter_In, (in_step h r D c x y Hc Hx).
  split; intros [H1 H2]; (split; [exact H1|]); apply (passes_spec h r D text_of (Some gs) y (flt_opt h r text_of c (Some gs) x HF) (rel_sym_el h r D c x y Hc Hx H1)); exact H2.
Qed.
Print Assumptions C12_step_filter_partial.

Example C12_ex : Walking ndoc 0 (ids_of ndoc) 9 /\ Walking ndoc 0 (ids_of ndoc) 8 /\
  step_ast ndoc stext (ids_of ndoc) Siblings [9] None = Ok [2; 11] /\ step_ast ndoc stext (ids_of ndoc) ParentAll [8] None = Ok [1; 2; 5; 6; 7] /\
  step_ast ndoc stext (ids_of ndoc) Children [2] None = Ok [3; 5] /\ step_ast ndoc stext (ids_of ndoc) PrevAll [11] None = Ok [2; 9].
Proof. split; [apply nwalking; vm_compute; reflexivity|]. split; [apply nwalking; vm_compute; reflexivity|]. repeat split; vm_compute; reflexivity. Qed.
Example C12_filter_ex : Walking ndoc 0 (ids_of ndoc) 8 /\ FltOk ndoc 0 stext ParentAll (Some [[[(nm "div", ChildrenAll)]]]) 8 /\
  step_ast ndoc stext (ids_of ndoc) ParentAll [8] (Some [[[(nm "div", ChildrenAll)]]]) = Ok [2; 6] /\
  FltOk ndoc 0 stext Siblings (Some [[[(idr "x", ChildrenAll)]]]) 9 /\ step_ast ndoc stext (ids_of ndoc) Siblings [9] (Some [[[(idr "x", ChildrenAll)]]]) = Ok [11].
Proof.
  split; [apply nwalking; vm_compute; reflexivity|]. split; [apply flt_check_sound; vm_compute; reflexivity|]. split; [vm_compute; reflexivity|].
  split; [apply flt_check_sound; vm_compute; reflexivity | vm_compute; reflexivity].
Qed.
(** [children("div p")] gives the elements below the div, which are no children of the element; [children("#x")] gives x
    wherever it is; [children(":last-child")] panics on an element without children. *)
Theorem C12_step_filter_refuted :
  (exists h r text_of by_id x g l y, Walking h r by_id x /\ TextOk h r text_of [g] /\ step_ast h text_of by_id Children [x] (Some [g]) = Ok l /\ In y l /\ ~ Rel h Children x y) /\
  (exists h r text_of by_id x gs l y, Walking h r by_id x /\ TextOk h r text_of gs /\ one_compound gs = true /\
     step_ast h text_of by_id Children [x] (Some gs) = Ok l /\ In y l /\ ~ Rel h Children x y) /\
  (exists h r text_of by_id x gs, Walking h r by_id x /\ TextOk h r text_of gs /\ one_compound gs = true /\ step_ast h text_of by_id Children [x] (Some gs) = Panic).
Proof.
  split; [|split].
  - pose (g := [[(nm "div", ChildrenAll)]; [(nm "p", ChildrenAll)]]). exists ndoc, 0, stext, (ids_of ndoc), 1, g, [4; 5; 7], 4.
    assert (W : Walking ndoc 0 (ids_of ndoc) 1) by (apply nwalking; vm_compute; reflexivity). split; [exact W|]. split; [apply textok; vm_compute; reflexivity|].
    split; [vm_compute; reflexivity|]. split; [left; reflexivity|]. intros H. apply (in_step ndoc 0 (wk_doc _ _ _ _ W) Children 1 4 eq_refl (wk_el _ _ _ _ W)) in H.
    vm_compute in H. repeat (destruct H as [H | H]; [discriminate|]). destruct H.
  - exists ndoc, 0, stext, (ids_of ndoc), 9, [[[(idr "x", ChildrenAll)]]], [11], 11.
    assert (W : Walking ndoc 0 (ids_of ndoc) 9) by (apply nwalking; vm_compute; reflexivity). split; [exact W|]. split; [apply textok; vm_compute; reflexivity|].
    split; [reflexivity|]. split; [vm_compute; reflexivity|]. split; [left; reflexivity|]. intros H. apply (in_step ndoc 0 (wk_doc _ _ _ _ W) Children 9 11 eq_refl (wk_el _ _ _ _ W)) in H.
    vm_compute in H. repeat (destruct H as [H | H]; [discriminate|]). destruct H.
  - exists ndoc, 0, stext, (ids_of ndoc), 4, [[[(RFirstChild false, ChildrenAll)]]].
    split; [apply nwalking; vm_compute; reflexivity|]. split; [apply textok; vm_compute; reflexivity|]. split; [reflexivity | vm_compute; reflexivity].
Qed.
Print Assumptions C12_step_filter_refuted.

(** * C13 *)
(** Any stop and filter text, also with a combinator in front: an element is tested against the compounds from the heaviest
    one on ([Tested]). *)
Theorem C13_until_tested h r text_of by_id c x stop flt contains : Walking h r by_id x -> unit_comb c = true ->
  AnyText h r text_of stop -> OptAny h r text_of flt ->
  exists l, until_ast h text_of by_id c [x] stop flt contains = Ok l /\ Ordered h l /\
    forall y, In y l <-> Stretch h c (Tested h text_of stop) contains x y /\ PassesT h text_of flt y.
Proof.
  intros [D IC Hx] Hc HS HF. exact (until_ast_ok h r D text_of by_id IC c stop flt contains x Hc HS HF Hx).
Qed.
Print Assumptions C13_until_tested.
(** The text "i #x" has a look-up, "> body > div" starts with a combinator. *)
Example C13_tested_ex : Walking ndoc 0 (ids_of ndoc) 2 /\ AnyText ndoc 0 stext [[[(nm "i", ChildrenAll)]; [(idr "x", ChildrenAll)]]] /\
  no_lookup [[[(nm "i", ChildrenAll)]; [(idr "x", ChildrenAll)]]] = false /\ Tested ndoc stext [[[(nm "i", ChildrenAll)]; [(idr "x", ChildrenAll)]]] 11 /\
  until_ast ndoc stext (ids_of ndoc) Next [2] [[[(nm "i", ChildrenAll)]; [(idr "x", ChildrenAll)]]] None false = Ok [9] /\
  AnyText ndoc 0 stext [[[(nm "body", Children)]; [(nm "div", Children)]]] /\ sel_wf [[[(nm "body", Children)]; [(nm "div", Children)]]] = false /\
  until_ast ndoc stext (ids_of ndoc) Parent [8] [[[(nm "body", Children)]; [(nm "div", Children)]]] None false = Ok [5; 6; 7] /\
  until_ast ndoc stext (ids_of ndoc) Parent [8] [[[(nm "div", Children)]; [(nm "div", Children)]]] None false = Ok [1; 2; 5; 6; 7].
Proof.
  assert (W : Walking ndoc 0 (ids_of ndoc) 2) by (apply nwalking; vm_compute; reflexivity). split; [exact W|].
  assert (HR : AnyText ndoc 0 stext [[[(nm "i", ChildrenAll)]; [(idr "x", ChildrenAll)]]]) by (apply anytext; vm_compute; reflexivity).
  split; [exact HR|]. split; [reflexivity|]. destruct W as [D IC _]. split.
  - apply (testb_spec ndoc 0 D stext _ 11 HR); [|vm_compute; reflexivity]. destruct (nwalking 11 ltac:(vm_compute; reflexivity)) as [_ _ H]. exact H.
  - split; [vm_compute; reflexivity|]. split; [apply anytext; vm_compute; reflexivity|]. repeat split; vm_compute; reflexivity.
Qed.
(** Full claim: any stop and filter text.  Missing: texts in which a later compound outweighs the first one ([no_lookup]);
    of those only the part from the heaviest compound on is tested. *)
Theorem C13_until_partial h r text_of by_id c x stop flt contains : Walking h r by_id x -> unit_comb c = true ->
  TextOk h r text_of stop -> no_lookup stop = true -> OptOk h r text_of flt -> opt_no_lookup flt = true ->
  exists l, until_ast h text_of by_id c [x] stop flt contains = Ok l /\ Ordered h l /\
    forall y, In y l <-> Stretch h c (meets h text_of stop) contains x y /\ Passes h text_of flt y.
Proof.
  intros W Hc HS Hn1 HF Hn2.
  destruct (C13_until_tested h r text_of by_id c x stop flt contains W Hc (anytext_ok h r text_of stop HS) (optany_ok h r text_of flt HF)) as (l & E & Ho & Hl).
  exists l. split; [exact E|]. split; [exact Ho|]. intros y.
  rewrite Hl, (passes_plain h r text_of flt y HF Hn2), (stretch_ext h c _ _ contains x y (fun z => tested_plain h text_of stop z (proj2 HS) Hn1)). reflexivity.
Qed.
Print Assumptions C13_until_partial.

Example C13_ex : Walking ndoc 0 (ids_of ndoc) 8 /\ TextOk ndoc 0 stext [[[(nm "body", ChildrenAll)]; [(nm "div", Children)]]] /\
  no_lookup [[[(nm "body", ChildrenAll)]; [(nm "div", Children)]]] = true /\ OptOk ndoc 0 stext (Some [[[(nm "div", ChildrenAll)]]]) /\
  until_ast ndoc stext (ids_of ndoc) Parent [8] [[[(nm "body", ChildrenAll)]; [(nm "div", Children)]]] (Some [[[(nm "div", ChildrenAll)]]]) false = Ok [6] /\
  until_ast ndoc stext (ids_of ndoc) Parent [8] [[[(nm "body", ChildrenAll)]; [(nm "div", Children)]]] (Some [[[(nm "div", ChildrenAll)]]]) true = Ok [2; 6] /\
  until_ast ndoc stext (ids_of ndoc) Prev [11] [[[(nm "div", ChildrenAll)]]] None false = Ok [9] /\
  until_ast ndoc stext (ids_of ndoc) Next [2] [[[(idr "x", ChildrenAll)]]] None true = Ok [9; 11].
Proof.
  split; [apply nwalking; vm_compute; reflexivity|]. split; [apply textok; vm_compute; reflexivity|]. split; [reflexivity|].
  split; [apply textok; vm_compute; reflexivity|]. repeat split; vm_compute; reflexivity.
Qed.
(** [next_until("i #x")] stops at the element x although it is not inside an i. *)
Theorem C13_until_refuted : exists h r text_of by_id x stop l y, Walking h r by_id x /\ TextOk h r text_of stop /\
  until_ast h text_of by_id Next [x] stop None false = Ok l /\ Stretch h Next (meets h text_of stop) false x y /\ ~ In y l.
Proof.
  pose (gs := [[[(nm "i", ChildrenAll)]; [(idr "x", ChildrenAll)]]] : ast). exists ndoc, 0, stext, (ids_of ndoc), 2, gs, [9], 11.
  assert (W : Walking ndoc 0 (ids_of ndoc) 2) by (apply nwalking; vm_compute; reflexivity). pose proof W as [D _ Hx]. split; [exact W|].
  assert (HT : TextOk ndoc 0 stext gs) by (apply textok; vm_compute; reflexivity). split; [exact HT|]. split; [vm_compute; reflexivity|].
  assert (HN : forall y, Rel ndoc NextAll 2 y -> ~ meets ndoc stext gs y).
  { intros y Hy Hm. apply (meets_spec ndoc 0 D stext gs y (proj1 HT) (proj2 HT) (rel_sym_el ndoc 0 D NextAll 2 y eq_refl Hx Hy)) in Hm.
    apply (in_step ndoc 0 D NextAll 2 y eq_refl Hx) in Hy. vm_compute in Hy. destruct Hy as [<- | [<- | []]]; vm_compute in Hm; discriminate. }
  assert (HR : Rel ndoc NextAll 2 11) by (apply (in_step ndoc 0 D NextAll 2 11 eq_refl Hx); vm_compute; tauto). split.
  - split; [exact HR|]. split; [intros z Hz _; exact (HN z Hz) | right; exact (HN 11 HR)].
  - intros [H | []]. discriminate.
Qed.
Print Assumptions C13_until_refuted.

(** * C14 *)
(** Any selector, for any set of elements: the nearest of each of them. *)
Theorem C14_closest_tested h r text_of by_id els gs : DocOk h r -> IdCache h r by_id -> Forall (ElIn h r) els -> AnyText h r text_of gs ->
  exists l, closest_ast h text_of by_id els gs = Ok l /\ (Ordered h els -> Ordered h l) /\
    forall y, In y l <-> exists x, In x els /\ Nearest h (Tested h text_of gs) x y.
Proof. intros D IC HE HT. exact (closest_ok h r D text_of by_id IC gs els HT HE). Qed.
Print Assumptions C14_closest_tested.
Example C14_tested_ex : Walking ndoc 0 (ids_of ndoc) 8 /\ AnyText ndoc 0 stext [[[(nm "i", ChildrenAll)]; [(cl "a", ChildrenAll)]]] /\
  no_lookup [[[(nm "i", ChildrenAll)]; [(cl "a", ChildrenAll)]]] = false /\
  closest_ast ndoc stext (ids_of ndoc) [8] [[[(nm "i", ChildrenAll)]; [(cl "a", ChildrenAll)]]] = Ok [8] /\
  AnyText ndoc 0 stext [[[(nm "body", Children)]; [(nm "div", Children)]]] /\ AnyText ndoc 0 stext [[[(nm "body", Next)]; [(nm "div", Children)]]] /\
  closest_ast ndoc stext (ids_of ndoc) [8] [[[(nm "body", Children)]; [(nm "div", Children)]]] = Ok [2] /\
  closest_ast ndoc stext (ids_of ndoc) [8] [[[(nm "body", Next)]; [(nm "div", Children)]]] = Ok [].
Proof.
  split; [apply nwalking; vm_compute; reflexivity|]. split; [apply anytext; vm_compute; reflexivity|]. split; [reflexivity|]. split; [vm_compute; reflexivity|].
  split; [apply anytext; vm_compute; reflexivity|]. split; [apply anytext; vm_compute; reflexivity|]. split; vm_compute; reflexivity.
Qed.
(** Full claim: any selector.  Missing: selectors in which a later compound outweighs the first one, as in C13. *)
Theorem C14_closest_partial h r text_of by_id x gs : Walking h r by_id x -> TextOk h r text_of gs -> no_lookup gs = true ->
  exists l, closest_ast h text_of by_id [x] gs = Ok l /\ Ordered h l /\ forall y, In y l <-> Nearest h (meets h text_of gs) x y.
Proof.
  intros [D IC Hx] HT Hn. destruct (closest_ok h r D text_of by_id IC gs [x] (anytext_ok h r text_of gs HT) ltac:(constructor; [exact Hx | constructor])) as (l & E & Ho & Hl).
  exists l. split; [exact E|]. split; [apply Ho; split; [constructor | exact I]|]. intros y. rewrite Hl.
  rewrite <- (nearest_ext h _ _ x y (fun z => tested_plain h text_of gs z (proj2 HT) Hn)).
  split; [intros (x' & [<- | []] & H); exact H | intros H; exists x; split; [left; reflexivity | exact H]].
Qed.
Print Assumptions C14_closest_partial.
(** The nearest element upwards that meets the selector exists when one upwards meets it, and is the only one. *)
Theorem C14_nearest h r by_id x (P : id -> Prop) : Walking h r by_id x -> (forall y, Upwards h x y -> P y \/ ~ P y) ->
  ((exists y, Upwards h x y /\ P y) -> exists y, Nearest h P x y) /\ forall y z, Nearest h P x y -> Nearest h P x z -> y = z.
Proof.
  intros [D IC Hx] Hdec. pose proof (do_wf h r D) as wf. split.
  - intros (y0 & Hu & HP). revert x Hx Hdec Hu.
    assert (HI : forall n x, ElIn h r x -> (forall y, Upwards h x y -> P y \/ ~ P y) -> Upwards h x y0 -> length (step_list h ParentAll x) < n -> exists y, Nearest h P x y).
    { induction n as [|n IH]; intros x Hx Hdec Hu Hlen; [lia|]. destruct (Hdec x ltac:(split; [left; reflexivity | apply Hx])) as [Hp | Hn].
      - exists x. apply (nearest_self h r D P x x Hx Hp). reflexivity.
      - pose proof Hu as Hu'. apply (up_rel h r x y0 Hx) in Hu'. destruct Hu' as [-> | Hr]; [contradiction|].
        destruct (rel_first h r D Parent x y0 eq_refl Hx Hr) as (p & Hp). pose proof (rel_sym_el h r D Parent x p eq_refl Hx Hp) as Hpe.
        assert (Hup : forall z, Upwards h p z -> Upwards h x z).
        { intros z Hz. apply (up_rel h r p z Hpe) in Hz. apply (up_rel h r x z Hx). right. apply (rel_split h r D (fun _ => []) Parent x p z eq_refl Hx Hp). exact Hz. }
        pose proof (walk_length h r D (fun _ => []) Parent x p eq_refl Hx Hp) as HL. cbn [all_of] in HL. apply (rel_split h r D (fun _ => []) Parent x p y0 eq_refl Hx Hp) in Hr.
        destruct (IH p Hpe (fun z Hz => Hdec z (Hup z Hz)) ltac:(apply (up_rel h r p y0 Hpe); exact Hr) ltac:(lia)) as (y & Hy).
        exists y. apply (nearest_up h r D (fun _ => []) P x p y Hx Hn Hp). exact Hy. }
    intros x Hx Hdec Hu. exact (HI _ x Hx Hdec Hu (Nat.lt_succ_diag_r _)).
  - intros y z (Hy1 & Hy2 & Hy3) (Hz1 & Hz2 & Hz3). 
    assert (HT : y = z \/ Anc h y z \/ Anc h z y).
    { destruct Hy1 as [[-> | Ha] _]; destruct Hz1 as [[-> | Hb] _]; [left; reflexivity | right; right; exact Hb | right; left; exact Ha|].
      destruct (anc_comparable h r D _ _ _ (or_intror Ha) (or_intror Hb)) as [[-> | H] | H]; auto. }
    destruct HT as [H | [H | H]]; [exact H | destruct (Hy3 z Hz1 H Hz2) | destruct (Hz3 y Hy1 H Hy2)].
Qed.
Print Assumptions C14_nearest.
(** The same for any set of elements: the nearest of each of them. *)
Theorem C14_closest_set_partial h r text_of by_id els gs : DocOk h r -> IdCache h r by_id -> Forall (ElIn h r) els -> TextOk h r text_of gs -> no_lookup gs = true ->
  exists l, closest_ast h text_of by_id els gs = Ok l /\ (Ordered h els -> Ordered h l) /\
    forall y, In y l <-> exists x, In x els /\ Nearest h (meets h text_of gs) x y.
Proof.
  intros D IC HE HT Hn. destruct (closest_ok h r D text_of by_id IC gs els (anytext_ok h r text_of gs HT) HE) as (l & E & Ho & Hl). exists l. split; [exact E|]. split; [exact Ho|].
  intros y. rewrite Hl. pose proof (fun x => nearest_ext h _ _ x y (fun z => tested_plain h text_of gs z (proj2 HT) Hn)) as HX.
  split; intros (x & Hx & H); exists x; (split; [exact Hx | apply HX; exact H]).
Qed.
Print Assumptions C14_closest_set_partial.

Example C14_ex : Walking ndoc 0 (ids_of ndoc) 8 /\ TextOk ndoc 0 stext [[[(nm "body", ChildrenAll)]; [(nm "div", ChildrenAll)]]] /\
  no_lookup [[[(nm "body", ChildrenAll)]; [(nm "div", ChildrenAll)]]] = true /\
  closest_ast ndoc stext (ids_of ndoc) [8] [[[(nm "body", ChildrenAll)]; [(nm "div", ChildrenAll)]]] = Ok [6] /\
  closest_ast ndoc stext (ids_of ndoc) [8] [[[(nm "i", ChildrenAll)]]] = Ok [] /\
  closest_ast ndoc stext (ids_of ndoc) [8; 10] [[[(nm "p", ChildrenAll)]]; [[(nm "i", ChildrenAll)]]] = Ok [7; 9].
Proof.
  split; [apply nwalking; vm_compute; reflexivity|]. split; [apply textok; vm_compute; reflexivity|]. repeat split; vm_compute; reflexivity.
Qed.
(** [closest("i .a")] gives the element of class a although it is not inside an i. *)
Theorem C14_closest_refuted : exists h r text_of by_id x gs l y, Walking h r by_id x /\ TextOk h r text_of gs /\
  closest_ast h text_of by_id [x] gs = Ok l /\ In y l /\ ~ meets h text_of gs y.
Proof.
  pose (gs := [[[(nm "i", ChildrenAll)]; [(cl "a", ChildrenAll)]]] : ast). exists ndoc, 0, stext, (ids_of ndoc), 8, gs, [8], 8.
  assert (W : Walking ndoc 0 (ids_of ndoc) 8) by (apply nwalking; vm_compute; reflexivity). pose proof W as [D _ Hx]. split; [exact W|].
  assert (HT : TextOk ndoc 0 stext gs) by (apply textok; vm_compute; reflexivity). split; [exact HT|]. split; [vm_compute; reflexivity|].
  split; [left; reflexivity|]. intros Hm. apply (meets_spec ndoc 0 D stext gs 8 (proj1 HT) (proj2 HT) Hx) in Hm. vm_compute in Hm. discriminate.
Qed.
Print Assumptions C14_closest_refuted.
