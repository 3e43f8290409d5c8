(** A step with a filter text that has combinators. *)
From Verif Require Import Base Utils UtilsSpec Attr AttrSpec Dom DomSpec Order DomProofs OrderSpec OrderProofs
  Sets SetsProofs AddProofs AddExact NavProofs Engine Rules Traverse SelSpec FindSpec TravSpec StepSpec OneProofs PreProofs SelBool SibLists SibProofs StepProofs BackProofs FilterProofs
  RuleProofs FindProofs FindRules SelectProofs TravProofs SetTrav.

Section StepWalk.
  Variable h : heap.
  Variable r : id.
  Hypothesis D : DocOk h r.
  Let wf : WF h := do_wf h r D.
  Variable text_of : id -> str.
  Variable by_id : id -> str -> option id.
  Hypothesis IC : IdCache h r by_id.
  Notation pb := (predb h text_of).
  Notation cg g := (optimize_group false (map (map (fun e : rule * comb => let '(r', c) := e in (compile h text_of by_id r', c))) g)).
  Notation bof cp := (map (fun e : rule * comb => let '(r', c) := e in (holdsb h text_of r', c)) cp).

  Lemma fwdset_ordered l : Forall (ElIn h r) l -> Ordered h l -> FwdSet h r l.
  Proof. intros H1 H2. exact (fwdset_els h r D l H1 (ordered_sibinc h r D l H1 H2)). Qed.

  (** The first compound with the step in front. *)
  Lemma first_step c cp x : step_comb c = true -> ElIn h r x -> CompOk h r text_of cp -> comp_wf cp = true -> comp_comb cp = ChildrenAll ->
    RuleSafe h c (head_rule cp) (fun y => y = x) ->
    exists m rest, optimize_compound (compile_comp h text_of by_id cp) = (m, ChildrenAll) :: rest /\
      select h [x] ((m, c) :: rest) None = Ok (filter (compb (bof cp)) (step_list h c x)).
  Proof.
    intros Hc Hx Hok Hw Ec HR.
    assert (HC : COk h r (optimize_compound (compile_comp h text_of by_id cp)) (bof cp) false).
    { assert (HF := coks_ok h r D text_of by_id IC [cp] false). cbn in HF. specialize (HF ltac:(intros cp' [<- | []]; exact Hok) ltac:(rewrite Hw; reflexivity) ltac:(discriminate)).
      inversion HF; subst. assumption. }
    pose proof (safe_compound h r text_of by_id c cp (fun y => y = x) Hok ltac:(intros ->; discriminate) HR) as HS.
    destruct (compound_chain h r _ _ false HC) as (m & c0 & rest & p & E & Hf & Ec0 & M & Hp & Hch).
    assert (E0 : c0 = ChildrenAll) by (rewrite Ec0, comp_comb_map; exact Ec). subst c0.
    exists m, rest. split; [rewrite E, E0; reflexivity|]. unfold select. cbn [rnth nth_error rbind tl].
    assert (Enc : mt_cache m && comb_eqb c ChildrenAll = false) by (destruct c; try discriminate; apply andb_false_r). rewrite Enc.
    rewrite (one_step h r D c m p false x Hc Hx M (HS m _ rest E)). cbn [rbind].
    exact (Hch _ (step_els h r D c x Hc Hx) (good_filter h r false p _ (step_good h r D false c x Hc Hx))).
  Qed.

  Lemma bool_comp cp y : CompOk h r text_of cp -> ElIn h r y -> (compb (bof cp) y = true <-> CompHolds (comp_preds h text_of cp) y).
  Proof. intros Hok Hy. apply (compb_spec h r text_of cp y Hy). intros rl c Hi. exact (holdsb_spec h r text_of D rl (Hok rl c Hi)). Qed.

  (** The whole group. *)
  Lemma group_step c g x : step_comb c = true -> ElIn h r x -> GroupOk h r text_of g -> group_wf g = true -> StepOk h text_of c x g ->
    exists ord, ProcDone h r [x] (headed c (cg g)) (head_with (fun _ => true) c (pb g)) ord /\ (StepOrd h text_of c x g -> ord).
  Proof.
    intros Hc Hx Hok Hw [HS1 HS2]. unfold group_wf in Hw. apply andb_true_iff in Hw. destruct Hw as [Hne Hw].
    destruct g as [|cp g]; [discriminate|]. cbn [forallb] in Hw. apply andb_true_iff in Hw. destruct Hw as [Hw1 Hw2]. clear Hne.
    pose proof (Hok cp (or_introl eq_refl)) as Hcok.
    assert (Hokr : GroupOk h r text_of g) by (intros cp' Hcp'; exact (Hok cp' (or_intror Hcp'))).
    unfold StepOrd. unfold rest_of in HS2 |- *.
    destruct (comb_eqb (comp_comb cp) ChildrenAll) eqn:Eb.
    - assert (Ec : comp_comb cp = ChildrenAll) by (destruct (comp_comb cp); try discriminate; reflexivity).
      destruct (first_step c cp x Hc Hx Hcok Hw1 Ec (HS1 Ec)) as (m & rest & E & ES).
      set (P := FirstTo h text_of c x (cp :: g)) in *. set (b := (bof cp)) in *.
      assert (HP : forall y, In y (filter (compb b) (step_list h c x)) <-> P y).
      { intros y. rewrite filter_In, (in_step h r D c x y Hc Hx). unfold P, FirstTo. split.
        - intros [H1 H2]. split; [exact H1|]. intros _. apply (bool_comp cp y Hcok (rel_sym_el h r D c x y Hc Hx H1)). exact H2.
        - intros [H1 H2]. split; [exact H1|]. apply (bool_comp cp y Hcok (rel_sym_el h r D c x y Hc Hx H1)). exact (H2 Ec). }
      assert (HE : Forall (ElIn h r) (filter (compb b) (step_list h c x))).
      { pose proof (step_els h r D c x Hc Hx) as HE. rewrite Forall_forall in *. intros y Hy. apply filter_In in Hy. exact (HE y (proj1 Hy)). }
      assert (HO : Ordered h (filter (compb b) (step_list h c x))) by (apply ordered_filter; exact (step_ordered h r D c x Hc Hx)).
      destruct (steps_runs h r D text_of by_id IC g P P True True Hokr Hw2) as [HR HE'];
        [intros y Hy; apply HP in Hy; rewrite Forall_forall in HE; exact (proj1 (HE y Hy)) | reflexivity | trivial | exact HS2|].
      exists (OrdEnd h P True (pb g)). split; [|exact HE'].
      assert (Eq : headed c (cg (cp :: g)) =
        mkProcess None (((m, c) :: rest) :: group_of h text_of by_id g)).
      { unfold optimize_group. cbn [map andb].
        change (map (fun e : rule * comb => let '(r', c) := e in (compile h text_of by_id r', c)) cp) with (compile_comp h text_of by_id cp). rewrite E, map_map. unfold headed. cbn. reflexivity. }
      assert (Eh : head_with (fun _ => true) c (pb (cp :: g)) = match b with (p, _) :: b' => ((p, c) :: b') :: pb g | [] => [] end).
      { unfold b. cbn [predb map]. destruct cp as [|[rl c0] cp]; [discriminate|]. cbn in Ec. subst c0. reflexivity. }
      rewrite Eh, Eq. destruct b as [|[p c0] b'] eqn:Ebb; [unfold b in Ebb; destruct cp; discriminate|].
      unfold ProcDone, find_process, find_first. cbn [query should_in rnth nth_error rbind tl]. rewrite ES. cbn [rbind WalkB].
      assert (HW : forall y, StepB h (fun s => In s [x]) ((p, c) :: b') y <-> P y).
      { intros y. rewrite <- HP, filter_In, (in_step h r D c x y Hc Hx). unfold StepB, compb. cbn [comp_comb forallb fst]. split.
        - intros (H1 & e & [<- | []] & H2). split; [exact H2 | exact H1].
        - intros [H1 H2]. split; [exact H2|]. exists x. split; [left; reflexivity | exact H1]. }
      destruct (nonempty (filter (compb ((p, c0) :: b')) (step_list h c x))) eqn:En.
      + destruct (query_run h r D (pb g) (group_of h text_of by_id g) _ P True (fwdset_ordered _ HE HO) HP (fun _ => HO) HR) as (o & Eo & Ha & Hb & Hd & He).
        rewrite Eo. cbn [rbind]. eexists. split; [reflexivity|]. split; [exact (Hb HE)|]. split; [apply Ha|]. split; [exact Hd|].
        intros y. rewrite He. apply (walkb_ext h). intros z. symmetry. apply HW.
      + apply nonempty_false in En. rewrite En in HP. exists []. split; [reflexivity|]. split; [constructor|]. split; [constructor|]. split; [intros _; exact I|].
        intros y. split; [intros []|]. intros Hw'. apply (walkb_none h (pb g)) in Hw'; [exact Hw'|]. intros z Hz. apply HW, HP in Hz. exact Hz.
    - set (P := FirstTo h text_of c x (cp :: g)) in *.
      assert (HP : forall y, In y (step_list h c x) <-> P y).
      { intros y. rewrite (in_step h r D c x y Hc Hx). unfold P, FirstTo. split; [|intros [H _]; exact H].
        intros H. split; [exact H|]. intros Ec. rewrite Ec in Eb. discriminate. }
      pose proof (step_els h r D c x Hc Hx) as HE. pose proof (step_ordered h r D c x Hc Hx) as HO.
      destruct (steps_runs h r D text_of by_id IC (cp :: g) P P True True Hok) as [HR HE'];
        [cbn [forallb]; rewrite Hw1; exact Hw2 | intros y Hy; apply HP in Hy; rewrite Forall_forall in HE; exact (proj1 (HE y Hy)) | reflexivity | trivial | exact HS2|].
      exists (OrdEnd h P True (pb (cp :: g))). split; [|exact HE'].
      assert (Eq : headed c (cg (cp :: g)) =
        mkProcess None ([make_comb_all c] :: group_of h text_of by_id (cp :: g))).
      { unfold optimize_group. cbn [map andb].
        change (map (fun e : rule * comb => let '(r', c) := e in (compile h text_of by_id r', c)) cp) with (compile_comp h text_of by_id cp). rewrite map_map.
        assert (HC : COk h r (optimize_compound (compile_comp h text_of by_id cp)) (bof cp) false).
        { assert (HF := coks_ok h r D text_of by_id IC [cp] false). cbn in HF. specialize (HF ltac:(intros cp' [<- | []]; exact Hcok) ltac:(rewrite Hw1; reflexivity) ltac:(discriminate)).
          inversion HF; subst. assumption. }
        destruct (cok_comb h r _ _ false HC) as (_ & m & c0 & rest & E & Ec0). rewrite comp_comb_map in Ec0. unfold headed. cbn [should_in query].
        change (group_of h text_of by_id (cp :: g)) with (optimize_compound (compile_comp h text_of by_id cp) :: group_of h text_of by_id g).
        rewrite E. cbn [head_group]. rewrite Ec0, Eb. reflexivity. }
      assert (Eh : head_with (fun _ => true) c (pb (cp :: g)) = [(fun _ => true, c)] :: pb (cp :: g)).
      { cbn [predb map]. destruct cp as [|[rl c0] cp]; [discriminate|]. cbn in Eb. destruct c0; try discriminate; reflexivity. }
      rewrite Eh, Eq. unfold ProcDone, find_process, find_first, select, make_comb_all. cbn [query should_in rnth nth_error rbind tl fst snd mt_cache all_matcher andb].
      change (mkMatcher _ None None 0%N false) with all_matcher.
      rewrite (one_step h r D c _ _ false x Hc Hx (all_mok h r false) (all_safe h c _)), (filter_all (fun _ => true)) by reflexivity. cbn [rbind chain_rest].
      assert (HW : forall y, StepB h (fun s => In s [x]) [(fun _ => true, c)] y <-> P y).
      { intros y. rewrite <- HP, (in_step h r D c x y Hc Hx). unfold StepB, compb. cbn [comp_comb forallb fst]. split.
        - intros (_ & e & [<- | []] & H2). exact H2.
        - intros H1. split; [reflexivity|]. exists x. split; [left; reflexivity | exact H1]. }
      change (WalkB h (fun s => In s [x]) ([(fun _ => true, c)] :: pb (cp :: g))) with (WalkB h (StepB h (fun s => In s [x]) [(fun _ => true, c)]) (pb (cp :: g))).
      destruct (nonempty (step_list h c x)) eqn:En.
      + destruct (query_run h r D (pb (cp :: g)) (group_of h text_of by_id (cp :: g)) _ P True (fwdset_ordered _ HE HO) HP (fun _ => HO) HR) as (o & Eo & Ha & Hb & Hd & He).
        rewrite Eo. cbn [rbind]. eexists. split; [reflexivity|]. split; [exact (Hb HE)|]. split; [apply Ha|]. split; [exact Hd|].
        intros y. rewrite He. apply (walkb_ext h). intros z. symmetry. apply HW.
      + apply nonempty_false in En. rewrite En in HP. exists []. split; [reflexivity|]. split; [constructor|]. split; [constructor|]. split; [intros _; exact I|].
        intros y. split; [intros []|]. intros Hw'. apply (walkb_none h (pb (cp :: g))) in Hw'; [exact Hw'|]. intros z Hz. apply HW, HP in Hz. exact Hz.
  Qed.

  Lemma step_to_bool c g x y : step_comb c = true -> ElIn h r x -> GroupOk h r text_of g -> group_wf g = true ->
    (WalkB h (fun s => In s [x]) (head_with (fun _ => true) c (pb g)) y <-> StepTo h text_of c x g y).
  Proof.
    intros Hc Hx Hok Hw. unfold group_wf in Hw. apply andb_true_iff in Hw. destruct Hw as [Hne Hw].
    destruct g as [|cp g]; [discriminate|]. pose proof Hw as Hw'. cbn [forallb] in Hw. apply andb_true_iff in Hw. destruct Hw as [Hw1 Hw2]. clear Hne.
    pose proof (Hok cp (or_introl eq_refl)) as Hcok. unfold StepTo.
    destruct cp as [|[rl c0] cp]; [discriminate|].
    assert (HA : forall y, StepB h (fun s => In s [x]) [(fun _ => true, c)] y <-> Step h (fun s => s = x) [(fun _ => True, c)] y).
    { intros z. unfold StepB, Step, CompHolds. cbn. split.
      - intros (_ & e & [<- | []] & H). split; [exists x; split; [reflexivity | exact H]|]. intros P c1 [E | []]. injection E as <- <-. exact I.
      - intros [(e & -> & H) _]. split; [reflexivity|]. exists x. split; [left; reflexivity | exact H]. }
    assert (HT : forall y, Step h (fun s => s = x) [(fun _ : id => True, c)] y -> InTree h r y).
    { intros z [(e & -> & H) _]. exact (proj1 (rel_sym_el h r D c x z Hc Hx H)). }
    assert (HG : WalkB h (fun s => In s [x]) ([(fun _ => true, c)] :: pb (((rl, c0) :: cp) :: g)) y <-> Walk h (fun s => s = x) ([(fun _ => True, c)] :: preds h text_of (((rl, c0) :: cp) :: g)) y).
    { cbn [WalkB Walk].
      apply (walk_bool h r D text_of (((rl, c0) :: cp) :: g) Hok Hw'); [intros z Hz; apply HT, HA; exact Hz | exact HA]. }
    destruct c0; try exact HG. clear HG HA HT. cbn [predb preds map head_with WalkB Walk].
    apply (walk_bool h r D text_of g (fun cp' Hcp' => Hok cp' (or_intror Hcp')) Hw2).
    - intros z (_ & e & [<- | []] & H). exact (proj1 (rel_sym_el h r D c x z Hc Hx H)).
    - intros z. pose proof (bool_comp _ z Hcok) as HB. unfold compb, CompHolds in HB. unfold StepB, Step, compb, CompHolds. cbn [map comp_comb forallb fst comp_preds] in *. split.
      + intros (H1 & e & [<- | []] & H2). split; [exists x; split; [reflexivity | exact H2]|]. pose proof (proj1 (HB (rel_sym_el h r D c x z Hc Hx H2)) H1) as HH.
        intros P c1 [E | Hi]; [injection E as <- <-; apply (HH (Holds h text_of rl) ChildrenAll); left; reflexivity | apply (HH P c1); right; exact Hi].
      + intros [(e & -> & H2) H1]. split; [|exists x; split; [left; reflexivity | exact H2]]. apply (proj2 (HB (rel_sym_el h r D c x z Hc Hx H2))).
        intros P c1 [E | Hi]; [injection E as <- <-; apply (H1 (Holds h text_of rl) c); left; reflexivity | apply (H1 P c1); right; exact Hi].
  Qed.

  Lemma looked_same gs : forallb group_wf gs = true -> no_lookup gs = true -> compile_selector h text_of by_id true gs = compile_selector h text_of by_id false gs.
  Proof.
    intros Hw Hn. unfold compile_selector, compile_groups, optimize. induction gs as [|g gs IH]; [reflexivity|]. cbn [forallb no_lookup] in Hw, Hn. unfold no_lookup in Hn. cbn [forallb] in Hn.
    apply andb_true_iff in Hw. destruct Hw as [Hw1 Hw2]. apply andb_true_iff in Hn. destruct Hn as [Hn1 Hn2]. cbn [map]. f_equal; [|exact (IH Hw2 Hn2)].
    unfold group_wf in Hw1. apply andb_true_iff in Hw1. rewrite (group_lookup h text_of by_id g (proj2 Hw1)). apply negb_true_iff in Hn1. rewrite Hn1.
    rewrite <- (group_of_opt h text_of by_id g). reflexivity.
  Qed.
  Lemma headed_all c gs : head_combinator c (compile_selector h text_of by_id false gs) = map (fun g => headed c (cg g)) gs.
  Proof. unfold head_combinator, compile_selector, compile_groups, optimize. rewrite !map_map. apply map_ext. intros g. reflexivity. Qed.
  (** The search all the calls make. *)
  Lemma step_ast_find c x gs l : step_comb c = true -> ElIn h r x -> (c = Siblings -> forallb group_wf gs = true /\ no_lookup gs = true) ->
    find_selector h [x] (map (fun g => headed c (cg g)) gs) = Ok l -> Forall (ElIn h r) l -> NoDup l ->
    exists l', step_ast h text_of by_id c [x] (Some gs) = Ok l' /\ Forall (ElIn h r) l' /\ NoDup l' /\ (forall y, In y l' <-> In y l) /\ (Ordered h l -> l' = l) /\ (c = ParentAll \/ c = Siblings -> Ordered h l').
  Proof.
    intros Hc Hx HN El HE Hn. rewrite <- headed_all in El.
    assert (HT : select_with_comb h [x] (plain_text h text_of by_id (Some gs)) c = Ok l) by exact El.
    assert (HA : AllIn h r l) by (revert HE; apply Forall_impl; intros y Hy; apply Hy).
    assert (HG : c <> ParentAll -> c <> Siblings -> step_ast h text_of by_id c [x] (Some gs) = Ok l).
    { intros N1 N2. destruct c; try discriminate; try congruence; cbn [step_ast]; try exact HT.
      - unfold Engine.el_parent. rewrite (us_one h r D x Hx). exact HT.
      - unfold Engine.el_next_all. rewrite (us_one h r D x Hx). exact HT.
      - unfold Engine.el_prev_all. rewrite (us_one_last h r D x Hx). exact HT. }
    assert (HD : Ordered h l -> DocSet h r l) by (intros Ho; split; assumption).
    assert (Hs : c = ParentAll \/ c = Siblings \/ (c <> ParentAll /\ c <> Siblings)) by (destruct c; auto; right; right; split; discriminate).
    destruct Hs as [-> | [-> | [N1 N2]]].
    - cbn [step_ast]. unfold el_parents. rewrite (us_one h r D x Hx). cbn [rbind]. rewrite HT. cbn [rbind].
      destruct (sort_and_unique_ok h wf r l HA) as (l' & E & HD' & HM). rewrite E. exists l'. split; [reflexivity|]. split.
      { apply Forall_forall. intros y Hy. apply HM in Hy. rewrite Forall_forall in HE. exact (HE y Hy). }
      split; [exact (docset_nodup h r D l' HD')|]. split; [exact HM|]. split; [|intros _; exact (proj2 HD')].
      intros Ho. pose proof (sorted_same h r D l (HD Ho)) as ES. rewrite E in ES. injection ES as ->. reflexivity.
    - destruct (HN eq_refl) as [Hw Hl]. cbn [step_ast]. unfold looked_text. cbn [option_map]. rewrite (looked_same gs Hw Hl). unfold el_siblings. rewrite (ua_one h r D x Hx). cbn [rbind rflat].
      rewrite El. cbn [rbind]. rewrite app_nil_r. destruct (SetTrav.sort_nodup h r D l HA Hn) as (l' & E & HO & HM). rewrite E. exists l'. split; [reflexivity|].
      assert (HE' : Forall (ElIn h r) l') by (apply Forall_forall; intros y Hy; apply HM in Hy; rewrite Forall_forall in HE; exact (HE y Hy)). split; [exact HE'|].
      split; [exact (sibinc_nodup h r D l' HE' (ordered_sibinc h r D l' HE' HO))|]. split; [exact HM|]. split; [|intros _; exact HO].
      intros Ho. pose proof (sort_same h r D l (HD Ho)) as ES. rewrite E in ES. injection ES as ->. reflexivity.
    - exists l. split; [exact (HG N1 N2)|]. split; [exact HE|]. split; [exact Hn|]. split; [reflexivity|]. split; [reflexivity|]. intros [E | E]; congruence.
  Qed.
  Lemma step_group c x g : step_comb c = true -> ElIn h r x -> GroupOk h r text_of g -> group_wf g = true -> StepOk h text_of c x g -> (c = Siblings -> no_lookup [g] = true) ->
    exists l, step_ast h text_of by_id c [x] (Some [g]) = Ok l /\ Forall (ElIn h r) l /\ NoDup l /\
      (StepOrd h text_of c x g \/ c = ParentAll \/ c = Siblings -> Ordered h l) /\ forall y, In y l <-> StepTo h text_of c x g y.
  Proof.
    intros Hc Hx Hok Hw HS Hn. destruct (group_step c g x Hc Hx Hok Hw HS) as (ord & HP & HO).
    assert (Hne : head_with (fun _ : id => true) c (pb g) <> []) by (destruct (pb g) as [|[|[p []] b] gb]; discriminate).
    destruct (find_one h r [x] _ _ ord HP Hne) as (l & El & H1 & H2 & H3 & H4).
    destruct (step_ast_find c x [g] l Hc Hx) as (l' & E & L1 & L2 & L3 & L4 & L5); [|exact El | exact H1 | exact H2|].
    { intros Es. split; [cbn; rewrite Hw; reflexivity | exact (Hn Es)]. }
    exists l'. split; [exact E|]. split; [exact L1|]. split; [exact L2|]. split.
    - intros [Ho | Hp]; [|exact (L5 Hp)]. rewrite (L4 (H3 (HO Ho))). exact (H3 (HO Ho)).
    - intros y. rewrite L3, H4. exact (step_to_bool c g x y Hc Hx Hok Hw).
  Qed.
  Lemma step_groups c x gs : step_comb c = true -> ElIn h r x -> SelOk h r text_of gs -> forallb group_wf gs = true ->
    (forall g, In g gs -> StepOk h text_of c x g /\ StepOrd h text_of c x g) -> UnionOk h (map (StepTo h text_of c x) gs) -> (c = Siblings -> no_lookup gs = true) ->
    exists l, step_ast h text_of by_id c [x] (Some gs) = Ok l /\ Forall (ElIn h r) l /\ Ordered h l /\
      forall y, In y l <-> exists g, In g gs /\ StepTo h text_of c x g y.
  Proof.
    intros Hc Hx Hok Hw HS HU Hn. pose proof Hw as Hw'. rewrite forallb_forall in Hw'.
    assert (HW : forall g, In g gs -> forall y, WalkB h (fun s => In s [x]) (head_with (fun _ => true) c (pb g)) y <-> StepTo h text_of c x g y).
    { intros g Hg y. exact (step_to_bool c g x y Hc Hx (Hok g Hg) (Hw' g Hg)). }
    destruct (find_many h r D [x] (map (fun g => headed c (cg g)) gs) (map (fun g => head_with (fun _ => true) c (pb g)) gs)) with (A := fun _ : id => False) (acc := @nil id) as (l & El & HD & HE & Hm).
    - clear HU HW Hn. assert (HP : forall g, In g gs -> exists ord : Prop, ord /\ ProcDone h r [x] (headed c (cg g)) (head_with (fun _ => true) c (pb g)) ord).
      { intros g Hg. destruct (HS g Hg) as [S1 S2]. destruct (group_step c g x Hc Hx (Hok g Hg) (Hw' g Hg) S1) as (ord & HP & HO). exists ord. split; [exact (HO S2) | exact HP]. }
      clear -HP. induction gs as [|g gs IH]; [constructor|]. cbn [map]. constructor; [exact (HP g (or_introl eq_refl))|]. apply IH. intros g' Hg'. apply HP. right. exact Hg'.
    - split; [constructor | exact I].
    - constructor.
    - intros y. cbn. tauto.
    - rewrite map_map. revert HU. unfold UnionOk. apply (addsfree_ext h); [reflexivity|]. clear -HW. induction gs as [|g gs IH]; [constructor|]. cbn [map]. constructor.
      + intros y. symmetry. exact (HW g (or_introl eq_refl) y).
      + apply IH. intros g' Hg'. apply HW. right. exact Hg'.
    - destruct (step_ast_find c x gs l Hc Hx) as (l' & E & L1 & L2 & L3 & L4 & L5); [intros Es; split; [exact Hw | exact (Hn Es)] | exact El | exact HE | exact (docset_nodup h r D l HD)|].
      rewrite (L4 (proj2 HD)) in E. exists l. split; [exact E|]. split; [exact HE|]. split; [exact (proj2 HD)|].
      intros y. rewrite Hm. split.
      + intros [[] | (gb & Hgb & Hy)]. apply in_map_iff in Hgb. destruct Hgb as (g & <- & Hg). exists g. split; [exact Hg | apply (HW g Hg); exact Hy].
      + intros (g & Hg & Hy). right. exists (head_with (fun _ => true) c (pb g)). split; [apply in_map_iff; exists g; split; [reflexivity | exact Hg] | apply (HW g Hg); exact Hy].
  Qed.
  (** * From a set *)
  (** [base] is where the step leads from [us]; [s = true]: in any order. *)
  Definition first_ok (g : list (list (rule * comb))) (base : list id) (y : id) : Prop :=
    In y base /\ match g with cp :: _ => comp_comb cp = ChildrenAll -> CompHolds (comp_preds h text_of cp) y | [] => True end.
  Lemma walk_from c g us base s : step_comb c = true -> GroupOk h r text_of g -> group_wf g = true ->
    (forall m p, MOk h r m p s -> SafeM h c m (fun y => In y us) -> select_by_rule h us m c = Ok (filter p base)) -> Good h r s base ->
    match g with cp :: _ => comp_comb cp = ChildrenAll -> (s = true -> comp_any_order cp = true) /\ RuleSafe h c (head_rule cp) (fun y => In y us) | [] => True end ->
    StepsOk h text_of (first_ok g base) (Ordered h base) (rest_of g) ->
    exists l, find_process h us (headed c (cg g)) = Ok l /\ Forall (ElIn h r) l /\ NoDup l /\
      (StepsOrd h text_of (first_ok g base) (Ordered h base) (rest_of g) -> Ordered h l) /\ forall y, In y l <-> Walk h (first_ok g base) (preds h text_of (rest_of g)) y.
  Proof.
    intros Hc Hok Hw Hsel HG HS1 HS2. pose proof HG as (HBe & HBi & HBo). unfold group_wf in Hw. apply andb_true_iff in Hw. destruct Hw as [Hne Hw].
    destruct g as [|cp g]; [discriminate|]. pose proof Hw as Hw'. cbn [forallb] in Hw. apply andb_true_iff in Hw. destruct Hw as [Hw1 Hw2]. clear Hne.
    pose proof (Hok cp (or_introl eq_refl)) as Hcok.
    assert (Hokr : GroupOk h r text_of g) by (intros cp' Hcp'; exact (Hok cp' (or_intror Hcp'))).
    assert (HRun : forall gr lst, GroupOk h r text_of gr -> forallb comp_wf gr = true -> Forall (ElIn h r) lst -> SibInc h lst -> (Ordered h base -> Ordered h lst) ->
      (forall y, In y lst <-> first_ok (cp :: g) base y) -> StepsOk h text_of (first_ok (cp :: g) base) (Ordered h base) gr ->
      exists l, (if nonempty lst then do r0 <- query_rest h lst (group_of h text_of by_id gr); Ok match r0 with Some l => l | None => [] end else Ok []) = Ok l /\ Forall (ElIn h r) l /\ NoDup l /\
        (StepsOrd h text_of (first_ok (cp :: g) base) (Ordered h base) gr -> Ordered h l) /\ forall y, In y l <-> Walk h (first_ok (cp :: g) base) (preds h text_of gr) y).
    { intros gr lst Hgr Hwr HE HI HO HP HSt. set (P := first_ok (cp :: g) base) in *.
      assert (HT : forall y, P y -> InTree h r y) by (intros y Hy; apply HP in Hy; rewrite Forall_forall in HE; exact (proj1 (HE y Hy))).
      destruct (steps_runs h r D text_of by_id IC gr P P (Ordered h base) (Ordered h base) Hgr Hwr HT (fun y => iff_refl _) (fun H => H) HSt) as [HR HE'].
      pose proof (walk_bool h r D text_of gr Hgr Hwr P P HT (fun y => iff_refl _)) as HWB.
      destruct (nonempty lst) eqn:En.
      - destruct (query_run h r D (pb gr) (group_of h text_of by_id gr) lst P (Ordered h base) (fwdset_els h r D lst HE HI) HP HO HR) as (o & Eo & Ha & Hb & Hd & He).
        rewrite Eo. cbn [rbind]. eexists. split; [reflexivity|]. split; [exact (Hb HE)|]. split; [apply Ha|]. split; [intros H; exact (Hd (HE' H))|].
        intros y. rewrite He. apply HWB.
      - apply nonempty_false in En. subst lst. exists []. split; [reflexivity|]. split; [constructor|]. split; [constructor|]. split; [intros _; exact I|].
        intros y. split; [intros []|]. intros Hy. apply HWB in Hy. apply (walkb_none h (pb gr)) in Hy; [exact Hy|]. intros z Hz. apply HP in Hz. exact Hz. }
    unfold rest_of in HS2 |- *. destruct (comb_eqb (comp_comb cp) ChildrenAll) eqn:Eb.
    - assert (Ec : comp_comb cp = ChildrenAll) by (destruct (comp_comb cp); try discriminate; reflexivity). destruct (HS1 Ec) as [Ha HR].
      assert (HC : COk h r (optimize_compound (compile_comp h text_of by_id cp)) (bof cp) s).
      { apply cok_compile; [exact Hw1|]. intros rl c' Hi. pose proof (mok_rule h r D text_of by_id IC rl (Hcok rl c' Hi)) as HM. destruct s.
        - specialize (Ha eq_refl). unfold comp_any_order in Ha. rewrite forallb_forall in Ha. specialize (Ha (rl, c') Hi). cbn in Ha. rewrite any_order_simple in Ha. rewrite Ha in HM. exact HM.
        - apply (mok_false h r _ _ (rule_simple rl)). exact HM. }
      pose proof (safe_compound h r text_of by_id c cp (fun y => In y us) Hcok ltac:(intros ->; discriminate) HR) as HS.
      destruct (compound_chain h r _ _ s HC) as (m & c0 & rest & p & E & Hf & Ec0 & M & Hp & Hch).
      assert (E0 : c0 = ChildrenAll) by (rewrite Ec0, comp_comb_map; exact Ec).
      assert (Eq : headed c (cg (cp :: g)) = mkProcess None (((m, c) :: rest) :: group_of h text_of by_id g)).
      { unfold optimize_group. cbn [map andb].
        change (map (fun e : rule * comb => let '(r', c) := e in (compile h text_of by_id r', c)) cp) with (compile_comp h text_of by_id cp). rewrite E, map_map. unfold headed. cbn. rewrite E0. reflexivity. }
      rewrite Eq. unfold find_process, find_first, select. cbn [query should_in rnth nth_error rbind tl].
      assert (Enc : mt_cache m && comb_eqb c ChildrenAll = false) by (destruct c; try discriminate; apply andb_false_r). rewrite Enc.
      rewrite (Hsel m p M (HS m c0 rest E)). cbn [rbind]. rewrite (Hch base HBe (good_filter h r s p base HG)). cbn [rbind].
      rewrite Forall_forall in HBe. apply (HRun g (filter (compb (bof cp)) base) Hokr Hw2); [| apply sibinc_filter; exact HBi | intros Ho; apply ordered_filter; exact Ho | | exact HS2].
      + apply Forall_forall. intros y Hy. apply filter_In in Hy. exact (HBe y (proj1 Hy)).
      + intros y. rewrite filter_In. unfold first_ok. split.
        * intros [H1 H2]. split; [exact H1|]. intros _. apply (bool_comp cp y Hcok (HBe y H1)). exact H2.
        * intros [H1 H2]. split; [exact H1|]. apply (bool_comp cp y Hcok (HBe y H1)). exact (H2 Ec).
    - assert (Eq : headed c (cg (cp :: g)) = mkProcess None ([make_comb_all c] :: group_of h text_of by_id (cp :: g))).
      { unfold optimize_group. cbn [map andb].
        change (map (fun e : rule * comb => let '(r', c) := e in (compile h text_of by_id r', c)) cp) with (compile_comp h text_of by_id cp). rewrite map_map.
        assert (HC : COk h r (optimize_compound (compile_comp h text_of by_id cp)) (bof cp) false).
        { apply cok_compile; [exact Hw1|]. intros rl c' Hi. apply (mok_false h r _ _ (rule_simple rl)). exact (mok_rule h r D text_of by_id IC rl (Hcok rl c' Hi)). }
        destruct (cok_comb h r _ _ false HC) as (_ & m & c0 & rest & E & Ec0). rewrite comp_comb_map in Ec0. unfold headed. cbn [should_in query].
        change (group_of h text_of by_id (cp :: g)) with (optimize_compound (compile_comp h text_of by_id cp) :: group_of h text_of by_id g).
        rewrite E. cbn [head_group]. rewrite Ec0, Eb. reflexivity. }
      rewrite Eq. unfold find_process, find_first, select, make_comb_all. cbn [query should_in rnth nth_error rbind tl fst snd mt_cache all_matcher andb].
      change (mkMatcher _ None None 0%N false) with all_matcher.
      rewrite (Hsel _ _ (all_mok h r s) (all_safe h c _)), (filter_all (fun _ => true)) by reflexivity. cbn [rbind chain_rest].
      apply (HRun (cp :: g) base Hok Hw' HBe HBi (fun H => H)); [|exact HS2].
      intros y. unfold first_ok. split; [|intros [H _]; exact H]. intros H. split; [exact H|]. intros Ec. rewrite Ec in Eb. discriminate.
  Qed.

  Lemma step_pext cp (P Q : id -> Prop) : (forall y, P y <-> Q y) -> forall y, Step h P cp y <-> Step h Q cp y.
  Proof. intros E y. unfold Step. split; intros [(e & He & HR) H]; (split; [exists e; split; [apply E; exact He | exact HR] | exact H]). Qed.
  Lemma walk_pext g : forall P Q : id -> Prop, (forall y, P y <-> Q y) -> forall y, Walk h P g y <-> Walk h Q g y.
  Proof. induction g as [|cp g IH]; intros P Q E; [exact E|]. cbn [Walk]. apply IH. exact (step_pext cp P Q E). Qed.
  Lemma steps_pext g : forall (P Q : id -> Prop) (o o' : Prop), (forall y, P y <-> Q y) -> (o <-> o') ->
    (StepsOk h text_of P o g -> StepsOk h text_of Q o' g) /\ (StepsOrd h text_of P o g -> StepsOrd h text_of Q o' g).
  Proof.
    induction g as [|cp g IH]; intros P Q o o' E Eo; [split; [trivial | apply Eo]|]. cbn [StepsOk StepsOrd].
    assert (HO : OrdAfter h (comp_comb cp) P o <-> OrdAfter h (comp_comb cp) Q o').
    { split; apply ord_after_ext; try (intros y; rewrite E; reflexivity); apply Eo. }
    destruct (IH _ _ _ _ (step_pext (comp_preds h text_of cp) P Q E) HO) as [I1 I2]. split; [|exact I2]. intros (H1 & H2 & H3 & H4).
    split; [destruct H1 as [H1 | H1]; [left; exact H1 | right; apply HO; exact H1]|]. split; [intros Ec; apply Eo; exact (H2 Ec)|].
    split; [exact (rule_safe_ext h _ _ P Q E H3) | exact (I1 H4)].
  Qed.
  Lemma head_walk (S : id -> Prop) c g y : g <> [] -> forallb comp_wf g = true ->
    (Walk h S (head_with (fun _ => True) c (preds h text_of g)) y <->
     Walk h (fun z => (exists x, S x /\ Rel h c x z) /\ match g with cp :: _ => comp_comb cp = ChildrenAll -> CompHolds (comp_preds h text_of cp) z | [] => True end)
       (preds h text_of (rest_of g)) y).
  Proof.
    intros Hne Hw. destruct g as [|cp g]; [congruence|]. cbn [forallb] in Hw. apply andb_true_iff in Hw. destruct Hw as [Hw _]. destruct cp as [|[rl c0] cp]; [discriminate|].
    assert (HG : c0 <> ChildrenAll -> Walk h S ([(fun _ => True, c)] :: preds h text_of (((rl, c0) :: cp) :: g)) y <->
      Walk h (fun z => (exists x, S x /\ Rel h c x z) /\ (c0 = ChildrenAll -> CompHolds (comp_preds h text_of ((rl, c0) :: cp)) z)) (preds h text_of (((rl, c0) :: cp) :: g)) y).
    { intros N. cbn [Walk]. apply walk_pext. intros z. unfold Step. cbn [comp_comb]. split.
      - intros [H _]. split; [exact H|]. intros E. contradiction.
      - intros [H _]. split; [exact H|]. intros P c1 [E | []]. injection E as <- <-. exact I. }
    unfold rest_of. cbn [comp_comb]. destruct c0; try (apply HG; discriminate). clear HG. cbn [comb_eqb preds map head_with Walk]. apply walk_pext. intros z. unfold Step, CompHolds. cbn [comp_comb comp_preds map]. split.
    - intros [H1 H2]. split; [exact H1|]. intros _ P c1 [E | Hi]; [injection E as <- <-; apply (H2 (Holds h text_of rl) c); left; reflexivity | apply (H2 P c1); right; exact Hi].
    - intros [H1 H2]. split; [exact H1|]. intros P c1 [E | Hi]; [injection E as <- <-; apply (H2 eq_refl (Holds h text_of rl) ChildrenAll); left; reflexivity | apply (H2 eq_refl P c1); right; exact Hi].
  Qed.
  Lemma set_walk c els g l0 : step_comb c = true -> c <> Siblings -> Forall (ElIn h r) els -> Ordered h els -> GroupOk h r text_of g -> group_wf g = true ->
    step_ast h text_of by_id c els None = Ok l0 -> SetStepOk h text_of c els (Ordered h l0) g ->
    exists l, step_ast h text_of by_id c els (Some [g]) = Ok l /\ Forall (ElIn h r) l /\ NoDup l /\
      (SetStepOrd h text_of c els (Ordered h l0) g \/ c = ParentAll -> Ordered h l) /\ forall y, In y l <-> StepFrom h text_of c els g y.
  Proof.
    intros Hc Hns HE HO Hok Hw E0 [HS1 HS2]. pose proof (ordered_sibinc h r D els HE HO) as HI.
    destruct (step_set h r D text_of by_id c els Hc HE HI) as (l0' & E0' & L1 & L2 & L3 & L4 & L5 & L6). rewrite E0 in E0'. injection E0' as <-.
    assert (HOf : forall l, Ordered h l -> Ordered h (firsts h [] l)) by (intros l Hl; apply ordered_pairs; apply firsts_pairs; apply ordered_pairs; exact Hl).
    (* the step from a set [us] that leads to [l0] as well *)
    assert (HU : forall us, us <> [] -> (forall m p, MOk h r m p true -> SafeM h c m (fun y => In y us) -> select_by_rule h us m c = Ok (filter p l0)) -> SibInc h l0 ->
      (c = Children -> us = els) ->
      exists l, select_with_comb h us (plain_text h text_of by_id (Some [g])) c = Ok l /\ Forall (ElIn h r) l /\ NoDup l /\
        (SetStepOrd h text_of c els (Ordered h l0) g -> Ordered h l) /\ forall y, In y l <-> StepFrom h text_of c els g y).
    { intros us Hne Hsel HSI Hcu.
      assert (HFO : forall y, FirstFrom h text_of c els g y <-> first_ok g l0 y) by (intros y; unfold FirstFrom, first_ok; rewrite L6; reflexivity).
      destruct (steps_pext (rest_of g) _ _ (Ordered h l0) (Ordered h l0) HFO (iff_refl _)) as [HP1 HP2].
      destruct (walk_from c g us l0 true Hc Hok Hw Hsel) as (l & El & M1 & M2 & M3 & M4).
      - split; [exact L1|]. split; [exact HSI | discriminate].
      - destruct g as [|cp g]; [exact I|]. intros Ec. destruct (HS1 Ec) as [Ha HR]. split; [intros _; exact Ha|]. destruct c; try exact I; try discriminate. rewrite (Hcu eq_refl). exact HR.
      - exact (HP1 HS2).
      - exists l. split; [|split; [exact M1|]; split; [exact M2|]; split; [intros H; exact (M3 (HP2 H))|]].
        + unfold select_with_comb, plain_text. cbn [option_map]. destruct us as [|u us]; [congruence|]. cbn [nonempty]. rewrite headed_all. cbn [map]. unfold find_selector. cbn [nonempty rfold]. rewrite El. cbn [rbind]. destruct l; reflexivity.
        + intros y. rewrite M4. unfold StepFrom. unfold group_wf in Hw. apply andb_true_iff in Hw. destruct Hw as [Hw1 Hw2]. rewrite head_walk; [|destruct g; discriminate | exact Hw2].
          apply walk_pext. intros z. symmetry. exact (HFO z). }
    destruct els as [|x0 els0] eqn:Eels.
    { assert (HN : forall y, ~ StepFrom h text_of c [] g y).
      { intros y Hy. unfold StepFrom in Hy. unfold group_wf in Hw. apply andb_true_iff in Hw. destruct Hw as [Hw1 Hw2]. rewrite head_walk in Hy; [|destruct g; discriminate | exact Hw2].
        revert Hy. generalize (preds h text_of (rest_of g)). assert (G : forall gp (P : id -> Prop), (forall z, ~ P z) -> ~ Walk h P gp y).
        { induction gp as [|cp gp IH]; intros P HP; [apply HP|]. cbn [Walk]. apply IH. intros z [(e & He & _) _]. exact (HP e He). }
        intros gp. apply G. intros z [(e & [] & _) _]. }
      exists []. split; [|split; [constructor|]; split; [constructor|]; split; [intros _; exact I|]; intros y; split; [intros [] | intros Hy; exact (HN y Hy)]].
      destruct c; try discriminate; try congruence; reflexivity. }
    assert (Hne : els <> []) by (rewrite Eels; discriminate). rewrite <- Eels in *. clear Eels x0 els0.
    assert (Hnf : firsts h [] els <> []).
    { destruct els as [|x els]; [congruence|]. destruct (firsts_cover h (x :: els) x (or_introl eq_refl)) as (z & Hz & _). intros E. rewrite E in Hz. exact Hz. }
    assert (Hnl : rev (firsts h [] (rev els)) <> []).
    { destruct els as [|x els]; [congruence|]. destruct (firsts_cover h (rev (x :: els)) x ltac:(apply in_rev; rewrite rev_involutive; left; reflexivity)) as (z & Hz & _).
      intros E. apply in_rev in Hz. rewrite E in Hz. exact Hz. }
    destruct (plain_step c) eqn:Ep.
    - assert (El0 := L4 eq_refl).
      assert (HSB : SibInc h l0).
      { destruct (comb_eqb c Parent) eqn:Ec; [|apply L3; intros ->; discriminate]. destruct c; try discriminate. rewrite El0. exact (parent_inc h r D els HE HO). }
      assert (Hfin : forall us, us <> [] -> Forall (ElIn h r) us -> SibInc h us -> set_base h c us = l0 -> (c = Children -> us = els) ->
        step_ast h text_of by_id c els (Some [g]) = select_with_comb h us (plain_text h text_of by_id (Some [g])) c ->
        exists l, step_ast h text_of by_id c els (Some [g]) = Ok l /\ Forall (ElIn h r) l /\ NoDup l /\
          (SetStepOrd h text_of c els (Ordered h l0) g \/ c = ParentAll -> Ordered h l) /\ forall y, In y l <-> StepFrom h text_of c els g y).
      { intros us N HEu HIu Eb Hcu Es. destruct (HU us N) as (l & El & M1 & M2 & M3 & M4); [|exact HSB | exact Hcu|].
        - intros m p M HSM. rewrite <- Eb in HSB |- *. exact (select_set h r D c m p us Ep HEu HIu HSB M HSM).
        - exists l. rewrite Es. split; [exact El|]. split; [exact M1|]. split; [exact M2|]. split; [|exact M4]. intros [H | ->]; [exact (M3 H) | discriminate]. }
      destruct c; try discriminate.
      + apply (Hfin els); auto.
      + apply (Hfin (firsts h [] els)); auto; [exact (firsts_els h r els HE) | exact (firsts_pairs h els [] HI) | rewrite base_firsts by auto; symmetry; exact El0 | discriminate|].
        cbn [step_ast]. unfold Engine.el_parent. rewrite (us_first h r D els (els_in h r els HE)). reflexivity.
      + apply (Hfin (firsts h [] els)); auto; [exact (firsts_els h r els HE) | exact (firsts_pairs h els [] HI) | rewrite base_firsts by auto; symmetry; exact El0 | discriminate|].
        cbn [step_ast]. unfold Engine.el_next_all. rewrite (us_first h r D els (els_in h r els HE)). reflexivity.
      + apply (Hfin els); auto.
      + apply (Hfin (rev (firsts h [] (rev els)))); auto; [exact (lasts_els h r els HE) | | rewrite base_lasts; symmetry; exact El0 | discriminate|].
        * apply StepProofs.pairs_rev. apply firsts_pairs. apply StepProofs.pairs_rev. exact HI.
        * cbn [step_ast]. unfold Engine.el_prev_all. rewrite (us_last h r D els (els_in h r els HE)). reflexivity.
      + apply (Hfin els); auto.
    - destruct c; try discriminate; try congruence. specialize (L5 eq_refl). destruct (anc_facts h r D _ (firsts_els h r els HE)) as [A1 A2].
      destruct (sort_and_unique_ok h wf r (anc_set h (firsts h [] els)) (els_in h r _ A1)) as (base & El & HD & HM).
      assert (Eb : base = l0).
      { apply (ordered_unique h wf r); [exact (proj1 HD) | exact (proj2 HD) | exact L5|]. intros y. rewrite (HM y), (A2 y), (L6 y). exact (anc_firsts h r D els y HE). }
      destruct (HU (firsts h [] els) Hnf) as (l & Es & M1 & M2 & M3 & M4); [|exact (ordered_sibinc h r D l0 L1 L5) | discriminate|].
      { intros m p M _. rewrite <- Eb. exact (select_anc h r D m p _ base (firsts_els h r els HE) El M). }
      assert (HA : AllIn h r l) by (revert M1; apply Forall_impl; intros y Hy; apply Hy).
      destruct (sort_and_unique_ok h wf r l HA) as (l' & E' & HD' & HM'). exists l'. split.
      { cbn [step_ast]. unfold el_parents. rewrite (us_first h r D els (els_in h r els HE)). cbn [rbind]. rewrite Es. cbn [rbind]. exact E'. }
      split; [apply Forall_forall; intros y Hy; apply HM' in Hy; rewrite Forall_forall in M1; exact (M1 y Hy)|].
      split; [exact (docset_nodup h r D l' HD')|]. split; [intros _; exact (proj2 HD')|]. intros y. rewrite (HM' y). apply M4.
  Qed.

  (** [siblings] is the one step that compiles its text with the look-up, and the look-up cannot be run from a step to the siblings. *)
  Lemma lookup_none lk m rs o : forall els c, has_lookup h els c (lk ++ [(m, Siblings) :: rs]) = Ok o -> o = None.
  Proof.
    induction lk as [|cp lk IH]; intros els c; cbn [app has_lookup].
    - destruct (select h els _ (Some c)) as [l| |]; cbn [rbind]; try discriminate. destruct (nonempty l); cbn; [discriminate | congruence].
    - destruct (select h els cp (Some c)) as [l| |]; cbn [rbind]; try discriminate. destruct (nonempty l); cbn [rbind]; [|congruence].
      match goal with |- context [@rnth ?A ?l 0] => destruct (@rnth A l 0) as [first| |] end; cbn [rbind]; try discriminate. destruct (comb_reverse (snd first)) as [c'| |]; cbn [rbind]; try discriminate. apply IH.
  Qed.
  Lemma rfilter_false (f : id -> res bool) : (forall y b, f y = Ok b -> b = false) -> forall l l', rfilter f l = Ok l' -> l' = [].
  Proof.
    intros Hf. induction l as [|y l IH]; intros l' E; cbn in E; [injection E as <-; reflexivity|].
    destruct (f y) as [b| |] eqn:Ef; cbn in E; try discriminate. apply Hf in Ef. subst b. destruct (rfilter f l) as [l2| |]; cbn in E; try discriminate. injection E as <-. exact (IH l2 eq_refl).
  Qed.
  Lemma siblings_lookup x g l : ElIn h r x -> group_wf g = true -> looks_up g = true -> step_ast h text_of by_id Siblings [x] (Some [g]) = Ok l -> l = [].
  Proof.
    intros Hx Hw Hl. unfold group_wf in Hw. apply andb_true_iff in Hw. destruct Hw as [_ Hw]. cbn [step_ast]. unfold looked_text. cbn [option_map].
    unfold compile_selector, compile_groups, optimize. cbn [map]. rewrite (group_lookup h text_of by_id g Hw), Hl. unfold el_siblings. rewrite (ua_one h r D x Hx). cbn [rbind rflat].
    assert (Hp : exists m rs lk, head_group Siblings (group_of h text_of by_id (firstn (pivot g) g)) = ((m, Siblings) :: rs) :: lk).
    { unfold looks_up in Hl. apply andb_true_iff in Hl. destruct Hl as [Hp _]. apply Nat.ltb_lt in Hp. destruct g as [|cp g]; [cbn in Hp; lia|]. destruct (pivot (cp :: g)) as [|n]; [lia|].
      cbn [forallb] in Hw. apply andb_true_iff in Hw. destruct Hw as [Hw _]. cbn [firstn group_of map]. rewrite <- (comp_wf_map h text_of by_id) in Hw.
      destruct (optimize_compound_wf _ Hw) as (H1 & H2 & _). destruct (optimize_compound (compile_comp h text_of by_id cp)) as [|[m c0] rs]; [discriminate|].
      cbn [head_group]. destruct (comb_eqb c0 ChildrenAll); eexists _, _, _; reflexivity. }
    destruct Hp as (m & rs & lk & Ep). unfold head_combinator. cbn [map should_in query]. rewrite Ep. unfold find_selector. cbn [nonempty rfold].
    unfold find_process, find_first. cbn [query should_in].
    match goal with |- context [@rnth ?A ?l 0] => destruct (@rnth A l 0) as [fq| |] end; cbn [rbind]; try discriminate.
    destruct (select h [x] fq (Some ChildrenAll)) as [fd| |]; cbn [rbind]; try discriminate.
    assert (HE : forall grp, (if nonempty fd then do first <- rnth fq 0; rfilter (fun y => has_ele h [x] y (snd first) (((m, Siblings) :: rs) :: lk)) fd else Ok []) = Ok grp -> grp = []).
    { intros grp. destruct (nonempty fd); [|congruence]. match goal with |- context [@rnth ?A ?l 0] => destruct (@rnth A l 0) as [first| |] end; cbn [rbind]; try discriminate. apply rfilter_false. intros y b. unfold has_ele.
      destruct (comb_reverse (snd first)) as [rc| |]; cbn [rbind]; try discriminate. cbn [rev]. destruct (has_lookup h [y] rc _) as [o| |] eqn:Eh; cbn [rbind]; try discriminate.
      apply lookup_none in Eh. subst o. congruence. }
    destruct (if nonempty fd then _ else _) as [grp| |]; cbn [rbind]; try discriminate. rewrite (HE grp eq_refl). cbn. congruence.
  Qed.
End StepWalk.
