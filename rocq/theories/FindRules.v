(** [find] on parsed selectors. *)
From Verif Require Import Base Utils UtilsSpec Nth NthSpec NthProofs Attr AttrSpec Dom DomSpec Order DomProofs OrderSpec OrderProofs
  Sets SetsProofs AddProofs NavProofs Engine Rules SelSpec FindSpec OneProofs PreProofs SelBool SibLists SibProofs StepProofs BackProofs FilterProofs
  RuleProofs FindProofs.
From Coq Require Import Sorting.Permutation.

Lemma any_order_simple rl : any_order rl = rule_simple rl.
Proof. reflexivity. Qed.

Section FindRules.
  Variable h : heap.
  Variable r : id.
  Hypothesis D : DocOk h r.
  Let wf : WF h := do_wf h r D.
  Variable text_of : id -> str.
  Variable by_id : id -> str -> option id.
  Hypothesis IC : IdCache h r by_id.
  Notation comp := (compile h text_of by_id).
  Notation gof := (group_of h text_of by_id).
  Notation pb := (predb h text_of).

  (** * The rule that is run first *)
  Lemma head_fine_safe c rl P : head_fine c rl = true -> RuleSafe h c rl P.
  Proof.
    destruct c; try (intros _; exact I); cbn.
    - intros H E. rewrite E in H. discriminate.
    - rewrite !andb_true_iff, !negb_true_iff. intros [[H1 H2] H3]. split; [exact H1|]. split; intros E; congruence.
  Qed.
  Lemma kids_children x : kids h x = [] -> children h x = [].
  Proof. unfold children. intros ->. reflexivity. Qed.
  Lemma spec_child_leaf asc index x : kids h x = [] -> asc = true \/ (index <= 0)%Z -> nth_child_spec h asc index x = Ok [].
  Proof.
    intros Hk Ha. unfold nth_child_spec. destruct (Z.ltb_spec 0 index); [|reflexivity]. destruct Ha as [-> | Ha]; [|lia].
    rewrite since_first, (kids_children x Hk). reflexivity.
  Qed.
  Lemma spec_type_leaf asc index x : kids h x = [] -> asc = true \/ (index <= 0)%Z -> nth_of_type_spec h asc index x = Ok [].
  Proof.
    intros Hk Ha. unfold nth_of_type_spec. destruct (Z.ltb_spec 0 index); [|reflexivity]. destruct Ha as [-> | Ha]; [|lia].
    rewrite since_first, (kids_children x Hk). reflexivity.
  Qed.
  Lemma spec_leaf rl g x : mt_one (comp rl) = None -> mt_spec (comp rl) = Some g -> last_number rl = false -> kids h x = [] -> g x = Ok [].
  Proof.
    intros E1 E2 Hl Hk. destruct rl as [| | | | | | |asc| |asc [[a|] b]|asc|asc [[a|] b]| | | | | |]; cbn in *; try discriminate; injection E2 as <-.
    - apply spec_child_leaf; [exact Hk|]. destruct asc; [left; reflexivity | discriminate].
    - apply spec_child_leaf; [exact Hk|]. destruct asc; [left; reflexivity|]. right. apply Z.ltb_ge in Hl. exact Hl.
    - apply spec_type_leaf; [exact Hk|]. destruct asc; [left; reflexivity | discriminate].
    - apply spec_type_leaf; [exact Hk|]. destruct asc; [left; reflexivity|]. right. apply Z.ltb_ge in Hl. exact Hl.
  Qed.
  Lemma nil_kids rl g : RuleOk h r text_of rl -> mt_one (comp rl) = None -> mt_spec (comp rl) = None -> is_id rl = false -> nth_at0 rl = true ->
    mt_all (comp rl) = Some g -> g [] (Some false) = Ok [].
  Proof.
    intros Hok E1 E2 Hi H0 Eg.
    destruct rl as [| | | | | | |asc| |asc [[a|] b]|asc|asc [[a|] b]| |n| |n| |gs]; cbn [nth_at0 fst] in H0; cbn in Hok, E1, E2, Hi, Eg; try discriminate; injection Eg as <-; try reflexivity.
    - unfold nth_child_all. cbn [length]. destruct (get_allowed_indexs (Some a, b) 0) as [[|]| |]; try discriminate. destruct asc; reflexivity.
    - unfold nth_of_type_all. cbn [length]. destruct (get_allowed_indexs (Some a, b) 0) as [[|]| |]; try discriminate. reflexivity.
  Qed.
  Lemma safe_rule c rl P : RuleOk h r text_of rl -> RuleSafe h c rl P -> SafeM h c (comp rl) P.
  Proof.
    intros Hok HS E1. destruct c; try exact I; cbn in HS.
    - intros g Eg x Hx Ht Hk. destruct (last_number rl) eqn:El; [destruct (HS eq_refl x Hx Ht Hk)|]. exact (spec_leaf rl g x E1 Eg El Hk).
    - destruct HS as (Hi & Hl & H0). split; [destruct rl; try reflexivity; discriminate|]. destruct (mt_spec (comp rl)) as [g|] eqn:Es.
      + intros x Hx Hk. destruct (last_number rl) eqn:El; [destruct (Hl eq_refl x Hx Hk)|]. exact (spec_leaf rl g x E1 Es El Hk).
      + intros g Eg x Hx Hc. destruct (nth_at0 rl) eqn:En; [|destruct (H0 eq_refl x Hx Hc)]. exact (nil_kids rl g Hok E1 Es Hi En Eg).
  Qed.

  Lemma head_sorted cp : cp <> [] -> exists c rest, sort_prio (compile_comp h text_of by_id cp) = (comp (head_rule cp), c) :: rest.
  Proof.
    induction cp as [|[rl c] cp IH]; [congruence|]. intros _. destruct cp as [|e cp]; [exists c, []; reflexivity|].
    destruct (IH ltac:(discriminate)) as (c' & rest & E). remember (e :: cp) as cp' eqn:Ec.
    assert (Eh : head_rule ((rl, c) :: cp') = if (prio_of (head_rule cp') <=? prio_of rl)%N then rl else head_rule cp') by (subst cp'; reflexivity).
    rewrite Eh. change (sort_prio (compile_comp h text_of by_id ((rl, c) :: cp'))) with (insert_prio (comp rl, c) (sort_prio (compile_comp h text_of by_id cp'))).
    rewrite E. cbn [insert_prio fst]. rewrite !prio_compile. destruct (prio_of (head_rule cp') <=? prio_of rl)%N; eexists; eexists; reflexivity.
  Qed.
  Lemma head_compiled cp m c rest : optimize_compound (compile_comp h text_of by_id cp) = (m, c) :: rest -> m = comp (head_rule cp).
  Proof.
    destruct cp as [|e [|e' cp]]; cbn [compile_comp map].
    - discriminate.
    - destruct e as [rl c']. cbn. congruence.
    - destruct (head_sorted (e :: e' :: cp)) as (c' & rest' & E); [discriminate|]. unfold compile_comp in E. cbn [map] in E.
      intros H. unfold optimize_compound in H. destruct e as [rl c0]. rewrite E in H. destruct (comb_eqb c' c0); congruence.
  Qed.
  Lemma safe_compound c cp P : CompOk h r text_of cp -> cp <> [] -> RuleSafe h c (head_rule cp) P -> SafeC h c (optimize_compound (compile_comp h text_of by_id cp)) P.
  Proof.
    intros Hok Hne HS m c0 rest E. rewrite (head_compiled cp m c0 rest E). apply safe_rule; [|exact HS].
    assert (Hi : exists c', In (head_rule cp, c') cp).
    { clear -Hne. induction cp as [|[rl c] cp IH]; [congruence|]. destruct cp as [|e cp]; [exists c; left; reflexivity|].
      destruct (IH ltac:(discriminate)) as (c' & Hi). remember (e :: cp) as cp' eqn:Ec.
      assert (Eh : head_rule ((rl, c) :: cp') = if (prio_of (head_rule cp') <=? prio_of rl)%N then rl else head_rule cp') by (subst cp'; reflexivity).
      rewrite Eh. destruct (prio_of (head_rule cp') <=? prio_of rl)%N; [exists c; left; reflexivity | exists c'; right; exact Hi]. }
    destruct Hi as (c' & Hi). exact (Hok _ _ Hi).
  Qed.

  (** * Shapes *)
  Definition Level (P : id -> Prop) : Prop := forall u v, P u -> P v -> length (key h u) = length (key h v).
  Lemma anc_deeper u v : Anc h u v -> length (key h u) < length (key h v).
  Proof.
    intros Ha. apply anc_path in Ha. destruct Ha as (l & Hl & HP). rewrite (key_path h wf u l v HP), app_length. destruct l; [congruence | cbn; lia].
  Qed.
  Lemma follow_depth u z : Following h u z -> length (key h u) = length (key h z).
  Proof. intros (p & i & j & H1 & H2 & _). rewrite (key_listed h wf _ _ _ H1), (key_listed h wf _ _ _ H2), !app_length. reflexivity. Qed.
  Lemma level_nest P : Level P -> NestFree h P.
  Proof. intros HL u v Hu Hv Ha. apply anc_deeper in Ha. pose proof (HL u v Hu Hv). lia. Qed.
  Lemma level_follow P : Level P -> NoFollow h P.
  Proof. intros HL u v z Hu Hv HF Ha. apply anc_deeper in Ha. apply follow_depth in HF. pose proof (HL u v Hu Hv). lia. Qed.
  Lemma level_step P b : Level P -> fwd (comp_comb b) = true -> comp_comb b <> ChildrenAll -> Level (StepB h P b).
  Proof.
    intros HL Hf Hn. assert (HD : exists d, forall e x, Rel h (comp_comb b) e x -> length (key h x) = length (key h e) + d).
    { destruct (comp_comb b); try discriminate; [congruence | exists 1 | exists 0 | exists 0]; intros e x HR; cbn in HR.
      - destruct HR as [(i & Hl) _]. rewrite (key_listed h wf _ _ _ Hl), app_length. reflexivity.
      - rewrite (follow_depth e x HR). lia.
      - rewrite (follow_depth e x (next_following h e x HR)). lia. }
    destruct HD as (d & HD). intros u v (_ & e & He & HR) (_ & e' & He' & HR'). rewrite (HD e u HR), (HD e' v HR'), (HL e e' He He'). reflexivity.
  Qed.

  Definition HasShape (s : shape) (P : id -> Prop) (ord : Prop) : Prop :=
    match s with SLevel => Level P /\ ord | SOrdered => ord | SAny => True end.
  Lemma shape_runs g : forall s s1 P ord, GroupOk h r text_of g -> forallb comp_wf g = true -> steps_shape s g = Some s1 -> HasShape s P ord ->
    Runs h r P ord (gof g) (pb g) /\ HasShape s1 (WalkB h P (pb g)) (OrdEnd h P ord (pb g)).
  Proof.
    induction g as [|cp g IH]; intros s s1 P ord Hok Hw HSs HP.
    - cbn in HSs. injection HSs as <-. split; [exact I | exact HP].
    - cbn in Hw. apply andb_true_iff in Hw. destruct Hw as [Hw1 Hw2]. cbn [steps_shape] in HSs.
      destruct (step_shape s cp) as [s'|] eqn:Es; [|discriminate]. unfold step_shape in Es.
      destruct (head_fine (comp_comb cp) (head_rule cp)) eqn:Eh; [|discriminate].
      set (b := map (fun e : rule * comb => let '(r', c) := e in (holdsb h text_of r', c)) cp).
      assert (Ec : comp_comb b = comp_comb cp) by (unfold b; apply comp_comb_map).
      assert (Hcok : CompOk h r text_of cp) by exact (Hok cp (or_introl eq_refl)).
      assert (Hne : cp <> []) by (intros ->; discriminate).
      assert (Hf : fwd (comp_comb b) = true).
      { rewrite Ec. destruct cp as [|[rl c] cp]; [congruence|]. cbn in Hw1. apply andb_true_iff in Hw1. apply Hw1. }
      assert (HCf : COk h r (optimize_compound (compile_comp h text_of by_id cp)) b false).
      { apply cok_compile; [exact Hw1|]. intros rl c Hi. apply (mok_false h r _ _ (rule_simple rl)). exact (mok_rule h r D text_of by_id IC rl (Hcok rl c Hi)). }
      assert (HCt : comp_any_order cp = true -> COk h r (optimize_compound (compile_comp h text_of by_id cp)) b true).
      { intros Ha. apply cok_compile; [exact Hw1|]. intros rl c Hi. pose proof (mok_rule h r D text_of by_id IC rl (Hcok rl c Hi)) as HM.
        unfold comp_any_order in Ha. rewrite forallb_forall in Ha. specialize (Ha (rl, c) Hi). cbn in Ha. rewrite any_order_simple in Ha. rewrite Ha in HM. exact HM. }
      assert (HOs : HasShape s' (StepB h P b) (OrdAfter h (comp_comb b) P ord) /\ (comp_comb b = ChildrenAll -> ord) /\
        exists s0, COk h r (optimize_compound (compile_comp h text_of by_id cp)) b s0 /\ (s0 = false -> OrdAfter h (comp_comb b) P ord)).
      { assert (HLv : Level P -> ord -> comp_comb b <> ChildrenAll -> HasShape SLevel (StepB h P b) (OrdAfter h (comp_comb b) P ord)).
        { intros HL Ho Hn. split; [exact (level_step P b HL Hf Hn)|]. pose proof (level_nest P HL). pose proof (level_follow P HL).
          destruct (comp_comb b); try discriminate; cbn; tauto. }
        rewrite Ec in *. destruct (comp_comb cp) eqn:Ecc; try discriminate Hf.
        - destruct s; try discriminate; injection Es as <-; (split; [exact I|]); (split; [intros _; apply HP|]); exists false; (split; [exact HCf | intros _; exact I]).
        - destruct s.
          + injection Es as <-. destruct HP as [HL Ho]. specialize (HLv HL Ho ltac:(discriminate)). split; [exact HLv|]. split; [discriminate|].
            exists false. split; [exact HCf | intros _; apply HLv].
          + destruct (comp_any_order cp) eqn:Ea; [|discriminate]. injection Es as <-. split; [exact I|]. split; [discriminate|]. exists true. split; [exact (HCt eq_refl) | discriminate].
          + destruct (comp_any_order cp) eqn:Ea; [|discriminate]. injection Es as <-. split; [exact I|]. split; [discriminate|]. exists true. split; [exact (HCt eq_refl) | discriminate].
        - destruct s.
          + injection Es as <-. destruct HP as [HL Ho]. specialize (HLv HL Ho ltac:(discriminate)). split; [exact HLv|]. split; [discriminate|].
            exists false. split; [exact HCf | intros _; apply HLv].
          + destruct (comp_any_order cp) eqn:Ea; [|discriminate]. injection Es as <-. split; [exact I|]. split; [discriminate|]. exists true. split; [exact (HCt eq_refl) | discriminate].
          + destruct (comp_any_order cp) eqn:Ea; [|discriminate]. injection Es as <-. split; [exact I|]. split; [discriminate|]. exists true. split; [exact (HCt eq_refl) | discriminate].
        - destruct s.
          + injection Es as <-. destruct HP as [HL Ho]. specialize (HLv HL Ho ltac:(discriminate)). split; [exact HLv|]. split; [discriminate|].
            exists false. split; [exact HCf | intros _; apply HLv].
          + destruct (comp_any_order cp) eqn:Ea; [|discriminate]. injection Es as <-. split; [exact I|]. split; [discriminate|]. exists true. split; [exact (HCt eq_refl) | discriminate].
          + destruct (comp_any_order cp) eqn:Ea; [|discriminate]. injection Es as <-. split; [exact I|]. split; [discriminate|]. exists true. split; [exact (HCt eq_refl) | discriminate]. }
      destruct HOs as (HS' & HA & HC).
      destruct (IH s' s1 (StepB h P b) (OrdAfter h (comp_comb b) P ord)) as [HR HE];
        [intros cp' Hcp'; apply Hok; right; exact Hcp' | exact Hw2 | exact HSs | exact HS'|].
      split; [|exact HE]. cbn [group_of map Runs predb]. fold b. split; [exact HC|]. split; [exact HA|]. split; [|exact HR].
      rewrite Ec. apply safe_compound; [exact Hcok | exact Hne|]. apply head_fine_safe. exact Eh.
  Qed.

  (** * The look-up *)
  Lemma total_compile cp : comp_wf cp = true -> total_prio (optimize_compound (compile_comp h text_of by_id cp)) = comp_prio cp.
  Proof.
    intros Hw. rewrite <- (comp_wf_map h text_of by_id) in Hw. destruct (optimize_compound_wf _ Hw) as (_ & _ & H3).
    assert (HT : forall l : compound, total_prio l = fold_right (fun m acc => (mt_prio m + acc)%N) 0%N (map fst l)).
    { induction l as [|s l IH]; [reflexivity|]. unfold total_prio in *. cbn [fold_right map]. rewrite IH. reflexivity. }
    assert (HP : forall l l' : list matcher, Permutation l l' ->
      fold_right (fun m acc => (mt_prio m + acc)%N) 0%N l = fold_right (fun m acc => (mt_prio m + acc)%N) 0%N l').
    { induction 1; cbn; lia. }
    rewrite HT, (HP _ _ H3). clear. induction cp as [|[rl c] cp IH]; [reflexivity|]. cbn [compile_comp map fst fold_right comp_prio]. rewrite prio_compile. f_equal. exact IH.
  Qed.
  Lemma pivot_compile g : forallb comp_wf g = true -> forall i best, max_index_from (gof g) i best = pivot_from g i best.
  Proof.
    induction g as [|cp g IH]; intros Hw i best; [reflexivity|]. cbn in Hw. apply andb_true_iff in Hw. cbn [group_of map max_index_from pivot_from].
    rewrite (total_compile cp (proj1 Hw)). apply IH. apply Hw.
  Qed.
  Lemma group_lookup g : forallb comp_wf g = true ->
    optimize_group true (map (map (fun e : rule * comb => let '(r', c) := e in (comp r', c))) g) =
    if looks_up g then mkProcess (Some (gof (firstn (pivot g) g))) (gof (skipn (pivot g) g)) else mkProcess None (gof g).
  Proof.
    intros Hw. unfold optimize_group. rewrite map_map. change (map (fun x => optimize_compound (map (fun e : rule * comb => let '(r', c) := e in (comp r', c)) x)) g) with (gof g).
    rewrite (pivot_compile g Hw). change (fst (pivot_from g 0 (0, 0%N))) with (pivot g). unfold looks_up. cbn [andb].
    assert (E : match gof g with ((_, Children) :: _) :: _ | ((_, ChildrenAll) :: _) :: _ => true | _ => false end = match g with cp :: _ => childish (comp_comb cp) | [] => false end).
    { destruct g as [|cp g]; [reflexivity|]. cbn in Hw. apply andb_true_iff in Hw. destruct Hw as [Hw _]. rewrite <- (comp_wf_map h text_of by_id) in Hw.
      destruct (optimize_compound_wf _ Hw) as (H1 & H2 & _). cbn [group_of map].
      replace (comp_comb cp) with (comp_comb (compile_comp h text_of by_id cp)) by (unfold compile_comp; apply comp_comb_map). rewrite <- H2.
      destruct (optimize_compound (compile_comp h text_of by_id cp)) as [|[m c] rest]; [reflexivity|]. destruct c; reflexivity. }
    rewrite E. unfold group_of. rewrite <- firstn_map, <- skipn_map. reflexivity.
  Qed.

  Lemma ordered_inc els : Starts h r els -> FwdSet h r els.
  Proof.
    intros [HS HO]. assert (HA : AllIn h r els) by (revert HS; apply Forall_impl; intros x Hx; apply Hx).
    split; [exact HS|]. split; [exact (ordered_nodup h wf r els HA HO)|]. clear HS.
    induction els as [|x l IH]; [constructor|]. inversion HA as [|x0 l0 Hx Hl]; subst. destruct HO as [Hb Ho].
    constructor; [|exact (IH Ho Hl)]. rewrite Forall_forall in *. intros y Hy p Ex Ey. specialize (Hb y Hy).
    destruct (intree_parent h wf r x p Hx Ex) as [_ Lx]. destruct (intree_parent h wf r y p (Hl y Hy) Ey) as [_ Ly].
    destruct (Nat.lt_trichotomy (index h x) (index h y)) as [H | [H | H]]; [exact H | |]; exfalso.
    - rewrite H in Lx. rewrite (listed_fun h _ _ _ _ Lx Ly) in Hb. exact (before_irrefl h wf r y (Hl y Hy) Hb).
    - exact (before_asym h wf r x y Hx (Hl y Hy) Hb (listed_before h p _ _ y x Ly Lx H)).
  Qed.
  Lemma shaped_level s els : Starts h r els -> Shaped h r s els -> HasShape s (fun x => In x els) (Ordered h els).
  Proof.
    intros [HS HO] H. destruct s; [|exact HO | exact I]. destruct H as [(n & H) _]. split; [|exact HO].
    assert (HK : forall x, In x els -> length (key h x) = S n).
    { intros x Hx. destruct (H x Hx) as (l & HP & <-). rewrite Forall_forall in HS. destruct (HS x Hx) as [[Hr _] _].
      rewrite (key_path h wf r l x HP), (key_top h wf r Hr). reflexivity. }
    intros u v Hu Hv. rewrite (HK u Hu), (HK v Hv). reflexivity.
  Qed.
  Lemma level_shaped s (P : id -> Prop) (ord : Prop) l : HasShape s P ord -> AllIn h r l -> (ord -> Ordered h l) -> (forall x, In x l <-> P x) -> Shaped h r s l.
  Proof.
    intros H HA HO HP. destruct s; [|exact (HO H) | exact I]. destruct H as [HL Ho]. split; [|exact (HO Ho)].
    destruct l as [|x0 l]; [exists 0; intros x []|]. exists (pred (length (key h x0))). intros x Hx. rewrite Forall_forall in HA.
    destruct (key_tree h wf r x (HA x Hx)) as (p & Hp & Ek). exists p. split; [exact Hp|].
    rewrite (HL x0 x); [rewrite Ek; reflexivity | apply HP; left; reflexivity | apply HP; exact Hx].
  Qed.

  Lemma walk_bool g : GroupOk h r text_of g -> forallb comp_wf g = true -> forall P Q : id -> Prop, (forall x, P x -> InTree h r x) -> (forall x, P x <-> Q x) ->
    forall x, WalkB h P (pb g) x <-> Walk h Q (preds h text_of g) x.
  Proof.
    induction g as [|cp g IH]; intros Hok Hw P Q HP HE; [exact HE|]. cbn in Hw. apply andb_true_iff in Hw. destruct Hw as [Hw1 Hw2].
    cbn [predb preds map WalkB Walk]. apply IH; [intros cp' Hcp'; apply Hok; right; exact Hcp' | exact Hw2 | |].
    - intros x (_ & e & He & HR). apply (rel_el h r D (comp_comb cp) e x); [exact (HP e He) | | rewrite comp_comb_map in HR; exact HR].
      destruct cp as [|[rl c] cp]; [discriminate|]. cbn in Hw1. apply andb_true_iff in Hw1. apply Hw1.
    - intros x. unfold StepB, Step. rewrite !comp_comb_map.
      assert (Hf : fwd (comp_comb cp) = true).
      { destruct cp as [|[rl c] cp]; [discriminate|]. cbn in Hw1. apply andb_true_iff in Hw1. apply Hw1. }
      split.
      + intros (Hc & e & He & HR). split; [exists e; split; [apply HE; exact He | exact HR]|].
        apply (compb_spec h r text_of cp x); [exact (rel_el h r D _ e x (HP e He) Hf HR) | | exact Hc].
        intros rl c Hi. exact (holdsb_spec h r text_of D rl (Hok cp (or_introl eq_refl) rl c Hi)).
      + intros ((e & He & HR) & Hc). apply HE in He. split; [|exists e; split; assumption].
        apply (compb_spec h r text_of cp x); [exact (rel_el h r D _ e x (HP e He) Hf HR) | | exact Hc].
        intros rl c Hi. exact (holdsb_spec h r text_of D rl (Hok cp (or_introl eq_refl) rl c Hi)).
  Qed.

  (** * A group of the selector *)
  Lemma walkb_firstn_in els g : Starts h r els -> forallb comp_wf g = true -> forall x, WalkB h (fun s => In s els) (pb g) x -> InTree h r x.
  Proof.
    intros [HS _] Hw. apply (walkb_in h r D).
    - unfold all_fwd, predb. apply Forall_forall. intros b Hb. apply in_map_iff in Hb. destruct Hb as (cp & <- & Hcp). rewrite comp_comb_map.
      rewrite forallb_forall in Hw. specialize (Hw cp Hcp). destruct cp as [|[rl c] cp]; [discriminate|]. cbn in Hw. apply andb_true_iff in Hw. apply Hw.
    - intros x Hx. rewrite Forall_forall in HS. apply (HS x Hx).
  Qed.
  Lemma group_done els g s0 s1 : Starts h r els -> Shaped h r s0 els -> GroupOk h r text_of g -> group_wf g = true -> find_shape s0 g = Some s1 ->
    exists ord : Prop, ProcDone h r els (optimize_group true (map (map (fun e : rule * comb => let '(r', c) := e in (comp r', c))) g)) (pb g) ord /\ HasShape s1 (WalkB h (fun s => In s els) (pb g)) ord.
  Proof.
    intros HS Hsh Hok Hw HF. pose proof (ordered_inc els HS) as HFS. pose proof (shaped_level s0 els HS Hsh) as HL.
    unfold group_wf in Hw. apply andb_true_iff in Hw. destruct Hw as [Hne Hw]. rewrite (group_lookup g Hw). unfold find_shape in HF.
    destruct (looks_up g) eqn:El.
    - assert (HF' : match skipn (pivot g) g with cp :: rest => if head_fine ChildrenAll (head_rule cp) then steps_shape SOrdered rest else None | [] => None end = Some s1)
        by (destruct s0; [exact HF | exact HF | discriminate]). clear HF.
      unfold looks_up in El. apply andb_true_iff in El. destruct El as [Ep Ec]. apply Nat.ltb_lt in Ep. pose proof (firstn_skipn (pivot g) g) as Eg.
      destruct (skipn (pivot g) g) as [|cp rest] eqn:Es; [discriminate|]. set (pre := firstn (pivot g) g) in *.
      destruct (head_fine ChildrenAll (head_rule cp)) eqn:Eh; [|discriminate].
      assert (Hw' : forallb comp_wf pre = true /\ comp_wf cp = true /\ forallb comp_wf rest = true).
      { rewrite <- Eg, forallb_app in Hw. cbn in Hw. rewrite !andb_true_iff in Hw. tauto. } destruct Hw' as (Hw1 & Hw2 & Hw3).
      assert (Hokp : GroupOk h r text_of pre) by (intros c Hc; apply Hok; rewrite <- Eg; apply in_or_app; left; exact Hc).
      assert (Hokc : GroupOk h r text_of [cp]) by (intros c [<- | []]; apply Hok; rewrite <- Eg; apply in_or_app; right; left; reflexivity).
      assert (Hokr : GroupOk h r text_of rest) by (intros c Hc; apply Hok; rewrite <- Eg; apply in_or_app; right; right; exact Hc).
      assert (Hpne : pb pre <> []).
      { subst pre. destruct (pivot g); [lia|]. destruct g; [discriminate|]. discriminate. }
      set (b := map (fun e : rule * comb => let '(r', c) := e in (holdsb h text_of r', c)) cp).
      assert (Epb : pb g = pb pre ++ b :: pb rest) by (rewrite <- Eg; unfold predb; rewrite map_app; reflexivity).
      assert (Epb' : pb pre ++ [b] = pb (pre ++ [cp])) by (unfold predb; rewrite map_app; reflexivity).
      destruct (shape_runs rest SOrdered s1 (WalkB h (fun s => In s els) (pb pre ++ [b])) True Hokr Hw3 HF' I) as [HR HE].
      exists (OrdEnd h (WalkB h (fun s => In s els) (pb pre ++ [b])) True (pb rest)).
      assert (HC1 := coks_ok h r D text_of by_id IC [cp] false Hokc ltac:(cbn; rewrite Hw2; reflexivity) ltac:(discriminate)).
      assert (HC2 : COk h r (optimize_compound (compile_comp h text_of by_id cp)) b false) by (inversion HC1; assumption). split.
      + rewrite Epb. change (gof (cp :: rest)) with (optimize_compound (compile_comp h text_of by_id cp) :: gof rest).
        apply (process_lookup h r D els (gof pre) (pb pre) _ b (gof rest) (pb rest) false HFS (proj2 HS)).
        * exact (coks_ok h r D text_of by_id IC pre false Hokp Hw1 ltac:(discriminate)).
        * destruct pre as [|cp1 pre']; [exfalso; apply Hpne; reflexivity|].
          assert (Ecg : exists g', g = cp1 :: g') by (rewrite <- Eg; eexists; reflexivity). destruct Ecg as (g' & Ecg). rewrite Ecg in Ec.
          cbn [predb map rev]. rewrite end_comb_snoc, comp_comb_map. exact Ec.
        * exact Hpne.
        * exact HC2.
        * apply safe_compound; [exact (Hokc cp (or_introl eq_refl)) | intros ->; discriminate | apply head_fine_safe; exact Eh].
        * exact HR.
      + rewrite Epb. replace (pb pre ++ b :: pb rest) with ((pb pre ++ [b]) ++ pb rest) by (rewrite <- app_assoc; reflexivity).
        rewrite (walkb_app h (pb pre ++ [b]) (pb rest)). exact HE.
    - destruct (shape_runs g s0 s1 (fun x => In x els) (Ordered h els) Hok Hw HF HL) as [HR HE]. eexists. split; [|exact HE].
      apply (process_plain h r D els (gof g) (pb g) HFS); [|exact HR]. destruct g; discriminate.
  Qed.

  Theorem find_group els g s0 s1 : Starts h r els -> Shaped h r s0 els -> GroupOk h r text_of g -> group_wf g = true -> find_shape s0 g = Some s1 ->
    exists l, find_ast h text_of by_id els [g] = Ok l /\ Forall (ElIn h r) l /\ NoDup l /\ Shaped h r s1 l /\ forall x, In x l <-> Walk h (fun s => In s els) (preds h text_of g) x.
  Proof.
    intros HS Hsh Hok Hw HF. destruct (group_done els g s0 s1 HS Hsh Hok Hw HF) as (ord & HD & HE).
    pose proof Hw as Hw'. unfold group_wf in Hw'. apply andb_true_iff in Hw'. destruct Hw' as [Hne Hw'].
    destruct (find_one h r els _ (pb g) ord HD) as (l & El & H1 & H2 & H3 & H4); [destruct g; discriminate|].
    exists l. split; [exact El|]. split; [exact H1|]. split; [exact H2|]. split.
    - apply (level_shaped s1 _ ord l HE); [revert H1; apply Forall_impl; intros x Hx; apply Hx | exact H3 | exact H4].
    - intros x. rewrite H4. apply walk_bool; [exact Hok | exact Hw' | | reflexivity].
      intros y Hy. destruct HS as [HS _]. rewrite Forall_forall in HS. apply (HS y Hy).
  Qed.

  (** * Several groups *)
  Lemma find_groups_from els gs : Starts h r els -> SelOk h r text_of gs -> forallb group_wf gs = true ->
    (forall g, In g gs -> exists ord : Prop, ord /\
       ProcDone h r els (optimize_group true (map (map (fun e : rule * comb => let '(r', c) := e in (comp r', c))) g)) (pb g) ord) ->
    UnionOk h (map (fun g => Walk h (fun s => In s els) (preds h text_of g)) gs) ->
    exists l, find_ast h text_of by_id els gs = Ok l /\ DocSet h r l /\ Forall (ElIn h r) l /\
      forall x, In x l <-> exists g, In g gs /\ Walk h (fun s => In s els) (preds h text_of g) x.
  Proof.
    intros HS Hok Hw HF HA. pose proof HS as [HS1 HS2]. unfold UnionOk in HA.
    assert (HW : forall g, In g gs -> forall x, WalkB h (fun s => In s els) (pb g) x <-> Walk h (fun s => In s els) (preds h text_of g) x).
    { intros g Hg. apply walk_bool; [exact (Hok g Hg) | | | reflexivity].
      - rewrite forallb_forall in Hw. specialize (Hw g Hg). unfold group_wf in Hw. apply andb_true_iff in Hw. apply Hw.
      - intros y Hy. rewrite Forall_forall in HS1. apply (HS1 y Hy). }
    destruct (find_many h r D els (compile_selector h text_of by_id true gs) (map pb gs)) with (A := fun _ : id => False) (acc := @nil id) as (l & El & HD & HE & Hm).
    - unfold compile_selector, compile_groups, optimize. rewrite map_map. clear HA HW Hw Hok. induction gs as [|g gs IH]; [constructor|].
      cbn [map]. constructor; [exact (HF g (or_introl eq_refl))|]. apply IH. intros g' Hg'. apply HF. right. exact Hg'.
    - split; [constructor | exact I].
    - constructor.
    - intros x. cbn. tauto.
    - rewrite map_map. clear -HA HW.
      assert (G : forall gs' (A A' : id -> Prop), (forall x, A x <-> A' x) -> (forall g, In g gs' -> forall x, WalkB h (fun s => In s els) (pb g) x <-> Walk h (fun s => In s els) (preds h text_of g) x) ->
        AddsFree h A' (map (fun g => Walk h (fun s => In s els) (preds h text_of g)) gs') -> AddsFree h A (map (fun g => WalkB h (fun s => In s els) (pb g)) gs')).
      { induction gs' as [|g gs' IH]; intros A A' HAA HW' H; [exact I|]. cbn [map AddsFree] in *. destruct H as [H1 H2]. split.
        - apply (addfree_ext h A' (Walk h (fun s => In s els) (preds h text_of g))); [intros x; symmetry; apply HAA | intros x; symmetry; apply (HW' g (or_introl eq_refl)) | exact H1].
        - apply (IH _ (fun x => A' x \/ Walk h (fun s => In s els) (preds h text_of g) x)); [| intros g' Hg'; apply HW'; right; exact Hg' | exact H2].
          intros x. rewrite HAA, (HW' g (or_introl eq_refl) x). reflexivity. }
      exact (G gs (fun _ => False) (fun _ => False) (fun x => iff_refl _) HW HA).
    - assert (Hm' : forall x, In x l <-> exists g, In g gs /\ Walk h (fun s => In s els) (preds h text_of g) x).
      { intros x. rewrite Hm. split.
        - intros [[] | (gb & Hgb & Hx)]. apply in_map_iff in Hgb. destruct Hgb as (g & <- & Hg). exists g. split; [exact Hg|]. apply HW; assumption.
        - intros (g & Hg & Hx). right. exists (pb g). split; [apply in_map; exact Hg|]. apply HW; assumption. }
      unfold find_ast, find_selector. destruct (nonempty els) eqn:En.
      + exists l. split; [exact El|]. split; [exact HD|]. split; [exact HE | exact Hm'].
      + apply nonempty_false in En. subst els. exists []. split; [reflexivity|]. split; [split; [constructor | exact I]|]. split; [constructor|].
        intros x. rewrite <- Hm', Hm. split; [intros []|]. intros [[] | (gb & Hgb & Hx)]. apply in_map_iff in Hgb. destruct Hgb as (g & <- & Hg).
        revert Hx. apply walkb_none. intros y [].
  Qed.
  Theorem find_groups els gs s0 : Starts h r els -> Shaped h r s0 els -> SelOk h r text_of gs -> forallb group_wf gs = true ->
    (forall g, In g gs -> exists s1, find_shape s0 g = Some s1 /\ s1 <> SAny) ->
    UnionOk h (map (fun g => Walk h (fun s => In s els) (preds h text_of g)) gs) ->
    exists l, find_ast h text_of by_id els gs = Ok l /\ DocSet h r l /\ Forall (ElIn h r) l /\
      forall x, In x l <-> exists g, In g gs /\ Walk h (fun s => In s els) (preds h text_of g) x.
  Proof.
    intros HS Hsh Hok Hw HF HA. apply find_groups_from; try assumption. intros g Hg. destruct (HF g Hg) as (s1 & E1 & Hs1).
    rewrite forallb_forall in Hw. destruct (group_done els g s0 s1 HS Hsh (Hok g Hg) (Hw g Hg) E1) as (ord & Hd & Hh). exists ord. split; [|exact Hd].
    destruct s1; [apply Hh | exact Hh | congruence].
  Qed.

  (** * From the conditions on the document *)
  Lemma rule_safe_ext c rl (P Q : id -> Prop) : (forall x, P x <-> Q x) -> RuleSafe h c rl P -> RuleSafe h c rl Q.
  Proof.
    intros E. destruct c; try exact (fun H => H); cbn.
    - intros H El x Hx Ht. apply (H El x); [apply E; exact Hx|]. intros y Hy. apply Ht, E, Hy.
    - intros (H1 & H2 & H3). split; [exact H1|]. split; intros El x Hx; [apply (H2 El) | apply (H3 El)]; apply E; exact Hx.
  Qed.
  Lemma comp_preds_eq cp : comp_preds h text_of cp = map (fun e : rule * comb => let '(r', c) := e in (Holds h text_of r', c)) cp.
  Proof. reflexivity. Qed.
  Lemma step_bool cp : CompOk h r text_of cp -> comp_wf cp = true -> forall P Q : id -> Prop, (forall x, P x -> InTree h r x) -> (forall x, P x <-> Q x) ->
    (forall x, StepB h P (map (fun e : rule * comb => let '(r', c) := e in (holdsb h text_of r', c)) cp) x <-> Step h Q (comp_preds h text_of cp) x) /\
    (forall x, StepB h P (map (fun e : rule * comb => let '(r', c) := e in (holdsb h text_of r', c)) cp) x -> InTree h r x).
  Proof.
    intros Hok Hw P Q HP HE.
    assert (Hf : fwd (comp_comb cp) = true).
    { destruct cp as [|[rl c] cp]; [discriminate|]. cbn in Hw. apply andb_true_iff in Hw. apply Hw. }
    split; [|intros x (_ & e & He & HR); rewrite comp_comb_map in HR; exact (proj1 (rel_el h r D _ e x (HP e He) Hf HR))].
    assert (Hok' : GroupOk h r text_of [cp]) by (intros c [<- | []]; exact Hok).
    exact (walk_bool [cp] Hok' ltac:(cbn; rewrite Hw; reflexivity) P Q HP HE).
  Qed.
  Lemma steps_runs g : forall (P Q : id -> Prop) (o o' : Prop), GroupOk h r text_of g -> forallb comp_wf g = true ->
    (forall x, P x -> InTree h r x) -> (forall x, P x <-> Q x) -> (o' -> o) -> StepsOk h text_of Q o' g ->
    Runs h r P o (gof g) (pb g) /\ (StepsOrd h text_of Q o' g -> OrdEnd h P o (pb g)).
  Proof.
    induction g as [|cp g IH]; intros P Q o o' Hok Hw HP HE Ho HSs.
    - split; [exact I | exact Ho].
    - cbn in Hw. apply andb_true_iff in Hw. destruct Hw as [Hw1 Hw2]. cbn [StepsOk] in HSs. destruct HSs as (H1 & H2 & H3 & H4).
      set (b := map (fun e : rule * comb => let '(r', c) := e in (holdsb h text_of r', c)) cp).
      assert (Ec : comp_comb b = comp_comb cp) by (unfold b; apply comp_comb_map).
      assert (Hcok : CompOk h r text_of cp) by exact (Hok cp (or_introl eq_refl)).
      assert (Hne : cp <> []) by (intros ->; discriminate).
      assert (HOA : OrdAfter h (comp_comb cp) Q o' -> OrdAfter h (comp_comb cp) P o) by (apply ord_after_ext; [intros x; symmetry; apply HE | exact Ho]).
      destruct (step_bool cp Hcok Hw1 P Q HP HE) as [HB1 HB2]. fold b in HB1, HB2.
      destruct (IH (StepB h P b) (Step h Q (comp_preds h text_of cp)) (OrdAfter h (comp_comb b) P o) (OrdAfter h (comp_comb cp) Q o')) as [HR HO];
        [intros cp' Hcp'; apply Hok; right; exact Hcp' | exact Hw2 | exact HB2 | exact HB1 | rewrite Ec; exact HOA | exact H4|].
      split; [|exact HO]. cbn [group_of map Runs predb]. fold b. split; [|split; [|split; [|exact HR]]].
      + destruct H1 as [Ha | Ha].
        * exists true. split; [|discriminate]. apply cok_compile; [exact Hw1|]. intros rl c Hi. pose proof (mok_rule h r D text_of by_id IC rl (Hcok rl c Hi)) as HM.
          unfold comp_any_order in Ha. rewrite forallb_forall in Ha. specialize (Ha (rl, c) Hi). cbn in Ha. rewrite any_order_simple in Ha. rewrite Ha in HM. exact HM.
        * exists false. split; [|intros _; rewrite Ec; exact (HOA Ha)]. apply cok_compile; [exact Hw1|]. intros rl c Hi.
          apply (mok_false h r _ _ (rule_simple rl)). exact (mok_rule h r D text_of by_id IC rl (Hcok rl c Hi)).
      + rewrite Ec. intros E. exact (Ho (H2 E)).
      + rewrite Ec. apply safe_compound; [exact Hcok | exact Hne|]. apply (rule_safe_ext _ _ Q P); [intros x; symmetry; apply HE | exact H3].
  Qed.

  Lemma firstn_app_one {A} (g : list (list A)) n cp rest : skipn n g = cp :: rest -> firstn (S n) g = firstn n g ++ [cp].
  Proof.
    revert g. induction n as [|n IH]; intros [|x g] E; cbn in E; try discriminate; [injection E as -> ->; reflexivity|].
    change (x :: firstn (S n) g = x :: (firstn n g ++ [cp])). f_equal. exact (IH g E).
  Qed.
  Lemma skipn_one {A} (g : list (list A)) n cp rest : skipn n g = cp :: rest -> skipn (S n) g = rest.
  Proof. revert g. induction n as [|n IH]; intros [|x g] E; cbn in E; try discriminate; [injection E as -> ->; reflexivity | exact (IH g E)]. Qed.

  Lemma group_done_doc els g : Starts h r els -> GroupOk h r text_of g -> group_wf g = true -> FindOk h text_of els g ->
    exists ord : Prop, ProcDone h r els (optimize_group true (map (map (fun e : rule * comb => let '(r', c) := e in (comp r', c))) g)) (pb g) ord /\
      (FindOrd h text_of els g -> ord).
  Proof.
    intros HS Hok Hw HF. pose proof (ordered_inc els HS) as HFS.
    unfold group_wf in Hw. apply andb_true_iff in Hw. destruct Hw as [Hne Hw]. rewrite (group_lookup g Hw). unfold FindOk, FindOrd in *.
    assert (HIn : forall x, In x els -> InTree h r x).
    { intros x Hx. destruct HS as [HS _]. rewrite Forall_forall in HS. apply (HS x Hx). }
    destruct (looks_up g) eqn:El.
    - unfold looks_up in El. apply andb_true_iff in El. destruct El as [Ep Ec]. apply Nat.ltb_lt in Ep. pose proof (firstn_skipn (pivot g) g) as Eg.
      destruct (skipn (pivot g) g) as [|cp rest] eqn:Es; [destruct HF|]. destruct HF as [HF1 HF2].
      rewrite (firstn_app_one g _ cp rest Es) in *. rewrite (skipn_one g _ cp rest Es). set (pre := firstn (pivot g) g) in *.
      assert (Hw' : forallb comp_wf pre = true /\ comp_wf cp = true /\ forallb comp_wf rest = true).
      { rewrite <- Eg, forallb_app in Hw. cbn in Hw. rewrite !andb_true_iff in Hw. tauto. } destruct Hw' as (Hw1 & Hw2 & Hw3).
      assert (Hokp : GroupOk h r text_of pre) by (intros c Hc; apply Hok; rewrite <- Eg; apply in_or_app; left; exact Hc).
      assert (Hokc : GroupOk h r text_of [cp]) by (intros c [<- | []]; apply Hok; rewrite <- Eg; apply in_or_app; right; left; reflexivity).
      assert (Hokr : GroupOk h r text_of rest) by (intros c Hc; apply Hok; rewrite <- Eg; apply in_or_app; right; right; exact Hc).
      assert (Hokpc : GroupOk h r text_of (pre ++ [cp])) by (intros c Hc; apply in_app_or in Hc; destruct Hc; [apply Hokp | apply Hokc]; assumption).
      assert (Hwpc : forallb comp_wf (pre ++ [cp]) = true) by (rewrite forallb_app; cbn; rewrite Hw1, Hw2; reflexivity).
      assert (Hpne : pb pre <> []).
      { subst pre. destruct (pivot g); [lia|]. destruct g; [discriminate|]. discriminate. }
      set (b := map (fun e : rule * comb => let '(r', c) := e in (holdsb h text_of r', c)) cp).
      assert (Epb : pb g = pb pre ++ b :: pb rest) by (rewrite <- Eg; unfold predb; rewrite map_app; reflexivity).
      assert (Epb' : pb pre ++ [b] = pb (pre ++ [cp])) by (unfold predb; rewrite map_app; reflexivity).
      destruct (steps_runs rest (WalkB h (fun s => In s els) (pb pre ++ [b])) (Walk h (fun s => In s els) (preds h text_of (pre ++ [cp]))) True True Hokr Hw3) as [HR HE].
      + rewrite Epb'. exact (walkb_firstn_in els (pre ++ [cp]) HS Hwpc).
      + rewrite Epb'. apply walk_bool; [exact Hokpc | exact Hwpc | exact HIn | reflexivity].
      + exact (fun H => H).
      + exact HF2.
      + exists (OrdEnd h (WalkB h (fun s => In s els) (pb pre ++ [b])) True (pb rest)).
        assert (HC1 := coks_ok h r D text_of by_id IC [cp] false Hokc ltac:(cbn; rewrite Hw2; reflexivity) ltac:(discriminate)).
        assert (HC2 : COk h r (optimize_compound (compile_comp h text_of by_id cp)) b false) by (inversion HC1; assumption). split; [|exact HE].
        rewrite Epb. change (gof (cp :: rest)) with (optimize_compound (compile_comp h text_of by_id cp) :: gof rest).
        apply (process_lookup h r D els (gof pre) (pb pre) _ b (gof rest) (pb rest) false HFS (proj2 HS)).
        * exact (coks_ok h r D text_of by_id IC pre false Hokp Hw1 ltac:(discriminate)).
        * destruct pre as [|cp1 pre']; [exfalso; apply Hpne; reflexivity|].
          assert (Ecg : exists g', g = cp1 :: g') by (rewrite <- Eg; eexists; reflexivity). destruct Ecg as (g' & Ecg). rewrite Ecg in Ec.
          cbn [predb map rev]. rewrite end_comb_snoc, comp_comb_map. exact Ec.
        * exact Hpne.
        * exact HC2.
        * apply safe_compound; [exact (Hokc cp (or_introl eq_refl)) | intros ->; discriminate | exact HF1].
        * exact HR.
    - destruct (steps_runs g (fun x => In x els) (fun x => In x els) (Ordered h els) True Hok Hw HIn (fun x => iff_refl _) (fun _ => proj2 HS) HF) as [HR HE].
      eexists. split; [|exact HE]. apply (process_plain h r D els (gof g) (pb g) HFS); [|exact HR]. destruct g; discriminate.
  Qed.
  Theorem find_group_doc els g : Starts h r els -> GroupOk h r text_of g -> group_wf g = true -> FindOk h text_of els g ->
    exists l, find_ast h text_of by_id els [g] = Ok l /\ Forall (ElIn h r) l /\ NoDup l /\ (FindOrd h text_of els g -> Ordered h l) /\
      forall x, In x l <-> Walk h (fun s => In s els) (preds h text_of g) x.
  Proof.
    intros HS Hok Hw HF. destruct (group_done_doc els g HS Hok Hw HF) as (ord & HD & HE).
    pose proof Hw as Hw'. unfold group_wf in Hw'. apply andb_true_iff in Hw'. destruct Hw' as [Hne Hw'].
    destruct (find_one h r els _ (pb g) ord HD) as (l & El & H1 & H2 & H3 & H4); [destruct g; discriminate|].
    exists l. split; [exact El|]. split; [exact H1|]. split; [exact H2|]. split; [intros Ho; exact (H3 (HE Ho))|].
    intros x. rewrite H4. apply walk_bool; [exact Hok | exact Hw' | | reflexivity].
    intros y Hy. destruct HS as [HS _]. rewrite Forall_forall in HS. apply (HS y Hy).
  Qed.
  (** The same search without the look-up: every compound is walked forwards. *)
  Theorem find_plain_doc els g : Starts h r els -> GroupOk h r text_of g -> group_wf g = true -> StepsOk h text_of (fun x => In x els) True g ->
    exists l, find_selector h els (compile_selector h text_of by_id false [g]) = Ok l /\ Forall (ElIn h r) l /\ NoDup l /\
      (StepsOrd h text_of (fun x => In x els) True g -> Ordered h l) /\
      forall x, In x l <-> Walk h (fun s => In s els) (preds h text_of g) x.
  Proof.
    intros HS Hok Hw HF. pose proof (ordered_inc els HS) as HFS. pose proof Hw as Hw'. unfold group_wf in Hw'. apply andb_true_iff in Hw'. destruct Hw' as [Hne Hw'].
    assert (HIn : forall x, In x els -> InTree h r x).
    { intros x Hx. destruct HS as [HS' _]. rewrite Forall_forall in HS'. apply (HS' x Hx). }
    destruct (steps_runs g (fun x => In x els) (fun x => In x els) (Ordered h els) True Hok Hw' HIn (fun x => iff_refl _) (fun _ => proj2 HS) HF) as [HR HE].
    assert (Hnb : pb g <> []) by (destruct g; discriminate).
    destruct (find_one h r els _ (pb g) _ (process_plain h r D els (gof g) (pb g) HFS Hnb HR) Hnb) as (l & El & H1 & H2 & H3 & H4).
    exists l. split.
    - rewrite <- El. unfold compile_selector, optimize, compile_groups. cbn [map]. unfold optimize_group. cbn [andb]. rewrite map_map. reflexivity.
    - split; [exact H1|]. split; [exact H2|]. split; [intros Ho; exact (H3 (HE Ho))|]. intros x. rewrite H4. apply walk_bool; [exact Hok | exact Hw' | exact HIn | reflexivity].
  Qed.
  Theorem find_groups_doc els gs : Starts h r els -> SelOk h r text_of gs -> forallb group_wf gs = true ->
    (forall g, In g gs -> FindOk h text_of els g /\ FindOrd h text_of els g) ->
    UnionOk h (map (fun g => Walk h (fun s => In s els) (preds h text_of g)) gs) ->
    exists l, find_ast h text_of by_id els gs = Ok l /\ DocSet h r l /\ Forall (ElIn h r) l /\
      forall x, In x l <-> exists g, In g gs /\ Walk h (fun s => In s els) (preds h text_of g) x.
  Proof.
    intros HS Hok Hw HF HA. apply find_groups_from; try assumption. intros g Hg. destruct (HF g Hg) as (H1 & H2).
    rewrite forallb_forall in Hw. destruct (group_done_doc els g HS (Hok g Hg) (Hw g Hg) H1) as (ord & Hd & Hh). exists ord. split; [exact (Hh H2) | exact Hd].
  Qed.
  Lemma exclusive_union (Bs : list (id -> Prop)) : ForallOrdPairs (fun B B' : id -> Prop => forall x, B x -> ~ B' x) Bs -> UnionOk h Bs.
  Proof.
    intros H. unfold UnionOk. assert (G : forall Bs (A : id -> Prop), ForallOrdPairs (fun B B' : id -> Prop => forall x, B x -> ~ B' x) Bs ->
      (forall B x, In B Bs -> A x -> ~ B x) -> AddsFree h A Bs).
    { clear. induction Bs as [|B Bs IH]; intros A HP HA; [exact I|]. inversion HP as [|B0 l0 H1 H2]; subst. split.
      - split.
        + intros (Hs & x & _ & Hx & _). exact (HA B x (or_introl eq_refl) Hx (Hs x Hx)).
        + intros a b _ _ Ha Hb (a0 & x & b1 & b2 & y & Ea & Eb & _). apply (HA B x (or_introl eq_refl)); [apply Ha | apply Hb]; [rewrite Ea | rewrite Eb]; apply in_elt.
      - apply IH; [exact H2|]. rewrite Forall_forall in H1. intros B' x HB' [Hx | Hx]; [exact (HA B' x (or_intror HB') Hx) | exact (H1 B' HB' x Hx)]. }
    apply G; [exact H|]. intros B x _ [].
  Qed.
End FindRules.
