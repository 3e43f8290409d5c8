(** Traversals from one element: children, parent, next, prev, ..., closest, *_until. *)
From Verif Require Import Base Utils UtilsSpec Attr AttrSpec Dom DomSpec Order DomProofs OrderSpec OrderProofs
  Sets SetsProofs AddProofs AddExact NavProofs Engine Rules Traverse SelSpec FindSpec TravSpec OneProofs PreProofs SelBool SibLists SibProofs StepProofs BackProofs FilterProofs
  RuleProofs FindProofs FindRules SelectProofs.
From Coq Require Import Sorting.Permutation.

(** The elements standing in a relation to [x], in document order. *)
Definition step_list (h : heap) (c : comb) (x : id) : list id :=
  match c with
  | ChildrenAll => descendants h x
  | Children => children h x
  | Parent => parent_el h x
  | ParentAll => anc_list (dfs_fuel h) h x
  | NextAll => following_list h x
  | Next => next_list h x
  | PrevAll => preceding_list h x
  | Prev => prev_list h x
  | Siblings => preceding_list h x ++ following_list h x
  | Chain => [x]
  end.
Definition step_comb (c : comb) : bool := match c with ChildrenAll | Chain => false | _ => true end.

Section Trav.
  Variable h : heap.
  Variable r : id.
  Hypothesis D : DocOk h r.
  Let wf : WF h := do_wf h r D.

  Lemma docset_nodup l : DocSet h r l -> NoDup l.
  Proof. intros [H1 H2]. exact (ordered_nodup h wf r l H1 H2). Qed.
  Lemma sorted_same l : DocSet h r l -> sort_and_unique h l = Ok l.
  Proof.
    intros [H1 H2]. destruct (sort_and_unique_ok h wf r l H1) as (l' & -> & HA & HS). f_equal.
    apply (ordered_unique h wf r); [exact (proj1 HA) | exact (proj2 HA) | exact H2 | exact HS].
  Qed.
  Lemma anc_list_sound f : forall x, InTree h r x -> ForallOrdPairs (Anc h) (anc_list f h x) /\ forall y, In y (anc_list f h x) -> Anc h y x.
  Proof.
    induction f as [|f IH]; intros x Hx; cbn [anc_list]; [split; [constructor | intros y []]|].
    destruct (parent h x) as [p|] eqn:E; [|split; [constructor | intros y []]]. destruct (is_root h p); [split; [constructor | intros y []]|].
    destruct (start_parent h r D x p Hx E) as [Hp Hl]. assert (Hc : Child h p x) by (exists (index h x); exact Hl). destruct (IH p Hp) as [H1 H2]. split.
    - apply pairs_app. split; [exact H1|]. split; [repeat constructor|]. intros a b Ha [<- | []]. exact (H2 a Ha).
    - intros y Hy. apply in_app_iff in Hy. destruct Hy as [Hy | [<- | []]]; [exact (Anc_step h y p x (H2 y Hy) Hc) | exact (Anc_child h p x Hc)].
  Qed.
  Lemma anc_list_ordered f x : InTree h r x -> Ordered h (anc_list f h x).
  Proof.
    intros Hx. apply ordered_pairs. generalize (proj1 (anc_list_sound f x Hx)). apply pairs_imp. intros a b _ _ Ha. left. exact Ha.
  Qed.
  Lemma rel_sym_el c x y : step_comb c = true -> ElIn h r x -> Rel h c x y -> ElIn h r y.
  Proof.
    intros Hc Hx HR. destruct (fwd c) eqn:Hf; [exact (rel_el h r D c x y (proj1 Hx) Hf HR)|]. destruct c; try discriminate; cbn in HR.
    - destruct HR as [HR He]. split; [|exact He]. apply (intree_anc h wf r x y (proj1 Hx)). right. exact (Anc_child h y x HR).
    - destruct HR as [HR He]. split; [|exact He]. apply (intree_anc h wf r x y (proj1 Hx)). right. exact HR.
    - exact (proj1 (preceding_facts h r D x y (proj1 Hx) HR)).
    - exact (proj1 (preceding_facts h r D x y (proj1 Hx) (prev_preceding h x y HR))).
    - destruct HR as (p & i & j & H1 & H2 & _ & He). destruct (el_parent h r D x Hx) as (q & E & Hq & _).
      rewrite (listed_parent h wf _ _ _ H1) in E. injection E as ->. split; [|exact He]. exact (proj1 (el_child h r q y Hq (proj2 (in_children h q y) (conj (ex_intro _ j H2) He)))).
  Qed.
  Lemma preceding_sorted x : Ordered h (preceding_list h x).
  Proof.
    unfold preceding_list. destruct (parent h x) as [p|]; [|exact I]. apply ordered_filter. pose proof (kids_ordered h p) as HK.
    rewrite <- (firstn_skipn (index h x) (kids h p)) in HK. apply ordered_app in HK. apply HK.
  Qed.
  Lemma sib_rel x y : ElIn h r x -> (Rel h Siblings x y <-> Preceding h x y \/ Following h x y).
  Proof.
    intros Hx. split.
    - intros (p & i & j & H1 & H2 & Hn & He). destruct (Nat.lt_trichotomy i j) as [H | [H | H]]; [right | contradiction | left].
      + exists p, i, j. repeat split; assumption.
      + exists p, j, i. repeat split; assumption.
    - intros [(p & i & j & H1 & H2 & Hn & He) | (p & i & j & H1 & H2 & Hn & He)].
      + exists p, j, i. repeat split; try assumption. lia.
      + exists p, i, j. repeat split; try assumption. lia.
  Qed.
  Lemma in_step c x y : step_comb c = true -> ElIn h r x -> (In y (step_list h c x) <-> Rel h c x y).
  Proof.
    intros Hc Hx. pose proof (proj1 Hx) as Hi. destruct c; try discriminate; cbn [step_list].
    - apply in_children.
    - apply (parent_el_spec h r D x y Hi).
    - apply (anc_full h r D x Hi).
    - exact (in_following h r D x y Hi).
    - exact (in_next h r D x y Hi).
    - exact (in_preceding h r D x y Hi).
    - exact (in_prev h r D x y Hi).
    - rewrite in_app_iff, (in_preceding h r D x y Hi), (in_following h r D x y Hi), (sib_rel x y Hx). reflexivity.
  Qed.
  Lemma step_els c x : step_comb c = true -> ElIn h r x -> Forall (ElIn h r) (step_list h c x).
  Proof. intros Hc Hx. apply Forall_forall. intros y Hy. apply (in_step c x y Hc Hx) in Hy. exact (rel_sym_el c x y Hc Hx Hy). Qed.
  Lemma ordered_opt {A} (o : option id) (f : A) : Ordered h (opt_list o).
  Proof. destruct o; cbn; [split; [constructor | exact I] | exact I]. Qed.
  Lemma step_ordered c x : step_comb c = true -> ElIn h r x -> Ordered h (step_list h c x).
  Proof.
    intros Hc Hx. destruct c; try discriminate; cbn [step_list].
    - apply children_ordered.
    - unfold parent_el. destruct (parent h x) as [p|]; [destruct (is_root h p)|]; cbn; try exact I. split; [constructor | exact I].
    - exact (anc_list_ordered _ x (proj1 Hx)).
    - exact (following_ordered h x).
    - apply (ordered_opt _ x).
    - exact (preceding_sorted x).
    - apply (ordered_opt _ x).
    - apply ordered_app. split; [exact (preceding_sorted x)|]. split; [exact (following_ordered h x)|]. intros a b Ha Hb.
      apply (in_preceding h r D x a (proj1 Hx)) in Ha. apply (in_following h r D x b (proj1 Hx)) in Hb.
      destruct Ha as (p & i & j & H1 & H2 & Hlt & _). destruct Hb as (p' & i' & j' & H1' & H2' & Hlt' & _).
      destruct (listed_inj h wf _ _ _ _ _ H2 H1') as [<- <-]. apply (listed_before h p i j' a b H1 H2'). lia.
  Qed.
  Lemma step_docset c x : step_comb c = true -> ElIn h r x -> DocSet h r (step_list h c x).
  Proof.
    intros Hc Hx. split; [|exact (step_ordered c x Hc Hx)]. generalize (step_els c x Hc Hx). apply Forall_impl. intros y Hy. apply Hy.
  Qed.
  Lemma step_good s c x : step_comb c = true -> ElIn h r x -> Good h r s (step_list h c x).
  Proof. intros Hc Hx. exact (good_ordered h r D s _ (step_els c x Hc Hx) (step_ordered c x Hc Hx)). Qed.
  Lemma step_is c x l : step_comb c = true -> ElIn h r x -> Ordered h l -> (forall y, In y l <-> Rel h c x y) -> l = step_list h c x.
  Proof.
    intros Hc Hx Ho Hl. assert (HI : forall y, In y l <-> In y (step_list h c x)) by (intros y; rewrite Hl, (in_step c x y Hc Hx); reflexivity).
    apply (ordered_unique h wf r); [|exact Ho | exact (step_ordered c x Hc Hx) | exact HI].
    apply Forall_forall. intros y Hy. apply Hl in Hy. exact (proj1 (rel_sym_el c x y Hc Hx Hy)).
  Qed.

  (** * One rule from one element *)
  Lemma siblings_eq x : ElIn h r x -> siblings h x = Ok (preceding_list h x ++ following_list h x).
  Proof.
    intros Hx. destruct (el_parent h r D x Hx) as (q & E & Hq & Hl). destruct (listed_split h q _ x Hl) as (pr & po & Ek & _).
    rewrite (siblings_at h wf q x pr po Ek).
    pose proof (prevs_eq h r D x (proj1 Hx)) as E1. pose proof (nexts_eq h r D x (proj1 Hx)) as E2.
    rewrite (prev_siblings_at h wf q x pr po Ek) in E1. rewrite (next_siblings_at h wf q x pr po Ek) in E2. congruence.
  Qed.
  Lemma one_el x : ElIn h r x -> Forall (Start h r) [x].
  Proof. intros Hx. constructor; [exact (el_start h r x Hx) | constructor]. Qed.
  Lemma one_step c m p s x : step_comb c = true -> ElIn h r x -> MOk h r m p s -> SafeM h c m (fun y => y = x) ->
    select_by_rule h [x] m c = Ok (filter p (step_list h c x)).
  Proof.
    intros Hc Hx M HS. pose proof (step_good s c x Hc Hx) as HG. destruct c; try discriminate; cbn [step_list] in *; cbn [select_by_rule].
    - pose proof (children_base h r m p s x M HS (proj1 Hx)) as HB. destruct (mt_one m) as [g|] eqn:E1; [cbn [rflat]; rewrite HB; cbn [rbind]; rewrite app_nil_r; reflexivity|].
      destruct (mt_spec m) as [g|]; [cbn [rflat]; rewrite HB; cbn [rbind]; rewrite app_nil_r; reflexivity|].
      unfold get_all_handle in *. destruct (mt_all m) as [g|]; [|discriminate]. cbn [rbind rflat] in *. rewrite HB. cbn [rbind]. rewrite app_nil_r. reflexivity.
    - rewrite (us_first h r D [x]) by (constructor; [exact (proj1 Hx) | constructor]). cbn [rbind firsts existsb flat_map]. rewrite app_nil_r. exact (mok_list h r m p s _ M HG).
    - destruct (anc_full h r D x (proj1 Hx)) as [EA _]. pose proof (mok_list h r m p s _ M HG) as HM. destruct (mt_one m) as [g|] eqn:E1.
      + cbn [rflat]. rewrite EA. cbn [rbind]. rewrite HM. cbn [rbind]. rewrite app_nil_r. apply sorted_same. split; [|apply ordered_filter; exact (step_ordered ParentAll x eq_refl Hx)].
        pose proof (step_els ParentAll x eq_refl Hx) as HE. rewrite Forall_forall in *. intros y Hy. apply filter_In in Hy. exact (proj1 (HE y (proj1 Hy))).
      + cbn [rflat]. rewrite EA. cbn [rbind]. pose proof (sorted_same _ (step_docset ParentAll x eq_refl Hx)) as ES. cbn [step_list] in ES. rewrite app_nil_r, ES. cbn [rbind]. exact HM.
    - rewrite (us_first h r D [x]) by (constructor; [exact (proj1 Hx) | constructor]). cbn [rbind firsts existsb rflat]. rewrite (nexts_eq h r D x (proj1 Hx)). cbn [rbind].
      rewrite (mo_none h r m p s M _ HG). cbn [rbind]. rewrite app_nil_r. reflexivity.
    - cbn [flat_map]. rewrite app_nil_r, next_eq. exact (mok_apply h r m p s _ M HG).
    - rewrite (us_last h r D [x]) by (constructor; [exact (proj1 Hx) | constructor]). cbn [rbind rev app firsts existsb rflat]. rewrite (prevs_eq h r D x (proj1 Hx)). cbn [rbind].
      rewrite (mo_none h r m p s M _ HG). cbn [rbind]. rewrite app_nil_r. reflexivity.
    - cbn [rflat]. rewrite (prev_eq h r D x (proj1 Hx)). cbn [rbind]. rewrite app_nil_r. exact (mok_apply h r m p s _ M HG).
    - destruct (el_parent h r D x Hx) as (q & E & Hq & Hl). unfold unique_all_siblings. cbn [rfold ua_step]. rewrite E.
      rewrite (tree_indexs_key h wf q). cbn [rbind ua_find]. cbn [app rbind snd rflat]. rewrite (siblings_eq x Hx). cbn [rbind].
      rewrite (mo_none h r m p s M _ HG). cbn [rbind]. rewrite app_nil_r. reflexivity.
  Qed.

  Variable text_of : id -> str.
  Variable by_id : id -> str -> option id.
  Hypothesis IC : IdCache h r by_id.
  Notation pb := (predb h text_of).
  Notation cg g := (optimize_group false (map (map (fun e : rule * comb => let '(r', c) := e in (compile h text_of by_id r', c))) g)).
  Definition headed (c : comb) (p : process) : process :=
    match should_in p with Some g => mkProcess (Some (head_group c g)) (query p) | None => mkProcess None (head_group c (query p)) end.

  (** * One compound from one element *)
  Lemma one_process c cp x : step_comb c = true -> ElIn h r x -> CompOk h r text_of cp -> comp_wf cp = true -> comp_comb cp = ChildrenAll ->
    RuleSafe h c (head_rule cp) (fun y => y = x) ->
    find_process h [x] (headed c (cg [cp])) = Ok (filter (matchesb h (pb [cp])) (step_list h c x)).
  Proof.
    intros Hc Hx Hok Hw Ec HR.
    assert (HC : COk h r (optimize_compound (compile_comp h text_of by_id cp)) (hd [] (pb [cp])) false).
    { assert (HF := coks_ok h r D text_of by_id IC [cp] false). cbn in HF. specialize (HF ltac:(intros cp' [<- | []]; exact Hok) ltac:(rewrite Hw; reflexivity) ltac:(discriminate)).
      inversion HF; subst. assumption. }
    pose proof (safe_compound h r text_of by_id c cp (fun y => y = x) Hok ltac:(intros ->; discriminate) HR) as HS.
    destruct (compound_chain h r _ _ false HC) as (m & c0 & rest & p & E & Hf & Ec0 & M & Hp & Hch).
    assert (E0 : c0 = ChildrenAll).
    { rewrite Ec0. destruct cp as [|[rl cc] cp']; [discriminate|]. exact Ec. }
    assert (Eq : headed c (cg [cp]) = mkProcess None [(m, c) :: rest]).
    { unfold optimize_group. cbn [map andb]. change (map (fun e : rule * comb => let '(r', c) := e in (compile h text_of by_id r', c)) cp) with (compile_comp h text_of by_id cp).
      rewrite E. unfold headed. cbn. rewrite E0. reflexivity. }
    rewrite Eq. unfold find_process, find_first, select. cbn [query should_in rnth nth_error rbind tl].
    assert (Enc : mt_cache m && comb_eqb c ChildrenAll = false) by (destruct c; try discriminate; apply andb_false_r). rewrite Enc.
    rewrite (one_step c m p false x Hc Hx M (HS m c0 rest E)). cbn [rbind].
    rewrite (Hch _ (step_els c x Hc Hx) (good_filter h r false p _ (step_good false c x Hc Hx))). cbn [rbind query_rest].
    assert (Em : filter (matchesb h (pb [cp])) (step_list h c x) = filter (compb (hd [] (pb [cp]))) (step_list h c x)).
    { apply filter_ext. intros y. unfold matchesb. cbn. apply andb_true_r. }
    rewrite Em. destruct (filter (compb (hd [] (pb [cp]))) (step_list h c x)); reflexivity.
  Qed.
  Lemma one_loop c x : step_comb c = true -> ElIn h r x -> forall gs q, SelOk h r text_of gs -> sel_wf gs = true -> one_compound gs = true ->
    FilterSafe h c gs x -> AddOk h (step_list h c x) q (map pb gs) ->
    rfold (fun result p => do group <- find_process h [x] p; if nonempty group then add h result group else Ok result)
      (head_combinator c (compile_selector h text_of by_id false gs)) (filter q (step_list h c x)) =
    Ok (filter (fun y => q y || matches_anyb h (map pb gs) y) (step_list h c x)).
  Proof.
    intros Hc Hx. set (els := step_list h c x). induction gs as [|g gs IH]; intros q Hok Hw Ho HS HA.
    - cbn. f_equal. apply filter_ext. intros y. rewrite orb_false_r. reflexivity.
    - cbn in Hw, Ho. apply andb_true_iff in Hw. destruct Hw as [Hg Hw]. apply andb_true_iff in Ho. destruct Ho as [Ho1 Ho].
      destruct g as [|cp [|]]; try discriminate. cbn [map AddOk] in HA. destruct HA as [HA1 HA2].
      unfold group_wf, group_desc in Hg. cbn in Hg. rewrite !andb_true_r in Hg. apply andb_true_iff in Hg. destruct Hg as [Hg1 Hg2].
      assert (Hcc : comp_comb cp = ChildrenAll) by (destruct (comp_comb cp); try discriminate; reflexivity).
      change (head_combinator c (compile_selector h text_of by_id false ([cp] :: gs))) with
        (headed c (cg [cp]) :: head_combinator c (compile_selector h text_of by_id false gs)). cbn [rfold].
      pose proof (one_process c cp x Hc Hx (Hok _ (or_introl eq_refl) cp (or_introl eq_refl)) Hg1 Hcc (HS _ cp (or_introl eq_refl) (or_introl eq_refl))) as HP.
      rewrite HP. clear HP. cbn [rbind]. fold els.
      assert (Hnext : forall q', (forall y, In y els -> q' y = q y || matchesb h (pb [cp]) y) ->
        rfold (fun result p => do group <- find_process h [x] p; if nonempty group then add h result group else Ok result)
          (head_combinator c (compile_selector h text_of by_id false gs)) (filter q' els) =
        Ok (filter (fun y => q y || matches_anyb h (map pb ([cp] :: gs)) y) els)).
      { intros q' Hq'. rewrite (IH q' (fun g' Hg' => Hok g' (or_intror Hg')) Hw Ho (fun g' cp' Hg' => HS g' cp' (or_intror Hg'))).
        - f_equal. apply filter_ext_in. intros y Hy. rewrite (Hq' y Hy). cbn. rewrite orb_assoc. reflexivity.
        - revert HA2. apply addok_ext. intros y Hy. symmetry. exact (Hq' y Hy). }
      pose proof (step_good false c x Hc Hx) as HG. fold els in HG.
      destruct (nonempty (filter (matchesb h (pb [cp])) els)) eqn:En.
      + assert (HDS : forall p0, DocSet h r (filter p0 els)).
        { intros p0. destruct (good_filter h r false p0 els HG) as (G1 & _ & G3). split; [|exact (G3 eq_refl)]. revert G1. apply Forall_impl. intros y [Hy _]. exact Hy. }
        destruct (add_join h wf r _ _ (HDS q) (HDS (matchesb h (pb [cp]))) HA1) as (l & -> & HL & Hl). cbn [rbind].
        assert (El : l = filter (fun y => q y || matchesb h (pb [cp]) y) els).
        { apply (ordered_unique h wf r); [exact (proj1 HL) | exact (proj2 HL) | exact (proj2 (HDS _))|].
          intros y. rewrite (Hl y), !filter_In, orb_true_iff. tauto. }
        rewrite El. apply Hnext. reflexivity.
      + cbn [rbind]. apply Hnext. intros y Hy. rewrite nonempty_filter in En.
        destruct (matchesb h (pb [cp]) y) eqn:E; [|rewrite orb_false_r; reflexivity]. exfalso.
        assert (existsb (matchesb h (pb [cp])) els = true) by (apply existsb_exists; exists y; split; assumption). congruence.
  Qed.
  Lemma addsfree_ext : forall Bs Bs' (A A' : id -> Prop), (forall x, A x <-> A' x) -> Forall2 (fun B B' => forall x : id, B x <-> B' x) Bs Bs' -> AddsFree h A Bs -> AddsFree h A' Bs'.
  Proof.
    intros Bs Bs' A A' HA HF. revert A A' HA. induction HF as [|B B' Bs Bs' HB _ IH]; intros A A' HA H; [exact I|]. cbn in *. destruct H as [H1 H2]. split.
    - exact (addfree_ext h A B A' B' HA HB H1).
    - apply (IH (fun x => A x \/ B x)); [|exact H2]. intros x. rewrite HA, HB. reflexivity.
  Qed.
  Definition passesb (flt : option ast) (y : id) : bool :=
    match flt with None => true | Some gs => matches_anyb h (map pb gs) y end.
  Lemma all_mok s : MOk h r all_matcher (fun _ => true) s.
  Proof.
    split; cbn; try discriminate.
    - intros l _. f_equal. symmetry. apply filter_all. reflexivity.
    - intros _. eexists. reflexivity.
    - intros _ _ _ g E p _ _. injection E as <-. f_equal. symmetry. apply filter_all. reflexivity.
  Qed.
  Lemma all_safe c P : SafeM h c all_matcher P.
  Proof.
    intros _. destruct c; try exact I; cbn.
    - discriminate.
    - split; [reflexivity|]. intros g E x _ _. injection E as <-. reflexivity.
  Qed.
  Lemma all_find c x : step_comb c = true -> ElIn h r x -> find_selector h [x] (from_segment (make_comb_all c)) = Ok (step_list h c x).
  Proof.
    intros Hc Hx. unfold find_selector, from_segment, make_comb_all, find_process, find_first, select. cbn [nonempty rfold query should_in rnth nth_error rbind tl mt_cache all_matcher andb].
    change (mkMatcher _ None None 0%N false) with all_matcher.
    rewrite (one_step c _ _ false x Hc Hx (all_mok false) (all_safe c _)). cbn [rbind chain_rest query_rest]. rewrite (filter_all (fun _ => true)) by reflexivity.
    destruct (step_list h c x) as [|y l] eqn:E; [reflexivity|]. cbn [nonempty rbind]. reflexivity.
  Qed.
  Lemma traverse_one c flt x : step_comb c = true -> ElIn h r x -> FltOk h r text_of c flt x ->
    select_with_comb h [x] (plain_text h text_of by_id flt) c = Ok (filter (passesb flt) (step_list h c x)).
  Proof.
    intros Hc Hx HF. unfold select_with_comb, plain_text. destruct flt as [gs|]; cbn [option_map].
    - destruct HF as (Hok & Hw & Ho & HS & HU). cbn [nonempty]. unfold find_selector. cbn [nonempty].
      pose proof (one_loop c x Hc Hx gs (fun _ => false) Hok Hw Ho HS) as HL. rewrite (filter_nil (fun _ => false)) in HL by reflexivity. apply HL. clear HL.
      apply (adds_addok h r text_of _ gs (step_els c x Hc Hx) (step_ordered c x Hc Hx)) with (A := fun _ => False).
      + intros g y Hg Hy. exact (match_spec h r D text_of gs g y Hok Hw Hg Hy).
      + intros y _. split; [discriminate | intros []].
      + intros y [].
      + revert HU. apply addsfree_ext; [tauto|]. clear -D Hc Hx IC. induction gs as [|g gs IH]; constructor; [|exact IH].
        intros y. rewrite (in_step c x y Hc Hx). tauto.
    - rewrite (all_find c x Hc Hx). f_equal. symmetry. apply filter_all. reflexivity.
  Qed.
  Lemma passes_spec flt y : OptOk h r text_of flt -> ElIn h r y -> (passesb flt y = true <-> Passes h text_of flt y).
  Proof.
    intros Hok Hy. destruct flt as [gs|]; cbn; [|split; trivial]. destruct Hok as [H1 H2]. exact (meets_spec h r D text_of gs y H1 H2 Hy).
  Qed.
  Lemma flt_opt c flt x : FltOk h r text_of c flt x -> OptOk h r text_of flt.
  Proof. destruct flt; [|trivial]. intros (H1 & H2 & _). split; assumption. Qed.
  Lemma us_one x : ElIn h r x -> unique_sibling_first h [x] = Ok [x].
  Proof. intros Hx. rewrite (us_first h r D [x]) by (constructor; [exact (proj1 Hx) | constructor]). reflexivity. Qed.
  Lemma us_one_last x : ElIn h r x -> unique_sibling_last h [x] = Ok [x].
  Proof. intros Hx. rewrite (us_last h r D [x]) by (constructor; [exact (proj1 Hx) | constructor]). reflexivity. Qed.
  Lemma ua_one x : ElIn h r x -> unique_all_siblings h [x] = Ok [(x, false)].
  Proof.
    intros Hx. destruct (el_parent h r D x Hx) as (q & E & _). unfold unique_all_siblings. cbn [rfold ua_step]. rewrite E, (tree_indexs_key h wf q). reflexivity.
  Qed.
  Lemma sort_same l : DocSet h r l -> sort h l = Ok l.
  Proof.
    intros HD. pose proof (docset_nodup l HD) as Hn. destruct HD as [H1 H2]. destruct (sort_ok h wf r l) as (l' & E & HP & HW). rewrite E. f_equal.
    assert (Hi : AllIn h r l'). { apply Forall_forall. intros y Hy. rewrite Forall_forall in H1. apply H1. exact (Permutation_in y HP Hy). }
    apply (ordered_unique h wf r); [exact Hi | | exact H2 | intros y; split; apply Permutation_in; [exact HP | symmetry; exact HP]].
    specialize (HW H1). assert (Hn' : NoDup l') by (apply (Permutation_NoDup (l := l)); [symmetry; exact HP | exact Hn]).
    clear -HW Hn'. induction l' as [|y l' IH]; [exact I|]. inversion Hn' as [|y0 l0 Hy Hn'']; subst. destruct HW as [H1 H2]. split; [|exact (IH H2 Hn'')].
    rewrite Forall_forall in *. intros z Hz. destruct (H1 z Hz) as [H | <-]; [exact H | contradiction].
  Qed.

  (** * Texts compiled with look-up *)
  Definition tests (gs : ast) : ast := map tested gs.
  Definition testb (gs : ast) : id -> bool := matches_anyb h (map (fun g => rootedb h r (pb (tested g))) gs).
  Lemma pivot_lt g : looks_up g = true -> pivot g < length g.
  Proof.
    unfold looks_up. rewrite andb_true_iff. intros [Hp _]. apply Nat.ltb_lt in Hp. unfold pivot in *.
    assert (HI : forall l i best, fst (pivot_from l i best) = fst best \/ fst (pivot_from l i best) < i + length l).
    { induction l as [|cp l IH]; intros i best; cbn [pivot_from length]; [left; reflexivity|].
      destruct (IH (S i) (if (snd best <? comp_prio cp)%N then (i, comp_prio cp) else best)) as [H | H]; [|right; lia].
      rewrite H. destruct (snd best <? comp_prio cp)%N; cbn [fst]; [right; lia | left; reflexivity]. }
    destruct (HI g 0 (0, 0%N)) as [H | H]; cbn [fst] in H; lia.
  Qed.
  Lemma tested_sub g cp : In cp (tested g) -> In cp g.
  Proof.
    unfold tested. destruct (looks_up g); [|trivial]. intros H. rewrite <- (firstn_skipn (pivot g) g). apply in_or_app. right. exact H.
  Qed.
  Lemma tested_wf g : group_wf g = true -> group_wf (tested g) = true.
  Proof.
    intros H. unfold group_wf in *. apply andb_true_iff in H. destruct H as [H1 H2]. rewrite forallb_forall in H2. apply andb_true_iff. split.
    - unfold tested. destruct (looks_up g) eqn:E; [|exact H1]. apply pivot_lt in E. pose proof (skipn_length (pivot g) g) as HL. destruct (skipn (pivot g) g); [cbn in HL; lia | reflexivity].
    - apply forallb_forall. intros cp Hc. exact (H2 cp (tested_sub g cp Hc)).
  Qed.
  Lemma selb_tested gs : AnyText h r text_of gs ->
    SelB h r false (compile_selector h text_of by_id true gs) (map (fun g => rootedb h r (pb (tested g))) gs).
  Proof.
    intros [Hok Hw]. unfold compile_selector, compile_groups, optimize. induction gs as [|g gs IH]; [constructor|].
    cbn in Hw. apply andb_true_iff in Hw. destruct Hw as [Hw1 Hw]. cbn [map]. constructor.
    - pose proof (tested_wf g Hw1) as Ht. pose proof (Hok g (or_introl eq_refl)) as Hk.
      assert (Hc1 : forallb comp_wf g = true) by (unfold group_wf in Hw1; apply andb_true_iff in Hw1; apply Hw1).
      rewrite (group_lookup h text_of by_id g Hc1).
      assert (HG : GroupB h r false (group_of h text_of by_id (tested g)) (rootedb h r (pb (tested g)))).
      { apply groupb_root; [exact Ht|]. intros cp rl c Hi Hr. apply (mok_false h r _ _ (rule_simple rl)). apply (mok_rule h r D text_of by_id IC).
        apply (Hk cp) with (c := c); [exact (tested_sub g cp Hi) | exact Hr]. }
      unfold tested in HG |- *. destruct (looks_up g); cbn [query]; exact HG.
    - apply IH; [intros g' Hg'; exact (Hok g' (or_intror Hg')) | exact Hw].
  Qed.
  Lemma any_ext_in (ps qs : list pgroup) y : Forall2 (fun p q => Matches h p y <-> Matches h q y) ps qs -> (MatchesAny h ps y <-> MatchesAny h qs y).
  Proof.
    unfold MatchesAny. induction 1 as [|p q ps qs H _ IH]; [split; intros (g & [] & _)|]. split; intros (g & [<- | Hi] & Hm).
    - exists q. split; [left; reflexivity | apply H; exact Hm].
    - destruct (proj1 IH (ex_intro _ g (conj Hi Hm))) as (g' & Hi' & Hm'). exists g'. split; [right; exact Hi' | exact Hm'].
    - exists p. split; [left; reflexivity | apply H; exact Hm].
    - destruct (proj2 IH (ex_intro _ g (conj Hi Hm))) as (g' & Hi' & Hm'). exists g'. split; [right; exact Hi' | exact Hm'].
  Qed.
  Lemma testb_spec gs y : AnyText h r text_of gs -> ElIn h r y -> (testb gs y = true <-> Tested h text_of gs y).
  Proof.
    intros [Hok Hw] Hy. unfold testb, Tested, matches_anyb. rewrite existsb_exists. unfold MatchesAny. rewrite forallb_forall in Hw.
    assert (HG : forall g, In g gs -> (matchesb h (rootedb h r (pb (tested g))) y = true <-> Matches h (rooted h (preds h text_of (tested g))) y)).
    { intros g Hg. apply (root_spec h r D text_of); [|exact (tested_wf g (Hw g Hg)) | exact Hy]. intros cp Hc. exact (Hok g Hg cp (tested_sub g cp Hc)). }
    split; intros (g & Hi & Hm); apply in_map_iff in Hi; destruct Hi as (g0 & <- & Hi).
    - eexists. split; [apply in_map_iff; exists g0; split; [reflexivity | exact Hi]|]. apply (HG g0 Hi). exact Hm.
    - eexists. split; [apply in_map_iff; exists g0; split; [reflexivity | exact Hi]|]. apply (HG g0 Hi). exact Hm.
  Qed.
  Lemma anytext_ok gs : TextOk h r text_of gs -> AnyText h r text_of gs.
  Proof.
    intros [Hok Hw]. split; [exact Hok|]. unfold sel_wf in Hw. rewrite forallb_forall in *. intros g Hg. specialize (Hw g Hg). apply andb_true_iff in Hw. apply Hw.
  Qed.
  Lemma tests_plain gs : no_lookup gs = true -> tests gs = gs.
  Proof.
    induction gs as [|g gs IH]; [reflexivity|]. cbn. rewrite andb_true_iff, negb_true_iff. intros [H1 H2]. unfold tested at 1. rewrite H1. f_equal. exact (IH H2).
  Qed.
  (** Texts without a look-up are read the way they are written. *)
  Lemma tested_plain gs y : sel_wf gs = true -> no_lookup gs = true -> (Tested h text_of gs y <-> meets h text_of gs y).
  Proof.
    intros Hw Hn. unfold Tested, meets. apply any_ext_in. unfold sel_wf in Hw. unfold no_lookup in Hn.
    induction gs as [|g gs IH]; [constructor|]. cbn in Hw, Hn. apply andb_true_iff in Hw, Hn. destruct Hw as [Hw1 Hw], Hn as [Hn1 Hn]. apply negb_true_iff in Hn1.
    cbn [map]. constructor; [|exact (IH Hw Hn)]. unfold tested. rewrite Hn1. apply rooted_plain. apply andb_true_iff in Hw1. apply Hw1.
  Qed.
  Lemma is_one gs y : AnyText h r text_of gs -> ElIn h r y ->
    exists l, filter_type_handle h [y] (compile_selector h text_of by_id true gs) FIs = Ok (l, testb gs y).
  Proof.
    intros HR Hy. assert (HB := selb_tested gs HR).
    destruct (is_handle h r D false [y] _ _ (good_ordered h r D false [y] ltac:(constructor; [exact Hy | constructor]) ltac:(cbn; split; [constructor | exact I])) HB) as (l & E).
    exists l. rewrite E. cbn [existsb]. rewrite orb_false_r. reflexivity.
  Qed.

  (** * Walking step by step *)
  Definition unit_comb (c : comb) : bool := match c with Next | Prev | Parent => true | _ => false end.
  Lemma unit_step c : unit_comb c = true -> step_comb c = true /\ step_comb (all_of c) = true.
  Proof. destruct c; try discriminate; split; reflexivity. Qed.
  Lemma unit_list c x : unit_comb c = true -> length (step_list h c x) <= 1.
  Proof.
    intros Hc. destruct c; try discriminate; cbn [step_list].
    - unfold parent_el. destruct (parent h x); [destruct (is_root h _)|]; cbn; lia.
    - unfold next_list. destruct (hd_error _); cbn; lia.
    - unfold prev_list. destruct (hd_error _); cbn; lia.
  Qed.
  Lemma rel_first c x z : unit_comb c = true -> ElIn h r x -> Rel h (all_of c) x z -> exists y, Rel h c x y.
  Proof.
    intros Hc Hx HR. destruct c; try discriminate; cbn in HR |- *.
    - destruct HR as [Ha He]. apply anc_inv in Ha. destruct Ha as (q & Hz & Hq). exists q. split; [exact Hq|].
      destruct Hz as [<- | Ha]; [exact He|]. destruct (container_parent h r D x q (proj1 Hx) (child_parent h wf _ _ Hq)) as [Hi [Hqe | Hr]]; [exact Hqe|].
      subst q. apply anc_inv in Ha. destruct Ha as (q & _ & (i & Hi')). destruct (root_not_listed h r D q i Hi').
    - assert (Hi : In z (following_list h x)) by (apply (in_following h r D x z (proj1 Hx)); exact HR).
      destruct (following_list h x) as [|y l] eqn:E; [destruct Hi|]. exists y. apply (in_next h r D x y (proj1 Hx)). unfold next_list. rewrite E. left. reflexivity.
    - assert (Hi : In z (preceding_list h x)) by (apply (in_preceding h r D x z (proj1 Hx)); exact HR).
      apply in_rev in Hi. destruct (rev (preceding_list h x)) as [|y l] eqn:E; [destruct Hi|]. exists y. apply (in_prev h r D x y (proj1 Hx)). unfold prev_list. rewrite E. left. reflexivity.
  Qed.
  Lemma rel_split c x y z : unit_comb c = true -> ElIn h r x -> Rel h c x y -> (Rel h (all_of c) x z <-> z = y \/ Rel h (all_of c) y z).
  Proof.
    intros Hc Hx HR. destruct c; try discriminate; cbn in HR |- *.
    - destruct HR as [Hc' He]. split.
      + intros [Ha Hz]. apply anc_inv in Ha. destruct Ha as (q & Hq & Hq'). pose proof (child_parent h wf _ _ Hq') as E1. pose proof (child_parent h wf _ _ Hc') as E2.
        assert (q = y) by congruence. subst q. destruct Hq as [-> | Hq]; [left; reflexivity | right; split; assumption].
      + intros [-> | [Ha Hz]]; [split; [exact (Anc_child h y x Hc') | exact He] | split; [exact (Anc_step h z y x Ha Hc') | exact Hz]].
    - destruct HR as (p & i & j & H1 & H2 & Hlt & He & Hb). split.
      + intros (p' & i' & k & H1' & H3 & Hlt' & Hz). destruct (listed_inj h wf _ _ _ _ _ H1 H1') as [<- <-].
        destruct (Nat.lt_trichotomy k j) as [H | [-> | H]].
        * rewrite (Hb k z ltac:(lia) H3) in Hz. discriminate.
        * left. unfold Listed in *. congruence.
        * right. exists p, j, k. repeat split; assumption.
      + intros [-> | (p' & j' & k & H2' & H3 & Hlt' & Hz)]; [exists p, i, j; repeat split; assumption|].
        destruct (listed_inj h wf _ _ _ _ _ H2 H2') as [<- <-]. exists p, i, k. repeat split; try assumption. lia.
    - destruct HR as (p & j & i & H2 & H1 & Hlt & He & Hb). split.
      + intros (p' & k & i' & H3 & H1' & Hlt' & Hz). destruct (listed_inj h wf _ _ _ _ _ H1 H1') as [<- <-].
        destruct (Nat.lt_trichotomy k j) as [H | [-> | H]].
        * right. exists p, k, j. repeat split; assumption.
        * left. unfold Listed in *. congruence.
        * rewrite (Hb k z ltac:(lia) H3) in Hz. discriminate.
      + intros [-> | (p' & k & j' & H3 & H2' & Hlt' & Hz)]; [exists p, j, i; repeat split; assumption|].
        destruct (listed_inj h wf _ _ _ _ _ H2 H2') as [<- <-]. exists p, k, i. repeat split; try assumption. lia.
  Qed.
  (** The direction of the walk in the document. *)
  Definition Ahead (c : comb) (x y : id) : Prop := match c with Next => Before h x y | _ => Before h y x end.
  Lemma rel_ahead c x y : unit_comb c = true -> Rel h (all_of c) x y -> Ahead c x y.
  Proof.
    intros Hc HR. destruct c; try discriminate; cbn in HR |- *.
    - left. apply HR.
    - destruct HR as (p & i & j & H1 & H2 & Hlt & _). exact (listed_before h p i j x y H1 H2 Hlt).
    - destruct HR as (p & i & j & H1 & H2 & Hlt & _). exact (listed_before h p i j y x H1 H2 Hlt).
  Qed.
  Lemma ahead_asym c x y : ElIn h r x -> ElIn h r y -> Ahead c x y -> ~ Ahead c y x.
  Proof. intros Hx Hy. destruct c; apply (before_asym h wf r); first [exact (proj1 Hx) | exact (proj1 Hy)]. Qed.
  Lemma walk_length c x y : unit_comb c = true -> ElIn h r x -> Rel h c x y ->
    length (step_list h (all_of c) x) = S (length (step_list h (all_of c) y)).
  Proof.
    intros Hc Hx HR. destruct (unit_step c Hc) as [Hs Ha]. pose proof (rel_sym_el c x y Hs Hx HR) as Hy.
    assert (HP : Permutation (step_list h (all_of c) x) (y :: step_list h (all_of c) y)).
    { apply NoDup_Permutation.
      - exact (docset_nodup _ (step_docset _ x Ha Hx)).
      - constructor; [|exact (docset_nodup _ (step_docset _ y Ha Hy))]. intros Hi. apply (in_step _ y y Ha Hy) in Hi.
        apply (rel_ahead c y y Hc) in Hi. exact (ahead_asym c y y Hy Hy Hi Hi).
      - intros z. rewrite (in_step _ x z Ha Hx), (rel_split c x y z Hc Hx HR). cbn. rewrite (in_step _ y z Ha Hy). split; intros [H | H]; try (left; congruence); right; exact H. }
    rewrite (Permutation_length HP). reflexivity.
  Qed.
  Lemma until_ok c stop flt contains : unit_comb c = true -> AnyText h r text_of stop -> OptAny h r text_of flt ->
    forall fuel x, ElIn h r x -> length (step_list h (all_of c) x) < fuel ->
    exists l, until_loop h fuel c (compile_selector h text_of by_id true stop) (looked_text h text_of by_id flt) contains [x] = Ok l /\
      ForallOrdPairs (Ahead c) l /\ forall y, In y l <-> Stretch h c (Tested h text_of stop) contains x y /\ PassesT h text_of flt y.
  Proof.
    intros Hc HS HF. destruct (unit_step c Hc) as [Hs Ha]. induction fuel as [|f IH]; intros x Hx Hlen; [lia|].
    cbn [until_loop]. rewrite (all_find c x Hs Hx). cbn [rbind]. pose proof (unit_list c x Hc) as Hul. destruct (step_list h c x) as [|y [|]] eqn:E; [| |cbn in Hul; lia].
    - exists []. split; [reflexivity|]. split; [constructor|]. intros y. split; [intros []|]. intros [[HR _] _].
      destruct (rel_first c x y Hc Hx HR) as (z & Hz). apply (in_step c x z Hs Hx) in Hz. rewrite E in Hz. destruct Hz.
    - assert (HR : Rel h c x y) by (apply (in_step c x y Hs Hx); rewrite E; left; reflexivity).
      pose proof (rel_sym_el c x y Hs Hx HR) as Hy. clear E Hul. rewrite (walk_length c x y Hc Hx HR) in Hlen.
      pose proof (fun z => rel_split c x y z Hc Hx HR) as Hsp.
      destruct (is_one stop y HS Hy) as (l0 & ->). cbn [rbind snd].
      pose proof (testb_spec stop y HS Hy) as Hm.
      assert (Hfirst : forall u, Rel h (all_of c) x u -> ~ Rel h (all_of c) u y).
      { intros u Hu Huy. assert (Hue : ElIn h r u) by exact (rel_sym_el _ x u Ha Hx Hu). apply Hsp in Hu. apply (rel_ahead c u y Hc) in Huy. destruct Hu as [-> | Hu].
        - exact (ahead_asym c y y Hy Hy Huy Huy).
        - apply (rel_ahead c y u Hc) in Hu. exact (ahead_asym c y u Hy Hue Hu Huy). }
      set (st := testb stop y) in *.
      assert (Hpass : exists b, (match looked_text h text_of by_id flt with Some fs => do r0 <- filter_type_handle h [y] fs FIs; Ok (snd r0) | None => Ok true end) = Ok b /\ (b = true <-> PassesT h text_of flt y)).
      { destruct flt as [gs|]; cbn; [|exists true; split; [reflexivity | split; trivial]]. destruct (is_one gs y HF Hy) as (l1 & ->). eexists. split; [reflexivity|].
        exact (testb_spec gs y HF Hy). }
      destruct Hpass as (b & Eb & Hb).
      assert (Hyx : Rel h (all_of c) x y) by (apply Hsp; left; reflexivity).
      destruct st eqn:Est; cbn [andb negb].
      + assert (Hstop : Tested h text_of stop y) by (apply Hm; reflexivity). destruct contains; cbn [negb].
        * rewrite Eb. cbn [rbind]. exists (if b then [y] else []). split; [destruct b; reflexivity|].
          split; [destruct b; repeat constructor|]. intros z. destruct b; cbn.
          -- split; [intros [<- | []]; split; [split; [exact Hyx | split; [intros u Hu Huy; destruct (Hfirst u Hu Huy) | left; reflexivity]] | apply Hb; reflexivity]|].
             intros [(Hz & Hst & _) _]. apply Hsp in Hz. destruct Hz as [-> | Hz]; [left; reflexivity | destruct (Hst y Hyx Hz Hstop)].
          -- split; [intros []|]. intros [(Hz & Hst & _) Hp]. apply Hsp in Hz. destruct Hz as [-> | Hz]; [apply Hb in Hp; discriminate | destruct (Hst y Hyx Hz Hstop)].
        * exists []. split; [reflexivity|]. split; [constructor|]. intros z. split; [intros []|]. intros [(Hz & Hst & Hor) _]. apply Hsp in Hz.
          destruct Hz as [-> | Hz]; [destruct Hor as [Hor | Hor]; [discriminate | exact (Hor Hstop)] | exact (Hst y Hyx Hz Hstop)].
      + assert (Hns : ~ Tested h text_of stop y) by (intros H; apply Hm in H; discriminate).
        rewrite Eb. cbn [rbind]. destruct (IH y Hy ltac:(lia)) as (l & -> & Hord & Hl). cbn [rbind].
        exists ((if b then [y] else []) ++ l). split; [reflexivity|].
        assert (Hrest : forall z, Stretch h c (Tested h text_of stop) contains x z <-> z = y \/ Stretch h c (Tested h text_of stop) contains y z).
        { intros z. split.
          - intros (Hz & Hst & Hor). apply Hsp in Hz. destruct Hz as [-> | Hz]; [left; reflexivity|]. right. split; [exact Hz|]. split; [|exact Hor].
            intros u Hu. apply Hst, Hsp. right. exact Hu.
          - intros [-> | (Hz & Hst & Hor)].
            + split; [exact Hyx|]. split; [intros u Hu Huy; destruct (Hfirst u Hu Huy) | right; exact Hns].
            + split; [apply Hsp; right; exact Hz|]. split; [|exact Hor]. intros u Hu Huz. apply Hsp in Hu. destruct Hu as [-> | Hu]; [exact Hns | exact (Hst u Hu Huz)]. }
        split.
        * destruct b; cbn; [|exact Hord]. constructor; [|exact Hord]. apply Forall_forall. intros z Hz. apply Hl in Hz. destruct Hz as [(Hz & _) _]. exact (rel_ahead c y z Hc Hz).
        * intros z. rewrite in_app_iff, Hl, Hrest. destruct b; cbn.
          -- split; [intros [[<- | []] | [H1 H2]] | intros [[-> | H1] H2]]; [split; [left; reflexivity | apply Hb; reflexivity] | split; [right; exact H1 | exact H2] | left; left; reflexivity | right; split; assumption].
          -- split; [intros [[] | [H1 H2]] | intros [[-> | H1] H2]]; [split; [right; exact H1 | exact H2] | apply Hb in H2; discriminate | right; split; assumption].
  Qed.
  Lemma pairs_rev {A} (R : A -> A -> Prop) l : ForallOrdPairs (fun a b => R b a) l -> ForallOrdPairs R (rev l).
  Proof.
    induction 1 as [|x l H1 _ IH]; [constructor|]. cbn. apply pairs_app. split; [exact IH|]. split; [repeat constructor|].
    intros a b Ha [<- | []]. rewrite <- in_rev in Ha. rewrite Forall_forall in H1. exact (H1 a Ha).
  Qed.
  Lemma until_start c x : unit_comb c = true -> ElIn h r x -> length (step_list h (all_of c) x) < dfs_fuel h.
  Proof.
    intros Hc Hx. destruct (unit_step c Hc) as [Hs Ha]. unfold dfs_fuel. apply le_n_S.
    rewrite <- (seq_length (length h) 0) at 1. apply NoDup_incl_length; [exact (docset_nodup _ (step_docset _ x Ha Hx))|].
    intros y Hy. apply in_seq. pose proof (step_els _ x Ha Hx) as HE. rewrite Forall_forall in HE. pose proof (HE y Hy) as Hye. cbn. split; [lia|].
    destruct (el_parent h r D y Hye) as (q & _ & _ & Hl). exact (proj1 (wf_listed h wf _ _ _ Hl)).
  Qed.

  (** * Upwards *)
  Lemma up_rel x y : ElIn h r x -> (Upwards h x y <-> y = x \/ Rel h ParentAll x y).
  Proof.
    intros Hx. unfold Upwards, AncEq. cbn. split.
    - intros [[-> | Ha] He]; [left; reflexivity | right; split; assumption].
    - intros [-> | [Ha He]]; [split; [left; reflexivity | apply Hx] | split; [right; exact Ha | exact He]].
  Qed.
  Lemma nearest_self (P : id -> Prop) x y : ElIn h r x -> P x -> (Nearest h P x y <-> y = x).
  Proof.
    intros Hx HP. split.
    - intros (Hu & _ & Hn). apply (up_rel x y Hx) in Hu. destruct Hu as [-> | [Ha He]]; [reflexivity|].
      destruct (Hn x ltac:(apply (up_rel x x Hx); left; reflexivity) Ha HP).
    - intros ->. split; [apply (up_rel x x Hx); left; reflexivity|]. split; [exact HP|]. intros z [[-> | Ha] _] Hb; [destruct (anc_irrefl h wf _ Hb) | destruct (anc_asym h wf _ _ Ha Hb)].
  Qed.
  Lemma nearest_up (P : id -> Prop) x p y : ElIn h r x -> ~ P x -> Rel h Parent x p -> (Nearest h P x y <-> Nearest h P p y).
  Proof.
    intros Hx HP HR. pose proof (rel_sym_el Parent x p eq_refl Hx HR) as Hp.
    assert (Hup : forall z, Upwards h x z <-> z = x \/ Upwards h p z).
    { intros z. rewrite (up_rel x z Hx), (up_rel p z Hp). pose proof (rel_split Parent x p z eq_refl Hx HR) as Hs. cbn [all_of] in Hs. rewrite Hs. reflexivity. }
    assert (Hxp : Anc h p x) by (destruct HR as [HR _]; exact (Anc_child h p x HR)).
    split.
    - intros (Hu & Hy & Hn). apply Hup in Hu. destruct Hu as [-> | Hu]; [contradiction|]. split; [exact Hu|]. split; [exact Hy|].
      intros z Hz. apply Hn, Hup. right. exact Hz.
    - intros (Hu & Hy & Hn). split; [apply Hup; right; exact Hu|]. split; [exact Hy|]. intros z Hz Ha. apply Hup in Hz. destruct Hz as [-> | Hz]; [exact HP | exact (Hn z Hz Ha)].
  Qed.
  Lemma nearest_none (P : id -> Prop) x y : ElIn h r x -> ~ P x -> step_list h Parent x = [] -> ~ Nearest h P x y.
  Proof.
    intros Hx HP E (Hu & Hy & _). apply (up_rel x y Hx) in Hu. destruct Hu as [-> | Hu]; [contradiction|].
    destruct (rel_first Parent x y eq_refl Hx Hu) as (p & Hp). apply (in_step Parent x p eq_refl Hx) in Hp. rewrite E in Hp. destruct Hp.
  Qed.
  Lemma closest_loop_ok gs : AnyText h r text_of gs ->
    forall fuel x, ElIn h r x -> length (step_list h ParentAll x) < fuel ->
    exists l, closest_loop h fuel (compile_selector h text_of by_id true gs) x = Ok l /\ forall y, In y l <-> Nearest h (Tested h text_of gs) x y.
  Proof.
    intros HT. induction fuel as [|f IH]; intros x Hx Hlen; [lia|]. cbn [closest_loop].
    destruct (is_one gs x HT Hx) as (l0 & ->). cbn [rbind snd]. pose proof (testb_spec gs x HT Hx) as Hm.
    destruct (testb gs x) eqn:E.
    - exists [x]. split; [reflexivity|]. intros y. rewrite (nearest_self _ x y Hx); [|apply Hm; reflexivity]. cbn. split; [intros [<- | []]; reflexivity | intros ->; left; reflexivity].
    - assert (HN : ~ Tested h text_of gs x) by (intros H; apply Hm in H; discriminate).
      destruct (el_parent h r D x Hx) as (p & Ep & Hp & Hl). rewrite Ep. destruct (is_root h p) eqn:Er.
      + exists []. split; [reflexivity|]. intros y. split; [intros []|]. apply (nearest_none _ x y Hx HN). cbn [step_list]. unfold parent_el. rewrite Ep, Er. reflexivity.
      + assert (HR : Rel h Parent x p). { apply (in_step Parent x p eq_refl Hx). cbn [step_list]. unfold parent_el. rewrite Ep, Er. left. reflexivity. }
        pose proof (rel_sym_el Parent x p eq_refl Hx HR) as Hpe. pose proof (walk_length Parent x p eq_refl Hx HR) as HL. cbn [all_of] in HL.
        destruct (IH p Hpe ltac:(lia)) as (l & -> & Hl'). exists l. split; [reflexivity|]. intros y. rewrite (nearest_up _ x p y Hx HN HR). apply Hl'.
  Qed.
  Lemma closest_ok gs els : AnyText h r text_of gs -> Forall (ElIn h r) els ->
    exists l, el_closest h els (compile_selector h text_of by_id true gs) = Ok l /\ (Ordered h els -> Ordered h l) /\
      forall y, In y l <-> exists x, In x els /\ Nearest h (Tested h text_of gs) x y.
  Proof.
    intros HT HE. unfold el_closest. rewrite Forall_forall in HE. set (sel := compile_selector h text_of by_id true gs). set (m := testb gs).
    assert (Hm : forall x, In x els -> (m x = true <-> Tested h text_of gs x)) by (intros x Hx; exact (testb_spec gs x HT (HE x Hx))).
    rewrite (rfilter_ok (fun x => do r0 <- filter_type_handle h [x] sel FIs; Ok (snd r0)) m).
    2:{ intros x Hx. destruct (is_one gs x HT (HE x Hx)) as (l0 & E). unfold sel. rewrite E. reflexivity. }
    rewrite (rfilter_ok (fun x => do r0 <- filter_type_handle h [x] sel FIs; Ok (negb (snd r0))) (fun x => negb (m x))).
    2:{ intros x Hx. destruct (is_one gs x HT (HE x Hx)) as (l0 & E). unfold sel. rewrite E. reflexivity. }
    cbn [rbind]. set (others := filter (fun x => negb (m x)) els).
    assert (HO : forall x, In x others <-> In x els /\ ~ Tested h text_of gs x).
    { intros x. unfold others. rewrite filter_In, negb_true_iff. split; intros [H1 H2]; (split; [exact H1|]).
      - intros H. apply (Hm x H1) in H. congruence.
      - destruct (m x) eqn:E; [|reflexivity]. destruct H2. apply (Hm x H1). exact E. }
    assert (HOE : Forall (InTree h r) others) by (apply Forall_forall; intros x Hx; apply HO in Hx; exact (proj1 (HE x (proj1 Hx)))).
    destruct (nonempty others) eqn:En.
    - rewrite (us_first h r D others HOE). cbn [rbind].
      assert (HF : forall l0, (forall x, In x l0 -> ElIn h r x) -> exists l, rflat (closest_loop h (dfs_fuel h) sel) l0 = Ok l /\ forall y, In y l <-> exists x, In x l0 /\ Nearest h (Tested h text_of gs) x y).
      { induction l0 as [|x l0 IH]; intros H0.
        - exists []. split; [reflexivity|]. intros y. split; [intros [] | intros (x & [] & _)].
        - destruct (closest_loop_ok gs HT (dfs_fuel h) x (H0 x (or_introl eq_refl)) (until_start Parent x eq_refl (H0 x (or_introl eq_refl)))) as (l1 & E1 & H1).
          destruct (IH (fun x' Hx' => H0 x' (or_intror Hx'))) as (l2 & E2 & H2). cbn [rflat]. unfold sel at 1. rewrite E1. cbn [rbind]. rewrite E2. cbn [rbind].
          exists (l1 ++ l2). split; [reflexivity|]. intros y. rewrite in_app_iff, H1, H2. split.
          + intros [H | (x' & Hx' & H)]; [exists x; split; [left; reflexivity | exact H] | exists x'; split; [right; exact Hx' | exact H]].
          + intros (x' & [<- | Hx'] & H); [left; exact H | right; exists x'; split; assumption]. }
      destruct (HF (firsts h [] others)) as (ups & -> & Hups).
      { intros x Hx. apply firsts_sub in Hx. apply HO in Hx. exact (HE x (proj1 Hx)). }
      cbn [rbind].
      assert (HU : forall y, In y (filter m els ++ ups) <-> exists x, In x els /\ Nearest h (Tested h text_of gs) x y).
      { intros y. rewrite in_app_iff, filter_In, Hups. split.
        - intros [[H1 H2] | (x & Hx & H)].
          + exists y. split; [exact H1|]. apply (nearest_self _ y y (HE y H1)); [apply (Hm y H1); exact H2 | reflexivity].
          + apply firsts_sub in Hx. apply HO in Hx. exists x. split; [apply Hx | exact H].
        - intros (x & Hx & H). destruct (m x) eqn:E.
          + left. pose proof (proj1 (nearest_self _ x y (HE x Hx) (proj1 (Hm x Hx) E)) H) as ->. split; assumption.
          + right. assert (Hxo : In x others) by (apply HO; split; [exact Hx|]; intros H'; apply (Hm x Hx) in H'; congruence).
            destruct (firsts_cover h others x Hxo) as (x' & Hx' & Ep). exists x'. split; [exact Hx'|]. apply firsts_sub in Hx'. apply HO in Hx'. destruct Hx' as [Hx' HN'].
            apply HO in Hxo. destruct Hxo as [_ HN]. assert (Epl : step_list h Parent x' = step_list h Parent x) by (cbn [step_list]; unfold parent_el; rewrite Ep; reflexivity).
            destruct (step_list h Parent x) as [|p pl] eqn:El; [destruct (nearest_none _ x y (HE x Hx) HN El H)|].
            assert (R1 : Rel h Parent x p) by (apply (in_step Parent x p eq_refl (HE x Hx)); rewrite El; left; reflexivity).
            assert (R2 : Rel h Parent x' p) by (apply (in_step Parent x' p eq_refl (HE x' Hx')); rewrite Epl; left; reflexivity).
            apply (nearest_up _ x' p y (HE x' Hx') HN' R2). apply (nearest_up _ x p y (HE x Hx) HN R1). exact H. }
      assert (HA : AllIn h r (filter m els ++ ups)).
      { apply Forall_forall. intros y Hy. apply HU in Hy. destruct Hy as (x & Hx & (Hu & _)). apply (intree_anc h wf r x y (proj1 (HE x Hx))). apply Hu. }
      destruct (sort_and_unique_ok h wf r _ HA) as (l & -> & HD & HSm). exists l. split; [reflexivity|]. split; [intros _; apply HD|].
      intros y. rewrite <- HU. apply HSm.
    - exists (filter m els). split; [reflexivity|]. split; [intros Ho; apply ordered_filter; exact Ho|].
      assert (Hall : forall x, In x els -> m x = true).
      { intros x Hx. destruct (m x) eqn:E; [reflexivity|]. assert (Hi : In x others) by (unfold others; rewrite filter_In, E; split; [exact Hx | reflexivity]).
        apply nonempty_false in En. rewrite En in Hi. destruct Hi. }
      intros y. rewrite filter_In. split.
      + intros [H1 H2]. exists y. split; [exact H1|]. apply (nearest_self _ y y (HE y H1)); [apply (Hm y H1); exact H2 | reflexivity].
      + intros (x & Hx & H). pose proof (proj1 (nearest_self _ x y (HE x Hx) (proj1 (Hm x Hx) (Hall x Hx))) H) as ->. split; [exact Hx | exact (Hall x Hx)].
  Qed.

  (** * The public calls *)
  Lemma passes_docset flt c x : step_comb c = true -> ElIn h r x -> DocSet h r (filter (passesb flt) (step_list h c x)).
  Proof. intros Hc Hx. exact (filter_docset h r (passesb flt) _ (step_els c x Hc Hx) (step_ordered c x Hc Hx)). Qed.
  Lemma looked_plain flt : match flt with Some gs => one_compound gs = true | None => True end -> looked_text h text_of by_id flt = plain_text h text_of by_id flt.
  Proof.
    destruct flt as [gs|]; [|reflexivity]. intros H. cbn [looked_text plain_text option_map]. f_equal. unfold compile_selector, optimize. unfold one_compound in H.
    induction gs as [|g gs IH]; [reflexivity|]. cbn [forallb] in H. apply andb_true_iff in H. destruct H as [H1 H2]. cbn [compile_groups map]. f_equal; [|exact (IH H2)].
    destruct g as [|cp [|cp' g]]; try discriminate. unfold optimize_group. cbn [map max_index_from fst snd]. destruct (0 <? total_prio _)%N; reflexivity.
  Qed.
  Lemma step_ast_ok c flt x : step_comb c = true -> ElIn h r x -> FltOk h r text_of c flt x ->
    step_ast h text_of by_id c [x] flt = Ok (filter (passesb flt) (step_list h c x)).
  Proof.
    intros Hc Hx HF. pose proof (traverse_one c flt x Hc Hx HF) as HT. destruct c; try discriminate; cbn [step_ast]; try exact HT;
      try (unfold Engine.el_next_all; rewrite (us_one x Hx); exact HT); try (unfold Engine.el_prev_all; rewrite (us_one_last x Hx); exact HT).
    - unfold Engine.el_parent. rewrite (us_one x Hx). exact HT.
    - unfold el_parents. rewrite (us_one x Hx). cbn [rbind]. rewrite HT. cbn [rbind]. exact (sorted_same _ (passes_docset flt ParentAll x eq_refl Hx)).
    - rewrite looked_plain by (destruct flt as [gs|]; [apply HF | exact I]). unfold el_siblings. rewrite (ua_one x Hx). cbn [rbind rflat].
      assert (E : find_selector h [x] match plain_text h text_of by_id flt with Some s => head_combinator Siblings s | None => from_segment (make_comb_all Siblings) end =
        Ok (filter (passesb flt) (step_list h Siblings x))).
      { rewrite <- HT. unfold select_with_comb. destruct (plain_text h text_of by_id flt); reflexivity. }
      rewrite E. cbn [rbind]. rewrite app_nil_r. exact (sort_same _ (passes_docset flt Siblings x eq_refl Hx)).
  Qed.
  Lemma until_ast_ok c stop flt contains x : unit_comb c = true -> AnyText h r text_of stop -> OptAny h r text_of flt ->
    ElIn h r x -> exists l, until_ast h text_of by_id c [x] stop flt contains = Ok l /\ Ordered h l /\
      forall y, In y l <-> Stretch h c (Tested h text_of stop) contains x y /\ PassesT h text_of flt y.
  Proof.
    intros Hc HS HF Hx. destruct (unit_step c Hc) as [_ Ha].
    destruct (until_ok c stop flt contains Hc HS HF (dfs_fuel h) x Hx (until_start c x Hc Hx)) as (l & E & Ho & Hl).
    assert (EU : select_until h [x] (compile_selector h text_of by_id true stop) (looked_text h text_of by_id flt) contains c = Ok l).
    { unfold select_until. cbn [rflat]. rewrite E. cbn [rbind]. rewrite app_nil_r. reflexivity. }
    destruct c; try discriminate; cbn [until_ast].
    - unfold el_parents_until. rewrite (us_one x Hx). cbn [rbind]. rewrite EU. cbn [rbind].
      assert (HA : AllIn h r l). { apply Forall_forall. intros y Hy. apply Hl in Hy. destruct Hy as [(Hy & _) _]. exact (proj1 (rel_sym_el _ x y Ha Hx Hy)). }
      destruct (sort_and_unique_ok h wf r l HA) as (l' & -> & HD & HM). exists l'. split; [reflexivity|]. split; [apply HD|]. intros y. rewrite <- Hl. apply HM.
    - unfold el_next_until. rewrite (us_one x Hx). cbn [rbind]. rewrite EU. exists l. split; [reflexivity|]. split; [apply ordered_pairs; exact Ho | exact Hl].
    - unfold el_prev_until. rewrite (us_one_last x Hx). cbn [rbind]. rewrite EU. exists (rev l). split; [reflexivity|].
      split; [apply ordered_pairs; apply pairs_rev; exact Ho|]. intros y. rewrite <- in_rev. apply Hl.
  Qed.

  (** Equivalent stop texts give the same stretch. *)
  Lemma stretch_ext c (P Q : id -> Prop) contains x y : (forall z, P z <-> Q z) -> (Stretch h c P contains x y <-> Stretch h c Q contains x y).
  Proof.
    intros H. unfold Stretch. split; intros (H1 & H2 & H3); (split; [exact H1|]); (split; [intros z Hz Hzy HP; apply (H2 z Hz Hzy), H, HP|]); (destruct H3 as [H3 | H3]; [left; exact H3 | right; intros HP; apply H3, H, HP]).
  Qed.
  Lemma nearest_ext (P Q : id -> Prop) x y : (forall z, P z <-> Q z) -> (Nearest h P x y <-> Nearest h Q x y).
  Proof.
    intros H. unfold Nearest. split; intros (H1 & H2 & H3); (split; [exact H1|]); (split; [apply H; exact H2|]); intros z Hz Ha HP; apply (H3 z Hz Ha), H, HP.
  Qed.
  Lemma passes_plain flt y : OptOk h r text_of flt -> opt_no_lookup flt = true -> (PassesT h text_of flt y <-> Passes h text_of flt y).
  Proof. destruct flt as [gs|]; [|reflexivity]. intros [_ Hw] Hn. exact (tested_plain gs y Hw Hn). Qed.
  Lemma optany_ok flt : OptOk h r text_of flt -> OptAny h r text_of flt.
  Proof. destruct flt as [gs|]; [exact (anytext_ok gs) | trivial]. Qed.
End Trav.
