(** Searches that start from a later compound and look back, on an element left over from a dropped document. *)
From Coq Require Import Permutation.
From Verif Require Import Base Attr Dom DomSpec Order OrderSpec DomProofs OrderProofs NavProofs Sets SelSpec PreProofs StepProofs OneProofs Mutate Nth Engine Rules RuleProofs Parse Query Reports ReportsStay
  SibLists FindSpec FindProofs FindRules Lifetime LifetimeSpec LifetimeProofs LifetimeQuery LifetimeForward.

(** What a matcher that asks one element at a time answers. *)
Definition says (m : matcher) (x : id) : bool :=
  match mt_one m with
  | Some g => match g x with Ok b => b | _ => false end
  | None => true
  end.
Definition comp_says (k : heap) text_of by_id (cp : list (rule * comb)) (x : id) : bool :=
  forallb (fun e : rule * comb => says (compile k text_of by_id (fst e)) x) cp.
Definition backish (c : comb) : bool := match c with Parent | ParentAll | Prev | PrevAll => true | _ => false end.
(** The candidates of a step back from a set. *)
Definition Base (k : heap) (c : comb) (els b : list id) : Prop :=
  match c with
  | Parent => b = flat_map (parent_el k) (firsts k [] els)
  | ParentAll => sort_and_unique k (flat_map (anc_list (dfs_fuel k) k) els) = Ok b
  | Prev => b = flat_map (prev_list k) els
  | PrevAll => b = flat_map (preceding_list k) (rev (firsts k [] (rev els)))
  | _ => False
  end.
Lemma filter_all {A} (l : list A) : filter (fun _ => true) l = l.
Proof. induction l as [|x l IH]; [reflexivity|]. cbn. rewrite IH. reflexivity. Qed.
Lemma forallb_perm {A} (f : A -> bool) l m : Permutation l m -> forallb f l = forallb f m.
Proof.
  intros H. apply eq_true_iff_eq. rewrite !forallb_forall. split; intros G x Hx; apply G.
  - exact (Permutation_in _ (Permutation_sym H) Hx).
  - exact (Permutation_in _ H Hx).
Qed.
Lemma filter_swap {A} (f g : A -> bool) l : filter f (filter g l) = filter g (filter f l).
Proof. induction l as [|x l IH]; [reflexivity|]. cbn. destruct (f x) eqn:Ef, (g x) eqn:Eg; cbn; rewrite ?Ef, ?Eg, IH; reflexivity. Qed.

(** * Steps back in any tree *)
Section Any.
  Variable k : heap.
  Variable T : id.
  Hypothesis wf : WF k.
  Local Notation Els := (Forall (ElIn k T)).
  Local Notation Ins := (Forall (InTree k T)).

  Lemma any_us l : Ins l -> forall seen prev root keep,
    Forall (fun o => forall p, o = Some p -> InTree k T p) seen ->
    (forall p, prev = Some p -> In (Some p) seen) -> (root = true <-> In None seen) ->
    exists s, rfold (us_step k) l (mkUS (seen_paths k seen) prev root keep) = Ok s /\ us_keep s = keep ++ firsts k seen l.
  Proof.
    induction l as [|x l IH]; intros Hl seen prev root keep Hs Hp Hr.
    { eexists. split; [reflexivity|]. cbn. rewrite app_nil_r. reflexivity. }
    inversion Hl as [|x0 l0 Hx Hl']; subst. cbn [rfold firsts]. unfold us_step at 1. destruct (parent k x) as [p|] eqn:E.
    - destruct (intree_parent k wf T x p Hx E) as [Hpin _].
      assert (Hex : existsb (opt_eqb (Some p)) seen = existsb (idx_eqb (key k p)) (seen_paths k seen)).
      { apply eq_true_iff_eq. rewrite !existsb_exists. split.
        - intros (o & Ho & Eo). apply opt_eqb_spec in Eo. subst o. exists (key k p). split; [|apply idx_eqb_spec; reflexivity].
          apply in_flat_map. exists (Some p). split; [exact Ho | left; reflexivity].
        - intros (j & Hk & Ek). apply idx_eqb_spec in Ek. subst j. apply in_flat_map in Hk. destruct Hk as ([q|] & Hq & Hk); [|destruct Hk].
          destruct Hk as [Hk | []]. rewrite Forall_forall in Hs. exists (Some q). split; [exact Hq|]. apply opt_eqb_spec. f_equal. symmetry.
          exact (key_inj k wf T q p (Hs _ Hq q eq_refl) Hpin Hk). }
      cbn [us_prev us_paths us_root us_keep].
      destruct (match prev with Some q => p =? q | None => false end) eqn:Eprev.
      + destruct prev as [q|]; [|discriminate]. apply Nat.eqb_eq in Eprev. subst q.
        assert (Hin : existsb (opt_eqb (Some p)) seen = true).
        { apply existsb_exists. exists (Some p). split; [exact (Hp p eq_refl) | apply opt_eqb_spec; reflexivity]. }
        rewrite Hin. cbn [rbind]. apply IH; assumption.
      + rewrite (tree_indexs_key k wf). cbn [rbind]. rewrite <- Hex. destruct (existsb (opt_eqb (Some p)) seen) eqn:Ein.
        * cbn [rbind]. apply IH; [exact Hl' | exact Hs | | exact Hr]. intros q Eq. injection Eq as <-.
          apply existsb_exists in Ein. destruct Ein as (o & Ho & Eo). apply opt_eqb_spec in Eo. subst o. exact Ho.
        * cbn [rbind]. destruct (IH Hl' (Some p :: seen) (Some p) root (keep ++ [x])) as (s & H1 & H2).
          -- constructor; [|exact Hs]. intros q Eq. injection Eq as <-. exact Hpin.
          -- intros q Eq. injection Eq as <-. left. reflexivity.
          -- rewrite Hr. cbn. split; [tauto | intros [H | H]; [discriminate | exact H]].
          -- exists s. split; [exact H1|]. rewrite H2, <- app_assoc. reflexivity.
    - cbn [us_prev us_paths us_root us_keep].
      assert (Hex : existsb (opt_eqb None) seen = root).
      { apply eq_true_iff_eq. rewrite Hr, existsb_exists. split.
        - intros (o & Ho & Eo). apply opt_eqb_spec in Eo. subst o. exact Ho.
        - intros H. exists None. split; [exact H | reflexivity]. }
      rewrite Hex. destruct root.
      + cbn [rbind]. apply IH; assumption.
      + cbn [rbind]. destruct (IH Hl' (None :: seen) prev true (keep ++ [x])) as (s & H1 & H2).
        * constructor; [discriminate | exact Hs].
        * intros q Eq. right. exact (Hp q Eq).
        * split; [left; reflexivity | reflexivity].
        * exists s. split; [exact H1|]. rewrite H2, <- app_assoc. reflexivity.
  Qed.
  Lemma any_first l : Ins l -> unique_sibling_first k l = Ok (firsts k [] l).
  Proof.
    intros Hl. unfold unique_sibling_first, us_init. destruct (any_us l Hl [] None false []) as (s & H1 & H2); [constructor | discriminate | split; [discriminate | intros []]|].
    cbn [seen_paths flat_map] in H1. rewrite H1. cbn. rewrite H2. reflexivity.
  Qed.
  Lemma any_last l : Ins l -> unique_sibling_last k l = Ok (rev (firsts k [] (rev l))).
  Proof.
    intros Hl. unfold unique_sibling_last, us_init. apply Forall_rev in Hl. destruct (any_us (rev l) Hl [] None false []) as (s & H1 & H2); [constructor | discriminate | split; [discriminate | intros []]|].
    cbn [seen_paths flat_map] in H1. rewrite H1. cbn. rewrite H2. reflexivity.
  Qed.
  Lemma any_up x p : InTree k T x -> parent k x = Some p -> is_root k p = false -> ElIn k T p.
  Proof.
    intros Hx E Er. split; [exact (proj1 (intree_parent k wf T x p Hx E))|]. destruct (wf_parent k wf x p E) as [_ [He | Hr]]; [exact He | congruence].
  Qed.
  Lemma any_ancestors : forall f x, InTree k T x -> length (key k x) <= f -> ancestors k f x = Ok (anc_list f k x) /\ Els (anc_list f k x).
  Proof.
    induction f as [|f IH]; intros x Hx Hf.
    - pose proof (key_nonempty k wf x). destruct (key k x); [congruence | cbn in Hf; lia].
    - cbn [ancestors anc_list]. destruct (parent k x) as [p|] eqn:E; [|split; [reflexivity | constructor]]. destruct (is_root k p) eqn:Er; [split; [reflexivity | constructor]|].
      destruct (intree_parent k wf T x p Hx E) as [Hp _]. destruct (IH p Hp) as [E1 E2].
      + rewrite (key_down k wf x p E), app_length in Hf. cbn in Hf. lia.
      + rewrite E1. split; [reflexivity|]. apply Forall_app. split; [exact E2|]. constructor; [exact (any_up x p Hx E Er) | constructor].
  Qed.
  Lemma any_index x p : InTree k T x -> parent k x = Some p -> index k x <=? length (kids k p) = true.
  Proof.
    intros Hx E. destruct (intree_parent k wf T x p Hx E) as [Hp Hl]. apply Nat.leb_le.
    assert (Hlt : index k x < length (kids k p)) by (apply nth_error_Some; unfold Listed in Hl; rewrite Hl; discriminate). lia.
  Qed.
  Lemma any_prevs x : InTree k T x -> previous_element_siblings k x = Ok (preceding_list k x).
  Proof.
    intros Hx. unfold previous_element_siblings, preceding_list. destruct (parent k x) as [p|] eqn:E; [|reflexivity]. rewrite (any_index x p Hx E). reflexivity.
  Qed.
  Lemma any_prev x : InTree k T x -> (do p <- previous_element_sibling k x; Ok (opt_list p)) = Ok (prev_list k x).
  Proof.
    intros Hx. unfold previous_element_sibling, prev_list, preceding_list. destruct (parent k x) as [p|] eqn:E; [|reflexivity].
    rewrite (any_index x p Hx E). cbn [rbind]. rewrite <- filter_rev. reflexivity.
  Qed.
  Lemma preceding_kid x y : In y (preceding_list k x) -> exists p, parent k x = Some p /\ In y (kids k p) /\ is_element k y = true.
  Proof.
    unfold preceding_list. destruct (parent k x) as [p|]; [|intros []]. intros H. apply filter_In in H. destruct H as [H He]. exists p.
    split; [reflexivity|]. split; [exact (incl_firstn _ _ y H) | exact He].
  Qed.
  Lemma prev_preceding x y : In y (prev_list k x) -> In y (preceding_list k x).
  Proof.
    unfold prev_list. intros H. apply in_rev. destruct (rev (preceding_list k x)) as [|z l]; [destruct H|]. destruct H as [<- | []]. left. reflexivity.
  Qed.
  Lemma preceding_els x : InTree k T x -> Els (preceding_list k x).
  Proof.
    intros Hx. apply Forall_forall. intros y Hy. destruct (preceding_kid x y Hy) as (p & E & Hk & He). split; [|exact He].
    destruct (intree_parent k wf T x p Hx E) as [[Hp (l & HP)] _]. split; [exact Hp|]. apply In_nth_error in Hk. destruct Hk as (i & Hi). exists (l ++ [i]). econstructor; [exact HP | exact Hi].
  Qed.
  Lemma els_flat (F : id -> list id) l : Ins l -> (forall x, InTree k T x -> Els (F x)) -> Els (flat_map F l).
  Proof.
    intros Hl HF. apply Forall_forall. intros y Hy. apply in_flat_map in Hy. destruct Hy as (x & Hx & Hy). rewrite Forall_forall in Hl. specialize (HF x (Hl x Hx)).
    rewrite Forall_forall in HF. exact (HF y Hy).
  Qed.
  Lemma firsts_ins l : Ins l -> Ins (firsts k [] l).
  Proof. intros H. apply Forall_forall. intros x Hx. apply firsts_sub in Hx. rewrite Forall_forall in H. exact (H x Hx). Qed.
  Lemma els_ins l : Els l -> Ins l.
  Proof. apply Forall_impl. intros x H. apply H. Qed.

  Hypothesis attrs : forall x, ElIn k T x -> forall n, exists a, node_attribute k x n = Ok a.
  Variable text_of : id -> str.
  Variable by_id : id -> str -> option id.
  Inductive Plain : matcher -> Prop :=
  | Plain_all : Plain all_matcher
  | Plain_one r g : (forall x, ElIn k T x -> exists b, g x = Ok b) -> Plain (one r g).
  Lemma own_plain r : own_rule r = true -> Plain (compile k text_of by_id r).
  Proof.
    destruct r; cbn; try discriminate; intros _; try (apply Plain_one; intros x Hx).
    - constructor.
    - eexists. reflexivity.
    - unfold class_one. destruct (attrs x Hx (lit "class")) as (a & ->). eexists. reflexivity.
    - unfold attr_one. match goal with |- context [node_attribute k x ?n] => destruct (attrs x Hx n) as (a & ->) end. eexists. reflexivity.
    - eexists. reflexivity.
    - eexists. reflexivity.
  Qed.
  Lemma plain_filter r g els : (forall x, ElIn k T x -> exists b, g x = Ok b) -> Els els -> rfilter g els = Ok (filter (says (one r g)) els).
  Proof.
    intros Hg HE. apply rfilter_ok. intros x Hx. rewrite Forall_forall in HE. destruct (Hg x (HE x Hx)) as (b & E). unfold says. cbn. rewrite E. reflexivity.
  Qed.
  Lemma plain_apply m els : Plain m -> Els els -> apply m els None = Ok (filter (says m) els).
  Proof. intros [|r g Hg] HE; [cbn; unfold says; cbn; rewrite filter_all; reflexivity | exact (plain_filter r g els Hg HE)]. Qed.
  Lemma plain_match m els : Plain m -> Els els -> match mt_one m with Some g => rfilter g els | None => do g <- get_all_handle m; g els None end = Ok (filter (says m) els).
  Proof. intros [|r g Hg] HE; [cbn; unfold says; cbn; rewrite filter_all; reflexivity | exact (plain_filter r g els Hg HE)]. Qed.

  Lemma any_step m els c : Plain m -> backish c = true -> Ins els -> exists b, Base k c els b /\ Els b /\ select_by_rule k els m c = Ok (filter (says m) b).
  Proof.
    intros HM Hc HE. destruct c; try discriminate; cbn [select_by_rule Base].
    - (* Parent *)
      assert (HB : Els (flat_map (parent_el k) (firsts k [] els))).
      { apply els_flat; [exact (firsts_ins els HE)|]. intros x Hx. unfold parent_el. destruct (parent k x) as [p|] eqn:E; [|constructor].
        destruct (is_root k p) eqn:Er; [constructor|]. constructor; [exact (any_up x p Hx E Er) | constructor]. }
      eexists. split; [reflexivity|]. split; [exact HB|]. rewrite (any_first els HE). cbn [rbind]. exact (plain_match m _ HM HB).
    - (* ParentAll *)
      set (anc := flat_map (anc_list (dfs_fuel k) k) els).
      assert (HA : forall x, InTree k T x -> ancestors k (dfs_fuel k) x = Ok (anc_list (dfs_fuel k) k x) /\ Els (anc_list (dfs_fuel k) k x)).
      { intros x Hx. exact (any_ancestors _ x Hx (key_length k wf x)). }
      assert (HAE : Els anc) by (apply els_flat; [exact HE | intros x Hx; apply (HA x Hx)]).
      destruct (sort_and_unique_ok k wf T anc (els_ins anc HAE)) as (b & Eb & [Hb1 Hb2] & Hb3). exists b. split; [exact Eb|].
      assert (HB : Els b) by (rewrite Forall_forall in *; intros y Hy; apply HAE, Hb3, Hy). split; [exact HB|]. rewrite Forall_forall in HE.
      destruct HM as [|r g Hg]; cbn [all_matcher one mt_one get_all_handle mt_all rbind].
      + rewrite (rflat_ok _ (anc_list (dfs_fuel k) k)) by (intros x Hx; apply (HA x (HE x Hx))). cbn [rbind]. fold anc. rewrite Eb. cbn [rbind]. unfold says. cbn. rewrite filter_all. reflexivity.
      + rewrite (rflat_ok _ (fun x => filter (says (one r g)) (anc_list (dfs_fuel k) k x))).
        2:{ intros x Hx. rewrite (proj1 (HA x (HE x Hx))). cbn [rbind]. exact (plain_filter r g _ Hg (proj2 (HA x (HE x Hx)))). }
        cbn [rbind]. rewrite <- filter_flat_map. fold anc.
        assert (HF : AllIn k T (filter (says (one r g)) anc)) by (apply Forall_forall; intros y Hy; apply filter_In in Hy; rewrite Forall_forall in HAE; apply (HAE y), Hy).
        destruct (sort_and_unique_ok k wf T _ HF) as (b2 & -> & [H1 H2] & H3). f_equal. apply (ordered_unique k wf T); [exact H1 | exact H2 | apply OrderProofs.ordered_filter; exact Hb2|].
        intros y. rewrite (H3 y), !filter_In, (Hb3 y). reflexivity.
    - (* PrevAll *)
      assert (HL : Ins (rev (firsts k [] (rev els)))) by (apply Forall_rev, firsts_ins, Forall_rev; exact HE).
      eexists. split; [reflexivity|]. split; [apply els_flat; [exact HL | exact preceding_els]|]. rewrite (any_last els HE). cbn [rbind]. rewrite filter_flat_map. apply rflat_ok.
      intros x Hx. rewrite Forall_forall in HL. rewrite (any_prevs x (HL x Hx)). cbn [rbind]. exact (plain_apply m _ HM (preceding_els x (HL x Hx))).
    - (* Prev *)
      assert (HB : Els (flat_map (prev_list k) els)).
      { apply els_flat; [exact HE|]. intros x Hx. pose proof (preceding_els x Hx) as H. rewrite Forall_forall in *. intros y Hy. apply H, prev_preceding, Hy. }
      eexists. split; [reflexivity|]. split; [exact HB|]. rewrite Forall_forall in HE.
      rewrite (rflat_ok _ (prev_list k)) by (intros x Hx; exact (any_prev x (HE x Hx))). cbn [rbind].
      pose proof (plain_apply m _ HM HB) as H. destruct (mt_one m) as [g|] eqn:E; [|exact H]. destruct HM as [|r g0 Hg]; [discriminate|]. cbn in E. injection E as <-. exact H.
  Qed.
  Lemma any_chain : forall rest, Forall (fun s : segment => Plain (fst s) /\ snd s = Chain) rest -> forall els, Els els ->
    chain_rest k els rest = Ok (filter (fun x => forallb (fun m => says m x) (map fst rest)) els).
  Proof.
    induction rest as [|[m c] rest IH]; intros HR els HE; [cbn; rewrite filter_all; reflexivity|]. inversion HR as [|s l [Hm Hc] HR']; subst. cbn in Hm, Hc. subst c.
    cbn [chain_rest]. destruct els as [|y l]; [reflexivity|]. cbn [nonempty]. cbn [select_by_rule]. rewrite (plain_apply m _ Hm HE). cbn [rbind].
    rewrite IH; [|exact HR' | apply Forall_forall; intros z Hz; apply filter_In in Hz; rewrite Forall_forall in HE; apply HE, Hz]. f_equal.
    generalize (y :: l) as L. intros L. induction L as [|z L IHL]; [reflexivity|]. cbn [filter map fst forallb]. destruct (says m z); cbn [filter andb]; rewrite IHL; reflexivity.
  Qed.
  Lemma any_select cp els c : forallb (fun e : rule * comb => own_rule (fst e)) cp = true -> comp_wf cp = true -> backish c = true -> Ins els ->
    exists b, Base k c els b /\ Els b /\ select k els (optimize_compound (compile_comp k text_of by_id cp)) (Some c) = Ok (filter (comp_says k text_of by_id cp) b) /\
    exists m rest, optimize_compound (compile_comp k text_of by_id cp) = (m, comp_comb cp) :: rest.
  Proof.
    intros Ho Hw Hc HE. pose proof Hw as Hw2. rewrite <- (comp_wf_map k text_of by_id) in Hw2. destruct (optimize_compound_wf _ Hw2) as (H1 & H2 & H3).
    assert (HP : forall m, In m (map fst (optimize_compound (compile_comp k text_of by_id cp))) -> Plain m).
    { intros m Hm. apply (Permutation_in _ H3) in Hm. unfold compile_comp in Hm. rewrite map_map in Hm. apply in_map_iff in Hm. destruct Hm as ([r c0] & <- & Hi).
      rewrite forallb_forall in Ho. exact (own_plain r (Ho _ Hi)). }
    assert (HS : forall x, forallb (fun m => says m x) (map fst (optimize_compound (compile_comp k text_of by_id cp))) = comp_says k text_of by_id cp x).
    { intros x. rewrite (forallb_perm _ _ _ H3). unfold comp_says, compile_comp. rewrite map_map. clear. induction cp as [|[r c] l IH]; [reflexivity|]. cbn in *. rewrite IH. reflexivity. }
    destruct (optimize_compound (compile_comp k text_of by_id cp)) as [|[m c1] rest] eqn:EO; [discriminate|].
    assert (Ec : c1 = comp_comb cp) by (cbn in H2; rewrite H2; clear; destruct cp as [|[r0 c0] l]; reflexivity).
    destruct (any_step m els c (HP m (or_introl eq_refl)) Hc HE) as (b & HB1 & HB2 & HB3). exists b. split; [exact HB1|]. split; [exact HB2|]. split; [|exists m, rest; rewrite Ec; reflexivity].
    unfold select. cbn [rnth nth_error rbind tl].
    replace (comb_eqb c ChildrenAll) with false by (destruct c; try discriminate; reflexivity). rewrite andb_false_r, HB3. cbn [rbind]. rewrite any_chain.
    - f_equal. clear -HS. induction b as [|x b IH]; [reflexivity|]. cbn [filter]. rewrite <- (HS x). cbn [map fst forallb]. destruct (says m x); cbn [filter andb]; rewrite IH; reflexivity.
    - cbn in H1. apply andb_true_iff in H1. destruct H1 as [_ H1]. apply Forall_forall. intros [ms cs] Hs. split; [apply HP; right; apply in_map_iff; exists (ms, cs); split; [reflexivity | exact Hs]|].
      rewrite forallb_forall in H1. specialize (H1 _ Hs). cbn in *. destruct cs; try discriminate. reflexivity.
    - apply Forall_forall. intros z Hz. apply filter_In in Hz. rewrite Forall_forall in HB2. apply HB2, Hz.
  Qed.
End Any.

(** * The same steps with and without the document *)
Section Back.
  Variable h : heap.
  Variable r : id.
  Hypothesis D : DocOk h r.
  Variables held docs : list id.
  Let h' := drop h held docs.
  Let wf : WF h := do_wf h r D.
  Variable text_of : id -> str.
  Variable by_id : id -> str -> option id.
  Local Notation Live := (Alive h held docs).
  (** The search starts at [t], a node left; [T] is the top of what is left around it. *)
  Variables t T : id.
  Hypothesis Ht : Live t.
  Hypothesis HtT : InTree h' T t.
  Hypothesis HT : InTree h r T.
  Hypothesis LT : Live T.
  Let wf' : WF h' := drop_wf h wf held docs.

  Lemma left_in x : InTree h' T x -> InTree h r x /\ Live x.
  Proof.
    intros [_ HP]. apply anceq_path in HP. apply (drop_anceq h wf held docs T x LT) in HP. split; [|exact (alive_down h held docs T x LT HP)].
    destruct HT as [Hn HP2]. split; [exact Hn|]. apply anceq_path. apply anceq_path in HP2. exact (anceq_trans h r T x HP2 HP).
  Qed.
  Lemma attrs_h x : ElIn h r x -> forall n, exists a, node_attribute h x n = Ok a.
  Proof. intros Hx n. exact (el_attr h r D x n Hx). Qed.
  Lemma attrs_h' x : ElIn h' T x -> forall n, exists a, node_attribute h' x n = Ok a.
  Proof.
    intros [Hx He] n. destruct (left_in x Hx) as [Hr HL]. unfold h'. rewrite (drop_attribute h wf held docs x n HL). apply attrs_h. split; [exact Hr|].
    rewrite <- He. symmetry. exact (drop_is_element h wf held docs x HL).
  Qed.

  (** Strictly below [t]. *)
  Definition q (x : id) : bool := match parent h x with Some p => includes (owned_by (length h) h t) p | None => false end.
  Lemma owned_t p : includes (owned_by (length h) h t) p = true <-> AncEq h t p.
  Proof.
    rewrite includes_in. apply (owned_in h wf). pose proof (key_nonempty h wf t). destruct (key h t); [congruence | cbn; lia].
  Qed.
  Lemma q_some x : q x = true <-> exists p, parent h x = Some p /\ AncEq h t p.
  Proof.
    unfold q. destruct (parent h x) as [p|]; [rewrite owned_t; split; [intros H; exists p; split; [reflexivity | exact H] | intros (p' & E & H); injection E as <-; exact H]|].
    split; [discriminate | intros (p & E & _); discriminate].
  Qed.
  Lemma q_anc x : InTree h r x -> (q x = true <-> Anc h t x).
  Proof.
    intros Hx. rewrite q_some. split.
    - intros (p & E & Hp). apply (anceq_anc h t p x Hp). apply Anc_child. exists (index h x). exact (proj2 (intree_parent h wf r x p Hx E)).
    - intros H. destruct (anc_inv h t x H) as (p & Hp & Hc). exists p. split; [exact (child_parent h wf p x Hc) | exact Hp].
  Qed.
  Lemma anc_q x : Anc h t x -> q x = true.
  Proof. intros H. destruct (anc_inv h t x H) as (p & Hp & Hc). apply q_some. exists p. split; [exact (child_parent h wf p x Hc) | exact Hp]. Qed.
  Lemma q_up x p : InTree h r p -> parent h x = Some p -> q p = true -> q x = true.
  Proof. intros Hp E H. apply q_some. exists p. split; [exact E|]. right. apply (q_anc p Hp). exact H. Qed.
  Lemma q_parent x : q x = true -> Live x -> parent h' x = parent h x /\ exists p, parent h x = Some p /\ AncEq h t p /\ Live p.
  Proof.
    intros H HL. apply q_some in H. destruct H as (p & E & Hp). pose proof (alive_down h held docs t p Ht Hp) as Lp. split; [|exists p; repeat split; assumption].
    rewrite E. apply (drop_parent h wf held docs x p HL). split; assumption.
  Qed.
  Lemma parent_back x p : parent h' x = Some p -> parent h x = Some p.
  Proof. intros H. apply (drop_parent_some h wf held docs x p) in H. apply H. Qed.

  (** Sets that agree below [t]. *)
  Local Notation Same S' S := (filter q S' = filter q S).
  Lemma flat_q (F : id -> list id) l : (forall x, In x l -> q x = false -> filter q (F x) = []) -> filter q (flat_map F l) = filter q (flat_map F (filter q l)).
  Proof.
    induction l as [|x l IH]; intros H; [reflexivity|]. cbn [flat_map filter]. rewrite filter_app, (IH (fun y Hy => H y (or_intror Hy))). destruct (q x) eqn:E.
    - cbn [flat_map]. rewrite filter_app. reflexivity.
    - rewrite (H x (or_introl eq_refl) E). reflexivity.
  Qed.
  Lemma flat_same (F' F : id -> list id) S' S : (forall x, In x S' -> q x = false -> filter q (F' x) = []) -> (forall x, In x S -> q x = false -> filter q (F x) = []) ->
    (forall x, In x S -> q x = true -> filter q (F' x) = filter q (F x)) -> Same S' S -> Same (flat_map F' S') (flat_map F S).
  Proof.
    intros H1 H2 H3 HS. rewrite (flat_q F' S' H1), (flat_q F S H2), HS, !filter_flat_map.
    assert (G : forall l, (forall x, In x l -> filter q (F' x) = filter q (F x)) -> flat_map (fun x => filter q (F' x)) l = flat_map (fun x => filter q (F x)) l).
    { induction l as [|x l IH]; intros H; [reflexivity|]. cbn. rewrite (H x (or_introl eq_refl)), (IH (fun y Hy => H y (or_intror Hy))). reflexivity. }
    apply G. intros x Hx. apply filter_In in Hx. apply H3; apply Hx.
  Qed.
  Lemma firsts_q (k : heap) : forall l, (forall x y, In x l -> In y l -> q x = true -> q y = false -> parent k x <> parent k y) -> forall seen seen',
    (forall x, In x l -> q x = true -> existsb (opt_eqb (parent k x)) seen = existsb (opt_eqb (parent k x)) seen') ->
    filter q (firsts k seen l) = firsts k seen' (filter q l).
  Proof.
    induction l as [|y l IH]; intros H seen seen' HS; [reflexivity|].
    assert (H' : forall x z, In x l -> In z l -> q x = true -> q z = false -> parent k x <> parent k z) by (intros x z Hx Hz; exact (H x z (or_intror Hx) (or_intror Hz))).
    cbn [firsts filter]. destruct (q y) eqn:E.
    - cbn [firsts]. rewrite <- (HS y (or_introl eq_refl) E). destruct (existsb (opt_eqb (parent k y)) seen) eqn:Es; [exact (IH H' seen seen' (fun x Hx => HS x (or_intror Hx)))|].
      cbn [filter]. rewrite E. f_equal. apply (IH H'). intros x Hx Eq. cbn [existsb]. rewrite (HS x (or_intror Hx) Eq). reflexivity.
    - destruct (existsb (opt_eqb (parent k y)) seen) eqn:Es; [exact (IH H' seen seen' (fun x Hx => HS x (or_intror Hx)))|].
      cbn [filter]. rewrite E. apply (IH H'). intros x Hx Eq. cbn [existsb]. rewrite (HS x (or_intror Hx) Eq).
      destruct (opt_eqb (parent k x) (parent k y)) eqn:Eo; [|reflexivity]. apply opt_eqb_spec in Eo. destruct (H x y (or_intror Hx) (or_introl eq_refl) Eq E Eo).
  Qed.
  Lemma firsts_ext l : (forall x, In x l -> parent h' x = parent h x) -> forall seen, firsts h' seen l = firsts h seen l.
  Proof.
    induction l as [|x l IH]; intros H seen; [reflexivity|]. cbn [firsts]. rewrite (H x (or_introl eq_refl)), !(IH (fun y Hy => H y (or_intror Hy))). reflexivity.
  Qed.
  Lemma firsts_same S' S : Forall (InTree h' T) S' -> Forall (InTree h r) S -> Same S' S -> Same (firsts h' [] S') (firsts h [] S).
  Proof.
    intros H1 H2 HS. rewrite Forall_forall in H1, H2. rewrite (firsts_q h' S') with (seen' := []), (firsts_q h S) with (seen' := []); [rewrite HS | | reflexivity | | reflexivity].
    - apply firsts_ext. intros x Hx. rewrite <- HS in Hx. apply filter_In in Hx. destruct Hx as [Hx E]. apply (q_parent x E). exact (proj2 (left_in x (H1 x Hx))).
    - intros x y _ _ Ex Ey Hp. unfold q in Ex, Ey. rewrite Hp in Ex. congruence.
    - intros x y Hx Hy Ex Ey Hp. destruct (q_parent x Ex (proj2 (left_in x (H1 x Hx)))) as (E & p & Ep & _). rewrite E, Ep in Hp. symmetry in Hp. apply parent_back in Hp.
      unfold q in Ex, Ey. rewrite Ep in Ex. rewrite Hp in Ey. congruence.
  Qed.
  Lemma same_rev S' S : Same S' S -> Same (rev S') (rev S).
  Proof. intros H. rewrite !filter_rev, H. reflexivity. Qed.
  Lemma none_q l : (forall y, In y l -> q y = false) -> filter q l = [].
  Proof. induction l as [|y l IH]; intros H; [reflexivity|]. cbn. rewrite (H y (or_introl eq_refl)). exact (IH (fun z Hz => H z (or_intror Hz))). Qed.

  (** What a step back from outside reaches is outside. *)
  Lemma beside_h x y : In y (preceding_list h x) -> q y = q x.
  Proof.
    intros H. destruct (preceding_kid h x y H) as (p & E & Hk & _). apply In_nth_error in Hk. destruct Hk as (i & Hi). unfold q. rewrite E, (listed_parent h wf _ _ _ Hi). reflexivity.
  Qed.
  Lemma beside_h' x y : In y (preceding_list h' x) -> q y = q x.
  Proof.
    intros H. destruct (preceding_kid h' x y H) as (p & E & Hk & _). apply In_nth_error in Hk. destruct Hk as (i & Hi). unfold q.
    rewrite (parent_back x p E), (parent_back y p (listed_parent h' wf' _ _ _ Hi)). reflexivity.
  Qed.
  Lemma up_h x p : InTree h r x -> q x = false -> parent h x = Some p -> q p = false.
  Proof.
    intros Hx H E. destruct (q p) eqn:Eq; [|reflexivity]. rewrite (q_up x p (proj1 (intree_parent h wf r x p Hx E)) E Eq) in H. discriminate.
  Qed.
  Lemma up_anc_h : forall f x, InTree h r x -> q x = false -> filter q (anc_list f h x) = [].
  Proof.
    induction f as [|f IH]; intros x Hx H; [reflexivity|]. cbn [anc_list]. destruct (parent h x) as [p|] eqn:E; [|reflexivity]. destruct (is_root h p); [reflexivity|].
    pose proof (up_h x p Hx H E) as Hp. rewrite filter_app, (IH p (proj1 (intree_parent h wf r x p Hx E)) Hp). cbn. rewrite Hp. reflexivity.
  Qed.
  Lemma up_anc_h' : forall f x, InTree h' T x -> q x = false -> filter q (anc_list f h' x) = [].
  Proof.
    induction f as [|f IH]; intros x Hx H; [reflexivity|]. cbn [anc_list]. destruct (parent h' x) as [p|] eqn:E; [|reflexivity]. destruct (is_root h' p); [reflexivity|].
    pose proof (up_h x p (proj1 (left_in x Hx)) H (parent_back x p E)) as Hp. rewrite filter_app, (IH p (proj1 (intree_parent h' wf' T x p Hx E)) Hp). cbn. rewrite Hp. reflexivity.
  Qed.
  Lemma anc_same : forall f x, InTree h' T x -> q x = true -> filter q (anc_list f h' x) = filter q (anc_list f h x).
  Proof.
    induction f as [|f IH]; intros x Hx H; [reflexivity|]. cbn [anc_list]. destruct (left_in x Hx) as [Hr HL]. destruct (q_parent x H HL) as (E & p & Ep & _ & Lp).
    pose proof E as E'. rewrite Ep in E'. rewrite E, Ep. unfold h' at 1. rewrite (drop_is_root h wf held docs p Lp). destruct (is_root h p); [reflexivity|].
    rewrite !filter_app. f_equal. pose proof (proj1 (intree_parent h' wf' T x p Hx E')) as Hp. destruct (q p) eqn:Eq; [exact (IH p Hp Eq)|].
    rewrite (up_anc_h f p (proj1 (left_in p Hp)) Eq), (up_anc_h' f p Hp Eq). reflexivity.
  Qed.
  Lemma preceding_same x : InTree h' T x -> q x = true -> preceding_list h' x = preceding_list h x.
  Proof.
    intros Hx H. destruct (left_in x Hx) as [Hr HL]. destruct (q_parent x H HL) as (E & p & Ep & _ & Lp). unfold preceding_list. rewrite E, Ep.
    unfold h'. rewrite (drop_index h wf held docs x HL), (drop_kids h wf held docs p Lp). apply (drop_kid_filter h wf held docs p); [exact Lp | apply incl_firstn].
  Qed.
  Lemma prev_same x : InTree h' T x -> q x = true -> prev_list h' x = prev_list h x.
  Proof. intros Hx H. unfold prev_list. rewrite (preceding_same x Hx H). reflexivity. Qed.
  Lemma parent_same x : InTree h' T x -> q x = true -> parent_el h' x = parent_el h x.
  Proof.
    intros Hx H. destruct (left_in x Hx) as [Hr HL]. destruct (q_parent x H HL) as (E & p & Ep & _ & Lp). unfold parent_el. rewrite E, Ep. unfold h'.
    rewrite (drop_is_root h wf held docs p Lp). reflexivity.
  Qed.
  Lemma parent_el_in (k : heap) x y : In y (parent_el k x) -> parent k x = Some y.
  Proof. unfold parent_el. destruct (parent k x) as [p|]; [|intros []]. destruct (is_root k p); [intros []|]. intros [<- | []]. reflexivity. Qed.
  Lemma ordered_back l : Forall Live l -> Ordered h' l -> Ordered h l.
  Proof.
    induction l as [|x l IH]; intros HL HO; [exact I|]. inversion HL as [|x0 l0 Hx Hl]; subst. destruct HO as [H1 H2]. split; [|exact (IH Hl H2)].
    rewrite Forall_forall in *. intros y Hy. exact (drop_before h wf held docs y x Hx (Hl y Hy) (H1 y Hy)).
  Qed.
  Lemma same_in S' S y : Same S' S -> q y = true -> (In y S' <-> In y S).
  Proof.
    intros H E. split; intros Hy.
    - assert (G : In y (filter q S')) by (apply filter_In; split; assumption). rewrite H in G. apply filter_In in G. apply G.
    - assert (G : In y (filter q S)) by (apply filter_In; split; assumption). rewrite <- H in G. apply filter_In in G. apply G.
  Qed.

  Lemma base_same c S' S b' b : backish c = true -> Forall (InTree h' T) S' -> Forall (InTree h r) S -> Same S' S -> Base h' c S' b' -> Base h c S b -> Same b' b.
  Proof.
    intros Hc H1 H2 HS B' B. pose proof H1 as F1. pose proof H2 as F2. rewrite Forall_forall in F1, F2.
    assert (HQ : forall S1 S2 x, (forall z, In z S1 -> In z S') -> Same S1 S2 -> In x S2 -> q x = true -> InTree h' T x).
    { intros S1 S2 x Hi Hs Hx E. apply F1, Hi. apply (same_in S1 S2 x Hs E). exact Hx. }
    destruct c; try discriminate; cbn [Base] in B', B.
    - subst b' b. pose proof (firsts_same S' S H1 H2 HS) as HF. apply flat_same; [| | |exact HF].
      + intros x Hx E. apply none_q. intros y Hy. apply parent_el_in in Hy. apply firsts_sub in Hx. exact (up_h x y (proj1 (left_in x (F1 x Hx))) E (parent_back x y Hy)).
      + intros x Hx E. apply none_q. intros y Hy. apply parent_el_in in Hy. apply firsts_sub in Hx. exact (up_h x y (F2 x Hx) E Hy).
      + intros x Hx E. rewrite (parent_same x); [reflexivity | | exact E]. apply (HQ _ _ x (fun z => firsts_sub h' S' [] z) HF Hx E).
    - assert (HA : Same (flat_map (anc_list (dfs_fuel h') h') S') (flat_map (anc_list (dfs_fuel h) h) S)).
      { assert (EF : dfs_fuel h' = dfs_fuel h) by (unfold dfs_fuel, h'; rewrite drop_length; reflexivity). rewrite EF. apply flat_same; [| | |exact HS].
        - intros x Hx. exact (up_anc_h' _ x (F1 x Hx)).
        - intros x Hx. exact (up_anc_h _ x (F2 x Hx)).
        - intros x Hx E. exact (anc_same _ x (HQ S' S x (fun z H => H) HS Hx E) E). }
      assert (A' : AllIn h' T (flat_map (anc_list (dfs_fuel h') h') S')).
      { apply (els_ins h' T), els_flat; [exact H1|]. intros x Hx. apply (any_ancestors h' T wf' _ x Hx (key_length h' wf' x)). }
      assert (A : AllIn h r (flat_map (anc_list (dfs_fuel h) h) S)).
      { apply (els_ins h r), els_flat; [exact H2|]. intros x Hx. apply (any_ancestors h r wf _ x Hx (key_length h wf x)). }
      destruct (sort_and_unique_ok h' wf' T _ A') as (s' & E' & [I' O'] & M'). rewrite B' in E'. injection E' as <-.
      destruct (sort_and_unique_ok h wf r _ A) as (s & E & [I O] & M). rewrite B in E. injection E as <-.
      rewrite Forall_forall in I'. apply (ordered_unique h wf r).
      + apply Forall_forall. intros y Hy. apply filter_In in Hy. exact (proj1 (left_in y (I' y (proj1 Hy)))).
      + apply ordered_back; [|apply OrderProofs.ordered_filter; exact O']. apply Forall_forall. intros y Hy. apply filter_In in Hy. exact (proj2 (left_in y (I' y (proj1 Hy)))).
      + apply OrderProofs.ordered_filter. exact O.
      + intros y. rewrite !filter_In, (M' y), (M y). split; intros [G E]; (split; [|exact E]); apply (same_in _ _ y HA E); exact G.
    - subst b' b. pose proof (same_rev _ _ (firsts_same (rev S') (rev S) (Forall_rev H1) (Forall_rev H2) (same_rev _ _ HS))) as HF.
      apply flat_same; [| | |exact HF].
      + intros x _ E. apply none_q. intros y Hy. rewrite (beside_h' x y Hy). exact E.
      + intros x _ E. apply none_q. intros y Hy. rewrite (beside_h x y Hy). exact E.
      + intros x Hx E. rewrite (preceding_same x); [reflexivity | | exact E].
        refine (HQ _ _ x _ HF Hx E). intros z Hz. apply in_rev in Hz. apply firsts_sub in Hz. apply in_rev. exact Hz.
    - subst b' b. apply flat_same; [| | |exact HS].
      + intros x _ E. apply none_q. intros y Hy. rewrite (beside_h' x y (prev_preceding h' x y Hy)). exact E.
      + intros x _ E. apply none_q. intros y Hy. rewrite (beside_h x y (prev_preceding h x y Hy)). exact E.
      + intros x Hx E. rewrite (prev_same x); [reflexivity | | exact E]. exact (HQ S' S x (fun z H => H) HS Hx E).
  Qed.

  (** * Looking back to the start *)
  Lemma says_same cp x : forallb (fun e : rule * comb => own_rule (fst e)) cp = true -> Live x -> comp_says h' text_of by_id cp x = comp_says h text_of by_id cp x.
  Proof.
    intros Ho HL. unfold comp_says. induction cp as [|[rl c] cp IH]; [reflexivity|]. cbn in Ho. apply andb_true_iff in Ho. destruct Ho as [H1 H2]. cbn [forallb fst].
    rewrite (IH H2). f_equal. pose proof (alike_compile h wf held docs text_of by_id rl H1) as HA. fold h' in HA. unfold says.
    inversion HA as [E1 E2 | r0 g' g Hg E1 E2]; [reflexivity|]. cbn. rewrite (Hg x HL). reflexivity.
  Qed.
  Lemma any_above (k : heap) (top : id) (wk : WF k) : forall f x, InTree k top x -> length (key k x) <= f -> exists b, has_above k f [t] x = Ok b /\ (b = true <-> Anc k t x).
  Proof.
    induction f as [|f IH]; intros x Hx Hf.
    { pose proof (key_nonempty k wk x). destruct (key k x); [congruence | cbn in Hf; lia]. }
    assert (UP : forall y p, InTree k top y -> parent k y = Some p -> InTree k top p /\ (Anc k t y <-> AncEq k t p)).
    { intros y p Hy E. destruct (intree_parent k wk top y p Hy E) as [Hp Hl]. split; [exact Hp|]. assert (Hc : Child k p y) by (exists (index k y); exact Hl). split.
      - intros Ha. destruct (anc_inv k t y Ha) as (p' & Hp' & Hc'). rewrite (child_parent k wk _ _ Hc') in E. injection E as ->. exact Hp'.
      - intros Ha. apply (anceq_anc k t p y Ha). exact (Anc_child k p y Hc). }
    assert (NO : forall y, parent k y = None -> ~ Anc k t y).
    { intros y E Ha. destruct (anc_inv k t y Ha) as (p' & _ & Hc'). rewrite (child_parent k wk _ _ Hc') in E. discriminate. }
    cbn [has_above includes existsb]. destruct (parent k x) as [p|] eqn:E; [|exists false; split; [reflexivity | split; [discriminate | intros H; destruct (NO x E H)]]].
    destruct (UP x p Hx E) as [Hp Hi]. destruct (Nat.eqb p t) eqn:Et; cbn [orb].
    { apply Nat.eqb_eq in Et. subst p. exists true. split; [reflexivity|]. rewrite Hi. split; [intros _; left; reflexivity | reflexivity]. }
    assert (Hpt : AncEq k t p <-> Anc k t p) by (split; [intros [<- | H]; [rewrite Nat.eqb_refl in Et; discriminate | exact H] | intros H; right; exact H]).
    destruct (parent k p) as [a|] eqn:Ea; [|exists false; split; [reflexivity|]; rewrite Hi, Hpt; split; [discriminate | intros H; destruct (NO p Ea H)]].
    destruct (UP p a Hp Ea) as [Ha Hia]. destruct (Nat.eqb a t) eqn:Eat; cbn [orb].
    { apply Nat.eqb_eq in Eat. subst a. exists true. split; [reflexivity|]. rewrite Hi, Hpt, Hia. split; [intros _; left; reflexivity | reflexivity]. }
    destruct (IH a Ha) as (b & Eb & Hb).
    { rewrite (key_down k wk x p E), (key_down k wk p a Ea), !app_length in Hf. cbn in Hf. lia. }
    exists b. split; [exact Eb|]. rewrite Hb, Hi, Hpt, Hia. split; [intros H; right; exact H | intros [<- | H]; [rewrite Nat.eqb_refl in Eat; discriminate | exact H]].
  Qed.
  Lemma any_exists (k : heap) (top : id) (wk : WF k) els : Forall (InTree k top) els -> exists b, rexists (has_above k (dfs_fuel k) [t]) els = Ok b /\ (b = true <-> exists x, In x els /\ Anc k t x).
  Proof.
    intros HE. induction HE as [|x els Hx HE IH]; [exists false; split; [reflexivity | split; [discriminate | intros (x & [] & _)]]|].
    destruct (any_above k top wk (dfs_fuel k) x Hx (key_length k wk x)) as (b & Eb & Hb). destruct IH as (b2 & Eb2 & Hb2). cbn [rexists]. rewrite Eb. cbn [rbind]. destruct b.
    - exists true. split; [reflexivity|]. split; [intros _; exists x; split; [left; reflexivity | apply Hb; reflexivity] | reflexivity].
    - exists b2. split; [exact Eb2|]. rewrite Hb2. split; [intros (y & Hy & Ha); exists y; split; [right; exact Hy | exact Ha]|].
      intros (y & [<- | Hy] & Ha); [apply Hb in Ha; discriminate | exists y; split; assumption].
  Qed.
  Lemma final_same c S' S : childish c = true -> Forall (InTree h' T) S' -> Forall (InTree h r) S -> Same S' S ->
    forall rc, comb_reverse c = Ok rc -> exists b, has_final h' [t] S' rc = Ok b /\ has_final h [t] S rc = Ok b.
  Proof.
    intros Hc H1 H2 HS rc Hr. destruct c; try discriminate; cbn in Hr; injection Hr as <-; cbn [has_final].
    - destruct (any_exists h' T wf' S' H1) as (b' & E' & Hb'). destruct (any_exists h r wf S H2) as (b & E & Hb). exists b. rewrite E. split; [|reflexivity]. rewrite E'. f_equal.
      apply eq_true_iff_eq. rewrite Hb', Hb. split; intros (x & Hx & Ha); exists x.
      + apply (drop_anc h wf held docs t x) in Ha. destruct Ha as [_ Ha]. split; [|exact Ha]. apply (same_in S' S x HS (anc_q x Ha)). exact Hx.
      + split; [apply (same_in S' S x HS (anc_q x Ha)); exact Hx|]. apply (drop_anc h wf held docs t x). split; assumption.
    - eexists. split; [reflexivity|]. f_equal. apply eq_true_iff_eq. rewrite !existsb_exists. rewrite Forall_forall in H1.
      assert (Q1 : forall x, parent h x = Some t -> q x = true) by (intros x E; apply q_some; exists t; split; [exact E | left; reflexivity]).
      assert (IT : forall p, includes [t] p = true <-> p = t) by (intros p; rewrite includes_in; split; [intros [-> | []]; reflexivity | intros ->; left; reflexivity]).
      split; intros (x & Hx & Ex); exists x.
      + destruct (parent h x) as [p|] eqn:E; [|discriminate]. apply IT in Ex. subst p.
        assert (Hx' : In x S') by (apply (same_in S' S x HS (Q1 x E)); exact Hx). split; [exact Hx'|].
        rewrite (proj1 (q_parent x (Q1 x E) (proj2 (left_in x (H1 x Hx'))))), E. apply IT. reflexivity.
      + destruct (parent h' x) as [p|] eqn:E; [|discriminate]. apply IT in Ex. subst p. apply parent_back in E.
        split; [apply (same_in S' S x HS (Q1 x E)); exact Hx|]. rewrite E. apply IT. reflexivity.
  Qed.

  Local Notation opt k cp := (optimize_compound (compile_comp k text_of by_id cp)).
  Definition run (k : heap) (els : list id) (c : comb) (lk : cgroup) : res bool :=
    do o <- has_lookup k els c lk; match o with None => Ok false | Some (e, c') => has_final k [t] e c' end.
  Definition owns (cp : list (rule * comb)) : Prop := forallb (fun e : rule * comb => own_rule (fst e)) cp = true /\ comp_wf cp = true.
  Lemma reverse_back c : fwd c = true -> exists rc, comb_reverse c = Ok rc /\ backish rc = true.
  Proof. destruct c; try discriminate; intros _; eexists; split; reflexivity. Qed.
  Lemma base_nil (k : heap) c b : backish c = true -> Base k c [] b -> b = [].
  Proof. destruct c; try discriminate; cbn; intros _ H; try exact H. cbn in H. injection H as <-. reflexivity. Qed.
  Lemma run_nil (k : heap) (top : id) (wk : WF k) (ak : forall x, ElIn k top x -> forall n, exists a, node_attribute k x n = Ok a) cps c :
    Forall owns cps -> backish c = true -> run k [] c (map (fun cp => opt k cp) cps) = Ok false.
  Proof.
    intros HO Hc. unfold run. destruct HO as [|cp cps [H1 H2] HO]; [destruct c; try discriminate; reflexivity|]. cbn [map has_lookup].
    destruct (any_select k top wk ak text_of by_id cp [] c H1 H2 Hc (Forall_nil _)) as (b & HB & _ & -> & _). rewrite (base_nil k c b Hc HB). reflexivity.
  Qed.
  Lemma run_cons (k : heap) (top : id) (wk : WF k) (ak : forall x, ElIn k top x -> forall n, exists a, node_attribute k x n = Ok a) cp cps els c :
    owns cp -> Forall owns cps -> backish c = true -> Forall (InTree k top) els ->
    exists b rc, Base k c els b /\ Forall (ElIn k top) b /\ comb_reverse (comp_comb cp) = Ok rc /\ backish rc = true /\
      run k els c (map (fun cp => opt k cp) (cp :: cps)) = run k (filter (comp_says k text_of by_id cp) b) rc (map (fun cp => opt k cp) cps).
  Proof.
    intros [H1 H2] HO Hc HE. destruct (any_select k top wk ak text_of by_id cp els c H1 H2 Hc HE) as (b & HB & Hb & Es & m & rest & Eo).
    destruct (reverse_back (comp_comb cp)) as (rc & Er & Hrc).
    { clear -H2. destruct cp as [|[r0 c0] l]; [discriminate|]. cbn in *. apply andb_true_iff in H2. apply H2. }
    exists b, rc. do 4 (split; [assumption|]). unfold run at 1. cbn [map has_lookup]. rewrite Es. cbn [rbind].
    destruct (filter (comp_says k text_of by_id cp) b) as [|y l] eqn:Ef; cbn [nonempty]; [cbn [rbind]; symmetry; exact (run_nil k top wk ak cps rc HO Hrc)|].
    rewrite Eo. cbn [rnth nth_error rbind snd]. rewrite Er. cbn [rbind]. reflexivity.
  Qed.
  Lemma run_same : forall cps, Forall owns cps -> forall c0, fwd c0 = true -> childish (List.last (map comp_comb cps) c0) = true -> forall c S' S, comb_reverse c0 = Ok c ->
    Forall (InTree h' T) S' -> Forall (InTree h r) S -> Same S' S ->
    exists b, run h' S' c (map (fun cp => opt h' cp) cps) = Ok b /\ run h S c (map (fun cp => opt h cp) cps) = Ok b.
  Proof.
    induction cps as [|cp cps IH]; intros HO c0 Hf Hl c S' S Hc H1 H2 HS.
    - unfold run. cbn [map has_lookup rbind]. exact (final_same c0 S' S Hl H1 H2 HS c Hc).
    - inversion HO as [|cp0 l0 Hcp HO']; subst. assert (Hb : backish c = true) by (destruct c0; try discriminate; cbn in Hc; injection Hc as <-; reflexivity).
      destruct (run_cons h' T wf' attrs_h' cp cps S' c Hcp HO' Hb H1) as (b' & rc & B' & E' & Er & Hrc & ->).
      destruct (run_cons h r wf attrs_h cp cps S c Hcp HO' Hb H2) as (b & rc2 & B & E & Er2 & _ & ->). rewrite Er in Er2. injection Er2 as <-.
      assert (HF : fwd (comp_comb cp) = true) by (destruct Hcp as [_ Hw]; clear -Hw; destruct cp as [|[r0 c1] l]; [discriminate|]; cbn in *; apply andb_true_iff in Hw; apply Hw).
      apply (IH HO' (comp_comb cp) HF).
      + cbn [map List.last] in Hl. destruct cps as [|cp2 cps]; [exact Hl|]. cbn [map] in *. rewrite <- Hl. clear. generalize (comp_comb cp2) as a, (map comp_comb cps) as l. intros a l. revert a. induction l as [|b l IH]; intros a; [reflexivity|]. cbn in *. apply IH.
      + exact Er.
      + apply Forall_forall. intros y Hy. apply filter_In in Hy. rewrite Forall_forall in E'. apply (E' y), Hy.
      + apply Forall_forall. intros y Hy. apply filter_In in Hy. rewrite Forall_forall in E. apply (E y), Hy.
      + rewrite !(filter_swap q). rewrite <- (base_same c S' S b' b Hb H1 H2 HS B' B). apply filter_same. intros y Hy. apply filter_In in Hy. rewrite Forall_forall in E'.
        apply (says_same cp y (proj1 Hcp)). apply (left_in y), (E' y), Hy.
  Qed.
  Lemma ele_same cps y c : Forall owns cps -> cps <> [] -> childish (comp_comb (hd [] cps)) = true -> fwd c = true -> InTree h' T y ->
    exists b, has_ele h' [t] y c (map (fun cp => opt h' cp) cps) = Ok b /\ has_ele h [t] y c (map (fun cp => opt h cp) cps) = Ok b.
  Proof.
    intros HO Hn Hh Hf Hy. unfold has_ele. destruct (reverse_back c Hf) as (rc & Er & _). rewrite Er. cbn [rbind]. rewrite <- !map_rev.
    refine (run_same (rev cps) (Forall_rev HO) c Hf _ rc [y] [y] Er (Forall_cons y Hy (Forall_nil _)) (Forall_cons y (proj1 (left_in y Hy)) (Forall_nil _)) eq_refl).
    destruct cps as [|cp cps]; [congruence|]. cbn [rev]. rewrite map_app. cbn [map]. rewrite List.last_last. exact Hh.
  Qed.
End Back.

(** * [find] from a node left *)
Section Find.
  Variable h : heap.
  Variable r : id.
  Hypothesis D : DocOk h r.
  Variables held docs : list id.
  Let h' := drop h held docs.
  Let wf : WF h := do_wf h r D.
  Variable text_of : id -> str.
  Variable by_id : id -> str -> option id.
  Variable t : id.
  Hypothesis Hr : InTree h r t.
  Hypothesis Ht : Alive h held docs t.
  Local Notation opt k cp := (optimize_compound (compile_comp k text_of by_id cp)).

  Theorem find_left gs : forallb group_left gs = true -> find_ast h' text_of by_id [t] gs = find_ast h text_of by_id [t] gs.
  Proof.
    intros Hg. destruct (drop_top h wf held docs r t Hr Ht) as (T & HtT & HrT & HT). pose proof HtT as [Hn HP]. apply anceq_path in HP. apply (drop_anceq h wf held docs T t HT) in HP.
    destruct (drop_keys h wf held docs T HT) as (pre & HK).
    assert (HI : forall x, AncEq h t x -> InTree (drop h held docs) T x).
    { intros x Hx. split; [exact Hn|]. apply anceq_path. apply (drop_anceq h wf held docs T x HT). exact (anceq_trans h T t x HP Hx). }
    pose proof (fun x H => alive_down h held docs t x Ht H) as PL.
    assert (QP : forall x, Anc h t x -> AncEq h t x) by (intros x H; right; exact H).
    assert (PK : forall x c, AncEq h t x -> In c (children h x) -> Anc h t c).
    { intros x c Hx Hc. apply filter_In in Hc. apply (anceq_anc h t x c Hx). apply Anc_child, child_in. exact (proj1 Hc). }
    assert (Qpar : forall x, Anc h t x -> exists p, parent h x = Some p /\ AncEq h t p).
    { intros x Hx. destruct (anc_inv h t x Hx) as (p & Hp & Hc). exists p. split; [exact (child_parent h wf p x Hc) | exact Hp]. }
    assert (SA : forall a b, Forall (AncEq h t) a -> Forall (AncEq h t) b -> add (drop h held docs) a b = add h a b).
    { intros a b Ha Hb. apply (drop_add h wf held docs T HT); [exact (Forall_impl _ HI Ha) | exact (Forall_impl _ HI Hb)]. }
    pose proof (fun x H => HK x (HI x H)) as keys.
    assert (H0 : AncEq h t t) by (left; reflexivity).
    apply (fw_fold h held docs text_of by_id (AncEq h t) (Anc h t) QP SA). apply Forall_forall. intros g Hi. rewrite forallb_forall in Hg. specialize (Hg g Hi). clear Hi gs.
    destruct (looks_up g) eqn:El.
    2:{ apply (fw_group h wf held docs text_of by_id (AncEq h t) (Anc h t) PL QP PK Qpar pre keys SA g t); [|exact H0].
        unfold group_left in Hg. unfold group_forward. rewrite El in *. rewrite !andb_true_iff in *. tauto. }
    unfold group_left in Hg. rewrite El in Hg. cbn [negb orb] in Hg. rewrite !andb_true_iff in Hg. destruct Hg as (((Hg & Ho) & Hc) & Hw).
    unfold group_wf in Hg. apply andb_true_iff in Hg. destruct Hg as [_ HC]. unfold alike_at. rewrite !(group_lookup _ text_of by_id g HC), El.
    unfold looks_up in El. apply andb_true_iff in El. destruct El as [Ep _]. apply Nat.ltb_lt in Ep.
    assert (HO : Forall owns (firstn (pivot g) g)).
    { rewrite forallb_forall in Hw, HC. apply Forall_forall. intros cp Hcp. split; [exact (Hw cp Hcp)|]. apply HC. exact (incl_firstn _ _ cp Hcp). }
    assert (Hne : firstn (pivot g) g <> [] /\ childish (comp_comb (hd [] (firstn (pivot g) g))) = true).
    { destruct g as [|cp g]; [discriminate|]. destruct (pivot (cp :: g)); [lia|]. split; [discriminate | exact Hc]. }
    assert (HS : forallb comp_seen (skipn (pivot g) g) = true /\ forallb comp_wf (skipn (pivot g) g) = true).
    { rewrite !forallb_forall in *. split; intros cp Hcp; [apply Ho | apply HC]; exact (incl_skipn _ _ cp Hcp). }
    destruct (skipn (pivot g) g) as [|cp rest]; [cbn; split; [reflexivity | intros l E; discriminate]|]. destruct HS as [S1 S2]. cbn in S1, S2. apply andb_true_iff in S1, S2.
    destruct S1 as [S1 S3], S2 as [S2 S4]. unfold find_process, find_first. cbn [query should_in group_of map rnth nth_error rbind tl].
    destruct (fw_select h wf held docs text_of by_id (AncEq h t) (Anc h t) PL QP PK Qpar pre keys SA [t] cp (Some ChildrenAll) S1 S2 (or_introl (conj eq_refl (Forall_cons t H0 (Forall_nil _))))) as [E1 E2].
    fold h'. fold h' in E1. rewrite E1. destruct (select h [t] (opt h cp) (Some ChildrenAll)) as [l| |]; cbn [rbind]; [|split; [reflexivity | intros l E; discriminate]..].
    specialize (E2 l eq_refl). destruct (nonempty l) eqn:Enl; [|cbn; split; [reflexivity | intros l0 E; injection E as <-; constructor]].
    destruct (fw_shape h held docs text_of by_id (AncEq h t) (Anc h t) cp (fw_seen h wf held docs text_of by_id (AncEq h t) (Anc h t) PL QP PK Qpar pre keys SA cp S1) S2) as (m' & m & rest' & rest0 & Eo' & Eo & _).
    fold h' in Eo'. rewrite Eo', Eo. cbn [rnth nth_error rbind snd].
    assert (HF : rfilter (fun x => has_ele h' [t] x (comp_comb cp) (group_of h' text_of by_id (firstn (pivot g) g))) l =
                 rfilter (fun x => has_ele h [t] x (comp_comb cp) (group_of h text_of by_id (firstn (pivot g) g))) l).
    { apply rfilter_ext. intros y Hy. rewrite Forall_forall in E2. assert (Hf : fwd (comp_comb cp) = true) by exact (wf_fwd cp S2).
      destruct (ele_same h r D held docs text_of by_id t T Ht HtT HrT HT (firstn (pivot g) g) y (comp_comb cp) HO (proj1 Hne) (proj2 Hne) Hf (HI y (QP y (E2 y Hy)))) as (b & X1 & X2).
      unfold group_of. fold h' in X1. etransitivity; [exact X1 | symmetry; exact X2]. }
    rewrite HF. clear HF.
    match goal with |- context [rfilter ?f l] => destruct (rfilter f l) as [l2| |] eqn:E3 end; cbn [rbind]; [|split; [reflexivity | intros l0 E; discriminate]..].
    assert (HQ2 : Forall (Anc h t) l2).
    { rewrite Forall_forall in *. intros y Hy. apply E2. exact (rfilter_incl _ _ _ E3 y Hy). }
    destruct (nonempty l2); [|split; [reflexivity | intros l0 E; injection E as <-; constructor]].
    destruct (fw_rest h wf held docs text_of by_id (AncEq h t) (Anc h t) PL QP PK Qpar pre keys SA rest S3 S4 l2 HQ2) as [E4 E5]. fold h' in E4. unfold group_of in E4, E5. rewrite E4.
    split; [reflexivity|]. eapply post_bind; [exact E5|]. intros [l'|] H; apply post_ok; [exact (H l' eq_refl) | constructor].
  Qed.
End Find.
