(** How often a text nested in a lone [:not] or [:has] is reported by each query. *)
From Verif Require Import Base Attr Dom DomSpec Order OrderSpec DomProofs OrderProofs NavProofs Sets SetsProofs Mutate
  Engine Rules Regex Parse Traverse Query SelSpec FindSpec TravSpec OneProofs PreProofs SelBool SibLists SibProofs StepProofs BackProofs FilterProofs FindProofs TravProofs SetTrav QueryProofs
  Reports ReportsProofs ReportsStay.

(** A matcher that accepts nothing and reports each time it is given some elements. *)
Record Lone (h : heap) (m : rmatcher) : Prop := {
  lone_one : mt_one (fst m) = None;
  lone_spec : mt_spec (fst m) = None;
  lone_cache : mt_cache (fst m) = false;
  lone_all : exists g, mt_all (fst m) = Some g /\ forall els uc, g els uc = Ok [];
  lone_none : forall uc, snd m [] uc = [];
  lone_some : forall x els uc, snd m (x :: els) uc = halt h x
}.
Lemma lone_rule h text_of by_id rl : rl = RNot NErr \/ rl = RHas NErr -> Lone h (rcompile h text_of by_id rl).
Proof.
  intros [-> | ->]; (constructor; [reflexivity | reflexivity | reflexivity | | reflexivity | reflexivity]); eexists; (split; [reflexivity|]); intros [|x els] uc; reflexivity.
Qed.
Definition single (m : rmatcher) (c : comb) : rselector := [mkRProcess None [[(m, c)]]].
Lemma single_compiled h text_of by_id b rl c : rcompile_selector h text_of by_id b [[[(rl, c)]]] = single (rcompile h text_of by_id rl) c.
Proof.
  unfold rcompile_selector, rcompile_groups, roptimize, roptimize_group, single. cbn [map roptimize_compound rmax_index_from snd].
  match goal with |- context [fst (if ?b then _ else _)] => assert (E : fst (if b then (0, rtotal_prio [(rcompile h text_of by_id rl, c)]) else (0, 0%N)) = 0) by (destruct b; reflexivity) end.
  rewrite E. rewrite andb_false_r. reflexivity.
Qed.
Lemma single_headed m c : rhead_combinator c (single m ChildrenAll) = single m c.
Proof. reflexivity. Qed.

Section Count.
  Variable h : heap.
  Variable r : id.
  Hypothesis D : DocOk h r.
  Let wf : WF h := do_wf h r D.
  Variable m : rmatcher.
  Hypothesis L : Lone h m.

  Definition tell (l : list id) : errors := match l with [] => [] | _ :: _ => [r] end.
  Definition told {A} (B : A -> list id) (l : list A) : errors := repeat r (length (filter (fun x => nonempty (B x)) l)).
  Lemma el_halt x : ElIn h r x -> halt h x = [r].
  Proof. intros [H1 H2]. apply (halt_doc h r D). split; [exact H1 | left; exact H2]. Qed.
  Lemma reported l uc : Forall (ElIn h r) l -> snd m l uc = tell l.
  Proof. intros H. destruct l as [|x l]; [exact (lone_none h m L uc)|]. rewrite (lone_some h m L). inversion H; subst. apply el_halt. assumption. Qed.
  Lemma lone_get : exists g, get_all_handle (fst m) = Ok g /\ forall l uc, Forall (ElIn h r) l -> with_reports m g l uc = Ok ([], tell l).
  Proof.
    destruct (lone_all h m L) as (g & E & Hg). exists g. unfold get_all_handle. rewrite E. split; [reflexivity|]. intros l uc Hl. unfold with_reports. rewrite Hg. cbn [rbind]. rewrite (reported l uc Hl). reflexivity.
  Qed.
  Lemma lone_apply l uc : Forall (ElIn h r) l -> wapply m l uc = Ok ([], tell l).
  Proof.
    intros Hl. destruct (lone_all h m L) as (g & E & Hg). unfold wapply, apply. rewrite (lone_one h m L), E, Hg. cbn [rbind]. rewrite (reported l uc Hl). reflexivity.
  Qed.
  Lemma told_cons {A} (B : A -> list id) x l : told B (x :: l) = tell (B x) ++ told B l.
  Proof. unfold told. cbn [filter]. destruct (B x); reflexivity. Qed.
  Lemma wflat_told {A} (f : A -> wres (list id)) B l : (forall x, In x l -> f x = Ok ([], tell (B x))) -> wflat f l = Ok ([], told B l).
  Proof.
    induction l as [|x l IH]; intros H; [reflexivity|]. cbn [wflat]. rewrite (H x (or_introl eq_refl)), IH by (intros y Hy; apply H; right; exact Hy). cbn [wbind rbind fst snd app]. rewrite ?app_nil_r, told_cons. reflexivity.
  Qed.
  Lemma repeat_flat {A} (f : A -> list id) l : repeat r (length (flat_map f l)) = flat_map (fun x => repeat r (length (f x))) l.
  Proof. induction l as [|x l IH]; [reflexivity|]. cbn. rewrite app_length, repeat_app, IH. reflexivity. Qed.
  Lemma wflat_flat {A} (f : A -> wres (list id)) (g : A -> list id) l : (forall x, In x l -> f x = Ok ([], repeat r (length (g x)))) -> wflat f l = Ok ([], repeat r (length (flat_map g l))).
  Proof.
    induction l as [|x l IH]; intros H; [reflexivity|]. cbn [wflat]. rewrite (H x (or_introl eq_refl)), IH by (intros y Hy; apply H; right; exact Hy). cbn. rewrite !app_nil_r, app_length, repeat_app. reflexivity.
  Qed.

  (** * Families of siblings *)
  Lemma families {A} (B : A -> list id) (l : list A) : (forall x y, In x l -> In y (B x) -> ElIn h r y) ->
    (forall x y z, In x l -> In y (B x) -> In z (B x) -> parent h y = parent h z) ->
    ForallOrdPairs (fun u v => forall y z, In y (B u) -> In z (B v) -> parent h y <> parent h z) l ->
    exists ps, NoDup ps /\ (forall p, In p ps <-> exists x y, In x l /\ In y (B x) /\ parent h y = Some p) /\ told B l = repeat r (length ps).
  Proof.
    induction l as [|x l IH]; intros HE HS HP.
    - exists []. split; [constructor|]. split; [|reflexivity]. intros p. split; [intros [] | intros (x & y & [] & _)].
    - inversion HP as [|? ? HP1 HP2]; subst. rewrite Forall_forall in HP1.
      destruct IH as (ps & Hn & Hm & Ht); [intros a y Ha; apply HE; right; exact Ha | intros a y z Ha; apply HS; right; exact Ha | exact HP2|].
      destruct (B x) as [|y ys] eqn:Eb.
      + exists ps. split; [exact Hn|]. split; [|rewrite told_cons, Eb; exact Ht]. intros p. rewrite Hm. split; intros (a & y & Ha & Hy & Ep).
        * exists a, y. split; [right; exact Ha | split; assumption].
        * destruct Ha as [<-|Ha]; [rewrite Eb in Hy; destruct Hy|]. exists a, y. repeat split; assumption.
      + assert (Hy0 : In y (B x)) by (rewrite Eb; left; reflexivity). destruct (el_parent h r D y (HE x y (or_introl eq_refl) Hy0)) as (q & Eq & _).
        exists (q :: ps). split; [|split].
        * constructor; [|exact Hn]. intros Hq. apply Hm in Hq as (a & z & Ha & Hz & Ez). apply (HP1 a Ha y z); [rewrite ?Eb; left; reflexivity | exact Hz | congruence].
        * intros p. split.
          -- intros [<-|Hp]; [exists x, y; split; [left; reflexivity | split; assumption]|]. apply Hm in Hp as (a & z & Ha & Hz & Ez). exists a, z. split; [right; exact Ha | split; assumption].
          -- intros (a & z & [<-|Ha] & Hz & Ez); [left; pose proof (HS x y z (or_introl eq_refl) Hy0 Hz); congruence | right; apply Hm; exists a, z; repeat split; assumption].
        * rewrite told_cons, Eb, Ht. reflexivity.
  Qed.

  (** * The search below *)
  Definition has_kids (x : id) : bool := nonempty (children h x).
  Lemma dfs_told g : (forall l uc, Forall (ElIn h r) l -> with_reports m g l uc = Ok ([], tell l)) -> forall fuel x, InTree h r x -> Deep h fuel x ->
    wdfs_all h fuel (with_reports m g) x = Ok ([], repeat r (length (filter has_kids (x :: pre fuel h x)))).
  Proof.
    intros Hg. induction fuel as [|f IH]; intros x Hx Hd; [destruct (deep_pos h r D _ _ Hd); discriminate|].
    cbn [wdfs_all pre filter]. unfold has_kids at 1. destruct (nonempty (children h x)) eqn:En; [|apply nonempty_false in En; rewrite En; reflexivity].
    rewrite Hg by (apply Forall_forall; intros c Hc; exact (el_child h r x c Hx Hc)). cbn [wbind rbind fst snd].
    assert (HC : forall c, In c (children h x) -> ElIn h r c /\ Deep h f c).
    { intros c Hc. split; [exact (el_child h r x c Hx Hc)|]. apply in_children in Hc. exact (deep_child h r D _ _ _ Hd (proj1 Hc)). }
    assert (W : forall cs, (forall c, In c cs -> ElIn h r c /\ Deep h f c) -> (fix walk (cs matched : list id) : wres (list id) :=
             match cs with
             | [] => Ok ([], [])
             | c :: cs' =>
                 let hit := match matched with mm :: _ => Nat.eqb c mm | [] => false end in
                 wbind (if 0 <? child_nodes_length h c then wdfs_all h f (with_reports m g) c else Ok ([], [])) (fun sub =>
                 wbind (walk cs' (if hit then tl matched else matched)) (fun rest =>
                 Ok ((if hit then [c] else []) ++ sub ++ rest, [])))
             end) cs [] = Ok ([], repeat r (length (filter has_kids (flat_map (fun c => c :: pre f h c) cs))))).
    { clear - IH D. induction cs as [|c cs IHc]; intros HC; [reflexivity|]. destruct (HC c (or_introl eq_refl)) as [Hce Hcd].
      assert (E : (if 0 <? child_nodes_length h c then wdfs_all h f (with_reports m g) c else Ok ([], [])) = Ok ([], repeat r (length (filter has_kids (c :: pre f h c))))).
      { destruct (Nat.ltb_spec 0 (child_nodes_length h c)) as [Hl | Hl]; [exact (IH c (proj1 Hce) Hcd)|]. rewrite (pre_leaf h f c) by lia. cbn [filter]. unfold has_kids.
        assert (Ec : children h c = []). { unfold child_nodes_length in Hl. unfold children. destruct (kids h c); [reflexivity | cbn in Hl; lia]. } rewrite Ec. reflexivity. }
      cbv zeta in IHc |- *. rewrite E. cbn [wbind rbind fst snd]. rewrite IHc by (intros d Hd; apply HC; right; exact Hd). cbn [wbind rbind fst snd app flat_map].
      rewrite app_nil_r, app_comm_cons, filter_app, app_length, repeat_app. reflexivity. }
    cbv zeta in W. rewrite (W _ HC). cbn [rbind fst snd app]. destruct (children h x) as [|c cs]; [discriminate|]. reflexivity.
  Qed.
  Definition below (x : id) : list id := filter has_kids (x :: descendants h x).
  Lemma wdfs_told x : InTree h r x -> wdfs h m x = Ok ([], repeat r (length (below x))).
  Proof.
    intros Hx. unfold wdfs. rewrite (lone_one h m L), (lone_spec h m L). destruct lone_get as (g & E & Hg). rewrite E. cbn [rbind]. exact (dfs_told g Hg _ x Hx (deep_full h r D x)).
  Qed.
  Lemma below_in x p : InTree h r x -> (In p (below x) <-> (p = x \/ DescEl h x p) /\ exists c, Child h p c /\ is_element h c = true).
  Proof.
    intros Hx. unfold below. rewrite filter_In. unfold has_kids. split.
    - intros [[<-|Hp] Hk]; (split; [try (left; reflexivity); try (right; exact (proj1 (descendants_in h r D x p Hx) Hp))|]);
        (destruct (children h _) as [|c cs] eqn:Ec in Hk; [discriminate|]; exists c; apply (in_children h); rewrite Ec; left; reflexivity).
    - intros [Hp (c & Hc)]. split; [destruct Hp as [->|Hp]; [left; reflexivity | right; exact (proj2 (descendants_in h r D x p Hx) Hp)]|].
      apply (in_children h) in Hc. destruct (children h p); [destruct Hc | reflexivity].
  Qed.
  Lemma below_ordered x : InTree h r x -> Ordered h (below x).
  Proof.
    intros Hx. apply ordered_filter. split; [|exact (proj2 (descendants_docset h r D x Hx))]. apply Forall_forall. intros y Hy. left. exact (proj1 (proj1 (descendants_in h r D x y Hx) Hy)).
  Qed.

  (** * One step *)
  Lemma find_single us c rep : us <> [] -> wselect_by_rule h us m c = Ok ([], rep) -> wfind_selector h us (single m c) = Ok ([], rep).
  Proof.
    intros Hn E. unfold wfind_selector. destruct us as [|x us]; [congruence|]. cbn [nonempty single wfold]. unfold wfind_process, wfind_first, wselect. cbn [r_in r_query rnth nth_error rbind tl].
    rewrite (lone_cache h m L). cbn [andb]. rewrite E. cbn. rewrite !app_nil_r. reflexivity.
  Qed.
  Lemma step_single us c : us <> [] -> wselect_with_comb h us (Some (single m ChildrenAll)) c = wfind_selector h us (single m c).
  Proof. intros Hn. unfold wselect_with_comb. destruct us; [congruence|]. cbn [nonempty]. rewrite single_headed. reflexivity. Qed.

  (** The elements a step from the set arrives at, and the parents of these. *)
  Definition Reached (c : comb) (els : list id) (y : id) : Prop := exists e, In e els /\ Rel h c e y.
  Definition Families (c : comb) (els ps : list id) : Prop := NoDup ps /\ forall p, In p ps <-> exists y, Reached c els y /\ parent h y = Some p.
  Lemma batches c els (B : id -> list id) l : (forall y, In y (flat_map B l) <-> Reached c els y) -> (forall x y, In x l -> In y (B x) -> ElIn h r y) ->
    (forall x y z, In x l -> In y (B x) -> In z (B x) -> parent h y = parent h z) ->
    ForallOrdPairs (fun u v => forall y z, In y (B u) -> In z (B v) -> parent h y <> parent h z) l ->
    exists ps, Families c els ps /\ told B l = repeat r (length ps).
  Proof.
    intros HM HE HS HP. destruct (families B l HE HS HP) as (ps & Hn & Hm & Ht). exists ps. split; [split; [exact Hn|] | exact Ht]. intros p. rewrite Hm. split.
    - intros (x & y & Hx & Hy & Ep). exists y. split; [apply HM; apply in_flat_map; exists x; split; assumption | exact Ep].
    - intros (y & Hy & Ep). apply HM in Hy. apply in_flat_map in Hy as (x & Hx & Hy). exists x, y. repeat split; assumption.
  Qed.
  Section Els.
    Variable els : list id.
    Hypothesis HE : Forall (ElIn h r) els.
    Hypothesis HI : SibInc h els.
    Let Hel : forall e, In e els -> ElIn h r e.
    Proof. intros e He. rewrite Forall_forall in HE. exact (HE e He). Qed.
    Let HT : Forall (InTree h r) els := els_in h r els HE.
    Let HN : NoDup els := sibinc_nodup h r D els HE HI.

    Lemma kids_told : exists ps, Families Children els ps /\ wselect_by_rule h els m Children = Ok ([], repeat r (length ps)).
    Proof.
      destruct (batches Children els (children h) els) as (ps & HF & Ht).
      - exact (proj2 (proj2 (proj2 (base_facts h r D els HE HI Children eq_refl)))).
      - intros x y Hx Hy. exact (el_child h r x y (proj1 (Hel x Hx)) Hy).
      - intros x y z _ Hy Hz. rewrite (children_parent h wf x y Hy), (children_parent h wf x z Hz). reflexivity.
      - apply pairs_ne in HN. revert HN. apply pairs_imp. intros u v _ _ Hne y z Hy Hz E. apply Hne. rewrite (children_parent h wf u y Hy), (children_parent h wf v z Hz) in E. congruence.
      - exists ps. split; [exact HF|]. rewrite <- Ht. cbn [wselect_by_rule]. rewrite (lone_one h m L), (lone_spec h m L). destruct lone_get as (g & Eg & Hg). rewrite Eg. cbn [rbind].
        apply wflat_told. intros x Hx. apply Hg. apply Forall_forall. intros y Hy. exact (el_child h r x y (proj1 (Hel x Hx)) Hy).
    Qed.
    Lemma nexts_told : exists ps, Families NextAll els ps /\ wselect_by_rule h (firsts h [] els) m NextAll = Ok ([], repeat r (length ps)).
    Proof.
      assert (Hf : forall e, In e (firsts h [] els) -> ElIn h r e) by (intros e He; exact (Hel e (firsts_sub h els [] e He))).
      assert (HB : forall x y, In x (firsts h [] els) -> In y (following_list h x) -> ElIn h r y /\ parent h y = parent h x).
      { intros x y Hx Hy. apply (in_following h r D x y (proj1 (Hf x Hx))) in Hy. destruct (following_facts h r D x y (proj1 (Hf x Hx)) Hy) as (H1 & H2 & _). split; assumption. }
      destruct (batches NextAll els (following_list h) (firsts h [] els)) as (ps & HF & Ht).
      - exact (proj2 (proj2 (proj2 (base_facts h r D els HE HI NextAll eq_refl)))).
      - intros x y Hx Hy. exact (proj1 (HB x y Hx Hy)).
      - intros x y z Hx Hy Hz. rewrite (proj2 (HB x y Hx Hy)), (proj2 (HB x z Hx Hz)). reflexivity.
      - pose proof (firsts_distinct h els []) as HP. revert HP. apply pairs_imp. intros u v Hu Hv Hne y z Hy Hz E. apply Hne. rewrite <- (proj2 (HB u y Hu Hy)), <- (proj2 (HB v z Hv Hz)). exact E.
      - exists ps. split; [exact HF|]. rewrite <- Ht. cbn [wselect_by_rule]. rewrite (us_first h r D _ (els_in h r _ (firsts_els h r els HE))), firsts_idem. cbn [rbind].
        apply wflat_told. intros x Hx. rewrite (nexts_eq h r D x (proj1 (Hf x Hx))). cbn [rbind]. apply lone_apply. apply Forall_forall. intros y Hy. exact (proj1 (HB x y Hx Hy)).
    Qed.
    Lemma prevs_told : exists ps, Families PrevAll els ps /\ wselect_by_rule h (rev (firsts h [] (rev els))) m PrevAll = Ok ([], repeat r (length ps)).
    Proof.
      set (lasts := rev (firsts h [] (rev els))). assert (Hls : Forall (ElIn h r) lasts) by exact (lasts_els h r els HE).
      assert (Hf : forall e, In e lasts -> ElIn h r e) by (intros e He; rewrite Forall_forall in Hls; exact (Hls e He)).
      assert (HB : forall x y, In x lasts -> In y (preceding_list h x) -> ElIn h r y /\ parent h y = parent h x).
      { intros x y Hx Hy. apply (in_preceding h r D x y (proj1 (Hf x Hx))) in Hy. destruct (preceding_facts h r D x y (proj1 (Hf x Hx)) Hy) as (H1 & H2 & _). split; assumption. }
      destruct (batches PrevAll els (preceding_list h) lasts) as (ps & HF & Ht).
      - exact (proj2 (proj2 (proj2 (base_facts h r D els HE HI PrevAll eq_refl)))).
      - intros x y Hx Hy. exact (proj1 (HB x y Hx Hy)).
      - intros x y z Hx Hy Hz. rewrite (proj2 (HB x y Hx Hy)), (proj2 (HB x z Hx Hz)). reflexivity.
      - unfold lasts. apply pairs_rev. pose proof (firsts_distinct h (rev els) []) as HP. revert HP. apply pairs_imp. intros u v Hu Hv Hne y z Hy Hz E. apply Hne.
        apply in_rev in Hu, Hv. fold lasts in Hu, Hv. rewrite <- (proj2 (HB v y Hv Hy)), <- (proj2 (HB u z Hu Hz)). symmetry. exact E.
      - exists ps. split; [exact HF|]. rewrite <- Ht. cbn [wselect_by_rule]. rewrite (us_last h r D _ (els_in h r _ Hls)). unfold lasts at 1. rewrite rev_involutive, firsts_idem. fold lasts. cbn [rbind].
        apply wflat_told. intros x Hx. rewrite (prevs_eq h r D x (proj1 (Hf x Hx))). cbn [rbind]. apply lone_apply. apply Forall_forall. intros y Hy. exact (proj1 (HB x y Hx Hy)).
    Qed.
    Definition Once (c : comb) (rep : errors) : Prop := ((exists y, Reached c els y) -> rep = [r]) /\ (~ (exists y, Reached c els y) -> rep = []).
    Lemma once_base c base : (forall y, In y base <-> Reached c els y) -> Once c (tell base).
    Proof.
      intros HM. split; [intros (y & Hy); apply HM in Hy; destruct base; [destruct Hy | reflexivity]|]. intros Hn. destruct base as [|y base]; [reflexivity|]. destruct Hn. exists y. apply HM. left. reflexivity.
    Qed.
    Lemma next_told : exists rep, Once Next rep /\ wselect_by_rule h els m Next = Ok ([], rep).
    Proof.
      destruct (base_facts h r D els HE HI Next eq_refl) as (_ & HF & _ & HM). eexists. split; [exact (once_base Next _ HM)|]. cbn [wselect_by_rule]. rewrite (lone_one h m L).
      replace (flat_map (fun x => opt_list (next_element_sibling h x)) els) with (set_base h Next els) by (apply flat_map_ext; intros x; symmetry; apply next_eq). exact (lone_apply _ None HF).
    Qed.
    Lemma prev_told : exists rep, Once Prev rep /\ wselect_by_rule h els m Prev = Ok ([], rep).
    Proof.
      destruct (base_facts h r D els HE HI Prev eq_refl) as (_ & HF & _ & HM). eexists. split; [exact (once_base Prev _ HM)|]. cbn [wselect_by_rule]. rewrite (lone_one h m L).
      rewrite (rflat_ok _ (prev_list h)) by (intros e He; exact (prev_eq h r D e (proj1 (Hel e He)))). cbn [rbind]. exact (lone_apply _ None HF).
    Qed.
    Lemma parent_told : exists rep, Once Parent rep /\ wselect_by_rule h (firsts h [] els) m Parent = Ok ([], rep).
    Proof.
      destruct (base_facts h r D els HE HI Parent eq_refl) as (_ & HF & _ & HM). eexists. split; [exact (once_base Parent _ HM)|]. cbn [wselect_by_rule].
      rewrite (us_first h r D _ (els_in h r _ (firsts_els h r els HE))), firsts_idem. cbn [rbind]. rewrite (lone_one h m L). destruct lone_get as (g & Eg & Hg). rewrite Eg. cbn [rbind]. exact (Hg _ None HF).
    Qed.
    Lemma parents_told : exists rep, Once ParentAll rep /\ wselect_by_rule h (firsts h [] els) m ParentAll = Ok ([], rep).
    Proof.
      destruct (anc_facts h r D _ (firsts_els h r els HE)) as [A1 A2]. destruct (sort_and_unique_ok h wf r (anc_set h (firsts h [] els)) (els_in h r _ A1)) as (l & El & HD & HM).
      exists (tell l). split.
      - apply once_base. intros y. rewrite (HM y), (A2 y). exact (anc_firsts h r D els y HE).
      - cbn [wselect_by_rule]. rewrite (lone_one h m L). rewrite (rflat_ok _ (anc_list (dfs_fuel h) h)).
        + fold (anc_set h (firsts h [] els)). cbn [rbind]. rewrite El. cbn [rbind]. destruct lone_get as (g & Eg & Hg). rewrite Eg. cbn [rbind]. apply Hg.
          apply Forall_forall. intros y Hy. apply HM in Hy. rewrite Forall_forall in A1. exact (A1 y Hy).
        + intros x Hx. pose proof (firsts_els h r els HE) as HF. rewrite Forall_forall in HF. exact (proj1 (anc_full h r D x (proj1 (HF x Hx)))).
    Qed.
    Lemma sort_nil : sort h [] = Ok [].
    Proof. destruct (sort_nodup h r D [] (Forall_nil _) (NoDup_nil _)) as (l & E & _ & HM). rewrite E. destruct l as [|y l]; [reflexivity|]. destruct (proj1 (HM y) (or_introl eq_refl)). Qed.
    Lemma siblings_told : exists ps, Families Siblings els ps /\ wsiblings h els (Some (single m ChildrenAll)) = Ok ([], repeat r (length ps)).
    Proof.
      assert (Hf : forall e, In e (firsts h [] els) -> ElIn h r e) by (intros e He; exact (Hel e (firsts_sub h els [] e He))).
      destruct (batches Siblings els (sib_part h els) (firsts h [] els)) as (ps & HF & Ht).
      - exact (proj2 (proj2 (sib_facts h r D els HE HN))).
      - intros x y Hx Hy. exact (proj2 (part_parent h r D els x y (Hf x Hx) Hy)).
      - intros x y z Hx Hy Hz. rewrite (proj1 (part_parent h r D els x y (Hf x Hx) Hy)), (proj1 (part_parent h r D els x z (Hf x Hx) Hz)). reflexivity.
      - pose proof (firsts_distinct h els []) as HP. revert HP. apply pairs_imp. intros u v Hu Hv Hne y z Hy Hz E. apply Hne.
        rewrite <- (proj1 (part_parent h r D els u y (Hf u Hu) Hy)), <- (proj1 (part_parent h r D els v z (Hf v Hv) Hz)). exact E.
      - exists ps. split; [exact HF|]. rewrite <- Ht. unfold wsiblings. rewrite (ua_ok h r D els HE). cbn [rbind]. rewrite !single_headed. cbv zeta.
        assert (W : forall l, (forall x, In x l -> In x (firsts h [] els)) -> wflat (fun e : id * bool => let '(x, is_parent) := e in wfind_selector h [x] (if is_parent then single m Children else single m Siblings))
                      (map (ua_out h els) l) = Ok ([], told (sib_part h els) l)).
        { induction l as [|x l IH]; intros Hl; [reflexivity|]. cbn [map wflat]. pose proof (Hf x (Hl x (or_introl eq_refl))) as Hx. rewrite IH by (intros y Hy; apply Hl; right; exact Hy).
          assert (Ex : (let '(x0, is_parent) := ua_out h els x in wfind_selector h [x0] (if is_parent then single m Children else single m Siblings)) = Ok ([], tell (sib_part h els x))).
          { assert (HPt : Forall (ElIn h r) (sib_part h els x)) by (apply Forall_forall; intros y Hy; exact (proj2 (part_parent h r D els x y Hx Hy))).
            unfold ua_out, sib_part in *. destruct (el_parent h r D x Hx) as (p & E & Hp & _). rewrite E in *. destruct (multi h els p).
            - apply find_single; [discriminate|]. cbn [wselect_by_rule]. rewrite (lone_one h m L), (lone_spec h m L). destruct lone_get as (g & Eg & Hg). rewrite Eg. cbn [rbind wflat].
              rewrite (Hg _ (Some false) HPt). cbn. rewrite !app_nil_r. reflexivity.
            - apply find_single; [discriminate|]. cbn [wselect_by_rule]. rewrite (ua_one h r D x Hx). cbn [rbind wflat]. rewrite (siblings_eq h r D x Hx). cbn [rbind].
              change (preceding_list h x ++ following_list h x) with (step_list h Siblings x). rewrite (lone_apply _ None HPt). cbn. rewrite !app_nil_r. reflexivity. }
          rewrite Ex. cbn [wbind rbind fst snd app]. rewrite ?app_nil_r, told_cons. reflexivity. }
        rewrite (W _ (fun x H => H)). cbn [wbind rbind fst snd]. rewrite sort_nil. cbn. rewrite app_nil_r. reflexivity.
    Qed.
  End Els.

  (** * find *)
  Lemma start_sibinc els : Forall (Start h r) els -> Ordered h els -> SibInc h els.
  Proof.
    induction els as [|x l IH]; intros He Ho; [constructor|]. inversion He as [|x0 l0 Hx Hl]; subst. destruct Ho as [Hb Ho].
    constructor; [|exact (IH Hl Ho)]. rewrite Forall_forall in *. intros y Hy p Ex Ey. specialize (Hb y Hy).
    pose proof (proj2 (intree_parent h wf r x p (proj1 Hx) Ex)) as Lx. pose proof (proj2 (intree_parent h wf r y p (proj1 (Hl y Hy)) Ey)) as Ly.
    destruct (Nat.lt_trichotomy (index h x) (index h y)) as [H | [H | H]]; [exact H | |]; exfalso.
    - rewrite H in Lx. rewrite (listed_fun h _ _ _ _ Lx Ly) in Hb. exact (before_irrefl h wf r y (proj1 (Hl y Hy)) Hb).
    - exact (before_asym h wf r x y (proj1 Hx) (proj1 (Hl y Hy)) Hb (listed_before h p _ _ y x Ly Lx H)).
  Qed.
  Lemma find_told els : Forall (Start h r) els -> Ordered h els -> exists ps, Families ChildrenAll els ps /\ wselect_by_rule h els m ChildrenAll = Ok ([], repeat r (length ps)).
  Proof.
    intros HS Ho. pose proof (start_sibinc els HS Ho) as HI. assert (Hin : forall x, In x els -> InTree h r x) by (intros x Hx; rewrite Forall_forall in HS; exact (proj1 (HS x Hx))).
    destruct (starts_ok h r D els HS (ordered_nodup h wf r els (proj2 (Forall_forall _ _) Hin) Ho) HI Ho) as (st & Est & Hos & Hm). assert (Hst : forall x, In x st -> InTree h r x) by (intros x Hx; apply Hm in Hx; exact (Hin x (proj1 Hx))).
    exists (flat_map below st). split.
    - assert (HM : forall p, In p (flat_map below st) <-> exists y, Reached ChildrenAll els y /\ parent h y = Some p).
      { intros p. rewrite in_flat_map. split.
        - intros (x & Hx & Hp). apply (below_in x p (Hst x Hx)) in Hp as [Hp (c & Hc & Hce)]. exists c. split; [|exact (child_parent h wf p c Hc)]. exists x. split; [apply Hm in Hx; apply Hx|]. split; [|exact Hce].
          destruct Hp as [->|[Ha _]]; [exact (Anc_child h x c Hc) | exact (Anc_step h x p c Ha Hc)].
        - intros (y & (e & He & Ha & Hye) & Ep). destruct (topmost_covers h wf r els e) as (t & Ht & Hte); [apply Forall_forall; exact Hin | exact He|].
          assert (Hts : In t st) by (apply Hm; exact Ht). exists t. split; [exact Hts|]. apply (below_in t p (Hst t Hts)). apply anc_inv in Ha as (q & Hq & Hqy). rewrite (child_parent h wf q y Hqy) in Ep. injection Ep as ->.
          split; [|exists y; split; assumption]. assert (Htp : AncEq h t p) by (destruct Hq as [<-|Hq]; [exact Hte | right; exact (anceq_anc h t e p Hte Hq)]).
          destruct Htp as [->|Htp]; [left; reflexivity|]. right. split; [exact Htp|]. destruct (wf_parent h wf y p (child_parent h wf p y Hqy)) as [_ [H|H]]; [exact H|].
          apply anc_inv in Htp as (u & _ & Hu). pose proof (child_parent h wf u p Hu) as Eu. rewrite (wf_root h wf p H) in Eu. discriminate. }
      split; [|exact HM]. apply (ordered_nodup h wf r).
      + apply Forall_forall. intros p Hp. apply in_flat_map in Hp as (x & Hx & Hp). apply (below_in x p (Hst x Hx)) in Hp as [[->|Hp] _]; [exact (Hst x Hx) | exact (proj1 (desc_el h r x p (Hst x Hx) Hp))].
      + apply ordered_pairs. apply pairs_flat; [intros x Hx; apply ordered_pairs; exact (below_ordered x (Hst x Hx))|].
        apply ordered_pairs in Hos. revert Hos. apply pairs_imp. intros u v Hu Hv HB x y Hx Hy. apply (below_in u x (Hst u Hu)) in Hx as [Hx _]. apply (below_in v y (Hst v Hv)) in Hy as [Hy _].
        apply (before_down h u v x y HB); [intros Ha; apply Hm in Hu, Hv; exact (proj2 Hv u (proj1 Hu) Ha) | destruct Hx as [->|[Hx _]]; [left; reflexivity | right; exact Hx] | destruct Hy as [->|[Hy _]]; [left; reflexivity | right; exact Hy]].
    - cbn [wselect_by_rule]. rewrite Est. cbn [rbind]. apply wflat_flat. intros x Hx. exact (wdfs_told x (Hst x Hx)).
  Qed.

  (** * is, has, closest *)
  Lemma handle_told c l t : Forall (ElIn h r) l -> wfilter_type_handle h l (single m c) t =
    Ok (match t with FIsAll => ([], Nat.eqb 0 (length l)) | FNot => (l, false) | _ => ([], false) end, tell l).
  Proof.
    intros Hl. unfold wfilter_type_handle, single. cbn [wfilter_loop]. unfold wfilter_process. cbn [r_query rev app rnth nth_error rbind fst tl wselect_by_rule wchain_rest].
    rewrite (lone_apply l None Hl). cbn. rewrite !app_nil_r. destruct t; reflexivity.
  Qed.
  Lemma has_loop_told c : forall fuel x, InTree h r x -> Deep h fuel x -> whas_loop h fuel (single m c) x = Ok (false, repeat r (length (filter has_kids (x :: pre fuel h x)))).
  Proof.
    induction fuel as [|f IH]; intros x Hx Hd; [destruct (deep_pos h r D _ _ Hd); discriminate|].
    cbn [whas_loop pre filter]. unfold has_kids at 1. destruct (nonempty (children h x)) eqn:En; [|apply nonempty_false in En; rewrite En; reflexivity].
    assert (HC : forall d, In d (children h x) -> ElIn h r d /\ Deep h f d).
    { intros d Hc. split; [exact (el_child h r x d Hx Hc)|]. apply in_children in Hc. exact (deep_child h r D _ _ _ Hd (proj1 Hc)). }
    rewrite (handle_told c _ FIs) by (apply Forall_forall; intros d Hc; exact (proj1 (HC d Hc))). cbn [wbind rbind fst snd].
    assert (W : forall cs, (forall d, In d cs -> ElIn h r d /\ Deep h f d) -> wexists (whas_loop h f (single m c)) cs = Ok (false, repeat r (length (filter has_kids (flat_map (fun d => d :: pre f h d) cs))))).
    { induction cs as [|d cs IHc]; intros HCs; [reflexivity|]. destruct (HCs d (or_introl eq_refl)) as [Hce Hcd]. cbn [wexists]. rewrite (IH d (proj1 Hce) Hcd). cbn [wbind rbind fst snd].
      rewrite IHc by (intros e He; apply HCs; right; exact He). cbn [rbind fst snd flat_map]. rewrite filter_app, app_length, repeat_app. reflexivity. }
    rewrite (W _ HC). cbn [rbind fst snd]. destruct (children h x); [discriminate | reflexivity].
  Qed.
  Lemma has_told c els : Forall (InTree h r) els -> whas_sel h els (single m c) = Ok ([], repeat r (length (flat_map below els))).
  Proof.
    intros HT. unfold whas_sel. induction HT as [|x l Hx HT IH]; [reflexivity|]. cbn [wfilter]. rewrite (has_loop_told c (dfs_fuel h) x Hx (deep_full h r D x)). cbn [wbind rbind fst snd]. rewrite IH.
    cbn [wbind rbind fst snd flat_map]. rewrite app_nil_r, app_length, repeat_app. reflexivity.
  Qed.
  Lemma split_told c els : Forall (ElIn h r) els -> wclosest_split h (single m c) els = Ok (([], els), repeat r (length els)).
  Proof.
    intros HE. induction HE as [|x l Hx HE IH]; [reflexivity|]. cbn [wclosest_split]. rewrite (handle_told c [x] FIs) by (constructor; [exact Hx | constructor]). cbn [wbind rbind fst snd]. rewrite IH.
    cbn. rewrite app_nil_r. reflexivity.
  Qed.
  Lemma closest_loop_told c : forall fuel x, ElIn h r x -> length (key h x) <= fuel -> wclosest_loop h fuel (single m c) x = Ok ([], repeat r (S (length (anc_list fuel h x)))).
  Proof.
    induction fuel as [|f IH]; intros x Hx Hl; [pose proof (key_nonempty h wf x); destruct (key h x); [congruence | cbn in Hl; lia]|].
    cbn [wclosest_loop anc_list]. rewrite (handle_told c [x] FIs) by (constructor; [exact Hx | constructor]). cbn [wbind rbind fst snd].
    destruct (el_parent h r D x Hx) as (p & E & Hp & Lx). rewrite E. destruct (is_root h p) eqn:Er; [reflexivity|].
    assert (Hpe : ElIn h r p) by (split; [exact Hp|]; destruct (wf_parent h wf x p E) as [_ [H|H]]; [exact H | congruence]).
    rewrite (IH p Hpe) by (rewrite (key_listed h wf _ _ _ Lx), app_length in Hl; cbn in Hl; lia). cbn [rbind fst snd]. rewrite app_length, Nat.add_1_r. reflexivity.
  Qed.
  Definition upward (x : id) : list id := x :: anc_list (dfs_fuel h) h x.
  Lemma closest_told c els : Forall (ElIn h r) els -> wclosest h els (single m c) = Ok ([], repeat r (length els + length (flat_map upward (firsts h [] els)))).
  Proof.
    intros HE. unfold wclosest. rewrite (split_told c els HE). cbn [wbind rbind fst snd]. destruct els as [|x els]; [reflexivity|]. cbn [nonempty].
    rewrite (us_first h r D _ (els_in h r _ HE)). cbn [rbind]. pose proof (firsts_els h r _ HE) as HF. rewrite Forall_forall in HF.
    rewrite (wflat_flat _ upward).
    - cbn [wbind rbind fst snd app]. rewrite (sorted_same h r D [] (conj (Forall_nil _) I)). cbn [silent rbind fst snd]. rewrite app_nil_r, <- repeat_app. reflexivity.
    - intros y Hy. pose proof (HF y Hy) as Hye. unfold upward. cbn [length]. apply closest_loop_told; [exact Hye|]. pose proof (key_length h wf y). unfold dfs_fuel. lia.
  Qed.
  Lemma upward_spec x : ElIn h r x -> NoDup (upward x) /\ forall y, In y (upward x) <-> y = x \/ Rel h ParentAll x y.
  Proof.
    intros Hx. destruct (anc_full h r D x (proj1 Hx)) as [_ HA]. assert (HM : forall y, In y (anc_list (dfs_fuel h) h x) <-> Rel h ParentAll x y) by (intros y; rewrite HA; reflexivity). split.
    - constructor.
      + intros Hi. apply HM in Hi. exact (anc_irrefl h wf x (proj1 Hi)).
      + apply (ordered_nodup h wf r); [|exact (anc_list_ordered h r D _ x (proj1 Hx))]. apply Forall_forall. intros y Hy. apply HM in Hy. exact (proj1 (rel_sym_el h r D ParentAll x y eq_refl Hx Hy)).
    - intros y. cbn [upward In]. rewrite HM. split; intros [H|H]; auto.
  Qed.

  (** * The walks *)
  Lemma all_quiet c x : step_comb c = true -> ElIn h r x -> wfind_selector h [x] (rfrom_segment (rmake_comb_all c)) = Ok (step_list h c x, []).
  Proof.
    intros Hc Hx. pose proof (v_find h [x] (rfrom_segment (rmake_comb_all c))) as Ev. rewrite plain_from, (all_find h r D c x Hc Hx) in Ev.
    destruct (wfind_selector h [x] (rfrom_segment (rmake_comb_all c))) as [[l rep]| |] eqn:E; try discriminate. cbn in Ev. injection Ev as ->.
    assert (N : Forall (fun _ : id => False) rep).
    { refine (proj2 (find_P h (fun _ => True) (fun _ => False) _ _ [x] (rfrom_segment (rmake_comb_all c)) _ _ _ _ E)); try (intros; exact I); [apply from_stays; intros; exact I | repeat constructor]. }
    destruct N as [|? ? []]. reflexivity.
  Qed.
  Lemma until_told c contains : unit_comb c = true -> forall fuel x, ElIn h r x -> length (step_list h (all_of c) x) < fuel ->
    exists l, wuntil_loop h fuel c (single m ChildrenAll) None contains [x] = Ok (l, repeat r (length l)) /\ Permutation.Permutation l (step_list h (all_of c) x).
  Proof.
    intros Hc. destruct (unit_step c Hc) as [Hs Ha]. induction fuel as [|f IH]; intros x Hx Hlen; [lia|]. cbn [wuntil_loop]. rewrite (all_quiet c x Hs Hx). cbn [wbind rbind fst snd].
    pose proof (unit_list h (fun _ => []) c x Hc) as Hul. destruct (step_list h c x) as [|y [|]] eqn:E; [| |cbn in Hul; lia].
    - exists []. split; [reflexivity|]. destruct (step_list h (all_of c) x) as [|z l] eqn:Ez; [constructor|]. exfalso. assert (HR : Rel h (all_of c) x z) by (apply (in_step h r D (all_of c) x z Ha Hx); rewrite Ez; left; reflexivity).
      destruct (rel_first h r D c x z Hc Hx HR) as (u & Hu). apply (in_step h r D c x u Hs Hx) in Hu. rewrite E in Hu. destruct Hu.
    - assert (HR : Rel h c x y) by (apply (in_step h r D c x y Hs Hx); rewrite E; left; reflexivity). pose proof (rel_sym_el h r D c x y Hs Hx HR) as Hy.
      rewrite (walk_length h r D (fun _ => []) c x y Hc Hx HR) in Hlen. rewrite (handle_told ChildrenAll [y] FIs) by (constructor; [exact Hy | constructor]). cbn [wbind rbind fst snd andb].
      destruct (IH y Hy ltac:(lia)) as (l & El & HP). rewrite El. cbn [wbind rbind fst snd app]. rewrite app_nil_r. exists (y :: l). split; [reflexivity|].
      apply Permutation.NoDup_Permutation.
      + constructor; [|apply (Permutation.Permutation_NoDup (l := step_list h (all_of c) y)); [symmetry; exact HP | exact (docset_nodup h r D _ (step_docset h r D _ y Ha Hy))]].
        intros Hi. apply (Permutation.Permutation_in _ HP) in Hi. apply (in_step h r D _ y y Ha Hy) in Hi. apply (rel_ahead h c y y Hc) in Hi. exact (ahead_asym h r D c y y Hy Hy Hi Hi).
      + exact (docset_nodup h r D _ (step_docset h r D _ x Ha Hx)).
      + intros z. rewrite (in_step h r D _ x z Ha Hx), (rel_split h r D (fun _ => []) c x y z Hc Hx HR). cbn. rewrite <- (in_step h r D _ y z Ha Hy).
        split; (intros [H|H]; [left; congruence | right]); [exact (Permutation.Permutation_in _ HP H) | exact (Permutation.Permutation_in _ (Permutation.Permutation_sym HP) H)].
  Qed.
  Lemma walks_told c contains : unit_comb c = true -> forall us, Forall (ElIn h r) us ->
    exists l, wselect_until h us (single m ChildrenAll) None contains c = Ok (l, repeat r (length l)) /\ length l = length (flat_map (step_list h (all_of c)) us) /\ forall y, In y l <-> Reached (all_of c) us y.
  Proof.
    intros Hc us HU. destruct (unit_step c Hc) as [Hs Ha]. unfold wselect_until. induction HU as [|x us Hx HU IH].
    - exists []. split; [reflexivity|]. split; [reflexivity|]. intros y. split; [intros [] | intros (e & [] & _)].
    - destruct IH as (l & E & Hlen & HM). destruct (until_told c contains Hc (dfs_fuel h) x Hx) as (l1 & E1 & HP).
      { pose proof (until_start h r D (fun _ => []) c x Hc Hx) as Hst. exact Hst. }
      exists (l1 ++ l). split; [cbn [wflat]; rewrite E1; cbn [wbind rbind fst snd]; rewrite E; cbn; rewrite !app_nil_r, app_length, repeat_app; reflexivity|]. split.
      + cbn [flat_map]. rewrite !app_length, Hlen, (Permutation.Permutation_length HP). reflexivity.
      + intros y. rewrite in_app_iff, HM. split.
        * intros [H|(e & He & H)]; [exists x; split; [left; reflexivity|]; apply (in_step h r D _ x y Ha Hx); exact (Permutation.Permutation_in _ HP H) | exists e; split; [right; exact He | exact H]].
        * intros (e & [<-|He] & H); [left; apply (Permutation.Permutation_in _ (Permutation.Permutation_sym HP)); apply (in_step h r D _ x y Ha Hx); exact H | right; exists e; split; assumption].
  Qed.
End Count.
