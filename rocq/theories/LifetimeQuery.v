(** Queries that only look at an element and below it, after documents were dropped. *)
From Verif Require Import Base Attr Dom DomSpec Order DomProofs Sets SelSpec Mutate Engine Rules RuleProofs Parse Query Reports ReportsStay Lifetime LifetimeSpec LifetimeProofs.

Lemma rfilter_ext {A} (f g : A -> res bool) l : (forall x, In x l -> f x = g x) -> rfilter f l = rfilter g l.
Proof.
  induction l as [|x l IH]; intros H; [reflexivity|]. cbn. rewrite (H x (or_introl eq_refl)), IH; [reflexivity|].
  intros y Hy. apply H. right. exact Hy.
Qed.
Lemma rexists_ext {A} (f g : A -> res bool) l : (forall x, In x l -> f x = g x) -> rexists f l = rexists g l.
Proof.
  induction l as [|x l IH]; intros H; [reflexivity|]. cbn. rewrite (H x (or_introl eq_refl)), IH; [reflexivity|].
  intros y Hy. apply H. right. exact Hy.
Qed.
Lemma rflat_ext {A B} (f g : A -> res (list B)) l : (forall x, In x l -> f x = g x) -> rflat f l = rflat g l.
Proof.
  induction l as [|x l IH]; intros H; [reflexivity|]. cbn. rewrite (H x (or_introl eq_refl)), IH; [reflexivity|].
  intros y Hy. apply H. right. exact Hy.
Qed.
Lemma rfilter_incl {A} (f : A -> res bool) l : forall l', rfilter f l = Ok l' -> incl l' l.
Proof.
  induction l as [|x l IH]; intros l' H; cbn in H; [injection H as <-; intros y Hy; exact Hy|].
  destruct (f x) as [b| |]; cbn in H; try discriminate. destruct (rfilter f l) as [ys| |]; cbn in H; try discriminate. injection H as <-.
  intros y Hy. destruct b; [destruct Hy as [-> | Hy]; [left; reflexivity|]|]; right; exact (IH ys eq_refl y Hy).
Qed.

Section Query.
  Variable h : heap.
  Hypothesis wf : WF h.
  Variables held docs : list id.
  Let h' := drop h held docs.
  Local Notation Live := (Alive h held docs).
  Variable text_of : id -> str.
  Variable by_id : id -> str -> option id.

  (** What the sets are drawn from: nodes that are alive, with their children. *)
  Variable P : id -> Prop.
  Hypothesis P_live : forall x, P x -> Live x.
  Hypothesis P_kids : forall x c, P x -> In c (children h x) -> P c.

  (** Matchers that answer alike for what is alive. *)
  Inductive Alike : matcher -> matcher -> Prop :=
  | AK_all : Alike all_matcher all_matcher
  | AK_one r g' g : (forall x, Live x -> g' x = g x) -> Alike (one r g') (one r g).
  Definition AlikeS (s' s : segment) : Prop := Alike (fst s') (fst s) /\ snd s' = snd s.
  Lemma alike_prio m' m : Alike m' m -> mt_prio m' = mt_prio m.
  Proof. intros []; reflexivity. Qed.
  Lemma alike_cache m' m : Alike m' m -> mt_cache m' = false /\ mt_cache m = false.
  Proof. intros []; split; reflexivity. Qed.
  Lemma drop_comment x : Live x -> is_comment h' x = is_comment h x.
  Proof. intros H. unfold is_comment. unfold h'. rewrite (drop_type h wf held docs x H). reflexivity. Qed.
  Lemma alike_compile r : own_rule r = true -> Alike (compile h' text_of by_id r) (compile h text_of by_id r).
  Proof.
    destruct r; cbn; try discriminate; intros _; try (apply AK_one; intros x Hx).
    - apply AK_all.
    - unfold name_one. unfold h'. rewrite (drop_tag h wf held docs x Hx). reflexivity.
    - unfold class_one. unfold h'. rewrite (drop_attribute h wf held docs x _ Hx). reflexivity.
    - unfold attr_one. unfold h'. rewrite (drop_attribute h wf held docs x _ Hx). reflexivity.
    - unfold empty_one. unfold h'. rewrite (drop_kids h wf held docs x Hx). f_equal.
      assert (HC : forall c, In c (kids h x) -> Live c) by (intros c; exact (kid_alive h held docs x c Hx)).
      induction (kids h x) as [|c cs IH]; [reflexivity|]. cbn. rewrite (IH (fun k Hk => HC k (or_intror Hk))).
      f_equal. exact (drop_comment c (HC c (or_introl eq_refl))).
    - reflexivity.
  Qed.

  Lemma alike_insert s' s : AlikeS s' s -> forall l' l, Forall2 AlikeS l' l -> Forall2 AlikeS (insert_prio s' l') (insert_prio s l).
  Proof.
    intros H l' l HL. induction HL as [|a' a l' l Ha HL IH]; [constructor; [exact H | constructor]|]. cbn.
    rewrite (alike_prio _ _ (proj1 H)), (alike_prio _ _ (proj1 Ha)). destruct (_ <=? _)%N.
    - constructor; [exact H|]. constructor; assumption.
    - constructor; assumption.
  Qed.
  Lemma alike_sort l' l : Forall2 AlikeS l' l -> Forall2 AlikeS (sort_prio l') (sort_prio l).
  Proof. intros H. induction H as [|a' a l' l Ha HL IH]; [constructor|]. apply (alike_insert a' a Ha). exact IH. Qed.
  Lemma alike_optimize l' l : Forall2 AlikeS l' l -> Forall2 AlikeS (optimize_compound l') (optimize_compound l).
  Proof.
    intros H. pose proof (alike_sort l' l H) as HS. destruct H as [|[m1' c1'] [m1 c1] l' l [H1 E1] HL]; [constructor|]. cbn in H1, E1. subst c1'.
    destruct HL as [|s2' s2 l' l H2 HL]; [constructor; [split; [exact H1 | reflexivity] | constructor]|].
    unfold optimize_compound. destruct HS as [|[m' c'] [m c] t' t [Hm Ec] HT]; [constructor|]. cbn in Hm, Ec. subst c'.
    destruct (comb_eqb c c1).
    - constructor; [split; [exact Hm | reflexivity] | exact HT].
    - constructor; [split; [exact Hm | reflexivity]|]. clear -HT. induction HT as [|a' a t' t [Ha _] HT IH]; [constructor|]. constructor; [split; [exact Ha | reflexivity] | exact IH].
  Qed.

  Lemma alike_apply m' m els : Alike m' m -> Forall P els -> apply m' els None = apply m els None /\ forall l, apply m els None = Ok l -> Forall P l.
  Proof.
    intros [|r g' g Hg] HL; [split; [reflexivity|]; intros l E; injection E as <-; exact HL|]. cbn. rewrite Forall_forall in HL. split.
    - apply rfilter_ext. intros x Hx. exact (Hg x (P_live x (HL x Hx))).
    - intros l E. apply Forall_forall. intros x Hx. exact (HL x (rfilter_incl g els l E x Hx)).
  Qed.
  Lemma alike_chain : forall rs' rs els, Forall2 AlikeS rs' rs -> Forall (fun s => snd s = Chain) rs -> Forall P els ->
    chain_rest h' els rs' = chain_rest h els rs /\ forall l, chain_rest h els rs = Ok l -> Forall P l.
  Proof.
    intros rs' rs els H. revert els. induction H as [|[m' c'] [m c] rs' rs [Hm Ec] HR IH]; intros els HC HL; [split; [reflexivity | intros l E; injection E as <-; exact HL]|].
    cbn in Hm, Ec. subst c'. pose proof (Forall_inv HC) as Hc. cbn in Hc. subst c. cbn [chain_rest select_by_rule].
    destruct (nonempty els); [|split; [reflexivity | intros l E; injection E as <-; exact HL]].
    destruct (alike_apply m' m els Hm HL) as [E1 E2]. rewrite E1. destruct (apply m els None) as [l| |]; cbn [rbind]; [|split; [reflexivity | discriminate]..].
    apply IH; [exact (Forall_inv_tail HC) | exact (E2 l eq_refl)].
  Qed.

  (** One compound, compiled in both heaps. *)
  Variable cp : list (rule * comb).
  Hypothesis Hown : forallb (fun e => own_rule (fst e)) cp = true.
  Hypothesis Hwf : comp_wf cp = true.
  Definition q' := optimize_compound (compile_comp h' text_of by_id cp).
  Definition q := optimize_compound (compile_comp h text_of by_id cp).
  Lemma q_alike : Forall2 AlikeS q' q.
  Proof.
    apply alike_optimize. clear Hwf. induction cp as [|[r c] l IH]; [constructor|]. cbn in Hown. apply andb_true_iff in Hown. destruct Hown as [H1 H2].
    constructor; [split; [exact (alike_compile r H1) | reflexivity] | exact (IH H2)].
  Qed.
  Lemma q_shape : exists m' m c rest' rest, q' = (m', c) :: rest' /\ q = (m, c) :: rest /\ c = comp_comb cp /\ Alike m' m /\
    Forall2 AlikeS rest' rest /\ Forall (fun s => snd s = Chain) rest.
  Proof.
    pose proof Hwf as Hw. rewrite <- (comp_wf_map h text_of by_id) in Hw. destruct (optimize_compound_wf _ Hw) as (H1 & H2 & _). fold q in H1, H2.
    pose proof q_alike as HA. destruct HA as [|[m' c'] [m c] rest' rest [Hm Ec] HR]; [discriminate|]. cbn in Hm, Ec. subst c'.
    exists m', m, c, rest', rest. do 2 (split; [reflexivity|]). split; [|split; [exact Hm|]; split; [exact HR|]].
    - cbn in H2. rewrite H2. clear. destruct cp as [|[r0 c0] l]; reflexivity.
    - cbn in H1. apply andb_true_iff in H1. destruct H1 as [_ H1]. apply Forall_forall. intros [ms cs] Hs. rewrite forallb_forall in H1.
      specialize (H1 _ Hs). cbn in *. destruct cs; try discriminate. reflexivity.
  Qed.
  Lemma compiled (k : heap) b : compile_selector k text_of by_id b [[cp]] = [mkProcess None [optimize_compound (compile_comp k text_of by_id cp)]].
  Proof.
    unfold compile_selector, compile_groups, optimize, optimize_group. cbn [map].
    change (map (fun e => let '(r', c) := e in (compile k text_of by_id r', c)) cp) with (compile_comp k text_of by_id cp).
    assert (E : forall c, fst (max_index_from [c] 0 (0, 0%N)) = 0) by (intros c; cbn; destruct (total_prio c); reflexivity).
    rewrite E. destruct b; reflexivity.
  Qed.

  Lemma drop_process els root : Forall P els ->
    filter_process h' els root (mkProcess None [q']) = filter_process h els root (mkProcess None [q]) /\
    forall l rt, filter_process h els root (mkProcess None [q]) = Ok (l, rt) -> Forall P l.
  Proof.
    intros HL. destruct q_shape as (m' & m & c & rest' & rest & E' & E & _ & Hm & HR & HC). rewrite E, E'.
    unfold filter_process. cbn [query rev app rnth nth_error rbind fst snd tl select_by_rule].
    destruct (alike_apply m' m els Hm HL) as [E1 E2]. rewrite E1. destruct (apply m els None) as [l| |]; cbn [rbind]; [|split; [reflexivity | discriminate]..].
    destruct (alike_chain rest' rest l HR HC (E2 l eq_refl)) as [E3 E4]. rewrite E3. destruct (chain_rest h l rest) as [l'| |]; cbn [rbind]; [|split; [reflexivity | discriminate]..].
    specialize (E4 l' eq_refl). destruct l' as [|x l']; (split; [reflexivity|]); intros l2 rt Ee; injection Ee as <- <-; exact E4.
  Qed.
  Lemma children_alive x : P x -> Forall P (children h x).
  Proof. intros H. apply Forall_forall. intros c Hc. exact (P_kids x c H Hc). Qed.
  Lemma drop_nodes_length x : Live x -> child_nodes_length h' x = child_nodes_length h x.
  Proof. intros H. unfold child_nodes_length. unfold h'. rewrite (drop_kids h wf held docs x H). reflexivity. Qed.
  Lemma drop_dfs_one g' g : (forall x, Live x -> g' x = g x) -> forall f x, P x -> dfs_one h' f g' x = dfs_one h f g x.
  Proof.
    intros Hg. induction f as [|f IH]; intros x H; [reflexivity|]. cbn [dfs_one].
    assert (E : children h' x = children h x) by exact (drop_children h wf held docs x (P_live x H)). rewrite E. apply rflat_ext. intros c Hc.
    pose proof (children_alive x H) as HC. rewrite Forall_forall in HC. specialize (HC c Hc).
    rewrite (Hg c (P_live c HC)), (drop_nodes_length c (P_live c HC)), (IH c HC). reflexivity.
  Qed.
  Lemma dfs_one_live g : forall f x l, P x -> dfs_one h f g x = Ok l -> Forall P l.
  Proof.
    induction f as [|f IH]; intros x l H E; [discriminate|]. cbn [dfs_one] in E. pose proof (children_alive x H) as HC. revert l E.
    induction (children h x) as [|c cs IHc]; intros l E; [injection E as <-; constructor|]. cbn [rflat] in E.
    pose proof (Forall_inv HC) as Hc. destruct (g c) as [b| |]; cbn [rbind] in E; try discriminate.
    destruct (if 0 <? child_nodes_length h c then dfs_one h f g c else Ok []) as [sub| |] eqn:Es; cbn [rbind] in E; try discriminate.
    assert (Hs : Forall P sub) by (destruct (0 <? child_nodes_length h c); [exact (IH c sub Hc Es) | injection Es as <-; constructor]).
    match type of E with (do b <- ?e; _) = _ => destruct e as [r| |] eqn:Er end; cbn [rbind] in E; try discriminate. injection E as <-.
    apply Forall_app. split; [|exact (IHc (Forall_inv_tail HC) r eq_refl)]. apply Forall_app. split; [destruct b; [constructor; [exact Hc | constructor] | constructor] | exact Hs].
  Qed.
  Definition all_walk (f : nat) (k : heap) :=
    fix walk (cs matched : list id) : res (list id) :=
      match cs with
      | [] => Ok []
      | c :: cs' =>
          let hit := match matched with m :: _ => Nat.eqb c m | [] => false end in
          do sub <- (if 0 <? child_nodes_length k c then dfs_all k f (fun els _ => Ok els) c else Ok []);
          do rest <- walk cs' (if hit then tl matched else matched);
          Ok ((if hit then [c] else []) ++ sub ++ rest)
      end.
  Lemma dfs_all_unfold (k : heap) f x : dfs_all k (S f) (fun els _ => Ok els) x = if nonempty (children k x) then all_walk f k (children k x) (children k x) else Ok [].
  Proof. reflexivity. Qed.
  Lemma all_walk_cons (k : heap) f c cs matched : all_walk f k (c :: cs) matched =
    do sub <- (if 0 <? child_nodes_length k c then dfs_all k f (fun els _ => Ok els) c else Ok []);
    do rest <- all_walk f k cs (if match matched with m :: _ => Nat.eqb c m | [] => false end then tl matched else matched);
    Ok ((if match matched with m :: _ => Nat.eqb c m | [] => false end then [c] else []) ++ sub ++ rest).
  Proof. reflexivity. Qed.
  Lemma drop_dfs_all : forall f x, P x -> dfs_all h' f (fun els _ => Ok els) x = dfs_all h f (fun els _ => Ok els) x.
  Proof.
    induction f as [|f IH]; intros x H; [reflexivity|]. rewrite !dfs_all_unfold.
    assert (E : children h' x = children h x) by exact (drop_children h wf held docs x (P_live x H)). rewrite E. destruct (nonempty (children h x)); [|reflexivity].
    pose proof (children_alive x H) as HC. clear E. generalize (children h x) at 2 4. induction (children h x) as [|c cs IHc]; intros matched; [reflexivity|].
    rewrite !all_walk_cons. pose proof (Forall_inv HC) as Hc. rewrite (drop_nodes_length c (P_live c Hc)), (IH c Hc), (IHc (Forall_inv_tail HC)). reflexivity.
  Qed.
  Lemma dfs_all_live : forall f x l, P x -> dfs_all h f (fun els _ => Ok els) x = Ok l -> Forall P l.
  Proof.
    induction f as [|f IH]; intros x l H E; [discriminate|]. rewrite dfs_all_unfold in E. destruct (nonempty (children h x)); [|injection E as <-; constructor].
    pose proof (children_alive x H) as HC. revert l E. generalize (children h x) at 2. induction (children h x) as [|c cs IHc]; intros matched l E; [injection E as <-; constructor|].
    rewrite all_walk_cons in E. pose proof (Forall_inv HC) as Hc.
    destruct (if 0 <? child_nodes_length h c then dfs_all h f (fun els _ => Ok els) c else Ok []) as [sub| |] eqn:Es; cbn [rbind] in E; try discriminate.
    assert (Hs : Forall P sub) by (destruct (0 <? child_nodes_length h c); [exact (IH c sub Hc Es) | injection Es as <-; constructor]).
    match type of E with (do b <- ?e; _) = _ => destruct e as [r| |] eqn:Er end; cbn [rbind] in E; try discriminate. injection E as <-.
    apply Forall_app. split; [match goal with |- context [if ?b then _ else _] => destruct b end; [constructor; [exact Hc | constructor] | constructor]|].
    apply Forall_app. split; [exact Hs | exact (IHc (Forall_inv_tail HC) _ r Er)].
  Qed.
  Lemma drop_dfs m' m x : Alike m' m -> P x -> dfs h' m' x = dfs h m x /\ forall l, dfs h m x = Ok l -> Forall P l.
  Proof.
    intros [|r g' g Hg] H; unfold dfs, dfs_fuel; cbn [mt_one mt_spec mt_all all_matcher one get_all_handle rbind].
    - split; [assert (EL : length h' = length h) by apply drop_length; rewrite EL; exact (drop_dfs_all _ x H) | exact (fun l => dfs_all_live _ x l H)].
    - split; [assert (EL : length h' = length h) by apply drop_length; rewrite EL; exact (drop_dfs_one g' g Hg _ x H) | exact (fun l => dfs_one_live g _ x l H)].
  Qed.
  Lemma drop_find_process x : comp_comb cp = ChildrenAll -> P x ->
    find_process h' [x] (mkProcess None [q']) = find_process h [x] (mkProcess None [q]) /\ forall l, find_process h [x] (mkProcess None [q]) = Ok l -> Forall P l.
  Proof.
    intros Hc H. destruct q_shape as (m' & m & c & rest' & rest & E' & E & Ec & Hm & HR & HC). rewrite E, E'.
    rewrite Hc in Ec. subst c. unfold find_process, find_first. cbn [query should_in rnth nth_error rbind tl].
    assert (ES : select h' [x] ((m', ChildrenAll) :: rest') None = select h [x] ((m, ChildrenAll) :: rest) None /\
      forall l, select h [x] ((m, ChildrenAll) :: rest) None = Ok l -> Forall P l).
    { unfold select. cbn [rnth nth_error rbind tl]. destruct (alike_cache m' m Hm) as [-> ->]. cbn [andb select_by_rule].
      unfold search_starts. cbn [length Nat.ltb Nat.leb rbind rflat]. destruct (drop_dfs m' m x Hm H) as [E1 E2]. rewrite E1.
      destruct (dfs h m x) as [l| |]; cbn [rbind]; [|split; [reflexivity | discriminate]..].
      apply alike_chain; [exact HR | exact HC | rewrite app_nil_r; exact (E2 l eq_refl)]. }
    destruct ES as [ES EP]. rewrite ES. destruct (select h [x] ((m, ChildrenAll) :: rest) None) as [l| |]; cbn [rbind]; [|split; [reflexivity | discriminate]..].
    specialize (EP l eq_refl). destruct (nonempty l) eqn:En; (split; [reflexivity|]); intros l2 Ee; cbn in Ee; injection Ee as <-; [exact EP | constructor].
  Qed.
End Query.

(** Several groups of one compound each. *)
Section Groups.
  Variable h : heap.
  Hypothesis wf : WF h.
  Variables held docs : list id.
  Let h' := drop h held docs.
  Variable text_of : id -> str.
  Variable by_id : id -> str -> option id.
  Variable P : id -> Prop.
  Hypothesis P_live : forall x, P x -> Alive h held docs x.
  Hypothesis P_kids : forall x c, P x -> In c (children h x) -> P c.
  Variable cps : list (list (rule * comb)).
  Hypothesis Hown : forall cp, In cp cps -> forallb (fun e : rule * comb => own_rule (fst e)) cp = true.
  Hypothesis Hwf : forall cp, In cp cps -> comp_wf cp = true.
  Local Notation groups := (map (fun cp => [cp]) cps).
  Definition ps' := map (fun cp => mkProcess None [q' h held docs text_of by_id cp]) cps.
  Definition ps := map (fun cp => mkProcess None [q h text_of by_id cp]) cps.
  Lemma compiled_all (k : heap) b l : compile_selector k text_of by_id b (map (fun cp => [cp]) l) = map (fun cp => mkProcess None [optimize_compound (compile_comp k text_of by_id cp)]) l.
  Proof.
    induction l as [|cp l IH]; [reflexivity|]. cbn [map]. rewrite <- IH.
    transitivity (compile_selector k text_of by_id b [[cp]] ++ compile_selector k text_of by_id b (map (fun c => [c]) l)); [reflexivity|].
    rewrite compiled. reflexivity.
  Qed.
  Definition SameAdd : Prop := forall a b, Forall P a -> Forall P b -> add h' a b = add h a b.
  Lemma add_in a b l : Forall P a -> Forall P b -> add h a b = Ok l -> Forall P l.
  Proof. intros Ha Hb. exact (add_P h P a b Ha Hb l). Qed.

  Lemma drop_loop els mode : mode = true \/ SameAdd -> Forall P els -> forall l, incl l cps -> forall root acc, Forall P acc ->
    filter_loop h' els mode root acc (map (fun cp => mkProcess None [q' h held docs text_of by_id cp]) l) =
    filter_loop h els mode root acc (map (fun cp => mkProcess None [q h text_of by_id cp]) l).
  Proof.
    intros HM HL. induction l as [|cp l IH]; intros Hi root acc Ha; [reflexivity|]. cbn [map filter_loop].
    pose proof (Hi cp (or_introl eq_refl)) as Hc. destruct (drop_process h wf held docs text_of by_id P P_live cp (Hown cp Hc) (Hwf cp Hc) els root HL) as [E1 E2].
    unfold h' at 1. rewrite E1. destruct (filter_process h els root (mkProcess None [q h text_of by_id cp])) as [[g rt]| |]; cbn [rbind]; [|reflexivity|reflexivity].
    specialize (E2 g rt eq_refl). assert (Hi' : incl l cps) by (intros x Hx; apply Hi; right; exact Hx).
    destruct (nonempty g); [|exact (IH Hi' rt acc Ha)]. destruct mode; [reflexivity|]. destruct HM as [HM | HM]; [discriminate|]. rewrite (HM acc g Ha E2).
    destruct (add h acc g) as [acc'| |] eqn:Ea; cbn [rbind]; [|reflexivity|reflexivity]. exact (IH Hi' rt acc' (add_in acc g acc' Ha E2 Ea)).
  Qed.
  Lemma drop_type_handle els t : t = FIs \/ SameAdd -> Forall P els -> filter_type_handle h' els ps' t = filter_type_handle h els ps t.
  Proof.
    intros HT HL. unfold filter_type_handle, ps', ps. rewrite (drop_loop els _); [reflexivity | destruct HT as [-> | HT]; [left; reflexivity | right; exact HT] | exact HL | apply incl_refl | constructor].
  Qed.
  Lemma drop_is els : Forall P els -> is_ast h' text_of by_id els groups = is_ast h text_of by_id els groups.
  Proof.
    intros HL. unfold is_ast. rewrite !compiled_all. unfold is_sel. pose proof (drop_type_handle els FIs (or_introl eq_refl) HL) as E. unfold ps', ps, q', q in E.
    unfold h' at 2. rewrite <- E. reflexivity.
  Qed.
  Lemma drop_has_loop : forall f x, P x -> has_loop h' f ps' x = has_loop h f ps x.
  Proof.
    induction f as [|f IH]; intros x H; [reflexivity|]. cbn [has_loop].
    assert (E : children h' x = children h x) by exact (drop_children h wf held docs x (P_live x H)). rewrite E.
    assert (HC : Forall P (children h x)) by (apply Forall_forall; intros c Hc; exact (P_kids x c H Hc)).
    rewrite (drop_type_handle _ FIs (or_introl eq_refl) HC). destruct (nonempty (children h x)); [|reflexivity].
    destruct (filter_type_handle h (children h x) ps FIs) as [r| |]; cbn [rbind]; [|reflexivity|reflexivity].
    destruct (snd r); [reflexivity|]. apply rexists_ext. intros c Hc. apply IH. exact (P_kids x c H Hc).
  Qed.
  Lemma drop_has_ast els : Forall P els -> has_ast h' text_of by_id els groups = has_ast h text_of by_id els groups.
  Proof.
    intros HL. unfold has_ast. rewrite !compiled_all. unfold has_sel, dfs_fuel. assert (EL : length h' = length h) by apply drop_length. rewrite EL. apply rfilter_ext.
    intros x Hx. apply drop_has_loop. rewrite Forall_forall in HL. exact (HL x Hx).
  Qed.
  Lemma drop_filters els : SameAdd -> Forall P els ->
    filter_ast h' text_of by_id els groups = filter_ast h text_of by_id els groups /\ not_ast h' text_of by_id els groups = not_ast h text_of by_id els groups /\
    is_all_ast h' text_of by_id els groups = is_all_ast h text_of by_id els groups.
  Proof.
    intros HA HL. unfold filter_ast, not_ast, is_all_ast. rewrite !compiled_all. unfold filter_sel, not_sel, is_all_sel.
    pose proof (fun t => drop_type_handle els t (or_intror HA) HL) as E. unfold ps', ps, q', q in E. fold h' in E. rewrite !E. repeat split.
  Qed.
  Lemma drop_find x : SameAdd -> P x -> (forall cp, In cp cps -> comp_comb cp = ChildrenAll) -> find_ast h' text_of by_id [x] groups = find_ast h text_of by_id [x] groups.
  Proof.
    intros HA Hx HC. unfold find_ast. rewrite !compiled_all. unfold find_selector. cbn [nonempty].
    assert (G : forall l, incl l cps -> forall acc, Forall P acc ->
      rfold (fun result p => do group <- find_process h' [x] p; if nonempty group then add h' result group else Ok result) (map (fun cp => mkProcess None [q' h held docs text_of by_id cp]) l) acc =
      rfold (fun result p => do group <- find_process h [x] p; if nonempty group then add h result group else Ok result) (map (fun cp => mkProcess None [q h text_of by_id cp]) l) acc).
    { induction l as [|cp l IH]; intros Hi acc Ha; [reflexivity|]. cbn [map rfold]. pose proof (Hi cp (or_introl eq_refl)) as Hc.
      destruct (drop_find_process h wf held docs text_of by_id P P_live P_kids cp (Hown cp Hc) (Hwf cp Hc) x (HC cp Hc) Hx) as [E1 E2]. fold h' in E1. rewrite E1.
      assert (Hi' : incl l cps) by (intros y Hy; apply Hi; right; exact Hy).
      destruct (find_process h [x] (mkProcess None [q h text_of by_id cp])) as [g| |]; cbn [rbind]; [|reflexivity|reflexivity]. specialize (E2 g eq_refl).
      destruct (nonempty g); [|exact (IH Hi' acc Ha)]. rewrite (HA acc g Ha E2). destruct (add h acc g) as [acc'| |] eqn:Ea; cbn [rbind]; [|reflexivity|reflexivity].
      exact (IH Hi' acc' (add_in acc g acc' Ha E2 Ea)). }
    exact (G cps (incl_refl cps) [] (Forall_nil _)).
  Qed.
End Groups.

(** One group: nothing is merged. *)
Lemma drop_one h : WF h -> forall held docs text_of by_id cp, forallb (fun e : rule * comb => own_rule (fst e)) cp = true -> comp_wf cp = true ->
  forall els, Forall (Alive h held docs) els -> let gs := map (fun cp => [cp]) [cp] in
  filter_ast (drop h held docs) text_of by_id els gs = filter_ast h text_of by_id els gs /\ not_ast (drop h held docs) text_of by_id els gs = not_ast h text_of by_id els gs /\
  is_all_ast (drop h held docs) text_of by_id els gs = is_all_ast h text_of by_id els gs.
Proof.
  intros wf held docs text_of by_id cp Ho Hw els He gs.
  assert (E : forall t, filter_type_handle (drop h held docs) els [mkProcess None [q' h held docs text_of by_id cp]] t = filter_type_handle h els [mkProcess None [q h text_of by_id cp]] t).
  { intros t. unfold filter_type_handle. cbn [filter_loop].
    destruct (drop_process h wf held docs text_of by_id (Alive h held docs) (fun x H => H) cp Ho Hw els None He) as [E _]. rewrite E.
    destruct (filter_process h els None (mkProcess None [q h text_of by_id cp])) as [[l rt]| |]; cbn [rbind]; [|reflexivity|reflexivity]. destruct l; reflexivity. }
  unfold filter_ast, not_ast, is_all_ast, gs. rewrite !compiled_all. unfold filter_sel, not_sel, is_all_sel. unfold q', q in E. cbn [map]. rewrite !E. repeat split.
Qed.
