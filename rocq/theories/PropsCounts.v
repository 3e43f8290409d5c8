(** Property theorems: how often each query reports a text nested in a lone [:not] or [:has] (C60). *)
From Verif Require Import Base Attr Dom DomSpec Order OrderSpec DomProofs OrderProofs Sets SetsProofs DomBuild DomBuildProofs Mutate
  Engine Rules Regex Parse PropsParse Traverse Query SelSpec FindSpec TravSpec PreProofs SelBool SibLists SibProofs StepProofs TravProofs SetTrav SelBuild QueryProofs PropsFilter PropsSetTrav
  Reports ReportsProofs ReportsCount PropsReports.

(** A text that is one [:not] or [:has] around a text that is no selector. *)
Definition LoneText (wide_digit : char -> bool) (t : str) : Prop := exists rl, from_str wide_digit t = Ok (Some [[[(rl, ChildrenAll)]]]) /\ (rl = RNot NErr \/ rl = RHas NErr).
(** Members of a set, one for each parent. *)
Definition Heads (h : heap) (els us : list id) : Prop :=
  NoDup (map (parent h) us) /\ (forall u, In u us -> In u els) /\ forall e, In e els -> exists u, In u us /\ parent h u = parent h e.

Section Shared.
  Variable h : heap.
  Variable r : id.
  Hypothesis D : DocOk h r.
  Let wf : WF h := do_wf h r D.
  Lemma heads_firsts els : Heads h els (firsts h [] els).
  Proof.
    split; [|split; [exact (firsts_sub h els [])|]].
    - pose proof (firsts_distinct h els []) as H. induction H as [|u l Hu _ IH]; cbn; [constructor|]. constructor; [|exact IH]. intros Hi. apply in_map_iff in Hi as (v & Ev & Hv). rewrite Forall_forall in Hu. exact (Hu v Hv (eq_sym Ev)).
    - intros e He. exact (firsts_cover h els e He).
  Qed.
  Lemma no_families c : Families h c [] [].
  Proof. split; [constructor|]. intros p. split; [intros [] | intros (y & (e & [] & _) & _)]. Qed.
  Lemma families_nil c ps : Families h c [] ps -> ps = [].
  Proof. intros [_ H]. destruct ps as [|p ps]; [reflexivity|]. destruct (proj1 (H p) (or_introl eq_refl)) as (y & (e & [] & _) & _). Qed.
  Lemma once_nil c rep : Once h r [] c rep -> rep = [].
  Proof. intros [_ H]. apply H. intros (y & e & [] & _). Qed.
  Lemma firsts_nil els : firsts h [] els = [] -> els = [].
  Proof. intros E. destruct els as [|x els]; [reflexivity|]. destruct (firsts_cover h (x :: els) x (or_introl eq_refl)) as (u & Hu & _). rewrite E in Hu. destruct Hu. Qed.
End Shared.

(** * C60: find *)
(** One report for every parent of an element below the set: the rule is given the children of each of them at once. *)
Theorem C60_find_count h r text_of by_id wide_digit els t : DocOk h r -> Forall (Start h r) els -> Ordered h els -> LoneText wide_digit t ->
  exists ps, Families h ChildrenAll els ps /\ wrun h text_of by_id wide_digit els (QFind t) = Ok (ASet [], repeat r (length ps)).
Proof.
  intros D HS Ho (rl & Et & Hr). pose proof (lone_rule h text_of by_id rl Hr) as L. cbn [wrun]. unfold wfind_text, wparsed_or, wfind_ast. rewrite Et. cbn [rbind]. rewrite single_compiled.
  destruct els as [|x els]; [exists []; split; [apply no_families | reflexivity]|]. destruct (find_told h r D _ L (x :: els) HS Ho) as (ps & HF & E). exists ps. split; [exact HF|].
  rewrite (find_single h _ L (x :: els) ChildrenAll _ ltac:(discriminate) E). reflexivity.
Qed.
Print Assumptions C60_find_count.

(** * C60: the steps *)
Definition by_family (c : comb) : bool := match c with Children | NextAll | PrevAll | Siblings => true | _ => false end.
Definition at_once (c : comb) : bool := match c with Parent | ParentAll | Next | Prev => true | _ => false end.
Lemma step_asked h text_of by_id wide_digit els c s t rl us rep : texts (QStep c s) = [t] -> c <> Siblings -> from_str wide_digit t = Ok (Some [[[(rl, ChildrenAll)]]]) -> Lone h (rcompile h text_of by_id rl) ->
  uniques h c els = Ok us -> (us = [] -> rep = []) -> wselect_by_rule h us (rcompile h text_of by_id rl) c = Ok ([], rep) -> finish h c [] = Ok [] ->
  wrun h text_of by_id wide_digit els (QStep c s) = Ok (ASet [], rep).
Proof.
  intros Ht Hc Et L Eu Hz E Ef. assert (Es : s = t /\ t <> []).
  { destruct c; try congruence; cbn [texts] in Ht; (destruct s; [discriminate|]); injection Ht as <-; split; first [reflexivity | discriminate]. }
  destruct Es as [-> Hn]. assert (Ew : wselect_text h text_of by_id wide_digit us t c = Ok ([], rep)).
  { unfold wselect_text. destruct t as [|ch t]; [congruence|]. destruct us as [|x us]; [rewrite (Hz eq_refl); reflexivity|]. unfold wtrigger_method, wparsed_or. rewrite Et. cbn [rbind].
    rewrite single_compiled, (step_single h _ (x :: us) c ltac:(discriminate)). exact (find_single h _ L (x :: us) c rep ltac:(discriminate) E). }
  cbn [wrun]. unfold answered. assert (Es : wstep_text h text_of by_id wide_digit c els t = Ok ([], rep)); [|rewrite Es; reflexivity].
  destruct c; try congruence; cbn [wstep_text]; rewrite Eu; cbn [rbind]; rewrite Ew; cbn [wbind rbind fst snd]; rewrite Ef; cbn; rewrite app_nil_r; reflexivity.
Qed.
(** To the children or the siblings: one report for every parent of an element the step reaches. *)
Theorem C60_step_count h r text_of by_id wide_digit els c s t : Walkers h r by_id els -> by_family c = true -> texts (QStep c s) = [t] -> LoneText wide_digit t ->
  exists ps, Families h c els ps /\ wrun h text_of by_id wide_digit els (QStep c s) = Ok (ASet [], repeat r (length ps)).
Proof.
  intros [D IC HE HI] Hc Ht (rl & Et & Hr). pose proof (lone_rule h text_of by_id rl Hr) as L. pose proof (els_in h r els HE) as HT. destruct c; try discriminate Hc.
  - destruct (kids_told h r D _ L els HE HI) as (ps & HF & E). exists ps. split; [exact HF|]. eapply step_asked; try eassumption; try reflexivity; try discriminate.
    intros ->. rewrite (families_nil h _ ps HF). reflexivity.
  - destruct (nexts_told h r D _ L els HE HI) as (ps & HF & E). exists ps. split; [exact HF|]. eapply step_asked; try eassumption; try reflexivity; try discriminate; [exact (us_first h r D els HT)|].
    intros Hz. rewrite (firsts_nil h els Hz) in HF. rewrite (families_nil h _ ps HF). reflexivity.
  - destruct (prevs_told h r D _ L els HE HI) as (ps & HF & E). exists ps. split; [exact HF|]. eapply step_asked; try eassumption; try reflexivity; try discriminate; [exact (us_last h r D els HT)|].
    intros Hz. apply (f_equal (@rev id)) in Hz. rewrite rev_involutive in Hz. apply firsts_nil in Hz. apply (f_equal (@rev id)) in Hz. rewrite rev_involutive in Hz. cbn in Hz. subst els.
    rewrite (families_nil h _ ps HF). reflexivity.
  - destruct (siblings_told h r D _ L els HE HI) as (ps & HF & E). exists ps. split; [exact HF|]. cbn [texts] in Ht. cbn [wrun wstep_text]. unfold wsiblings_text. rewrite (ua_ok h r D els HE). cbn [rbind].
    destruct (trim s) as [|ch s'] eqn:Es; [discriminate|]. injection Ht as <-. unfold wparsed_or. rewrite Et. cbn [rbind]. rewrite single_compiled, E. reflexivity.
Qed.
Print Assumptions C60_step_count.
(** Upwards, or to the next or previous element: the rule is given all that the step reaches at once, so there is one report — or none,
    if the step reaches nothing. *)
Theorem C60_step_once h r text_of by_id wide_digit els c s t : Walkers h r by_id els -> at_once c = true -> texts (QStep c s) = [t] -> LoneText wide_digit t ->
  exists rep, wrun h text_of by_id wide_digit els (QStep c s) = Ok (ASet [], rep) /\ ((exists y, Reached h c els y) -> rep = [r]) /\ (~ (exists y, Reached h c els y) -> rep = []).
Proof.
  intros [D IC HE HI] Hc Ht (rl & Et & Hr). pose proof (lone_rule h text_of by_id rl Hr) as L. pose proof (els_in h r els HE) as HT.
  assert (HS : exists us rep, Once h r els c rep /\ uniques h c els = Ok us /\ (us = [] -> els = []) /\ wselect_by_rule h us (rcompile h text_of by_id rl) c = Ok ([], rep) /\ finish h c [] = Ok []).
  { destruct c; try discriminate Hc.
    - destruct (parent_told h r D _ L els HE HI) as (rep & HO & E). exists (firsts h [] els), rep. split; [exact HO|]. split; [exact (us_first h r D els HT)|]. split; [exact (firsts_nil h els)|]. split; [exact E | reflexivity].
    - destruct (parents_told h r D _ L els HE) as (rep & HO & E). exists (firsts h [] els), rep. split; [exact HO|]. split; [exact (us_first h r D els HT)|]. split; [exact (firsts_nil h els)|]. split; [exact E|].
      exact (sorted_same h r D [] (conj (Forall_nil _) I)).
    - destruct (next_told h r D _ L els HE HI) as (rep & HO & E). exists els, rep. split; [exact HO|]. split; [reflexivity|]. split; [intros H; exact H|]. split; [exact E | reflexivity].
    - destruct (prev_told h r D _ L els HE HI) as (rep & HO & E). exists els, rep. split; [exact HO|]. split; [reflexivity|]. split; [intros H; exact H|]. split; [exact E | reflexivity]. }
  destruct HS as (us & rep & HO & Eu & Hz & E & Ef). exists rep. split; [|exact HO]. eapply step_asked; try eassumption; [destruct c; discriminate|].
  intros Hu. rewrite (Hz Hu) in HO. exact (once_nil h r c rep HO).
Qed.
Print Assumptions C60_step_once.

(** * C60: has *)
(** For each member, one report for every element with element children among the member and what is below it. *)
Theorem C60_has_count h r text_of by_id wide_digit els t : DocOk h r -> Forall (InTree h r) els -> LoneText wide_digit t ->
  exists ls, Forall2 (fun x ps => NoDup ps /\ forall p, In p ps <-> (p = x \/ DescEl h x p) /\ exists y, Child h p y /\ is_element h y = true) els ls /\
    wrun h text_of by_id wide_digit els (QHas t) = Ok (ASet [], repeat r (length (concat ls))).
Proof.
  intros D HT (rl & Et & Hr). pose proof (lone_rule h text_of by_id rl Hr) as L. exists (map (below h) els). split.
  - clear Et. induction HT as [|x l Hx HT IH]; [constructor|]. cbn [map]. constructor; [|exact IH]. split; [|intros p; exact (below_in h r D x p Hx)].
    apply (ordered_nodup h (do_wf h r D) r); [|exact (below_ordered h r D x Hx)]. apply Forall_forall. intros p Hp. apply (below_in h r D x p Hx) in Hp as [[->|Hp] _]; [exact Hx | exact (proj1 (desc_el h r x p Hx Hp))].
  - rewrite <- flat_map_concat_map. cbn [wrun]. unfold whas_text, wtrigger_method, wparsed_or, whas_ast. destruct els as [|x els]; [reflexivity|]. rewrite Et. cbn [rbind].
    rewrite single_compiled, (has_told h r D _ L ChildrenAll (x :: els) HT). reflexivity.
Qed.
Print Assumptions C60_has_count.

(** * C60: closest *)
(** One report for each member, and then once more for one member of each parent and for each of its element ancestors. *)
Theorem C60_closest_count h r text_of by_id wide_digit els s t : DocOk h r -> Forall (ElIn h r) els -> texts (QClosest s) = [t] -> LoneText wide_digit t ->
  exists us ls, Heads h els us /\ Forall2 (fun u l => NoDup l /\ forall y, In y l <-> y = u \/ Rel h ParentAll u y) us ls /\
    wrun h text_of by_id wide_digit els (QClosest s) = Ok (ASet [], repeat r (length els + length (concat ls))).
Proof.
  intros D HE Ht (rl & Et & Hr). pose proof (lone_rule h text_of by_id rl Hr) as L. exists (firsts h [] els), (map (upward h) (firsts h [] els)). split; [apply heads_firsts|]. split.
  - pose proof (firsts_els h r els HE) as HF. revert HF. generalize (firsts h [] els). clear - D. induction 1 as [|x l Hx _ IH]; [constructor|]. cbn [map]. constructor; [exact (upward_spec h r D x Hx) | exact IH].
  - rewrite <- flat_map_concat_map. cbn [texts] in Ht. destruct s as [|ch s]; [discriminate|]. injection Ht as <-. cbn [wrun wclosest_text]. unfold wparsed_or, wclosest_ast. rewrite Et. cbn [rbind].
    rewrite single_compiled, (closest_told h r D _ L ChildrenAll els HE). reflexivity.
Qed.
Print Assumptions C60_closest_count.

(** * C60: the walks *)
(** Nothing stops the walk, so it takes all; to the sides there is one report for each element of the answer. *)
Theorem C60_until_count h r text_of by_id wide_digit els c t contains : Walkers h r by_id els -> c = Next \/ c = Prev -> LoneText wide_digit t ->
  exists l, wrun h text_of by_id wide_digit els (QUntil c t [] contains) = Ok (ASet l, repeat r (length l)) /\ NoDup l /\ forall y, In y l <-> Reached h (all_of c) els y.
Proof.
  intros [D IC HE HI] Hc (rl & Et & Hr). pose proof (lone_rule h text_of by_id rl Hr) as L. pose proof (els_in h r els HE) as HT.
  assert (HS : exists us, until_uniques h c els = Ok us /\ Forall (ElIn h r) us /\ NoDup (flat_map (step_list h (all_of c)) us) /\ forall y, In y (flat_map (step_list h (all_of c)) us) <-> Reached h (all_of c) els y).
  { destruct Hc as [-> | ->].
    - exists (firsts h [] els). split; [exact (us_first h r D els HT)|]. split; [exact (firsts_els h r els HE)|]. destruct (base_facts h r D els HE HI NextAll eq_refl) as (H2 & _ & _ & H3). split; [exact H2 | exact H3].
    - exists (rev (firsts h [] (rev els))). split; [exact (us_last h r D els HT)|]. split; [exact (lasts_els h r els HE)|]. destruct (base_facts h r D els HE HI PrevAll eq_refl) as (H2 & _ & _ & H3). split; [exact H2 | exact H3]. }
  destruct HS as (us & Eu & HU & HN & HM). assert (Hu : unit_comb c = true) by (destruct Hc as [-> | ->]; reflexivity).
  destruct (walks_told h r D _ L c contains Hu us HU) as (l & E & Hlen & Hl).
  assert (Hsame : forall y, In y l <-> Reached h (all_of c) els y).
  { intros y. rewrite <- HM, Hl, in_flat_map. assert (Ha : step_comb (all_of c) = true) by (destruct Hc as [-> | ->]; reflexivity). rewrite Forall_forall in HU.
    split; intros (e & He & H); exists e; (split; [exact He|]); apply (in_step h r D _ e y Ha (HU e He)); exact H. }
  assert (Hnd : NoDup l).
  { apply (NoDup_incl_NoDup HN); [rewrite Hlen; apply Nat.le_refl|]. intros y Hy. apply Hsame. apply HM. exact Hy. }
  assert (Ew : exists l', wrun h text_of by_id wide_digit els (QUntil c t [] contains) = Ok (ASet l', repeat r (length l)) /\ (l' = l \/ l' = rev l)).
  { cbn [wrun]. unfold wuntil_text. rewrite Eu. cbn [rbind]. rewrite Et. cbn [rbind option_map]. rewrite single_compiled, E. destruct Hc as [-> | ->]; eexists; (split; [cbn; rewrite app_nil_r; reflexivity|]); [left | right]; reflexivity. }
  destruct Ew as (l' & Ew & [-> | ->]); [exists l; split; [exact Ew|]; split; [exact Hnd | exact Hsame]|].
  exists (rev l). rewrite rev_length. split; [exact Ew|]. split; [apply NoDup_rev; exact Hnd|]. intros y. rewrite <- in_rev. apply Hsame.
Qed.
Print Assumptions C60_until_count.
(** Upwards, the walks start from one member of each parent, and an ancestor reached by several of these walks is reported by each. *)
Theorem C60_parents_until_count h r text_of by_id wide_digit els t contains : DocOk h r -> Forall (ElIn h r) els -> LoneText wide_digit t ->
  exists l us ls, wrun h text_of by_id wide_digit els (QUntil Parent t [] contains) = Ok (ASet l, repeat r (length (concat ls))) /\
    Ordered h l /\ (forall y, In y l <-> Reached h ParentAll els y) /\ Heads h els us /\ Forall2 (fun u a => NoDup a /\ forall y, In y a <-> Rel h ParentAll u y) us ls.
Proof.
  intros D HE (rl & Et & Hr). pose proof (lone_rule h text_of by_id rl Hr) as L. pose proof (els_in h r els HE) as HT. pose proof (firsts_els h r els HE) as HF.
  destruct (walks_told h r D _ L Parent contains eq_refl (firsts h [] els) HF) as (l & E & Hlen & Hl).
  assert (Hin : Forall (InTree h r) l).
  { apply Forall_forall. intros y Hy. apply Hl in Hy as (e & He & H). rewrite Forall_forall in HF. exact (proj1 (rel_sym_el h r D ParentAll e y eq_refl (HF e He) H)). }
  destruct (sort_and_unique_ok h (do_wf h r D) r l Hin) as (l' & El' & [_ Ho] & HM).
  exists l', (firsts h [] els), (map (step_list h ParentAll) (firsts h [] els)). rewrite <- flat_map_concat_map. change ParentAll with (all_of Parent) at 1. rewrite <- Hlen. split; [|split; [exact Ho|split; [|split; [apply heads_firsts|]]]].
  - cbn [wrun]. unfold wuntil_text. change (until_uniques h Parent els) with (unique_sibling_first h els). rewrite (us_first h r D els HT). cbn [rbind]. rewrite Et. cbn [rbind option_map]. rewrite single_compiled, E.
    cbn [wbind rbind fst snd until_finish]. rewrite El'. cbn. rewrite app_nil_r. reflexivity.
  - intros y. rewrite (HM y), Hl. split; [intros (e & He & H); exists e; split; [exact (firsts_sub h els [] e He) | exact H]|]. intros (e & He & Ha & Hye).
    destruct (firsts_cover h els e He) as (u & Hu & Ep). exists u. split; [exact Hu|]. split; [|exact Hye]. rewrite Forall_forall in HE, HF. destruct (el_parent h r D e (HE e He)) as (p & E1 & _ & Le).
    destruct (el_parent h r D u (HF u Hu)) as (q & E2 & _ & Lu). assert (q = p) by congruence. subst q. apply anc_inv in Ha as (v & Hv & Hc). rewrite (child_parent h (do_wf h r D) v e Hc) in E1. injection E1 as ->.
    assert (Hpu : Child h p u) by (eexists; exact Lu). destruct Hv as [-> | Hv]; [exact (Anc_child h p u Hpu) | exact (Anc_step h _ p u Hv Hpu)].
  - revert HF. generalize (firsts h [] els). clear - D. induction 1 as [|x l Hx _ IH]; [constructor|]. cbn [map]. constructor; [|exact IH].
    split; [exact (docset_nodup h r D _ (step_docset h r D ParentAll x eq_refl Hx)) | intros y; exact (in_step h r D ParentAll x y eq_refl Hx)].
Qed.
Print Assumptions C60_parents_until_count.

(** * Examples *)
(** The elements of [sdoc]: 1 below the document, 2, 4 and 10 below 1, 5 and 9 below 4, 7 below 5. *)
Notation bad := (lit ":not(>)").
Example C60_count_ex : (Walkers sdoc 0 (ids_of sdoc) [1; 2; 4] /\ Ordered sdoc [1; 2; 4] /\ Forall (Start sdoc 0) [1; 2; 4]) /\ LoneText ascii_only bad /\ texts (QStep Siblings (lit " :not(>) ")) = [bad] /\
  texts (QClosest bad) = [bad] /\ texts (QStep NextAll bad) = [bad] /\
  sask [1; 2; 4] (QFind bad) = Ok (ASet [], [0; 0; 0]) /\ sask [1; 2; 4] (QStep Children bad) = Ok (ASet [], [0; 0]) /\ sask [1; 2; 4] (QStep NextAll bad) = Ok (ASet [], [0]) /\
  sask [1; 2; 4] (QStep Siblings (lit " :not(>) ")) = Ok (ASet [], [0]) /\ sask [1; 2; 4] (QStep ParentAll bad) = Ok (ASet [], [0]) /\ sask [1] (QStep Next bad) = Ok (ASet [], []) /\
  sask [1; 2; 4] (QHas bad) = Ok (ASet [], [0; 0; 0; 0; 0]) /\ sask [1; 2; 4] (QClosest bad) = Ok (ASet [], [0; 0; 0; 0; 0; 0]) /\
  sask [1; 2; 4] (QUntil Next bad [] true) = Ok (ASet [4; 10], [0; 0]) /\ sask [1; 2; 4] (QUntil Prev bad [] false) = Ok (ASet [2], [0]).
Proof.
  split; [|repeat split; try (vm_compute; reflexivity)].
  - destruct (walkers sdoc [1; 2; 4] ltac:(vm_compute; reflexivity) ltac:(vm_compute; reflexivity) ltac:(vm_compute; reflexivity)) as [W Ho]. split; [exact W|]. split; [exact Ho|].
    eapply Forall_impl; [|exact (ws_els _ _ _ _ W)]. intros x [H1 H2]. split; [exact H1 | left; exact H2].
  - exists (RNot NErr). split; [vm_compute; reflexivity | left; reflexivity].
Qed.
(** 2 and 7 are not siblings; both walks reach 1, which is reported twice. *)
Example C60_parents_until_ex : Forall (ElIn sdoc 0) [2; 7] /\ LoneText ascii_only bad /\ sask [2; 7] (QUntil Parent bad [] true) = Ok (ASet [1; 4; 5], [0; 0; 0; 0]).
Proof. split; [apply els_check_sound; vm_compute; reflexivity|]. split; [|vm_compute; reflexivity]. exists (RNot NErr). split; [vm_compute; reflexivity | left; reflexivity]. Qed.
