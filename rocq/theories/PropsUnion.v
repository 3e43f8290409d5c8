(** Property theorems: selectors with several groups (C09, C33).  [add] joins the results group after group; with the
    exact effect of [add] (C04) the last joining decides. *)
From Verif Require Import Base Utils UtilsSpec UtilsProofs Nth NthSpec Attr AttrSpec AttrProofs ClassSpec Dom DomSpec Order OrderSpec DomProofs OrderProofs
  Sets SetsProofs AddProofs AddExact DomBuild DomBuildProofs NavProofs Engine Rules SelSpec FindSpec OneProofs PreProofs SelBool SibLists SibProofs StepProofs
  BackProofs FilterProofs RuleProofs SelBuild FindProofs FindRules SelectProofs FindBuild PropsFilter PropsFind.

Lemma addfree_lists h r (A B : id -> Prop) a b : WF h -> DocSet h r a -> DocSet h r b -> (forall x, In x a <-> A x) -> (forall x, In x b <-> B x) ->
  (JoinOk h a b <-> AddFree h A B).
Proof.
  intros wf Ha Hb HA HB. split; [|exact (addfree_join h r A B a b Ha Hb HA HB)]. intros [H1 H2]. split.
  - intros (Hs & x & y & Hx & Hm & Hy & Hxy). apply H1. split.
    + intros z Hz. apply HB, Hs, HA. exact Hz.
    + exists x, y. split; [apply HA; exact Hx|]. split; [intros z Hz; apply Hm, HA; exact Hz|]. split; [apply HB; exact Hy | exact Hxy].
  - intros a' b' Ha' Hb' HA' HB'.
    rewrite <- (ordered_unique h wf r a a' (proj1 Ha) (proj2 Ha) Ha'), <- (ordered_unique h wf r b b' (proj1 Hb) (proj2 Hb) Hb'); [exact H2 | |].
    + intros x. rewrite HB, HB'. reflexivity.
    + intros x. rewrite HA, HA'. reflexivity.
Qed.
(** [l] is the union in document order exactly when the joining goes well. *)
Lemma join_right h r a b l c : WF h -> DocSet h r a -> DocSet h r b -> add h a b = Ok l -> DocSet h r c -> (forall x, In x c <-> In x a \/ In x b) ->
  (l = c <-> JoinOk h a b).
Proof.
  intros wf Ha Hb El Hc Hm. destruct (add_exact h wf r a b Ha Hb) as (l' & El' & _ & Hi & H1 & H2). rewrite El in El'. injection El' as <-. split.
  - intros ->. split; [apply H1; exact Hm | apply H2; apply Hc].
  - intros [J1 J2]. pose proof (proj2 H1 J1) as K1. pose proof (proj2 H2 J2) as K2. symmetry. apply (ordered_unique h wf r); [apply Hc | apply Hc | exact K2 |].
    intros x. rewrite Hm, K1. reflexivity.
Qed.
Lemma adds_last h (Bs : list (id -> Prop)) (B : id -> Prop) : forall A : id -> Prop,
  (AddsFree h A (Bs ++ [B]) <-> AddsFree h A Bs /\ AddFree h (fun x => A x \/ exists B', In B' Bs /\ B' x) B).
Proof.
  induction Bs as [|B' Bs IH]; intros A; cbn [app AddsFree].
  - split.
    + intros [H _]. split; [exact I|]. revert H. apply addfree_ext; [|reflexivity]. intros x. split; [tauto | intros [H | (B' & [] & _)]; exact H].
    + intros [_ H]. split; [|exact I]. revert H. apply addfree_ext; [|reflexivity]. intros x. split; [intros [H | (B' & [] & _)]; exact H | tauto].
  - rewrite IH. rewrite and_assoc. apply and_iff_compat_l. apply and_iff_compat_l. split; apply addfree_ext; try reflexivity; intros x; split.
    + intros [[H | H] | (C & HC & H)]; [left; exact H | right; exists B'; split; [left; reflexivity | exact H] | right; exists C; split; [right; exact HC | exact H]].
    + intros [H | (C & [<- | HC] & H)]; [left; left; exact H | left; right; exact H | right; exists C; split; assumption].
    + intros [H | (C & [<- | HC] & H)]; [left; left; exact H | left; right; exact H | right; exists C; split; assumption].
    + intros [[H | H] | (C & HC & H)]; [left; exact H | right; exists B'; split; [left; reflexivity | exact H] | right; exists C; split; [right; exact HC | exact H]].
Qed.

(** * C09 *)
Section Filter.
  Variable h : heap.
  Variable r : id.
  Hypothesis D : DocOk h r.
  Let wf : WF h := do_wf h r D.

  Lemma filter_loop_app els : Good h r false els -> forall sel gbs, SelB h r false sel gbs -> forall root q, (root = None \/ root = Some r) -> AddOk h els q gbs ->
    exists root', (root' = None \/ root' = Some r) /\ forall rest,
      filter_loop h els false root (filter q els) (sel ++ rest) = filter_loop h els false root' (filter (fun x => q x || matches_anyb h gbs x) els) rest.
  Proof.
    intros HG. induction 1 as [|p gb sel gbs HB _ IH]; intros root q Hroot HA.
    - exists root. split; [exact Hroot|]. intros rest. cbn [app]. f_equal. apply filter_ext. intros x. rewrite orb_false_r. reflexivity.
    - destruct (filter_process_ok h r D false els root p gb Hroot HG HB) as (root1 & E1 & Hroot1). destruct HA as [HA1 HA2].
      destruct (IH root1 (fun x => q x || matchesb h gb x) Hroot1 HA2) as (root' & Hroot' & Hrest). exists root'. split; [exact Hroot'|].
      intros rest. cbn [app filter_loop]. rewrite E1. cbn [rbind].
      assert (Hnext : filter_loop h els false root1 (filter (fun x => q x || matchesb h gb x) els) (sel ++ rest) =
        filter_loop h els false root' (filter (fun x => q x || matches_anyb h (gb :: gbs) x) els) rest).
      { rewrite (Hrest rest). f_equal. apply filter_ext. intros x. cbn. rewrite orb_assoc. reflexivity. }
      destruct (nonempty (filter (matchesb h gb) els)) eqn:En.
      + assert (HDS : forall p0, DocSet h r (filter p0 els)).
        { intros p0. destruct (good_filter h r false p0 els HG) as (G1 & _ & G3). split; [|exact (G3 eq_refl)]. revert G1. apply Forall_impl. intros x [Hx _]. exact Hx. }
        destruct (add_join h wf r _ _ (HDS q) (HDS (matchesb h gb)) HA1) as (l & -> & HL & Hl). cbn [rbind].
        assert (El : l = filter (fun x => q x || matchesb h gb x) els).
        { apply (ordered_unique h wf r); [exact (proj1 HL) | exact (proj2 HL) | exact (proj2 (HDS _))|].
          intros x. rewrite (Hl x), !filter_In, orb_true_iff. tauto. }
        rewrite El. exact Hnext.
      + rewrite nonempty_filter in En. rewrite <- Hnext. f_equal. apply filter_ext_in. intros x Hx.
        destruct (matchesb h gb x) eqn:E; [|rewrite orb_false_r; reflexivity]. exfalso.
        assert (existsb (matchesb h gb) els = true) by (apply existsb_exists; exists x; split; assumption). congruence.
  Qed.
End Filter.

(** When the joinings before the last group go well, the whole filter is right exactly when the last one does too:
    [UnionOk] cannot be weakened for two groups, nor for the last one of more. *)
Theorem C09_filter_last_iff h r text_of by_id els gs g : Setting h r text_of by_id (gs ++ [g]) -> Forall (ElIn h r) els -> Ordered h els ->
  UnionOk h (map (fun g => meeting h text_of els g) gs) ->
  exists l, filter_ast h text_of by_id els (gs ++ [g]) = Ok l /\ incl l els /\ NoDup l /\
    (Kept (meets h text_of (gs ++ [g])) els l <-> UnionOk h (map (fun g => meeting h text_of els g) (gs ++ [g]))).
Proof.
  intros [D IC Hok Hw] He Ho HU. pose proof (do_wf h r D) as wf.
  set (pbs := map (predb h text_of) gs). set (pg := predb h text_of g).
  assert (Hok1 : SelOk h r text_of gs) by (intros g' Hg'; apply Hok, in_app_iff; left; exact Hg').
  assert (Hw1 : sel_wf gs = true).
  { unfold sel_wf in *. rewrite forallb_app in Hw. apply andb_true_iff in Hw. apply Hw. }
  assert (HS : SelB h r false (compile_selector h text_of by_id false (gs ++ [g])) (map (predb h text_of) (gs ++ [g])))
    by (apply (selb_ok h r D text_of by_id IC); [exact Hok | exact Hw | discriminate]).
  assert (HS1 : SelB h r false (compile_selector h text_of by_id false gs) pbs)
    by (apply (selb_ok h r D text_of by_id IC); [exact Hok1 | exact Hw1 | discriminate]).
  assert (Ecomp : exists p, compile_selector h text_of by_id false (gs ++ [g]) = compile_selector h text_of by_id false gs ++ [p]).
  { unfold compile_selector, compile_groups, optimize. rewrite !map_app. cbn [map]. eexists. reflexivity. }
  destruct Ecomp as (p & Ecomp). rewrite Ecomp in HS. rewrite map_app in HS.
  assert (HB : GroupB h r false (query p) pg).
  { unfold SelB in HS. apply Forall2_app_inv_l in HS. destruct HS as (l1 & l2 & F1 & F2 & E).
    inversion F2 as [|p0 y t t' Hy Ht]; subst. inversion Ht; subst. apply app_inj_tail in E. destruct E as [_ E]. unfold pg. rewrite E. exact Hy. }
  pose proof (good_ordered h r D false els He Ho) as HG.
  assert (HA : AddOk h els (fun _ => false) pbs).
  { apply (adds_addok h r text_of els gs He Ho) with (A := fun _ => False); [| intros x _; split; [discriminate | intros []] | intros x [] | exact HU].
    intros g' x Hg' Hx. exact (match_spec h r D text_of gs g' x Hok1 Hw1 Hg' Hx). }
  destruct (filter_loop_app h r D els HG _ _ HS1 None (fun _ => false) (or_introl eq_refl) HA) as (root' & Hroot' & Happ).
  specialize (Happ [p]). rewrite filter_false in Happ. cbn [orb] in Happ.
  set (a := filter (fun x => matches_anyb h pbs x) els) in *. set (b := filter (matchesb h pg) els).
  set (c := filter (matches_anyb h (pbs ++ [pg])) els).
  assert (HDa : DocSet h r a) by (apply (filter_docset h r); assumption).
  assert (HDb : DocSet h r b) by (apply (filter_docset h r); assumption).
  assert (HDc : DocSet h r c) by (apply (filter_docset h r); assumption).
  assert (Hc : forall x, In x c <-> In x a \/ In x b).
  { intros x. unfold a, b, c. rewrite !filter_In. unfold matches_anyb. rewrite existsb_app, orb_true_iff. cbn [existsb]. rewrite orb_false_r. tauto. }
  pose proof He as He'. rewrite Forall_forall in He'.
  assert (HK : Kept (meets h text_of (gs ++ [g])) els c).
  { apply kept_filter. intros x Hx. pose proof (meets_spec h r D text_of (gs ++ [g]) x Hok Hw (He' x Hx)) as HM. rewrite map_app in HM. exact HM. }
  destruct (add_exact h wf r a b HDa HDb) as (l & El & Hn & Hi & _).
  assert (Ef : filter_ast h text_of by_id els (gs ++ [g]) = Ok l).
  { unfold filter_ast, filter_sel. destruct (nonempty els) eqn:Ene.
    - rewrite Ecomp. unfold filter_type_handle. rewrite Happ. cbn [filter_loop].
      destruct (filter_process_ok h r D false els root' p pg Hroot' HG HB) as (root2 & -> & _). cbn [rbind].
      fold b. destruct (nonempty b) eqn:Enb; [rewrite El; reflexivity|]. apply nonempty_false in Enb. rewrite Enb in El.
      cbn [rbind fst]. revert El. unfold add. destruct a; intros El; injection El as <-; reflexivity.
    - apply nonempty_false in Ene. subst els. cbn in El. injection El as <-. reflexivity. }
  exists l. split; [exact Ef|]. split.
  { intros x Hx. apply Hi, in_app_iff in Hx. unfold a, b in Hx. rewrite !filter_In in Hx. tauto. }
  split; [exact Hn|].
  assert (E1 : Kept (meets h text_of (gs ++ [g])) els l <-> l = c).
  { split; [intros H; exact (kept_unique _ els l c H HK) | intros ->; exact HK]. }
  rewrite E1, (join_right h r a b l c wf HDa HDb El HDc Hc), map_app. cbn [map]. unfold UnionOk. rewrite adds_last.
  assert (E2 : JoinOk h a b <-> AddFree h (fun x => False \/ exists B', In B' (map (fun g x => In x els /\ Matches h (preds h text_of g) x) gs) /\ B' x) (meeting h text_of els g)).
  { apply (addfree_lists h r); try assumption.
    - intros x. unfold a. rewrite filter_In. split.
      + intros [Hx HM]. apply (meets_spec h r D text_of gs x Hok1 Hw1 (He' x Hx)) in HM. destruct HM as (pp & Hp & HM). apply in_map_iff in Hp. destruct Hp as (g' & <- & Hg').
        right. exists (meeting h text_of els g'). split; [apply (in_map (fun g x => In x els /\ Matches h (preds h text_of g) x)); exact Hg' | split; assumption].
      + intros [[] | (B' & HB' & Hx)]. apply in_map_iff in HB'. destruct HB' as (g' & <- & Hg'). destruct Hx as [Hx HM]. split; [exact Hx|].
        apply (meets_spec h r D text_of gs x Hok1 Hw1 (He' x Hx)). exists (preds h text_of g'). split; [apply in_map; exact Hg' | exact HM].
    - intros x. unfold b. rewrite filter_In. split; intros [Hx HM]; (split; [exact Hx|]).
      + apply (match_spec h r D text_of (gs ++ [g]) g x Hok Hw); [apply in_elt | exact (He' x Hx) | exact HM].
      + apply (match_spec h r D text_of (gs ++ [g]) g x Hok Hw); [apply in_elt | exact (He' x Hx) | exact HM]. }
  rewrite E2. tauto.
Qed.
Print Assumptions C09_filter_last_iff.

(** * C33 *)
Lemma rfold_app {A B} (f : B -> A -> res B) l m b : rfold f (l ++ m) b = (do b' <- rfold f l b; rfold f m b').
Proof. revert b. induction l as [|x l IH]; intros b; [reflexivity|]. cbn. destruct (f b x); cbn; [apply IH | reflexivity | reflexivity]. Qed.

Theorem C33_union_last_iff h r text_of by_id els gs g : DocOk h r -> IdCache h r by_id -> SelOk h r text_of (gs ++ [g]) -> forallb group_wf (gs ++ [g]) = true -> Starts h r els ->
  (forall g', In g' (gs ++ [g]) -> FindOk h text_of els g' /\ FindOrd h text_of els g') ->
  UnionOk h (map (fun g => reached h text_of els g) gs) ->
  exists l, find_ast h text_of by_id els (gs ++ [g]) = Ok l /\ NoDup l /\ (forall x, In x l -> exists g', In g' (gs ++ [g]) /\ reached h text_of els g' x) /\
    ((Ordered h l /\ forall x, In x l <-> exists g', In g' (gs ++ [g]) /\ reached h text_of els g' x) <->
       UnionOk h (map (fun g => reached h text_of els g) (gs ++ [g]))).
Proof.
  intros D IC Hok Hw HS HF HU. pose proof (do_wf h r D) as wf.
  assert (Hok1 : SelOk h r text_of gs) by (intros g' Hg'; apply Hok, in_app_iff; left; exact Hg').
  assert (Hw1 : forallb group_wf gs = true /\ group_wf g = true).
  { rewrite forallb_app in Hw. apply andb_true_iff in Hw. cbn in Hw. rewrite andb_true_r in Hw. exact Hw. }
  destruct Hw1 as [Hw1 Hwg].
  destruct (find_groups_doc h r D text_of by_id IC els gs HS Hok1 Hw1 (fun g' Hg' => HF g' (in_or_app gs [g] g' (or_introl Hg'))) HU) as (a & Ea & HDa & _ & Hma).
  destruct (HF g (in_elt g gs [])) as [HF1 HF2].
  destruct (find_group_doc h r D text_of by_id IC els g HS (Hok g (in_elt g gs [])) Hwg HF1) as (b & Eb & Heb & Hnb & Hob & Hmb).
  specialize (Hob HF2).
  assert (HDb : DocSet h r b).
  { split; [|exact Hob]. revert Heb. apply Forall_impl. intros x Hx. apply Hx. }
  destruct (add_exact h wf r a b HDa HDb) as (l & El & Hn & Hi & H1 & H2).
  assert (Ef : find_ast h text_of by_id els (gs ++ [g]) = Ok l).
  { unfold find_ast, find_selector in *. destruct (nonempty els) eqn:Ene.
    - assert (Ecomp : compile_selector h text_of by_id true (gs ++ [g]) = compile_selector h text_of by_id true gs ++ compile_selector h text_of by_id true [g]).
      { unfold compile_selector, compile_groups, optimize. rewrite !map_app. reflexivity. }
      rewrite Ecomp, rfold_app, Ea. cbn [rbind]. revert Eb. unfold compile_selector, compile_groups, optimize. cbn [map rfold].
      destruct (find_process h els _) as [t| |]; cbn [rbind]; try discriminate. intros Eb.
      assert (t = b) by (destruct t; cbn in Eb; injection Eb as <-; reflexivity). subst t.
      destruct (nonempty b) eqn:Enb; [rewrite El; reflexivity|]. apply nonempty_false in Enb. subst b. revert El. unfold add. destruct a; intros El; injection El as <-; reflexivity.
    - injection Ea as <-. injection Eb as <-. injection El as <-. reflexivity. }
  exists l. split; [exact Ef|]. split; [exact Hn|].
  assert (Hor : forall x, In x a \/ In x b <-> exists g', In g' (gs ++ [g]) /\ reached h text_of els g' x).
  { intros x. rewrite Hma, Hmb. split.
    - intros [(g' & Hg' & H) | H]; [exists g'; split; [apply in_app_iff; left; exact Hg' | exact H] | exists g; split; [apply in_elt | exact H]].
    - intros (g' & Hg' & H). apply in_app_iff in Hg'. destruct Hg' as [Hg' | [<- | []]]; [left; exists g'; split; assumption | right; exact H]. }
  split; [intros x Hx; apply Hor; apply Hi, in_app_iff in Hx; exact Hx|].
  rewrite map_app. cbn [map]. unfold UnionOk in *. rewrite adds_last.
  assert (E2 : JoinOk h a b <-> AddFree h (fun x => False \/ exists B', In B' (map (fun g => reached h text_of els g) gs) /\ B' x) (reached h text_of els g)).
  { apply (addfree_lists h r); try assumption. intros x. rewrite Hma. split.
    - intros (g' & Hg' & Hx). right. exists (reached h text_of els g'). split; [apply (in_map (fun g => reached h text_of els g)); exact Hg' | exact Hx].
    - intros [[] | (B' & HB' & Hx)]. apply in_map_iff in HB'. destruct HB' as (g' & <- & Hg'). exists g'. split; assumption. }
  rewrite <- E2. unfold JoinOk. rewrite <- H1, <- H2. split.
  - intros [Ho Hm]. split; [exact HU|]. split; [|exact Ho]. intros x. rewrite Hm, Hor. reflexivity.
  - intros [_ [Hm Ho]]. split; [exact Ho|]. intros x. rewrite Hm, Hor. reflexivity.
Qed.
Print Assumptions C33_union_last_iff.
(** [.a, .b] on [div.a, p.a.b, div.b, p.b]: the last match of the first group is the first one of the second, and the
    union is right; [.a.b, .b] loses two elements. *)
Example C09_last_ex : let els := [1; 2; 4; 5] in let ga := [[(cl "a", ChildrenAll)]] in let gb := [[(cl "b", ChildrenAll)]] in
  let gab := [[(cl "a", ChildrenAll); (cl "b", Chain)]] in
  Setting sdoc 0 stext (ids_of sdoc) ([ga] ++ [gb]) /\ Setting sdoc 0 stext (ids_of sdoc) ([gab] ++ [gb]) /\
  Forall (ElIn sdoc 0) els /\ Ordered sdoc els /\
  UnionOk sdoc (map (fun g => meeting sdoc stext els g) ([ga] ++ [gb])) /\ filter_ast sdoc stext (ids_of sdoc) els ([ga] ++ [gb]) = Ok [1; 2; 4; 5] /\
  ~ UnionOk sdoc (map (fun g => meeting sdoc stext els g) ([gab] ++ [gb])) /\ filter_ast sdoc stext (ids_of sdoc) els ([gab] ++ [gb]) = Ok [2].
Proof.
  intros els ga gb gab.
  assert (S1 : Setting sdoc 0 stext (ids_of sdoc) ([ga] ++ [gb])) by (apply sdoc_set; vm_compute; reflexivity).
  assert (S2 : Setting sdoc 0 stext (ids_of sdoc) ([gab] ++ [gb])) by (apply sdoc_set; vm_compute; reflexivity).
  assert (HE : elset_check sdoc 0 els = true) by (vm_compute; reflexivity). apply elset_check_sound in HE. destruct HE as [He Ho].
  assert (E1 : filter_ast sdoc stext (ids_of sdoc) els ([ga] ++ [gb]) = Ok [1; 2; 4; 5]) by (vm_compute; reflexivity).
  assert (E2 : filter_ast sdoc stext (ids_of sdoc) els ([gab] ++ [gb]) = Ok [2]) by (vm_compute; reflexivity).
  split; [exact S1|]. split; [exact S2|]. split; [exact He|]. split; [exact Ho|].
  destruct (C09_filter_last_iff sdoc 0 stext (ids_of sdoc) els [ga] gb S1 He Ho (union_one sdoc _)) as (l1 & F1 & _ & _ & I1).
  destruct (C09_filter_last_iff sdoc 0 stext (ids_of sdoc) els [gab] gb S2 He Ho (union_one sdoc _)) as (l2 & F2 & _ & _ & I2).
  rewrite E1 in F1. injection F1 as <-. rewrite E2 in F2. injection F2 as <-. rewrite Forall_forall in He.
  assert (K : forall gs, Setting sdoc 0 stext (ids_of sdoc) gs -> Kept (meets sdoc stext gs) els (filter (matches_anyb sdoc (map (predb sdoc stext) gs)) els)).
  { intros gs [D IC Hok Hw]. apply kept_filter. intros x Hx. exact (meets_spec sdoc 0 D stext gs x Hok Hw (He x Hx)). }
  split; [apply I1; exact (K _ S1)|]. split; [exact E1|]. split; [|exact E2].
  intros H. apply I2 in H. pose proof (kept_unique _ _ _ _ H (K _ S2)) as C. vm_compute in C. discriminate.
Qed.
