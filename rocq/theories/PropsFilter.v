(** Property theorems: filtering by a selector (C09, C10), has (C11), the meaning of the simple selectors
    (C29 - C32), the order of the parts of a compound (C08).
    [text_of] and [by_id] stand for rphtml's text reading and id look-up. *)
From Verif Require Import Base Utils UtilsSpec UtilsProofs Nth NthSpec Attr AttrSpec AttrProofs ClassSpec Dom DomSpec Order OrderSpec DomProofs OrderProofs
  Sets SetsProofs AddProofs DomBuild DomBuildProofs Engine Rules SelSpec FindSpec OneProofs PreProofs SelBool SibLists SibProofs StepProofs
  BackProofs FilterProofs RuleProofs SelBuild FindProofs FindRules SelectProofs FindBuild.
From Coq Require Import Sorting.Permutation.

(** A document, and what a parsed selector must satisfy on it: the shape the parser gives, and [SelOk]
    (see [RuleOk]; refutations below show that its conditions are needed). *)
Record Setting (h : heap) (r : id) (text_of : id -> str) (by_id : id -> str -> option id) (gs : ast) : Prop := mkSetting {
  se_doc : DocOk h r;
  se_ids : IdCache h r by_id;
  se_sel : SelOk h r text_of gs;
  se_wf : sel_wf gs = true
}.
(** The elements a selector matches, read as CSS in the whole document. *)
Notation meets h text_of gs := (MatchesAny h (map (preds h text_of) gs)).
(** Those of a set. *)
Notation meeting h text_of els g := (fun x => In x els /\ Matches h (preds h text_of g) x).
(** Read with combinators before the first compounds, which say where in the document these stand ([rooted]). *)
Notation meets_rooted h text_of gs := (MatchesAny h (map (fun g => rooted h (preds h text_of g)) gs)).
Record Placed_setting (h : heap) (r : id) (text_of : id -> str) (by_id : id -> str -> option id) (gs : ast) : Prop := mkPlaced {
  ps_doc : DocOk h r;
  ps_ids : IdCache h r by_id;
  ps_sel : SelOk h r text_of gs;
  ps_wf : forallb group_wf gs = true
}.
(** A selector made of one simple selector. *)
Notation simple rl := [[[(rl, ChildrenAll)]]].

(** * Concrete documents *)
Definition E (tag : String.string) (attrs : list (str * option str)) (cs : list dtree) : dtree := El (lit tag) attrs cs.
Definition at_ (k v : String.string) : str * option str := (lit k, Some (lit v)).
Definition at0 (k : String.string) : str * option str := (lit k, None).
Arguments E tag%string_scope attrs cs.
Arguments at_ (k v)%string_scope.
Arguments at0 k%string_scope.
Definition doc_setting (h : heap) (text_of : id -> str) (gs : ast) : bool :=
  docok_check h 0 && ids_check h 0 && sel_check h text_of gs && sel_wf gs.
Lemma doc_setting_sound h text_of gs : doc_setting h text_of gs = true -> Setting h 0 text_of (ids_of h) gs.
Proof.
  unfold doc_setting. rewrite !andb_true_iff. intros [[[H1 H2] H3] H4]. apply docok_check_sound in H1.
  split; [exact H1 | exact (ids_check_sound h 0 H1 H2) | exact (sel_check_sound h 0 text_of gs H1 H3) | exact H4].
Qed.
Lemma meeting_check h text_of els gs : Setting h 0 text_of (ids_of h) gs -> ids_check h 0 = true -> Forall (ElIn h 0) els ->
  adds_check h (fun _ => false) (map (fun g x => inb els x && matchesb h (predb h text_of g) x) gs) = true ->
  UnionOk h (map (fun g => meeting h text_of els g) gs).
Proof.
  intros [D _ Hok Hw] Hi He H. apply (union_check_sound h 0 D (allin_check_sound h 0 _ Hi) (map (fun g x => inb els x && matchesb h (predb h text_of g) x) gs)); [|exact H].
  rewrite Forall_forall in He.
  assert (A : forall l : ast, (forall g, In g l -> In g gs) -> Forall2 (Decides h 0) (map (fun g x => inb els x && matchesb h (predb h text_of g) x) l) (map (fun g => meeting h text_of els g) l)).
  { induction l as [|g l IH]; intros Hl; [constructor|]. constructor; [|apply IH; intros g' Hg'; apply Hl; right; exact Hg']. split.
    - intros x [Hx _]. exact (He x Hx).
    - intros x Hx. rewrite andb_true_iff, inb_spec, (match_spec h 0 D text_of gs g x Hok Hw (Hl g (or_introl eq_refl)) Hx). reflexivity. }
  apply A. trivial.
Qed.

(** [<div id=main class=a><p class="a b">hi</p><div class=b><p class=b>yo<span title="">x</span></p><input type=checkbox checked></div>
    <span lang=en-US>z</span></div>]: div 1, p 2, div 4, p 5, span 7, input 9, span 10. *)
Definition sdoc : heap := doc
  [E "div" [at_ "id" "main"; at_ "class" "a"]
    [E "p" [at_ "class" "a b"] [Tx (lit "hi")];
     E "div" [at_ "class" "b"]
       [E "p" [at_ "class" "b"] [Tx (lit "yo"); E "span" [at_ "title" ""] [Tx (lit "x")]];
        E "input" [at_ "type" "checkbox"; at0 "checked"] []];
     E "span" [at_ "lang" "en-US"] [Tx (lit "z")]]].
Definition stext (x : id) : str := nth x [lit "hiyoxz"; lit "hiyoxz"; lit "hi"; lit "hi"; lit "yox"; lit "yox"; lit "yo"; lit "x"; lit "x"; lit ""; lit "z"; lit "z"] [].
(** [div.a > p, input:checked] *)
Definition sel1 : ast :=
  [[[(RName (lit "div"), ChildrenAll); (RClass (lit "a"), Chain)]; [(RName (lit "p"), Children)]];
   [[(RName (lit "input"), ChildrenAll); (RChecked, Chain)]]].
Lemma sdoc_set gs : doc_setting sdoc stext gs = true -> Setting sdoc 0 stext (ids_of sdoc) gs.
Proof. apply doc_setting_sound. Qed.

(** * C09 *)
(** Full claim: no condition on how the groups overlap.  Missing: groups whose matches [add] merges wrongly (refuted below). *)
Theorem C09_filter_not_partial h r text_of by_id els gs : Setting h r text_of by_id gs -> Forall (ElIn h r) els -> Ordered h els ->
  UnionOk h (map (fun g => meeting h text_of els g) gs) ->
  exists l l', filter_ast h text_of by_id els gs = Ok l /\ Kept (meets h text_of gs) els l /\
    not_ast h text_of by_id els gs = Ok l' /\ Kept (fun x => ~ meets h text_of gs x) els l'.
Proof.
  intros [D IC Hok Hw] He Ho HU. assert (HU' : Uses h r text_of by_id els gs) by (exists false; exact (filter_ok h r D text_of by_id IC els gs He Ho Hok Hw HU)).
  exists (filter (matches_anyb h (map (predb h text_of) gs)) els), (filter (fun x => negb (matches_anyb h (map (predb h text_of) gs) x)) els).
  rewrite Forall_forall in He.
  split; [exact (filter_ast_ok h r D text_of by_id els gs Hok Hw HU')|]. split; [apply kept_filter; intros x Hx; exact (meets_spec h r D text_of gs x Hok Hw (He x Hx))|].
  split; [exact (not_ast_ok h r D text_of by_id els gs Hok Hw HU')|]. apply kept_filter. intros x Hx. pose proof (meets_spec h r D text_of gs x Hok Hw (He x Hx)) as HM.
  rewrite negb_true_iff, <- HM. destruct (matches_anyb h (map (predb h text_of) gs) x); split; congruence.
Qed.
Print Assumptions C09_filter_not_partial.

(** One group, or groups that exclude each other: no condition is left. *)
Theorem C09_filter_not_one_partial h r text_of by_id els g : Setting h r text_of by_id [g] -> Forall (ElIn h r) els -> Ordered h els ->
  exists l l', filter_ast h text_of by_id els [g] = Ok l /\ Kept (Matches h (preds h text_of g)) els l /\
    not_ast h text_of by_id els [g] = Ok l' /\ Kept (fun x => ~ Matches h (preds h text_of g) x) els l'.
Proof.
  intros HS He Ho. destruct (C09_filter_not_partial h r text_of by_id els [g] HS He Ho (union_one h _)) as (l & l' & H1 & H2 & H3 & H4).
  assert (A : forall x, meets h text_of [g] x <-> Matches h (preds h text_of g) x).
  { intros x. split; [intros (g' & [<- | []] & H); exact H | intros H; exists (preds h text_of g); split; [left; reflexivity | exact H]]. }
  exists l, l'. split; [exact H1|]. split; [apply (kept_ext (meets h text_of [g])); [intros x _; apply A | exact H2]|]. split; [exact H3|].
  apply (kept_ext (fun x => ~ meets h text_of [g] x)); [intros x _; rewrite A; reflexivity | exact H4].
Qed.
Print Assumptions C09_filter_not_one_partial.
Theorem C09_filter_not_exclusive_partial h r text_of by_id els gs : Setting h r text_of by_id gs -> Forall (ElIn h r) els -> Ordered h els ->
  ForallOrdPairs (fun g g' => forall x, In x els -> Matches h (preds h text_of g) x -> ~ Matches h (preds h text_of g') x) gs ->
  exists l l', filter_ast h text_of by_id els gs = Ok l /\ Kept (meets h text_of gs) els l /\
    not_ast h text_of by_id els gs = Ok l' /\ Kept (fun x => ~ meets h text_of gs x) els l'.
Proof.
  intros HS He Ho HX. apply (C09_filter_not_partial h r text_of by_id els gs HS He Ho). apply exclusive_union. clear HS.
  induction HX as [|g gs' HX _ IH]; [constructor|]. constructor; [|exact IH]. rewrite Forall_forall in *. intros B HB. apply in_map_iff in HB.
  destruct HB as (g' & <- & Hg'). intros x [Hx H1] [_ H2]. exact (HX g' Hg' x Hx H1 H2).
Qed.
Print Assumptions C09_filter_not_exclusive_partial.

Example C09_filter_not_ex : Setting sdoc 0 stext (ids_of sdoc) sel1 /\ Forall (ElIn sdoc 0) [1; 2; 5; 7; 9] /\ Ordered sdoc [1; 2; 5; 7; 9] /\
  UnionOk sdoc (map (fun g => meeting sdoc stext [1; 2; 5; 7; 9] g) sel1) /\
  filter_ast sdoc stext (ids_of sdoc) [1; 2; 5; 7; 9] sel1 = Ok [2; 9] /\ not_ast sdoc stext (ids_of sdoc) [1; 2; 5; 7; 9] sel1 = Ok [1; 5; 7].
Proof.
  assert (HS : Setting sdoc 0 stext (ids_of sdoc) sel1) by (apply sdoc_set; vm_compute; reflexivity).
  assert (He : Forall (ElIn sdoc 0) [1; 2; 5; 7; 9] /\ Ordered sdoc [1; 2; 5; 7; 9]) by (apply (elset_check_sound sdoc 0); vm_compute; reflexivity).
  split; [exact HS|]. split; [apply He|]. split; [apply He|]. split.
  - apply meeting_check; [exact HS | vm_compute; reflexivity | apply He | vm_compute; reflexivity].
  - split; vm_compute; reflexivity.
Qed.

(** Groups may start with a combinator.  Full claim: no condition on how the groups overlap.  Missing: as above. *)
Theorem C09_filter_not_rooted_partial h r text_of by_id els gs : Placed_setting h r text_of by_id gs -> Forall (ElIn h r) els -> Ordered h els ->
  UnionOk h (map (fun g x => In x els /\ Matches h (rooted h (preds h text_of g)) x) gs) ->
  exists l l', filter_ast h text_of by_id els gs = Ok l /\ Kept (meets_rooted h text_of gs) els l /\
    not_ast h text_of by_id els gs = Ok l' /\ Kept (fun x => ~ meets_rooted h text_of gs x) els l'.
Proof.
  intros [D IC Hok Hw] He Ho HU. destruct (filter_rooted h r D text_of by_id IC els gs He Ho Hok Hw HU) as (E1 & E2 & _). do 2 eexists.
  rewrite Forall_forall in He. split; [exact E1|]. split; [apply kept_filter; intros x Hx; exact (rooted_spec h r D text_of gs x Hok Hw (He x Hx))|].
  split; [exact E2|]. apply kept_filter. intros x Hx. pose proof (rooted_spec h r D text_of gs x Hok Hw (He x Hx)) as HM.
  rewrite negb_true_iff, <- HM. destruct (matches_anyb h (rb h r text_of gs) x); split; congruence.
Qed.
Print Assumptions C09_filter_not_rooted_partial.
Lemma placed_check h text_of gs : docok_check h 0 && ids_check h 0 && sel_check h text_of gs && forallb group_wf gs = true -> Placed_setting h 0 text_of (ids_of h) gs.
Proof.
  rewrite !andb_true_iff. intros [[[H1 H2] H3] H4]. apply docok_check_sound in H1.
  split; [exact H1 | exact (ids_check_sound h 0 H1 H2) | exact (sel_check_sound h 0 text_of gs H1 H3) | exact H4].
Qed.
(** [> div > p], [> p > span], [+ p > span]; [> p] alone is [p]. *)
Example C09_rooted_ex : let g1 := [[(RName (lit "div"), Children)]; [(RName (lit "p"), Children)]] in
  let g2 := [[(RName (lit "p"), Children)]; [(RName (lit "span"), Children)]] in let g3 := [[(RName (lit "p"), Next)]; [(RName (lit "span"), Children)]] in
  Placed_setting sdoc 0 stext (ids_of sdoc) [g1] /\ Placed_setting sdoc 0 stext (ids_of sdoc) [g2] /\ Placed_setting sdoc 0 stext (ids_of sdoc) [g3] /\
  sel_wf [g1] = false /\ Forall (ElIn sdoc 0) [1; 2; 5; 7; 9] /\ Ordered sdoc [1; 2; 5; 7; 9] /\
  filter_ast sdoc stext (ids_of sdoc) [1; 2; 5; 7; 9] [g1] = Ok [2] /\ filter_ast sdoc stext (ids_of sdoc) [1; 2; 5; 7; 9] [g2] = Ok [] /\
  filter_ast sdoc stext (ids_of sdoc) [1; 2; 5; 7; 9] [g3] = Ok [] /\ filter_ast sdoc stext (ids_of sdoc) [1; 2; 5; 7; 9] [[[(RName (lit "p"), Children)]]] = Ok [2; 5].
Proof.
  assert (He : Forall (ElIn sdoc 0) [1; 2; 5; 7; 9] /\ Ordered sdoc [1; 2; 5; 7; 9]) by (apply (elset_check_sound sdoc 0); vm_compute; reflexivity).
  split; [apply placed_check; vm_compute; reflexivity|]. split; [apply placed_check; vm_compute; reflexivity|]. split; [apply placed_check; vm_compute; reflexivity|].
  split; [reflexivity|]. split; [apply He|]. split; [apply He|]. repeat split; vm_compute; reflexivity.
Qed.

(** [.a, .b] on the elements 2 (a b), 4 (b), 5 (b): the last two are lost. *)
Definition sel_ab : ast := [[[(RClass (lit "a"), ChildrenAll)]]; [[(RClass (lit "b"), ChildrenAll)]]].
Theorem C09_filter_refuted : exists h r text_of by_id els gs x l l', Setting h r text_of by_id gs /\ Forall (ElIn h r) els /\ Ordered h els /\
  In x els /\ meets h text_of gs x /\ filter_ast h text_of by_id els gs = Ok l /\ ~ In x l /\ not_ast h text_of by_id els gs = Ok l' /\ In x l'.
Proof.
  exists sdoc, 0, stext, (ids_of sdoc), [2; 4; 5], sel_ab, 4. do 2 eexists.
  assert (HS : Setting sdoc 0 stext (ids_of sdoc) sel_ab) by (apply sdoc_set; vm_compute; reflexivity).
  assert (He : Forall (ElIn sdoc 0) [2; 4; 5] /\ Ordered sdoc [2; 4; 5]) by (apply (elset_check_sound sdoc 0); vm_compute; reflexivity).
  split; [exact HS|]. split; [apply He|]. split; [apply He|]. split; [cbn; tauto|]. split.
  - destruct HS as [D _ Hok Hw]. apply (meets_spec sdoc 0 D stext sel_ab 4 Hok Hw); [|vm_compute; reflexivity].
    destruct He as [He _]. rewrite Forall_forall in He. apply He. cbn. tauto.
  - split; [vm_compute; reflexivity|]. split; [vm_compute; intros H; repeat (destruct H as [H | H]; [discriminate|]); destruct H|]. split; [vm_compute; reflexivity | vm_compute; tauto].
Qed.
Print Assumptions C09_filter_refuted.

(** * C10 *)
(** Full claim: any selector.  Missing: the rules [RuleOk] excludes (see C31, C32), and sets out of document order.
    [is] has no condition on the groups. *)
Theorem C10_is_partial h r text_of by_id els gs : Setting h r text_of by_id gs -> Forall (ElIn h r) els -> Ordered h els ->
  exists b, is_ast h text_of by_id els gs = Ok b /\ (b = true <-> exists x, In x els /\ meets h text_of gs x).
Proof.
  intros [D IC Hok Hw] He Ho. exists (existsb (matches_anyb h (map (predb h text_of) gs)) els). split.
  - apply (is_ast_ok h r D text_of by_id els gs false Hok Hw (good_ordered h r D false els He Ho)).
    apply (selb_ok h r D text_of by_id IC); [exact Hok | exact Hw | discriminate].
  - rewrite existsb_exists. rewrite Forall_forall in He. split; intros (x & Hx & H); exists x; (split; [exact Hx|]); apply (meets_spec h r D text_of gs x Hok Hw (He x Hx)); exact H.
Qed.
Print Assumptions C10_is_partial.
(** [is_all] counts the elements [filter] keeps: same condition as C09. *)
Theorem C10_is_all_partial h r text_of by_id els gs : Setting h r text_of by_id gs -> Forall (ElIn h r) els -> Ordered h els ->
  UnionOk h (map (fun g => meeting h text_of els g) gs) ->
  exists b, is_all_ast h text_of by_id els gs = Ok b /\ (b = true <-> els <> [] /\ forall x, In x els -> meets h text_of gs x).
Proof.
  intros [D IC Hok Hw] He Ho HU. assert (HU' : Uses h r text_of by_id els gs) by (exists false; exact (filter_ok h r D text_of by_id IC els gs He Ho Hok Hw HU)).
  eexists. split; [exact (is_all_ast_ok h r D text_of by_id els gs Hok Hw HU')|]. rewrite andb_true_iff, nonempty_true, forallb_forall.
  rewrite Forall_forall in He. apply and_iff_compat_l. split; intros H x Hx; apply (meets_spec h r D text_of gs x Hok Hw (He x Hx)); exact (H x Hx).
Qed.
Print Assumptions C10_is_all_partial.
(** With combinators in front. *)
Theorem C10_is_rooted_partial h r text_of by_id els gs : Placed_setting h r text_of by_id gs -> Forall (ElIn h r) els -> Ordered h els ->
  (exists b, is_ast h text_of by_id els gs = Ok b /\ (b = true <-> exists x, In x els /\ meets_rooted h text_of gs x)) /\
  (UnionOk h (map (fun g x => In x els /\ Matches h (rooted h (preds h text_of g)) x) gs) ->
   exists b, is_all_ast h text_of by_id els gs = Ok b /\ (b = true <-> els <> [] /\ forall x, In x els -> meets_rooted h text_of gs x)).
Proof.
  intros [D IC Hok Hw] He Ho. pose proof He as He'. rewrite Forall_forall in He'. split.
  - eexists. split; [exact (is_rooted h r D text_of by_id IC els gs He Ho Hok Hw)|]. rewrite existsb_exists.
    split; intros (x & Hx & H); exists x; (split; [exact Hx|]); apply (rooted_spec h r D text_of gs x Hok Hw (He' x Hx)); exact H.
  - intros HU. eexists. split; [exact (proj2 (proj2 (filter_rooted h r D text_of by_id IC els gs He Ho Hok Hw HU)))|]. rewrite andb_true_iff, nonempty_true, forallb_forall.
    apply and_iff_compat_l. split; intros H x Hx; apply (rooted_spec h r D text_of gs x Hok Hw (He' x Hx)); exact (H x Hx).
Qed.
Print Assumptions C10_is_rooted_partial.
Example C10_rooted_ex : let g1 := [[(RName (lit "div"), Children)]; [(RName (lit "p"), Children)]] in
  Placed_setting sdoc 0 stext (ids_of sdoc) [g1] /\ elset_check sdoc 0 [1; 2; 5] = true /\ is_ast sdoc stext (ids_of sdoc) [1; 2; 5] [g1] = Ok true /\
  is_all_ast sdoc stext (ids_of sdoc) [1; 2; 5] [g1] = Ok false /\ is_all_ast sdoc stext (ids_of sdoc) [2] [g1] = Ok true /\ is_ast sdoc stext (ids_of sdoc) [5] [g1] = Ok false.
Proof. split; [apply placed_check; vm_compute; reflexivity|]. repeat split; vm_compute; reflexivity. Qed.
(** Both agree with [filter]. *)
Theorem C10_agrees_partial h r text_of by_id els gs : Setting h r text_of by_id gs -> Forall (ElIn h r) els -> Ordered h els ->
  UnionOk h (map (fun g => meeting h text_of els g) gs) ->
  exists l b b', filter_ast h text_of by_id els gs = Ok l /\ is_ast h text_of by_id els gs = Ok b /\ is_all_ast h text_of by_id els gs = Ok b' /\
    (b = true <-> l <> []) /\ (b' = true <-> els <> [] /\ l = els).
Proof.
  intros HS He Ho HU. destruct (C09_filter_not_partial h r text_of by_id els gs HS He Ho HU) as (l & _ & E1 & K & _).
  destruct (C10_is_partial h r text_of by_id els gs HS He Ho) as (b & E2 & Hb). destruct (C10_is_all_partial h r text_of by_id els gs HS He Ho HU) as (b' & E3 & Hb').
  exists l, b, b'. do 3 (split; [assumption|]). split.
  - rewrite Hb. split.
    + intros (x & Hx & HM) ->. exact (proj2 (kept_in _ _ _ K x) (conj Hx HM)).
    + destruct l as [|x l]; [congruence|]. intros _. exists x. apply (kept_in _ _ _ K x). left. reflexivity.
  - rewrite Hb'. apply and_iff_compat_l. split.
    + intros H. apply (kept_fun _ _ _ K). clear -H. induction els as [|x els IH]; [constructor|]. apply Kept_keep; [apply H; left; reflexivity | apply IH; intros y Hy; apply H; right; exact Hy].
    + intros -> x Hx. apply (kept_in _ _ _ K x). exact Hx.
Qed.
Print Assumptions C10_agrees_partial.
Example C10_ex : Setting sdoc 0 stext (ids_of sdoc) sel1 /\ elset_check sdoc 0 [1; 2; 9] = true /\
  is_ast sdoc stext (ids_of sdoc) [1; 2; 9] sel1 = Ok true /\ is_all_ast sdoc stext (ids_of sdoc) [1; 2; 9] sel1 = Ok false /\
  is_all_ast sdoc stext (ids_of sdoc) [2; 9] sel1 = Ok true.
Proof. split; [apply sdoc_set; vm_compute; reflexivity|]. repeat split; vm_compute; reflexivity. Qed.
Theorem C10_is_all_refuted : exists h r text_of by_id els gs, Setting h r text_of by_id gs /\ Forall (ElIn h r) els /\ Ordered h els /\ els <> [] /\
  (forall x, In x els -> meets h text_of gs x) /\ is_all_ast h text_of by_id els gs = Ok false.
Proof.
  exists sdoc, 0, stext, (ids_of sdoc), [2; 4; 5], sel_ab.
  assert (HS : Setting sdoc 0 stext (ids_of sdoc) sel_ab) by (apply sdoc_set; vm_compute; reflexivity).
  assert (He : Forall (ElIn sdoc 0) [2; 4; 5] /\ Ordered sdoc [2; 4; 5]) by (apply (elset_check_sound sdoc 0); vm_compute; reflexivity).
  split; [exact HS|]. split; [apply He|]. split; [apply He|]. split; [discriminate|]. split; [|vm_compute; reflexivity].
  destruct HS as [D _ Hok Hw]. destruct He as [He _]. rewrite Forall_forall in He. intros x Hx. apply (meets_spec sdoc 0 D stext sel_ab x Hok Hw (He x Hx)).
  cbn in Hx. repeat (destruct Hx as [<- | Hx]; [vm_compute; reflexivity|]). destruct Hx.
Qed.
Print Assumptions C10_is_all_refuted.

(** * C11 *)
(** Full claim: any selector.  Missing: the rules [RuleOk] excludes (see C31, C32).
    [has] takes any list of nodes, in any order. *)
Theorem C11_has_partial h r text_of by_id els gs : Setting h r text_of by_id gs -> AllIn h r els ->
  exists l, has_ast h text_of by_id els gs = Ok l /\ Kept (fun x => exists y, DescEl h x y /\ meets h text_of gs y) els l.
Proof.
  intros [D IC Hok Hw] He. eexists. split.
  - apply (has_ok h r D _ (map (predb h text_of) gs)); [|exact He]. apply (selb_ok h r D text_of by_id IC); [exact Hok | exact Hw | discriminate].
  - apply kept_filter. intros x Hx. rewrite Forall_forall in He. rewrite existsb_exists.
    assert (A : forall y, DescEl h x y -> ElIn h r y) by (intros y [Ha Hy]; split; [exact (intree_down h r x y (He x Hx) (or_intror Ha)) | exact Hy]).
    split; intros (y & Hy & HM); exists y.
    + apply (descendants_in h r D x y (He x Hx)) in Hy. split; [exact Hy|]. apply (meets_spec h r D text_of gs y Hok Hw (A y Hy)). exact HM.
    + split; [apply (descendants_in h r D x y (He x Hx)); exact Hy|]. apply (meets_spec h r D text_of gs y Hok Hw (A y Hy)). exact HM.
Qed.
Print Assumptions C11_has_partial.
(** With combinators in front. *)
Theorem C11_has_rooted_partial h r text_of by_id els gs : Placed_setting h r text_of by_id gs -> AllIn h r els ->
  exists l, has_ast h text_of by_id els gs = Ok l /\ Kept (fun x => exists y, DescEl h x y /\ meets_rooted h text_of gs y) els l.
Proof.
  intros [D IC Hok Hw] He. eexists. split; [exact (has_rooted h r D text_of by_id IC els gs He Hok Hw)|].
  apply kept_filter. intros x Hx. rewrite Forall_forall in He. rewrite existsb_exists.
  assert (A : forall y, DescEl h x y -> ElIn h r y) by (intros y [Ha Hy]; split; [exact (intree_down h r x y (He x Hx) (or_intror Ha)) | exact Hy]).
  split; intros (y & Hy & HM); exists y.
  - apply (descendants_in h r D x y (He x Hx)) in Hy. split; [exact Hy|]. apply (rooted_spec h r D text_of gs y Hok Hw (A y Hy)). exact HM.
  - split; [apply (descendants_in h r D x y (He x Hx)); exact Hy|]. apply (rooted_spec h r D text_of gs y Hok Hw (A y Hy)). exact HM.
Qed.
Print Assumptions C11_has_rooted_partial.
Example C11_rooted_ex : let g1 := [[(RName (lit "div"), Children)]; [(RName (lit "p"), Children)]] in
  Placed_setting sdoc 0 stext (ids_of sdoc) [g1] /\ allin_check sdoc 0 [0; 1; 4] = true /\ has_ast sdoc stext (ids_of sdoc) [0; 1; 4] [g1] = Ok [0; 1] /\
  has_ast sdoc stext (ids_of sdoc) [0; 1; 4] [[[(RName (lit "div"), ChildrenAll)]; [(RName (lit "p"), Children)]]] = Ok [0; 1; 4].
Proof. split; [apply placed_check; vm_compute; reflexivity|]. repeat split; vm_compute; reflexivity. Qed.
Theorem C11_has_in h r els search : DocOk h r -> AllIn h r els ->
  exists l, has_in h els search = Ok l /\ Kept (fun x => exists y, DescEl h x y /\ In y search) els l.
Proof.
  intros D He. eexists. split; [exact (has_in_ok h r D els search He)|]. apply kept_filter. intros x Hx. rewrite Forall_forall in He. rewrite existsb_exists.
  split; intros (y & Hy & HM); exists y.
  - split; [apply (descendants_in h r D x y (He x Hx)); exact Hy | apply includes_spec; exact HM].
  - split; [apply (descendants_in h r D x y (He x Hx)); exact Hy | apply includes_spec; exact HM].
Qed.
Print Assumptions C11_has_in.
(** [span[title]], which also stands below the input's parent. *)
Example C11_ex : let gs := [[[(RName (lit "span"), ChildrenAll); (RAttr (lit "title") None, Chain)]]; [[(RChecked, ChildrenAll)]]] in
  Setting sdoc 0 stext (ids_of sdoc) gs /\ allin_check sdoc 0 [10; 5; 4; 2] = true /\
  has_ast sdoc stext (ids_of sdoc) [10; 5; 4; 2] gs = Ok [5; 4] /\ has_in sdoc [10; 5; 4; 2] [7; 2; 9] = Ok [5; 4].
Proof. split; [apply sdoc_set; vm_compute; reflexivity|]. repeat split; vm_compute; reflexivity. Qed.
