(** Property theorems: the queries on selector texts (C05, C09-C14, C33-C35, C39). *)
From Verif Require Import Base Utils UtilsSpec UtilsProofs Nth NthSpec Attr AttrSpec AttrProofs ClassSpec Dom DomSpec Order OrderSpec DomProofs OrderProofs
  Sets SetsProofs AddProofs DomBuild DomBuildProofs Mutate NavProofs Engine Rules Regex RegexProofs Parse PatProofs NthText TokenProofs ParseSpec ParseProofs ParseTotal ParsePanic PropsParse Traverse SelSpec FindSpec TravSpec
  OneProofs PreProofs SelBool SibLists SibProofs StepProofs BackProofs FilterProofs RuleProofs SelBuild FindProofs FindRules SelectProofs FindBuild TravProofs
  PropsFilter PropsFind PropsTrav Query QueryProofs.

(** * C35: every query evaluates a text of the grammar as the groups it denotes, and reports no error *)
Theorem C35_queries wide_digit h text_of by_id n gs s els : Reads n gs s -> els <> [] ->
  find_text wide_digit h text_of by_id els s = quiet (find_ast h text_of by_id els gs) /\
  filter_text wide_digit h text_of by_id els s = quiet (filter_ast h text_of by_id els gs) /\
  not_text wide_digit h text_of by_id els s = quiet (not_ast h text_of by_id els gs) /\
  is_text wide_digit h text_of by_id els s = quiet (is_ast h text_of by_id els gs) /\
  is_all_text wide_digit h text_of by_id els s = quiet (is_all_ast h text_of by_id els gs) /\
  has_text wide_digit h text_of by_id els s = quiet (has_ast h text_of by_id els gs).
Proof.
  intros HR Hn. apply (from_str_reads wide_digit) in HR.
  repeat split; [apply parsed_good | apply trigger_good | apply trigger_good | apply trigger_good | apply trigger_good | apply trigger_good]; assumption.
Qed.
Print Assumptions C35_queries.
Lemma reads_nonempty n gs s : Reads n gs s -> gs <> [] -> s <> [].
Proof. intros H Hg ->. apply (from_str_reads ascii_only) in H. cbn in H. congruence. Qed.
Lemma reads_groups n gs s : Reads n gs s -> gs <> [].
Proof. intros H. inversion H as [c l gs' t w _ HB]; subst. inversion HB. discriminate. Qed.
Lemma reads_text n gs s : Reads n gs s -> s <> [].
Proof. intros H. exact (reads_nonempty n gs s H (reads_groups n gs s H)). Qed.
Theorem C35_traversals wide_digit h text_of by_id n gs s els : Reads n gs s ->
  closest_text wide_digit h text_of by_id els s = quiet (closest_ast h text_of by_id els gs) /\
  (forall c, step_comb c = true -> c <> Siblings -> step_text wide_digit h text_of by_id c els s = quiet (step_ast h text_of by_id c els (Some gs))) /\
  (forall w, trim w = s -> step_text wide_digit h text_of by_id Siblings els w = quiet (step_ast h text_of by_id Siblings els (Some gs))) /\
  (forall c contains, unit_comb c = true -> until_text wide_digit h text_of by_id c els s [] contains = quiet (until_ast h text_of by_id c els gs None contains)) /\
  (forall c contains m fs f, unit_comb c = true -> Reads m fs f -> until_text wide_digit h text_of by_id c els s f contains = quiet (until_ast h text_of by_id c els gs (Some fs) contains)).
Proof.
  intros HR. pose proof (reads_text n gs s HR) as Hs. apply (from_str_reads wide_digit) in HR. split; [|split; [|split; [|split]]].
  - unfold closest_text. destruct s; [congruence|]. exact (parsed_good _ _ _ _ _ gs (fun gs => closest_ast h text_of by_id els gs) HR).
  - intros c Hc Hn. apply step_text_some; assumption.
  - intros w Hw. apply siblings_some; rewrite Hw; assumption.
  - intros c contains Hc. apply (until_good _ _ _ _ c els s [] gs None contains Hc HR). reflexivity.
  - intros c contains m fs f Hc Hf. pose proof (reads_text m fs f Hf) as Hf'. apply (from_str_reads wide_digit) in Hf. apply (until_good _ _ _ _ c els s f gs (Some fs) contains Hc HR). split; assumption.
Qed.
Print Assumptions C35_traversals.
(** Without a text there is no filter; [siblings] also takes white space for no text. *)
Theorem C12_no_text wide_digit h text_of by_id els :
  (forall c, step_comb c = true -> c <> Siblings -> step_text wide_digit h text_of by_id c els [] = quiet (step_ast h text_of by_id c els None)) /\
  (forall w, trim w = [] -> step_text wide_digit h text_of by_id Siblings els w = quiet (step_ast h text_of by_id Siblings els None)) /\
  closest_text wide_digit h text_of by_id els [] = Ok ([], []).
Proof. split; [intros c; apply step_text_none | split; [intros w; apply siblings_none | reflexivity]]. Qed.
Print Assumptions C12_no_text.

(** * From text to result *)
(** A text whose first sign is no combinator. *)
Definition PlainStart (s : str) : Prop := heads is_op (drop_ws s) = false.
Lemma setting_text h r text_of by_id n gs s : DocOk h r -> IdCache h r by_id -> SelOk h r text_of gs -> Reads n gs s -> PlainStart s -> Setting h r text_of by_id gs.
Proof. intros D IC Hok HR Hp. split; [exact D | exact IC | exact Hok | exact (from_str_wf ascii_only s gs (from_str_reads ascii_only n gs s HR) Hp)]. Qed.
(** Full claim: any text and any groups.  Missing: as for C05_find_partial. *)
Theorem C05_find_text_partial wide_digit h r text_of by_id els n g s : Searching h r text_of by_id els g -> FindOk h text_of els g -> els <> [] -> Reads n [g] s ->
  exists l, find_text wide_digit h text_of by_id els s = Ok (l, []) /\ forall x, In x l <-> reached h text_of els g x.
Proof.
  intros HS HF Hn HR. destruct (C05_find_partial h r text_of by_id els g HS HF) as (l & E & H). exists l. split; [|exact H].
  rewrite (proj1 (C35_queries wide_digit h text_of by_id n [g] s els HR Hn)). apply quiet_ok. exact E.
Qed.
Print Assumptions C05_find_text_partial.
(** Full claim: any text.  Missing: as for C09_filter_not_partial, and texts that start with a combinator. *)
Theorem C09_filter_text_partial wide_digit h r text_of by_id els n gs s : DocOk h r -> IdCache h r by_id -> SelOk h r text_of gs -> Reads n gs s -> PlainStart s ->
  Forall (ElIn h r) els -> Ordered h els -> UnionOk h (map (fun g => meeting h text_of els g) gs) ->
  exists l l', filter_text wide_digit h text_of by_id els s = Ok (l, []) /\ Kept (meets h text_of gs) els l /\
    not_text wide_digit h text_of by_id els s = Ok (l', []) /\ Kept (fun x => ~ meets h text_of gs x) els l'.
Proof.
  intros D IC Hok HR Hp He Ho HU. destruct (C09_filter_not_partial h r text_of by_id els gs (setting_text h r text_of by_id n gs s D IC Hok HR Hp) He Ho HU) as (l & l' & E1 & K1 & E2 & K2).
  destruct els as [|x els].
  - exists [], []. repeat split; constructor.
  - destruct (C35_queries wide_digit h text_of by_id n gs s (x :: els) HR ltac:(discriminate)) as (_ & F1 & F2 & _). exists l, l'. rewrite F1, F2.
    split; [apply quiet_ok; exact E1|]. split; [exact K1|]. split; [apply quiet_ok; exact E2 | exact K2].
Qed.
Print Assumptions C09_filter_text_partial.
Theorem C10_is_text_partial wide_digit h r text_of by_id els n gs s : DocOk h r -> IdCache h r by_id -> SelOk h r text_of gs -> Reads n gs s -> PlainStart s ->
  Forall (ElIn h r) els -> Ordered h els ->
  exists b, is_text wide_digit h text_of by_id els s = Ok (b, []) /\ (b = true <-> exists x, In x els /\ meets h text_of gs x).
Proof.
  intros D IC Hok HR Hp He Ho. destruct (C10_is_partial h r text_of by_id els gs (setting_text h r text_of by_id n gs s D IC Hok HR Hp) He Ho) as (b & E & H).
  destruct els as [|x els].
  - exists false. split; [reflexivity|]. split; [discriminate | intros (x & [] & _)].
  - exists b. split; [|exact H]. rewrite (proj1 (proj2 (proj2 (proj2 (C35_queries wide_digit h text_of by_id n gs s (x :: els) HR ltac:(discriminate)))))). apply quiet_ok. exact E.
Qed.
Print Assumptions C10_is_text_partial.
Theorem C11_has_text_partial wide_digit h r text_of by_id els n gs s : DocOk h r -> IdCache h r by_id -> SelOk h r text_of gs -> Reads n gs s -> PlainStart s -> AllIn h r els ->
  exists l, has_text wide_digit h text_of by_id els s = Ok (l, []) /\ Kept (fun x => exists y, DescEl h x y /\ meets h text_of gs y) els l.
Proof.
  intros D IC Hok HR Hp He. destruct (C11_has_partial h r text_of by_id els gs (setting_text h r text_of by_id n gs s D IC Hok HR Hp) He) as (l & E & H).
  destruct els as [|x els].
  - exists []. split; [reflexivity | constructor].
  - exists l. split; [|exact H]. rewrite (proj2 (proj2 (proj2 (proj2 (proj2 (C35_queries wide_digit h text_of by_id n gs s (x :: els) HR ltac:(discriminate))))))). apply quiet_ok. exact E.
Qed.
Print Assumptions C11_has_text_partial.

(** Any first sign.  Full claim: any text.  Missing: as for C09_filter_not_rooted_partial. *)
Lemma placed_text h r text_of by_id n gs s : DocOk h r -> IdCache h r by_id -> SelOk h r text_of gs -> Reads n gs s -> Placed_setting h r text_of by_id gs.
Proof. intros D IC Hok HR. split; [exact D | exact IC | exact Hok | exact (proj1 (proj1 (from_str_shape ascii_only s gs (from_str_reads ascii_only n gs s HR))))]. Qed.
Theorem C09_filter_text_rooted_partial wide_digit h r text_of by_id els n gs s : DocOk h r -> IdCache h r by_id -> SelOk h r text_of gs -> Reads n gs s ->
  Forall (ElIn h r) els -> Ordered h els -> UnionOk h (map (fun g x => In x els /\ Matches h (rooted h (preds h text_of g)) x) gs) ->
  exists l l', filter_text wide_digit h text_of by_id els s = Ok (l, []) /\ Kept (meets_rooted h text_of gs) els l /\
    not_text wide_digit h text_of by_id els s = Ok (l', []) /\ Kept (fun x => ~ meets_rooted h text_of gs x) els l'.
Proof.
  intros D IC Hok HR He Ho HU. destruct (C09_filter_not_rooted_partial h r text_of by_id els gs (placed_text h r text_of by_id n gs s D IC Hok HR) He Ho HU) as (l & l' & E1 & K1 & E2 & K2).
  destruct els as [|x els].
  - exists [], []. repeat split; constructor.
  - destruct (C35_queries wide_digit h text_of by_id n gs s (x :: els) HR ltac:(discriminate)) as (_ & F1 & F2 & _). exists l, l'. rewrite F1, F2.
    split; [apply quiet_ok; exact E1|]. split; [exact K1|]. split; [apply quiet_ok; exact E2 | exact K2].
Qed.
Print Assumptions C09_filter_text_rooted_partial.
Theorem C10_is_text_rooted_partial wide_digit h r text_of by_id els n gs s : DocOk h r -> IdCache h r by_id -> SelOk h r text_of gs -> Reads n gs s ->
  Forall (ElIn h r) els -> Ordered h els ->
  exists b, is_text wide_digit h text_of by_id els s = Ok (b, []) /\ (b = true <-> exists x, In x els /\ meets_rooted h text_of gs x).
Proof.
  intros D IC Hok HR He Ho. destruct (C10_is_rooted_partial h r text_of by_id els gs (placed_text h r text_of by_id n gs s D IC Hok HR) He Ho) as [(b & E & H) _].
  destruct els as [|x els].
  - exists false. split; [reflexivity|]. split; [discriminate | intros (x & [] & _)].
  - exists b. split; [|exact H]. rewrite (proj1 (proj2 (proj2 (proj2 (C35_queries wide_digit h text_of by_id n gs s (x :: els) HR ltac:(discriminate)))))). apply quiet_ok. exact E.
Qed.
Print Assumptions C10_is_text_rooted_partial.
Theorem C11_has_text_rooted_partial wide_digit h r text_of by_id els n gs s : DocOk h r -> IdCache h r by_id -> SelOk h r text_of gs -> Reads n gs s -> AllIn h r els ->
  exists l, has_text wide_digit h text_of by_id els s = Ok (l, []) /\ Kept (fun x => exists y, DescEl h x y /\ meets_rooted h text_of gs y) els l.
Proof.
  intros D IC Hok HR He. destruct (C11_has_rooted_partial h r text_of by_id els gs (placed_text h r text_of by_id n gs s D IC Hok HR) He) as (l & E & H).
  destruct els as [|x els].
  - exists []. split; [reflexivity | constructor].
  - exists l. split; [|exact H]. rewrite (proj2 (proj2 (proj2 (proj2 (proj2 (C35_queries wide_digit h text_of by_id n gs s (x :: els) HR ltac:(discriminate))))))). apply quiet_ok. exact E.
Qed.
Print Assumptions C11_has_text_rooted_partial.
Example rooted_text_ex : Placed_setting sdoc 0 stext (ids_of sdoc) [[[(RName (lit "div"), Children)]; [(RName (lit "p"), Children)]]] /\
  from_str ascii_only (lit ">div>p") = Ok (Some [[[(RName (lit "div"), Children)]; [(RName (lit "p"), Children)]]]) /\
  filter_text ascii_only sdoc stext (ids_of sdoc) [1; 2; 5] (lit ">div>p") = Ok ([2], []) /\ not_text ascii_only sdoc stext (ids_of sdoc) [1; 2; 5] (lit ">div>p") = Ok ([1; 5], []) /\
  is_text ascii_only sdoc stext (ids_of sdoc) [5] (lit ">div>p") = Ok (false, []) /\ has_text ascii_only sdoc stext (ids_of sdoc) [1; 4] (lit ">div>p") = Ok ([1], []).
Proof. split; [apply placed_check; vm_compute; reflexivity|]. repeat split; vm_compute; reflexivity. Qed.

(** [C35_ex1] gives the derivation for this text; here the document and the set. *)
Definition ul_text : str := lit " ul >li.a, p:not( .b)".
Example query_ex : Setting sdoc 0 stext (ids_of sdoc) [[[(RName (lit "p"), ChildrenAll); (RNot (NSel [[[(RClass (lit "b"), ChildrenAll)]]]), Chain)]]] /\
  filter_text ascii_only sdoc stext (ids_of sdoc) [2; 4; 5] (lit "p:not(.b)") = Ok ([], []) /\ not_text ascii_only sdoc stext (ids_of sdoc) [2; 4; 5] (lit "p:not(.b)") = Ok ([2; 4; 5], []) /\
  find_text ascii_only sdoc stext (ids_of sdoc) [1] (lit " div.b >p, span") = Ok ([5; 7; 10], []) /\ is_text ascii_only sdoc stext (ids_of sdoc) [2; 4; 5] (lit "p.b") = Ok (true, []) /\
  has_text ascii_only sdoc stext (ids_of sdoc) [2; 4; 5] (lit "span") = Ok ([4; 5], []) /\ closest_text ascii_only sdoc stext (ids_of sdoc) [7] (lit "div") = Ok ([4], []) /\
  step_text ascii_only sdoc stext (ids_of sdoc) Siblings [2] (lit " span ") = Ok ([10], []) /\ until_text ascii_only sdoc stext (ids_of sdoc) Parent [7] (lit "#main") [] false = Ok ([4; 5], []).
Proof. split; [apply sdoc_set; vm_compute; reflexivity|]. repeat split; vm_compute; reflexivity. Qed.

(** * C34: no query panics *)
(** Full claim: any text given to any query either works or is reported.  Missing: the texts of C34_no_panic_partial,
    selectors on which the engine itself breaks off ([SelOk]), and [find] and the
    traversals, whose engine breaks off for further selectors (C05_find_refuted, C12_step_filter_refuted). *)
Theorem C34_query_partial wide_digit h r text_of by_id els s : DocOk h r -> IdCache h r by_id -> Forall (ElIn h r) els -> Ordered h els ->
  (forall u, Suffix u s -> ~ CutOff u /\ ~ BigIndex u /\ ~ Unclosed u) -> (forall gs, from_str wide_digit s = Ok (Some gs) -> SelOk h r text_of gs) ->
  (exists b e, is_text wide_digit h text_of by_id els s = Ok (b, e) /\ (e = [r] \/ e = [])) /\ (exists l e, has_text wide_digit h text_of by_id els s = Ok (l, e) /\ (e = [r] \/ e = [])).
Proof.
  intros D IC He Ho Hs Hok. destruct els as [|x els]; [split; [exists false, [] | exists [], []]; (split; [reflexivity | right; reflexivity])|].
  destruct (C34_no_panic_partial wide_digit s Hs) as [E | (gs & E & _)].
  - split; [exists false, [r] | exists [], [r]]; (split; [|left; reflexivity]); unfold is_text, has_text, trigger_method; rewrite parsed_bad by exact E; rewrite (halt_doc h r D x (conj (proj1 (Forall_inv He)) (or_introl (proj2 (Forall_inv He))))); reflexivity.
  - assert (HS : Placed_setting h r text_of by_id gs) by (split; [exact D | exact IC | exact (Hok gs E) | exact (proj1 (proj1 (from_str_shape wide_digit s gs E)))]). split.
    + destruct (C10_is_rooted_partial h r text_of by_id (x :: els) gs HS He Ho) as [(b & Eb & _) _]. exists b, []. split; [|right; reflexivity]. unfold is_text. rewrite (trigger_good _ _ _ _ _ gs) by (discriminate || exact E). apply quiet_ok. exact Eb.
    + destruct (C11_has_rooted_partial h r text_of by_id (x :: els) gs HS) as (l & El & _); [revert He; apply Forall_impl; intros y Hy; apply Hy|].
      exists l, []. split; [|right; reflexivity]. unfold has_text. rewrite (trigger_good _ _ _ _ _ gs) by (discriminate || exact E). apply quiet_ok. exact El.
Qed.
Print Assumptions C34_query_partial.
Example C34_query_ex : (forall u, Suffix u (lit "a[b=c]") -> ~ CutOff u /\ ~ BigIndex u /\ ~ Unclosed u) /\
  (forall gs, from_str ascii_only (lit "a[b=c]") = Ok (Some gs) -> SelOk sdoc 0 stext gs) /\ is_text ascii_only sdoc stext (ids_of sdoc) [2; 4; 5] (lit "a[b=c]") = Ok (false, []).
Proof.
  split; [exact C34_ex2|]. split; [|vm_compute; reflexivity]. intros gs H. vm_compute in H. injection H as <-.
  apply (sel_check_sound sdoc 0 stext); [apply docok_check_sound; vm_compute; reflexivity | vm_compute; reflexivity].
Qed.
(** The full claim is false: [find] panics for texts the parser panics for; on an empty set even a text that is only an
    error panics; a nested text that panics does so when it is applied; a text may be fine and the engine panic. *)
Theorem C34_query_refuted :
  (exists s, forall wide_digit h text_of by_id els, find_text wide_digit h text_of by_id els s = Panic) /\
  (exists s, (forall wide_digit, from_str wide_digit s = Ok None) /\ forall wide_digit h text_of by_id, find_text wide_digit h text_of by_id [] s = Panic) /\
  (exists h r text_of by_id els, DocOk h r /\ IdCache h r by_id /\ Forall (ElIn h r) els /\ Ordered h els /\
    filter_text ascii_only h text_of by_id els (lit "p:not([b)") = Panic /\ find_text ascii_only h text_of by_id els (lit ":last-child") = Panic).
Proof.
  split; [exists (lit "a[b"); intros; vm_compute; reflexivity|]. split; [exists (lit "a,,b"); split; intros; vm_compute; reflexivity|].
  destruct (elset_check_sound ndoc 0 [4]) as [He Ho]; [vm_compute; reflexivity|].
  exists ndoc, 0, stext, (ids_of ndoc), [4]. split; [apply docok_check_sound; vm_compute; reflexivity|].
  split; [apply ids_check_sound; [apply docok_check_sound|]; vm_compute; reflexivity|]. split; [exact He|]. split; [exact Ho|]. split; vm_compute; reflexivity.
Qed.
Print Assumptions C34_query_refuted.

(** * C39: a text that is no selector *)
(** The call is reported to the document, once, and gives the empty set (or false).  Queries never touch the tree. *)
Theorem C39_bad_selector wide_digit h r text_of by_id els s : DocOk h r -> Forall (fun x => InTree h r x /\ Container h x) els -> els <> [] -> from_str wide_digit s = Ok None ->
  find_text wide_digit h text_of by_id els s = Ok ([], [r]) /\ filter_text wide_digit h text_of by_id els s = Ok ([], [r]) /\
  not_text wide_digit h text_of by_id els s = Ok ([], [r]) /\ has_text wide_digit h text_of by_id els s = Ok ([], [r]) /\
  is_text wide_digit h text_of by_id els s = Ok (false, [r]) /\ is_all_text wide_digit h text_of by_id els s = Ok (false, [r]) /\
  closest_text wide_digit h text_of by_id els s = Ok ([], [r]) /\
  (forall c, step_comb c = true -> c <> Siblings -> step_text wide_digit h text_of by_id c els s = Ok ([], [r])) /\
  (forall w, trim w = s -> step_text wide_digit h text_of by_id Siblings els w = Ok ([], [r])) /\
  (forall c flt contains, unit_comb c = true -> until_text wide_digit h text_of by_id c els s flt contains = Ok ([], [r])) /\
  (forall c stop gs contains, unit_comb c = true -> from_str wide_digit stop = Ok (Some gs) -> until_text wide_digit h text_of by_id c els stop s contains = Ok ([], [r])).
Proof.
  intros D He Hn Hs. destruct els as [|x els]; [congruence|]. pose proof (halt_doc h r D x (Forall_inv He)) as Hh.
  assert (P : forall A (d : A) run, parsed_or wide_digit h d (x :: els) s run = Ok (d, [r])) by (intros A d run; rewrite parsed_bad by exact Hs; rewrite Hh; reflexivity).
  do 6 (split; [apply P|]). split; [unfold closest_text; destruct s; [discriminate | apply P]|].
  split; [intros c Hc Hc'; apply step_bad; assumption|]. split; [intros w Hw; apply (siblings_bad wide_digit h text_of by_id r D); [exact Hn | exact He | rewrite Hw; exact Hs]|].
  split; [intros c flt contains Hc; apply until_bad_stop; assumption | intros c stop gs contains Hc Hst; exact (until_bad_filter wide_digit h text_of by_id r D c (x :: els) stop s gs contains Hc Hn He Hst Hs)].
Qed.
Print Assumptions C39_bad_selector.
Example C39_bad_ex : DocOk sdoc 0 /\ Forall (ElIn sdoc 0) [2; 4; 5] /\ from_str ascii_only (lit "p > > b") = Ok None /\ from_str ascii_only (lit "p::before") = Ok None /\
  step_text ascii_only sdoc stext (ids_of sdoc) PrevAll [4; 5] (lit "p:hover") = Ok ([], [0]).
Proof.
  split; [apply docok_check_sound; vm_compute; reflexivity|]. split; [apply elset_check_sound; vm_compute; reflexivity|]. repeat split; vm_compute; reflexivity.
Qed.
(** On the empty set such a text is ignored by [filter] and the like, but makes [find], [closest], [siblings] and the
    [_until] calls panic; neither reports an error. *)
Theorem C39_empty_set wide_digit h text_of by_id s : from_str wide_digit s = Ok None ->
  filter_text wide_digit h text_of by_id [] s = Ok ([], []) /\ find_text wide_digit h text_of by_id [] s = Panic /\ closest_text wide_digit h text_of by_id [] s = Panic /\
  (forall w, trim w = s -> step_text wide_digit h text_of by_id Siblings [] w = Panic) /\
  (forall c flt contains, unit_comb c = true -> until_text wide_digit h text_of by_id c [] s flt contains = Panic).
Proof.
  intros Hs. pose proof (bad_text wide_digit s Hs) as Hn.
  assert (P : forall A (d : A) run, parsed_or wide_digit h d [] s run = Panic) by (intros A d run; unfold parsed_or; rewrite Hs; reflexivity).
  split; [reflexivity|]. split; [apply P|]. split; [unfold closest_text; destruct s; [congruence | apply P]|]. split.
  - intros w Hw. cbn [step_text]. unfold siblings_text. cbn [unique_all_siblings rfold rbind]. rewrite Hw. destruct s; [congruence | apply P].
  - intros c flt contains Hc. unfold until_text. destruct c; try discriminate; cbn [until_uniques unique_sibling_first unique_sibling_last rfold rev rbind us_keep us_init]; rewrite Hs; reflexivity.
Qed.
Print Assumptions C39_empty_set.
Theorem C39_empty_set_refuted : exists s, (forall wide_digit, from_str wide_digit s = Ok None) /\ forall wide_digit h text_of by_id, find_text wide_digit h text_of by_id [] s = Panic.
Proof.
  exists (lit "p > > b"). assert (H : forall w, from_str w (lit "p > > b") = Ok None) by (intros w; vm_compute; reflexivity). split; [exact H|].
  intros w h t b. exact (proj1 (proj2 (C39_empty_set w h t b _ (H w)))).
Qed.
Print Assumptions C39_empty_set_refuted.
