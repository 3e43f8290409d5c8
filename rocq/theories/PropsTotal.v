(** Property theorems: queries return (C57).  No panic and no endless loop on a well-formed document, and only elements of the
    document are returned; the sets may be in any order and may repeat elements. *)
From Verif Require Import Base Utils UtilsSpec Nth NthSpec Attr AttrSpec AttrProofs ClassSpec Dom DomSpec Order OrderSpec DomProofs OrderProofs
  Sets SetsProofs AddProofs DomBuild DomBuildProofs Mutate NavProofs Engine Rules Regex RegexProofs Parse PatProofs NthText TokenProofs ParseSpec ParseProofs ParseTotal ParsePanic PropsParse
  Traverse SelSpec FindSpec TravSpec TotalSpec OneProofs PreProofs SelBool SibLists SibProofs
  StepProofs BackProofs FilterProofs RuleProofs SelBuild FindProofs FindRules SelectProofs FindBuild TravProofs Total PropsFilter PropsFind PropsTrav Query QueryProofs TotalText PropsQuery.

(** * Filters *)
(** Full claim: any text.  Missing: position formulas in the regimes where C01 is refuted, nested texts on which the parser panics.
    The id look-up need only answer with elements of the document. *)
Theorem C57_filters_partial h r text_of by_id els gs : DocOk h r -> IdInside h r by_id -> CanRun h r gs -> Forall (ElIn h r) els ->
  (exists l, filter_ast h text_of by_id els gs = Ok l /\ Forall (ElIn h r) l) /\ (exists l, not_ast h text_of by_id els gs = Ok l /\ Forall (ElIn h r) l) /\
  (exists l, has_ast h text_of by_id els gs = Ok l /\ Forall (ElIn h r) l) /\
  (exists b, is_ast h text_of by_id els gs = Ok b) /\ (exists b, is_all_ast h text_of by_id els gs = Ok b).
Proof.
  intros D IC HG He. pose proof (run_plain h r D text_of by_id IC gs HG) as HS.
  split; [exact (filter_sel_t h r D els _ He HS)|]. split; [exact (not_sel_t h r D els _ He HS)|]. split; [exact (has_sel_t h r D els _ He HS)|].
  split; [exact (is_sel_t h r D els _ He HS) | exact (is_all_sel_t h r D els _ He HS)].
Qed.
Print Assumptions C57_filters_partial.
(** Full claim: any text.  Missing: as above. *)
Theorem C57_walks_partial h r text_of by_id els gs : DocOk h r -> IdInside h r by_id -> CanRun h r gs -> Forall (ElIn h r) els ->
  (exists l, closest_ast h text_of by_id els gs = Ok l /\ Forall (ElIn h r) l) /\
  forall c flt contains, In c [Next; Prev; Parent] -> (forall f, flt = Some f -> CanRun h r f) ->
    exists l, until_ast h text_of by_id c els gs flt contains = Ok l /\ Forall (ElIn h r) l.
Proof.
  intros D IC HG He. split; [exact (closest_t h r D text_of by_id IC els gs HG He)|]. intros c flt contains Hc HF.
  assert (Hu : unit_comb c = true) by (destruct Hc as [<- | [<- | [<- | []]]]; reflexivity). exact (until_ast_t h r D text_of by_id IC c els gs flt contains Hu HG HF He).
Qed.
Print Assumptions C57_walks_partial.

(** * Steps *)
(** Full claim: any text.  Missing: as above; later compounds that search all descendants (see the refutation); compounds counting from the
    last child, or with a formula that allows a position among no siblings, where the children of a childless node are asked for; for siblings, texts that
    are looked up. *)
Theorem C57_steps_partial h r text_of by_id c els flt : DocOk h r -> IdInside h r by_id -> In c [Children; Parent; ParentAll; Next; NextAll; Prev; PrevAll; Siblings] ->
  (forall gs, flt = Some gs -> CanStep h r c gs /\ (c = Siblings -> forallb (fun g => negb (looks_up g)) gs = true)) -> Forall (ElIn h r) els ->
  exists l, step_ast h text_of by_id c els flt = Ok l /\ Forall (ElIn h r) l.
Proof.
  intros D IC Hc HF He. apply (step_t h r D text_of by_id IC c flt els); [|exact HF | exact He].
  destruct Hc as [<- | [<- | [<- | [<- | [<- | [<- | [<- | [<- | []]]]]]]]]; reflexivity.
Qed.
Print Assumptions C57_steps_partial.

(** * find *)
(** Full claim: any selector.  Missing: as for the steps.  From any set in document order, without a condition on what the rules select. *)
Theorem C57_find_partial h r text_of by_id els gs : DocOk h r -> IdInside h r by_id -> Starts h r els ->
  (forall g, In g gs -> RunnableGroup h r g /\ forallb comp_wf g = true /\ loose g = true) ->
  exists l, find_ast h text_of by_id els gs = Ok l /\ Forall (ElIn h r) l.
Proof.
  intros D IC HS HG. apply (find_t h r D text_of by_id els gs). intros g Hg. destruct (HG g Hg) as (HR & Hw & Hl). exact (loose_process h r D text_of by_id IC els g HS HR Hw Hl).
Qed.
Print Assumptions C57_find_partial.
(** Groups that begin with steps for which [find] is exact (C05) and end with steps that return from any set. *)
Theorem C57_find_exact_partial h r text_of by_id els gs : DocOk h r -> IdCache h r by_id -> Starts h r els ->
  (forall g, In g gs -> exists a b, g = a ++ b /\ GroupOk h r text_of a /\ group_wf a = true /\ FindOk h text_of els a /\
     RunnableGroup h r b /\ forallb comp_wf b = true /\ forallb late b = true /\ (looks_up g = true -> pivot g < length a)) ->
  exists l, find_ast h text_of by_id els gs = Ok l /\ Forall (ElIn h r) l.
Proof.
  intros D IC HS HG. apply (find_t h r D text_of by_id els gs). intros g Hg. destruct (HG g Hg) as (a & b & -> & H1 & H2 & H3 & H4 & H5 & H6 & H7).
  exact (exact_process h r D text_of by_id (cache_inside h r by_id IC) els a b IC HS H1 H2 H3 H4 H5 H6 H7).
Qed.
Print Assumptions C57_find_exact_partial.
(** What the exact theorems ask of a rule is enough here. *)
Theorem C57_ok_runs h r text_of rl : RuleOk h r text_of rl -> Runnable h r rl.
Proof. exact (ok_runs h r text_of rl). Qed.
Print Assumptions C57_ok_runs.

(** * Texts *)
(** Full claim: any text.  Missing: texts on which the parser panics, formulas where C01 is refuted, nested texts that panic.  A text that cannot
    be read is reported once. *)
Definition was_read (p : option ast) : bool := match p with Some _ => true | None => false end.
Theorem C57_texts_partial wide_digit h r text_of by_id els s p : DocOk h r -> IdInside h r by_id -> Forall (ElIn h r) els -> els <> [] ->
  from_str wide_digit s = Ok p -> (forall gs, p = Some gs -> Applies h r gs) ->
  let answers {A} := @Answers A r (was_read p) in
  answers (Forall (ElIn h r)) (filter_text wide_digit h text_of by_id els s) /\ answers (Forall (ElIn h r)) (not_text wide_digit h text_of by_id els s) /\
  answers (Forall (ElIn h r)) (has_text wide_digit h text_of by_id els s) /\ answers (fun _ => True) (Query.is_text wide_digit h text_of by_id els s) /\
  answers (fun _ => True) (is_all_text wide_digit h text_of by_id els s) /\ answers (Forall (ElIn h r)) (closest_text wide_digit h text_of by_id els s) /\
  (forall c flt q contains, In c [Next; Prev; Parent] -> p <> None -> from_str wide_digit flt = Ok q -> (forall gs, q = Some gs -> Applies h r gs) ->
    Answers r (was_read q) (Forall (ElIn h r)) (until_text wide_digit h text_of by_id c els s flt contains)).
Proof.
  intros D IC He Hn Hs HA answers. assert (Hh : Forall (fun x => InTree h r x /\ Container h x) els) by (revert He; apply Forall_impl; intros x [Hx Hx']; split; [exact Hx | left; exact Hx']).
  destruct p as [gs|].
  - destruct (from_str_shape wide_digit s gs Hs) as [S1 S2]. pose proof (parsed_runs h r gs S1 S2 (HA gs eq_refl)) as HG.
    destruct (C57_filters_partial h r text_of by_id els gs D IC HG He) as ((l1 & E1 & L1) & (l2 & E2 & L2) & (l3 & E3 & L3) & (b4 & E4) & (b5 & E5)).
    destruct (C57_walks_partial h r text_of by_id els gs D IC HG He) as [(l6 & E6 & L6) W].
    split; [|split; [|split; [|split; [|split; [|split]]]]].
    + exists l1. split; [|exact L1]. unfold filter_text. rewrite (trigger_good _ _ _ _ _ gs) by assumption. exact (quiet_ok _ _ E1).
    + exists l2. split; [|exact L2]. unfold not_text. rewrite (trigger_good _ _ _ _ _ gs) by assumption. exact (quiet_ok _ _ E2).
    + exists l3. split; [|exact L3]. unfold has_text. rewrite (trigger_good _ _ _ _ _ gs) by assumption. exact (quiet_ok _ _ E3).
    + exists b4. split; [|exact I]. unfold Query.is_text. rewrite (trigger_good _ _ _ _ _ gs) by assumption. exact (quiet_ok _ _ E4).
    + exists b5. split; [|exact I]. unfold is_all_text. rewrite (trigger_good _ _ _ _ _ gs) by assumption. exact (quiet_ok _ _ E5).
    + unfold closest_text. destruct s as [|k s]; [exists []; split; [reflexivity | constructor]|]. exists l6. split; [|exact L6]. rewrite (parsed_good _ _ _ _ _ gs) by assumption. exact (quiet_ok _ _ E6).
    + intros c flt q contains Hc _ Hf HF. assert (Hu : unit_comb c = true) by (destruct Hc as [<- | [<- | [<- | []]]]; reflexivity).
      destruct q as [fs|]; [|exists []; split; [exact (until_bad_filter wide_digit h text_of by_id r D c els s flt gs contains Hu Hn Hh Hs Hf) | constructor]].
      destruct (from_str_shape wide_digit flt fs Hf) as [F1 F2]. pose proof (parsed_runs h r fs F1 F2 (HF fs eq_refl)) as HFs.
      destruct flt as [|k flt].
      * destruct (W c None contains Hc ltac:(discriminate)) as (l & El & Ll). exists l. split; [|exact Ll].
        rewrite (until_good wide_digit h text_of by_id c els s [] gs None contains Hu Hs eq_refl). exact (quiet_ok _ _ El).
      * destruct (W c (Some fs) contains Hc ltac:(intros f E; injection E as <-; exact HFs)) as (l & El & Ll). exists l. split; [|exact Ll].
        assert (Hk : k :: flt <> [] /\ from_str wide_digit (k :: flt) = Ok (Some fs)) by (split; [discriminate | exact Hf]).
        rewrite (until_good wide_digit h text_of by_id c els s (k :: flt) gs (Some fs) contains Hu Hs Hk). exact (quiet_ok _ _ El).
  - destruct (C39_bad_selector wide_digit h r text_of by_id els s D Hh Hn Hs) as (_ & B1 & B2 & B3 & B4 & B5 & B6 & _).
    split; [exists []; split; [exact B1 | constructor]|]. split; [exists []; split; [exact B2 | constructor]|]. split; [exists []; split; [exact B3 | constructor]|].
    split; [exists false; split; [exact B4 | exact I]|]. split; [exists false; split; [exact B5 | exact I]|]. split; [exists []; split; [exact B6 | constructor]|].
    intros c flt q contains _ H. congruence.
Qed.
Print Assumptions C57_texts_partial.
(** Every text without brackets and parentheses that does not end in [.] or [#]: no condition is left on document, set or selector. *)
Theorem C57_plain_texts_partial wide_digit h r text_of by_id els s : DocOk h r -> IdInside h r by_id -> Forall (ElIn h r) els -> els <> [] ->
  ~ In 91%N s -> ~ In 40%N s -> (forall u, s <> u ++ lit ".") -> (forall u, s <> u ++ lit "#") ->
  exists read, Answers r read (Forall (ElIn h r)) (filter_text wide_digit h text_of by_id els s) /\ Answers r read (Forall (ElIn h r)) (not_text wide_digit h text_of by_id els s) /\
    Answers r read (Forall (ElIn h r)) (has_text wide_digit h text_of by_id els s) /\ Answers r read (fun _ => True) (Query.is_text wide_digit h text_of by_id els s) /\
    Answers r read (fun _ => True) (is_all_text wide_digit h text_of by_id els s) /\ Answers r read (Forall (ElIn h r)) (closest_text wide_digit h text_of by_id els s).
Proof.
  intros D IC He Hn H1 H2 H3 H4.
  assert (Hp : exists p, from_str wide_digit s = Ok p) by (destruct (C34_no_panic_plain_partial wide_digit s H1 H2 H3 H4) as [E | (gs & E & _)]; eexists; exact E).
  destruct Hp as (p & Hp). exists (was_read p).
  destruct (C57_texts_partial wide_digit h r text_of by_id els s p D IC He Hn Hp) as (A1 & A2 & A3 & A4 & A5 & A6 & _); [|repeat split; assumption].
  intros gs ->. exact (plain_applies h r wide_digit s gs H2 Hp).
Qed.
Print Assumptions C57_plain_texts_partial.

(** * Examples *)
Lemma ndoc_ok : DocOk ndoc 0 /\ IdCache ndoc 0 (ids_of ndoc).
Proof.
  assert (H : searching ndoc stext [1] div_p = true) by (vm_compute; reflexivity). destruct (searching_sound _ _ _ _ H) as [[D IC _ _ _] _]. split; assumption.
Qed.
Lemma ndoc_els : Forall (ElIn ndoc 0) [8; 5; 3; 5; 1; 11].
Proof.
  destruct (elset_check_sound ndoc 0 [1; 3; 5; 8; 11] ltac:(vm_compute; reflexivity)) as [He _]. rewrite Forall_forall in *. intros x Hx. apply He. cbn in *. tauto.
Qed.
(** A set out of order with a repetition; overlapping groups, a compound after a combinator, nested texts that overlap. *)
Notation odd_text := [[[(RNot (NSel [[[(nm "p", ChildrenAll)]]; [[(RAll, ChildrenAll)]]]), ChildrenAll); (cl "a", Chain)]]; [[(nm "div", ChildrenAll)]; [(ROnlyOfType, NextAll); (RChecked, Chain)]]; [[(nm "p", ChildrenAll)]]].
Example C57_ex : DocOk ndoc 0 /\ IdInside ndoc 0 (ids_of ndoc) /\ CanRun ndoc 0 odd_text /\ Forall (ElIn ndoc 0) [8; 5; 3; 5; 1; 11] /\
  filter_ast ndoc stext (ids_of ndoc) [8; 5; 3; 5; 1; 11] odd_text = Ok [5; 5] /\ has_ast ndoc stext (ids_of ndoc) [8; 5; 3; 5; 1; 11] odd_text = Ok [5; 3; 5; 1].
Proof.
  split; [exact (proj1 ndoc_ok)|]. split; [exact (cache_inside ndoc 0 _ (proj2 ndoc_ok))|]. split.
  - split; [reflexivity|]. intros g Hg cp rl c Hc Hr. cbn in Hg.
    repeat (destruct Hg as [<- | Hg]; [repeat (destruct Hc as [<- | Hc]; [repeat (destruct Hr as [Hr | Hr]; [injection Hr as <- <-; cbn; tauto|]); destruct Hr|]); destruct Hc|]); destruct Hg.
  - split; [exact ndoc_els|]. split; vm_compute; reflexivity.
Qed.
(** Steps with a text of two compounds from that set; a search whose last steps start from a set out of order. *)
Notation two_steps := [[[(RNthChild true (Some 2%Z, 1%Z), ChildrenAll)]; [(RAll, NextAll)]]].
Example C57_ex2 : CanStep ndoc 0 ParentAll two_steps /\ step_ast ndoc stext (ids_of ndoc) ParentAll [8; 5; 3; 5; 1; 11] (Some two_steps) = Ok [9; 11].
Proof.
  split; [|vm_compute; reflexivity]. intros g [<- | []]. split; [|split; reflexivity]. intros cp rl c [<- | [<- | []]] [E | []]; injection E as <- <-; [|exact I].
  apply (sel_check_sound ndoc 0 stext [[[(RNthChild true (Some 2%Z, 1%Z), ChildrenAll)]]] (proj1 ndoc_ok) ltac:(vm_compute; reflexivity) _ (or_introl eq_refl) _ (or_introl eq_refl) _ _ (or_introl eq_refl)).
Qed.
Notation then_late := [[(RFirstChild true, Children)]; [(RAll, Children)]; [(RNot (NSel [[[(nm "p", ChildrenAll)]]; [[(RAll, ChildrenAll)]]]), NextAll)]].
Example C57_ex3 : Starts ndoc 0 [1] /\ GroupOk ndoc 0 stext div_p /\ group_wf div_p = true /\ FindOk ndoc stext [1] div_p /\ RunnableGroup ndoc 0 then_late /\
  forallb comp_wf then_late = true /\ forallb late then_late = true /\ looks_up (div_p ++ then_late) = false /\ find_ast ndoc stext (ids_of ndoc) [1] [div_p ++ firstn 2 then_late] = Ok [7] /\
  find_ast ndoc stext (ids_of ndoc) [1] [div_p ++ then_late] = Ok [].
Proof.
  assert (H : searching ndoc stext [1] div_p = true) by (vm_compute; reflexivity). destruct (searching_sound _ _ _ _ H) as [[D IC Hok Hw HS] [HF _]].
  split; [exact HS|]. split; [exact Hok|]. split; [exact Hw|]. split; [apply HF; vm_compute; reflexivity|]. split.
  - intros cp rl c [<- | [<- | [<- | []]]] [E | []]; injection E as <- <-; cbn; tauto.
  - repeat split; vm_compute; reflexivity.
Qed.
(** A looked-up group whose first compound the exact theorems exclude. *)
Notation loose_text := [[(RNot (NSel [[[(nm "p", ChildrenAll)]]; [[(nm "u", ChildrenAll)]]]), ChildrenAll)]; [(cl "a", ChildrenAll)]].
Example C57_ex4 : Starts ndoc 0 [1; 3; 9] /\ RunnableGroup ndoc 0 loose_text /\ forallb comp_wf loose_text = true /\ loose loose_text = true /\ looks_up loose_text = true /\
  find_ast ndoc stext (ids_of ndoc) [1; 3; 9] [loose_text] = Ok [8].
Proof.
  assert (H : searching ndoc stext [1; 3; 9] div_p = true) by (vm_compute; reflexivity). destruct (searching_sound _ _ _ _ H) as [[_ _ _ _ HS] _]. split; [exact HS|]. split.
  - intros cp rl c [<- | [<- | []]] [E | []]; injection E as <- <-; cbn; tauto.
  - repeat split; vm_compute; reflexivity.
Qed.

(** Texts with nested texts and a formula; a plain text; a text that cannot be read. *)
Example C57_ex5 : from_str ascii_only (lit "p:not(b, :has(> i)) ~ :nth-child(2n+1)") = Ok (Some [[[(nm "p", ChildrenAll); (RNot (NSel [[[(nm "b", ChildrenAll)]]; [[(RHas (NSel [[[(nm "i", Children)]]]), ChildrenAll)]]]), Chain)];
    [(RNthChild true (Some 2%Z, 1%Z), NextAll)]]]) /\ NthOk ndoc 0 (Some 2%Z, 1%Z) /\
  filter_text ascii_only ndoc stext (ids_of ndoc) [8; 5; 3; 5; 1; 11] (lit "div + p, .a, i ~ *") = Ok ([5; 5; 8; 11], []) /\
  filter_text ascii_only ndoc stext (ids_of ndoc) [8; 5; 3; 5; 1; 11] (lit "div,, p") = Ok ([], [0]) /\ ~ In 91%N (lit "div + p, .a, i ~ *") /\ ~ In 40%N (lit "div + p, .a, i ~ *").
Proof.
  split; [vm_compute; reflexivity|]. split.
  - apply (sel_check_sound ndoc 0 stext [[[(RNthChild true (Some 2%Z, 1%Z), ChildrenAll)]]] (proj1 ndoc_ok) ltac:(vm_compute; reflexivity) _ (or_introl eq_refl) _ (or_introl eq_refl) _ _ (or_introl eq_refl)).
  - split; [vm_compute; reflexivity|]. split; [vm_compute; reflexivity|]. split; vm_compute; intros H; repeat destruct H as [H | H]; try discriminate; exact H.
Qed.

(** * Refutations *)
(** [div > p b *]: after [div > p b] the set holds one element twice, and the next search of all descendants panics; [:last-child] from an element
    without child nodes; the siblings with a text that is looked up. *)
Theorem C57_refuted :
  (exists h r text_of by_id els g, Searching h r text_of by_id els g /\ (forall rl, InAst rl [g] -> last_number rl = false) /\ find_ast h text_of by_id els [g] = Panic) /\
  (exists h r text_of by_id els g, Searching h r text_of by_id els g /\ length g = 1 /\ find_ast h text_of by_id els [g] = Panic) /\
  (exists h r text_of by_id els g, Searching h r text_of by_id els g /\ CanRun h r [g] /\ Forall (ElIn h r) els /\ step_ast h text_of by_id Siblings els (Some [g]) = Panic).
Proof.
  split; [|split].
  - exists ndoc, 0, stext, (ids_of ndoc), [1], [[(nm "div", ChildrenAll)]; [(nm "p", Children)]; [(nm "b", ChildrenAll)]; [(RAll, ChildrenAll)]].
    split; [apply searching_sound; vm_compute; reflexivity|]. split; [|vm_compute; reflexivity].
    intros rl (g & cp & c & [<- | []] & [<- | [<- | [<- | [<- | []]]]] & [E | []]); injection E as <- <-; reflexivity.
  - exists ndoc, 0, stext, (ids_of ndoc), [4], [[(RFirstChild false, ChildrenAll)]].
    split; [apply searching_sound; vm_compute; reflexivity|]. split; [reflexivity | vm_compute; reflexivity].
  - exists ndoc, 0, stext, (ids_of ndoc), [5], [[(nm "div", ChildrenAll)]; [(cl "a", ChildrenAll)]].
    split; [apply searching_sound; vm_compute; reflexivity|]. split; [|split; [exact (proj1 (elset_check_sound ndoc 0 [5] ltac:(vm_compute; reflexivity))) | vm_compute; reflexivity]].
    split; [reflexivity|]. intros g [<- | []] cp rl c [<- | [<- | []]] [E | []]; injection E as <- <-; exact I.
Qed.
Print Assumptions C57_refuted.
(** A filter may return an element that is not in the set: the set holds the first child twice, the parent has two children. *)
Theorem C57_filter_foreign_refuted : exists h r text_of by_id els gs x, DocOk h r /\ IdCache h r by_id /\ CanRun h r gs /\ Forall (ElIn h r) els /\
  filter_ast h text_of by_id els gs = Ok [x] /\ ~ In x els.
Proof.
  exists ndoc, 0, stext, (ids_of ndoc), [3; 3], [[[(RNthChild true (None, 2%Z), ChildrenAll)]]], 5. split; [exact (proj1 ndoc_ok)|]. split; [exact (proj2 ndoc_ok)|]. split; [|split; [|split]].
  - split; [reflexivity|]. intros g [<- | []] cp rl c [<- | []] [E | []]; injection E as <- <-. left. split; [reflexivity|]. unfold Readable. cbn. lia.
  - destruct (elset_check_sound ndoc 0 [3] ltac:(vm_compute; reflexivity)) as [He _]. apply Forall_inv in He. exact (Forall_cons _ He (Forall_cons _ He (Forall_nil _))).
  - vm_compute. reflexivity.
  - cbn. intuition discriminate.
Qed.
Print Assumptions C57_filter_foreign_refuted.
