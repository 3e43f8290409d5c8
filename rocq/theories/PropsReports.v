(** Property theorems: the reports of texts nested in [:not] and [:has] (C60, and C54 in full). *)
From Verif Require Import Base Attr Dom DomSpec Order OrderSpec DomProofs OrderProofs Sets SetsProofs DomBuild DomBuildProofs Mutate
  Engine Rules Regex Parse ParseSpec ParseProofs PropsParse Traverse Query SelSpec FindSpec PreProofs SelBool SibLists StepProofs SelBuild TotalSpec Total QueryProofs PropsFilter PropsRules Load PropsLoad
  Reports ReportsProofs ReportsStay HistoryProofs.

Definition in_answer (a : answer) (x : id) : Prop := match a with ASet l => In x l | ABool _ => False end.
(** The texts a query gives to the parser. *)
Definition given (s : str) : list str := match s with [] => [] | _ => [s] end.
Definition texts (q : tquery) : list str :=
  match q with
  | QFind s | QFilter s | QIs s | QIsAll s | QNot s | QHas s => [s]
  | QClosest s => given s
  | QStep Siblings s => given (trim s)
  | QStep _ s => given s
  | QUntil _ stop flt _ => stop :: given flt
  end.

(** * C60: reporting does not change the answers *)
(** A query answers (or panics, or runs for ever) as it does without the handlers. *)
Theorem C60_values h text_of by_id wide_digit els q : value (wrun h text_of by_id wide_digit els q) = value (prun h text_of by_id wide_digit els q).
Proof.
  assert (G : forall A (f : A -> answer) (a b : wres A), value a = value b -> value (answered f a) = value (answered f b)).
  { intros A f a b E. unfold answered. destruct a as [[a ra]| |], b as [[b rb]| |]; cbn in *; try discriminate; [injection E as ->|..]; reflexivity. }
  destruct q; cbn [wrun prun]; apply G.
  - apply v_parsed. intros gs. apply v_find_ast.
  - apply v_trigger. intros gs. apply v_filter_ast.
  - apply v_trigger. intros gs. apply v_is_ast.
  - apply v_trigger. intros gs. apply v_is_all_ast.
  - apply v_trigger. intros gs. apply v_not_ast.
  - apply v_trigger. intros gs. apply v_has_ast.
  - unfold wclosest_text, closest_text. destruct s; [reflexivity|]. apply v_parsed. intros gs. apply v_closest_ast.
  - apply v_step_text.
  - apply v_until_text.
Qed.
Print Assumptions C60_values.

(** * A search stays where it is *)
Section Stays.
  Variable h : heap.
  Variable P Q : id -> Prop.
  Hypothesis down : forall x y, P x -> In y (children h x) -> P y.
  Hypothesis up : forall x p, P x -> parent h x = Some p -> P p.
  Variable text_of : id -> str.
  Variable by_id : id -> str -> option id.
  Hypothesis ids : forall x d n e, P x -> owner_document h x = Some d -> by_id d n = Some e -> P e.
  Variable wide_digit : char -> bool.
  Definition says_nothing (t : str) : Prop := exists gs, from_str wide_digit t = Ok (Some gs) /\ forall rl, InAst rl gs -> ~ Bad rl.
  Lemma run_stays els q : Forall P els -> (forall x, P x -> Forall Q (halt h x)) \/ (forall t, In t (texts q) -> says_nothing t) ->
    forall a rep, wrun h text_of by_id wide_digit els q = Ok (a, rep) -> (forall x, in_answer a x -> P x) /\ Forall Q rep.
  Proof.
    intros He H.
    assert (R : forall t, In t (texts q) -> from_str wide_digit t = Ok None -> forall x, P x -> Forall Q (halt h x)).
    { intros t Ht Et x Hx. destruct H as [H|H]; [exact (H x Hx)|]. destruct (H t Ht) as (gs & E & _). congruence. }
    assert (C : forall t, In t (texts q) -> forall gs rl, from_str wide_digit t = Ok (Some gs) -> InAst rl gs -> Bad rl -> forall x, P x -> Forall Q (halt h x)).
    { intros t Ht gs rl Et Hi Hb x Hx. destruct H as [H|H]; [exact (H x Hx)|]. destruct (H t Ht) as (gs' & E & Hn). rewrite Et in E. injection E as <-. destruct (Hn rl Hi Hb). }
    assert (V : forall t, (t <> [] -> In t (texts q)) -> t = [] \/ ((from_str wide_digit t = Ok None -> forall x, P x -> Forall Q (halt h x)) /\
                (forall gs rl, from_str wide_digit t = Ok (Some gs) -> InAst rl gs -> Bad rl -> forall x, P x -> Forall Q (halt h x)))).
    { intros t Ht. destruct t as [|c t]; [left; reflexivity|]. right. specialize (Ht ltac:(discriminate)). split; [exact (R _ Ht) | exact (C _ Ht)]. }
    assert (L : forall e, WPost Q (Forall P) e -> forall a rep, answered ASet e = Ok (a, rep) -> (forall x, in_answer a x -> P x) /\ Forall Q rep).
    { intros e We a rep E. apply rbind_ok in E as ([l r] & El & E). injection E as <- <-. destruct (We l r El) as [Hl Hr]. split; [|exact Hr]. rewrite Forall_forall in Hl. exact Hl. }
    assert (B : forall e : wres bool, WPost Q (fun _ => True) e -> forall a rep, answered ABool e = Ok (a, rep) -> (forall x, in_answer a x -> P x) /\ Forall Q rep).
    { intros e We a rep E. apply rbind_ok in E as ([l r] & El & E). injection E as <- <-. destruct (We l r El) as [_ Hr]. split; [intros x [] | exact Hr]. }
    destruct q as [s|s|s|s|s|s|s|c s|c stop flt contains]; cbn [wrun]; first [apply L | apply B].
    - apply find_text_P; auto; [apply R | apply C]; left; reflexivity.
    - apply filter_text_P; auto; [apply R | apply C]; left; reflexivity.
    - apply (is_text_P h P Q down up text_of by_id ids wide_digit els He); [apply R | apply C]; left; reflexivity.
    - apply (is_all_text_P h P Q down up text_of by_id ids wide_digit els He); [apply R | apply C]; left; reflexivity.
    - apply not_text_P; auto; [apply R | apply C]; left; reflexivity.
    - apply has_text_P; auto; [apply R | apply C]; left; reflexivity.
    - apply closest_text_P; auto. apply V. cbn [texts]. destruct s; [congruence | left; reflexivity].
    - apply step_text_P; auto. cbv zeta. apply V. cbn [texts]. unfold given. destruct c; intros Hn; first [destruct (trim s); [congruence | left; reflexivity] | destruct s; [congruence | left; reflexivity]].
    - apply until_text_P; auto; [apply R; left; reflexivity | apply C; left; reflexivity|]. apply V. cbn [texts]. destruct flt; [congruence | right; left; reflexivity].
  Qed.
End Stays.

Lemma children_intree h r x y : InTree h r x -> In y (children h x) -> InTree h r y.
Proof.
  intros [Hr (l & Hl)] Hy. unfold children in Hy. apply filter_In in Hy as [Hy _]. apply In_nth_error in Hy as (i & Hi). split; [exact Hr|]. exists (l ++ [i]). exact (Path_down h r l x i y Hl Hi).
Qed.

(** * C60: who is told *)
(** Whatever the text, nested to any depth: every report of a query goes to the document the set is from, and every element of the
    answer is of this document. *)
Theorem C60_own_document h r text_of by_id wide_digit els q a rep : DocOk h r -> IdInside h r by_id ->
  Forall (fun x => InTree h r x /\ Container h x) els -> wrun h text_of by_id wide_digit els q = Ok (a, rep) ->
  (forall x, in_answer a x -> InTree h r x /\ Container h x) /\ Forall (eq r) rep.
Proof.
  intros D IC He E. refine (run_stays h (fun x => InTree h r x /\ Container h x) (eq r) _ _ text_of by_id _ wide_digit els q He (or_introl _) a rep E).
  - intros x y [Hx _] Hy. split; [exact (children_intree h r x y Hx Hy)|]. left. unfold children in Hy. apply filter_In in Hy. exact (proj2 Hy).
  - intros x p [Hx _] Hp. split; [exact (proj1 (intree_parent h (do_wf h r D) r x p Hx Hp)) | exact (proj2 (wf_parent h (do_wf h r D) x p Hp))].
  - intros x d n e [Hx Hc] Ed Ee. rewrite (do_owner h r D x Hx Hc) in Ed. injection Ed as <-. destruct (IC n e Ee) as [H1 H2]. split; [exact H1 | left; exact H2].
  - intros x Hx. rewrite (halt_doc h r D x Hx). constructor; [reflexivity | constructor].
Qed.
Print Assumptions C60_own_document.

Lemma tell_many s r : forall n, let s' := fold_left trigger_error (repeat r n) s in
  s_heap s' = s_heap s /\ s_onerror s' = s_onerror s /\ s_log s' = s_log s ++ match s_onerror s r with Some k => repeat (k, CallReport) n | None => [] end.
Proof.
  intros n. revert s. induction n as [|n IH]; intros s; cbn [repeat fold_left].
  - repeat split. destruct (s_onerror s r); symmetry; apply app_nil_r.
  - destruct (IH (trigger_error s r)) as (H1 & H2 & H3). cbv zeta. rewrite H1, H2, H3. unfold trigger_error. destruct (s_onerror s r) as [k|] eqn:Ek; cbn [s_heap s_onerror s_log].
    + repeat split. rewrite Ek, <- app_assoc. reflexivity.
    + repeat split. rewrite Ek. reflexivity.
Qed.
Lemma all_eq_repeat (r : id) l : Forall (eq r) l -> l = repeat r (length l).
Proof. intros H. induction H as [|x l Hx Hl IH]; [reflexivity|]. subst x. cbn. f_equal. exact IH. Qed.
(** In a session with any number of documents and handlers: a query calls the handler of the document its set is from, some number of
    times, if there is one; no other handler is called, and no node and no handler changes. *)
Theorem C60_session s r text_of by_id wide_digit els q a s' : DocOk (s_heap s) r -> IdInside (s_heap s) r by_id ->
  Forall (fun x => InTree (s_heap s) r x /\ Container (s_heap s) x) els -> ask s (fun h => wrun h text_of by_id wide_digit els q) = Ok (a, s') ->
  s_heap s' = s_heap s /\ s_onerror s' = s_onerror s /\
  exists n, s_log s' = s_log s ++ match s_onerror s r with Some k => repeat (k, CallReport) n | None => [] end.
Proof.
  intros D IC He E. unfold ask in E. apply rbind_ok in E as ([b rep] & Er & E). cbn [fst snd] in E. injection E as <- <-.
  destruct (C60_own_document _ r _ _ _ _ _ _ _ D IC He Er) as [_ H]. rewrite (all_eq_repeat r rep H). destruct (tell_many s r (length rep)) as (H1 & H2 & H3). repeat split; [exact H1 | exact H2 | exists (length rep); exact H3].
Qed.
Print Assumptions C60_session.

(** * C60: texts that are selectors throughout are not reported *)
Section NoBad.
  Variable Inner : ast -> str -> Prop.
  Hypothesis inner_good : forall gs t, Inner gs t -> forall rl, InAst rl gs -> ~ Bad rl.
  Notation Fine cp := (forall (rl : rule) (c : comb), In (rl, c) cp -> ~ Bad rl).
  Lemma bad_sub rl : Bad rl -> rl = RNot NErr \/ rl = RHas NErr \/ exists rl', InAst rl' (rule_sub rl) /\ Bad rl'.
  Proof. intros H. inversion H; subst; [left; reflexivity | right; left; reflexivity | right; right; eexists; split; eassumption]. Qed.
  Lemma flat_good gs : (forall rl, InAst rl gs -> rule_sub rl = [] /\ rl <> RNot NErr /\ rl <> RHas NErr) -> ~ Bad (RAlias gs).
  Proof.
    intros H Hb. apply bad_sub in Hb as [E | [E | (rl & Hi & Hb)]]; [discriminate | discriminate|]. destruct (H rl Hi) as (E & N1 & N2). apply bad_sub in Hb as [-> | [-> | (rl' & Hi' & _)]]; [congruence | congruence|].
    rewrite E in Hi'. destruct Hi' as (g & cp & c & [] & _).
  Qed.
  Lemma rtext_good rl t : RText Inner rl t -> ~ Bad rl.
  Proof.
    intros H. assert (F : forall rl0, rule_sub rl0 = [] -> rl0 <> RNot NErr -> rl0 <> RHas NErr -> ~ Bad rl0).
    { intros rl0 E N1 N2 Hb. apply bad_sub in Hb as [E' | [E' | (rl' & (g & cp & c & Hg & _) & _)]]; [congruence | congruence|]. rewrite E in Hg. destruct Hg. }
    assert (A : forall gs, forallb (fun g => forallb (fun cp => forallb (fun e : rule * comb => match fst e with RName _ | RAttr _ _ => true | _ => false end) cp) g) gs = true -> ~ Bad (RAlias gs)).
    { intros gs Hg. apply flat_good. intros rl0 (g & cp & c & H1 & H2 & H3). rewrite forallb_forall in Hg. pose proof (Hg g H1) as G1. rewrite forallb_forall in G1. pose proof (G1 cp H2) as G2.
      rewrite forallb_forall in G2. pose proof (G2 (rl0, c) H3) as G3. cbn in G3. destruct rl0; try discriminate; repeat split; discriminate. }
    destruct H as [|n t Hn|n t Hn|n t Hn|w1 k w2 a t w3| r t Hin|mk name w1 a b t w2 Hn| w1 q v w2|w1 v w2|mk name w1 gs t w2 Hn _ Hi _]; try (apply F; discriminate || reflexivity).
    - cbn in Hin. repeat (destruct Hin as [E|Hin]; [injection E as <- <-; first [apply F; discriminate || reflexivity | apply A; reflexivity]|]). destruct Hin.
    - destruct Hn; apply F; discriminate || reflexivity.
    - intros Hb. apply bad_sub in Hb as [E | [E | (rl' & Hi' & Hb)]]; [destruct Hn; discriminate | destruct Hn; discriminate|].
      assert (E : rule_sub (mk (NSel gs)) = gs) by (destruct Hn; reflexivity). rewrite E in Hi'. exact (inner_good gs t Hi rl' Hi' Hb).
  Qed.
  Lemma chained_good rs u : Chained Inner rs u -> Fine rs.
  Proof. intros H. induction H as [|r t rs u H1 _ _ IH]; intros rl c Hi; [destruct Hi|]. destruct Hi as [E|Hi]; [injection E as <- <-; exact (rtext_good r t H1) | exact (IH rl c Hi)]. Qed.
  Lemma compound_good c cp t : Compound Inner c cp t -> Fine cp.
  Proof. intros [r t' rs u H1 H2] rl c' [E|Hi]; [injection E as <- _; exact (rtext_good r t' H1) | exact (chained_good rs u H2 rl c' Hi)]. Qed.
  Lemma group_good c g t : Group Inner c g t -> forall cp, In cp g -> Fine cp.
  Proof.
    intros [cp t' g' u H1 H2] cp' [<-|Hi]; [exact (compound_good c cp t' H1)|]. clear H1. induction H2 as [|c' w cp2 t2 g2 u2 _ H2 _ IH]; [destruct Hi|]. destruct Hi as [<-|Hi]; [exact (compound_good c' cp2 t2 H2) | exact (IH Hi)].
  Qed.
  Lemma body_good c gs t : Body Inner c gs t -> forall rl, InAst rl gs -> ~ Bad rl.
  Proof.
    intros [g t' gs' u H1 H2] rl (g' & cp & c' & [<-|Hg] & Hc & Hr); [exact (group_good c g t' H1 cp Hc rl c' Hr)|]. clear H1. induction H2 as [|w g2 t2 gs2 u2 _ H2 _ IH]; [destruct Hg|].
    destruct Hg as [<-|Hg]; [exact (group_good _ g2 t2 H2 cp Hc rl c' Hr) | exact (IH Hg)].
  Qed.
End NoBad.
Lemma inner_good n : forall gs t, inner n gs t -> forall rl, InAst rl gs -> ~ Bad rl.
Proof.
  induction n as [|n IH]; intros gs t H; [destruct H|]. destruct H as [gs t Hb _ | c s w gs t _ _ Hb _]; exact (body_good (inner n) IH _ gs t Hb).
Qed.
Lemma reads_good n gs t : Reads n gs t -> forall rl, InAst rl gs -> ~ Bad rl.
Proof. intros [c l gs' t' w _ Hb _]. exact (body_good (inner n) (inner_good n) c gs' t' Hb). Qed.
(** A query with texts of the grammar, nested to any depth, reports nothing: on every heap, well formed or not. *)
Theorem C60_quiet h text_of by_id wide_digit els q a rep : (forall t, In t (texts q) -> exists n gs, Reads n gs t) ->
  wrun h text_of by_id wide_digit els q = Ok (a, rep) -> rep = [].
Proof.
  intros Hq E. assert (N : Forall (fun _ => False) rep).
  { refine (proj2 (run_stays h (fun _ => True) (fun _ => False) _ _ text_of by_id _ wide_digit els q _ (or_intror _) a rep E)); try (intros; exact I).
    - apply Forall_forall. intros x _. exact I.
    - intros t Ht. destruct (Hq t Ht) as (n & gs & HR). exists gs. split; [exact (from_str_reads wide_digit n gs t HR) | exact (reads_good n gs t HR)]. }
  destruct N as [|x l F _]; [reflexivity | destruct F].
Qed.
Print Assumptions C60_quiet.

(** * C60: how often *)
(** A text that is one [:not] or [:has] around a text that is no selector, on a set that is not empty: exactly one report, as for a text
    that is itself no selector (C54_reports); the answers are those of a selector that nothing meets. *)
Theorem C60_filters_once h r text_of by_id wide_digit els s rl c : DocOk h r -> Forall (fun x => InTree h r x /\ Container h x) els -> els <> [] ->
  from_str wide_digit s = Ok (Some [[[(rl, c)]]]) -> rl = RNot NErr \/ rl = RHas NErr ->
  wrun h text_of by_id wide_digit els (QFilter s) = Ok (ASet [], [r]) /\ wrun h text_of by_id wide_digit els (QIs s) = Ok (ABool false, [r]) /\
  wrun h text_of by_id wide_digit els (QIsAll s) = Ok (ABool false, [r]) /\ wrun h text_of by_id wide_digit els (QNot s) = Ok (ASet els, [r]).
Proof.
  intros D He Hn Es Hr. destruct els as [|x els]; [congruence|]. inversion He as [|? ? Hx _]; subst. pose proof (halt_doc h r D x Hx) as Eh.
  destruct Hr as [-> | ->]; cbn [wrun]; unfold wfilter_text, wis_text, wis_all_text, wnot_text, wtrigger_method, wparsed_or; rewrite !Es; cbn; rewrite ?Eh; repeat split.
Qed.
Print Assumptions C60_filters_once.

Lemma sdoc_good : DocOk sdoc 0 /\ IdInside sdoc 0 (ids_of sdoc) /\ Forall (fun x => InTree sdoc 0 x /\ Container sdoc x) [1; 2; 4] /\ Forall (fun x => InTree sdoc 0 x /\ Container sdoc x) [0].
Proof.
  assert (D : DocOk sdoc 0) by (apply docok_check_sound; vm_compute; reflexivity). split; [exact D|]. split; [|split].
  - apply cache_inside. apply ids_check_sound; [exact D | vm_compute; reflexivity].
  - assert (H : Forall (ElIn sdoc 0) [1; 2; 4]) by (apply els_check_sound; vm_compute; reflexivity). eapply Forall_impl; [|exact H]. intros x [H1 H2]. split; [exact H1 | left; exact H2].
  - constructor; [|constructor]. split; [apply (intree_check_sound _ _ 20); vm_compute; reflexivity | right; reflexivity].
Qed.
Notation sask els q := (wrun sdoc stext (ids_of sdoc) ascii_only els q).
Example C60_ex : (DocOk sdoc 0 /\ IdInside sdoc 0 (ids_of sdoc) /\ Forall (fun x => InTree sdoc 0 x /\ Container sdoc x) [1; 2; 4] /\ Forall (fun x => InTree sdoc 0 x /\ Container sdoc x) [0]) /\
  from_str ascii_only (lit ":not(>)") = Ok (Some [[[(RNot NErr, ChildrenAll)]]]) /\ from_str ascii_only (lit ":has( , )") = Ok (Some [[[(RHas NErr, ChildrenAll)]]]) /\
  sask [1; 2; 4] (QFilter (lit ":not(>)")) = Ok (ASet [], [0]) /\ sask [1; 2; 4] (QNot (lit ":has( , )")) = Ok (ASet [1; 2; 4], [0]) /\
  sask [1; 2; 4] (QFilter (lit "p:not(,), div:has(,)")) = Ok (ASet [], [0; 0]) /\ sask [0] (QFind (lit "p:not(:has(>))")) = Ok (ASet [2; 5], [0]) /\
  sask [1; 2; 4] (QStep ParentAll (lit "div:not(,)")) = Ok (ASet [], [0]).
Proof. split; [exact sdoc_good | repeat split; vm_compute; reflexivity]. Qed.
(** Texts of the grammar with nested ones, answered without a report. *)
Example C60_quiet_ex : let t := lit " ul >li.a, p:not( .b)" in (exists n gs, Reads n gs t) /\ texts (QUntil Next t [] true) = [t] /\
  sask [1; 2; 4] (QNot t) = Ok (ASet [1; 2; 4], []) /\ sask [0] (QFind t) = Ok (ASet [], []) /\ sask [2] (QUntil Next t [] true) = Ok (ASet [4; 10], []) /\
  texts (QStep ParentAll []) = [] /\ sask [7] (QStep ParentAll []) = Ok (ASet [1; 4; 5], []).
Proof. cbv zeta. split; [eexists 1, _; exact C35_ex1 | repeat split; vm_compute; reflexivity]. Qed.
(** A session with two documents and their handlers 7 and 8: the queries of the second document call 8 only. *)
Definition nested_session : list act :=
  [ALoadCatch (lit "page") 7; ALoadCatch (lit "<i>x</i>y") 8; AAsk (fun h => wfind_text h stext (ids_of h) ascii_only [0] (lit "p:not(>)"));
   AAsk (fun h => wfilter_text h stext (ids_of h) ascii_only [7] (lit "i:has(,)"))].
Example C60_session_ex : exists s', run_acts toy_doc no_session nested_session = Ok s' /\ s_log s' = [(7, CallReport); (8, CallReport)].
Proof. eexists. split; vm_compute; reflexivity. Qed.

(** It is not once per query: a search may report a nested text several times — here once for every element with children, as the rule is
    applied to the children of each — or not at all, if no element is left the rule could be applied to. *)
Theorem C60_once_refuted :
  (exists h r text_of by_id els q, DocOk h r /\ IdInside h r by_id /\ Forall (fun x => InTree h r x /\ Container h x) els /\ els <> [] /\
     from_str ascii_only q = Ok (Some [[[(RNot NErr, ChildrenAll)]]]) /\ wrun h text_of by_id ascii_only els (QFind q) = Ok (ASet [], [r; r; r; r])) /\
  (exists h r text_of by_id els q gs rl, DocOk h r /\ IdInside h r by_id /\ Forall (fun x => InTree h r x /\ Container h x) els /\ els <> [] /\
     from_str ascii_only q = Ok (Some gs) /\ InAst rl gs /\ Bad rl /\ wrun h text_of by_id ascii_only els (QFind q) = Ok (ASet [], [])).
Proof.
  destruct sdoc_good as (D & I & _ & H0). split.
  - exists sdoc, 0, stext, (ids_of sdoc), [0], (lit ":not(>)"). split; [exact D|]. split; [exact I|]. split; [exact H0|]. split; [discriminate|]. split; vm_compute; reflexivity.
  - exists sdoc, 0, stext, (ids_of sdoc), [0], (lit "zz:not(>)"), [[[(RName (lit "zz"), ChildrenAll); (RNot NErr, Chain)]]], (RNot NErr).
    split; [exact D|]. split; [exact I|]. split; [exact H0|]. split; [discriminate|]. split; [vm_compute; reflexivity|]. split; [|split; [constructor | vm_compute; reflexivity]].
    eexists _, _, Chain. split; [left; reflexivity|]. split; [left; reflexivity | right; left; reflexivity].
Qed.
Print Assumptions C60_once_refuted.

(** * C11: a selector on which [has] is wrong *)
(** [has("[zz='']")] keeps an element although nothing below it has the attribute at all. *)
Theorem C11_has_refuted : exists h r text_of by_id x k gs, DocOk h r /\ ElIn h r x /\ (forall y, ~ AttrHolds h k (Some (MEq, [])) y) /\
  from_str ascii_only (lit "[" ++ k ++ lit "='']") = Ok (Some gs) /\ gs = [[[(RAttr k (Some (MEq, [])), ChildrenAll)]]] /\ has_ast h text_of by_id [x] gs = Ok [x].
Proof.
  destruct sdoc_good as (D & _). exists sdoc, 0, stext, (ids_of sdoc), 4, (lit "zz"), [[[(RAttr (lit "zz") (Some (MEq, [])), ChildrenAll)]]]. split; [exact D|].
  split; [assert (H : Forall (ElIn sdoc 0) [4]) by (apply els_check_sound; vm_compute; reflexivity); inversion H; assumption|].
  split; [|repeat split; vm_compute; reflexivity]. intros y (v & (a & Ea & Es) & H). assert (N : a = None).
  { do 12 (destruct y as [|y]; [vm_compute in Ea; first [discriminate | injection Ea as <-; reflexivity]|]). unfold node_attribute in Ea. rewrite node_beyond in Ea by (cbn; lia). cbn in Ea. first [discriminate | injection Ea as <-; reflexivity]. }
  subst a v. discriminate H.
Qed.
Print Assumptions C11_has_refuted.
