(** Property theorems: loading documents and their error handlers (C54). *)
From Verif Require Import Base Utils UtilsSpec UtilsProofs Nth NthSpec Attr AttrSpec AttrProofs ClassOps ClassSpec ClassProofs Dom DomSpec Order OrderSpec DomProofs OrderProofs
  Sets SetsProofs AddProofs DomBuild DomBuildProofs Mutate MutateSpec MutateProofs InsertProofs HistoryProofs NavProofs Engine Rules Regex RegexProofs Parse PatProofs NthText TokenProofs ParseSpec ParseProofs ParseTotal ParsePanic PropsParse Traverse SelSpec FindSpec TravSpec
  OneProofs PreProofs SelBool SibLists SibProofs StepProofs BackProofs FilterProofs RuleProofs SelBuild FindProofs FindRules SelectProofs FindBuild TravProofs
  PropsFilter PropsFind PropsTrav Query QueryProofs PropsQuery PropsSets PropsMutate PropsAttr Html HtmlSpec HtmlProofs Live LiveSpec LiveProofs PropsLive Load LoadSpec LoadProofs.

(** * C54: loading *)
(** [load] gives a set with the root of a new document, or the error, as the parser does; no handler is called or bound,
    and nothing else changes. *)
Theorem C54_load parse s html : WF (s_heap s) -> GoodParse parse html ->
  match parse html with
  | None => load parse s html = None
  | Some (d, cs) => exists s' r, load parse s html = Some (s', [r]) /\ Added (s_heap s) (s_heap s') r d (trees_of cs) /\
      s_onerror s' r = None /\ (forall d0, d0 <> r -> s_onerror s' d0 = s_onerror s d0) /\ s_log s' = s_log s
  end.
Proof.
  intros wf HG. unfold load, parse_doc. destruct (parse html) as [[d cs]|] eqn:E; [|reflexivity]. destruct (HG d cs E) as [H1 H2].
  eexists _, (length (s_heap s)). split; [reflexivity|]. cbn [s_heap s_onerror s_log]. split; [exact (doc_added (s_heap s) d cs None None wf H1 H2)|].
  split; [rewrite Nat.eqb_refl; reflexivity|]. split; [|reflexivity]. intros d0 Hd. apply Nat.eqb_neq in Hd. rewrite Hd. reflexivity.
Qed.
Print Assumptions C54_load.
(** [load_catch] always gives a set.  The handler is called, once, exactly if the parser fails; the set is empty then and
    nothing else changes.  Otherwise it becomes the handler of the new document. *)
Theorem C54_load_catch parse s html k : WF (s_heap s) -> GoodParse parse html ->
  match parse html with
  | None => exists s', load_catch parse s html k = (s', []) /\ s_heap s' = s_heap s /\ s_onerror s' = s_onerror s /\ s_log s' = s_log s ++ [(k, ParseReport)]
  | Some (d, cs) => exists s' r, load_catch parse s html k = (s', [r]) /\ Added (s_heap s) (s_heap s') r d (trees_of cs) /\
      s_onerror s' r = Some k /\ (forall d0, d0 <> r -> s_onerror s' d0 = s_onerror s d0) /\ s_log s' = s_log s
  end.
Proof.
  intros wf HG. unfold load_catch, parse_doc, bind_error. destruct (parse html) as [[d cs]|] eqn:E.
  - destruct (HG d cs E) as [H1 H2]. eexists _, (length (s_heap s)). split; [reflexivity|]. cbn [s_heap s_onerror s_log].
    split; [exact (doc_added (s_heap s) d cs None None wf H1 H2)|]. split; [rewrite Nat.eqb_refl; reflexivity|]. split; [|reflexivity]. intros d0 Hd. apply Nat.eqb_neq in Hd. rewrite Hd. reflexivity.
  - eexists. repeat split.
Qed.
Print Assumptions C54_load_catch.

(** A parser for the examples, and what it gives. *)
Definition page_trees : list ptree :=
  [PT NTag (Some (mk_meta (lit "div") [(lit "id", Some (lit "m"))])) None
     (Some [PT NTag (Some (mk_meta (lit "p") [])) None (Some [PT NText None (Some (lit "x")) None]); PT NText None (Some (lit "y")) None; PT NTag (Some (mk_meta (lit "p") [])) None None])].
Definition toy_doc : doc_parser := fun s =>
  if str_eqb s (lit "<i>x</i>y") then Some (false, Some toy_trees)
  else if str_eqb s (lit "page") then Some (true, Some page_trees)
  else if str_eqb s [] then Some (false, None)
  else None.
Definition no_session : session := mkSession [] (fun _ => None) [].
Lemma no_library : Library [] [].
Proof. split; [apply wf_check_sound; vm_compute; reflexivity|]. split; [constructor|]. split; [constructor|]. intros x Hx. inversion Hx. Qed.
Lemma toy_good html : GoodParse toy_doc html.
Proof.
  intros d cs E. unfold toy_doc in E.
  destruct (str_eqb html (lit "<i>x</i>y")); [injection E as <- <-|destruct (str_eqb html (lit "page")); [injection E as <- <-|destruct (str_eqb html []); [injection E as <- <-|discriminate]]].
  - split; [exact toy_parsed|]. cbn [trees_of]. unfold toy_trees. repeat (constructor; try discriminate); intros _; eexists; (split; [reflexivity | apply meta_check_sound; vm_compute; reflexivity]).
  - split; [repeat constructor; discriminate|]. cbn [trees_of]. unfold page_trees. repeat (constructor; try discriminate); intros _; eexists; (split; [reflexivity | apply meta_check_sound; vm_compute; reflexivity]).
  - split; constructor.
Qed.
Example C54_load_ex : Library (s_heap no_session) [] /\ GoodParse toy_doc (lit "page") /\
  (exists s', load toy_doc no_session (lit "page") = Some (s', [0]) /\ length (s_heap s') = 6 /\ kids (s_heap s') 1 = [2; 4; 5] /\ kids (s_heap s') 0 = [1] /\ owner_document (s_heap s') 3 = Some 0) /\
  load toy_doc no_session (lit "?") = None /\
  (exists s', load_catch toy_doc no_session (lit "?") 7 = (s', []) /\ s_log s' = [(7, ParseReport)]) /\
  (exists s', load_catch toy_doc no_session (lit "") 7 = (s', [0]) /\ s_onerror s' 0 = Some 7 /\ kids (s_heap s') 0 = []).
Proof.
  split; [exact no_library|]. split; [apply toy_good|]. split; [eexists; split; [vm_compute; reflexivity | repeat split]|]. split; [reflexivity|].
  split; eexists; (split; [vm_compute; reflexivity | repeat split]).
Qed.

(** * C54: the nodes of the documents *)
(** A node of the new document is below its root and below no other; a document loaded into an empty heap owns every node,
    so that the theorems on modified documents (C46) speak of it. *)
Theorem C54_separate h l r1 r2 x : Library h l -> In r1 l -> In r2 l -> InTree h r1 x -> InTree h r2 x -> r1 = r2.
Proof. intros (W & _) _ _ H1 H2. exact (intree_owner h r1 r2 x W H1 H2). Qed.
Print Assumptions C54_separate.
Lemma added_onedoc h' r d ts : Added [] h' r d ts -> OneDoc h' r.
Proof.
  intros [A1 A2 A3 [D1 D2 D3 D4] A5 A6 A7 A8].
  assert (In_ : forall x, Container h' x -> InTree h' r x).
  { intros x Hc. apply A5. split; [apply Nat.le_0_l|]. destruct (lt_dec x (length h')) as [Hl | Hl]; [exact Hl|]. unfold Container, is_element, is_root, ntype_of in Hc. rewrite node_beyond in Hc by lia. destruct Hc; discriminate. }
  split; [exact D1 | exact D2 | | |].
  - apply D3; [apply In_|]; right; exact D2.
  - intros x He. apply D3; [apply In_|]; left; exact He.
  - intros x He. apply D4; [apply In_; left; exact He | exact He].
Qed.
(** From the markup to the answers: load a text, modify the document, ask.
    Full claim: any calls and any selector.  Missing: as for C46_queries_partial and, of the parser, [GoodParse]. *)
Theorem C54_from_markup_partial o oa parse dparse html s els calls h' : GoodParse dparse html -> load dparse no_session html = Some (s, els) ->
  CallsOk o oa parse (s_heap s) calls -> Forall no_html calls -> run_calls o oa parse (s_heap s) calls = Ok h' ->
  exists r, els = [r] /\ OneDoc (s_heap s) r /\ DocOk h' r /\
    (exists d cs, dparse html = Some (d, cs) /\ CopiesOf (s_heap s) (kids (s_heap s) r) (trees_of cs)) /\
    forall wide_digit text_of by_id n gs q set, IdCache h' r by_id -> SelOk h' r text_of gs -> Reads n gs q -> Forall (ElIn h' r) set -> Ordered h' set ->
      exists b, Query.is_text wide_digit h' text_of by_id set q = Ok (b, []) /\ (b = true <-> exists x, In x set /\ meets_rooted h' text_of gs x).
Proof.
  intros HG E Hc Hn Er. pose proof (C54_load dparse no_session html (proj1 no_library) HG) as H. destruct (dparse html) as [[d cs]|] eqn:Ep; [|congruence].
  destruct H as (s' & r & E' & A & _). rewrite E in E'. injection E' as <- ->. exists r. split; [reflexivity|]. pose proof (added_onedoc _ _ _ _ A) as OD. split; [exact OD|].
  destruct (C46_queries_partial o oa parse (s_heap s) r calls h' OD Hc Hn Er) as [D' Q]. split; [exact D'|]. split; [exists d, cs; split; [reflexivity | exact (ad_copy _ _ _ _ _ A)]|].
  intros wide_digit text_of by_id n gs q set IC Hok HR He Ho. exact (proj1 (Q wide_digit text_of by_id n gs q set IC Hok HR He Ho)).
Qed.
Print Assumptions C54_from_markup_partial.

(** * C54: reports *)
Lemma ask_report {A} s (q : heap -> res (A * list id)) (v : A) r : q (s_heap s) = Ok (v, [r]) ->
  exists s', ask s q = Ok (v, s') /\ s_heap s' = s_heap s /\ s_onerror s' = s_onerror s /\
    s_log s' = s_log s ++ match s_onerror s r with Some k => [(k, CallReport)] | None => [] end.
Proof.
  intros E. unfold ask. rewrite E. cbn [rbind fst snd fold_left]. eexists. split; [reflexivity|]. unfold trigger_error.
  destruct (s_onerror s r) as [k|]; cbn [s_heap s_onerror s_log]; repeat split. symmetry. apply app_nil_r.
Qed.
Lemma ask_quiet {A} s (q : heap -> res (A * list id)) (v : A) : q (s_heap s) = Ok (v, []) -> ask s q = Ok (v, s).
Proof. intros E. unfold ask. rewrite E. reflexivity. Qed.
(** A query with a text that is no selector, on a set of one of the documents: the handler of this document is called,
    once, if there is one; no other handler is, no node changes, and the answer is empty. *)
Definition Reported {A} (s : session) (r : id) (v : A) (q : heap -> res (A * list id)) : Prop :=
  exists s', ask s q = Ok (v, s') /\ s_heap s' = s_heap s /\ s_onerror s' = s_onerror s /\
    s_log s' = s_log s ++ match s_onerror s r with Some k => [(k, CallReport)] | None => [] end.
Theorem C54_reports wide_digit s r text_of by_id els q : DocOk (s_heap s) r -> Forall (fun x => InTree (s_heap s) r x /\ Container (s_heap s) x) els -> els <> [] ->
  from_str wide_digit q = Ok None ->
  Reported s r [] (fun h => find_text wide_digit h text_of by_id els q) /\ Reported s r [] (fun h => filter_text wide_digit h text_of by_id els q) /\
  Reported s r [] (fun h => not_text wide_digit h text_of by_id els q) /\ Reported s r [] (fun h => has_text wide_digit h text_of by_id els q) /\
  Reported s r false (fun h => Query.is_text wide_digit h text_of by_id els q) /\ Reported s r false (fun h => is_all_text wide_digit h text_of by_id els q) /\
  Reported s r [] (fun h => closest_text wide_digit h text_of by_id els q) /\
  (forall c, step_comb c = true -> c <> Siblings -> Reported s r [] (fun h => step_text wide_digit h text_of by_id c els q)) /\
  (forall c flt contains, unit_comb c = true -> Reported s r [] (fun h => until_text wide_digit h text_of by_id c els q flt contains)).
Proof.
  intros D He Hn Hq. destruct (C39_bad_selector wide_digit (s_heap s) r text_of by_id els q D He Hn Hq) as (E1 & E2 & E3 & E4 & E5 & E6 & E7 & E8 & _ & E9 & _).
  repeat split; try (apply ask_report; assumption); [intros c H1 H2 | intros c flt contains H1]; apply ask_report; [apply E8 | apply E9]; assumption.
Qed.
Print Assumptions C54_reports.
(** A text of the grammar is not reported.  (Also not for the texts nested in [:not] and [:has], which
    visdom reports when the rule is applied: C60_quiet.) *)
Theorem C54_quiet wide_digit s text_of by_id els n gs q : Reads n gs q -> els <> [] ->
  (forall l s', ask s (fun h => find_text wide_digit h text_of by_id els q) = Ok (l, s') -> s' = s) /\
  (forall l s', ask s (fun h => filter_text wide_digit h text_of by_id els q) = Ok (l, s') -> s' = s) /\
  (forall b s', ask s (fun h => Query.is_text wide_digit h text_of by_id els q) = Ok (b, s') -> s' = s) /\
  (forall l s', ask s (fun h => has_text wide_digit h text_of by_id els q) = Ok (l, s') -> s' = s) /\
  (forall l s', ask s (fun h => closest_text wide_digit h text_of by_id els q) = Ok (l, s') -> s' = s).
Proof.
  intros HR Hn. destruct (C35_queries wide_digit (s_heap s) text_of by_id n gs q els HR Hn) as (E1 & E2 & _ & E3 & _ & E4).
  pose proof (proj1 (C35_traversals wide_digit (s_heap s) text_of by_id n gs q els HR)) as E5.
  unfold ask. rewrite E1, E2, E3, E4, E5. unfold quiet.
  split; [|split; [|split; [|split]]]; intros v s' H; [destruct (find_ast _ _ _ _ _) | destruct (filter_ast _ _ _ _ _) | destruct (is_ast _ _ _ _ _) | destruct (has_ast _ _ _ _ _) | destruct (closest_ast _ _ _ _ _)]; try discriminate; injection H as _ <-; reflexivity.
Qed.
Print Assumptions C54_quiet.

(** * C54: programs with several documents *)
Definition html_of (a : act) : option str := match a with ALoad t | ALoadCatch t _ => Some t | AAsk _ => None end.
(** After any program of loads and queries: the documents loaded so far share no node and own all of them, handlers are
    those of documents, nodes that were there are as they were, and the log has only grown. *)
Theorem C54_programs parse acts : forall s l s', Library (s_heap s) l -> (forall d k, s_onerror s d = Some k -> In d l) ->
  (forall a t, In a acts -> html_of a = Some t -> GoodParse parse t) -> run_acts parse s acts = Ok s' ->
  exists l', Library (s_heap s') (l' ++ l) /\ (forall d k, s_onerror s' d = Some k -> In d (l' ++ l)) /\
    (forall d, In d l -> s_onerror s' d = s_onerror s d) /\
    (forall x, x < length (s_heap s) -> node_of (s_heap s') x = node_of (s_heap s) x) /\ (exists t, s_log s' = s_log s ++ t).
Proof.
  induction acts as [|a acts IH]; intros s l s' HL HO HG E.
  - injection E as <-. exists []. split; [exact HL|]. split; [exact HO|]. split; [reflexivity|]. split; [reflexivity|]. exists []. symmetry. apply app_nil_r.
  - assert (HG' : forall b t, In b acts -> html_of b = Some t -> GoodParse parse t) by (intros b t Hb; apply HG; right; exact Hb).
    assert (Step : forall s1, run_acts parse s1 acts = Ok s' ->
      (s_heap s1 = s_heap s /\ s_onerror s1 = s_onerror s) \/
      (exists r d ts, Added (s_heap s) (s_heap s1) r d ts /\ forall d0, d0 <> r -> s_onerror s1 d0 = s_onerror s d0) ->
      (exists t, s_log s1 = s_log s ++ t) ->
      exists l', Library (s_heap s') (l' ++ l) /\ (forall d k, s_onerror s' d = Some k -> In d (l' ++ l)) /\
        (forall d, In d l -> s_onerror s' d = s_onerror s d) /\
        (forall x, x < length (s_heap s) -> node_of (s_heap s') x = node_of (s_heap s) x) /\ (exists t, s_log s' = s_log s ++ t)).
    { intros s1 E1 [[Eh Eo] | (r & d & ts & A & Eo)] (t & Et).
      - destruct (IH s1 l s') as (l' & H1 & H2 & H3 & H4 & t' & H5); [rewrite Eh; exact HL | rewrite Eo; exact HO | exact HG' | exact E1|].
        exists l'. rewrite Eh in H4. rewrite Eo in H3. split; [exact H1|]. split; [exact H2|]. split; [exact H3|]. split; [exact H4|]. exists (t ++ t'). rewrite H5, Et. symmetry. apply app_assoc.
      - pose proof (library_added _ _ _ _ _ l HL A) as HL1.
        destruct (IH s1 (r :: l) s') as (l' & H1 & H2 & H3 & H4 & t' & H5); [exact HL1 | | exact HG' | exact E1|].
        + intros d0 k Hk. destruct (Nat.eq_dec d0 r) as [-> | Hn]; [left; reflexivity|]. right. rewrite (Eo d0 Hn) in Hk. exact (HO d0 k Hk).
        + exists (l' ++ [r]). rewrite <- app_assoc. split; [exact H1|]. split; [exact H2|]. split; [|split].
          * intros d0 Hd. rewrite (H3 d0 (or_intror Hd)). apply Eo. intros ->. destruct HL1 as (_ & N & _). inversion N. contradiction.
          * intros x Hx. rewrite H4 by (pose proof (ad_len _ _ _ _ _ A); lia). exact (ad_old _ _ _ _ _ A x Hx).
          * exists (t ++ t'). rewrite H5, Et. symmetry. apply app_assoc. }
    pose proof (proj1 HL) as W. destruct a as [html | html k | q]; cbn [run_acts] in E.
    + pose proof (C54_load parse s html W (HG (ALoad html) html (or_introl eq_refl) eq_refl)) as H. destruct (parse html) as [[d cs]|].
      * destruct H as (s1 & r & E1 & A & _ & Ho & Hg). rewrite E1 in E. apply (Step s1 E); [right; exists r, d, (trees_of cs); split; assumption|]. exists []. rewrite Hg. symmetry. apply app_nil_r.
      * rewrite H in E. apply (Step s E); [left; split; reflexivity|]. exists []. symmetry. apply app_nil_r.
    + pose proof (C54_load_catch parse s html k W (HG (ALoadCatch html k) html (or_introl eq_refl) eq_refl)) as H. destruct (parse html) as [[d cs]|].
      * destruct H as (s1 & r & E1 & A & _ & Ho & Hg). rewrite E1 in E. apply (Step s1 E); [right; exists r, d, (trees_of cs); split; assumption|]. exists []. rewrite Hg. symmetry. apply app_nil_r.
      * destruct H as (s1 & E1 & H1 & H2 & H3). rewrite E1 in E. apply (Step s1 E); [left; split; assumption|]. eexists. exact H3.
    + unfold ask in E. destruct (q (s_heap s)) as [[v e]| |]; [|discriminate|discriminate]. cbn [rbind fst snd] in E. apply (Step _ E).
      * left. clear. revert s. induction e as [|d e IH]; intros s; [split; reflexivity|]. cbn [fold_left]. destruct (IH (trigger_error s d)) as [-> ->]. unfold trigger_error. destruct (s_onerror s d); split; reflexivity.
      * clear. revert s. induction e as [|d e IH]; intros s; [exists []; symmetry; apply app_nil_r|]. cbn [fold_left]. destruct (IH (trigger_error s d)) as (t & ->). unfold trigger_error. destruct (s_onerror s d); [|exists t; reflexivity].
        cbn [s_log]. eexists. rewrite <- app_assoc. reflexivity.
Qed.
Print Assumptions C54_programs.
(** Two documents with handlers 7 and 8 and one without: a wrong text asked of the second calls 8 only, one asked of the third calls
    nobody; a failing load calls its own handler. *)
Definition three_docs : list act :=
  [ALoadCatch (lit "page") 7; ALoadCatch (lit "<i>x</i>y") 8; ALoad (lit "page"); AAsk (fun h => find_text ascii_only h stext (ids_of h) [7] (lit "p,,p"));
   AAsk (fun h => find_text ascii_only h stext (ids_of h) [10] (lit "p,,p")); ALoadCatch (lit "?") 9; AAsk (fun h => find_text ascii_only h stext (ids_of h) [0] (lit "#m p"))].
Example C54_programs_ex : (forall a t, In a three_docs -> html_of a = Some t -> GoodParse toy_doc t) /\
  exists s', run_acts toy_doc no_session three_docs = Ok s' /\ s_log s' = [(8, CallReport); (9, ParseReport)] /\ kids (s_heap s') 10 = [11] /\
    s_onerror s' 0 = Some 7 /\ s_onerror s' 6 = Some 8 /\ s_onerror s' 10 = None /\
    ask s' (fun h => find_text ascii_only h stext (ids_of h) [0] (lit "#m p")) = Ok ([2; 5], s') /\
    from_str ascii_only (lit "p,,p") = Ok None /\ InTree (s_heap s') 6 7 /\ Container (s_heap s') 7.
Proof.
  split; [intros a t _ _; apply toy_good|]. eexists. split; [vm_compute; reflexivity|].
  do 7 (split; [vm_compute; reflexivity|]). split; [apply (intree_check_sound _ _ 20); vm_compute; reflexivity | left; reflexivity].
Qed.
Definition page_ops : list call := [KAddClass [2] (lit "c"); KTree (OInsert 1 BeforeEnd 2)].
Example C54_from_markup_ex : GoodParse toy_doc (lit "page") /\ exists s, load toy_doc no_session (lit "page") = Some (s, [0]) /\
  CallsOk ex_od ex_oracle toy (s_heap s) page_ops /\ Forall no_html page_ops /\ exists h', run_calls ex_od ex_oracle toy (s_heap s) page_ops = Ok h' /\ kids h' 1 = [4; 5; 2] /\
    Query.is_text ascii_only h' stext (ids_of h') [2; 5] (lit "p + p.c") = Ok (true, []) /\ Query.is_text ascii_only h' stext (ids_of h') [5] (lit "p + p") = Ok (false, []).
Proof.
  split; [apply toy_good|]. eexists. split; [vm_compute; reflexivity|]. split; [|split; [repeat constructor|]].
  - unfold page_ops. cbn [CallsOk CallOk]. split; [repeat constructor|]. intros h1 E1. vm_compute in E1. injection E1 as <-.
    split; [|intros h2 _; exact I]. split; [apply (placed_check _ _ 0); reflexivity|]. split; [apply (placed_check _ _ 1); reflexivity | reflexivity].
  - eexists. split; [vm_compute; reflexivity|]. repeat split; vm_compute; reflexivity.
Qed.
