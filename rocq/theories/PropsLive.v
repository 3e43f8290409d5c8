(** Property theorems: setting the markup of elements (C45), queries on a document that was modified (C46). *)
From Verif Require Import Base Utils UtilsSpec UtilsProofs Nth NthSpec Attr AttrSpec AttrProofs ClassOps ClassSpec ClassProofs Dom DomSpec Order OrderSpec DomProofs OrderProofs
  Sets SetsProofs AddProofs DomBuild DomBuildProofs Mutate MutateSpec MutateProofs InsertProofs HistoryProofs NavProofs Engine Rules Regex RegexProofs Parse PatProofs NthText TokenProofs ParseSpec ParseProofs ParseTotal ParsePanic PropsParse Traverse SelSpec FindSpec TravSpec
  OneProofs PreProofs SelBool SibLists SibProofs StepProofs BackProofs FilterProofs RuleProofs SelBuild FindProofs FindRules SelectProofs FindBuild TravProofs
  PropsFilter PropsFind PropsTrav Query QueryProofs PropsQuery PropsSets PropsMutate PropsAttr Html HtmlSpec HtmlProofs Live LiveSpec LiveProofs.

(** * C45: set_html *)
Theorem C45_set_html_element o parse h x m s ts : WF h -> is_element h x = true -> n_meta (node_of h x) = Some m ->
  od_content_tag o (m_name m) = false -> parse s = Some (Some ts) -> ParsedTrees ts ->
  exists h', set_html o parse h x s = Ok h' /\ WF h' /\ HtmlIs h h' x (allowed_trees o (m_name m) ts).
Proof. exact (set_html_element o parse h x m s ts). Qed.
Print Assumptions C45_set_html_element.
(** The parser gave a root without a child list. *)
Theorem C45_set_html_empty o parse h x m s : WF h -> is_element h x = true -> n_meta (node_of h x) = Some m ->
  od_content_tag o (m_name m) = false -> parse s = Some None ->
  exists h', set_html o parse h x s = Ok h' /\ WF h' /\ HtmlIs h h' x [].
Proof.
  intros wf He Em Ho Ep. destruct (set_html_none o parse h x m s He Em Ho Ep) as [E H]. eexists. split; [exact E|]. split; [exact (emptied_wf _ _ _ wf (emptied_ok h x)) | exact H].
Qed.
Print Assumptions C45_set_html_empty.
(** Elements such as [title] hold their text directly; it is not parsed. *)
Theorem C45_set_html_content_tag o parse h x m s : WF h -> is_element h x = true -> n_meta (node_of h x) = Some m ->
  od_content_tag o (m_name m) = true ->
  exists h', set_html o parse h x s = Ok h' /\ WF h' /\ OnlyContent h h' x (Some s).
Proof.
  intros wf He Em Ho. destruct (set_html_content o parse h x m s He Em Ho) as [E H]. eexists. split; [exact E|]. split; [exact (only_content_wf _ _ _ _ wf H) | exact H].
Qed.
Print Assumptions C45_set_html_content_tag.
(** On a text node: the node is replaced by the parsed nodes.
    Full claim: for any text node and any markup.  Missing: markup for which the parser gives no child list, and text
    directly below the root (C45_set_html_refuted). *)
Theorem C45_set_html_text_partial o parse h p x m s ts : WF h -> Child h p x -> Dom.is_text h x = true -> n_meta (node_of h p) = Some m ->
  od_content_tag o (m_name m) = false -> parse s = Some (Some ts) -> ParsedTrees ts ->
  exists h', set_html o parse h x s = Ok h' /\ WF h' /\ TextBecame h h' p x (allowed_trees o (m_name m) ts).
Proof. exact (set_html_text o parse h p x m s ts). Qed.
Print Assumptions C45_set_html_text_partial.
(** On a set of elements, one inside another or listed twice as may be. *)
Theorem C45_set_html_all o parse s ts l h : parse s = Some (Some ts) -> ParsedTrees ts -> WF h ->
  Forall (fun x => is_element h x = true /\ exists m, n_meta (node_of h x) = Some m /\ od_content_tag o (m_name m) = false) l ->
  exists h', set_html_all o parse h l s = Ok h' /\ WF h' /\ HtmlEach o h h' l ts.
Proof. intros Ep Hts wf Hl. exact (set_html_all_ok o parse s ts l Ep Hts h wf Hl). Qed.
Print Assumptions C45_set_html_all.
(** In programs with all other modifying calls the document stays well-formed.
    Full claim: no covered program panics.  Missing: class removals panic (C16), and so would attribute calls on elements
    for which the parser's tag data were not consistent. *)
Theorem C45_history_partial o oa parse h calls h' : WF h -> CallsOk o oa parse h calls -> run_calls o oa parse h calls = Ok h' ->
  WF h' /\ (forall p, NoDup (kids h' p)) /\ (forall x, ~ Anc h' x x) /\ (forall p q c, Child h' p c -> Child h' q c -> p = q).
Proof.
  intros wf Hc E. pose proof (calls_wf o oa parse calls h h' wf Hc E) as wf'. split; [exact wf'|]. split; [exact (kids_nodup h' wf')|]. split; [exact (anc_irrefl h' wf')|].
  intros p q c (i & H1) (j & H2). exact (proj1 (listed_inj h' wf' _ _ _ _ _ H1 H2)).
Qed.
Print Assumptions C45_history_partial.

(** A parser for the examples: [<i>x</i>y], a comment and nothing; all else is an error. *)
Definition toy_trees : list ptree :=
  [PT NTag (Some (mk_meta (lit "i") [])) None (Some [PT NText None (Some (lit "x")) None]); PT NText None (Some (lit "y")) None].
Definition toy : parser := fun s =>
  if str_eqb s (lit "<i>x</i>y") then Some (Some toy_trees)
  else if str_eqb s (lit "<!--c-->") then Some (Some [PT NComment None (Some (lit "c")) None])
  else if str_eqb s [] then Some None
  else None.
Lemma toy_parsed : ParsedTrees toy_trees.
Proof. repeat constructor; discriminate. Qed.
(** [ex_doc]: root 0, a 1, b 2, text 3, c 4, d 5, e 6. *)
Example C45_ex : WF ex_doc /\ is_element ex_doc 4 = true /\ parent ex_doc 3 = Some 1 /\ Dom.is_text ex_doc 3 = true /\ ParsedTrees toy_trees /\
  (exists h', set_html ex_od toy ex_doc 4 (lit "<i>x</i>y") = Ok h' /\ kids h' 4 = [7; 9] /\ kids h' 7 = [8] /\ kids h' 1 = [2; 3; 4] /\ parent h' 9 = Some 4 /\ index h' 9 = 1) /\
  (exists h', set_html ex_od toy ex_doc 3 (lit "<i>x</i>y") = Ok h' /\ kids h' 1 = [2; 7; 9; 4] /\ index h' 4 = 3) /\
  (exists h', set_html ex_od toy ex_doc 1 [] = Ok h' /\ kids h' 1 = []) /\
  (exists h', set_html_all ex_od toy ex_doc [1; 4] (lit "<i>x</i>y") = Ok h' /\ kids h' 1 = [7; 9] /\ kids h' 4 = [10; 12]).
Proof.
  split; [exact ex_doc_wf|]. do 3 (split; [reflexivity|]). split; [exact toy_parsed|]. repeat split; eexists; (split; [vm_compute; reflexivity|]); repeat split.
Qed.
Definition live_calls : list call :=
  [KHtml 4 (lit "<i>x</i>y"); KTree (OInsert 2 BeforeEnd 7); KAddClass [2; 4] (lit "k"); KHtml 3 []; KSetAttr [6] (lit "id") (Some (lit "z"))].
Example C45_history_ex : WF ex_doc /\ CallsOk ex_od ex_oracle toy ex_doc live_calls /\
  exists h', run_calls ex_od ex_oracle toy ex_doc live_calls = Ok h' /\ kids h' 1 = [] /\ kids h' 2 = [7] /\ kids h' 4 = [9].
Proof.
  split; [exact ex_doc_wf|]. split.
  - unfold live_calls. cbn [CallsOk CallOk].
    split. { split; [discriminate|]. split; [intros q Eq; injection Eq as <-; discriminate|]. exact toy_parsed. }
    intros h1 E1. vm_compute in E1. injection E1 as <-.
    split; [split; [apply (placed_check _ _ 1); reflexivity | split; [apply (placed_check _ _ 4); reflexivity | reflexivity]]|].
    intros h2 E2. vm_compute in E2. injection E2 as <-. split; [repeat constructor|].
    intros h3 E3. vm_compute in E3. injection E3 as <-. split.
    { split; [intros _; apply (placed_check _ _ 1); reflexivity|]. split; [|exact I]. intros q Eq. vm_compute in Eq. injection Eq as <-. vm_compute. discriminate. }
    intros h4 E4. vm_compute in E4. injection E4 as <-. split; [repeat constructor|]. intros h5 _. exact I.
  - eexists. split; [vm_compute; reflexivity|]. repeat split.
Qed.

(** Markup the parser rejects makes the call panic.  A text node directly below the root panics on any markup.  Setting a
    text node to nothing deletes all its siblings as well. *)
Theorem C45_set_html_refuted :
  (exists o parse h x s, WF h /\ is_element h x = true /\ parse s = None /\ set_html o parse h x s = Panic) /\
  (exists o h x, WF h /\ Dom.is_text h x = true /\ Placed h x /\ forall parse s, set_html o parse h x s = Panic) /\
  (exists o parse h p x y z s h', WF h /\ Dom.is_text h x = true /\ kids h p = [y; x; z] /\ parse s = Some None /\ set_html o parse h x s = Ok h' /\ kids h' p = []).
Proof.
  split; [|split].
  - exists ex_od, toy, ex_doc, 1, (lit "<"). split; [exact ex_doc_wf|]. repeat split.
  - exists ex_od, (doc [Tx (lit "t")]), 1. split; [apply wf_check_sound; vm_compute; reflexivity|]. split; [reflexivity|]. split; [apply (placed_check _ _ 0); reflexivity|]. intros parse s. reflexivity.
  - exists ex_od, toy, ex_doc, 1, 3, 2, 4, [], (upd ex_doc 1 (set_ch None)). split; [exact ex_doc_wf|]. repeat split.
Qed.
Print Assumptions C45_set_html_refuted.

(** * C46: queries see the document as it is now *)
(** After any covered program of tree, attribute and class calls the heap is still a document of which the query theorems
    (C05, C09-C14, C31-C35) speak, and queries give the elements that match now.
    Full claim: after any calls.  Missing: [set_html] and nodes of other documents (C46_refuted), the calls not covered
    (C21), and that rphtml's id lookup follows the modifications ([IdCache]). *)
Theorem C46_queries_partial o oa parse h r calls h' : OneDoc h r -> CallsOk o oa parse h calls -> Forall no_html calls -> run_calls o oa parse h calls = Ok h' ->
  DocOk h' r /\
  forall wide_digit text_of by_id n gs s els, IdCache h' r by_id -> SelOk h' r text_of gs -> Reads n gs s -> Forall (ElIn h' r) els -> Ordered h' els ->
    (exists b, Query.is_text wide_digit h' text_of by_id els s = Ok (b, []) /\ (b = true <-> exists x, In x els /\ meets_rooted h' text_of gs x)) /\
    (UnionOk h' (map (fun g x => In x els /\ Matches h' (rooted h' (preds h' text_of g)) x) gs) -> exists l, filter_text wide_digit h' text_of by_id els s = Ok (l, []) /\ Kept (meets_rooted h' text_of gs) els l) /\
    (exists l, has_text wide_digit h' text_of by_id els s = Ok (l, []) /\ Kept (fun x => exists y, DescEl h' x y /\ meets_rooted h' text_of gs y) els l) /\
    (PlainStart s -> forall x, meets_rooted h' text_of gs x <-> meets h' text_of gs x) /\
    (forall g, gs = [g] -> FindOk h' text_of els g -> group_wf g = true -> els <> [] -> exists l, find_text wide_digit h' text_of by_id els s = Ok (l, []) /\ forall x, In x l <-> reached h' text_of els g x).
Proof.
  intros D Hc Hn E. pose proof (onedoc_docok h' r (calls_onedoc o oa parse r calls h h' D Hc Hn E)) as D'. split; [exact D'|].
  intros wide_digit text_of by_id n gs s els IC Hok HR He Ho. split; [exact (C10_is_text_rooted_partial wide_digit h' r text_of by_id els n gs s D' IC Hok HR He Ho)|]. split; [|split; [|split]].
  - intros HU. destruct (C09_filter_text_rooted_partial wide_digit h' r text_of by_id els n gs s D' IC Hok HR He Ho HU) as (l & l' & E1 & K & _). exists l. split; assumption.
  - apply (C11_has_text_rooted_partial wide_digit h' r text_of by_id els n gs s D' IC Hok HR). revert He. apply Forall_impl. intros x [Hx1 Hx2]. exact Hx1.
  - intros Hp x. pose proof (se_wf _ _ _ _ _ (setting_text h' r text_of by_id n gs s D' IC Hok HR Hp)) as Hw. unfold sel_wf in Hw. rewrite forallb_forall in Hw.
    split; intros (g & Hg & Hm); apply in_map_iff in Hg; destruct Hg as (g0 & <- & Hg); pose proof (Hw g0 Hg) as Hd; apply andb_true_iff in Hd; destruct Hd as [_ Hd];
      eexists; (split; [apply in_map_iff; exists g0; split; [reflexivity | exact Hg]|]); apply (rooted_plain h' text_of g0 x Hd); exact Hm.
  - intros g -> HF Hw Hne. apply (C05_find_text_partial wide_digit h' r text_of by_id els n g s); [|exact HF | exact Hne | exact HR].
    split; [exact D' | exact IC | exact (Hok g (or_introl eq_refl)) | exact Hw|]. split; [|exact Ho].
    revert He. apply Forall_impl. intros x [Hx1 Hx2]. split; [exact Hx1 | left; exact Hx2].
Qed.
Print Assumptions C46_queries_partial.
(** Such a program runs to its end, if it removes no classes. *)
Theorem C46_no_panic o oa parse h r calls : OneDoc h r -> CallsOk o oa parse h calls -> Forall no_html calls -> Forall no_class_removal calls ->
  exists h', run_calls o oa parse h calls = Ok h' /\ OneDoc h' r.
Proof.
  intros D Hc Hn Hr. destruct (calls_total o oa parse r calls h D Hc Hn Hr) as (h' & E). exists h'. split; [exact E | exact (calls_onedoc o oa parse r calls h h' D Hc Hn E)].
Qed.
Print Assumptions C46_no_panic.
Lemma onedoc_check_sound h r : docok_check h r = true -> OneDoc h r.
Proof.
  intros H. pose proof (docok_check_sound h r H) as [W R O M]. unfold docok_check in H. rewrite !andb_true_iff, forallb_forall in H. destruct H as (((H1 & H2) & H3) & H4).
  assert (G : forall x, Container h x -> owner_document h x = Some r /\ (is_element h x = true -> exists m, n_meta (node_of h x) = Some m /\ MetaOk m)).
  { intros x Hx. assert (Hl : x < length h).
    { destruct (lt_dec x (length h)) as [Hl | Hl]; [exact Hl|]. destruct Hx as [Hx | Hx]; unfold is_element, is_root, ntype_of in Hx; rewrite node_beyond in Hx by lia; discriminate. }
    assert (Hi : In x (seq 0 (length h))) by (apply in_seq; lia). specialize (H4 x Hi). apply andb_true_iff in H4. destruct H4 as [Ha Hb].
    assert (Ex : is_element h x || is_root h x = true) by (apply orb_true_iff; exact Hx). rewrite Ex in Ha. cbn in Ha. split.
    - destruct (owner_document h x) as [d|]; [|discriminate]. apply Nat.eqb_eq in Ha. subst d. reflexivity.
    - intros He. rewrite He in Hb. cbn in Hb. destruct (n_meta (node_of h x)) as [m|]; [|discriminate]. exists m. split; [reflexivity | exact (meta_check_sound m Hb)]. }
  split; [exact W | exact R | apply G; right; exact R | intros x Hx; apply G; left; exact Hx | intros x Hx; apply G; [left|]; exact Hx].
Qed.
(** [sdoc] (div 1, p 2, div 4, p 5, span 7, input 9, span 10): put the first p into the inner div, give span 10 a text and
    a class, take the class away from the outer div. *)
Definition live_ops : list call :=
  [KTree (OInsert 4 BeforeEnd 2); KTree (OSetText 10 (lit "new")); KAddClass [10; 2] (lit "c"); KRemoveClass [1] (lit "a"); KRemoveAttr [9] (lit "checked")].
Example C46_ex : OneDoc sdoc 0 /\ CallsOk ex_od ex_oracle toy sdoc live_ops /\ Forall no_html live_ops /\
  exists h', run_calls ex_od ex_oracle toy sdoc live_ops = Ok h' /\ kids h' 4 = [5; 9; 2] /\ kids h' 10 = [12] /\
    filter_text ascii_only h' stext (ids_of h') [2; 5; 10] (lit "div.b > p.c") = Ok ([2], []) /\ find_text ascii_only h' stext (ids_of h') [0] (lit "div.a p") = Ok ([], []).
Proof.
  split; [apply onedoc_check_sound; vm_compute; reflexivity|]. split; [|split; [repeat constructor|]].
  - unfold live_ops. cbn [CallsOk CallOk].
    split; [split; [apply (placed_check _ _ 1); reflexivity | split; [apply (placed_check _ _ 1); reflexivity | reflexivity]]|].
    intros h1 E1. vm_compute in E1. injection E1 as <-. split; [exact I|]. intros h2 E2. vm_compute in E2. injection E2 as <-. split; [repeat constructor|].
    intros h3 E3. vm_compute in E3. injection E3 as <-. split; [repeat constructor|]. intros h4 E4. vm_compute in E4. injection E4 as <-. split; [repeat constructor|]. intros h5 _. exact I.
  - eexists. split; [vm_compute; reflexivity|]. repeat split; vm_compute; reflexivity.
Qed.
(** Elements made by [set_html], and elements taken over from another document, do not know the document they are in:
    [filter] and [is] look for what stands above them in the wrong tree. *)
Theorem C46_refuted :
  (exists o parse h x s h' y gs, OneDoc h 0 /\ is_element h x = true /\ set_html o parse h x s = Ok h' /\ WF h' /\ ElIn h' 0 y /\
    from_str ascii_only (lit "a i") = Ok (Some gs) /\ meets h' (fun _ => []) gs y /\
    find_text ascii_only h' (fun _ => []) (fun _ _ => None) [0] (lit "a i") = Ok ([y], []) /\
    filter_text ascii_only h' (fun _ => []) (fun _ _ => None) [y] (lit "a i") = Ok ([], [])) /\
  (exists o h x y h' gs, WF h /\ InTree h 0 x /\ owner_document h x = Some 0 /\ append o h [x] [y] = Ok (h', []) /\ WF h' /\ ElIn h' 0 y /\
    from_str ascii_only (lit "a i") = Ok (Some gs) /\ meets h' (fun _ => []) gs y /\
    find_text ascii_only h' (fun _ => []) (fun _ _ => None) [0] (lit "a i") = Ok ([y], []) /\
    filter_text ascii_only h' (fun _ => []) (fun _ _ => None) [y] (lit "a i") = Ok ([], [])).
Proof.
  assert (A : forall h p y, NameIs h p (lit "a") -> NameIs h y (lit "i") -> Child h p y -> meets h (fun _ => []) [[[(RName (lit "a"), ChildrenAll)]; [(RName (lit "i"), ChildrenAll)]]] y).
  { intros h p y Hp Hy Hc. eexists. split; [left; reflexivity|]. split.
    - intros P c [E | []]. injection E as <- _. exact Hy.
    - exists p. split; [exact (proj1 Hp)|]. split; [split; [apply Anc_child; exact Hc | exact (proj1 Hy)]|]. split; [|exact I]. intros P c [E | []]. injection E as <- _. exact Hp. }
  split.
  - destruct (C45_set_html_element ex_od toy ex_doc 1 (mk_meta (lit "a") []) (lit "<i>x</i>y") toy_trees ex_doc_wf eq_refl eq_refl eq_refl eq_refl toy_parsed) as (h' & E & W & _).
    exists ex_od, toy, ex_doc, 1, (lit "<i>x</i>y"), h', 7, [[[(RName (lit "a"), ChildrenAll)]; [(RName (lit "i"), ChildrenAll)]]].
    assert (E' := E). vm_compute in E'. injection E' as E'. split; [apply onedoc_check_sound; vm_compute; reflexivity|]. split; [reflexivity|]. split; [exact E|]. split; [exact W|].
    clear E. subst h'. split; [split; [apply (intree_check_sound _ 0 5); vm_compute; reflexivity | reflexivity]|]. split; [vm_compute; reflexivity|]. split; [|split; vm_compute; reflexivity].
    apply (A _ 1 7); [split; [reflexivity|]; eexists; split; reflexivity | split; [reflexivity|]; eexists; split; reflexivity | exists 0; reflexivity].
  - set (h := docs2 [el "a" [el "b" []]] [el "i" []]). assert (W0 : WF h) by (apply wf_check_sound; vm_compute; reflexivity).
    assert (I1 : InTree h 0 1) by (apply (intree_check_sound h 0 5); vm_compute; reflexivity).
    destruct (C22_append_partial ex_od h 0 1 [4] W0 I1 eq_refl) as (h' & E & W & _); [repeat constructor; [intros []] | | repeat constructor |].
    { constructor; [|constructor]. split; [apply (placed_check _ _ 3); reflexivity|]. split; [reflexivity|]. apply leaf_not_above; [reflexivity | discriminate]. }
    exists ex_od, h, 1, 4, h', [[[(RName (lit "a"), ChildrenAll)]; [(RName (lit "i"), ChildrenAll)]]].
    assert (E' := E). vm_compute in E'. injection E' as E'. split; [exact W0|]. split; [exact I1|]. split; [reflexivity|]. split; [exact E|]. split; [exact W|].
    clear E. subst h'. split; [split; [apply (intree_check_sound _ 0 5); vm_compute; reflexivity | reflexivity]|]. split; [vm_compute; reflexivity|]. split; [|split; vm_compute; reflexivity].
    apply (A _ 1 4); [split; [reflexivity|]; eexists; split; reflexivity | split; [reflexivity|]; eexists; split; reflexivity | exists 1; reflexivity].
Qed.
Print Assumptions C46_refuted.
