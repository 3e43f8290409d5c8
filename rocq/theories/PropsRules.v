(** Property theorems: the meaning of the simple selectors (C29 - C32).
    Each is about [filter] with the selector made of that one part; [RuleOk] says where the library departs from
    the meaning, and the refutations below show that each of its conditions is needed. *)
From Verif Require Parse.
From Verif Require Import Base Utils UtilsSpec UtilsProofs Nth NthSpec Attr AttrSpec AttrProofs ClassSpec Dom DomSpec Order OrderSpec DomProofs OrderProofs
  Sets SetsProofs AddProofs DomBuild DomBuildProofs NavProofs Engine Rules SelSpec FindSpec OneProofs PreProofs SelBool SibLists SibProofs StepProofs
  BackProofs FilterProofs RuleProofs SelBuild FindProofs FindRules SelectProofs FindBuild PropsFilter.

(** * Rules tested on one element at a time: no condition on the order of the set, nor on ids *)
Lemma filter_one_rule h text_of by_id rl g b els : mt_all (compile h text_of by_id rl) = None -> mt_one (compile h text_of by_id rl) = Some g ->
  (forall x, In x els -> g x = Ok (b x)) -> filter_ast h text_of by_id els (simple rl) = Ok (filter b els).
Proof.
  intros Ha H1 Hb. unfold filter_ast, filter_sel. destruct (nonempty els) eqn:En; [|apply nonempty_false in En; subst els; reflexivity].
  unfold compile_selector, compile_groups, optimize, filter_type_handle. cbn [map]. unfold optimize_group. cbn [map optimize_compound andb].
  cbn [filter_loop]. unfold filter_process. cbn [query rev app rnth nth_error rbind]. cbn [select_by_rule fst snd]. unfold apply. rewrite Ha, H1.
  rewrite (rfilter_ok g b els Hb). cbn [rbind tl chain_rest].
  destruct (filter b els) as [|x l]; reflexivity.
Qed.
Lemma kept_spec h r (f : id -> res bool) (P : id -> Prop) els : Forall (ElIn h r) els -> (forall x, In x els -> exists b, f x = Ok b /\ (b = true <-> P x)) ->
  (forall x, In x els -> f x = Ok (ok_or (f x))) /\ Kept P els (filter (fun x => ok_or (f x)) els).
Proof.
  intros He H. split.
  - intros x Hx. destruct (H x Hx) as (b & E & _). rewrite E. reflexivity.
  - apply kept_filter. intros x Hx. destruct (H x Hx) as (b & E & HP). rewrite E. exact HP.
Qed.

(** * C29 *)
(** Full claim: any test.  Missing: the tests [=""], [|=""], [!=""] on elements without the attribute (refuted below). *)
Definition empty_test (t : option (amode * str)) : Prop :=
  match t with Some (MEq, []) | Some (MDash, []) | Some (MNot, []) => True | _ => False end.
Theorem C29_attr_partial h r text_of by_id els k t : DocOk h r -> Forall (ElIn h r) els ->
  (empty_test t -> forall x, In x els -> Has h x k) ->
  exists l, filter_ast h text_of by_id els (simple (RAttr k t)) = Ok l /\ Kept (AttrHolds h k t) els l.
Proof.
  intros D He Hg. destruct (kept_spec h r (attr_one h k t) (AttrHolds h k t) els He) as [H1 H2].
  - intros x Hx. pose proof He as He'. rewrite Forall_forall in He'. apply (attr_one_spec h r D k t x (He' x Hx)).
    intros a Ea. assert (A : empty_test t -> a <> None).
    { intros Ht ->. destruct (Hg Ht x Hx) as (v & a & Ea' & Es). rewrite Ea in Ea'. injection Ea' as <-. discriminate. }
    destruct t as [[[] w]|]; cbn in *; try exact I; intros ->; exact (A I).
  - eexists. split; [exact (filter_one_rule h text_of by_id (RAttr k t) _ _ els eq_refl eq_refl H1) | exact H2].
Qed.
Print Assumptions C29_attr_partial.
Lemma sdoc_els l : els_check sdoc 0 l = true -> DocOk sdoc 0 /\ Forall (ElIn sdoc 0) l.
Proof. intros H. split; [apply docok_check_sound; vm_compute; reflexivity | exact (els_check_sound sdoc 0 l H)]. Qed.
Notation sfilter els rl := (filter_ast sdoc stext (ids_of sdoc) els (simple rl)).
Example C29_ex : DocOk sdoc 0 /\ Forall (ElIn sdoc 0) [10; 1; 2; 5; 7; 9] /\ Has sdoc 7 (lit "title") /\
  sfilter [10; 1; 2; 5; 7; 9] (RAttr (lit "TYPE") None) = Ok [9] /\
  sfilter [10; 1; 2; 5; 7; 9] (RAttr (lit "class") (Some (MEq, lit "b"))) = Ok [5] /\
  sfilter [10; 1; 2; 5; 7; 9] (RAttr (lit "class") (Some (MPrefix, lit "a"))) = Ok [1; 2] /\
  sfilter [10; 1; 2; 5; 7; 9] (RAttr (lit "class") (Some (MSuffix, lit "b"))) = Ok [2; 5] /\
  sfilter [10; 1; 2; 5; 7; 9] (RAttr (lit "type") (Some (MSub, lit "heck"))) = Ok [9] /\
  sfilter [10; 1; 2; 5; 7; 9] (RAttr (lit "class") (Some (MWord, lit "b"))) = Ok [2; 5] /\
  sfilter [10; 1; 2; 5; 7; 9] (RAttr (lit "lang") (Some (MDash, lit "en"))) = Ok [10] /\
  sfilter [10; 1; 2; 5; 7; 9] (RAttr (lit "class") (Some (MNot, lit "b"))) = Ok [10; 1; 2; 7; 9] /\
  sfilter [7] (RAttr (lit "title") (Some (MEq, []))) = Ok [7].
Proof.
  destruct (sdoc_els [10; 1; 2; 5; 7; 9]) as [H1 H2]; [vm_compute; reflexivity|]. split; [exact H1|]. split; [exact H2|]. split.
  - exists (Some []), (Some (AV [] (Some DQ))). split; vm_compute; reflexivity.
  - repeat split; vm_compute; reflexivity.
Qed.
(** [[title=""]], [[title|=""]] match elements without the attribute; [[title!=""]] does not. *)
Theorem C29_attr_refuted : exists h r text_of by_id x k, DocOk h r /\ ElIn h r x /\ ~ Has h x k /\
  (filter_ast h text_of by_id [x] (simple (RAttr k (Some (MEq, [])))) = Ok [x] /\ ~ AttrHolds h k (Some (MEq, [])) x) /\
  (filter_ast h text_of by_id [x] (simple (RAttr k (Some (MDash, [])))) = Ok [x] /\ ~ AttrHolds h k (Some (MDash, [])) x) /\
  (filter_ast h text_of by_id [x] (simple (RAttr k (Some (MNot, [])))) = Ok [] /\ AttrHolds h k (Some (MNot, [])) x).
Proof.
  exists sdoc, 0, stext, (ids_of sdoc), 10, (lit "title"). destruct (sdoc_els [10]) as [H1 H2]; [vm_compute; reflexivity|].
  assert (HN : node_attribute sdoc 10 (lit "title") = Ok None) by (vm_compute; reflexivity).
  assert (HR : forall v, ReadsAs sdoc 10 (lit "title") v -> v = None) by (intros v (a & E & <-); rewrite HN in E; injection E as <-; reflexivity).
  split; [exact H1|]. split; [inversion H2; assumption|]. split; [intros (v & Hv); apply HR in Hv; discriminate|]. split; [|split]; split; try (vm_compute; reflexivity).
  - intros (v & Hv & H). apply HR in Hv. subst v. discriminate.
  - intros (v & Hv & [H | (s & H)]); apply HR in Hv; subst v; discriminate.
  - exists None. split; [exists None; split; [exact HN | reflexivity]|]. discriminate.
Qed.
Print Assumptions C29_attr_refuted.

(** * C30 *)
Theorem C30_name h r text_of by_id els n : DocOk h r -> Forall (ElIn h r) els ->
  exists l, filter_ast h text_of by_id els (simple (RName n)) = Ok l /\ Kept (fun x => NameIs h x n) els l.
Proof.
  intros D He. destruct (kept_spec h r (name_one h n) (fun x => NameIs h x n) els He) as [H1 H2].
  - intros x Hx. rewrite Forall_forall in He. exact (name_one_spec h r D n x (He x Hx)).
  - eexists. split; [exact (filter_one_rule h text_of by_id (RName n) _ _ els eq_refl eq_refl H1) | exact H2].
Qed.
Print Assumptions C30_name.
Theorem C30_class h r text_of by_id els n : DocOk h r -> Forall (ElIn h r) els ->
  exists l, filter_ast h text_of by_id els (simple (RClass n)) = Ok l /\ Kept (fun x => ClassIs h x n) els l.
Proof.
  intros D He. destruct (kept_spec h r (class_one h n) (fun x => ClassIs h x n) els He) as [H1 H2].
  - intros x Hx. rewrite Forall_forall in He. exact (class_one_spec h r D n x (He x Hx)).
  - eexists. split; [exact (filter_one_rule h text_of by_id (RClass n) _ _ els eq_refl eq_refl H1) | exact H2].
Qed.
Print Assumptions C30_class.
Theorem C30_all h text_of by_id els : filter_ast h text_of by_id els (simple RAll) = Ok els.
Proof. destruct els as [|x els]; reflexivity. Qed.
Print Assumptions C30_all.

(** Every rule, on a set in document order. *)
Theorem rule_filter_partial h r text_of by_id els rl : DocOk h r -> IdCache h r by_id -> RuleOk h r text_of rl -> Forall (ElIn h r) els -> Ordered h els ->
  exists l, filter_ast h text_of by_id els (simple rl) = Ok l /\ Kept (Holds h text_of rl) els l.
Proof.
  intros D IC Hok He Ho. destruct (C09_filter_not_one_partial h r text_of by_id els [[(rl, ChildrenAll)]]) as (l & _ & E & K & _).
  - split; [exact D | exact IC | | reflexivity]. intros g [<- | []] cp [<- | []] rl' c [[= <- <-] | []]. exact Hok.
  - exact He.
  - exact Ho.
  - exists l. split; [exact E|]. revert K. apply kept_ext. intros x _. unfold Matches. cbn. unfold CompHolds. split.
    + intros [H _]. exact (H _ _ (or_introl eq_refl)).
    + intros H. split; [|exact I]. intros P c [[= <- <-] | []]. exact H.
Qed.
Print Assumptions rule_filter_partial.
(** Full claim: any id.  Missing: an id that two elements carry (refuted below). *)
Theorem C30_id_partial h r text_of by_id els n : DocOk h r -> IdCache h r by_id -> IdUnique h r n -> Forall (ElIn h r) els -> Ordered h els ->
  exists l, filter_ast h text_of by_id els (simple (RId n)) = Ok l /\ Kept (fun x => IdIs h x n) els l.
Proof. intros D IC Hu He Ho. exact (rule_filter_partial h r text_of by_id els (RId n) D IC Hu He Ho). Qed.
Print Assumptions C30_id_partial.
Example C30_ex : DocOk sdoc 0 /\ Forall (ElIn sdoc 0) [10; 1; 2; 5; 7; 9] /\ IdCache sdoc 0 (ids_of sdoc) /\ IdUnique sdoc 0 (lit "main") /\
  sfilter [10; 1; 2; 5; 7; 9] (RName (lit "SPAN")) = Ok [10; 7] /\ sfilter [10; 1; 2; 5; 7; 9] (RClass (lit "b")) = Ok [2; 5] /\
  sfilter [1; 2; 5] (RId (lit "main")) = Ok [1] /\ sfilter [2; 5] (RId (lit "main")) = Ok [].
Proof.
  destruct (sdoc_els [10; 1; 2; 5; 7; 9]) as [H1 H2]; [vm_compute; reflexivity|]. split; [exact H1|]. split; [exact H2|].
  split; [apply (ids_check_sound sdoc 0 H1); vm_compute; reflexivity|]. split; [apply (unique_check_sound sdoc 0 _ H1); vm_compute; reflexivity|].
  repeat split; vm_compute; reflexivity.
Qed.
(** With two elements of one id only one is found, whatever the cache answers. *)
Definition dup_doc : heap := doc [E "p" [at_ "id" "x"] []; E "p" [at_ "id" "x"] []].
Theorem C30_id_refuted : exists h r els n, DocOk h r /\ Forall (ElIn h r) els /\ Ordered h els /\ (forall x, In x els -> IdIs h x n) /\ length els = 2 /\
  forall text_of by_id l, filter_ast h text_of by_id els (simple (RId n)) = Ok l -> length l <= 1.
Proof.
  exists dup_doc, 0, [1; 2], (lit "x"). split; [apply docok_check_sound; vm_compute; reflexivity|].
  assert (He : Forall (ElIn dup_doc 0) [1; 2] /\ Ordered dup_doc [1; 2]) by (apply (elset_check_sound dup_doc 0); vm_compute; reflexivity).
  split; [apply He|]. split; [apply He|]. split; [intros x [<- | [<- | []]]; (eexists; split; vm_compute; reflexivity)|]. split; [reflexivity|].
  intros text_of by_id l. assert (A : exists l0, id_all dup_doc by_id (lit "x") [1; 2] None = Ok l0 /\ length l0 <= 1).
  { unfold id_all. replace (owner_document dup_doc 1) with (Some 0) by (vm_compute; reflexivity). destruct (by_id 0 (lit "x")) as [e|]; [|exists []; split; [reflexivity | cbn; lia]].
    destruct (includes [1; 2] e); eexists; (split; [reflexivity | cbn; lia]). }
  destruct A as (l0 & A & Hl). unfold filter_ast, filter_sel. cbn [nonempty].
  unfold compile_selector, compile_groups, optimize, filter_type_handle. cbn [map]. unfold optimize_group. cbn [map optimize_compound andb].
  cbn [filter_loop]. unfold filter_process. cbn [query rev app rnth nth_error rbind]. cbn [select_by_rule fst snd]. unfold apply. cbn [mt_all compile]. rewrite A.
  cbn [rbind tl chain_rest]. destruct l0 as [|x l0]; cbn; intros E0; injection E0 as <-; exact Hl.
Qed.
Print Assumptions C30_id_refuted.

(** * C31 *)
Definition structural (rl : rule) : bool :=
  match rl with
  | RRoot | REmpty | RFirstChild _ | ROnlyChild | RNthChild _ _ | RFirstOfType _ | RNthOfType _ _ | ROnlyOfType => true
  | _ => false
  end.
(** The formula of a rule. *)
Definition formula_of (rl : rule) : option nth_formula := match rl with RNthChild _ f | RNthOfType _ f => Some f | _ => None end.
Lemma structural_ok h r text_of rl : structural rl = true -> (forall f, formula_of rl = Some f -> NthOk h r f) -> RuleOk h r text_of rl.
Proof. intros Hs Hf. destruct rl; try discriminate; try exact I; apply Hf; reflexivity. Qed.
(** Full claim: any formula.  Missing: [an+b] in the regimes where C01 is refuted (with [NthOk] they are excluded). *)
Theorem C31_filter_partial h r text_of by_id els rl : DocOk h r -> IdCache h r by_id -> structural rl = true ->
  (forall f, formula_of rl = Some f -> NthOk h r f) -> Forall (ElIn h r) els -> Ordered h els ->
  exists l, filter_ast h text_of by_id els (simple rl) = Ok l /\ Kept (Holds h text_of rl) els l.
Proof. intros D IC Hs Hf. apply rule_filter_partial; [exact D | exact IC | exact (structural_ok h r text_of rl Hs Hf)]. Qed.
Print Assumptions C31_filter_partial.

(** The children of a node that satisfy a rule: [find("> rule")], which runs a different implementation of most
    of these rules.  Full claim: no condition on the node.  Missing: nodes without children (refuted below). *)
Lemma step_one h (S : id -> Prop) (P : id -> Prop) c x : Walk h S [[(P, c)]] x <-> (exists s, S s /\ Rel h c s x) /\ P x.
Proof.
  cbn. unfold Step, CompHolds. cbn. split; intros [H1 H2]; (split; [exact H1|]).
  - exact (H2 P c (or_introl eq_refl)).
  - intros P' c' [[= <- <-] | []]. exact H2.
Qed.
Theorem C31_children_partial h r text_of by_id p rl : DocOk h r -> IdCache h r by_id -> RuleOk h r text_of rl -> is_id rl = false ->
  InTree h r p -> is_element h p = true \/ p = r ->
  (last_number rl = true -> kids h p <> []) -> (nth_at0 rl = false -> children h p <> []) ->
  exists l, find_ast h text_of by_id [p] [[[(rl, Children)]]] = Ok l /\ Ordered h l /\
    (forall x, In x l <-> ChildEl h p x /\ Holds h text_of rl x).
Proof.
  intros D IC Hok Hid Hp Hpe Hl Hn. destruct (find_group_doc h r D text_of by_id IC [p] [[(rl, Children)]]) as (l & El & _ & _ & HO & HS).
  - split; [constructor; [split; assumption | constructor]|]. split; constructor.
  - intros cp [<- | []] rl' c [[= <- <-] | []]. exact Hok.
  - reflexivity.
  - unfold FindOk. replace (looks_up [[(rl, Children)]]) with false by (unfold looks_up, pivot; cbn; destruct (0 <? prio_of rl + 0)%N; reflexivity).
    cbn. split; [right; split; [exact I | intros u v [<- | []] [<- | []] Ha; exact (anc_irrefl h (do_wf h r D) _ Ha)]|].
    split; [discriminate|]. split; [|exact I]. split; [exact Hid|]. split; intros E0 x [<- | []]; [exact (Hl E0) | exact (Hn E0)].
  - exists l. split; [exact El|]. split.
    + apply HO. unfold FindOrd. replace (looks_up [[(rl, Children)]]) with false by (unfold looks_up, pivot; cbn; destruct (0 <? prio_of rl + 0)%N; reflexivity).
      cbn. split; [exact I | intros u v [<- | []] [<- | []] Ha; exact (anc_irrefl h (do_wf h r D) _ Ha)].
    + intros x. rewrite (HS x). change (preds h text_of [[(rl, Children)]]) with [[(Holds h text_of rl, Children)]]. rewrite step_one. split.
      * intros [(s & [<- | []] & HR) H]. split; assumption.
      * intros [HR H]. split; [exists p; split; [left; reflexivity | exact HR] | exact H].
Qed.
Print Assumptions C31_children_partial.
(** The descendants of a set of nodes that satisfy a rule: [find("rule")]. *)
Theorem C31_descendants_partial h r text_of by_id els rl : DocOk h r -> IdCache h r by_id -> RuleOk h r text_of rl -> Starts h r els ->
  (last_number rl = true -> forall x, In x els -> kids h x <> []) ->
  exists l, find_ast h text_of by_id els (simple rl) = Ok l /\ Ordered h l /\
    (forall x, In x l <-> (exists s, In s els /\ DescEl h s x) /\ Holds h text_of rl x).
Proof.
  intros D IC Hok Hst Hl. destruct (find_group_doc h r D text_of by_id IC els [[(rl, ChildrenAll)]]) as (l & El & _ & _ & HO & HS).
  - exact Hst.
  - intros cp [<- | []] rl' c [[= <- <-] | []]. exact Hok.
  - reflexivity.
  - unfold FindOk. replace (looks_up [[(rl, ChildrenAll)]]) with false by (unfold looks_up, pivot; cbn; destruct (0 <? prio_of rl + 0)%N; reflexivity).
    cbn. split; [right; exact I|]. split; [reflexivity|]. split; [|exact I]. intros E0 x Hx _. exact (Hl E0 x Hx).
  - exists l. split; [exact El|]. split.
    + apply HO. unfold FindOrd. replace (looks_up [[(rl, ChildrenAll)]]) with false by (unfold looks_up, pivot; cbn; destruct (0 <? prio_of rl + 0)%N; reflexivity). exact I.
    + intros x. rewrite (HS x). exact (step_one h (fun s => In s els) (Holds h text_of rl) ChildrenAll x).
Qed.
Print Assumptions C31_descendants_partial.

Notation sfind els rl := (find_ast sdoc stext (ids_of sdoc) els (simple rl)).
Notation schildren p rl := (find_ast sdoc stext (ids_of sdoc) [p] [[[(rl, Children)]]]).
Definition s_els : list id := [1; 2; 4; 5; 7; 9; 10].
(** Each rule, filtering all elements of [sdoc] (div 1, p 2, div 4, p 5, span 7, input 9, span 10), and on the children of the outer div. *)
Example C31_ex : Forall (ElIn sdoc 0) s_els /\ Ordered sdoc s_els /\ Forall (fun f => NthOk sdoc 0 f) [(Some 2%Z, 1%Z); (Some (-1)%Z, 2%Z); (None, 2%Z)] /\
  sfilter s_els (RFirstChild true) = Ok [1; 2; 5; 7] /\ schildren 1 (RFirstChild true) = Ok [2] /\
  sfilter s_els (RFirstChild false) = Ok [1; 7; 9; 10] /\ schildren 1 (RFirstChild false) = Ok [10] /\
  sfilter s_els ROnlyChild = Ok [1; 7] /\ schildren 5 ROnlyChild = Ok [7] /\
  sfilter s_els (RNthChild true (Some 2%Z, 1%Z)) = Ok [1; 2; 5; 7; 10] /\ schildren 1 (RNthChild true (Some 2%Z, 1%Z)) = Ok [2; 10] /\
  sfilter s_els (RNthChild false (Some (-1)%Z, 2%Z)) = Ok [1; 4; 5; 7; 9; 10] /\ schildren 1 (RNthChild false (None, 2%Z)) = Ok [4] /\
  sfilter s_els REmpty = Ok [9] /\ sfind [1; 4] (RFirstChild false) = Ok [7; 9; 10].
Proof.
  destruct (elset_check_sound sdoc 0 s_els) as [H1 H2]; [vm_compute; reflexivity|]. split; [exact H1|]. split; [exact H2|].
  split; [repeat (constructor; [apply nth_check_sound; vm_compute; reflexivity|]); constructor|]. repeat split; vm_compute; reflexivity.
Qed.
(** [<html><ul><li/>t<li/><b/><li/></ul></html>]: html 1, ul 2, li 3, li 5, b 6, li 7. *)
Definition tdoc : heap := doc [E "html" [] [E "ul" [] [E "li" [] []; Tx (lit "t"); E "li" [] []; E "b" [] []; E "li" [] []]]].
Notation tfilter els rl := (filter_ast tdoc stext (ids_of tdoc) els (simple rl)).
Notation tchildren p rl := (find_ast tdoc stext (ids_of tdoc) [p] [[[(rl, Children)]]]).
Example C31_type_ex : DocOk tdoc 0 /\ Forall (ElIn tdoc 0) [1; 2; 3; 5; 6; 7] /\ Ordered tdoc [1; 2; 3; 5; 6; 7] /\ NthOk tdoc 0 (Some 2%Z, 1%Z) /\
  tfilter [1; 2; 3; 5; 6; 7] RRoot = Ok [1] /\ tchildren 0 RRoot = Ok [1] /\
  tfilter [1; 2; 3; 5; 6; 7] ROnlyOfType = Ok [1; 2; 6] /\ tchildren 2 ROnlyOfType = Ok [6] /\
  tfilter [1; 2; 3; 5; 6; 7] (RFirstOfType true) = Ok [1; 2; 3; 6] /\ tchildren 2 (RFirstOfType true) = Ok [3; 6] /\
  tfilter [1; 2; 3; 5; 6; 7] (RFirstOfType false) = Ok [1; 2; 6; 7] /\ tchildren 2 (RFirstOfType false) = Ok [6; 7] /\
  tfilter [3; 5; 7] (RNthOfType true (None, 2%Z)) = Ok [5] /\ tchildren 2 (RNthOfType false (None, 3%Z)) = Ok [3] /\
  tfilter [3; 5; 7] (RNthOfType false (Some 2%Z, 1%Z)) = Ok [3; 7] /\ tchildren 2 (RNthOfType true (Some 2%Z, 1%Z)) = Ok [3; 6; 7].
Proof.
  split; [apply docok_check_sound; vm_compute; reflexivity|].
  destruct (elset_check_sound tdoc 0 [1; 2; 3; 5; 6; 7]) as [H1 H2]; [vm_compute; reflexivity|]. split; [exact H1|]. split; [exact H2|].
  split; [apply nth_check_sound; vm_compute; reflexivity|]. repeat split; vm_compute; reflexivity.
Qed.
(** On a node without child nodes [find("> :last-child")] underflows; so do the other rules counting from the end.
    On one without element children [find("> :nth-child(odd)")] reads past the end of an empty list. *)
Theorem C31_children_refuted : exists h r text_of by_id p, DocOk h r /\ IdCache h r by_id /\ ElIn h r p /\ NthOk h r (Some 2%Z, 1%Z) /\
  find_ast h text_of by_id [p] [[[(RFirstChild false, Children)]]] = Panic /\
  find_ast h text_of by_id [p] [[[(RFirstOfType false, Children)]]] = Panic /\
  find_ast h text_of by_id [p] [[[(RNthChild false (None, 1%Z), Children)]]] = Panic /\
  find_ast h text_of by_id [p] [[[(RNthChild true (Some 2%Z, 1%Z), Children)]]] = Panic /\
  find_ast h text_of by_id [p] [[[(RNthOfType true (Some 2%Z, 1%Z), Children)]]] = Panic /\
  find_ast h text_of by_id [p] (simple (RFirstChild false)) = Panic.
Proof.
  assert (D : DocOk tdoc 0) by (apply docok_check_sound; vm_compute; reflexivity).
  exists tdoc, 0, stext, (ids_of tdoc), 3. split; [exact D|]. split; [apply (ids_check_sound tdoc 0 D); vm_compute; reflexivity|].
  split; [assert (H : Forall (ElIn tdoc 0) [3]) by (apply els_check_sound; vm_compute; reflexivity); inversion H; assumption|].
  split; [apply nth_check_sound; vm_compute; reflexivity|]. repeat split; vm_compute; reflexivity.
Qed.
Print Assumptions C31_children_refuted.

(** * C32 *)
(** Full claim: any nested selector.  Missing: groups that overlap, and the conditions of the nested rules. *)
Theorem C32_not_partial h r text_of by_id els gs : DocOk h r -> IdCache h r by_id -> RuleOk h r text_of (RNot (NSel gs)) -> Forall (ElIn h r) els -> Ordered h els ->
  exists l, filter_ast h text_of by_id els (simple (RNot (NSel gs))) = Ok l /\ not_ast h text_of by_id els gs = Ok l /\ Kept (fun x => ~ meets h text_of gs x) els l.
Proof.
  intros D IC Hok He Ho. destruct (rule_filter_partial h r text_of by_id els _ D IC Hok He Ho) as (l & El & K). exists l. split; [exact El|]. split; [|exact K].
  cbn [RuleOk] in Hok. destruct Hok as (Hw & Hall & HX). change (fold_right and True (map _ gs)) with (fold_right and True (map (fun g => fold_right and True (map (fun cp =>
      fold_right and True (map (fun e : rule * comb => let '(r', _) := e in RuleOk h r text_of r') cp)) g)) gs)) in Hall.
  assert (HS : Setting h r text_of by_id gs).
  { split; [exact D | exact IC | | exact Hw]. intros g Hg cp Hc rl c Hi. rewrite fold_and_in in Hall. specialize (Hall g Hg). rewrite fold_and_in in Hall. specialize (Hall cp Hc).
    rewrite fold_and_in in Hall. exact (Hall (rl, c) Hi). }
  destruct (C09_filter_not_exclusive_partial h r text_of by_id els gs HS He Ho) as (_ & l' & _ & _ & El' & K').
  - rewrite Forall_forall in He. clear -HX He. remember (map (preds h text_of) gs) as ps eqn:Ep. revert gs Ep. induction HX as [|P ps HP _ IH]; intros [|g gs] Ep; try discriminate; [constructor|].
    injection Ep as -> ->. constructor; [|exact (IH gs eq_refl)]. rewrite Forall_forall in *. intros g' Hg' x Hx. exact (HP (preds h text_of g') (in_map _ _ _ Hg') x (He x Hx)).
  - rewrite El'. f_equal. exact (kept_fun _ _ _ K' _ K).
Qed.
Print Assumptions C32_not_partial.
Theorem C32_has_partial h r text_of by_id els gs : DocOk h r -> IdCache h r by_id -> RuleOk h r text_of (RHas (NSel gs)) -> Forall (ElIn h r) els -> Ordered h els ->
  exists l, filter_ast h text_of by_id els (simple (RHas (NSel gs))) = Ok l /\ has_ast h text_of by_id els gs = Ok l /\
    Kept (fun x => exists y, DescEl h x y /\ meets h text_of gs y) els l.
Proof.
  intros D IC Hok He Ho. destruct (rule_filter_partial h r text_of by_id els _ D IC Hok He Ho) as (l & El & K). exists l. split; [exact El|]. split; [|exact K].
  cbn [RuleOk] in Hok. destruct Hok as (Hw & Hall). rewrite fold_and_in in Hall.
  assert (HS : Setting h r text_of by_id gs).
  { split; [exact D | exact IC | | exact Hw]. intros g Hg cp Hc rl c Hi. specialize (Hall g Hg). rewrite fold_and_in in Hall. specialize (Hall cp Hc).
    rewrite fold_and_in in Hall. exact (Hall (rl, c) Hi). }
  destruct (C11_has_partial h r text_of by_id els gs HS) as (l' & El' & K').
  - rewrite Forall_forall in *. intros x Hx. apply (He x Hx).
  - rewrite El'. f_equal. exact (kept_fun _ _ _ K' _ K).
Qed.
Print Assumptions C32_has_partial.
(** [:not] and [:has] of a text that is not a selector keep nothing, whatever the set. *)
Theorem C32_bad_text h r text_of by_id els rl : DocOk h r -> IdCache h r by_id -> rl = RNot NErr \/ rl = RHas NErr -> Forall (ElIn h r) els -> Ordered h els ->
  filter_ast h text_of by_id els (simple rl) = Ok [].
Proof.
  intros D IC Hc He Ho. assert (HN : forall x, ~ Holds h text_of rl x) by (destruct Hc as [-> | ->]; intros x []).
  destruct (rule_filter_partial h r text_of by_id els rl D IC) as (l & El & K); auto; [destruct Hc as [-> | ->]; exact I|].
  rewrite El. f_equal. apply (kept_fun _ _ _ K). clear -HN. induction els as [|x els IH]; constructor; auto.
Qed.
Example C32_ex_bad : (forall w, Parse.from_str w (lit ":not(>)") = Ok (Some [[[(RNot NErr, ChildrenAll)]]])) /\ (forall w, Parse.from_str w (lit ":has(a,,b)") = Ok (Some [[[(RHas NErr, ChildrenAll)]]])) /\
  sfilter s_els (RNot NErr) = Ok [] /\ s_els <> [].
Proof. split; [intros w; vm_compute; reflexivity|]. split; [intros w; vm_compute; reflexivity|]. split; [vm_compute; reflexivity|discriminate]. Qed.
Print Assumptions C32_bad_text.
(** [:contains(t)]: the text of the element is what rphtml says it is. *)
Theorem C32_contains h r text_of by_id els t : DocOk h r -> Forall (ElIn h r) els ->
  exists l, filter_ast h text_of by_id els (simple (RContains t)) = Ok l /\ Kept (fun x => Substring t (text_of x)) els l.
Proof.
  intros D He. destruct (kept_spec h r (contains_one text_of t) (fun x => Substring t (text_of x)) els He) as [H1 H2].
  - intros x Hx. exact (contains_one_spec text_of t x).
  - eexists. split; [exact (filter_one_rule h text_of by_id (RContains t) _ _ els eq_refl eq_refl H1) | exact H2].
Qed.
Print Assumptions C32_contains.
(** Full claim: no condition.  Missing: documents with an optgroup before an option of the same select (refuted below). *)
Theorem C32_checked_partial h r text_of by_id els : DocOk h r -> OptionsFirst h r -> Forall (ElIn h r) els ->
  exists l, filter_ast h text_of by_id els (simple RChecked) = Ok l /\ Kept (fun x => CheckedBox h x \/ CheckedOption h x) els l.
Proof.
  intros D HO He. destruct (kept_spec h r (checked_one h) (fun x => CheckedBox h x \/ CheckedOption h x) els He) as [H1 H2].
  - intros x Hx. rewrite Forall_forall in He. exact (checked_one_spec h r D x (He x Hx) HO).
  - eexists. split; [exact (filter_one_rule h text_of by_id RChecked _ _ els eq_refl eq_refl H1) | exact H2].
Qed.
Print Assumptions C32_checked_partial.

(** The aliases never meet an overlap. *)
Lemma matches_first h text_of rl cp c x : Matches h (preds h text_of [(rl, c) :: cp]) x -> Holds h text_of rl x.
Proof. intros [H _]. exact (H _ c (or_introl eq_refl)). Qed.
Lemma names_differ h x a b : NameIs h x a -> NameIs h x b -> str_lower a = str_lower b.
Proof.
  intros (_ & m & Em & H1) (_ & m' & Em' & H2). rewrite Em in Em'. injection Em' as <-. unfold EqIgnoreCase in *. congruence.
Qed.
(** The first part of a group is a name. *)
Definition named_groups (gs : ast) (ns : list str) : Prop :=
  Forall2 (fun g n => exists cp c, g = [(RName n, c) :: cp]) gs ns.
Lemma named_exclusive h r text_of gs ns : named_groups gs ns -> ForallOrdPairs (fun a b => str_lower a <> str_lower b) ns ->
  Exclusive h r (map (preds h text_of) gs).
Proof.
  unfold Exclusive. intros H HN. induction H as [|g n gs ns (cp & c & ->) HF IH]; [constructor|]. inversion HN as [|n' ns' Hn HN']; subst. constructor; [|exact (IH HN')].
  apply Forall_forall. intros P HP. apply in_map_iff in HP. destruct HP as (g' & <- & Hg'). intros x _ H1 H2. apply matches_first in H1.
  assert (A : exists n' , In n' ns /\ exists cp' c', g' = [(RName n', c') :: cp']).
  { clear -HF Hg'. induction HF as [|g0 n0 gs ns H0 HF IH]; [destruct Hg'|]. destruct Hg' as [<- | Hg'].
    - exists n0. split; [left; reflexivity | exact H0].
    - destruct (IH Hg') as (n' & Hn' & He). exists n'. split; [right; exact Hn' | exact He]. }
  destruct A as (n' & Hn' & cp' & c' & ->). apply matches_first in H2. rewrite Forall_forall in Hn. apply (Hn n' Hn'). exact (names_differ h x n n' H1 H2).
Qed.
Ltac differ := repeat (constructor; [repeat (constructor; [vm_compute; discriminate|]); constructor|]); constructor.
Lemma header_ok h r text_of : RuleOk h r text_of alias_header.
Proof.
  split; [reflexivity|]. split; [repeat split|]. apply (named_exclusive h r text_of _ [lit "h1"; lit "h2"; lit "h3"; lit "h4"; lit "h5"; lit "h6"]); [|differ].
  repeat (constructor; [eexists _, _; reflexivity|]); constructor.
Qed.
Lemma input_ok h r text_of : RuleOk h r text_of alias_input.
Proof.
  split; [reflexivity|]. split; [repeat split|]. apply (named_exclusive h r text_of _ [lit "input"; lit "select"; lit "textarea"; lit "button"]); [|differ].
  repeat (constructor; [eexists _, _; reflexivity|]); constructor.
Qed.
Lemma submit_ok h r text_of : RuleOk h r text_of alias_submit.
Proof.
  split; [reflexivity|]. split; [repeat split; discriminate|]. apply (named_exclusive h r text_of _ [lit "input"; lit "button"]); [|differ].
  repeat (constructor; [eexists _, _; reflexivity|]); constructor.
Qed.
(** [:header], [:input], [:submit] keep what filtering by the expansion keeps. *)
Theorem C32_alias h r text_of by_id els gs : DocOk h r -> IdCache h r by_id -> In (RAlias gs) [alias_header; alias_input; alias_submit] -> Forall (ElIn h r) els -> Ordered h els ->
  exists l, filter_ast h text_of by_id els (simple (RAlias gs)) = Ok l /\ filter_ast h text_of by_id els gs = Ok l /\ Kept (meets h text_of gs) els l.
Proof.
  intros D IC Hg He Ho. assert (Hok : RuleOk h r text_of (RAlias gs)).
  { cbn in Hg. destruct Hg as [E0 | [E0 | [E0 | []]]]; rewrite <- E0; [apply header_ok | apply input_ok | apply submit_ok]. }
  destruct (rule_filter_partial h r text_of by_id els _ D IC Hok He Ho) as (l & El & K). exists l. split; [exact El|]. split; [|exact K].
  cbn [RuleOk] in Hok. destruct Hok as (Hw & Hall & HX). rewrite fold_and_in in Hall.
  assert (HS : Setting h r text_of by_id gs).
  { split; [exact D | exact IC | | exact Hw]. intros g Hg' cp Hc rl c Hi. specialize (Hall g Hg'). rewrite fold_and_in in Hall. specialize (Hall cp Hc).
    rewrite fold_and_in in Hall. exact (Hall (rl, c) Hi). }
  destruct (C09_filter_not_exclusive_partial h r text_of by_id els gs HS He Ho) as (l' & _ & El' & K' & _).
  - rewrite Forall_forall in He. clear -HX He. remember (map (preds h text_of) gs) as ps eqn:Ep. revert gs Ep. induction HX as [|P ps HP _ IH]; intros [|g gs] Ep; try discriminate; [constructor|].
    injection Ep as -> ->. constructor; [|exact (IH gs eq_refl)]. rewrite Forall_forall in *. intros g' Hg' x Hx. exact (HP (preds h text_of g') (in_map _ _ _ Hg') x (He x Hx)).
  - rewrite El'. f_equal. exact (kept_fun _ _ _ K' _ K).
Qed.
Print Assumptions C32_alias.

(** [<form><h2/><select><option/><option selected/></select><input type=submit><select><optgroup><option selected/></optgroup><option/></select></form>]:
    form 1, h2 2, select 3, option 4, option 5, input 6, select 7, optgroup 8, option 9, option 10. *)
Definition fdoc : heap := doc
  [E "form" [] [E "h2" [] []; E "select" [] [E "option" [] []; E "option" [at0 "selected"] []]; E "input" [at_ "type" "submit"] [];
                E "select" [] [E "optgroup" [] [E "option" [at0 "selected"] []]; E "option" [] []]]].
Definition fdoc1 : heap := doc
  [E "form" [] [E "h2" [] []; E "select" [] [E "option" [] []; E "option" [at0 "selected"] []]; E "input" [at_ "type" "submit"] []; E "select" [] [E "option" [] []; E "option" [] []]]].
Example C32_ex : let gs := [[[(RClass (lit "a"), ChildrenAll)]]; [[(RName (lit "div"), ChildrenAll)]; [(RName (lit "p"), Children); (RNot (NSel [[[(RClass (lit "a"), ChildrenAll)]]]), Chain)]]] in
  DocOk sdoc 0 /\ IdCache sdoc 0 (ids_of sdoc) /\ RuleOk sdoc 0 stext (RNot (NSel gs)) /\ RuleOk sdoc 0 stext (RHas (NSel gs)) /\
  sfilter s_els (RNot (NSel gs)) = Ok [4; 7; 9; 10] /\ sfilter s_els (RHas (NSel gs)) = Ok [1; 4] /\ sfilter s_els (RContains (lit "yo")) = Ok [1; 4; 5] /\
  DocOk fdoc1 0 /\ OptionsFirst fdoc1 0 /\ Forall (ElIn fdoc1 0) [1; 2; 3; 4; 5; 6; 7; 8; 9] /\ Ordered fdoc1 [1; 2; 3; 4; 5; 6; 7; 8; 9] /\
  filter_ast fdoc1 stext (ids_of fdoc1) [1; 2; 3; 4; 5; 6; 7; 8; 9] (simple RChecked) = Ok [5; 8] /\
  filter_ast fdoc1 stext (ids_of fdoc1) [1; 2; 3; 4; 5; 6; 7; 8; 9] (simple alias_header) = Ok [2] /\
  filter_ast fdoc1 stext (ids_of fdoc1) [1; 2; 3; 4; 5; 6; 7; 8; 9] (simple alias_input) = Ok [3; 6; 7] /\
  filter_ast fdoc1 stext (ids_of fdoc1) [1; 2; 3; 4; 5; 6; 7; 8; 9] (simple alias_submit) = Ok [6].
Proof.
  assert (D : DocOk sdoc 0) by (apply docok_check_sound; vm_compute; reflexivity).
  assert (D1 : DocOk fdoc1 0) by (apply docok_check_sound; vm_compute; reflexivity).
  intros gs. split; [exact D|]. split; [apply (ids_check_sound sdoc 0 D); vm_compute; reflexivity|]. split; [apply (rule_check_sound sdoc 0 stext _ D); vm_compute; reflexivity|].
  split; [apply (rule_check_sound sdoc 0 stext _ D); vm_compute; reflexivity|]. do 3 (split; [vm_compute; reflexivity|]).
  split; [exact D1|]. split; [apply (options_check_sound fdoc1 0 D1); vm_compute; reflexivity|].
  destruct (elset_check_sound fdoc1 0 [1; 2; 3; 4; 5; 6; 7; 8; 9]) as [H1 H2]; [vm_compute; reflexivity|]. split; [exact H1|]. split; [exact H2|]. repeat split; vm_compute; reflexivity.
Qed.
(** [:not(.a, .b)] keeps an element of class b. *)
Theorem C32_not_refuted : exists h r text_of by_id els gs x l, Setting h r text_of by_id gs /\ Forall (ElIn h r) els /\ Ordered h els /\
  filter_ast h text_of by_id els (simple (RNot (NSel gs))) = Ok l /\ In x l /\ ~ Holds h text_of (RNot (NSel gs)) x.
Proof.
  exists sdoc, 0, stext, (ids_of sdoc), [2; 4; 5], sel_ab, 4. eexists.
  assert (HS : Setting sdoc 0 stext (ids_of sdoc) sel_ab) by (apply sdoc_set; vm_compute; reflexivity).
  assert (He : Forall (ElIn sdoc 0) [2; 4; 5] /\ Ordered sdoc [2; 4; 5]) by (apply (elset_check_sound sdoc 0); vm_compute; reflexivity).
  split; [exact HS|]. split; [apply He|]. split; [apply He|]. split; [vm_compute; reflexivity|]. split; [vm_compute; tauto|].
  intros H. apply H. destruct HS as [D _ Hok Hw]. apply (meets_spec sdoc 0 D stext sel_ab 4 Hok Hw); [|vm_compute; reflexivity].
  destruct He as [He _]. rewrite Forall_forall in He. apply He. cbn. tauto.
Qed.
Print Assumptions C32_not_refuted.
(** An option is reported as checked although an option before it, in an optgroup, is selected. *)
Theorem C32_checked_refuted : exists h r text_of by_id x, DocOk h r /\ ElIn h r x /\
  filter_ast h text_of by_id [x] (simple RChecked) = Ok [x] /\ ~ (CheckedBox h x \/ CheckedOption h x).
Proof.
  assert (D : DocOk fdoc 0) by (apply docok_check_sound; vm_compute; reflexivity).
  exists fdoc, 0, stext, (ids_of fdoc), 10. split; [exact D|].
  assert (He : Forall (ElIn fdoc 0) [7; 8; 9; 10]) by (apply els_check_sound; vm_compute; reflexivity).
  assert (HW : AllIn fdoc 0 [0; 1]) by (apply allin_check_sound; vm_compute; reflexivity).
  rewrite Forall_forall in He. split; [apply He; cbn; tauto|]. split; [vm_compute; reflexivity|].
  assert (HN : forall x n, In x [7; 8; 9; 10] -> (NameIs fdoc x n <-> named fdoc n x = true)) by (intros x n Hx; symmetry; exact (named_spec fdoc 0 n x D (He x Hx))).
  intros [(H & _) | (_ & [(v & a & E0 & Es) | (p & Hc & _ & _ & _ & H)])].
  - apply HN in H; [|cbn; tauto]. vm_compute in H. discriminate.
  - vm_compute in E0. injection E0 as <-. discriminate.
  - assert (p = 7); [|subst p].
    { apply (child_parent fdoc (do_wf fdoc 0 D)) in Hc. vm_compute in Hc. congruence. }
    apply (H 9).
    + split; [split; [|vm_compute; reflexivity]|split].
      * apply (upb_spec fdoc 0 D 9 7); [apply He; cbn; tauto | vm_compute; reflexivity].
      * apply HN; [cbn; tauto | vm_compute; reflexivity].
      * intros z H1 H2 H3. assert (z = 8); [|subst z].
        { apply (upb_spec fdoc 0 D 9 z) in H2; [|apply He; cbn; tauto]. unfold upb in H2. apply existsb_exists in H2. destruct H2 as (y & Hy & Ey). apply Nat.eqb_eq in Ey. subst y.
          vm_compute in Hy. destruct Hy as [<- | [<- | [<- | [<- | []]]]]; [reflexivity | | |]; exfalso.
          - exact (anc_irrefl fdoc (do_wf fdoc 0 D) _ H1).
          - apply (upb_spec fdoc 0 D 1 7) in H1; [vm_compute in H1; discriminate | rewrite Forall_forall in HW; apply HW; cbn; tauto].
          - apply (upb_spec fdoc 0 D 0 7) in H1; [vm_compute in H1; discriminate | rewrite Forall_forall in HW; apply HW; cbn; tauto]. }
        apply HN in H3; [|cbn; tauto]. vm_compute in H3. discriminate.
    + exists None, (Some ATrue). split; vm_compute; reflexivity.
Qed.
Print Assumptions C32_checked_refuted.
