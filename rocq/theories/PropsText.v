(** Property theorems: the texts below an element (C26, C42), the value of a form control (C28).
    Texts and values of attributes are the stored ones; [text_of] stands for rphtml's text reading. *)
From Verif Require Import Base Attr Dom DomSpec Order OrderSpec DomProofs OrderProofs NavProofs DomBuild DomBuildProofs
  Engine Rules SelSpec SelBuild FindSpec FindBuild Mutate MutateSpec MutateProofs InsertProofs HistoryProofs TextNodes Form TextSpec TextProofs FormProofs PropsFilter PropsMutate.

(** * C26: texts *)
(** Exactly the texts below [x] within the limit that pass the handle, in document order; an element whose text is
    its own content (and which has no child nodes) is its own only text. *)
Theorem C26_texts (o : oracles_dom) (h : heap) (x : id) (limit : nat) (handle : nat -> id -> bool) (rec : id -> bool) :
  WF h -> exists l,
  texts_by_rec o h x limit handle rec = Ok l /\ Ordered h l /\
  forall t, In t l <->
    (exists d, TextBelow o h rec x d t /\ Within limit d /\ handle d t = true) \/
    (t = x /\ kids h x = [] /\ od_content_tag o (tag_names h x) = true /\ handle 0 x = true).
Proof. exact (texts_by_rec_ok o h x limit handle rec). Qed.
Print Assumptions C26_texts.

(** Without handles and without limit: all texts below, however deep. *)
Theorem C26_texts_all (o : oracles_dom) (h : heap) (x : id) : WF h -> is_element h x = true -> od_content_tag o (tag_names h x) = false ->
  exists l, texts o h x 0 = Ok l /\ Ordered h l /\
  forall t, In t l <-> Anc h x t /\ Textual o h t /\
    forall c, Anc h x c -> Anc h c t -> od_content_tag o (tag_names h c) = false.
Proof.
  intros wf He Ho. destruct (texts_by_rec_ok o h x 0 (fun _ _ => true) (fun _ => true) wf) as (l & E & Hl & Hin).
  exists l. split; [exact E|]. split; [exact Hl|]. intros t. rewrite Hin. split.
  - intros [(d & ((p & Hp & Hn) & Ht & Hb) & _) | (_ & _ & H & _)]; [|congruence].
    split; [apply anc_path; exists p; split; [destruct p; discriminate | exact Hp]|]. split; [exact Ht|].
    intros c H1 H2. exact (proj1 (proj2 (Hb c H1 H2))).
  - intros (Ha & Ht & Hb). left. apply anc_path in Ha. destruct Ha as (p & Hne & Hp). exists (length p - 1).
    split; [|split; [left; reflexivity | reflexivity]]. split; [exists p; split; [exact Hp | destruct p; [congruence | cbn; lia]]|].
    split; [exact Ht|]. intros c H1 H2. split; [|split; [exact (Hb c H1 H2) | reflexivity]].
    destruct (anc_first h _ _ H2) as (k & (i & Hk) & _).
    destruct (wf_parent h wf _ _ (listed_parent h wf _ _ _ Hk)) as [_ [H | H]]; [exact H|]. exfalso.
    apply (wf_root h wf) in H. destruct (anc_inv h _ _ H1) as (q & _ & (j & Hj)). rewrite (listed_parent h wf _ _ _ Hj) in H. discriminate.
Qed.
Print Assumptions C26_texts_all.

(** On a set: the texts of each element, one element after the other. *)
Theorem C26_set_texts (o : oracles_dom) (h : heap) (els : list id) (limit : nat) (handle : nat -> id -> bool) (rec : id -> bool) :
  WF h -> exists ls, set_texts_by_rec o h els limit handle rec = Ok (concat ls) /\
  Forall2 (fun x l => texts_by_rec o h x limit handle rec = Ok l) els ls.
Proof.
  intros wf. unfold set_texts_by_rec.
  assert (H : forall acc, exists ls, rfold (fun acc x => do l <- texts_by_rec o h x limit handle rec; Ok (acc ++ l)) els acc = Ok (acc ++ concat ls) /\
    Forall2 (fun x l => texts_by_rec o h x limit handle rec = Ok l) els ls).
  { induction els as [|x els IH]; intros acc; [exists []; split; [cbn; rewrite app_nil_r; reflexivity | constructor]|].
    destruct (texts_by_rec_ok o h x limit handle rec wf) as (l & E & _). cbn [rfold]. rewrite E. cbn [rbind].
    destruct (IH (acc ++ l)) as (ls & E1 & E2). exists (l :: ls). rewrite E1. cbn [concat]. rewrite app_assoc. split; [reflexivity|].
    constructor; assumption. }
  destruct (H []) as (ls & E & F). exists ls. split; assumption.
Qed.
Print Assumptions C26_set_texts.

(** Full claim: text() is the concatenation of all text below the element.
    Missing: the text of one element is computed by rphtml (not part of the code); proved here: the text of a set
    is the concatenation of the texts of its elements in order. *)
Theorem C26_set_text_partial (text_of : id -> str) (els : list id) : set_text_of text_of els = concat (map text_of els).
Proof.
  unfold set_text_of.
  assert (H : forall acc, fold_left (fun acc x => acc ++ text_of x) els acc = acc ++ concat (map text_of els)).
  { induction els as [|x els IH]; intros acc; cbn; [rewrite app_nil_r; reflexivity|]. rewrite IH, app_assoc. reflexivity. }
  exact (H []).
Qed.
Print Assumptions C26_set_text_partial.

(** [<div>a<p>b<script>c</script><b>d<i>e</i></b></p><!--x-->f</div>]:
    div 1, a 2, p 3, b 4, script 5, b 6, d 7, i 8, e 9, comment 10, f 11. *)
Definition tdoc : heap := doc
  [E "div" [] [Tx (lit "a");
    E "p" [] [Tx (lit "b"); E "script" [] []; E "b" [] [Tx (lit "d"); E "i" [] [Tx (lit "e")]]];
    Cm (lit "x"); Tx (lit "f")]].
Definition tod : oracles_dom :=
  mkOD (fun _ _ => true) (fun t => str_eqb t (lit "script") || str_eqb t (lit "textarea")) (fun s => s).
Example C26_ex : WF tdoc /\ texts tod tdoc 1 0 = Ok [2; 4; 5; 7; 9; 11] /\ texts tod tdoc 1 1 = Ok [2; 11] /\
  texts tod tdoc 1 3 = Ok [2; 4; 5; 7; 11] /\ texts tod tdoc 5 0 = Ok [5] /\
  texts_by_rec tod tdoc 1 0 (fun d _ => 1 <=? d) (fun x => negb (x =? 6)) = Ok [4; 5] /\
  set_texts tod tdoc [3; 6] 1 = Ok [4; 5; 7].
Proof. split; [apply wf_check_sound; vm_compute; reflexivity|]. vm_compute. repeat split; reflexivity. Qed.

(** * C27: the texts after [set_text] *)
(** The only text below the element is then the new one; its content is the encoded string. *)
Theorem C27_set_text_texts (o : oracles_dom) (h : heap) (x : id) (s : str) : WF h ->
  is_element h x = true -> od_content_tag o (tag_names h x) = false ->
  exists h', set_text o h x s = (h', []) /\
    match s with
    | [] => texts o h' x 0 = Ok []
    | _ => exists t, texts o h' x 0 = Ok [t] /\ n_content (node_of h' t) = Some (od_encode o s) /\ ~ Attached h t
    end.
Proof.
  intros wf He Ho. destruct s as [|a s].
  - exists (upd h x (set_ch None)). split; [exact (set_text_empty o h x He Ho)|].
    destruct (emptied_ok h x) as (S1 & K1 & _). unfold texts, texts_by, texts_by_rec. cbn [texts_loop]. rewrite K1.
    unfold content_el. rewrite (same_tag _ _ S1), Ho. reflexivity.
  - destruct (C27_set_text_children o h x a s wf He Ho) as (h' & E & _ & (L & N & K & Ty & Co & _)).
    exists h'. split; [exact E|]. exists (length h). split; [|split; [exact Co|]].
    + unfold texts, texts_by, texts_by_rec. cbn [texts_loop]. rewrite K. cbn [rfold]. unfold is_text. rewrite Ty. reflexivity.
    + intros (p & i & Hi). destruct (wf_listed h wf _ _ _ Hi) as [Hlt _]. lia.
Qed.
Print Assumptions C27_set_text_texts.
Example C27_texts_ex : is_element tdoc 1 = true /\ od_content_tag tod (tag_names tdoc 1) = false /\
  texts tod (fst (set_text tod tdoc 1 (lit "new"))) 1 0 = Ok [12].
Proof. repeat split. Qed.

(** * C42: Texts::filter_by *)
(** On texts that are text nodes it keeps those that pass, in order. *)
Theorem C42_texts_filter_partial (h : heap) (handle : nat -> id -> bool) (ts : list id) : Forall (IsText h) ts ->
  (* Full claim: for every list [texts] returns.  Missing: content-tag elements, see the refutation. *)
  texts_filter h handle ts = Ok (map snd (filter (fun p => handle (fst p) (snd p)) (combine (seq 0 (length ts)) ts))).
Proof.
  unfold texts_filter. generalize 0. induction ts as [|t ts IH]; intros i H; [reflexivity|]. inversion H as [|? ? H1 H2]; subst.
  cbn [texts_filter_from length seq combine filter fst snd]. rewrite (proj2 (is_text_spec h t) H1), (IH (S i) H2). destruct (handle i t); reflexivity.
Qed.
Print Assumptions C42_texts_filter_partial.
Example C42_ex : Forall (IsText tdoc) [2; 4; 7; 9] /\ texts_filter tdoc (fun i _ => negb (i =? 1)) [2; 4; 7; 9] = Ok [2; 7; 9].
Proof. split; [repeat constructor | reflexivity]. Qed.
(** A script element among the texts: filtering panics as soon as the handle accepts it. *)
Theorem C42_texts_filter_refuted : exists o h x ts, WF h /\ texts o h x 0 = Ok ts /\ texts_filter h (fun _ _ => true) ts = Panic.
Proof.
  exists tod, tdoc, 1, [2; 4; 5; 7; 9; 11]. split; [apply wf_check_sound; vm_compute; reflexivity|]. split; vm_compute; reflexivity.
Qed.
Print Assumptions C42_texts_filter_refuted.

(** * C43: removing the texts below an element *)
(** All and only the texts found are taken out; asking again finds none.
    Full claim: for every element.  Missing: elements with a content tag, see the refutation. *)
Theorem C43_texts_remove_partial (o : oracles_dom) (h : heap) (x : id) (limit : nat) (handle : nat -> id -> bool) (rec : id -> bool) :
  WF h -> od_content_tag o (tag_names h x) = false ->
  exists ts h', texts_by_rec o h x limit handle rec = Ok ts /\ texts_remove h ts = Ok h' /\ WF h' /\ TakenOutAll h h' ts /\
    texts_by_rec o h' x limit handle rec = Ok [].
Proof.
  intros wf Ho. destruct (texts_by_rec_ok o h x limit handle rec wf) as (ts & E & Hord & Hin). exists ts.
  destruct (texts_remove_ok ts h wf (ordered_distinct h wf ts Hord)) as (h' & E' & wf' & T).
  { apply Forall_forall. intros t Ht. apply Hin in Ht. destruct Ht as [(d & ((l & Hl & Hn) & _) & _) | (_ & _ & H & _)]; [|congruence].
    destruct (anc_inv h x t) as (p & _ & (i & Hi)); [apply anc_path; exists l; split; [destruct l; discriminate | exact Hl]|].
    split; [exact (proj1 (wf_listed h wf _ _ _ Hi)) | right; exists p, i; exact Hi]. }
  exists h'. split; [exact E|]. split; [exact E'|]. split; [exact wf'|]. split; [exact T|].
  destruct (texts_by_rec_ok o h' x limit handle rec wf') as (ts' & F & _ & Fin). rewrite F. f_equal.
  destruct ts' as [|t ts']; [reflexivity|]. exfalso. destruct (proj1 (Fin t) (or_introl eq_refl)) as [(d & Hb & H2 & H3) | (_ & _ & H & _)].
  - destruct (taken_below h h' ts wf T o rec x d t Hb) as [Hb' Hn]. apply Hn, Hin. left. exists d. exact (conj Hb' (conj H2 H3)).
  - rewrite (same_tag _ _ (proj1 T)) in H. congruence.
Qed.
Print Assumptions C43_texts_remove_partial.
Example C43_ex : WF tdoc /\ od_content_tag tod (tag_names tdoc 1) = false /\
  exists h', texts_remove tdoc [2; 4; 5; 7; 11] = Ok h' /\ kids h' 1 = [3; 10] /\ kids h' 3 = [6] /\ kids h' 6 = [8] /\ kids h' 8 = [9].
Proof.
  split; [apply wf_check_sound; vm_compute; reflexivity|]. split; [reflexivity|]. eexists. split; [vm_compute; reflexivity|]. repeat split.
Qed.

(** A script element is its own text, and still is after it was taken out. *)
Theorem C43_texts_remove_refuted : exists o h x h', WF h /\ texts o h x 0 = Ok [x] /\ texts_remove h [x] = Ok h' /\ texts o h' x 0 = Ok [x].
Proof.
  exists tod, tdoc, 5. eexists. split; [apply wf_check_sound; vm_compute; reflexivity|]. split; [vm_compute; reflexivity|].
  split; [vm_compute; reflexivity|]. vm_compute. reflexivity.
Qed.
Print Assumptions C43_texts_remove_refuted.

(** * C44: appending to and prepending to a text *)
Theorem C44_append_text_partial (h : heap) (t : id) (c s : str) : WF h -> t < length h -> n_content (node_of h t) = Some c ->
  (* Full claim: for every text.  Missing: a content-tag element without content, see the refutation. *)
  (exists h', append_text h t s = Ok h' /\ WF h' /\ OnlyContent h h' t (Some (c ++ s))) /\
  (exists h', prepend_text h t s = Ok h' /\ WF h' /\ OnlyContent h h' t (Some (s ++ c))).
Proof.
  intros wf Ht E. unfold append_text, prepend_text. rewrite E.
  split; eexists; (split; [reflexivity|]); (split; [|apply set_con_only; exact Ht]);
    (eapply only_content_wf; [exact wf | apply set_con_only; exact Ht]).
Qed.
Print Assumptions C44_append_text_partial.
Example C44_ex : WF tdoc /\ 4 < length tdoc /\ n_content (node_of tdoc 4) = Some (lit "b") /\
  exists h', append_text tdoc 4 (lit "!") = Ok h' /\ n_content (node_of h' 4) = Some (lit "b!").
Proof.
  split; [apply wf_check_sound; vm_compute; reflexivity|]. split; [vm_compute; repeat constructor|]. split; [reflexivity|].
  eexists. split; [vm_compute; reflexivity|]. reflexivity.
Qed.
(** An empty script is a text for [texts], but appending to it panics. *)
Theorem C44_append_text_refuted : exists o h x t, WF h /\ texts o h x 0 = Ok [t] /\ (forall s, append_text h t s = Panic) /\ forall s, prepend_text h t s = Panic.
Proof.
  exists tod, (doc [E "div" [] [E "script" [] []]]), 1, 2. split; [apply wf_check_sound; vm_compute; reflexivity|].
  split; [vm_compute; reflexivity|]. split; reflexivity.
Qed.
Print Assumptions C44_append_text_refuted.

(** * C28: form values *)
(** Full claim: the options of the select are all its option descendants.
    Missing: options inside options are not looked at, and more than 255 levels of other elements overflow the level
    counter; see the refutations. *)
Theorem C28_single_partial (text_of : id -> str) (h : heap) (r s : id) : DocOk h r -> ElIn h r s -> tag_names h s = lit "select" ->
  Shallow h s -> node_has_attribute h s (lit "multiple") = Ok false ->
  exists v, value text_of h s = Ok (Single v) /\
    ((exists y, FirstIn h (fun z => OptionOf h s z /\ Selected h z) y /\ HasValue h y v) \/
     (~ exists y, OptionOf h s y /\ Selected h y) /\
     ((exists y, FirstIn h (fun z => Child h s z /\ IsOption h z) y /\ HasValue h y v) \/
      (~ exists y, Child h s y /\ IsOption h y) /\ v = [])).
Proof. intros D [H1 _] H2 H3 H4. exact (value_single h r D text_of s H1 H2 H3 H4). Qed.
Print Assumptions C28_single_partial.
Theorem C28_multiple_partial (text_of : id -> str) (h : heap) (r s : id) : DocOk h r -> ElIn h r s -> tag_names h s = lit "select" ->
  Shallow h s -> node_has_attribute h s (lit "multiple") = Ok true ->
  exists ys vs, value text_of h s = Ok (Multiple vs) /\ Ordered h ys /\ Forall2 (HasValue h) ys vs /\
    forall y, In y ys <-> OptionOf h s y /\ Selected h y.
Proof. intros D [H1 _] H2 H3 H4. exact (value_multiple h r D text_of s H1 H2 H3 H4). Qed.
Print Assumptions C28_multiple_partial.

(** Inputs and options: the value attribute.  Full claim: an option without it has its text as value; refuted. *)
Theorem C28_input_partial (text_of : id -> str) (h : heap) (r x : id) : DocOk h r -> ElIn h r x ->
  tag_names h x = lit "input" \/ tag_names h x = lit "option" ->
  exists v, value text_of h x = Ok (Single v) /\ HasValue h x v.
Proof.
  intros D Hx Hn. exists (vof h x). split; [|exact (vof_spec h r D x Hx)]. unfold value, tag_is.
  assert (E : str_eqb (tag_names h x) (lit "input") || str_eqb (tag_names h x) (lit "option") = true)
    by (rewrite orb_true_iff, !str_eqb_spec; exact Hn).
  rewrite E, (vof_ok h r D x Hx). reflexivity.
Qed.
Print Assumptions C28_input_partial.
(** Textareas, other elements, sets. *)
Theorem C28_other (text_of : id -> str) (h : heap) (x : id) : ~ In (tag_names h x) [lit "input"; lit "option"; lit "select"] ->
  value text_of h x = Ok (Single (if str_dec (tag_names h x) (lit "textarea") then text_of x else [])).
Proof.
  intros H. unfold value, tag_is.
  assert (F : forall n, In n [lit "input"; lit "option"; lit "select"] -> str_eqb (tag_names h x) n = false).
  { intros n Hn. destruct (str_eqb (tag_names h x) n) eqn:E; [|reflexivity]. apply str_eqb_spec in E. rewrite E in H. contradiction. }
  rewrite (F (lit "input") ltac:(cbn; tauto)), (F (lit "option") ltac:(cbn; tauto)), (F (lit "select") ltac:(cbn; tauto)). cbn [orb].
  destruct (str_eqb (tag_names h x) (lit "textarea")) eqn:E; destruct (str_dec (tag_names h x) (lit "textarea")) as [Ed | Ed]; try reflexivity.
  - apply str_eqb_spec in E. contradiction.
  - apply str_eqb_spec in Ed. congruence.
Qed.
Print Assumptions C28_other.

(** [<select><optgroup><option value=g></optgroup><option value=a><optgroup><option value=b selected></optgroup>
    <option value=c selected>c</select>], with and without "multiple" and "selected":
    select 1, optgroup 2, option 3, option 4, optgroup 5, option 6, option 7. *)
Definition opt_ (v : String.string) (more : list (str * option str)) : dtree := E "option" (at_ "value" v :: more) [].
Arguments opt_ v%string_scope more.
Definition fdoc (m s : list (str * option str)) : heap := doc
  [E "SELECT" m
    [E "optgroup" [] [opt_ "g" []]; opt_ "a" []; E "optgroup" [] [opt_ "b" s];
     E "option" (at_ "value" "c" :: s) [Tx (lit "c")]];
   E "input" [at_ "value" "in"] []; E "option" [] [Tx (lit "text")]].
Lemma shallow_small h s : WF h -> length h < 255 -> Shallow h s.
Proof.
  intros wf Hh l y Hl _ _ _. pose proof (key_path h wf _ _ _ Hl) as K. pose proof (key_length h wf y) as L.
  rewrite K, app_length in L. lia.
Qed.
Example C28_ex :
  (forall m s, In m [[]; [at0 "multiple"]] -> In s [[]; [at0 "selected"]] -> DocOk (fdoc m s) 0 /\ ElIn (fdoc m s) 0 1 /\
    tag_names (fdoc m s) 1 = lit "select" /\ Shallow (fdoc m s) 1) /\
  (forall text_of, value text_of (fdoc [] []) 1 = Ok (Single (lit "a"))) /\
  (forall text_of, value text_of (fdoc [] [at0 "selected"]) 1 = Ok (Single (lit "b"))) /\
  (forall text_of, value text_of (fdoc [at0 "multiple"] [at0 "selected"]) 1 = Ok (Multiple [lit "b"; lit "c"])) /\
  (forall text_of, value text_of (fdoc [] []) 9 = Ok (Single (lit "in"))) /\
  node_has_attribute (fdoc [] []) 1 (lit "multiple") = Ok false /\
  node_has_attribute (fdoc [at0 "multiple"] []) 1 (lit "multiple") = Ok true.
Proof.
  split.
  - intros m s Hm Hs. assert (HD : DocOk (fdoc m s) 0).
    { apply docok_check_sound. destruct Hm as [<- | [<- | []]], Hs as [<- | [<- | []]]; vm_compute; reflexivity. }
    split; [exact HD|]. split; [split; [|reflexivity]; split; [reflexivity|]; exists [0]; apply path_one; reflexivity|]. split; [reflexivity|].
    apply shallow_small; [exact (do_wf _ _ HD)|]. vm_compute. repeat constructor.
  - repeat split; intros; vm_compute; reflexivity.
Qed.
(** An option without value attribute: "" instead of its text. *)
Theorem C28_option_text_refuted : exists text_of h x, DocOk h 0 /\ ElIn h 0 x /\ tag_names h x = lit "option" /\
  text_of x <> [] /\ value text_of h x = Ok (Single []).
Proof.
  exists (fun _ => lit "text"), (fdoc [] []), 10. split; [apply docok_check_sound; vm_compute; reflexivity|].
  split; [split; [|reflexivity]; split; [reflexivity|]; exists [2]; apply path_one; reflexivity|]. repeat split. discriminate.
Qed.
Print Assumptions C28_option_text_refuted.
(** A selected option inside another option is ignored. *)
Theorem C28_nested_refuted : exists h s y, DocOk h 0 /\ ElIn h 0 s /\ tag_names h s = lit "select" /\
  FirstIn h (fun z => Anc h s z /\ IsOption h z /\ Selected h z) y /\
  forall text_of v, HasValue h y v -> value text_of h s <> Ok (Single v).
Proof.
  exists (doc [E "select" [] [E "option" [at_ "value" "a"] [opt_ "b" [at0 "selected"]]]]), 1, 3.
  assert (HD : DocOk (doc [E "select" [] [E "option" [at_ "value" "a"] [opt_ "b" [at0 "selected"]]]]) 0) by (apply docok_check_sound; vm_compute; reflexivity).
  split; [exact HD|].
  split; [split; [|reflexivity]; split; [reflexivity|]; exists [0]; apply path_one; reflexivity|]. split; [reflexivity|]. split.
  - split.
    + split; [|split; [split; reflexivity | reflexivity]]. apply anc_path. exists [0; 0]. split; [discriminate|].
      apply (path_cons _ _ 0 2); [reflexivity|]. apply path_one. reflexivity.
    + intros z (_ & _ & Hz). do 4 (destruct z as [|z]; [vm_compute in Hz; first [discriminate | left; reflexivity]|]).
      vm_compute in Hz. destruct z; discriminate.
  - intros text_of v [(q & E) | (-> & [E | E])]; vm_compute in E; try discriminate. injection E as <- _. vm_compute. discriminate.
Qed.
Print Assumptions C28_nested_refuted.
(** 256 levels of elements: the level counter overflows. *)
Fixpoint nest (n : nat) : list dtree := match n with 0 => [] | S n' => [E "b" [] (nest n')] end.
Theorem C28_deep_refuted : exists h s, DocOk h 0 /\ ElIn h 0 s /\ tag_names h s = lit "select" /\
  forall text_of, value text_of h s = Panic.
Proof.
  exists (doc [E "select" [] (nest 256)]), 1. split; [apply docok_check_sound; vm_compute; reflexivity|].
  split; [split; [|vm_compute; reflexivity]; split; [vm_compute; reflexivity|]; exists [0]; apply path_one; vm_compute; reflexivity|].
  split; [vm_compute; reflexivity|]. intros text_of. vm_compute. reflexivity.
Qed.
Print Assumptions C28_deep_refuted.

(** Exactly then, unless a selected option ends the search. *)
Theorem C28_overflow (text_of : id -> str) (h : heap) (r s : id) : DocOk h r -> ElIn h r s -> tag_names h s = lit "select" ->
  value text_of h s <> OutOfFuel /\ (value text_of h s = Panic -> TooDeep h s) /\
  (node_has_attribute h s (lit "multiple") = Ok true \/ (forall z, OptionOf h s z -> ~ Selected h z) ->
   TooDeep h s -> value text_of h s = Panic).
Proof.
  intros D Hs Hn. destruct (value_overflow h r D text_of s Hs Hn) as [H1 H2]. split; [exact H1|]. split; [exact H2|].
  intros HM H. exact (value_deep h r D text_of s Hs Hn H HM).
Qed.
Print Assumptions C28_overflow.
(** The value of a set is the value of its first member. *)
Theorem C28_set (text_of : id -> str) (h : heap) (els : list id) :
  (forall x, nth_error els 0 = Some x -> val text_of h els = value text_of h x) /\
  (length els = 0 -> val text_of h els = Ok (Single [])).
Proof.
  destruct els as [|x els]; (split; [intros y E; cbn in E | intros E; cbn in E]); try discriminate; [reflexivity|].
  injection E as ->. reflexivity.
Qed.
Print Assumptions C28_set.
(** 255 levels are fine, 256 are not. *)
Example C28_more_ex :
  (forall text_of, value text_of (doc [E "select" [] (nest 255)]) 1 = Ok (Single [])) /\
  (forall text_of, value text_of (doc [E "select" [] (nest 256)]) 1 = Panic) /\
  (forall text_of, val text_of (fdoc [] []) [9; 1] = Ok (Single (lit "in"))) /\
  (forall text_of, val text_of (fdoc [] []) [1; 9] = Ok (Single (lit "a"))).
Proof. repeat split; intros; vm_compute; reflexivity. Qed.
