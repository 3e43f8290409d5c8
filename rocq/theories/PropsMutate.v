(** Property theorems: mutations (C21-C25, C27 structure, C39 mutation part, C40 independence, C41). *)
From Verif Require Import Base Utils Attr Dom DomSpec Order DomProofs Sets SetsProofs Mutate MutateSpec MutateProofs
  InsertProofs HistoryProofs FrameProofs DomBuild DomBuildProofs PropsSets.

(** Oracles of the examples: everything may be put everywhere except into [img]; [title] holds its text directly. *)
Definition ex_od : oracles_dom :=
  mkOD (fun tag _ => negb (str_eqb tag (lit "img"))) (fun tag => str_eqb tag (lit "title")) (fun s => s).

(** A node to be inserted at, or next to, [e]. *)
Definition Free (h : heap) (e x : id) : Prop := Placed h x /\ is_root h x = false /\ ~ AncEq h x e.
Lemma free_accepts h r e x : WF h -> InTree h r e -> is_element h e = true -> Free h e x -> Accepts h e x.
Proof.
  intros wf Hi He (Hp & Hr & Hn). split; try assumption.
  - intros ->. apply Hn. left. reflexivity.
  - intros H. apply Hn. right. exact (intree_up_anc h wf r e x Hi H).
Qed.
Lemma free_all h r e d : WF h -> InTree h r e -> is_element h e = true -> Forall (Free h e) d -> Forall (Accepts h e) (rev d).
Proof.
  intros wf Hi He H. rewrite Forall_forall in H |- *. intros x Hx. apply in_rev in Hx.
  exact (free_accepts h r e x wf Hi He (H x Hx)).
Qed.
Lemma without_all_rev d l : without_all (rev d) l = without_all d l.
Proof. apply without_all_ext. intros y. rewrite <- in_rev. reflexivity. Qed.

(** C21 *)
Theorem C21_history (o : oracles_dom) (h : heap) (calls : list op) : WF h -> CoveredAll o h calls ->
  exists h', run_ops o h calls = Ok h' /\ WF h' /\
    (forall p, NoDup (kids h' p)) /\ (forall x, ~ Anc h' x x) /\
    (forall p q c, Child h' p c -> Child h' q c -> p = q).
Proof.
  intros wf Hc. destruct (run_ops_ok o calls h wf Hc) as (h' & E & wf'). exists h'. split; [exact E|]. split; [exact wf'|].
  split; [exact (kids_nodup h' wf')|]. split; [exact (anc_irrefl h' wf')|].
  intros p q c (i & H1) (j & H2). exact (proj1 (listed_inj h' wf' _ _ _ _ _ H1 H2)).
Qed.
Print Assumptions C21_history.

Lemma placed_check h x p : (x <? length h) = true -> nth_error (kids h p) (index h x) = Some x -> Placed h x.
Proof.
  intros H1 H2. split; [apply Nat.ltb_lt; exact H1|]. right. exists p, (index h x). exact H2.
Qed.
(** [ex_doc]: root 0, a 1, b 2, text 3, c 4, d 5, e 6: append d to b, put e before b, give c a text, drop c. *)
Definition ex_calls : list op :=
  [OInsert 2 BeforeEnd 5; OInsert 2 BeforeBegin 6; OSetText 4 (lit "hi"); ORemove 4; OAppendText 3 (lit "x")].
Example C21_ex : WF ex_doc /\ CoveredAll ex_od ex_doc ex_calls /\
  exists h', run_ops ex_od ex_doc ex_calls = Ok h' /\ kids h' 1 = [6; 2; 3] /\ kids h' 2 = [5] /\ kids h' 4 = [7].
Proof.
  split; [exact ex_doc_wf|]. split.
  - unfold ex_calls. cbn [CoveredAll].
    split; [split; [apply (placed_check _ _ 1); reflexivity | split; [apply (placed_check _ _ 4); reflexivity | reflexivity]]|].
    intros h1 E1. vm_compute in E1. injection E1 as <-.
    split; [split; [apply (placed_check _ _ 1); reflexivity | split; [apply (placed_check _ _ 0); reflexivity | reflexivity]]|].
    intros h2 E2. vm_compute in E2. injection E2 as <-. split; [exact I|].
    intros h3 E3. vm_compute in E3. injection E3 as <-. split; [apply (placed_check _ _ 1); reflexivity|].
    intros h4 E4. vm_compute in E4. injection E4 as <-. split; [vm_compute; discriminate|]. intros h5 _. exact I.
  - eexists. split; [vm_compute; reflexivity|]. repeat split.
Qed.

(** A heap with a document ([<a><b/></a>]: 0, 1, 2) and a fragment ([<c/><d/>]: 3, 4, 5). *)
Definition ex_frag : heap :=
  let h := docs2 [el "a" [el "b" []]] [el "c" []; el "d" []] in
  upd h 3 (fun n => mkNode (NRoot false) None 0 (n_childs n) None None (n_root n)).
Lemma ex_frag_wf : WF ex_frag.
Proof. apply wf_check_sound. vm_compute. reflexivity. Qed.

(** Inserting a document fragment moves its children to the place asked for; the tree is well formed once the
    fragment's own child list, which the code leaves in place, is disregarded. *)
Theorem C21_fragment_inside_partial (o : oracles_dom) (h : heap) (r self f : id) (at_end : bool) :
  WF h -> InTree h r self -> is_element h self = true -> is_fragment h f = true -> ~ Anc h f self ->
  let ns := filter (fun x => od_allow_insert o (tag_names h self) (ntype_of h x)) (kids h f) in
  exists h', insert_adjacent o h self (if at_end then BeforeEnd else AfterBegin) f = Ok (h', []) /\
    WF (clear h' f) /\ SameNodes h h' /\
    kids h' self = (if at_end then kids h self ++ ns else ns ++ kids h self) /\
    (forall q, q <> self -> kids h' q = kids h q) /\
    (forall y, In y ns -> parent h' y = Some self) /\ (forall y, ~ In y ns -> parent h' y = parent h y).
Proof.
  intros wf Hi He Hf Hn ns.
  assert (Hup : ~ Up h self f) by (intros H; exact (Hn (intree_up_anc h wf r self f Hi H))).
  destruct (fragment_inside o h self at_end f wf He Hf Hup) as (h' & E & W & [A1 A2 A3 A4 A5 A6 _ _]). exists h'.
  split; [exact E|]. split; [exact W|]. split; [exact A1|]. split; [|split; [exact A4 | split; [exact A5 | exact A6]]].
  rewrite A3. fold ns. destruct at_end; [rewrite app_nil_r|]; reflexivity.
Qed.
Print Assumptions C21_fragment_inside_partial.
Theorem C21_fragment_beside_partial (o : oracles_dom) (h : heap) (r self p f : id) (after_ : bool) (l1 l2 : list id) :
  WF h -> InTree h r self -> is_element h self = true -> is_fragment h f = true -> ~ Anc h f self ->
  Child h p self -> kids h p = l1 ++ self :: l2 ->
  exists h', insert_adjacent o h self (if after_ then AfterEnd else BeforeBegin) f = Ok (h', []) /\
    WF (clear h' f) /\ SameNodes h h' /\
    kids h' p = (if after_ then l1 ++ self :: kids h f ++ l2 else l1 ++ kids h f ++ self :: l2) /\
    (forall q, q <> p -> kids h' q = kids h q) /\
    (forall y, In y (kids h f) -> parent h' y = Some p) /\ (forall y, ~ In y (kids h f) -> parent h' y = parent h y).
Proof.
  intros wf Hi He Hf Hn Hc Ek.
  assert (Hup : ~ Up h self f) by (intros H; exact (Hn (intree_up_anc h wf r self f Hi H))).
  destruct (fragment_beside o h self p after_ f l1 l2 wf He Hf Hup Hc Ek) as (h' & E & W & [A1 A2 A3 A4 A5 A6 _ _]). exists h'.
  split; [exact E|]. split; [exact W|]. split; [exact A1|]. split; [|split; [exact A4 | split; [exact A5 | exact A6]]].
  rewrite A3. destruct after_; [rewrite <- app_assoc|]; reflexivity.
Qed.
Print Assumptions C21_fragment_beside_partial.
Example C21_fragment_ex : WF ex_frag /\ InTree ex_frag 0 1 /\ is_element ex_frag 1 = true /\ is_fragment ex_frag 3 = true /\
  Child ex_frag 1 2 /\ kids ex_frag 3 = [4; 5] /\
  exists h', insert_adjacent ex_od ex_frag 1 BeforeEnd 3 = Ok (h', []) /\ kids h' 1 = [2; 4; 5] /\ kids h' 3 = [4; 5].
Proof.
  split; [exact ex_frag_wf|]. split; [apply (intree_check_sound _ _ 10); reflexivity|]. split; [reflexivity|].
  split; [reflexivity|]. split; [exists 0; reflexivity|]. split; [reflexivity|].
  eexists. split; [vm_compute; reflexivity|]. split; reflexivity.
Qed.

(** The child list left in the fragment is wrong, and a second insertion lists the same nodes under two parents. *)
Theorem C21_fragment_refuted :
  exists o h calls h', WF h /\ run_ops o h calls = Ok h' /\
    (exists p q c, p <> q /\ is_element h' p = true /\ is_element h' q = true /\ Child h' p c /\ Child h' q c).
Proof.
  exists ex_od, ex_frag, [OInsert 1 BeforeEnd 3; OInsert 2 BeforeEnd 3].
  eexists. split; [exact ex_frag_wf|]. split; [vm_compute; reflexivity|].
  exists 1, 2, 4. split; [discriminate|]. split; [reflexivity|]. split; [reflexivity|].
  split; [exists 1; reflexivity | exists 0; reflexivity].
Qed.
Print Assumptions C21_fragment_refuted.

Lemma insert_one o pos h e d : insert_all o pos h [e] d = rfold (insert_step o pos e) (rev d) (h, []).
Proof. unfold insert_all. cbn. destruct (rfold (insert_step o pos e) (rev d) (h, [])); reflexivity. Qed.

(** C22.  [d] is the inserted set; for a single node [d = [x]] and [rev d = [x]]. *)
Theorem C22_append_partial (o : oracles_dom) (h : heap) (r e : id) (d : list id) :
  WF h -> InTree h r e -> is_element h e = true -> NoDup d -> Forall (Free h e) d ->
  Forall (fun x => od_allow_insert o (tag_names h e) (ntype_of h x) = true) d ->
  exists h', append o h [e] d = Ok (h', []) /\ WF h' /\
    MovedAllInto h h' e (without_all d (kids h e)) (rev d) [].
Proof.
  intros wf Hi He Hn Hf Hal.
  destruct (many_inside o e true (rev d) h [] wf) as (h' & E & W & M).
  - apply NoDup_rev. exact Hn.
  - exact (free_all h r e d wf Hi He Hf).
  - apply Forall_rev. exact Hal.
  - exists h'. rewrite without_all_rev in M. split; [|split; [exact W | exact M]].
    unfold append. rewrite insert_one. exact E.
Qed.
Print Assumptions C22_append_partial.

Theorem C22_prepend_partial (o : oracles_dom) (h : heap) (r e : id) (d : list id) :
  WF h -> InTree h r e -> is_element h e = true -> NoDup d -> Forall (Free h e) d ->
  Forall (fun x => od_allow_insert o (tag_names h e) (ntype_of h x) = true) d ->
  exists h', prepend o h [e] d = Ok (h', []) /\ WF h' /\ MovedAllInto h h' e [] d (without_all d (kids h e)).
Proof.
  intros wf Hi He Hn Hf Hal.
  destruct (many_inside o e false (rev d) h [] wf) as (h' & E & W & M).
  - apply NoDup_rev. exact Hn.
  - exact (free_all h r e d wf Hi He Hf).
  - apply Forall_rev. exact Hal.
  - exists h'. rewrite without_all_rev, rev_involutive in M. split; [|split; [exact W | exact M]].
    unfold prepend. rewrite insert_one. exact E.
Qed.
Print Assumptions C22_prepend_partial.

Theorem C22_before_partial (o : oracles_dom) (h : heap) (r p e : id) (d l1 l2 : list id) :
  WF h -> InTree h r e -> is_element h e = true -> Child h p e -> NoDup d -> Forall (Free h e) d ->
  without_all d (kids h p) = l1 ++ e :: l2 ->
  exists h', before o h [e] d = Ok (h', []) /\ WF h' /\ MovedAllInto h h' p l1 (rev d) (e :: l2).
Proof.
  intros wf Hi He Hc Hn Hf Ew.
  destruct (many_beside o e p false (rev d) h [] l1 l2 wf) as (h' & E & W & M).
  - apply NoDup_rev. exact Hn.
  - exact (free_all h r e d wf Hi He Hf).
  - exact Hc.
  - rewrite without_all_rev. exact Ew.
  - exists h'. split; [|split; [exact W | exact M]].
    unfold before. rewrite insert_one. exact E.
Qed.
Print Assumptions C22_before_partial.

Theorem C22_after_partial (o : oracles_dom) (h : heap) (r p e : id) (d l1 l2 : list id) :
  WF h -> InTree h r e -> is_element h e = true -> Child h p e -> NoDup d -> Forall (Free h e) d ->
  without_all d (kids h p) = l1 ++ e :: l2 ->
  exists h', after o h [e] d = Ok (h', []) /\ WF h' /\ MovedAllInto h h' p (l1 ++ [e]) d l2.
Proof.
  intros wf Hi He Hc Hn Hf Ew.
  destruct (many_beside o e p true (rev d) h [] l1 l2 wf) as (h' & E & W & M).
  - apply NoDup_rev. exact Hn.
  - exact (free_all h r e d wf Hi He Hf).
  - exact Hc.
  - rewrite without_all_rev. exact Ew.
  - exists h'. rewrite rev_involutive in M. split; [|split; [exact W | exact M]].
    unfold after. rewrite insert_one. exact E.
Qed.
Print Assumptions C22_after_partial.

(** Four siblings b 2, c 3, d 4, e 5 under a 1. *)
Definition ex_row : heap := doc [el "a" [el "b" []; el "c" []; el "d" []; el "e" []]].
Lemma ex_row_wf : WF ex_row.
Proof. apply wf_check_sound. vm_compute. reflexivity. Qed.
Lemma leaf_not_above h x y : kids h x = [] -> x <> y -> ~ AncEq h x y.
Proof.
  intros Hk Hn [H | H]; [contradiction|]. destruct (anc_first h x y H) as (c & Hc & _). apply child_in in Hc.
  rewrite Hk in Hc. destruct Hc.
Qed.
Example C22_ex : WF ex_row /\ InTree ex_row 0 4 /\ is_element ex_row 4 = true /\ Child ex_row 1 4 /\
  Forall (Free ex_row 4) [2] /\ without_all [2] (kids ex_row 1) = [3] ++ 4 :: [5] /\
  exists h1 h2, before ex_od ex_row [4] [2] = Ok (h1, []) /\ kids h1 1 = [3; 2; 4; 5] /\
    append ex_od ex_row [4] [2] = Ok (h2, []) /\ kids h2 1 = [3; 4; 5] /\ kids h2 4 = [2].
Proof.
  split; [exact ex_row_wf|]. split; [apply (intree_check_sound _ _ 10); reflexivity|]. split; [reflexivity|].
  split; [exists 2; reflexivity|]. split.
  - constructor; [|constructor]. split; [apply (placed_check _ _ 1); reflexivity|]. split; [reflexivity|].
    apply leaf_not_above; [reflexivity | discriminate].
  - split; [reflexivity|]. do 2 eexists. split; [vm_compute; reflexivity|]. split; [reflexivity|].
    split; [vm_compute; reflexivity|]. split; reflexivity.
Qed.

(** A node that was removed still points to its former parent: inserting it again takes a sibling away or panics. *)
Theorem C22_reinsert_refuted :
  (exists o h h1 h2 x y e, WF h /\ remove_all h [x] = Ok h1 /\ append o h1 [e] [x] = Ok (h2, []) /\
     x <> y /\ Attached h1 y /\ ~ Attached h2 y) /\
  (exists o h h1 x e, WF h /\ remove_all h [x] = Ok h1 /\ append o h1 [e] [x] = Panic).
Proof.
  split.
  - exists ex_od, ex_doc. do 2 eexists. exists 2, 3, 6. split; [exact ex_doc_wf|]. split; [vm_compute; reflexivity|].
    split; [vm_compute; reflexivity|]. split; [discriminate|]. split; [exists 1, 0; reflexivity|].
    intros (p & Hc). apply child_in in Hc.
    do 7 (destruct p as [|p]; [vm_compute in Hc; intuition discriminate|]).
    vm_compute in Hc. destruct p; exact Hc.
  - exists ex_od, ex_doc. eexists. exists 5, 6. split; [exact ex_doc_wf|]. split; [vm_compute; reflexivity|].
    vm_compute. reflexivity.
Qed.
Print Assumptions C22_reinsert_refuted.

(** Beside a node without parent the inserted node is lost: taken from its place and put nowhere, silently. *)
Theorem C22_beside_parentless_refuted :
  exists o h h' e x, WF h /\ is_element h e = true /\ Free h e x /\ Attached h x /\
    before o h [e] [x] = Ok (h', []) /\ ~ Attached h' x.
Proof.
  exists ex_od, (ex_row ++ [mkNode NTag None 0 None None (Some (mk_meta (lit "p") [])) None]). eexists. exists 6, 2.
  split; [apply wf_check_sound; vm_compute; reflexivity|]. split; [reflexivity|].
  split.
  { split; [apply (placed_check _ _ 1); reflexivity|]. split; [reflexivity | apply leaf_not_above; [reflexivity | discriminate]]. }
  split; [exists 1, 0; reflexivity|]. split; [vm_compute; reflexivity|].
  intros (p & Hc). apply child_in in Hc.
  do 7 (destruct p as [|p]; [vm_compute in Hc; intuition discriminate|]).
  vm_compute in Hc. destruct p; exact Hc.
Qed.
Print Assumptions C22_beside_parentless_refuted.

(** C41: several nodes at once. *)
Theorem C41_order_kept (o : oracles_dom) (h : heap) (r e : id) (d : list id) :
  WF h -> InTree h r e -> is_element h e = true -> NoDup d -> Forall (Free h e) d ->
  Forall (fun x => od_allow_insert o (tag_names h e) (ntype_of h x) = true) d ->
  (exists h', prepend o h [e] d = Ok (h', []) /\ kids h' e = d ++ without_all d (kids h e)) /\
  (forall p, Child h p e -> exists h' l1 l2, after o h [e] d = Ok (h', []) /\
     without_all d (kids h p) = l1 ++ e :: l2 /\ kids h' p = l1 ++ e :: d ++ l2).
Proof.
  intros wf Hi He Hn Hf Hal. split.
  - destruct (C22_prepend_partial o h r e d wf Hi He Hn Hf Hal) as (h' & E & _ & (_ & _ & K & _)). exists h'. split; [exact E | exact K].
  - intros p Hc. assert (Hin : In e (without_all d (kids h p))).
    { apply without_all_in. split; [apply child_in; exact Hc|]. intros H. rewrite Forall_forall in Hf.
      destruct (Hf e H) as (_ & _ & Hne). apply Hne. left. reflexivity. }
    apply in_split in Hin. destruct Hin as (l1 & l2 & Ew).
    destruct (C22_after_partial o h r p e d l1 l2 wf Hi He Hc Hn Hf Ew) as (h' & E & _ & (_ & _ & K & _)).
    exists h', l1, l2. split; [exact E|]. split; [exact Ew|]. rewrite K, <- app_assoc. reflexivity.
Qed.
Print Assumptions C41_order_kept.
Theorem C41_order_reversed (o : oracles_dom) (h : heap) (r e : id) (d : list id) :
  WF h -> InTree h r e -> is_element h e = true -> NoDup d -> Forall (Free h e) d ->
  Forall (fun x => od_allow_insert o (tag_names h e) (ntype_of h x) = true) d ->
  (exists h', append o h [e] d = Ok (h', []) /\ kids h' e = without_all d (kids h e) ++ rev d) /\
  (forall p, Child h p e -> exists h' l1 l2, before o h [e] d = Ok (h', []) /\
     without_all d (kids h p) = l1 ++ e :: l2 /\ kids h' p = l1 ++ rev d ++ e :: l2).
Proof.
  intros wf Hi He Hn Hf Hal. split.
  - destruct (C22_append_partial o h r e d wf Hi He Hn Hf Hal) as (h' & E & _ & (_ & _ & K & _)). exists h'. split; [exact E|].
    rewrite app_nil_r in K. exact K.
  - intros p Hc. assert (Hin : In e (without_all d (kids h p))).
    { apply without_all_in. split; [apply child_in; exact Hc|]. intros H. rewrite Forall_forall in Hf.
      destruct (Hf e H) as (_ & _ & Hne). apply Hne. left. reflexivity. }
    apply in_split in Hin. destruct Hin as (l1 & l2 & Ew).
    destruct (C22_before_partial o h r p e d l1 l2 wf Hi He Hc Hn Hf Ew) as (h' & E & _ & (_ & _ & K & _)).
    exists h', l1, l2. split; [exact E|]. split; [exact Ew | exact K].
Qed.
Print Assumptions C41_order_reversed.
Theorem C41_order_refuted :
  exists o h h' e a b, WF h /\ Forall (Free h e) [a; b] /\ append o h [e] [a; b] = Ok (h', []) /\
    kids h e = [] /\ kids h' e = [b; a] /\ a <> b.
Proof.
  exists ex_od, ex_row. eexists. exists 5, 2, 3. split; [exact ex_row_wf|]. split.
  - constructor; [|constructor; [|constructor]];
      (split; [apply (placed_check _ _ 1); reflexivity|]; split; [reflexivity|]; apply leaf_not_above; [reflexivity | discriminate]).
  - split; [vm_compute; reflexivity|]. repeat split. discriminate.
Qed.
Print Assumptions C41_order_refuted.
Example C41_ex : exists h1 h2, prepend ex_od ex_row [5] [2; 3] = Ok (h1, []) /\ kids h1 5 = [2; 3] /\
  after ex_od ex_row [5] [2; 3] = Ok (h2, []) /\ kids h2 1 = [4; 5; 2; 3].
Proof. do 2 eexists. split; [vm_compute; reflexivity|]. split; [reflexivity|]. split; [vm_compute; reflexivity|]. reflexivity. Qed.

(** C23, C39 *)
Theorem C23_cyclic_refused (o : oracles_dom) (h : heap) (e x : id) (pos : position_) : WF h -> AncEq h x e ->
  insert_all o pos h [e] [x] = Ok (h, halt h e).
Proof.
  intros wf H. unfold insert_all. cbn [rfold rev app]. unfold insert_step. cbn [fst snd].
  rewrite (refused o h e pos x wf (or_intror (or_intror H))). reflexivity.
Qed.
Print Assumptions C23_cyclic_refused.
Example C23_ex : AncEq ex_doc 1 5 /\ insert_all ex_od BeforeEnd ex_doc [5] [1] = Ok (ex_doc, [0]) /\
  insert_all ex_od AfterEnd ex_doc [5] [5] = Ok (ex_doc, [0]).
Proof.
  split; [right; apply anc_path; exists [2; 0]; split; [discriminate|]|].
  - apply (path_cons ex_doc 1 2 4 [0] 5); [reflexivity | apply path_one; reflexivity].
  - split; vm_compute; reflexivity.
Qed.

(** Any refused mutation of a single node: tree unchanged, the document of the target is told. *)
Theorem C39_refused_insertion (o : oracles_dom) (h : heap) (e x doc_ : id) (pos : position_) : WF h ->
  owner_document h e = Some doc_ ->
  (is_element h e = false \/ is_document h x = true \/ AncEq h x e) ->
  insert_all o pos h [e] [x] = Ok (h, [doc_]).
Proof.
  intros wf Ho H. unfold insert_all. cbn [rfold rev app]. unfold insert_step. cbn [fst snd].
  rewrite (refused o h e pos x wf H). cbn [rbind fst snd app]. unfold halt. rewrite Ho. reflexivity.
Qed.
Print Assumptions C39_refused_insertion.
Theorem C39_refused_empty_text (o : oracles_dom) (h : heap) (x doc_ : id) :
  owner_document h x = Some doc_ -> is_text h x = true \/ is_comment h x = true ->
  set_text o h x [] = (h, [doc_]).
Proof.
  intros Ho H. unfold set_text, is_text, is_comment in *. destruct (ntype_of h x); destruct H as [H | H]; try discriminate H;
    unfold halt; rewrite Ho; reflexivity.
Qed.
Print Assumptions C39_refused_empty_text.
Example C39_ex : owner_document ex_doc 3 = Some 0 /\ is_element ex_doc 3 = false /\ is_document ex_doc 0 = true /\
  insert_all ex_od BeforeEnd ex_doc [1] [0] = Ok (ex_doc, [0]) /\ set_text ex_od ex_doc 3 [] = (ex_doc, [0]).
Proof. repeat split; vm_compute; reflexivity. Qed.
(** A node that may not be put into the target is taken from its old place nevertheless, and nobody is told. *)
Theorem C39_not_allowed_refuted :
  exists o h h' e x, WF h /\ Free h e x /\ owner_document h e <> None /\ append o h [e] [x] = Ok (h', []) /\
    Attached h x /\ ~ Attached h' x.
Proof.
  exists ex_od, (doc [el "a" [el "b" []; el "img" []]]). eexists. exists 3, 2.
  split; [apply wf_check_sound; vm_compute; reflexivity|].
  split.
  { split; [apply (placed_check _ _ 1); reflexivity|]. split; [reflexivity | apply leaf_not_above; [reflexivity | discriminate]]. }
  split; [discriminate|]. split; [vm_compute; reflexivity|]. split; [exists 1, 0; reflexivity|].
  intros (p & Hc). apply child_in in Hc.
  do 4 (destruct p as [|p]; [vm_compute in Hc; intuition discriminate|]).
  vm_compute in Hc. destruct p; exact Hc.
Qed.
Print Assumptions C39_not_allowed_refuted.
(** Refusal on a node whose document is unknown (a node made by [set_text]) is not reported. *)
Theorem C39_unreported_refuted :
  exists o h h1 t x, WF h /\ set_text o h x (lit "s") = (h1, []) /\ Child h1 x t /\
    set_text o h1 t [] = (h1, []) /\ insert_all o BeforeEnd h1 [t] [x] = Ok (h1, []).
Proof.
  exists ex_od, ex_doc. eexists. exists 7, 2. split; [exact ex_doc_wf|]. split; [vm_compute; reflexivity|].
  split; [exists 0; reflexivity|]. split; vm_compute; reflexivity.
Qed.
Print Assumptions C39_unreported_refuted.

(** C24 *)
Theorem C24_replace_partial (h : heap) (r p x y : id) : WF h -> InTree h r x -> Child h p x ->
  Placed h y -> is_root h y = false -> ~ AncEq h y x ->
  exists h' l1 l2, replace_all h [x] [y] = Ok h' /\ WF h' /\ ReplacedBy h h' p x y l1 l2 /\ ~ Attached h' x.
Proof.
  intros wf Hi Hc Hp Hr Hn.
  assert (Hne : x <> y) by (intros ->; apply Hn; left; reflexivity).
  assert (Hup : ~ Up h x y) by (intros H; apply Hn; right; exact (intree_up_anc h wf r x y Hi H)).
  destruct (replace_ok h p x y wf Hc Hp Hr Hne Hup) as (h' & l1 & l2 & E & W & R).
  exists h', l1, l2. split; [|split; [exact W | split; [exact R|]]].
  - unfold replace_all. cbn [rfold rev app]. unfold replace_step. cbn [fst snd]. rewrite E. reflexivity.
  - intros (q & Hq). destruct R as (_ & Rw & Rk & Ro & Ry & Rz).
    assert (Hq' : q = p).
    { pose proof (child_parent h' W _ _ Hq) as E2. rewrite (Rz x Hne), (child_parent h wf _ _ Hc) in E2. congruence. }
    subst q. apply child_in in Hq. rewrite Rk in Hq. assert (Hnd : NoDup (l1 ++ x :: l2)).
    { rewrite <- Rw. apply NoDup_filter. exact (kids_nodup h wf p). }
    apply NoDup_remove_2 in Hnd. rewrite in_app_iff in Hq, Hnd. cbn in Hq. destruct Hq as [Hq | [Hq | Hq]]; [tauto | congruence | tauto].
Qed.
Print Assumptions C24_replace_partial.
Example C24_ex : InTree ex_row 0 4 /\ Child ex_row 1 4 /\ Free ex_row 4 2 /\
  exists h', replace_all ex_row [4] [2] = Ok h' /\ kids h' 1 = [3; 2; 5].
Proof.
  split; [apply (intree_check_sound _ _ 10); reflexivity|]. split; [exists 2; reflexivity|]. split.
  - split; [apply (placed_check _ _ 1); reflexivity|]. split; [reflexivity | apply leaf_not_above; [reflexivity | discriminate]].
  - eexists. split; [vm_compute; reflexivity|]. reflexivity.
Qed.
(** Replacing a node by itself loses it or panics; by its parent panics; by a higher ancestor makes a cycle; by the
    document puts the document below itself.  Nothing is refused. *)
Theorem C24_replace_refuted :
  (exists h x, WF h /\ Attached h x /\ replace_all h [x] [x] = Panic) /\
  (exists h x p, WF h /\ Child h p x /\ replace_all h [x] [p] = Panic) /\
  (exists h h' x g, WF h /\ Anc h g x /\ replace_all h [x] [g] = Ok h' /\ Anc h' g g) /\
  (exists h h' x r, WF h /\ is_document h r = true /\ Anc h r x /\ replace_all h [x] [r] = Ok h' /\ Anc h' r r).
Proof.
  split; [|split; [|split]].
  - exists ex_doc, 4. split; [exact ex_doc_wf|]. split; [exists 1, 2; reflexivity | vm_compute; reflexivity].
  - exists ex_doc, 5, 4. split; [exact ex_doc_wf|]. split; [exists 0; reflexivity | vm_compute; reflexivity].
  - exists ex_doc. eexists. exists 5, 1. split; [exact ex_doc_wf|]. split.
    { apply anc_path. exists [2; 0]. split; [discriminate|].
      apply (path_cons ex_doc 1 2 4 [0] 5); [reflexivity | apply path_one; reflexivity]. }
    split; [vm_compute; reflexivity|]. apply anc_path. exists [2; 0]. split; [discriminate|].
    eapply (path_cons _ 1 2 4 [0] 1); [reflexivity | apply path_one; reflexivity].
  - exists ex_doc. eexists. exists 5, 0. split; [exact ex_doc_wf|]. split; [reflexivity|]. split.
    { apply anc_path. exists [0; 2; 0]. split; [discriminate|].
      apply (path_cons ex_doc 0 0 1 [2; 0] 5); [reflexivity|].
      apply (path_cons ex_doc 1 2 4 [0] 5); [reflexivity | apply path_one; reflexivity]. }
    split; [vm_compute; reflexivity|]. apply anc_path. exists [0; 2; 0]. split; [discriminate|].
    eapply (path_cons _ 0 0 1 [2; 0] 0); [reflexivity|].
    eapply (path_cons _ 1 2 4 [0] 0); [reflexivity | apply path_one; reflexivity].
Qed.
Print Assumptions C24_replace_refuted.
(** Replacement by several elements keeps only the first of them; the others are taken away. *)
Theorem C24_replace_many_refuted :
  exists h h' x a b p, WF h /\ Child h p x /\ Child h p a /\ Child h p b /\ replace_all h [x] [a; b] = Ok h' /\
    kids h' p = [a; 5] /\ ~ Attached h' b.
Proof.
  exists ex_row. eexists. exists 4, 2, 3, 1. split; [exact ex_row_wf|]. split; [exists 2; reflexivity|].
  split; [exists 0; reflexivity|]. split; [exists 1; reflexivity|]. split; [vm_compute; reflexivity|].
  split; [reflexivity|]. intros (p & Hc). apply child_in in Hc.
  do 6 (destruct p as [|p]; [vm_compute in Hc; intuition discriminate|]).
  vm_compute in Hc. destruct p; exact Hc.
Qed.
Print Assumptions C24_replace_many_refuted.

(** C25 *)
Theorem C25_remove_partial (h : heap) (d : list id) : WF h -> NoDup d -> Forall (Placed h) d ->
  exists h', remove_all h d = Ok h' /\ WF h' /\ TakenOutAll h h' d.
Proof. intros wf Hn Hp. exact (remove_all_ok d h wf Hn Hp). Qed.
Print Assumptions C25_remove_partial.
Example C25_ex : Forall (Placed ex_row) [5; 2; 4] /\ exists h', remove_all ex_row [5; 2; 4] = Ok h' /\ kids h' 1 = [3].
Proof.
  split; [repeat (constructor; [apply (placed_check _ _ 1); reflexivity|]); constructor|].
  eexists. split; [vm_compute; reflexivity|]. reflexivity.
Qed.
Theorem C25_remove_twice_refuted :
  (exists h h1 h2 x y, WF h /\ remove_all h [x] = Ok h1 /\ remove_all h1 [x] = Ok h2 /\ x <> y /\ Attached h1 y /\ ~ Attached h2 y) /\
  (exists h h1 x, WF h /\ remove_all h [x] = Ok h1 /\ remove_all h1 [x] = Panic).
Proof.
  split.
  - exists ex_row. do 2 eexists. exists 2, 3. split; [exact ex_row_wf|]. split; [vm_compute; reflexivity|].
    split; [vm_compute; reflexivity|]. split; [discriminate|]. split; [exists 1, 0; reflexivity|].
    intros (p & Hc). apply child_in in Hc.
    do 6 (destruct p as [|p]; [vm_compute in Hc; intuition discriminate|]).
    vm_compute in Hc. destruct p; exact Hc.
  - exists ex_doc. eexists. exists 5. split; [exact ex_doc_wf|]. split; vm_compute; reflexivity.
Qed.
Print Assumptions C25_remove_twice_refuted.

(** [empty] on elements that hold child nodes. *)
Lemma set_text_empty o h x : is_element h x = true -> od_content_tag o (tag_names h x) = false ->
  set_text o h x [] = (upd h x (set_ch None), []).
Proof.
  intros He Ht. unfold set_text. unfold is_element in He. destruct (ntype_of h x) eqn:E; try discriminate.
  cbv zeta. rewrite Ht. reflexivity.
Qed.
Theorem C25_empty_partial (o : oracles_dom) (d : list id) : forall h, WF h ->
  Forall (fun x => is_element h x = true /\ od_content_tag o (tag_names h x) = false) d ->
  exists h', empty_all o h d = (h', []) /\ WF h' /\ SameNodes h h' /\
    (forall q, In q d -> kids h' q = []) /\ (forall q, ~ In q d -> kids h' q = kids h q) /\
    (forall y, parent h' y = parent h y) /\ (forall y, index h' y = index h y).
Proof.
  unfold empty_all, set_text_all. induction d as [|x d IH]; intros h wf Hd.
  - exists h. split; [reflexivity|]. split; [exact wf|]. split; [apply same_nodes_refl|]. split; [intros q []|]. repeat split.
  - inversion Hd as [|? ? [He Ht] Hd']; subst.
    pose proof (emptied_ok h x) as Em. pose proof (emptied_wf _ _ _ wf Em) as wf1.
    set (h1 := upd h x (set_ch None)) in *. destruct Em as (S1 & K1 & O1 & P1 & I1).
    destruct (IH h1 wf1) as (h' & E & W & S2 & A & B & C & D).
    { rewrite Forall_forall in Hd' |- *. intros y Hy. rewrite (same_element _ _ S1), (same_tag _ _ S1). exact (Hd' y Hy). }
    exists h'. split.
    + cbn [fold_left fst snd]. rewrite (set_text_empty o h x He Ht). cbn [app]. exact E.
    + split; [exact W|]. split; [exact (same_nodes_trans _ _ _ S1 S2)|]. split; [|split; [|split]].
      * intros q Hq. destruct (in_dec Nat.eq_dec q d) as [Hi | Hi]; [exact (A q Hi)|].
        destruct Hq as [<- | Hq]; [|contradiction]. rewrite (B x Hi). exact K1.
      * intros q Hq. cbn in Hq. rewrite B by tauto. unfold h1. apply kids_set_ch_other. intros ->. tauto.
      * intros y. rewrite C. unfold h1. apply parent_set_ch.
      * intros y. rewrite D. unfold h1. apply index_set_ch.
Qed.
Print Assumptions C25_empty_partial.
Example C25_empty_ex : exists h', empty_all ex_od ex_doc [1; 4] = (h', []) /\ kids h' 1 = [] /\ kids h' 4 = [] /\ kids h' 0 = [1; 6].
Proof. eexists. split; [vm_compute; reflexivity|]. repeat split. Qed.

(** C27, structure: the new text is the only content. *)
Theorem C27_set_text_children (o : oracles_dom) (h : heap) (x : id) (a : char) (s : str) : WF h ->
  is_element h x = true -> od_content_tag o (tag_names h x) = false ->
  exists h', set_text o h x (a :: s) = (h', []) /\ WF h' /\ TextOnly h h' x (length h) (od_encode o (a :: s)).
Proof.
  intros wf He Ht. exists (fst (set_text o h x (a :: s))).
  assert (E : set_text o h x (a :: s) = (upd h x (set_ch (Some [length h])) ++ [new_text x (od_encode o (a :: s))], [])).
  { unfold set_text. unfold is_element in He. destruct (ntype_of h x) eqn:En; try discriminate.
    cbv zeta. rewrite Ht. reflexivity. }
  rewrite E at 1. cbn [fst]. split; [rewrite E; reflexivity|]. split; [exact (set_text_wf o h x (a :: s) wf)|].
  rewrite E. cbn [fst]. apply (text_only_ok h x). exact (element_lt _ _ He).
Qed.
Print Assumptions C27_set_text_children.
(** Elements that hold text directly, and text or comment nodes. *)
Theorem C27_set_text_content (o : oracles_dom) (h : heap) (x : id) (a : char) (s : str) : WF h ->
  (is_element h x = true /\ od_content_tag o (tag_names h x) = true) \/ is_text h x = true \/ is_comment h x = true ->
  exists h', set_text o h x (a :: s) = (h', []) /\ WF h' /\ OnlyContent h h' x (Some (a :: s)).
Proof.
  intros wf H. exists (upd h x (set_con (Some (a :: s)))).
  assert (Hx : x < length h).
  { destruct (lt_dec x (length h)) as [Hl | Hl]; [exact Hl|]. exfalso.
    unfold is_element, is_text, is_comment, ntype_of in H. rewrite node_beyond in H by lia. cbn in H.
    destruct H as [[H _] | [H | H]]; discriminate. }
  assert (Hoc : OnlyContent h (upd h x (set_con (Some (a :: s)))) x (Some (a :: s))) by (apply set_con_only; exact Hx).
  split; [|split; [exact (only_content_wf _ _ _ _ wf Hoc) | exact Hoc]].
  unfold set_text, is_element, is_text, is_comment in *. destruct (ntype_of h x); cbv zeta;
    destruct H as [[H Ht] | [H | H]]; try discriminate H; try reflexivity. rewrite Ht. reflexivity.
Qed.
Print Assumptions C27_set_text_content.
Example C27_ex : is_element ex_doc 1 = true /\ od_content_tag ex_od (tag_names ex_doc 1) = false /\
  is_text ex_doc 3 = true /\ exists h', set_text ex_od ex_doc 1 (lit "new") = (h', []) /\ kids h' 1 = [7].
Proof. repeat split. eexists. split; [vm_compute; reflexivity|]. reflexivity. Qed.

(** C40: calls on one part of the heap never change a part that is not linked with it, for instance the
    original after [clone]. *)
Theorem C40_independent (o : oracles_dom) (B : id -> Prop) (h h' : heap) (calls : list op) :
  Sealed B h -> (forall b, B b -> b < length h) ->
  (forall c x, In c calls -> In x (op_nodes c) -> ~ B x) ->
  run_ops o h calls = Ok h' -> forall b, B b -> node_of h' b = node_of h b.
Proof. intros Hs Hb Hn E. apply (kept_ops B o calls h h' Hs Hb Hn E). Qed.
Print Assumptions C40_independent.
(** Two copies of one document: calls on the second (nodes from 3 on) leave the first alone. *)
Definition ex_copies : heap := docs2 [el "a" [el "b" []]] [el "a" [el "b" []]].
Example C40_ex : Sealed (fun x => x < 3) ex_copies /\
  exists h', run_ops ex_od ex_copies [ORemove 5; OSetText 4 (lit "t"); OInsert 3 BeforeEnd 4] = Ok h' /\
    kids h' 4 = [6] /\ kids h' 1 = [2].
Proof.
  split.
  - intros y Hy.
    do 6 (destruct y as [|y]; [first [exfalso; apply Hy; lia | split;
      [intros p E; vm_compute in E; first [discriminate | injection E as <-; lia]
      | intros c Hc; vm_compute in Hc; intuition lia]]|]).
    split.
    + intros p E. unfold parent in E. rewrite node_beyond in E by (vm_compute; lia). discriminate.
    + intros c Hc. unfold kids, childs in Hc. rewrite node_beyond in Hc by (vm_compute; lia). destruct Hc.
  - eexists. split; [vm_compute; reflexivity|]. split; reflexivity.
Qed.
