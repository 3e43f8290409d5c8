(** Property theorems: [texts_by_rec] with handles that modify the tree (C68). *)
From Verif Require Import Base Utils Attr Dom DomSpec DomProofs Sets SetsProofs Mutate MutateSpec MutateProofs InsertProofs HistoryProofs DomBuild DomBuildProofs
  PropsSets PropsMutate PropsAttr Html HtmlSpec HtmlProofs Live LiveSpec LiveProofs PropsFilter PropsLive Borrow BorrowSpec BorrowProofs ClassOps BorrowSets BorrowSetsProofs
  PropsBorrow Callback CallbackSpec CallbackProofs CallbackAny TextNodes TextCallback.

(** The two heaps have the same nodes, with the same children, types and tag names. *)
Definition SameShape (h h' : heap) : Prop := forall x, kids h' x = kids h x /\ ntype_of h' x = ntype_of h x /\ tag_names h' x = tag_names h x.

Lemma child_nodes_eq x h g : g_mut g = [] -> b_child_nodes x g h = BOk (h, kids h x).
Proof. intros E. unfold b_child_nodes. rewrite read_eq. unfold held_mut. rewrite E. reflexivity. Qed.
Section Shape.
  Variables (o : oracles_dom) (limit : option nat) (handle : nat -> id -> B bool) (rec : id -> B bool).
  Variables (hd : nat -> id -> bool) (rd : id -> bool) (g : guards) (h0 : heap) (P : heap -> Prop).
  Hypothesis Hg : g_mut g = [].
  Hypothesis Hshape : forall h, P h -> SameShape h0 h.
  Hypothesis Hh : forall d t h, P h -> exists h', handle d t g h = BOk (h', hd d t) /\ P h'.
  Hypothesis Hr : forall c h, P h -> exists h', rec c g h = BOk (h', rd c) /\ P h'.
  Lemma offer_ok d t h : P h -> exists h', b_offer handle d t g h = BOk (h', if hd d t then [t] else []) /\ P h'.
  Proof. intros HP. unfold b_offer. destruct (Hh d t h HP) as (h' & E & HP'). exists h'. rewrite bind_eq, E. split; [reflexivity | exact HP']. Qed.
  Lemma texts_shape : forall fuel depth x l, texts_loop fuel o h0 limit hd rd depth x = Ok l ->
    forall h, P h -> exists h', b_texts_loop fuel o limit handle rec depth x g h = BOk (h', l) /\ P h'.
  Proof.
    induction fuel as [|f IH]; intros depth x l E h HP; [discriminate|]. cbn [texts_loop] in E. cbn [b_texts_loop].
    rewrite bind_eq, (child_nodes_eq x h g Hg). destruct (Hshape h HP x) as (K & _ & T). rewrite K.
    destruct (kids h0 x) as [|c cs].
    - rewrite bind_eq, (tag_eq x h g Hg), T. unfold content_el in E. injection E as <-.
      destruct (od_content_tag o (tag_names h0 x)); [exact (offer_ok depth x h HP)|]. exists h. split; [reflexivity | exact HP].
    - set (F := fun (acc : list id) (c : id) => if is_text h0 c then _ else _) in E.
      set (k := fun c : id => _).
      assert (H : forall cs acc l, rfold F cs acc = Ok l -> forall h, P h -> exists h' r, gather cs k g h = BOk (h', r) /\ P h' /\ l = acc ++ r).
      2: { destruct (H (c :: cs) [] l E h HP) as (h' & r & E1 & HP' & ->). exists h'. split; [exact E1 | exact HP']. }
      clear E h HP K T c cs l. induction cs as [|c cs IHc]; intros acc l E h HP.
      { cbn [rfold] in E. injection E as <-. exists h, []. split; [reflexivity|]. split; [exact HP | rewrite app_nil_r; reflexivity]. }
      cbn [rfold] in E. destruct (F acc c) as [acc1| |] eqn:EF; cbn [rbind] in E; try discriminate.
      assert (H1 : exists h1 a, k c g h = BOk (h1, a) /\ P h1 /\ acc1 = acc ++ a).
      { unfold k. rewrite bind_eq, (type_eq c h g Hg). destruct (Hshape h HP c) as (_ & Ty & T). rewrite Ty. unfold F in EF. unfold is_text, is_element, content_el in EF.
        assert (Hoff : forall acc1, Ok (if hd depth c then acc ++ [c] else acc) = Ok acc1 ->
                  exists h1 a, b_offer handle depth c g h = BOk (h1, a) /\ P h1 /\ acc1 = acc ++ a).
        { intros z Ez. injection Ez as <-. destruct (offer_ok depth c h HP) as (h1 & E1 & HP1). exists h1. eexists. split; [exact E1|]. split; [exact HP1|].
          destruct (hd depth c); [reflexivity | rewrite app_nil_r; reflexivity]. }
        assert (Hno : forall acc1, Ok acc = Ok acc1 -> exists h1 a, @ret (list id) [] g h = BOk (h1, a) /\ P h1 /\ acc1 = acc ++ a).
        { intros z Ez. injection Ez as <-. exists h, []. split; [reflexivity|]. split; [exact HP | rewrite app_nil_r; reflexivity]. }
        destruct (ntype_of h0 c); try exact (Hno _ EF); try exact (Hoff _ EF).
        rewrite bind_eq, (tag_eq c h g Hg), T. destruct (od_content_tag o (tag_names h0 c)); [exact (Hoff _ EF)|].
        destruct (deeper limit (S depth)); [|exact (Hno _ EF)]. cbn [andb] in EF.
        rewrite bind_eq. destruct (Hr c h HP) as (h2 & E2 & HP2). rewrite E2. destruct (rd c).
        - destruct (texts_loop f o h0 limit hd rd (S depth) c) as [l1| |] eqn:El; cbn [rbind] in EF; try discriminate. injection EF as <-.
          destruct (IH (S depth) c l1 El h2 HP2) as (h3 & E3 & HP3). exists h3, l1. split; [exact E3|]. split; [exact HP3 | reflexivity].
        - injection EF as <-. exists h2, []. split; [reflexivity|]. split; [exact HP2 | rewrite app_nil_r; reflexivity]. }
      destruct H1 as (h1 & a & E1 & HP1 & ->). destruct (IHc _ _ E h1 HP1) as (h' & r & E2 & HP' & ->).
      exists h', (a ++ r). cbn [gather]. rewrite bind_eq, E1, bind_eq, E2. split; [reflexivity|]. split; [exact HP' | apply app_assoc_reverse].
  Qed.
End Shape.

(** * C68: texts_by_rec with handles that keep the shape of the tree *)
(** Handles that answer and leave children, types and tag names as they are (such as attribute and class calls): no clash, and the texts are
    those of the tree at the start.  [P] is what the handles rely on and keep. *)
Theorem C68_texts o x limit handle rec hd rd g h l (P : heap -> Prop) : g_mut g = [] -> P h -> (forall h', P h' -> SameShape h h') ->
  (forall d t h1, P h1 -> exists h', handle d t g h1 = BOk (h', hd d t) /\ P h') ->
  (forall c h1, P h1 -> exists h', rec c g h1 = BOk (h', rd c) /\ P h') ->
  texts_by_rec o h x limit hd rd = Ok l ->
  exists h', b_texts_by_rec (S (length h)) o x limit handle rec g h = BOk (h', l) /\ P h'.
Proof. intros Hg HP Hs Hh Hr E. exact (texts_shape o _ handle rec hd rd g h P Hg Hs Hh Hr (S (length h)) 0 x l E h HP). Qed.
Print Assumptions C68_texts.

(** * C68: any modifying calls from the handles *)
Lemma fr_texts X o limit handle rec : (forall d t, Framed X (handle d t)) -> (forall c, Framed X (rec c)) ->
  forall fuel depth x, Framed X (b_texts_loop fuel o limit handle rec depth x).
Proof.
  intros Hh Hr. assert (Ho : forall d t, Framed X (b_offer handle d t)).
  { intros d t. unfold b_offer. apply fr_bind; [apply Hh | intros b; apply fr_ret]. }
  induction fuel as [|f IH]; intros depth x; cbn [b_texts_loop]; [apply fr_fuel|].
  apply fr_bind; [apply fr_read|]. intros [|c0 cs0].
  - apply fr_bind; [apply fr_tag_names|]. intros tag. destruct (od_content_tag o tag); [apply Ho | apply fr_ret].
  - generalize (c0 :: cs0). intros cs. induction cs as [|c cs IHc]; cbn [gather]; [apply fr_ret|].
    apply fr_bind; [|intros a; apply fr_bind; [exact IHc | intros r; apply fr_ret]].
    apply fr_bind; [apply fr_node_type|]. intros t. destruct t; try apply fr_ret; try apply Ho.
    apply fr_bind; [apply fr_tag_names|]. intros tag. destruct (od_content_tag o tag); [apply Ho|].
    destruct (deeper limit (S depth)); [|apply fr_ret]. apply fr_bind; [apply Hr|]. intros go. destruct go; [apply IH | apply fr_ret].
Qed.
(** Inside walks that read the nodes [rs]: a clash, or what the call does outside of them; the nodes being read are kept. *)
Theorem C68_texts_any o oa parse fuel x limit (k : nat -> id -> list scall) (kr : id -> list scall) (hd : nat -> id -> bool) (rd : id -> bool) rs h :
  let m := b_texts_by_rec fuel o x limit (fun d t => s_calls o oa parse (k d t) ;; ret (hd d t)) (fun c => s_calls o oa parse (kr c) ;; ret (rd c)) in
  (m (mkGuards [] rs) h = BClash \/ m (mkGuards [] rs) h = m no_guards h) /\
  (forall h' l, m (mkGuards [] rs) h = BOk (h', l) -> forall y, y < length h -> In (CNode y) rs -> SameFields h h' y).
Proof.
  intros m. assert (Hm : Framed [] m).
  { apply fr_texts; intros; (apply fr_bind; [apply fr_scalls | intros _; apply fr_ret]). }
  split.
  - exact (proj1 (Hm [] [] h (fun x (F : In x []) => match F with end) (fun c (F : In c []) => match F with end)) rs).
  - intros h' u E. exact (proj2 (proj2 (Hm [] rs h (fun x (F : In x []) => match F with end) (fun c (F : In c []) => match F with end)) h' u E)).
Qed.
Print Assumptions C68_texts_any.

(** * C68: the walk need not end *)
Definition Open (o : oracles_dom) (h : heap) (c : id) : Prop := is_element h c = true /\ exists m, n_meta (node_of h c) = Some m /\
  od_content_tag o (m_name m) = false /\ od_content_tag o (str_lower (m_name m)) = false /\ od_allow_insert o (m_name m) NTag = true.
Definition refill (c : id) : list scall := [SOne (BHtml c (lit "<i>x</i>y"))].
Lemma never_ends oa handle : forall fuel depth h x c cs, WF h -> kids h x = c :: cs -> Open ex_od h c ->
  b_texts_loop fuel ex_od None handle (fun c => s_calls ex_od oa toy (refill c) ;; ret true) depth x no_guards h = BFuel.
Proof.
  induction fuel as [|f IH]; intros depth h x c cs wf K (He & m & Em & C1 & C2 & Al); [reflexivity|]. cbn [b_texts_loop].
  rewrite bind_eq, (child_nodes_eq x h no_guards eq_refl), K. cbn [gather]. rewrite bind_eq, bind_eq, (type_eq c h no_guards eq_refl).
  assert (Ty : ntype_of h c = NTag) by (unfold is_element in He; destruct (ntype_of h c); congruence). rewrite Ty.
  rewrite bind_eq, (tag_eq c h no_guards eq_refl). unfold tag_names. rewrite He, Em, C2. cbn [deeper].
  destruct (C45_set_html_element ex_od toy h c m (lit "<i>x</i>y") toy_trees wf He Em C1 eq_refl toy_parsed) as (h' & E & wf' & ((ns & Kn & Cp & _) & _)).
  assert (Hs : (s_calls ex_od oa toy (refill c) ;; ret true) no_guards h = BOk (h', true)).
  { unfold refill. cbn [s_calls s_call b_call]. rewrite bind_eq, bind_eq, (set_html_eq ex_od toy h c _ wf), E. reflexivity. }
  rewrite bind_eq, Hs. unfold allowed_trees, toy_trees in Cp. cbn [filter kind_of] in Cp. rewrite Al in Cp.
  inversion Cp as [|c2 ids t tl Hc Hcs]; subst.
  rewrite (IH (S depth) h' c c2 ids wf' (eq_sym H)); [reflexivity|].
  inversion Hc as [|? ? ? ? ? ? Hl T2 M2]; subst. split; [unfold is_element; rewrite T2; reflexivity|]. exists (mk_meta (lit "i") []). split; [exact M2|]. repeat split.
Qed.
(** Claim: on a well-formed document the walk ends, whatever covered calls the handles make.  False: [rec_handle] is asked
    before the children of the element are looked at; when it gives each element it is asked about new contents, the
    walk goes down for ever (a stack overflow). *)
Theorem C68_texts_refuted : exists o oa parse h x kr, WF h /\ is_element h x = true /\
  (forall c h', is_element h' c = true -> n_meta (node_of h' c) <> None -> CallsOk o oa parse h' (map plain_s (kr c))) /\
  forall fuel, b_texts_by_rec fuel o x 0 (fun _ _ => ret true) (fun c => s_calls o oa parse (kr c) ;; ret true) no_guards h = BFuel.
Proof.
  exists ex_od, ex_oracle, toy, ex_doc, 1, refill. split; [exact ex_doc_wf|]. split; [reflexivity|]. split.
  - intros c h' He Hm. cbn [refill map plain_s plain CallsOk CallOk]. split; [|intros ? _; exact I]. split.
    + intros Ht. unfold Dom.is_text in Ht. unfold is_element in He. destruct (ntype_of h' c); discriminate.
    + split; [|exact toy_parsed]. intros p E. unfold html_target in E. unfold is_element in He. destruct (ntype_of h' c); try discriminate. injection E as <-. exact Hm.
  - intros fuel. apply (never_ends ex_oracle _ fuel 0 ex_doc 1 2 [3; 4] ex_doc_wf eq_refl). split; [reflexivity|]. eexists. split; [reflexivity | repeat split].
Qed.
Print Assumptions C68_texts_refuted.

(** Handles that set an attribute of a each time; handles that give each element a text, outside and inside walks. *)
Definition ex_once : heap := match run_call ex_od ex_oracle toy ex_doc (KSetAttr [1] (lit "k") (Some (lit "v"))) with Ok h => h | _ => [] end.
Definition ex_keep (h : heap) : Prop := h = ex_doc \/ h = ex_once.
Definition ex_set : B unit := s_calls ex_od ex_oracle toy [SSetAttr [1] (lit "k") (Some (lit "v"))].
Example C68_texts_ex : ex_keep ex_doc /\ (forall h', ex_keep h' -> SameShape ex_doc h') /\ ex_once <> ex_doc /\
  (forall rs h1, NodesRead rs -> ex_keep h1 -> (ex_set ;; ret true) (mkGuards [] rs) h1 = BOk (ex_once, true)) /\
  texts_by_rec ex_od ex_doc 1 0 (fun _ _ => true) (fun _ => true) = Ok [3] /\
  (let m := b_texts_by_rec 8 ex_od 1 0 (fun _ _ => ret true) (fun c => s_calls ex_od ex_oracle toy [SOne (BTree (OSetText c (lit "u")))] ;; ret true) in
   (exists h', m no_guards ex_doc = BOk (h', [7; 3; 8]) /\ kids h' 2 = [7] /\ kids h' 4 = [8] /\ m (mkGuards [] [CNode 6; CNode 1]) ex_doc = BOk (h', [7; 3; 8])) /\
   m (mkGuards [] [CNode 4]) ex_doc = BClash).
Proof.
  split; [left; reflexivity|]. split.
  { intros h' [-> | ->]; [intros x; repeat split|]. intros x. do 7 (destruct x as [|x]; [repeat split|]). destruct x; repeat split. }
  split; [vm_compute; discriminate|]. split.
  { intros rs h1 Hr Hk. unfold ex_set. assert (E : forall h2, h2 = ex_doc \/ h2 = ex_once -> s_calls ex_od ex_oracle toy [SSetAttr [1] (lit "k") (Some (lit "v"))] no_guards h2 = BOk (ex_once, tt)).
    { intros h2 [-> | ->]; vm_compute; reflexivity. }
    rewrite bind_eq, (calm_scalls ex_od ex_oracle toy [SSetAttr [1] (lit "k") (Some (lit "v"))] ltac:(repeat constructor) rs h1 Hr), (E h1 Hk). reflexivity. }
  split; [vm_compute; reflexivity|]. split; [eexists; split; [vm_compute; reflexivity | repeat split] | vm_compute; reflexivity].
Qed.
