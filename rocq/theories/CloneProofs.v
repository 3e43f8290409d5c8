(** Proofs about copies. *)
From Verif Require Import Base Utils UtilsSpec UtilsProofs Attr AttrSpec ClassOps Dom DomSpec Order DomProofs OrderSpec OrderProofs Sets SetsProofs NavProofs
  Engine Rules SelSpec Mutate MutateSpec MutateProofs InsertProofs HistoryProofs FrameProofs Html HtmlSpec HtmlProofs Live LiveSpec LiveProofs Load LoadSpec LoadProofs
  TextNodes TextSpec PreProofs TextProofs Clone CloneSpec.

(** * Reading a tree *)
Lemma tree_at_ok h : WF h -> forall f x, Dig h f x -> x < length h -> is_root h x = false ->
  exists t, tree_at f h x = Ok t /\ CopyOf h x t /\ ParsedTree t.
Proof.
  intros wf. induction f as [|f IH]; intros x Hd Hx Hr; [destruct (dig_pos h wf _ _ Hd); discriminate|].
  cbn [tree_at]. cbv zeta. destruct (n_childs (node_of h x)) as [l|] eqn:El.
  - assert (Ek : kids h x = l) by (unfold kids, childs; rewrite El; reflexivity).
    assert (K : forall m, incl m l -> exists ts, rmapl (tree_at f h) m = Ok ts /\ CopiesOf h m ts /\ ParsedTrees ts).
    { induction m as [|c m IHm]; intros Hi; [exists []; split; [reflexivity|]; split; constructor|].
      assert (Hc : Child h x c).
      { assert (Hin : In c l) by (apply Hi; left; reflexivity). apply In_nth_error in Hin as (i & Hi'). exists i. unfold Listed. rewrite Ek. exact Hi'. }
      destruct Hc as (i & Hl). destruct (wf_listed h wf _ _ _ Hl) as (C1 & C2 & _).
      destruct (IH c) as (t & E & C & P).
      - apply (dig_child h wf f x c Hd). exists i. exact Hl.
      - exact C1.
      - destruct (is_root h c) eqn:Er; [|reflexivity]. rewrite (wf_root h wf c Er) in C2. discriminate.
      - destruct IHm as (ts & Es & Cs & Ps); [intros y Hy; apply Hi; right; exact Hy|].
        exists (t :: ts). cbn [rmapl]. rewrite E. cbn [rbind]. rewrite Es. split; [reflexivity|]. split; constructor; assumption. }
    destruct (K l (incl_refl l)) as (ts & Es & Cs & Ps). rewrite Es. cbn [rbind]. eexists. split; [reflexivity|]. split.
    + apply Copy_node with (ids := l); try reflexivity; [exact Hx | exact El | exact Cs].
    + destruct l as [|c l].
      * inversion Cs; subst. apply Parsed_empty. intros d E. unfold is_root, ntype_of in Hr. rewrite E in Hr. discriminate.
      * assert (Hc : Listed h x 0 c) by (unfold Listed; rewrite Ek; reflexivity).
        destruct (wf_listed h wf _ _ _ Hc) as (_ & C2 & _). destruct (wf_parent h wf _ _ C2) as (_ & [He | He]); [|congruence].
        unfold is_element, ntype_of in He. destruct (n_type (node_of h x)); try discriminate. apply Parsed_node. exact Ps.
  - eexists. split; [reflexivity|]. split.
    + apply Copy_leaf; try reflexivity; [exact Hx | exact El].
    + apply Parsed_leaf. intros d E. unfold is_root, ntype_of in Hr. rewrite E in Hr. discriminate.
Qed.

(** The tree below a root node. *)
Lemma tree_at_root h : WF h -> forall f x, Dig h (S f) x -> x < length h -> is_root h x = true ->
  exists d m c cs, tree_at (S f) h x = Ok (PT (NRoot d) m c cs) /\ CopyOf h x (PT (NRoot d) m c cs) /\ ParsedTrees (trees_of cs).
Proof.
  intros wf f x Hd Hx Hr. cbn [tree_at]. cbv zeta.
  assert (Et : exists d, ntype_of h x = NRoot d) by (unfold is_root in Hr; destruct (ntype_of h x); try discriminate; eexists; reflexivity).
  destruct Et as (d & Et). unfold ntype_of in Et. exists d, (n_meta (node_of h x)), (n_content (node_of h x)).
  destruct (n_childs (node_of h x)) as [l|] eqn:El.
  - assert (Ek : kids h x = l) by (unfold kids, childs; rewrite El; reflexivity).
    assert (K : forall m, incl m l -> exists ts, rmapl (tree_at f h) m = Ok ts /\ CopiesOf h m ts /\ ParsedTrees ts).
    { induction m as [|c m IHm]; intros Hi; [exists []; split; [reflexivity|]; split; constructor|].
      assert (Hc : Child h x c).
      { assert (Hin : In c l) by (apply Hi; left; reflexivity). apply In_nth_error in Hin as (i & Hi'). exists i. unfold Listed. rewrite Ek. exact Hi'. }
      destruct Hc as (i & Hl). destruct (wf_listed h wf _ _ _ Hl) as (C1 & C2 & _).
      destruct (tree_at_ok h wf f c) as (t & E & C & P).
      - apply (dig_child h wf f x c Hd). exists i. exact Hl.
      - exact C1.
      - destruct (is_root h c) eqn:Er; [|reflexivity]. rewrite (wf_root h wf c Er) in C2. discriminate.
      - destruct IHm as (ts & Es & Cs & Ps); [intros y Hy; apply Hi; right; exact Hy|].
        exists (t :: ts). cbn [rmapl]. rewrite E. cbn [rbind]. rewrite Es. split; [reflexivity|]. split; constructor; assumption. }
    destruct (K l (incl_refl l)) as (ts & Es & Cs & Ps). rewrite Es. cbn [rbind]. exists (Some ts). rewrite Et. split; [reflexivity|]. split; [|exact Ps].
    apply Copy_node with (ids := l); try reflexivity; [exact Hx | exact Et | exact El | exact Cs].
  - exists None. rewrite Et. split; [reflexivity|]. split; [|constructor]. apply Copy_leaf; try reflexivity; [exact Hx | exact Et | exact El].
Qed.

(** * Trees in a heap that grew *)
Lemma copy_forward h h' : length h <= length h' -> (forall y, y < length h -> node_of h' y = node_of h y) ->
  (forall x t, CopyOf h x t -> CopyOf h' x t) /\ (forall l ts, CopiesOf h l ts -> CopiesOf h' l ts).
Proof.
  intros L Old. apply shows_both.
  - intros x ty m c Hx E1 E2 E3 E4. unfold ntype_of, childs in *. apply Copy_leaf; unfold ntype_of, childs; rewrite ?(Old x Hx); try assumption. lia.
  - intros x ty m c ids l Hx E1 E2 E3 E4 _ IH. unfold ntype_of, childs in *. apply Copy_node with (ids := ids); unfold ntype_of, childs; rewrite ?(Old x Hx); try assumption. lia.
  - constructor.
  - intros x ids t l _ IH1 _ IH2. constructor; assumption.
Qed.
Lemma copy_back h h' : WF h -> (forall y, y < length h -> node_of h' y = node_of h y) ->
  (forall x t, CopyOf h' x t -> x < length h -> CopyOf h x t) /\ (forall l ts, CopiesOf h' l ts -> Forall (fun x => x < length h) l -> CopiesOf h l ts).
Proof.
  intros wf Old. apply shows_both.
  - intros x ty m c _ E1 E2 E3 E4 Hx. unfold ntype_of, childs in *. rewrite (Old x Hx) in *. apply Copy_leaf; assumption.
  - intros x ty m c ids l _ E1 E2 E3 E4 _ IH Hx. unfold ntype_of, childs in *. rewrite (Old x Hx) in *. apply Copy_node with (ids := ids); try assumption.
    apply IH. apply Forall_forall. intros y Hy. apply In_nth_error in Hy as (i & Hi).
    apply (wf_listed h wf x i y). unfold Listed, kids, childs. rewrite E4. exact Hi.
  - constructor.
  - intros x ids t l _ IH1 _ IH2 H. inversion H; subst. constructor; auto.
Qed.
Lemma anceq_grow h h' x y : length h <= length h' -> (forall z, z < length h -> node_of h' z = node_of h z) -> AncEq h x y -> AncEq h' x y.
Proof.
  intros L Old [-> | H]; [left; reflexivity|]. right.
  assert (Hc : forall p c, Child h p c -> Child h' p c).
  { intros p c (i & Hl). exists i. assert (Hp : p < length h).
    { destruct (lt_dec p (length h)) as [Hp|Hp]; [exact Hp|]. exfalso. unfold Listed, kids, childs in Hl. rewrite node_beyond in Hl by lia. destruct i; discriminate. }
    unfold Listed, kids, childs in *. rewrite (Old p Hp). exact Hl. }
  induction H as [p c H | p q c H IH H2]; [apply Anc_child; auto | eapply Anc_step; [exact IH | auto]].
Qed.

(** * One copy *)
Lemma own_shape owner h ns : Shape (h ++ ns) (h ++ map (own owner) ns).
Proof.
  destruct owner as [r|]; [apply owned_shape|]. cbn [own]. rewrite map_id. split; [reflexivity|]. intros y. repeat split.
Qed.
Lemma shape_copy h h' : Shape h h' -> (forall x t, CopyOf h x t -> CopyOf h' x t) /\ (forall l ts, CopiesOf h l ts -> CopiesOf h' l ts).
Proof.
  intros [L Sh]. apply shows_both.
  - intros x ty m c Hx E1 E2 E3 E4. destruct (Sh x) as (_ & _ & S1 & S2 & S3 & S4). apply Copy_leaf; first [congruence | rewrite L; exact Hx].
  - intros x ty m c ids l Hx E1 E2 E3 E4 _ IH. destruct (Sh x) as (_ & _ & S1 & S2 & S3 & S4). apply Copy_node with (ids := ids); first [congruence | rewrite L; exact Hx | exact IH].
  - constructor.
  - intros x ids t l _ IH1 _ IH2. constructor; assumption.
Qed.

Lemma copied_ok owner h x : WF h -> is_element h x = true -> exists h' y, copied owner h x = Ok (h', y) /\ WF h' /\ Clones h h' [x] [y].
Proof.
  intros wf He. pose proof (element_lt h x He) as Hx. unfold copied. rewrite He. cbn [orb].
  assert (Hr : is_root h x = false) by (unfold is_element, is_root in *; destruct (ntype_of h x); congruence).
  destruct (tree_at_ok h wf (S (length h)) x (dig_full h wf x) Hx Hr) as (t & E & C & P). rewrite E. cbn [rbind].
  eexists _, _. split; [reflexivity|]. set (ns := lay None 0 (length h) t). set (h0 := h ++ ns).
  assert (Ens : lay_list None 0 (length h) [t] = ns) by (cbn [lay_list]; apply app_nil_r).
  assert (wf0 : WF h0).
  { unfold h0. rewrite <- Ens. apply block_wf; [exact wf|]. constructor; [exact P | constructor]. }
  destruct (proj1 lay_both t P h0 None 0 (length h) (at_end h ns)) as (L & B & _ & C').
  pose proof (own_shape owner h ns) as Sh. fold h0 in Sh. pose proof (shape_wf _ _ Sh wf0) as wf'.
  assert (Ln : length (h ++ map (own owner) ns) = length h + psize t) by (rewrite app_length, map_length; f_equal; exact L).
  split; [exact wf'|]. split.
  - constructor; [|constructor]. exists t. split; [exact C | apply (proj1 (shape_copy _ _ Sh)); exact C'].
  - intros y Hy. apply node_app_old. exact Hy.
  - rewrite app_length. lia.
  - constructor; [|constructor]. split; [rewrite Ln; pose proof (psize_pos t); lia|].
    destruct Sh as [_ Sh]. destruct (Sh (length h)) as (-> & _). destruct B as [B1 B2 B3 _ _ _ _]. apply B3. left. reflexivity.
  - repeat constructor. intros [].
  - intros z Hz. exists (length h). split; [left; reflexivity|]. rewrite Ln in Hz.
    assert (Hall : forall n z, z < n -> length h <= z < length h + psize t -> AncEq (h ++ map (own owner) ns) (length h) z).
    { induction n as [|n IHn]; intros z' Hn Hz'; [lia|].
      destruct (Nat.eq_dec z' (length h)) as [-> | Hne]; [left; reflexivity|].
      destruct (proj1 lay_listed t P h0 None 0 (length h) (at_end h ns) z') as (q & Q1 & Q2); [lia|].
      assert (Q3 : Child (h ++ map (own owner) ns) q z').
      { destruct Q2 as (i & Q2). exists i. unfold Listed, kids in *. destruct Sh as [_ Sh]. destruct (Sh q) as (_ & _ & -> & _). exact Q2. }
      right. destruct (IHn q) as [-> | H]; [lia | lia | apply Anc_child; exact Q3 | eapply Anc_step; [exact H | exact Q3]]. }
    apply (Hall (S z)); lia.
Qed.

Lemma container_lt h x : Container h x -> x < length h.
Proof.
  intros [H | H]; [exact (element_lt h x H)|]. destruct (lt_dec x (length h)) as [L | L]; [exact L|].
  unfold is_root, ntype_of in H. rewrite node_beyond in H by lia. discriminate.
Qed.
Lemma copied_root owner h x : WF h -> is_root h x = true -> exists h' y, copied owner h x = Ok (h', y) /\ WF h' /\ Clones h h' [x] [y].
Proof.
  intros wf Hr. pose proof (container_lt h x (or_intror Hr)) as Hx. unfold copied. rewrite Hr, orb_true_r.
  destruct (tree_at_root h wf (length h) x (dig_full h wf x) Hx Hr) as (d & m & c & cs & E & C & P). rewrite E. cbn [rbind].
  eexists _, _. split; [reflexivity|]. set (t := PT (NRoot d) m c cs) in *. set (ns := lay None 0 (length h) t). set (h0 := h ++ ns).
  pose proof (doc_wf h d cs m c wf P) as wf0. fold t ns h0 in wf0.
  pose proof (doc_len0 h d cs m c P) as L0. fold t ns h0 in L0.
  pose proof (doc_kids h d cs m c P) as K0. fold t ns h0 in K0.
  destruct (doc_at h d cs m c) as (A1 & A2 & A3). fold t ns h0 in A1, A2, A3.
  destruct (doc_block h d cs m c P) as (B & I & Cs). fold t ns h0 in B, I, Cs.
  pose proof (own_shape owner h ns) as Sh. fold h0 in Sh. pose proof (shape_wf _ _ Sh wf0) as wf'.
  assert (Ln : length (h ++ map (own owner) ns) = length h0) by (unfold h0; rewrite !app_length, map_length; reflexivity).
  split; [exact wf'|]. split.
  - constructor; [|constructor]. exists t. split; [exact C | apply (proj1 (shape_copy _ _ Sh))]. unfold t. destruct cs as [l|].
    + apply Copy_node with (ids := roots_from (S (length h)) l); unfold ntype_of, childs; rewrite ?A2; try reflexivity; [exact A1 | exact Cs].
    + apply Copy_leaf; unfold ntype_of, childs; rewrite ?A2; try reflexivity. exact A1.
  - intros y Hy. apply node_app_old. exact Hy.
  - rewrite app_length. lia.
  - constructor; [|constructor]. split; [rewrite Ln; lia|]. destruct Sh as [_ Sh]. destruct (Sh (length h)) as (-> & _). unfold parent. rewrite A2. reflexivity.
  - repeat constructor. intros [].
  - intros z Hz. exists (length h). split; [left; reflexivity|]. rewrite Ln in Hz. revert Hz. induction z as [z IH] using lt_wf_ind. intros Hz.
    destruct (Nat.eq_dec z (length h)) as [-> | Hne]; [left; reflexivity|].
    assert (Q : exists q, length h <= q < z /\ Child h0 q z).
    { destruct (proj2 lay_listed _ P h0 (Some (length h)) 0 (S (length h)) A3 z) as [Ht | (q & Q1 & Q2)]; [lia | |].
      - exists (length h). split; [lia|]. apply In_nth_error in Ht as (i & Hi). exists i. unfold Listed. rewrite K0. exact Hi.
      - exists q. split; [lia | exact Q2]. }
    destruct Q as (q & Q1 & i & Q2).
    assert (Q3 : Child (h ++ map (own owner) ns) q z).
    { exists i. unfold Listed, kids in *. destruct Sh as [_ Sh]. destruct (Sh q) as (_ & _ & -> & _). exact Q2. }
    right. destruct (IH q) as [-> | H]; [lia | lia | apply Anc_child; exact Q3 | eapply Anc_step; [exact H | exact Q3]].
Qed.
Lemma copied_any owner h x : WF h -> Container h x -> exists h' y, copied owner h x = Ok (h', y) /\ WF h' /\ Clones h h' [x] [y].
Proof. intros wf [H | H]; [exact (copied_ok owner h x wf H) | exact (copied_root owner h x wf H)]. Qed.

(** * A set of copies *)
Lemma clones_trans h h1 h2 els els1 x y : WF h -> Container h x ->
  Clones h h1 els els1 -> Clones h1 h2 [x] [y] -> Clones h h2 (els ++ [x]) (els1 ++ [y]).
Proof.
  intros wf He [A1 A2 A3 A4 A5 A6] [B1 B2 B3 B4 B5 B6]. pose proof (container_lt h x He) as Hx.
  inversion B1 as [|? ? ? ? (t & T1 & T2) _]; subst. inversion B4 as [|? ? [Y1 Y2] _]; subst.
  assert (Old : forall z, z < length h -> node_of h2 z = node_of h z) by (intros z Hz; rewrite B2 by lia; apply A2; exact Hz).
  split.
  - apply Forall2_app; [|constructor; [|constructor]].
    + clear - A1 B2 B3. induction A1 as [|a b l m (t & H1 & H2) _ IH]; constructor; [|exact IH].
      exists t. split; [exact H1 | apply (proj1 (copy_forward _ _ B3 B2)); exact H2].
    + exists t. split; [|exact T2]. apply (proj1 (copy_back h h1 wf A2)); assumption.
  - exact Old.
  - lia.
  - apply Forall_app. split; [|constructor; [|constructor]].
    + rewrite Forall_forall in A4 |- *. intros z Hz. destruct (A4 z Hz) as [Z1 Z2]. split; [lia|]. unfold parent in *. rewrite B2 by lia. exact Z2.
    + split; [lia | exact Y2].
  - clear - A4 A5 Y1. rewrite Forall_forall in A4. induction els1 as [|z l IH]; cbn; [repeat constructor; intros []|].
    inversion A5; subst. constructor.
    + intros H. apply in_app_or in H as [H | [H | []]]; [contradiction|]. subst z. destruct (A4 y (or_introl eq_refl)). lia.
    + apply IH; [intros w Hw; apply A4; right; exact Hw | assumption].
  - intros z Hz. destruct (lt_dec z (length h1)) as [Hl | Hl].
    + destruct (A6 z) as (w & W1 & W2); [lia|]. exists w. split; [apply in_or_app; left; exact W1 | apply (anceq_grow h1 h2); assumption].
    + destruct (B6 z) as (w & W1 & W2); [lia|]. exists w. split; [apply in_or_app; right; exact W1 | exact W2].
Qed.

Lemma clone_from owner h : WF h -> forall els h1 els0 els1, WF h1 -> Clones h h1 els0 els1 -> Forall (Container h) els ->
  exists h' els', rfold (clone_step owner) els (h1, els1) = Ok (h', els') /\ WF h' /\ Clones h h' (els0 ++ els) els'.
Proof.
  intros wf. induction els as [|x els IH]; intros h1 els0 els1 wf1 C He.
  - exists h1, els1. rewrite app_nil_r. split; [reflexivity|]. split; assumption.
  - inversion He as [|? ? Hx Hels]; subst. pose proof (container_lt h x Hx) as Hlt.
    assert (Hx1 : Container h1 x) by (unfold Container, is_element, is_root, ntype_of in *; rewrite (cl_old _ _ _ _ C x Hlt); exact Hx).
    destruct (copied_any owner h1 x wf1 Hx1) as (h2 & y & E & wf2 & C2). cbn [rfold]. unfold clone_step at 1. cbn [fst snd]. rewrite E. cbn [rbind fst snd].
    destruct (IH h2 (els0 ++ [x]) (els1 ++ [y]) wf2 (clones_trans _ _ _ _ _ _ _ wf Hx C C2) Hels) as (h' & els' & E' & wf' & C').
    exists h', els'. rewrite <- app_assoc in C'. split; [exact E'|]. split; assumption.
Qed.
Lemma clones_none h : Clones h h [] [].
Proof. split; try constructor; intros; try lia. Qed.
Lemma clone_ok owner h els : WF h -> Forall (Container h) els ->
  exists h' els', clone owner h els = Ok (h', els') /\ WF h' /\ Clones h h' els els'.
Proof. intros wf He. exact (clone_from owner h wf els h [] [] wf (clones_none h) He). Qed.

(** * Programs of calls stay inside the part they are called on *)
Section KeptCalls.
  Variable B : id -> Prop.
  Variable o : oracles_dom.
  Variable oa : oracles_attr.
  Variable parse : parser.
  Hypothesis HP : ParserOk parse.

  Lemma kept_meta h x f h' : Sealed B h -> ~ B x -> on_meta h x f = Ok h' -> Kept B h h'.
  Proof.
    intros Hs Hx E. unfold on_meta in E. destruct (n_meta (node_of h x)) as [m|]; [|injection E as <-; apply kept_refl; exact Hs].
    apply rbind_ok in E. destruct E as (m' & _ & E). injection E as <-. apply kept_upd; [exact Hs | exact Hx | |]; cbn; intros; left; assumption.
  Qed.
  Lemma kept_meta_all f l : forall h h', Sealed B h -> (forall x, In x l -> ~ B x) ->
    rfold (fun h x => on_meta h x f) l h = Ok h' -> Kept B h h'.
  Proof.
    induction l as [|x l IH]; intros h h' Hs Hx E; cbn [rfold] in E; [injection E as <-; apply kept_refl; exact Hs|].
    apply rbind_ok in E. destruct E as (h1 & E1 & E).
    pose proof (kept_meta h x f h1 Hs (Hx x (or_introl eq_refl)) E1) as K1. apply (kept_trans B _ _ _ K1).
    apply IH; [exact (kept_sealed B _ _ K1) | | exact E]. intros y Hy. apply Hx. right. exact Hy.
  Qed.
  (** New nodes at the end of the heap that only point at each other. *)
  Lemma kept_grow h ts : Sealed B h -> (forall b, B b -> b < length h) -> ParsedTrees ts ->
    Kept B h (h ++ lay_list None 0 (length h) ts) /\ forall y, In y (roots_from (length h) ts) -> ~ B y.
  Proof.
    intros Hs Hb Hts. set (h1 := h ++ lay_list None 0 (length h) ts).
    destruct (proj2 lay_both ts Hts h1 None 0 (length h) (at_end _ _)) as (L & [B1 B2 B3 B4 B5 B6 B7] & _ & _).
    assert (Ln : length h1 = length h + psizes ts) by (unfold h1; rewrite app_length, L; reflexivity).
    assert (Hnew : forall y, length h <= y -> ~ B y) by (intros y Hy Hby; apply Hb in Hby; lia).
    split; [|intros y Hy; apply Hnew; apply roots_ge in Hy; lia].
    split; [intros b Hbb; apply node_app_old; auto|]. split; [|unfold h1; rewrite app_length; lia].
    intros y Hy. destruct (lt_dec y (length h)) as [Hl | Hl].
    - destruct (Hs y Hy) as [S1 S2]. unfold parent, kids, childs in *. unfold h1. rewrite (node_app_old h _ y Hl). split; assumption.
    - destruct (lt_dec y (length h1)) as [Hl' | Hl'].
      + split.
        * intros p Ep. destruct (B4 y) as [Ht | (q & Q1 & Q2 & _)]; [lia | |].
          -- rewrite (B3 y Ht) in Ep. discriminate.
          -- rewrite Q2 in Ep. injection Ep as <-. apply Hnew. lia.
        * intros c Hc. apply In_nth_error in Hc as (j & Hj). destruct (B5 y j c) as (C1 & _); [lia | exact Hj|]. apply Hnew. lia.
      + split; [intros p Ep; unfold parent in Ep | intros c Hc; unfold kids, childs in Hc]; rewrite node_beyond in * by lia; [discriminate | destruct Hc].
  Qed.
  Lemma kept_html h x s h' : Sealed B h -> (forall b, B b -> b < length h) -> ~ B x -> set_html o parse h x s = Ok h' -> Kept B h h'.
  Proof.
    intros Hs Hb Hx E. unfold set_html in E. destruct (html_target h x) as [[e p]|] eqn:Et; [|injection E as <-; apply kept_refl; exact Hs].
    assert (Hp : ~ B p).
    { unfold html_target in Et. destruct (ntype_of h x); try discriminate.
      - injection Et as _ <-. exact Hx.
      - destruct (parent h x) as [q|] eqn:Eq; [|discriminate]. injection Et as _ <-. exact (sealed_parent B h x q Hs Hx Eq).
      - destruct (parent h x) as [q|] eqn:Eq; [|discriminate]. injection Et as _ <-. exact (sealed_parent B h x q Hs Hx Eq). }
    destruct (n_meta (node_of h p)) as [m|]; [|discriminate].
    destruct (od_content_tag o (m_name m)); [injection E as <-; apply kept_con; assumption|].
    destruct (parse s) as [[ts|]|] eqn:Ep; [| |discriminate].
    2: { injection E as <-. apply kept_ch; [exact Hs | exact Hp | discriminate]. }
    cbv zeta in E. rewrite remove_not_allowed_ok in E. cbn [rbind] in E.
    destruct (kept_grow h ts Hs Hb (HP s ts Ep)) as [K1 Hroots]. set (h1 := h ++ lay_list None 0 (length h) ts) in *.
    set (nodes := filter _ (roots_from (length h) ts)) in *.
    assert (Hn : forall y, In y nodes -> ~ B y) by (intros y Hy; apply filter_In in Hy; apply Hroots; tauto).
    assert (K2 : Kept B h1 (set_parents h1 p nodes)) by (apply kept_set_parents; [exact (kept_sealed B _ _ K1) | exact Hp | exact Hn]).
    apply (kept_trans B _ _ _ K1). apply (kept_trans B _ _ _ K2). set (h2 := set_parents h1 p nodes) in *.
    pose proof (kept_sealed B _ _ K2) as Hs2. destruct e.
    - injection E as <-.
      assert (K3 : Kept B h2 (if (length nodes <? length (roots_from (length h) ts)) && (0 <? length nodes) then reset_index h2 0 nodes else h2)).
      { destruct (_ && _); [apply kept_reset; assumption | apply kept_refl; exact Hs2]. }
      apply (kept_trans B _ _ _ K3). apply kept_ch; [exact (kept_sealed B _ _ K3) | exact Hp|].
      intros l El c Hc. destruct (0 <? length nodes); [injection El as <-; exact (Hn c Hc) | discriminate].
    - destruct (childs h2 p) as [cs|] eqn:Ec; [|injection E as <-; apply kept_refl; exact Hs2].
      assert (Hcs : forall c, In c cs -> ~ B c) by (intros c Hc; exact (sealed_childs B h2 p cs c Hs2 Hp Ec Hc)).
      apply rbind_ok in E. destruct E as (last & _ & E).
      match type of E with context [reset_index ?hh ?ii nodes] => set (h3 := hh) in * end.
      assert (K3 : Kept B h2 h3).
      { unfold h3. destruct (_ <? last); [|apply kept_refl; exact Hs2]. apply kept_reset; [exact Hs2|].
        intros y Hy. apply Hcs. exact (in_skipn y _ _ Hy). }
      apply (kept_trans B _ _ _ K3). pose proof (kept_sealed B _ _ K3) as Hs3.
      destruct (0 <? length nodes).
      + destruct (S (index h2 x) <=? length cs); [|discriminate]. injection E as <-.
        assert (K4 : Kept B h3 (reset_index h3 (index h2 x) nodes)) by (apply kept_reset; assumption).
        apply (kept_trans B _ _ _ K4). apply kept_ch; [exact (kept_sealed B _ _ K4) | exact Hp|].
        intros l El c Hc. injection El as <-. apply in_app_or in Hc as [Hc | Hc]; [apply Hcs; exact (in_firstn c _ _ Hc)|].
        apply in_app_or in Hc as [Hc | Hc]; [exact (Hn c Hc) | apply Hcs; exact (in_skipn c (S (index h2 x)) cs Hc)].
      + apply rbind_ok in E. destruct E as (cs' & E' & E). injection E as <-. apply kept_ch; [exact Hs3 | exact Hp|].
        intros l El c Hc. injection El as <-. apply Hcs. exact (remove_at_in cs cs' _ c E' Hc).
  Qed.

  Lemma kept_call h c h' : Sealed B h -> (forall b, B b -> b < length h) -> (forall x, In x (call_nodes c) -> ~ B x) ->
    run_call o oa parse h c = Ok h' -> Kept B h h'.
  Proof.
    intros Hs Hb Hn E. destruct c as [c|l n v|l n|l s|l s|l s|x s]; cbn [run_call call_nodes] in *.
    - exact (kept_op B o h c h' Hs Hb Hn E).
    - exact (kept_meta_all _ l h h' Hs Hn E).
    - exact (kept_meta_all _ l h h' Hs Hn E).
    - exact (kept_meta_all _ l h h' Hs Hn (class_all_on _ _ l h h' E)).
    - exact (kept_meta_all _ l h h' Hs Hn (class_all_on _ _ l h h' E)).
    - exact (kept_meta_all _ l h h' Hs Hn (class_all_on _ _ l h h' E)).
    - apply (kept_html h x s h' Hs Hb); [|exact E]. apply Hn. left. reflexivity.
  Qed.
  Lemma kept_calls l : forall h h', Sealed B h -> (forall b, B b -> b < length h) ->
    (forall c x, In c l -> In x (call_nodes c) -> ~ B x) -> run_calls o oa parse h l = Ok h' -> Kept B h h'.
  Proof.
    induction l as [|c l IH]; intros h h' Hs Hb Hn E.
    - injection E as <-. exact (kept_refl B h Hs).
    - unfold run_calls in E. cbn [rfold] in E. apply rbind_ok in E. destruct E as (h1 & E1 & E).
      assert (K1 : Kept B h h1).
      { apply (kept_call h c h1 Hs Hb); [|exact E1]. intros x Hx. exact (Hn c x (or_introl eq_refl) Hx). }
      apply (kept_trans B _ _ _ K1). apply IH.
      + exact (kept_sealed B _ _ K1).
      + intros b Hbb. pose proof (Hb b Hbb). destruct K1 as (_ & _ & L). lia.
      + intros d x Hd Hx. exact (Hn d x (or_intror Hd) Hx).
      + exact E.
  Qed.
End KeptCalls.

(** * Originals and copies are not linked *)
Lemma clones_sealed h h' els els' : WF h -> WF h' -> Clones h h' els els' ->
  Sealed (fun x => x < length h) h' /\ Sealed (fun x => length h <= x < length h') h'.
Proof.
  intros wf wf' [A1 A2 A3 A4 A5 A6]. rewrite Forall_forall in A4.
  (* a new node has a new parent or none, and new children *)
  assert (Up_new : forall z p, length h <= z < length h' -> parent h' z = Some p -> length h <= p).
  { intros z p Hz Ep. destruct (A6 z Hz) as (y & Hy & Hyz). destruct (A4 y Hy) as [Y1 Y2].
    assert (Hdown : forall a b, Anc h' a b -> length h <= a -> exists q, Child h' q b /\ length h <= q).
    { intros a b H Ha. destruct H as [q c H | q w c H H2]; [exists q; auto|]. exists w. split; [exact H2|].
      clear H2 c. rename w into v. revert Ha. induction H as [q c H | q w' c H IH H2]; intros Ha.
      - destruct (lt_dec c (length h)) as [Hc | Hc]; [|lia]. exfalso.
        pose proof (child_parent h' wf' _ _ H) as E. unfold parent in E. rewrite (A2 c Hc) in E. destruct (wf_parent h wf _ _ E) as [L _]. lia.
      - specialize (IH Ha). destruct (lt_dec c (length h)) as [Hc | Hc]; [|lia]. exfalso.
        pose proof (child_parent h' wf' _ _ H2) as E. unfold parent in E. rewrite (A2 c Hc) in E. destruct (wf_parent h wf _ _ E) as [L _]. lia. }
    destruct Hyz as [-> | Hyz]; [congruence|]. destruct (Hdown y z Hyz) as (q & Q1 & Q2); [lia|].
    rewrite (child_parent h' wf' _ _ Q1) in Ep. injection Ep as <-. exact Q2. }
  assert (Down_new : forall z c, length h <= z -> In c (kids h' z) -> length h <= c < length h').
  { intros z c Hz Hc. apply In_nth_error in Hc as (i & Hi). destruct (wf_listed h' wf' z i c Hi) as (C1 & C2 & _).
    split; [|exact C1]. destruct (lt_dec c (length h)) as [Hl | Hl]; [|lia]. exfalso.
    unfold parent in C2. rewrite (A2 c Hl) in C2. destruct (wf_parent h wf _ _ C2) as [L _]. lia. }
  split; intros z Hz.
  - assert (Hz' : length h <= z) by lia. split.
    + intros p Ep. destruct (lt_dec z (length h')) as [Hl | Hl]; [specialize (Up_new z p (conj Hz' Hl) Ep); lia|].
      unfold parent in Ep. rewrite node_beyond in Ep by lia. discriminate.
    + intros c Hc. specialize (Down_new z c Hz' Hc). lia.
  - destruct (lt_dec z (length h)) as [Hl | Hl].
    + split.
      * intros p Ep. unfold parent in Ep. rewrite (A2 z Hl) in Ep. destruct (wf_parent h wf _ _ Ep). lia.
      * intros c Hc. unfold kids, childs in Hc. rewrite (A2 z Hl) in Hc. apply In_nth_error in Hc as (i & Hi).
        destruct (wf_listed h wf z i c Hi) as (C1 & _). lia.
    + split; [intros p Ep; unfold parent in Ep | intros c Hc; unfold kids, childs in Hc]; rewrite node_beyond in * by lia; [discriminate | destruct Hc].
Qed.
