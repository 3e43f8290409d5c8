(** Proofs about loading documents. *)
From Verif Require Import Base Utils UtilsSpec UtilsProofs Attr AttrSpec Dom DomSpec Order DomProofs Sets SetsProofs
  Engine Rules SelSpec Mutate MutateSpec MutateProofs InsertProofs HistoryProofs Html HtmlSpec HtmlProofs Load LoadSpec.

Scheme tagged_mut := Induction for TaggedTree Sort Prop with taggedall_mut := Induction for TaggedTrees Sort Prop.
Combined Scheme tagged_both from tagged_mut, taggedall_mut.

(** * Heaps that differ in root pointers only *)
Definition Shape (h h' : heap) : Prop := length h' = length h /\
  forall y, parent h' y = parent h y /\ index h' y = index h y /\ childs h' y = childs h y /\ ntype_of h' y = ntype_of h y /\
    n_content (node_of h' y) = n_content (node_of h y) /\ n_meta (node_of h' y) = n_meta (node_of h y).
Lemma shape_wf h h' : Shape h h' -> WF h -> WF h'.
Proof.
  intros [L Sh] [W1 W2 W3 W4].
  assert (K : forall y, kids h' y = kids h y) by (intros y; unfold kids; destruct (Sh y) as (_ & _ & -> & _); reflexivity).
  assert (T : forall y, is_root h' y = is_root h y /\ is_element h' y = is_element h y) by (intros y; unfold is_root, is_element; destruct (Sh y) as (_ & _ & _ & -> & _); split; reflexivity).
  split.
  - intros p i c H. unfold Listed in H. rewrite K in H. destruct (W1 p i c H) as (A1 & A2 & A3). destruct (Sh c) as (-> & -> & _). rewrite L. repeat split; assumption.
  - intros x p H. destruct (Sh x) as (E & _). rewrite E in H. destruct (W2 x p H) as [A1 A2]. rewrite L. split; [exact A1|]. unfold Container. destruct (T p) as [-> ->]. exact A2.
  - intros x H. apply (W3 x). revert H. generalize x at 2 4. intros y H. induction H as [x p E | x q p H IH E].
    + constructor. destruct (Sh x) as (<- & _). exact E.
    + apply (Up_step h x q p IH). destruct (Sh q) as (<- & _). exact E.
  - intros x H. destruct (T x) as [E _]. rewrite E in H. destruct (Sh x) as (-> & _). exact (W4 x H).
Qed.
Lemma nodes_app h ns ns' y : length ns' = length ns ->
  (y < length h /\ node_of (h ++ ns) y = node_of (h ++ ns') y) \/ (length h <= y /\ node_of (h ++ ns) y = nth (y - length h) ns empty_node /\ node_of (h ++ ns') y = nth (y - length h) ns' empty_node).
Proof.
  intros L. unfold node_of. destruct (lt_dec y (length h)) as [H | H].
  - left. rewrite !app_nth1 by exact H. split; [exact H | reflexivity].
  - right. rewrite !app_nth2 by lia. split; [lia|]. split; reflexivity.
Qed.
Lemma owned_shape h r ns : Shape (h ++ ns) (h ++ map (owned r) ns).
Proof.
  split; [rewrite !app_length, map_length; reflexivity|]. intros y. unfold parent, index, childs, ntype_of.
  destruct (nodes_app h ns (map (owned r) ns) y (map_length _ _)) as [(Hy & E) | (Hy & E1 & E2)]; [rewrite E; repeat split|].
  rewrite E1, E2. destruct (lt_dec (y - length h) (length ns)) as [Hl | Hl].
  - rewrite (nth_indep (map (owned r) ns) empty_node (owned r empty_node)) by (rewrite map_length; exact Hl). rewrite map_nth. repeat split.
  - rewrite !nth_overflow by (rewrite ?map_length; lia). repeat split.
Qed.
Lemma owned_root h r ns y : length h <= y < length h + length ns -> n_root (node_of (h ++ map (owned r) ns) y) = Some r.
Proof.
  intros H. unfold node_of. rewrite app_nth2 by lia. rewrite (nth_indep _ empty_node (owned r empty_node)) by (rewrite map_length; lia). rewrite map_nth. reflexivity.
Qed.

(** * The tag data of the laid out nodes *)
Definition GoodMeta (n : node) : Prop := n_type n = NTag -> exists m, n_meta n = Some m /\ MetaOk m.
Lemma lay_meta : (forall t, TaggedTree t -> forall par i b, Forall GoodMeta (lay par i b t)) /\
  (forall l, TaggedTrees l -> forall par i b, Forall GoodMeta (lay_list par i b l)).
Proof.
  apply tagged_both.
  - intros ty m c H par i b. constructor; [exact H | constructor].
  - intros ty m c l H _ IH par i b. rewrite lay_node. constructor; [exact H | apply IH].
  - intros par i b. constructor.
  - intros t l _ IHt _ IHl par i b. cbn [lay_list]. apply Forall_app. split; [apply IHt | apply IHl].
Qed.

(** * Every laid out node is listed by an earlier one or topmost *)
Lemma lay_listed : (forall t, ParsedTree t -> forall h par i b, At h b (lay par i b t) -> forall x, b < x < b + psize t -> exists q, b <= q < x /\ Child h q x) /\
  (forall l, ParsedTrees l -> forall h par i b, At h b (lay_list par i b l) -> forall x, b <= x < b + psizes l -> In x (roots_from b l) \/ exists q, b <= q < x /\ Child h q x).
Proof.
  apply parsed_both.
  - intros ty m c _ h par i b _ x Hx. cbn [psize] in Hx. lia.
  - intros ty m c _ h par i b _ x Hx. cbn [psize] in Hx. lia.
  - intros m c l _ IH h par i b H x Hx. rewrite lay_node in H. rewrite psize_node in Hx. apply at_cons in H. destruct H as (Hb & En & H).
    destruct (IH h (Some b) 0 (S b) H x) as [Ht | (q & Q1 & Q2)]; [lia | |].
    + exists b. split; [lia|]. apply In_nth_error in Ht. destruct Ht as (j & Hj). exists j. unfold Listed, kids, childs. rewrite En. exact Hj.
    + exists q. split; [lia | exact Q2].
  - intros h par i b _ x Hx. cbn [psizes] in Hx. lia.
  - intros t l Hp IHt Hps IHl h par i b H x Hx. cbn [lay_list psizes roots_from] in *. destruct (at_app _ _ _ _ H) as [H1 H2].
    rewrite (proj1 (proj1 lay_both t Hp h par i b H1)) in H2. destruct (Nat.eq_dec x b) as [-> | Hn]; [left; left; reflexivity|].
    destruct (lt_dec x (b + psize t)) as [Hl | Hl].
    + right. apply (IHt h par i b H1). lia.
    + destruct (IHl h par (S i) (b + psize t) H2 x) as [Ht | (q & Q1 & Q2)]; [lia | left; right; exact Ht|]. right. exists q. split; [lia | exact Q2].
Qed.

(** * A document at the end of the heap *)
Lemma lay_root r d m c cs : lay None 0 r (PT (NRoot d) m c cs) =
  mkNode (NRoot d) None 0 (option_map (roots_from (S r)) cs) c m None :: lay_list (Some r) 0 (S r) (trees_of cs).
Proof. destruct cs as [l|]; [apply lay_node | reflexivity]. Qed.

Section Doc.
  Variable h : heap.
  Variable d : bool.
  Variable cs : option (list ptree).
  Variable rm : option meta.
  Variable rc : option str.
  Let r := length h.
  Let ts := trees_of cs.
  Let ns := lay None 0 r (PT (NRoot d) rm rc cs).
  Let h0 := h ++ ns.
  Hypothesis wf : WF h.
  Hypothesis HP : ParsedTrees ts.

  Lemma doc_at : r < length h0 /\ node_of h0 r = mkNode (NRoot d) None 0 (option_map (roots_from (S r)) cs) rc rm None /\ At h0 (S r) (lay_list (Some r) 0 (S r) ts).
  Proof. pose proof (at_end h ns) as H. unfold ns in H at 2. rewrite lay_root in H. exact (at_cons _ _ _ _ H). Qed.
  Lemma doc_kids : kids h0 r = roots_from (S r) ts.
  Proof. unfold kids, childs. rewrite (proj1 (proj2 doc_at)). cbn [n_childs]. unfold ts. destruct cs; reflexivity. Qed.
  Lemma doc_len : length ns = S (psizes ts).
  Proof. unfold ns. rewrite lay_root. cbn [length]. f_equal. exact (proj1 (proj2 lay_both ts HP h0 (Some r) 0 (S r) (proj2 (proj2 doc_at)))). Qed.
  Lemma doc_len0 : length h0 = S r + psizes ts.
  Proof. unfold h0. rewrite app_length, doc_len. fold r. lia. Qed.
  Lemma doc_old y : y < r -> node_of h0 y = node_of h y.
  Proof. apply node_app_old. Qed.

  Lemma doc_block : Block h0 (Some r) (S r) (length h0) (roots_from (S r) ts) /\
    (forall j y, nth_error (roots_from (S r) ts) j = Some y -> index h0 y = j) /\ CopiesOf h0 (roots_from (S r) ts) ts.
  Proof.
    destruct (proj2 lay_both ts HP h0 (Some r) 0 (S r) (proj2 (proj2 doc_at))) as (L & B & I & C). rewrite doc_len0. split; [exact B|]. split; [exact I | exact C].
  Qed.
  (** The children of a new node are later new nodes; the parent of a new node other than the root is an earlier one. *)
  Lemma doc_down x j c : r <= x < length h0 -> Listed h0 x j c -> x < c < length h0 /\ parent h0 c = Some x /\ index h0 c = j.
  Proof.
    intros Hx Hl. destruct doc_block as ([B1 B2 B3 B4 B5 B6 B7] & I & _). destruct (Nat.eq_dec x r) as [-> | Hn]; [|apply B5; [lia | exact Hl]].
    unfold Listed in Hl. rewrite doc_kids in Hl. pose proof (nth_error_In _ _ Hl) as Hin. pose proof (B2 _ Hin). split; [lia|]. split; [exact (B3 _ Hin) | exact (I j c Hl)].
  Qed.
  Lemma doc_up x : r < x < length h0 -> exists q, r <= q < x /\ parent h0 x = Some q /\ Container h0 q.
  Proof.
    intros Hx. destruct doc_block as ([B1 B2 B3 B4 B5 B6 B7] & I & _). destruct (B4 x) as [Ht | (q & Q1 & Q2 & Q3)]; [lia | |].
    - exists r. split; [lia|]. split; [exact (B3 x Ht)|]. right. unfold is_root, ntype_of. rewrite (proj1 (proj2 doc_at)). reflexivity.
    - exists q. split; [lia|]. split; [exact Q2 | left; exact Q3].
  Qed.
  Lemma doc_root_top : parent h0 r = None.
  Proof. unfold parent. rewrite (proj1 (proj2 doc_at)). reflexivity. Qed.

  Lemma doc_wf : WF h0.
  Proof.
    assert (Out : forall y, length h0 <= y -> node_of h0 y = empty_node) by (intros y; apply node_beyond).
    assert (Old := doc_old). assert (Lr : r <= length h0) by (pose proof doc_len0; lia).
    split.
    - intros p i c Hl. destruct (lt_dec p r) as [Hlt | Hge].
      + assert (Hl' : Listed h p i c) by (unfold Listed, kids, childs in *; rewrite (Old p Hlt) in Hl; exact Hl).
        destruct (wf_listed h wf _ _ _ Hl') as (C1 & C2 & C3). unfold parent, index in *. rewrite (Old c C1). fold r in C1. split; [lia|]. split; assumption.
      + destruct (lt_dec p (length h0)) as [Hlt | Hge'].
        * destruct (doc_down p i c) as (C1 & C2 & C3); [lia | exact Hl|]. split; [lia|]. split; assumption.
        * unfold Listed, kids, childs in Hl. rewrite Out in Hl by lia. destruct i; discriminate.
    - intros x p Hx. destruct (lt_dec x r) as [Hlt | Hge].
      + unfold parent in Hx. rewrite (Old x Hlt) in Hx. destruct (wf_parent h wf _ _ Hx) as [C1 C2]. fold r in C1. split; [lia|].
        unfold Container, is_element, is_root, ntype_of. rewrite (Old p C1). exact C2.
      + destruct (Nat.eq_dec x r) as [-> | Hn]; [rewrite doc_root_top in Hx; discriminate|].
        destruct (lt_dec x (length h0)) as [Hlt | Hge'].
        * destruct (doc_up x) as (q & Q1 & Q2 & Q3); [lia|]. rewrite Q2 in Hx. injection Hx as <-. split; [lia | exact Q3].
        * unfold parent in Hx. rewrite Out in Hx by lia. discriminate.
    - assert (Up_old : forall x y, Up h0 x y -> x < r -> y < r /\ Up h x y).
      { intros x y H. induction H as [x p E | x q p H IH E]; intros Hx.
        - unfold parent in E. rewrite (Old x Hx) in E. split; [apply (wf_parent h wf _ _ E) | constructor; exact E].
        - destruct (IH Hx) as [Hq Hu]. unfold parent in E. rewrite (Old q Hq) in E.
          split; [apply (wf_parent h wf _ _ E) | exact (Up_step _ _ _ _ Hu E)]. }
      assert (One : forall x p, r <= x -> parent h0 x = Some p -> r <= p < x).
      { intros x p Hx E. destruct (Nat.eq_dec x r) as [-> | Hn]; [rewrite doc_root_top in E; discriminate|].
        destruct (lt_dec x (length h0)) as [Hlt | Hge'].
        - destruct (doc_up x) as (q & Q1 & Q2 & Q3); [lia|]. rewrite Q2 in E. injection E as <-. exact Q1.
        - unfold parent in E. rewrite Out in E by lia. discriminate. }
      assert (Up_new : forall x y, Up h0 x y -> r <= x -> r <= y < x).
      { intros x y H. induction H as [x p E | x q p H IH E]; intros Hx; [exact (One x p Hx E)|].
        specialize (IH Hx). pose proof (One q p (proj1 IH) E). lia. }
      intros x H. destruct (lt_dec x r) as [Hlt | Hge].
      + exact (wf_acyclic h wf x (proj2 (Up_old x x H Hlt))).
      + pose proof (Up_new x x H). lia.
    - intros x Hx. destruct (lt_dec x r) as [Hlt | Hge].
      + unfold parent, is_root, ntype_of in *. rewrite (Old x Hlt) in *. exact (wf_root h wf x Hx).
      + destruct (Nat.eq_dec x r) as [-> | Hn]; [exact doc_root_top|]. destruct (lt_dec x (length h0)) as [Hlt | Hge'].
        * destruct doc_block as ([B1 B2 B3 B4 B5 B6 B7] & _). rewrite B6 in Hx by lia. discriminate.
        * unfold is_root, ntype_of in Hx. rewrite Out in Hx by lia. discriminate.
  Qed.

  Let h1 := h ++ map (owned r) ns.
  Lemma doc_shape : Shape h0 h1.
  Proof. exact (owned_shape h r ns). Qed.
  Lemma doc_wf1 : WF h1.
  Proof. exact (shape_wf _ _ doc_shape doc_wf). Qed.
  Lemma doc_old1 y : y < r -> node_of h1 y = node_of h y.
  Proof. apply node_app_old. Qed.
  Lemma doc_kids1 y : kids h1 y = kids h0 y.
  Proof. unfold kids. destruct doc_shape as [_ Sh]. destruct (Sh y) as (_ & _ & -> & _). reflexivity. Qed.
  Lemma doc_parent1 y : parent h1 y = parent h0 y.
  Proof. apply doc_shape. Qed.
  Lemma doc_len1 : length h1 = length h0.
  Proof. apply doc_shape. Qed.

  Lemma doc_all x : r <= x < length h1 -> InTree h1 r x.
  Proof.
    rewrite doc_len1. intros Hx. split; [rewrite doc_parent1; exact doc_root_top|]. revert Hx. induction x as [x IH] using lt_wf_ind. intros Hx.
    destruct (Nat.eq_dec x r) as [-> | Hn]; [exists []; constructor|].
    assert (Hc : exists q, r <= q < x /\ Child h0 q x).
    { destruct (proj2 lay_listed ts HP h0 (Some r) 0 (S r) (proj2 (proj2 doc_at)) x) as [Ht | (q & Q1 & Q2)]; [pose proof doc_len0; lia | |].
      - exists r. split; [lia|]. apply In_nth_error in Ht. destruct Ht as (i & Hi). exists i. unfold Listed. rewrite doc_kids. exact Hi.
      - exists q. split; [lia | exact Q2]. }
    destruct Hc as (q & Q1 & i & Hi). destruct (IH q) as (l & Hl); [lia | lia|].
    exists (l ++ [i]). apply (Path_down h1 r l q i x Hl). unfold Listed. rewrite doc_kids1. exact Hi.
  Qed.
  (** What lies below a new node is new, what lies below an old one is old. *)
  Lemma doc_new_path l x : Path h1 r l x -> r <= x < length h1.
  Proof.
    rewrite doc_len1. intros H. induction H as [|l p i c _ IH Hl]; [pose proof doc_at; lia|].
    unfold Listed in Hl. rewrite doc_kids1 in Hl. destruct (doc_down p i c IH Hl) as (C & _). lia.
  Qed.
  Lemma doc_old_path r0 l x : r0 < r -> (Path h1 r0 l x <-> Path h r0 l x).
  Proof.
    intros Hr. assert (K : forall y, y < r -> kids h1 y = kids h y) by (intros y Hy; unfold kids, childs; rewrite (doc_old1 y Hy); reflexivity). split.
    - intros H. enough (x < r /\ Path h r0 l x) by tauto. induction H as [|l p i c _ [IH1 IH2] Hl]; [split; [exact Hr | constructor]|].
      unfold Listed in Hl. rewrite (K p IH1) in Hl. split; [exact (proj1 (wf_listed h wf p i c Hl)) | exact (Path_down h r0 l p i c IH2 Hl)].
    - intros H. enough (x < r /\ Path h1 r0 l x) by tauto. induction H as [|l p i c _ [IH1 IH2] Hl]; [split; [exact Hr | constructor]|].
      split; [exact (proj1 (wf_listed h wf p i c Hl))|]. apply (Path_down h1 r0 l p i c IH2). unfold Listed. rewrite (K p IH1). exact Hl.
  Qed.

  Hypothesis HT : TaggedTrees ts.
  Lemma doc_docok : DocOk h1 r.
  Proof.
    split.
    - exact doc_wf1.
    - unfold is_root. destruct doc_shape as [_ Sh]. destruct (Sh r) as (_ & _ & _ & -> & _). unfold ntype_of. rewrite (proj1 (proj2 doc_at)). reflexivity.
    - intros x [_ (l & Hl)] _. apply doc_new_path in Hl. unfold owner_document. apply owned_root. fold r. fold ns. unfold h1 in Hl. rewrite app_length, map_length in Hl. exact Hl.
    - intros x [_ (l & Hl)] He. apply doc_new_path in Hl. rewrite doc_len1 in Hl. destruct doc_shape as [_ Sh]. unfold is_element in He. destruct (Sh x) as (_ & _ & _ & Et & _ & Em). rewrite Em. rewrite Et in He. unfold ntype_of in He.
      destruct (Nat.eq_dec x r) as [-> | Hn]; [rewrite (proj1 (proj2 doc_at)) in He; discriminate|].
      assert (G : Forall GoodMeta (lay_list (Some r) 0 (S r) ts)) by (apply lay_meta; exact HT).
      rewrite Forall_forall in G. apply (G (node_of h0 x)); [|destruct (n_type (node_of h0 x)); discriminate || reflexivity].
      pose proof doc_len0 as L0. pose proof (proj1 (proj2 lay_both ts HP h0 (Some r) 0 (S r) (proj2 (proj2 doc_at)))) as L1.
      destruct (nth_error (lay_list (Some r) 0 (S r) ts) (x - S r)) as [n|] eqn:E; [|apply nth_error_None in E; lia].
      pose proof (proj2 (proj2 doc_at) _ _ E) as E'. replace (S r + (x - S r)) with x in E' by lia. unfold node_of. rewrite (nth_error_nth _ _ _ E'). exact (nth_error_In _ _ E).
  Qed.
  Lemma doc_old_docok r0 : DocOk h r0 -> DocOk h1 r0 /\ r0 <> r /\ forall x, InTree h1 r0 x <-> InTree h r0 x.
  Proof.
    intros [D1 D2 D3 D4].
    assert (Hr : r0 < r).
    { destruct (lt_dec r0 r) as [Hlt | Hge]; [exact Hlt|]. unfold is_root, ntype_of in D2. rewrite node_beyond in D2 by (fold r; lia). discriminate. }
    assert (P : forall x, InTree h1 r0 x <-> InTree h r0 x).
    { intros x. unfold InTree, parent. rewrite (doc_old1 r0 Hr). split; intros [H1 (l & H2)]; (split; [exact H1|]); exists l; apply (doc_old_path r0 l x Hr); exact H2. }
    assert (O : forall x, InTree h r0 x -> x < r).
    { intros x [_ (l & Hl)]. induction Hl as [|l p i c _ _ Hl]; [exact Hr | exact (proj1 (wf_listed h wf p i c Hl))]. }
    split; [|split; [lia | exact P]]. split.
    - exact doc_wf1.
    - unfold is_root, ntype_of in *. rewrite (doc_old1 r0 Hr). exact D2.
    - intros x Hx Hc. apply P in Hx. pose proof (O x Hx) as Hl. unfold Container, is_element, is_root, ntype_of, owner_document in *. rewrite (doc_old1 x Hl) in *. exact (D3 x Hx Hc).
    - intros x Hx He. apply P in Hx. pose proof (O x Hx) as Hl. unfold is_element, ntype_of in *. rewrite (doc_old1 x Hl) in *. exact (D4 x Hx He).
  Qed.
  Lemma doc_copies : CopiesOf h1 (kids h1 r) ts.
  Proof.
    rewrite doc_kids1, doc_kids. destruct doc_shape as [L Sh].
    destruct (shows_same h0 h1 r) as [_ H]; [lia | intros y _; destruct (Sh y) as (_ & _ & A3 & A4 & A5 & A6); repeat split; assumption | |].
    - intros y c Hy Hc. apply In_nth_error in Hc. destruct Hc as (i & Hi). destruct (lt_dec y (length h0)) as [Hl | Hl].
      + destruct (doc_down y i c) as (C & _); [lia | exact Hi | lia].
      + unfold kids, childs in Hi. rewrite node_beyond in Hi by lia. destruct i; discriminate.
    - apply H; [exact (proj2 (proj2 doc_block))|]. apply Forall_forall. intros y Hy. apply roots_ge in Hy. lia.
  Qed.
  Lemma doc_added : Added h h1 r d ts.
  Proof.
    split.
    - unfold r. lia.
    - destruct doc_shape as [_ Sh]. destruct (Sh r) as (_ & _ & _ & -> & _). unfold ntype_of. rewrite (proj1 (proj2 doc_at)). reflexivity.
    - exact doc_copies.
    - exact doc_docok.
    - exact doc_all.
    - exact doc_old1.
    - unfold h1. rewrite app_length. lia.
    - exact doc_old_docok.
  Qed.
End Doc.

(** * Libraries *)
Lemma library_docok h l r : Library h l -> In r l -> DocOk h r.
Proof. intros (_ & _ & H & _). rewrite Forall_forall in H. exact (H r). Qed.
Lemma library_added h h' r d ts l : Library h l -> Added h h' r d ts -> Library h' (r :: l).
Proof.
  intros (W & N & F & A) [A1 A2 A3 A4 A5 A6 A7 A8]. split; [apply A4|]. split; [|split].
  - constructor; [|exact N]. intros H. rewrite Forall_forall in F. destruct (A8 r (F r H)) as (_ & Hn & _). congruence.
  - constructor; [exact A4|]. revert F. apply Forall_impl. intros r0 D. apply A8. exact D.
  - intros x Hx. destruct (lt_dec x (length h)) as [Hl | Hl].
    + destruct (A x Hl) as (r0 & R1 & R2). exists r0. split; [right; exact R1|]. rewrite Forall_forall in F. apply (A8 r0 (F r0 R1)). exact R2.
    + exists r. split; [left; reflexivity | apply A5; lia].
Qed.
Lemma intree_owner h r1 r2 x : WF h -> InTree h r1 x -> InTree h r2 x -> r1 = r2.
Proof.
  intros wf [T1 (l1 & P1)] [T2 (l2 & P2)]. revert l2 P2. induction P1 as [|l1 p i c P1 IH Hl]; intros l2 P2.
  - destruct P2 as [|l2 p i c P2 Hl]; [reflexivity|]. destruct (wf_listed h wf p i c Hl) as (_ & E & _). congruence.
  - inversion P2 as [|l2' p' i' c' P2' Hl']; subst.
    + destruct (wf_listed h wf p i c Hl) as (_ & E & _). congruence.
    + destruct (wf_listed h wf _ _ _ Hl) as (_ & E & _), (wf_listed h wf _ _ _ Hl') as (_ & E' & _). rewrite E in E'. injection E' as <-. exact (IH l2' P2').
Qed.
