(** Proofs about [set_html]. *)
From Verif Require Import Base Utils UtilsSpec UtilsProofs Attr Dom DomSpec Order DomProofs Sets SetsProofs
  ClassProofs Mutate MutateSpec MutateProofs InsertProofs HistoryProofs Html HtmlSpec.

Scheme shows_mut := Induction for CopyOf Sort Prop with showsall_mut := Induction for CopiesOf Sort Prop.
Combined Scheme shows_both from shows_mut, showsall_mut.
Scheme parsed_mut := Induction for ParsedTree Sort Prop with parsedall_mut := Induction for ParsedTrees Sort Prop.
Combined Scheme parsed_both from parsed_mut, parsedall_mut.

(** * Layout *)
Lemma psize_node ty m c l : psize (PT ty m c (Some l)) = S (psizes l).
Proof. reflexivity. Qed.
Lemma lay_node par i b ty m c l : lay par i b (PT ty m c (Some l)) =
  mkNode ty par i (Some (roots_from (S b) l)) c m None :: lay_list (Some b) 0 (S b) l.
Proof.
  cbn [lay option_map]. f_equal. generalize 0 as j. generalize (S b) as b'. induction l as [|t l IH]; intros b' j; [reflexivity|].
  cbn [lay_list]. rewrite <- IH. reflexivity.
Qed.

Definition At (h : heap) (b : nat) (ns : list node) : Prop := forall k n, nth_error ns k = Some n -> nth_error h (b + k) = Some n.
Lemma at_app h b n1 n2 : At h b (n1 ++ n2) -> At h b n1 /\ At h (b + length n1) n2.
Proof.
  intros H. split; intros k n Hk.
  - apply H. rewrite nth_error_app1; [exact Hk|]. apply nth_error_Some. rewrite Hk. discriminate.
  - rewrite <- Nat.add_assoc. apply H. rewrite nth_error_app2 by lia. replace (length n1 + k - length n1) with k by lia. exact Hk.
Qed.
Lemma at_cons h b n ns : At h b (n :: ns) -> b < length h /\ node_of h b = n /\ At h (S b) ns.
Proof.
  intros H. pose proof (H 0 n eq_refl) as H0. rewrite Nat.add_0_r in H0. split; [|split].
  - apply nth_error_Some. rewrite H0. discriminate.
  - unfold node_of. apply nth_error_nth. exact H0.
  - intros k m Hk. rewrite Nat.add_succ_comm. apply H. exact Hk.
Qed.
Lemma at_end h ns : At (h ++ ns) (length h) ns.
Proof. intros k n Hk. rewrite nth_error_app2 by lia. replace (length h + k - length h) with k by lia. exact Hk. Qed.

(** The facts about the nodes [b .. e-1] laid out for trees whose topmost nodes have parent [par]. *)
Record Block (h : heap) (par : option id) (b e : id) (tops : list id) : Prop := mkBlock {
  bl_len : b <= e <= length h \/ b = e;
  bl_tops : forall y, In y tops -> b <= y < e;
  bl_top : forall y, In y tops -> parent h y = par;
  bl_up : forall x, b <= x < e -> In x tops \/
    exists q, b <= q < x /\ parent h x = Some q /\ is_element h q = true;
  bl_kids : forall x j c, b <= x < e -> Listed h x j c -> x < c < e /\ parent h c = Some x /\ index h c = j;
  bl_root : forall x, b <= x < e -> is_root h x = false;
  bl_noroot : forall x, b <= x < e -> n_root (node_of h x) = None
}.

Lemma psize_pos t : 0 < psize t.
Proof. destruct t. cbn [psize]. lia. Qed.
Lemma roots_ge l : forall b y, In y (roots_from b l) -> b <= y < b + psizes l.
Proof.
  induction l as [|t l IH]; intros b y H; [destruct H|]. cbn [psizes]. destruct H as [<- | H].
  - pose proof (psize_pos t). lia.
  - apply IH in H. lia.
Qed.
Lemma roots_nodup l : forall b, NoDup (roots_from b l).
Proof.
  induction l as [|t l IH]; intros b; cbn [roots_from]; constructor; [|apply IH].
  intros H. apply roots_ge in H. pose proof (psize_pos t). lia.
Qed.

Definition LayOk (t : ptree) : Prop := forall h par i b, At h b (lay par i b t) ->
  length (lay par i b t) = psize t /\ Block h par b (b + psize t) [b] /\ index h b = i /\ CopyOf h b t.
Definition LayAllOk (l : list ptree) : Prop := forall h par i b, At h b (lay_list par i b l) ->
  length (lay_list par i b l) = psizes l /\ Block h par b (b + psizes l) (roots_from b l) /\
  (forall j y, nth_error (roots_from b l) j = Some y -> index h y = i + j) /\ CopiesOf h (roots_from b l) l.

Lemma lay_both : (forall t, ParsedTree t -> LayOk t) /\ (forall l, ParsedTrees l -> LayAllOk l).
Proof.
  apply parsed_both.
  - intros ty m c Hty h par i b H. cbn [lay option_map] in *. apply at_cons in H. destruct H as (Hb & En & _).
    assert (Ek : kids h b = []) by (unfold kids, childs; rewrite En; reflexivity).
    cbn [psize]. split; [reflexivity|]. split; [|split].
    + split.
      * left. lia.
      * intros y [<- | []]. lia.
      * intros y [<- | []]. unfold parent. rewrite En. reflexivity.
      * intros x Hx. left. left. lia.
      * intros x j c' Hx Hl. replace x with b in Hl by lia. unfold Listed in Hl. rewrite Ek in Hl. destruct j; discriminate.
      * intros x Hx. replace x with b by lia. unfold is_root, ntype_of. rewrite En. cbn [n_type].
        destruct ty; try reflexivity. destruct (Hty is_document). reflexivity.
      * intros x Hx. replace x with b by lia. rewrite En. reflexivity.
    + unfold index. rewrite En. reflexivity.
    + apply Copy_leaf; unfold ntype_of, childs; rewrite ?En; try reflexivity. exact Hb.
  - intros ty m c Hty h par i b H. cbn [lay option_map roots_from] in *. apply at_cons in H. destruct H as (Hb & En & _).
    assert (Ek : kids h b = []) by (unfold kids, childs; rewrite En; reflexivity).
    cbn [psize]. split; [reflexivity|]. split; [|split].
    + split.
      * left. lia.
      * intros y [<- | []]. lia.
      * intros y [<- | []]. unfold parent. rewrite En. reflexivity.
      * intros x Hx. left. left. lia.
      * intros x j c' Hx Hl. replace x with b in Hl by lia. unfold Listed in Hl. rewrite Ek in Hl. destruct j; discriminate.
      * intros x Hx. replace x with b by lia. unfold is_root, ntype_of. rewrite En. cbn [n_type].
        destruct ty; try reflexivity. destruct (Hty is_document). reflexivity.
      * intros x Hx. replace x with b by lia. rewrite En. reflexivity.
    + unfold index. rewrite En. reflexivity.
    + apply Copy_node with (ids := []); unfold ntype_of, childs; rewrite ?En; try reflexivity; [exact Hb | constructor].
  - intros m c l _ IH h par i b H. rewrite lay_node in *. rewrite psize_node. apply at_cons in H. destruct H as (Hb & En & H).
    destruct (IH h (Some b) 0 (S b) H) as (L & B & I & Sh). destruct B as [B1 B2 B3 B4 B5 B6 B7].
    assert (Ek : kids h b = roots_from (1 + b) l) by (unfold kids, childs; rewrite En; reflexivity).
    assert (Ee : is_element h b = true) by (unfold is_element, ntype_of; rewrite En; reflexivity).
    split; [exact (f_equal S L)|]. split; [|split].
    + split.
      * left. destruct B1 as [B1 | B1]; [lia|]. lia.
      * intros y [<- | []]. lia.
      * intros y [<- | []]. unfold parent. rewrite En. reflexivity.
      * intros x Hx. destruct (Nat.eq_dec x b) as [-> | Hn]; [left; left; reflexivity|]. right.
        destruct (B4 x) as [Ht | (q & Q1 & Q2 & Q3)]; [lia| |].
        -- exists b. split; [lia|]. split; [exact (B3 x Ht) | exact Ee].
        -- exists q. split; [lia|]. split; assumption.
      * intros x j c' Hx Hl. destruct (Nat.eq_dec x b) as [-> | Hn].
        -- unfold Listed in Hl. rewrite Ek in Hl. pose proof (nth_error_In _ _ Hl) as Hin.
           pose proof (B2 _ Hin). split; [lia|]. split; [exact (B3 _ Hin)|]. rewrite (I j c' Hl). reflexivity.
        -- destruct (B5 x j c') as (C1 & C2 & C3); [lia | exact Hl|]. split; [lia|]. split; assumption.
      * intros x Hx. destruct (Nat.eq_dec x b) as [-> | Hn]; [|apply B6; lia].
        unfold is_root, ntype_of. rewrite En. reflexivity.
      * intros x Hx. destruct (Nat.eq_dec x b) as [-> | Hn]; [rewrite En; reflexivity | apply B7; lia].
    + unfold index. rewrite En. reflexivity.
    + apply Copy_node with (ids := roots_from (1 + b) l); unfold ntype_of, childs; rewrite ?En; try reflexivity; [exact Hb | exact Sh].
  - intros h par i b _. split; [reflexivity|]. split; [|split; [intros [|j] y Hy; discriminate | constructor]].
    cbn [psizes roots_from]. rewrite Nat.add_0_r. split; try (intros; lia); intros y [].
  - intros t l _ IHt _ IHl h par i b H. cbn [lay_list] in H |- *. destruct (at_app _ _ _ _ H) as [H1 H2].
    destruct (IHt h par i b H1) as (L1 & B1 & I1 & S1). rewrite L1 in H2.
    destruct (IHl h par (S i) (b + psize t) H2) as (L2 & B2 & I2 & S2).
    rewrite app_length, L1, L2. split; [reflexivity|].
    destruct B1 as [P1 P2 P3 P4 P5 P6 P7], B2 as [Q1 Q2 Q3 Q4 Q5 Q6 Q7]. pose proof (psize_pos t) as Hp.
    cbn [psizes roots_from]. split; [|split].
    + split.
      * left. destruct Q1 as [Q1 | Q1], P1 as [P1 | P1]; lia.
      * intros y [<- | Hy]; [lia|]. pose proof (Q2 _ Hy). lia.
      * intros y [<- | Hy]; [apply P3; left; reflexivity | apply Q3; exact Hy].
      * intros x Hx. destruct (lt_dec x (b + psize t)) as [Hl | Hl].
        -- destruct (P4 x) as [[<- | []] | (q & R1 & R2 & R3)]; [lia | left; left; reflexivity|].
           right. exists q. repeat split; try assumption; lia.
        -- destruct (Q4 x) as [Ht | (q & R1 & R2 & R3)]; [lia | left; right; exact Ht|].
           right. exists q. repeat split; try assumption; lia.
      * intros x j c Hx Hls. destruct (lt_dec x (b + psize t)) as [Hl | Hl].
        -- destruct (P5 x j c) as (C1 & C2 & C3); [lia | exact Hls|]. split; [lia|]. split; assumption.
        -- destruct (Q5 x j c) as (C1 & C2 & C3); [lia | exact Hls|]. split; [lia|]. split; assumption.
      * intros x Hx. destruct (lt_dec x (b + psize t)) as [Hl | Hl]; [apply P6; lia | apply Q6; lia].
      * intros x Hx. destruct (lt_dec x (b + psize t)) as [Hl | Hl]; [apply P7; lia | apply Q7; lia].
    + intros [|j] y Hy; cbn [nth_error] in Hy.
      * injection Hy as <-. rewrite I1. lia.
      * rewrite (I2 j y Hy). lia.
    + constructor; assumption.
Qed.

(** * Adding a block of new nodes *)
Lemma node_app_old h ns y : y < length h -> node_of (h ++ ns) y = node_of h y.
Proof. intros H. unfold node_of. apply app_nth1. exact H. Qed.

Lemma block_wf h ts : WF h -> ParsedTrees ts -> WF (h ++ lay_list None 0 (length h) ts).
Proof.
  intros wf Hp. set (H1 := h ++ lay_list None 0 (length h) ts).
  destruct (proj2 lay_both ts Hp H1 None 0 (length h) (at_end _ _)) as (L & B & I & _).
  assert (Ln : length H1 = length h + psizes ts) by (unfold H1; rewrite app_length, L; reflexivity).
  destruct B as [B1 B2 B3 B4 B5 B6 B7].
  assert (Old : forall y, y < length h -> node_of H1 y = node_of h y) by (intros y; apply node_app_old).
  assert (Out : forall y, length H1 <= y -> node_of H1 y = empty_node) by (intros y; apply node_beyond).
  assert (Cont : forall q, q < length h -> Container h q -> Container H1 q).
  { intros q Hq. unfold Container, is_element, is_root, ntype_of. rewrite (Old q Hq). tauto. }
  split.
  - intros p i c Hl. destruct (lt_dec p (length h)) as [Hlt | Hge].
    + assert (Hl' : Listed h p i c) by (unfold Listed, kids, childs in *; rewrite (Old p Hlt) in Hl; exact Hl).
      destruct (wf_listed h wf _ _ _ Hl') as (C1 & C2 & C3). unfold parent, index in *. rewrite (Old c C1). split; [lia|]. split; assumption.
    + destruct (lt_dec p (length H1)) as [Hlt | Hge'].
      * destruct (B5 p i c) as (C1 & C2 & C3); [lia | exact Hl|]. split; [lia|]. split; assumption.
      * unfold Listed, kids, childs in Hl. rewrite Out in Hl by lia. destruct i; discriminate.
  - intros x p Hx. destruct (lt_dec x (length h)) as [Hlt | Hge].
    + unfold parent in Hx. rewrite (Old x Hlt) in Hx. destruct (wf_parent h wf _ _ Hx) as [C1 C2]. split; [lia | exact (Cont p C1 C2)].
    + destruct (lt_dec x (length H1)) as [Hlt | Hge'].
      * destruct (B4 x) as [Ht | (q & R1 & R2 & R3)]; [lia| |].
        -- rewrite (B3 x Ht) in Hx. discriminate.
        -- rewrite R2 in Hx. injection Hx as <-. split; [lia | left; exact R3].
      * unfold parent in Hx. rewrite Out in Hx by lia. discriminate.
  - assert (Up_old : forall x y, Up H1 x y -> x < length h -> y < length h /\ Up h x y).
    { intros x y H. induction H as [x p E | x q p H IH E]; intros Hx.
      - unfold parent in E. rewrite (Old x Hx) in E. split; [apply (wf_parent h wf _ _ E) | constructor; exact E].
      - destruct (IH Hx) as [Hq Hu]. unfold parent in E. rewrite (Old q Hq) in E.
        split; [apply (wf_parent h wf _ _ E) | exact (Up_step _ _ _ _ Hu E)]. }
    assert (Up_new : forall x y, Up H1 x y -> length h <= x -> y < x).
    { intros x y H. induction H as [x p E | x q p H IH E]; intros Hx.
      - destruct (lt_dec x (length H1)) as [Hlt | Hge'].
        + destruct (B4 x) as [Ht | (q & R1 & R2 & R3)]; [lia| |].
          * rewrite (B3 x Ht) in E. discriminate.
          * rewrite R2 in E. injection E as <-. lia.
        + unfold parent in E. rewrite Out in E by lia. discriminate.
      - specialize (IH Hx). destruct (lt_dec q (length h)) as [Hq | Hq].
        + unfold parent in E. rewrite (Old q Hq) in E. pose proof (proj1 (wf_parent h wf _ _ E)). lia.
        + destruct (lt_dec q (length H1)) as [Hlt | Hge'].
          * destruct (B4 q) as [Ht | (q' & R1 & R2 & R3)]; [lia| |].
            -- rewrite (B3 q Ht) in E. discriminate.
            -- rewrite R2 in E. injection E as <-. lia.
          * unfold parent in E. rewrite Out in E by lia. discriminate. }
    intros x H. destruct (lt_dec x (length h)) as [Hlt | Hge].
    + exact (wf_acyclic h wf x (proj2 (Up_old x x H Hlt))).
    + pose proof (Up_new x x H). lia.
  - intros x Hx. destruct (lt_dec x (length h)) as [Hlt | Hge].
    + unfold parent, is_root, ntype_of in *. rewrite (Old x Hlt) in *. exact (wf_root h wf x Hx).
    + destruct (lt_dec x (length H1)) as [Hlt | Hge'].
      * rewrite B6 in Hx by lia. discriminate.
      * unfold is_root, ntype_of in Hx. rewrite Out in Hx by lia. discriminate.
Qed.

(** * Copies stay copies when nothing of them changes *)
Lemma shows_same h h' b : length h <= length h' ->
  (forall y, b <= y -> ntype_of h' y = ntype_of h y /\ n_meta (node_of h' y) = n_meta (node_of h y) /\
     n_content (node_of h' y) = n_content (node_of h y) /\ childs h' y = childs h y) ->
  (forall y c, b <= y -> In c (kids h y) -> b <= c) ->
  (forall x t, CopyOf h x t -> b <= x -> CopyOf h' x t) /\
  (forall l ts, CopiesOf h l ts -> Forall (fun y => b <= y) l -> CopiesOf h' l ts).
Proof.
  intros Hl Hs Hk. apply shows_both.
  - intros x ty m c H1 H2 H3 H4 H5 Hx. destruct (Hs x Hx) as (E1 & E2 & E3 & E4). apply Copy_leaf; try congruence. lia.
  - intros x ty m c ids l H1 H2 H3 H4 H5 _ IH Hx. destruct (Hs x Hx) as (E1 & E2 & E3 & E4).
    apply Copy_node with (ids := ids); try congruence; [lia|]. apply IH. apply Forall_forall. intros y Hy.
    apply (Hk x y Hx). rewrite (kids_some _ _ _ H5). exact Hy.
  - intros _. constructor.
  - intros x ids t l _ IH1 _ IH2 H. inversion H; subst. constructor; [apply IH1 | apply IH2]; assumption.
Qed.
Lemma shows_kind h x t : CopyOf h x t -> ntype_of h x = kind_of t.
Proof. destruct 1; assumption. Qed.
Lemma shows_filter h (f : ntype -> bool) l ts : CopiesOf h l ts ->
  CopiesOf h (filter (fun x => f (ntype_of h x)) l) (filter (fun t => f (kind_of t)) ts).
Proof.
  induction 1 as [|x ids t l H1 H2 IH]; [constructor|]. cbn [filter]. rewrite (shows_kind _ _ _ H1).
  destruct (f (kind_of t)); [constructor; assumption | exact IH].
Qed.

(** * [set_html] *)
Lemma filter_le {A} (f : A -> bool) l : length (filter f l) <= length l.
Proof. induction l as [|x l IH]; [apply le_n|]. cbn [filter]. destruct (f x); cbn [length]; lia. Qed.
Lemma filter_nth_all {A} (f : A -> bool) l : length (filter f l) = length l -> filter f l = l.
Proof.
  induction l as [|x l IH]; [reflexivity|]. cbn [filter]. destruct (f x); cbn [length]; intros H.
  - f_equal. apply IH. lia.
  - pose proof (filter_le f l). lia.
Qed.

(** The new nodes that may stand below a node with this tag. *)
Definition fresh (h : heap) (ts : list ptree) : heap := h ++ lay_list None 0 (length h) ts.
Definition kept (o : oracles_dom) (h : heap) (tag : str) (ts : list ptree) : list id :=
  filter (fun x => od_allow_insert o tag (ntype_of (fresh h ts) x)) (roots_from (length h) ts).

Section Fresh.
  Variables (o : oracles_dom) (h : heap) (tag : str) (ts : list ptree).
  Hypothesis wf : WF h.
  Hypothesis Hts : ParsedTrees ts.
  Notation h1 := (fresh h ts).
  Notation ns := (kept o h tag ts).

  Lemma fresh_block : length h1 = length h + psizes ts /\
    Block h1 None (length h) (length h + psizes ts) (roots_from (length h) ts) /\
    (forall j y, nth_error (roots_from (length h) ts) j = Some y -> index h1 y = j) /\
    CopiesOf h1 (roots_from (length h) ts) ts.
  Proof.
    destruct (proj2 lay_both ts Hts h1 None 0 (length h) (at_end _ _)) as (L & B & I & S).
    split; [unfold fresh; rewrite app_length, L; reflexivity|]. split; [exact B|]. split; [exact I | exact S].
  Qed.
  Lemma fresh_wf : WF h1.
  Proof. exact (block_wf h ts wf Hts). Qed.
  Lemma kept_in y : In y ns -> In y (roots_from (length h) ts).
  Proof. unfold kept. rewrite filter_In. tauto. Qed.
  Lemma kept_nodup : NoDup ns.
  Proof. apply NoDup_filter. apply roots_nodup. Qed.
  Lemma kept_new y : In y ns -> length h <= y < length h1 /\ parent h1 y = None /\ is_root h1 y = false.
  Proof.
    intros H. apply kept_in in H. destruct fresh_block as (L & [B1 B2 B3 B4 B5 B6 B7] & _).
    pose proof (B2 y H). split; [lia|]. split; [exact (B3 y H) | apply B6; lia].
  Qed.
  Lemma kept_alone y : In y ns -> ~ Attached h1 y.
  Proof.
    intros H (q & Hc). pose proof (child_parent h1 fresh_wf _ _ Hc) as E. rewrite (proj1 (proj2 (kept_new y H))) in E. discriminate.
  Qed.
  Lemma old_up x y : x < length h -> Up h1 x y -> y < length h.
  Proof.
    intros Hx H. induction H as [x p E | x q p H IH E].
    - unfold parent, fresh in E. rewrite node_app_old in E by exact Hx. apply (wf_parent h wf _ _ E).
    - specialize (IH Hx). unfold parent, fresh in E. rewrite node_app_old in E by exact IH. apply (wf_parent h wf _ _ E).
  Qed.
  Lemma old_kids q : q < length h -> childs h1 q = childs h q.
  Proof. intros H. unfold childs, fresh. rewrite node_app_old by exact H. reflexivity. Qed.
  Lemma new_kids y c : length h <= y -> In c (kids h1 y) -> length h <= c.
  Proof.
    intros Hy Hc. apply child_in in Hc. destruct Hc as (j & Hl). destruct fresh_block as (L & [B1 B2 B3 B4 B5 B6 B7] & _).
    destruct (lt_dec y (length h1)) as [H | H].
    - destruct (B5 y j c) as (C1 & _); [lia | exact Hl | lia].
    - unfold Listed, kids, childs in Hl. rewrite node_beyond in Hl by lia. destruct j; discriminate.
  Qed.
  Lemma kept_shows : CopiesOf h1 ns (allowed_trees o tag ts).
  Proof. apply (shows_filter h1 (fun ty => od_allow_insert o tag ty)). apply fresh_block. Qed.
  Lemma kept_shows_after h' : length h1 <= length h' ->
    (forall y, length h <= y -> ntype_of h' y = ntype_of h1 y /\ n_meta (node_of h' y) = n_meta (node_of h1 y) /\
       n_content (node_of h' y) = n_content (node_of h1 y) /\ childs h' y = childs h1 y) ->
    CopiesOf h' ns (allowed_trees o tag ts) /\ Forall (fun y => length h <= y) ns.
  Proof.
    intros Hl Hs. assert (F : Forall (fun y => length h <= y) ns).
    { apply Forall_forall. intros y Hy. apply (kept_new y Hy). }
    split; [|exact F]. exact (proj2 (shows_same h1 h' (length h) Hl Hs new_kids) _ _ kept_shows F).
  Qed.
  Lemma kept_all_idx : length ns = length (roots_from (length h) ts) -> forall j y, nth_error ns j = Some y -> index h1 y = j.
  Proof. intros E. unfold kept. rewrite (filter_nth_all _ _ E). apply fresh_block. Qed.
End Fresh.

Lemma reset_in_range h s l y : index (reset_index h s l) y = index h y \/ In y l.
Proof.
  destruct (in_dec Nat.eq_dec y l) as [H | H]; [right; exact H | left; apply index_reset_other; exact H].
Qed.
Lemma node_reset_other l y : forall h s, ~ In y l -> node_of (reset_index h s l) y = node_of h y.
Proof.
  induction l as [|x l IH]; intros h s H; cbn [reset_index]; [reflexivity|].
  rewrite IH by (intros C; apply H; right; exact C). apply node_upd_other. intros ->. apply H. left. reflexivity.
Qed.
Lemma node_set_parents_other p l y : forall h, ~ In y l -> node_of (set_parents h p l) y = node_of h y.
Proof.
  induction l as [|x l IH]; intros h H; cbn; [reflexivity|].
  change (node_of (set_parents (upd h x (set_par (Some p))) p l) y = node_of h y).
  rewrite IH by (intros C; apply H; right; exact C). apply node_upd_other. intros ->. apply H. left. reflexivity.
Qed.

Lemma set_html_element o parse h x m s ts : WF h -> is_element h x = true -> n_meta (node_of h x) = Some m ->
  od_content_tag o (m_name m) = false -> parse s = Some (Some ts) -> ParsedTrees ts ->
  exists h', set_html o parse h x s = Ok h' /\ WF h' /\ HtmlIs h h' x (allowed_trees o (m_name m) ts).
Proof.
  intros wf He Em Ho Ep Hts. pose proof (element_lt h x He) as Hx.
  set (h1 := fresh h ts). set (ns := kept o h (m_name m) ts). set (h2 := set_parents h1 x ns).
  set (flag := (length ns <? length (roots_from (length h) ts)) && (0 <? length ns)).
  set (h3 := if flag then reset_index h2 0 ns else h2).
  set (h' := upd h3 x (set_ch (if 0 <? length ns then Some ns else None))).
  pose proof (fresh_wf h ts wf Hts) as wf1. fold h1 in wf1.
  destruct (fresh_block h ts Hts) as (L1 & _). fold h1 in L1.
  assert (Hx1 : x < length h1) by lia.
  assert (Hxn : ~ In x ns).
  { intros H. pose proof (kept_new o h (m_name m) ts Hts x H). lia. }
  assert (L3 : length h3 = length h1).
  { unfold h3, h2. destruct flag; rewrite ?length_reset, length_set_parents; reflexivity. }
  assert (N3 : forall y, ~ In y ns -> node_of h3 y = node_of h1 y).
  { intros y Hy. unfold h3, h2. destruct flag; rewrite ?node_reset_other by exact Hy; apply node_set_parents_other; exact Hy. }
  assert (S3 : SameNodes h1 h3).
  { unfold h3, h2. destruct flag; [apply same_nodes_trans with (h1 := set_parents h1 x ns); [|apply same_nodes_reset]|]; apply same_nodes_set_parents. }
  assert (P3 : forall y, In y ns -> parent h3 y = Some x).
  { intros y Hy. assert (Hlt : y < length h1) by (apply (kept_new o h (m_name m) ts Hts y Hy)).
    unfold h3, h2. destruct flag; rewrite ?parent_reset; apply parent_set_parents; assumption. }
  assert (C3 : forall y, childs h3 y = childs h1 y).
  { intros y. unfold h3, h2. destruct flag; rewrite ?childs_reset; apply childs_set_parents. }
  assert (I3 : forall j y, nth_error ns j = Some y -> index h3 y = j).
  { intros j y Hj. pose proof (nth_error_In _ _ Hj) as Hin. destruct (kept_new o h (m_name m) ts Hts y Hin) as (Hr & _).
    unfold h3, flag. destruct (Nat.ltb_spec (length ns) (length (roots_from (length h) ts))) as [Hl | Hl].
    - assert (Hpos : 0 < length ns) by (destruct ns; [destruct Hin | cbn; lia]).
      replace (0 <? length ns) with true by (symmetry; apply Nat.ltb_lt; exact Hpos). cbn [andb].
      rewrite (index_reset ns h2 0 j y (kept_nodup o h (m_name m) ts) Hj); [reflexivity|]. unfold h2. rewrite length_set_parents. apply Hr.
    - cbn [andb]. unfold h2. rewrite index_set_parents. apply (kept_all_idx o h (m_name m) ts Hts); [|exact Hj].
      pose proof (filter_le (fun x => od_allow_insert o (m_name m) (ntype_of (fresh h ts) x)) (roots_from (length h) ts)) as Hle.
      unfold ns, kept in *. lia. }
  assert (E : set_html o parse h x s = Ok h').
  { unfold set_html, html_target. unfold is_element in He. destruct (ntype_of h x) eqn:Et; try discriminate.
    rewrite Em, Ho, Ep. cbv zeta. rewrite remove_not_allowed_ok. cbn [rbind]. reflexivity. }
  exists h'. split; [exact E|].
  assert (Kx : kids h' x = ns).
  { unfold kids, h'. rewrite childs_set_ch by lia. destruct ns; reflexivity. }
  split.
  - set (hE := upd h1 x (set_ch None)). pose proof (emptied_ok h1 x) as Em1. fold hE in Em1.
    pose proof (emptied_wf h1 hE x wf1 Em1) as wfE.
    assert (ins : Inserted hE h' x [] ns []).
    { split.
      - assert (A : SameNodes h1 h') by (apply same_nodes_trans with (h1 := h3); [exact S3 | apply same_nodes_set_ch]).
        pose proof (proj1 Em1) as B. clear - A B. destruct A as [A1 B1], B as [A2 B2]. split; [congruence|]. intros z.
        destruct (B1 z) as (C1 & C2 & C3 & C4), (B2 z) as (D1 & D2 & D3 & D4). repeat split; congruence.
      - apply Em1.
      - rewrite app_nil_r. exact Kx.
      - intros q Hq. unfold h'. rewrite kids_set_ch_other by exact Hq. unfold kids. rewrite C3. unfold hE.
        rewrite childs_set_ch_other by exact Hq. reflexivity.
      - intros y Hy. unfold h'. rewrite parent_set_ch. exact (P3 y Hy).
      - intros y Hy. unfold h', hE. rewrite !parent_set_ch. unfold parent. rewrite (N3 y Hy). reflexivity.
      - intros j c Hj. rewrite app_nil_r in Hj. unfold h'. rewrite index_set_ch. exact (I3 j c Hj).
      - intros c Hc. rewrite app_nil_r in Hc. unfold h', hE. rewrite !index_set_ch. unfold index. rewrite (N3 c Hc). reflexivity. }
    assert (LE : length hE = length h1) by apply upd_length.
    assert (PE : forall y, parent hE y = parent h1 y) by (intros y; apply parent_set_ch).
    apply (inserted_wf hE h' x [] ns [] wfE ins).
    + left. rewrite (same_element _ _ (proj1 Em1)). unfold is_element, ntype_of, h1, fresh. rewrite node_app_old by exact Hx. exact He.
    + lia.
    + intros y Hy. destruct (kept_new o h (m_name m) ts Hts y Hy) as (R1 & R2 & R3).
      split; [rewrite LE; apply R1|]. split; [intros ->; contradiction|]. split; [|split].
      * intros Hu. assert (Hu1 : Up h1 x y) by exact (up_same h1 hE PE x y Hu).
        pose proof (old_up h ts wf x y Hx Hu1). lia.
      * rewrite (same_root _ _ (proj1 Em1)). exact R3.
      * intros (q & Hc). apply (kept_alone o h (m_name m) ts wf Hts y Hy). exists q. apply child_in in Hc. apply child_in.
        unfold kids, hE in Hc. destruct (Nat.eq_dec q x) as [-> | Hq].
        -- rewrite childs_set_ch in Hc by exact Hx1. destruct Hc.
        -- rewrite childs_set_ch_other in Hc by exact Hq. exact Hc.
  - assert (Hnx : node_of h' x = set_ch (if 0 <? length ns then Some ns else None) (node_of h x)).
    { unfold h'. rewrite node_upd_same by lia. rewrite (N3 x Hxn). unfold h1, fresh. rewrite node_app_old by exact Hx. reflexivity. }
    split; [|split].
    + exists ns. split; [exact Kx|]. apply (kept_shows_after o h (m_name m) ts Hts).
      * unfold h'. rewrite upd_length, L3. apply le_n.
      * intros y Hy. fold h1. destruct (proj2 S3 y) as (T1 & T2 & T3 & T4).
        assert (Hyx : y <> x) by lia. unfold ntype_of, childs, h'. rewrite !node_upd_other by exact Hyx.
        split; [exact T1|]. split; [exact T3|]. split; [exact T2 | exact (C3 y)].
    + intros q Hq Hqx. unfold h'. rewrite node_upd_other by exact Hqx. rewrite N3.
      * apply node_app_old. exact Hq.
      * intros H. pose proof (kept_new o h (m_name m) ts Hts q H). lia.
    + unfold parent, index, ntype_of. rewrite Hnx. repeat split.
Qed.

(** A text node [x] below the element [p]. *)
Lemma set_html_text o parse h p x m s ts : WF h -> Child h p x -> is_text h x = true -> n_meta (node_of h p) = Some m ->
  od_content_tag o (m_name m) = false -> parse s = Some (Some ts) -> ParsedTrees ts ->
  exists h', set_html o parse h x s = Ok h' /\ WF h' /\ TextBecame h h' p x (allowed_trees o (m_name m) ts).
Proof.
  intros wf Hc Ht Em Ho Ep Hts. pose proof (child_parent h wf _ _ Hc) as Epar.
  destruct (wf_parent h wf _ _ Epar) as [Hp Hco]. pose proof (parent_lt h x p Epar) as Hx.
  set (h1 := fresh h ts). set (ns := kept o h (m_name m) ts). set (h2 := set_parents h1 p ns).
  pose proof (fresh_wf h ts wf Hts) as wf1. fold h1 in wf1.
  destruct (fresh_block h ts Hts) as (L1 & _). fold h1 in L1.
  assert (Old : forall y, y < length h -> node_of h1 y = node_of h y) by (intros y; apply node_app_old).
  assert (Kp : kids h1 p = kids h p) by (unfold kids, childs; rewrite (Old p Hp); reflexivity).
  assert (Hc1 : Child h1 p x) by (apply child_in; rewrite Kp; apply child_in; exact Hc).
  pose proof Hc1 as (i & Hl). pose proof (listed_index h1 wf1 _ _ _ Hl) as Ei.
  destruct (remove_child_ok h1 p x wf1 Hc1) as (hr & _ & T2 & I2 & _ & _ & X2).
  pose proof (takenout_wf h1 hr x wf1 T2 I2) as wfr. pose proof T2 as (Sm2 & Kk2 & Pp2).
  set (cs := kids h1 p) in *.
  destruct (nth_split_nodup cs i x (kids_nodup h1 wf1 p) Hl) as (Es & Hx1 & Hx2 & Ew).
  set (l1 := firstn i cs) in *. set (l2 := skipn (S i) cs) in *.
  assert (Hi : i < length cs).
  { apply nth_error_Some. unfold Listed in Hl. fold cs in Hl. rewrite Hl. discriminate. }
  assert (El : length l1 = i) by (unfold l1; rewrite firstn_length; lia).
  assert (Ec : childs h1 p = Some cs) by (apply (in_kids_childs h1 p x); exact (listed_in _ _ _ _ Hl)).
  assert (Hnew : forall y, In y ns -> length h <= y < length h1 /\ parent h1 y = None /\ is_root h1 y = false)
    by (intros y; apply (kept_new o h (m_name m) ts Hts)).
  assert (Hpn : ~ In p ns) by (intros H; pose proof (Hnew p H); lia).
  assert (Hxn : ~ In x ns) by (intros H; pose proof (Hnew x H); lia).
  assert (Hncs : forall y, In y ns -> ~ In y cs).
  { intros y Hy H. apply (kept_alone o h (m_name m) ts wf Hts y Hy). exists p. apply child_in. exact H. }
  set (h3 := reset_index h2 (i + length ns) l2).
  set (h4 := reset_index h3 i ns).
  set (h' := upd h4 p (set_ch (Some (l1 ++ ns ++ l2)))).
  assert (L2 : length h2 = length h1) by apply length_set_parents.
  assert (L4 : length h4 = length h1) by (unfold h4, h3; rewrite !length_reset; exact L2).
  assert (Hcslt : forall c, In c cs -> c < length h1).
  { intros c Hin. apply child_in in Hin. destruct Hin as (j & Hin). apply (wf_listed h1 wf1 _ _ _ Hin). }
  assert (I4 : forall j c, nth_error (l1 ++ ns ++ l2) j = Some c -> index h4 c = j).
  { pose proof (kids_nodup h1 wf1 p) as Hn. fold cs in Hn. rewrite Es in Hn. apply NoDup_remove_1 in Hn.
    destruct (nodup_split _ _ Hn) as (N1 & N2 & N3).
    intros j c Hj. destruct (lt_dec j (length l1)) as [H1 | H1].
    - rewrite nth_error_app1 in Hj by exact H1. pose proof (nth_error_In _ _ Hj) as Hin.
      assert (Hcs : In c cs) by (rewrite Es; apply in_or_app; left; exact Hin).
      unfold h4, h3. rewrite index_reset_other by (intros H; exact (Hncs c H Hcs)).
      rewrite index_reset_other by (intros H; exact (N3 c Hin H)). unfold h2. rewrite index_set_parents.
      apply (listed_index h1 wf1 p). unfold Listed. fold cs. rewrite Es, nth_error_app1; [exact Hj | exact H1].
    - rewrite nth_error_app2 in Hj by lia. destruct (lt_dec (j - length l1) (length ns)) as [H2 | H2].
      + rewrite nth_error_app1 in Hj by exact H2. pose proof (nth_error_In _ _ Hj) as Hin.
        unfold h4. rewrite (index_reset ns h3 i _ c (kept_nodup o h (m_name m) ts) Hj); [lia|].
        unfold h3. rewrite length_reset, L2. apply (Hnew c Hin).
      + rewrite nth_error_app2 in Hj by lia. pose proof (nth_error_In _ _ Hj) as Hin.
        assert (Hcs : In c cs) by (rewrite Es; apply in_or_app; right; right; exact Hin).
        unfold h4. rewrite index_reset_other by (intros H; exact (Hncs c H Hcs)).
        unfold h3. rewrite (index_reset l2 h2 (i + length ns) _ c N2 Hj); [lia|]. rewrite L2. exact (Hcslt c Hcs). }
  assert (N4 : forall c, ~ In c (l1 ++ ns ++ l2) -> node_of h4 c = node_of h1 c).
  { intros c Hn. rewrite !in_app_iff in Hn. unfold h4, h3, h2. rewrite !node_reset_other by tauto.
    apply node_set_parents_other. tauto. }
  assert (S4 : SameNodes h1 h4).
  { apply same_nodes_trans with (h1 := h3); [|apply same_nodes_reset].
    apply same_nodes_trans with (h1 := h2); [apply same_nodes_set_parents | apply same_nodes_reset]. }
  assert (C4 : forall y, childs h4 y = childs h1 y).
  { intros y. unfold h4, h3. rewrite !childs_reset. apply childs_set_parents. }
  assert (P4 : forall y, ~ In y ns -> parent h4 y = parent h1 y).
  { intros y Hy. unfold h4, h3. rewrite !parent_reset. apply parent_set_parents_other. exact Hy. }
  assert (E : set_html o parse h x s = Ok h').
  { unfold set_html, html_target.
    assert (Et : match ntype_of h x with
                 | NTag => Some (true, x)
                 | NText | NSpaces => option_map (fun p => (false, p)) (parent h x)
                 | _ => None
                 end = Some (false, p)).
    { unfold is_text in Ht. rewrite Epar. destruct (ntype_of h x); try discriminate; reflexivity. }
    rewrite Et, Em, Ho, Ep. cbv zeta. rewrite remove_not_allowed_ok. cbn [rbind].
    change (filter (fun x0 => od_allow_insert o (m_name m) (ntype_of (h ++ lay_list None 0 (length h) ts) x0)) (roots_from (length h) ts)) with ns.
    change (set_parents (h ++ lay_list None 0 (length h) ts) p ns) with h2.
    assert (Ec2 : childs h2 p = Some cs) by (unfold h2; rewrite childs_set_parents; exact Ec).
    assert (Ei2 : index h2 x = i) by (unfold h2; rewrite index_set_parents; exact Ei).
    rewrite Ec2, Ei2. unfold rsub. replace (1 <=? length cs) with true by (symmetry; apply Nat.leb_le; lia). cbn [rbind].
    assert (E3 : (if i <? length cs - 1 then reset_index h2 (i + length ns) (skipn (S i) cs) else h2) = h3).
    { destruct (Nat.ltb_spec i (length cs - 1)) as [H | H]; [reflexivity|]. unfold h3.
      assert (En : l2 = []) by (unfold l2; apply skipn_all2; lia). rewrite En. reflexivity. }
    rewrite E3. replace (S i <=? length cs) with true by (symmetry; apply Nat.leb_le; lia).
    destruct (Nat.ltb_spec 0 (length ns)) as [H | H]; [reflexivity|].
    assert (En : ns = []) by (destruct ns; [reflexivity | cbn in H; lia]).
    unfold remove_at. replace (i <? length cs) with true by (symmetry; apply Nat.ltb_lt; exact Hi). cbn [rbind].
    unfold h', h4. rewrite En. reflexivity. }
  exists h'. split; [exact E|].
  assert (Kp' : kids h' p = l1 ++ ns ++ l2) by (unfold h'; apply kids_set_ch; lia).
  split.
  - assert (ins : Inserted hr h' p l1 ns l2).
    { split.
      - assert (A : SameNodes h1 h') by (apply same_nodes_trans with (h1 := h4); [exact S4 | apply same_nodes_set_ch]).
        clear - A Sm2. destruct A as [A1 B1], Sm2 as [A2 B2]. split; [congruence|]. intros z.
        destruct (B1 z) as (C1 & C2 & C3 & C4), (B2 z) as (D1 & D2 & D3 & D4). repeat split; congruence.
      - rewrite Kk2. exact Ew.
      - exact Kp'.
      - intros q Hq. unfold h'. rewrite kids_set_ch_other by exact Hq. unfold kids at 1. rewrite C4. fold (kids h1 q).
        rewrite Kk2. symmetry. apply without_notin. intros H. apply child_in in H. destruct H as (j & H).
        destruct (listed_inj h1 wf1 _ _ _ _ _ Hl H) as [Eq _]. congruence.
      - intros y Hy. unfold h'. rewrite parent_set_ch. unfold h4, h3. rewrite !parent_reset.
        apply parent_set_parents; [exact Hy | apply (Hnew y Hy)].
      - intros y Hy. unfold h'. rewrite parent_set_ch, (P4 y Hy). symmetry. apply Pp2.
      - intros j c Hj. unfold h'. rewrite index_set_ch. exact (I4 j c Hj).
      - intros c Hn. unfold h'. rewrite index_set_ch. unfold index at 1. rewrite (N4 c Hn). fold (index h1 c).
        symmetry. apply X2. fold cs. rewrite Ew. rewrite !in_app_iff in *. tauto. }
    apply (inserted_wf hr h' p l1 ns l2 wfr ins).
    + apply (same_container _ _ Sm2). unfold Container, is_element, is_root, ntype_of. rewrite (Old p Hp). exact Hco.
    + rewrite (proj1 Sm2). lia.
    + intros y Hy. destruct (Hnew y Hy) as (R1 & R2 & R3).
      split; [rewrite (proj1 Sm2); apply R1|]. split; [intros ->; contradiction|]. split; [|split].
      * rewrite (takenout_up _ _ _ T2). intros Hu. pose proof (old_up h ts wf p y Hp Hu). lia.
      * rewrite (same_root _ _ Sm2). exact R3.
      * intros (q & Ha). apply child_in in Ha. rewrite Kk2 in Ha. apply without_in in Ha. destruct Ha as [Ha _].
        apply (kept_alone o h (m_name m) ts wf Hts y Hy). exists q. apply child_in. exact Ha.
  - assert (Hold : forall q, q < length h -> ~ In q ns) by (intros q Hq H; pose proof (Hnew q H); lia).
    split; [|split].
    + exists l1, ns, l2. split; [rewrite <- Kp; exact Es|]. split; [exact Kp'|].
      apply (kept_shows_after o h (m_name m) ts Hts).
      * unfold h'. rewrite upd_length, L4. apply le_n.
      * intros y Hy. fold h1. destruct (proj2 S4 y) as (A1 & A2 & A3 & A4).
        assert (Hyp : y <> p) by lia. unfold ntype_of, childs, h'. rewrite !node_upd_other by exact Hyp.
        split; [exact A1|]. split; [exact A3|]. split; [exact A2 | exact (C4 y)].
    + intros q Hq Hqp. unfold h'. rewrite kids_set_ch_other by exact Hqp. unfold kids. rewrite C4. unfold childs. rewrite (Old q Hq). reflexivity.
    + intros q Hq. assert (A : SameNodes h1 h') by (apply same_nodes_trans with (h1 := h4); [exact S4 | apply same_nodes_set_ch]).
      destruct (proj2 A q) as (A1 & A2 & A3 & A4). rewrite A1, A2, A3, A4. unfold h'. rewrite parent_set_ch, (P4 q (Hold q Hq)).
      unfold parent. rewrite (Old q Hq). repeat split.
Qed.

Lemma set_html_none o parse h x m s : is_element h x = true -> n_meta (node_of h x) = Some m ->
  od_content_tag o (m_name m) = false -> parse s = Some None ->
  set_html o parse h x s = Ok (upd h x (set_ch None)) /\ HtmlIs h (upd h x (set_ch None)) x [].
Proof.
  intros He Em Ho Ep. pose proof (element_lt h x He) as Hx. split.
  - unfold set_html, html_target. unfold is_element in He. destruct (ntype_of h x) eqn:Et; try discriminate.
    rewrite Em, Ho, Ep. reflexivity.
  - split; [|split].
    + exists []. split; [unfold kids; rewrite childs_set_ch by exact Hx; reflexivity|]. split; constructor.
    + intros q _ Hq. apply node_upd_other. exact Hq.
    + unfold parent, index, ntype_of. rewrite node_upd_same by exact Hx. repeat split.
Qed.
Lemma set_html_content o parse h x m s : is_element h x = true -> n_meta (node_of h x) = Some m ->
  od_content_tag o (m_name m) = true ->
  set_html o parse h x s = Ok (upd h x (set_con (Some s))) /\ OnlyContent h (upd h x (set_con (Some s))) x (Some s).
Proof.
  intros He Em Ho. split; [|apply set_con_only; exact (element_lt h x He)].
  unfold set_html, html_target. unfold is_element in He. destruct (ntype_of h x) eqn:Et; try discriminate.
  rewrite Em, Ho. reflexivity.
Qed.
