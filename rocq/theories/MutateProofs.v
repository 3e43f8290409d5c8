(** Proofs about mutations of one node. *)
From Verif Require Import Base Utils UtilsSpec UtilsProofs Attr Dom DomSpec Order DomProofs Sets SetsProofs Mutate MutateSpec.

(** * Reading after an update *)
Lemma upd_length h x f : length (upd h x f) = length h.
Proof. revert x. induction h as [|n h IH]; intros [|x]; cbn; [reflexivity..|]. rewrite IH. reflexivity. Qed.
Lemma node_upd h x f y :
  node_of (upd h x f) y = if Nat.eqb y x && (x <? length h) then f (node_of h y) else node_of h y.
Proof.
  unfold node_of. revert x y. induction h as [|n h IH]; intros x y.
  - cbn [upd]. cbn [length]. replace (x <? 0) with false by (destruct x; reflexivity).
    rewrite andb_false_r. reflexivity.
  - destruct x as [|x], y as [|y]; cbn [upd nth]; try reflexivity. rewrite IH. cbn [Nat.eqb length].
    replace (S x <? S (length h)) with (x <? length h) by reflexivity. reflexivity.
Qed.
Lemma node_upd_same h x f : x < length h -> node_of (upd h x f) x = f (node_of h x).
Proof.
  intros H. rewrite node_upd, Nat.eqb_refl. apply Nat.ltb_lt in H. rewrite H. reflexivity.
Qed.
Lemma node_upd_other h x f y : y <> x -> node_of (upd h x f) y = node_of h y.
Proof. intros H. rewrite node_upd. apply Nat.eqb_neq in H. rewrite H. reflexivity. Qed.

Lemma childs_lt h p : childs h p <> None -> p < length h.
Proof.
  intros H. destruct (lt_dec p (length h)) as [Hl | Hl]; [exact Hl|].
  unfold childs, node_of in H. rewrite nth_overflow in H by lia. cbn in H. congruence.
Qed.
Lemma parent_lt h x p : parent h x = Some p -> x < length h.
Proof.
  intros H. destruct (lt_dec x (length h)) as [Hl | Hl]; [exact Hl|].
  unfold parent, node_of in H. rewrite nth_overflow in H by lia. discriminate.
Qed.
Lemma element_lt h x : is_element h x = true -> x < length h.
Proof.
  intros H. destruct (lt_dec x (length h)) as [Hl | Hl]; [exact Hl|].
  unfold is_element, ntype_of, node_of in H. rewrite nth_overflow in H by lia. discriminate.
Qed.
Lemma kids_some h p cs : childs h p = Some cs -> kids h p = cs.
Proof. unfold kids. intros ->. reflexivity. Qed.
Lemma in_kids_childs h p x : In x (kids h p) -> childs h p = Some (kids h p).
Proof. unfold kids. destruct (childs h p); [reflexivity | intros []]. Qed.

(** Fields untouched. *)
Definition Keeps {A} (f : node -> A) (h h' : heap) : Prop := forall y, f (node_of h' y) = f (node_of h y).
Lemma keeps_upd {A} (f : node -> A) h x g : (forall n, f (g n) = f n) -> Keeps f h (upd h x g).
Proof. intros H y. rewrite node_upd. destruct (_ && _); [apply H | reflexivity]. Qed.
Lemma keeps_refl {A} (f : node -> A) h : Keeps f h h.
Proof. intros y. reflexivity. Qed.
Lemma keeps_trans {A} (f : node -> A) h h1 h2 : Keeps f h h1 -> Keeps f h1 h2 -> Keeps f h h2.
Proof. intros H1 H2 y. rewrite H2. apply H1. Qed.
Lemma keeps_reset {A} (f : node -> A) l : (forall i n, f (set_idx i n) = f n) ->
  forall h s, Keeps f h (reset_index h s l).
Proof.
  intros H. induction l as [|x l IH]; intros h s; cbn [reset_index]; [apply keeps_refl|].
  apply keeps_trans with (h1 := upd h x (set_idx s)); [apply keeps_upd; apply H | apply IH].
Qed.
Lemma keeps_set_parents {A} (f : node -> A) p l : (forall q n, f (set_par q n) = f n) ->
  forall h, Keeps f h (set_parents h p l).
Proof.
  intros H. unfold set_parents. induction l as [|x l IH]; intros h; cbn [fold_left]; [apply keeps_refl|].
  apply keeps_trans with (h1 := upd h x (set_par (Some p))); [apply keeps_upd; apply H | apply IH].
Qed.

Lemma same_nodes_refl h : SameNodes h h.
Proof. split; [reflexivity|]. intros y. repeat split. Qed.
Lemma same_nodes_trans h h1 h2 : SameNodes h h1 -> SameNodes h1 h2 -> SameNodes h h2.
Proof.
  intros [L1 H1] [L2 H2]. split; [congruence|]. intros y.
  destruct (H1 y) as (A1 & B1 & C1 & D1), (H2 y) as (A2 & B2 & C2 & D2).
  split; [congruence|]. split; [congruence|]. split; congruence.
Qed.
Lemma same_nodes_upd h x g :
  (forall n, n_type (g n) = n_type n /\ n_content (g n) = n_content n /\ n_meta (g n) = n_meta n /\ n_root (g n) = n_root n) ->
  SameNodes h (upd h x g).
Proof.
  intros H. split; [apply upd_length|]. intros y. rewrite node_upd.
  destruct (_ && _); [apply H | repeat split].
Qed.
Lemma same_nodes_reset l : forall h s, SameNodes h (reset_index h s l).
Proof.
  induction l as [|x l IH]; intros h s; cbn [reset_index]; [apply same_nodes_refl|].
  apply same_nodes_trans with (h1 := upd h x (set_idx s)); [|apply IH].
  apply same_nodes_upd. intros n. repeat split.
Qed.
Lemma same_nodes_set_parents p l : forall h, SameNodes h (set_parents h p l).
Proof.
  unfold set_parents. induction l as [|x l IH]; intros h; cbn [fold_left]; [apply same_nodes_refl|].
  apply same_nodes_trans with (h1 := upd h x (set_par (Some p))); [|apply IH].
  apply same_nodes_upd. intros n. repeat split.
Qed.
Lemma same_nodes_set_ch h x c : SameNodes h (upd h x (set_ch c)).
Proof. apply same_nodes_upd. intros n. repeat split. Qed.
Lemma same_element h h' : SameNodes h h' -> forall y, is_element h' y = is_element h y.
Proof. intros [_ H] y. unfold is_element, ntype_of. destruct (H y) as (-> & _). reflexivity. Qed.
Lemma same_root h h' : SameNodes h h' -> forall y, is_root h' y = is_root h y.
Proof. intros [_ H] y. unfold is_root, ntype_of. destruct (H y) as (-> & _). reflexivity. Qed.
Lemma same_tag h h' : SameNodes h h' -> forall y, tag_names h' y = tag_names h y.
Proof.
  intros Hs y. unfold tag_names. rewrite (same_element _ _ Hs). destruct Hs as [_ H].
  destruct (H y) as (_ & _ & -> & _). reflexivity.
Qed.
Lemma same_container h h' : SameNodes h h' -> forall y, Container h y -> Container h' y.
Proof. intros Hs y. unfold Container. rewrite (same_element _ _ Hs), (same_root _ _ Hs). exact (fun H => H). Qed.

(** The three structural fields after each primitive. *)
Lemma parent_reset h s l y : parent (reset_index h s l) y = parent h y.
Proof. apply (keeps_reset n_parent). reflexivity. Qed.
Lemma childs_reset h s l y : childs (reset_index h s l) y = childs h y.
Proof. apply (keeps_reset n_childs). reflexivity. Qed.
Lemma kids_reset h s l y : kids (reset_index h s l) y = kids h y.
Proof. unfold kids. rewrite childs_reset. reflexivity. Qed.
Lemma index_reset_other l y : forall h s, ~ In y l -> index (reset_index h s l) y = index h y.
Proof.
  induction l as [|x l IH]; intros h s H; cbn [reset_index]; [reflexivity|].
  rewrite IH by (intros Hy; apply H; right; exact Hy). unfold index. rewrite node_upd_other; [reflexivity|].
  intros ->. apply H. left. reflexivity.
Qed.
Lemma index_reset l : forall h s j y, NoDup l -> nth_error l j = Some y -> y < length h ->
  index (reset_index h s l) y = s + j.
Proof.
  induction l as [|x l IH]; intros h s j y Hn Hj Hy; [destruct j; discriminate|].
  inversion Hn as [|? ? Hx Hn']; subst. cbn [reset_index]. destruct j as [|j].
  - cbn in Hj. injection Hj as ->. rewrite index_reset_other by exact Hx. unfold index.
    rewrite node_upd_same by exact Hy. cbn. lia.
  - cbn in Hj. rewrite (IH _ (S s) j y Hn' Hj); [lia|]. rewrite upd_length. exact Hy.
Qed.
Lemma length_reset l : forall h s, length (reset_index h s l) = length h.
Proof. intros h s. apply same_nodes_reset. Qed.
Lemma length_set_parents h p l : length (set_parents h p l) = length h.
Proof. apply same_nodes_set_parents. Qed.
Lemma childs_set_parents h p l y : childs (set_parents h p l) y = childs h y.
Proof. apply (keeps_set_parents n_childs). reflexivity. Qed.
Lemma kids_set_parents h p l y : kids (set_parents h p l) y = kids h y.
Proof. unfold kids. rewrite childs_set_parents. reflexivity. Qed.
Lemma index_set_parents h p l y : index (set_parents h p l) y = index h y.
Proof. apply (keeps_set_parents n_index). reflexivity. Qed.
Lemma parent_set_parents_other p l y : forall h, ~ In y l -> parent (set_parents h p l) y = parent h y.
Proof.
  unfold set_parents. induction l as [|x l IH]; intros h H; cbn [fold_left]; [reflexivity|].
  rewrite IH by (intros Hy; apply H; right; exact Hy). unfold parent. rewrite node_upd_other; [reflexivity|].
  intros ->. apply H. left. reflexivity.
Qed.
Lemma parent_set_parents p l y : forall h, In y l -> y < length h -> parent (set_parents h p l) y = Some p.
Proof.
  unfold set_parents. induction l as [|x l IH]; intros h H Hy; cbn [fold_left]; [destruct H|].
  destruct (in_dec Nat.eq_dec y l) as [Hi | Hi].
  - apply IH; [exact Hi | rewrite upd_length; exact Hy].
  - destruct H as [-> | H]; [|contradiction].
    fold (set_parents (upd h y (set_par (Some p))) p l). rewrite parent_set_parents_other by exact Hi.
    unfold parent. rewrite node_upd_same by exact Hy. reflexivity.
Qed.
Lemma parent_set_ch h x c y : parent (upd h x (set_ch c)) y = parent h y.
Proof. apply (keeps_upd n_parent). reflexivity. Qed.
Lemma index_set_ch h x c y : index (upd h x (set_ch c)) y = index h y.
Proof. apply (keeps_upd n_index). reflexivity. Qed.
Lemma childs_set_ch h x c : x < length h -> childs (upd h x (set_ch c)) x = c.
Proof. intros H. unfold childs. rewrite node_upd_same by exact H. reflexivity. Qed.
Lemma childs_set_ch_other h x c y : y <> x -> childs (upd h x (set_ch c)) y = childs h y.
Proof. intros H. unfold childs. rewrite node_upd_other by exact H. reflexivity. Qed.
Lemma kids_set_ch h x c : x < length h -> kids (upd h x (set_ch (Some c))) x = c.
Proof. intros H. unfold kids. rewrite childs_set_ch by exact H. reflexivity. Qed.
Lemma kids_set_ch_other h x c y : y <> x -> kids (upd h x (set_ch c)) y = kids h y.
Proof. intros H. unfold kids. rewrite childs_set_ch_other by exact H. reflexivity. Qed.

(** * Lists without an element *)
Lemma without_notin x l : ~ In x l -> without x l = l.
Proof.
  intros H. unfold without. apply filter_all. intros y Hy. apply negb_true_iff, Nat.eqb_neq.
  intros ->. contradiction.
Qed.
Lemma without_in x l y : In y (without x l) <-> In y l /\ y <> x.
Proof.
  unfold without. rewrite filter_In. rewrite negb_true_iff, Nat.eqb_neq. reflexivity.
Qed.
Lemma without_app x l1 l2 : without x (l1 ++ l2) = without x l1 ++ without x l2.
Proof. apply filter_app. Qed.
Lemma without_here x l : without x (x :: l) = without x l.
Proof. unfold without. cbn [filter]. rewrite Nat.eqb_refl. reflexivity. Qed.
Lemma nth_split_nodup (l : list id) i x : NoDup l -> nth_error l i = Some x ->
  l = firstn i l ++ x :: skipn (S i) l /\ ~ In x (firstn i l) /\ ~ In x (skipn (S i) l) /\
  without x l = firstn i l ++ skipn (S i) l.
Proof.
  intros Hn Hi.
  assert (E : l = firstn i l ++ x :: skipn (S i) l).
  { rewrite <- (firstn_skipn i l) at 1. f_equal. clear Hn. revert i Hi.
    induction l as [|y l IH]; intros [|i] Hi; try discriminate; cbn in Hi.
    - injection Hi as ->. reflexivity.
    - cbn [skipn]. rewrite (IH i Hi). reflexivity. }
  assert (Hx : ~ In x (firstn i l ++ skipn (S i) l)).
  { apply NoDup_remove_2. rewrite <- E. exact Hn. }
  rewrite in_app_iff in Hx. split; [exact E|]. split; [tauto|]. split; [tauto|].
  rewrite E at 1. rewrite without_app, without_here, !without_notin by tauto. reflexivity.
Qed.

(** * Taking nodes out *)
Lemma up_same h h' : (forall y, parent h' y = parent h y) -> forall a b, Up h' a b -> Up h a b.
Proof.
  intros E a b H. induction H as [x p Hp | x q p H IH Hp].
  - constructor. rewrite <- E. exact Hp.
  - apply Up_step with (q := q); [exact IH | rewrite <- E; exact Hp].
Qed.

(** Positions are right in every list. *)
Definition IndexOk (h : heap) : Prop := forall q j c, Listed h q j c -> index h c = j.

Lemma takenout_wf h h' x : WF h -> TakenOut h h' x -> IndexOk h' -> WF h'.
Proof.
  intros wf (Hs & Hk & Hp) Hi. split.
  - intros p i c Hl. split.
    + rewrite (proj1 Hs). apply listed_in in Hl. rewrite Hk in Hl. apply without_in in Hl. destruct Hl as [Hl _].
      apply child_in in Hl. destruct Hl as (j & Hl). apply (wf_listed h wf p j c Hl).
    + split; [|exact (Hi p i c Hl)].
      rewrite Hp. apply (child_parent h wf). apply listed_in in Hl. rewrite Hk in Hl. apply without_in in Hl.
      apply child_in. tauto.
  - intros y p Hy. rewrite Hp in Hy. destruct (wf_parent h wf y p Hy) as [H1 H2].
    rewrite (proj1 Hs). split; [exact H1|]. exact (same_container h h' Hs p H2).
  - intros y Hy. exact (wf_acyclic h wf y (up_same h h' Hp y y Hy)).
  - intros y Hy. rewrite Hp. rewrite (same_root _ _ Hs) in Hy. exact (wf_root h wf y Hy).
Qed.

Lemma remove_child_ok h p x : WF h -> Child h p x ->
  exists h', remove_child h p x = Ok h' /\ TakenOut h h' x /\ IndexOk h' /\ childs h' p <> None /\
    (forall q, q <> p -> childs h' q = childs h q) /\
    (forall c, ~ In c (without x (kids h p)) -> index h' c = index h c).
Proof.
  intros wf (i & Hx). pose proof (listed_parent h wf _ _ _ Hx) as Ep. pose proof (listed_index h wf _ _ _ Hx) as Ei.
  pose proof (kids_nodup h wf p) as Hn.
  destruct (nth_split_nodup _ _ _ Hn Hx) as (Es & Hx1 & Hx2 & Ew).
  assert (Hc : childs h p = Some (kids h p)).
  { apply (in_kids_childs h p x). exact (listed_in _ _ _ _ Hx). }
  pose proof (nth_error_Some (kids h p) i) as Hlt. rewrite Hx in Hlt.
  assert (Hil : i < length (kids h p)) by (apply Hlt; discriminate). clear Hlt.
  assert (Hpl : p < length h) by (apply childs_lt; rewrite Hc; discriminate).
  unfold remove_child. rewrite Ep, Nat.eqb_refl, Hc, Ei. cbv zeta. unfold rsub.
  replace (1 <=? length (kids h p)) with true by (symmetry; apply Nat.leb_le; lia). cbn [rbind].
  assert (Er : (if Nat.eqb i (length (kids h p) - 1) then Ok h
                else if S i <=? length (kids h p) then Ok (reset_index h i (skipn (S i) (kids h p))) else Panic)
               = Ok (reset_index h i (skipn (S i) (kids h p)))).
  { destruct (Nat.eqb_spec i (length (kids h p) - 1)) as [E | E].
    - rewrite (skipn_all2 (kids h p)) by lia. reflexivity.
    - replace (S i <=? length (kids h p)) with true by (symmetry; apply Nat.leb_le; lia). reflexivity. }
  rewrite Er. cbn [rbind]. unfold remove_at.
  replace (i <? length (kids h p)) with true by (symmetry; apply Nat.ltb_lt; lia). cbn [rbind].
  set (h1 := reset_index h i (skipn (S i) (kids h p))).
  assert (L1 : length h1 = length h) by apply length_reset.
  assert (Hk : forall q, kids (upd h1 p (set_ch (Some (firstn i (kids h p) ++ skipn (S i) (kids h p))))) q
                         = without x (kids h q)).
  { intros q. destruct (Nat.eq_dec q p) as [-> | Hq].
    - rewrite kids_set_ch by lia. symmetry. exact Ew.
    - rewrite kids_set_ch_other by exact Hq. unfold h1. rewrite kids_reset. symmetry. apply without_notin.
      intros H. apply child_in in H. destruct H as (j & H).
      destruct (listed_inj h wf _ _ _ _ _ Hx H) as [E _]. congruence. }
  eexists. split; [reflexivity|]. split; [|split; [|split; [|split]]].
  - split; [|split].
    + apply same_nodes_trans with (h1 := h1); [apply same_nodes_reset | apply same_nodes_set_ch].
    + exact Hk.
    + intros y. rewrite parent_set_ch. apply parent_reset.
  - intros q j c Hl. rewrite index_set_ch. unfold Listed in Hl. rewrite Hk in Hl.
    destruct (Nat.eq_dec q p) as [-> | Hq].
    + rewrite Ew in Hl. destruct (lt_dec j i) as [Hj | Hj].
      * rewrite nth_error_app1 in Hl by (rewrite firstn_length; lia).
        assert (Hl' : Listed h p j c).
        { unfold Listed. rewrite Es. rewrite nth_error_app1 by (rewrite firstn_length; lia). exact Hl. }
        unfold h1. rewrite index_reset_other; [exact (listed_index h wf _ _ _ Hl')|].
        intros Hc2.
        apply In_nth_error in Hc2. destruct Hc2 as (k & Hc2).
        assert (Hk2 : Listed h p (S i + k) c).
        { unfold Listed. rewrite Es. rewrite nth_error_app2 by (rewrite firstn_length; lia). rewrite firstn_length.
          replace (S i + k - Nat.min i (length (kids h p))) with (S k) by lia. exact Hc2. }
        destruct (listed_inj h wf _ _ _ _ _ Hl' Hk2) as [_ E]. lia.
      * rewrite nth_error_app2 in Hl by (rewrite firstn_length; lia). rewrite firstn_length in Hl.
        replace (j - Nat.min i (length (kids h p))) with (j - i) in Hl by lia.
        assert (Hk2 : Listed h p (S i + (j - i)) c).
        { unfold Listed. rewrite Es. rewrite nth_error_app2 by (rewrite firstn_length; lia). rewrite firstn_length.
          replace (S i + (j - i) - Nat.min i (length (kids h p))) with (S (j - i)) by lia. exact Hl. }
        unfold h1. rewrite (index_reset (skipn (S i) (kids h p)) h i (j - i) c).
        -- lia.
        -- rewrite Es in Hn. apply NoDup_remove_1 in Hn.
           clear - Hn. induction (firstn i (kids h p)) as [|a l IH]; [exact Hn|].
           inversion Hn; subst. apply IH. assumption.
        -- exact Hl.
        -- apply (wf_listed h wf _ _ _ Hk2).
    + assert (Hl' : Listed h q j c).
      { unfold Listed. rewrite without_notin in Hl; [exact Hl|]. intros H. apply child_in in H. destruct H as (j' & H).
        destruct (listed_inj h wf _ _ _ _ _ Hx H) as [E _]. congruence. }
      unfold h1. rewrite index_reset_other; [exact (listed_index h wf _ _ _ Hl')|].
      intros H. assert (Hin : In c (kids h p)) by (rewrite Es; apply in_or_app; right; right; exact H).
      apply child_in in Hin. destruct Hin as (j' & Hin). destruct (listed_inj h wf _ _ _ _ _ Hl' Hin) as [E _]. congruence.
  - rewrite childs_set_ch by lia. discriminate.
  - intros q Hq. rewrite childs_set_ch_other by exact Hq. apply childs_reset.
  - intros c Hcn. rewrite index_set_ch. unfold h1. apply index_reset_other. intros H. apply Hcn. rewrite Ew.
    apply in_or_app. right. exact H.
Qed.

(** * Putting nodes in *)
(** [ns] were put between [l1] and [l2], which together were the children of [p]. *)
Record Inserted (h h' : heap) (p : id) (l1 ns l2 : list id) : Prop := mkIns {
  ins_same : SameNodes h h';
  ins_old : kids h p = l1 ++ l2;
  ins_new : kids h' p = l1 ++ ns ++ l2;
  ins_other : forall q, q <> p -> kids h' q = kids h q;
  ins_par : forall y, In y ns -> parent h' y = Some p;
  ins_par_other : forall y, ~ In y ns -> parent h' y = parent h y;
  ins_idx : forall j c, nth_error (l1 ++ ns ++ l2) j = Some c -> index h' c = j;
  ins_idx_other : forall c, ~ In c (l1 ++ ns ++ l2) -> index h' c = index h c
}.

Record Insertable (h : heap) (p : id) (ns : list id) : Prop := mkInsable {
  ia_p : p < length h;
  ia_nodup : NoDup ns;
  ia_lt : forall x, In x ns -> x < length h;
  ia_disj : forall x, In x ns -> ~ In x (kids h p);
  ia_notp : ~ In p ns;
  ia_kids_nodup : NoDup (kids h p);
  ia_kids_lt : forall c, In c (kids h p) -> c < length h;
  ia_kids_idx : forall j c, Listed h p j c -> index h c = j
}.

Lemma nodup_split {A} (l1 l2 : list A) : NoDup (l1 ++ l2) ->
  NoDup l1 /\ NoDup l2 /\ forall x, In x l1 -> In x l2 -> False.
Proof.
  induction l1 as [|a l1 IH]; cbn; intros H.
  - split; [constructor|]. split; [exact H|]. intros x [].
  - inversion H as [|? ? Ha H']; subst. destruct (IH H') as (H1 & H2 & H3). rewrite in_app_iff in Ha.
    split; [constructor; tauto|]. split; [exact H2|]. intros x [<- | Hx] Hx2; [tauto | exact (H3 x Hx Hx2)].
Qed.

(** Numbering the three segments. *)
Lemma three_segments_raw h (l1 ns l2 : list id) : NoDup (l1 ++ l2) -> NoDup ns ->
  (forall x, In x ns -> x < length h /\ ~ In x l1 /\ ~ In x l2) -> (forall c, In c l2 -> c < length h) ->
  (forall j c, nth_error l1 j = Some c -> index h c = j) ->
  let h1 := reset_index (reset_index h (length l1) ns) (length l1 + length ns) l2 in
  (forall j c, nth_error (l1 ++ ns ++ l2) j = Some c -> index h1 c = j) /\
  (forall c, ~ In c (l1 ++ ns ++ l2) -> index h1 c = index h c).
Proof.
  intros Hn Hnn Hns Hl2 Hi h1. destruct (nodup_split _ _ Hn) as (Hn1 & Hn2 & Hd). split.
  - intros j c Hj. destruct (lt_dec j (length l1)) as [H1 | H1].
    + rewrite nth_error_app1 in Hj by exact H1. pose proof (nth_error_In _ _ Hj) as Hc.
      unfold h1. rewrite index_reset_other by (intros H; exact (Hd c Hc H)).
      rewrite index_reset_other by (intros H; exact (proj1 (proj2 (Hns c H)) Hc)).
      exact (Hi j c Hj).
    + rewrite nth_error_app2 in Hj by lia. destruct (lt_dec (j - length l1) (length ns)) as [H2 | H2].
      * rewrite nth_error_app1 in Hj by exact H2. pose proof (nth_error_In _ _ Hj) as Hc.
        unfold h1. rewrite index_reset_other by (intros H; exact (proj2 (proj2 (Hns c Hc)) H)).
        rewrite (index_reset ns h (length l1) _ c Hnn Hj); [lia | exact (proj1 (Hns c Hc))].
      * rewrite nth_error_app2 in Hj by lia. pose proof (nth_error_In _ _ Hj) as Hc.
        unfold h1. rewrite (index_reset l2 _ _ _ c Hn2 Hj); [lia|].
        rewrite length_reset. exact (Hl2 c Hc).
  - intros c Hc. rewrite !in_app_iff in Hc. unfold h1. rewrite !index_reset_other by tauto. reflexivity.
Qed.
Lemma three_segments h p l1 ns l2 : Insertable h p ns -> kids h p = l1 ++ l2 ->
  let h1 := reset_index (reset_index h (length l1) ns) (length l1 + length ns) l2 in
  (forall j c, nth_error (l1 ++ ns ++ l2) j = Some c -> index h1 c = j) /\
  (forall c, ~ In c (l1 ++ ns ++ l2) -> index h1 c = index h c).
Proof.
  intros ia Ek. apply three_segments_raw.
  - rewrite <- Ek. exact (ia_kids_nodup _ _ _ ia).
  - exact (ia_nodup _ _ _ ia).
  - intros x Hx. pose proof (ia_disj _ _ _ ia x Hx) as H. rewrite Ek, in_app_iff in H.
    split; [exact (ia_lt _ _ _ ia x Hx) | tauto].
  - intros c Hc. apply (ia_kids_lt _ _ _ ia). rewrite Ek. apply in_or_app. right. exact Hc.
  - intros j c Hj. apply (ia_kids_idx _ _ _ ia). unfold Listed. rewrite Ek, nth_error_app1; [exact Hj|].
    apply nth_error_Some. rewrite Hj. discriminate.
Qed.

(** [index] after numbering depends on the indexes before only. *)
Lemma index_reset_congr l y : forall h h' s, length h = length h' -> index h y = index h' y ->
  index (reset_index h s l) y = index (reset_index h' s l) y.
Proof.
  induction l as [|x l IH]; intros h h' s Hl E; cbn [reset_index]; [exact E|].
  apply IH; [rewrite !upd_length; exact Hl|]. unfold index in *. rewrite !node_upd, <- Hl.
  destruct (_ && _); [reflexivity | exact E].
Qed.

Lemma insert_inside_ok h p (at_end : bool) ns : Insertable h p ns ->
  exists h', insert_inside h p at_end ns = Ok h' /\
    Inserted h h' p (if at_end then kids h p else []) ns (if at_end then [] else kids h p).
Proof.
  intros ia. unfold insert_inside. cbv zeta. rewrite childs_set_parents.
  pose proof (ia_p _ _ _ ia) as Hp.
  assert (Hinc : includes ns p = false).
  { destruct (includes ns p) eqn:E; [|reflexivity]. apply includes_spec in E. exfalso. exact (ia_notp _ _ _ ia E). }
  assert (G : forall l1 l2 h3, kids h p = l1 ++ l2 -> SameNodes h h3 ->
    (forall q, childs h3 q = childs h q) ->
    (forall y, parent h3 y = parent (set_parents h p ns) y) ->
    (forall y, index h3 y = index (reset_index (reset_index h (length l1) ns) (length l1 + length ns) l2) y) ->
    Inserted h (upd h3 p (set_ch (Some (l1 ++ ns ++ l2)))) p l1 ns l2).
  { intros l1 l2 h3 Ek Hs Hk Hpar Hidx.
    destruct (three_segments h p l1 ns l2 ia Ek) as [H1 H2]. split.
    - apply same_nodes_trans with (h1 := h3); [exact Hs | apply same_nodes_set_ch].
    - exact Ek.
    - rewrite kids_set_ch; [reflexivity|]. destruct Hs as [-> _]. exact Hp.
    - intros q Hq. rewrite kids_set_ch_other by exact Hq. unfold kids. rewrite Hk. reflexivity.
    - intros y Hy. rewrite parent_set_ch, Hpar. apply parent_set_parents; [exact Hy | exact (ia_lt _ _ _ ia y Hy)].
    - intros y Hy. rewrite parent_set_ch, Hpar. apply parent_set_parents_other. exact Hy.
    - intros j c Hj. rewrite index_set_ch, Hidx. exact (H1 j c Hj).
    - intros c Hc. rewrite index_set_ch, Hidx. exact (H2 c Hc). }
  destruct (childs h p) as [cs|] eqn:Ec.
  - rewrite Hinc. rewrite (kids_some _ _ _ Ec). rewrite (kids_some _ _ _ Ec) in G. destruct at_end.
    + eexists. split; [reflexivity|]. specialize (G cs [] (reset_index (set_parents h p ns) (length cs) ns)).
      rewrite app_nil_r in G. rewrite app_nil_r in G. apply G.
      * reflexivity.
      * apply same_nodes_trans with (h1 := set_parents h p ns); [apply same_nodes_set_parents | apply same_nodes_reset].
      * intros q. rewrite childs_reset. apply childs_set_parents.
      * intros y. apply parent_reset.
      * intros y. cbn [reset_index]. apply index_reset_congr; [apply length_set_parents | apply index_set_parents].
    + eexists. split; [reflexivity|].
      specialize (G [] cs (reset_index (reset_index (set_parents h p ns) 0 ns) (length ns) cs)). apply G.
      * reflexivity.
      * apply same_nodes_trans with (h1 := reset_index (set_parents h p ns) 0 ns); [|apply same_nodes_reset].
        apply same_nodes_trans with (h1 := set_parents h p ns); [apply same_nodes_set_parents | apply same_nodes_reset].
      * intros q. rewrite !childs_reset. apply childs_set_parents.
      * intros y. rewrite !parent_reset. reflexivity.
      * intros y. cbn [length Nat.add]. apply index_reset_congr; [rewrite !length_reset; apply length_set_parents|].
        apply index_reset_congr; [apply length_set_parents | apply index_set_parents].
  - assert (Ek : kids h p = []) by (unfold kids; rewrite Ec; reflexivity). rewrite Ek in *.
    eexists. split; [reflexivity|]. specialize (G [] [] (reset_index (set_parents h p ns) 0 ns)).
    cbn [app] in G. rewrite app_nil_r in G.
    assert (Hg : Inserted h (upd (reset_index (set_parents h p ns) 0 ns) p (set_ch (Some ns))) p [] ns []).
    { apply G.
      * reflexivity.
      * apply same_nodes_trans with (h1 := set_parents h p ns); [apply same_nodes_set_parents | apply same_nodes_reset].
      * intros q. rewrite childs_reset. apply childs_set_parents.
      * intros y. apply parent_reset.
      * intros y. cbn [reset_index length]. apply index_reset_congr; [apply length_set_parents | apply index_set_parents]. }
    destruct at_end; exact Hg.
Qed.

Lemma insert_beside_ok h p i self (after_ : bool) ns : Insertable h p ns -> parent h self = Some p -> Listed h p i self ->
  let k := if after_ then S i else i in
  exists h', insert_beside h self after_ ns = Ok h' /\
    Inserted h h' p (firstn k (kids h p)) ns (skipn k (kids h p)).
Proof.
  intros ia Epar Hl k. pose proof (ia_kids_idx _ _ _ ia i self Hl) as Ei.
  pose proof (ia_p _ _ _ ia) as Hp.
  assert (Hself : In self (kids h p)) by exact (listed_in _ _ _ _ Hl).
  assert (Hin1 : includes ns self = false).
  { destruct (includes ns self) eqn:E; [|reflexivity]. apply includes_spec in E. exfalso.
    exact (ia_disj _ _ _ ia self E Hself). }
  assert (Hin2 : includes ns p = false).
  { destruct (includes ns p) eqn:E; [|reflexivity]. apply includes_spec in E. exfalso. exact (ia_notp _ _ _ ia E). }
  assert (Hi : i < length (kids h p)).
  { apply nth_error_Some. unfold Listed in Hl. rewrite Hl. discriminate. }
  assert (Hk : k <= length (kids h p)) by (unfold k; destruct after_; lia).
  assert (Ec : childs h p = Some (kids h p)) by exact (in_kids_childs h p self Hself).
  unfold insert_beside. rewrite Ei. cbv zeta.
  replace (if after_ then S i else i) with k by reflexivity.
  rewrite parent_reset, Epar, childs_reset, Ec, Hin1, Hin2. cbn [orb].
  set (cs := kids h p) in *.
  assert (En : (if k <? length cs then skipn k cs else []) = skipn k cs).
  { destruct (Nat.ltb_spec k (length cs)); [reflexivity|]. rewrite skipn_all2 by lia. reflexivity. }
  assert (Eq : (if k <? length cs then firstn k cs else cs) = firstn k cs).
  { destruct (Nat.ltb_spec k (length cs)); [reflexivity|]. rewrite firstn_all2 by lia. reflexivity. }
  rewrite En, Eq. clear En Eq.
  assert (Efs : cs = firstn k cs ++ skipn k cs) by (symmetry; apply firstn_skipn).
  assert (El : length (firstn k cs) = k) by (rewrite firstn_length; lia).
  destruct (three_segments h p (firstn k cs) ns (skipn k cs) ia Efs) as [T1 T2]. rewrite El in T1, T2.
  set (h1 := reset_index h k ns) in *. set (h2 := set_parents h1 p ns).
  set (h3 := upd h2 p (set_ch (Some (firstn k cs ++ ns)))).
  assert (L1 : length h1 = length h) by apply length_reset.
  assert (L2 : length h2 = length h) by (unfold h2; rewrite length_set_parents; exact L1).
  assert (S3 : SameNodes h h3).
  { apply same_nodes_trans with (h1 := h2); [|apply same_nodes_set_ch].
    apply same_nodes_trans with (h1 := h1); [apply same_nodes_reset | apply same_nodes_set_parents]. }
  assert (P3 : forall y, parent h3 y = parent (set_parents h1 p ns) y) by (intros y; unfold h3; apply parent_set_ch).
  assert (K3 : forall q, q <> p -> kids h3 q = kids h q).
  { intros q Hq. unfold h3. rewrite kids_set_ch_other by exact Hq. unfold h2. rewrite kids_set_parents. apply kids_reset. }
  assert (I3 : forall y, index h3 y = index h1 y).
  { intros y. unfold h3. rewrite index_set_ch. unfold h2. apply index_set_parents. }
  assert (Par1 : forall y, In y ns -> parent h3 y = Some p).
  { intros y Hy. rewrite P3. apply parent_set_parents; [exact Hy|]. rewrite L1. exact (ia_lt _ _ _ ia y Hy). }
  assert (Par2 : forall y, ~ In y ns -> parent h3 y = parent h y).
  { intros y Hy. rewrite P3, parent_set_parents_other by exact Hy. apply parent_reset. }
  destruct (skipn k cs) as [|n0 nexts] eqn:Esk.
  - exists h3. split; [reflexivity|]. split.
    + exact S3.
    + exact Efs.
    + unfold h3. rewrite kids_set_ch by lia. rewrite app_nil_r. reflexivity.
    + exact K3.
    + exact Par1.
    + exact Par2.
    + intros j c Hj. rewrite I3. exact (T1 j c Hj).
    + intros c Hc. rewrite I3. exact (T2 c Hc).
  - eexists. split; [reflexivity|]. rewrite <- Esk in *. split.
    + apply same_nodes_trans with (h1 := reset_index h3 (k + length ns) (skipn k cs)); [|apply same_nodes_set_ch].
      apply same_nodes_trans with (h1 := h3); [exact S3 | apply same_nodes_reset].
    + exact Efs.
    + rewrite kids_set_ch; [reflexivity|]. rewrite length_reset. destruct S3 as [-> _]. exact Hp.
    + intros q Hq. rewrite kids_set_ch_other by exact Hq. rewrite kids_reset. exact (K3 q Hq).
    + intros y Hy. rewrite parent_set_ch, parent_reset. exact (Par1 y Hy).
    + intros y Hy. rewrite parent_set_ch, parent_reset. exact (Par2 y Hy).
    + intros j c Hj. rewrite index_set_ch. rewrite <- (T1 j c Hj).
      apply index_reset_congr; [|apply I3]. destruct S3 as [-> _]. symmetry. exact L1.
    + intros c Hc. rewrite index_set_ch. rewrite <- (T2 c Hc).
      apply index_reset_congr; [|apply I3]. destruct S3 as [-> _]. symmetry. exact L1.
Qed.

(** Changing the parent of some nodes to [p]. *)
Lemma up_change h h' p ns :
  (forall y, In y ns -> parent h' y = Some p) -> (forall y, ~ In y ns -> parent h' y = parent h y) ->
  (forall x, In x ns -> x <> p /\ ~ Up h p x) ->
  forall a b, Up h' a b -> Up h a b \/ (exists x, In x ns /\ (a = x \/ Up h a x)) /\ (b = p \/ Up h p b).
Proof.
  intros H1 H2 H3 a b H. induction H as [a b Hp | a q b H IH Hp].
  - destruct (in_dec Nat.eq_dec a ns) as [Ha | Ha].
    + rewrite (H1 a Ha) in Hp. injection Hp as <-. right. split; [|left; reflexivity].
      exists a. split; [exact Ha | left; reflexivity].
    + left. constructor. rewrite <- (H2 a Ha). exact Hp.
  - destruct (in_dec Nat.eq_dec q ns) as [Hq | Hq].
    + rewrite (H1 q Hq) in Hp. injection Hp as <-. destruct IH as [IH | [Hx IH]].
      * right. split; [|left; reflexivity]. exists q. split; [exact Hq | right; exact IH].
      * right. split; [exact Hx | left; reflexivity].
    + rewrite (H2 q Hq) in Hp. destruct IH as [IH | [Hx IH]].
      * left. exact (Up_step _ _ _ _ IH Hp).
      * right. split; [exact Hx|]. right. destruct IH as [-> | IH]; [constructor; exact Hp | exact (Up_step _ _ _ _ IH Hp)].
Qed.

Lemma inserted_wf h h' p l1 ns l2 : WF h -> Inserted h h' p l1 ns l2 -> Container h p -> p < length h ->
  (forall x, In x ns -> x < length h /\ x <> p /\ ~ Up h p x /\ is_root h x = false /\ ~ Attached h x) -> WF h'.
Proof.
  intros wf ins Hc Hp Hns. pose proof (ins_same _ _ _ _ _ _ ins) as Hs. split.
  - intros q i c Hl. destruct (Nat.eq_dec q p) as [-> | Hq].
    + unfold Listed in Hl. rewrite (ins_new _ _ _ _ _ _ ins) in Hl.
      pose proof (nth_error_In _ _ Hl) as Hin. destruct (in_dec Nat.eq_dec c ns) as [Hc' | Hc'].
      * split; [rewrite (proj1 Hs); apply (Hns c Hc')|]. split; [exact (ins_par _ _ _ _ _ _ ins c Hc')|].
        exact (ins_idx _ _ _ _ _ _ ins i c Hl).
      * assert (Hk : Child h p c).
        { apply child_in. rewrite (ins_old _ _ _ _ _ _ ins). rewrite !in_app_iff in *. tauto. }
        destruct Hk as (j & Hk). destruct (wf_listed h wf _ _ _ Hk) as (B1 & B2 & B3).
        split; [rewrite (proj1 Hs); exact B1|]. split; [rewrite (ins_par_other _ _ _ _ _ _ ins c Hc'); exact B2|].
        exact (ins_idx _ _ _ _ _ _ ins i c Hl).
    + unfold Listed in Hl. rewrite (ins_other _ _ _ _ _ _ ins q Hq) in Hl.
      destruct (wf_listed h wf q i c Hl) as (B1 & B2 & B3).
      assert (Hc' : ~ In c ns).
      { intros H. apply (Hns c H). exists q, i. exact Hl. }
      split; [rewrite (proj1 Hs); exact B1|]. split; [rewrite (ins_par_other _ _ _ _ _ _ ins c Hc'); exact B2|].
      rewrite (ins_idx_other _ _ _ _ _ _ ins); [exact B3|].
      intros H. assert (Hk : Child h p c).
      { apply child_in. rewrite (ins_old _ _ _ _ _ _ ins). rewrite !in_app_iff in *. tauto. }
      rewrite (child_parent h wf _ _ Hk) in B2. congruence.
  - intros y q Hy. rewrite (proj1 Hs). destruct (in_dec Nat.eq_dec y ns) as [Hi | Hi].
    + rewrite (ins_par _ _ _ _ _ _ ins y Hi) in Hy. injection Hy as <-.
      split; [exact Hp | exact (same_container _ _ Hs p Hc)].
    + rewrite (ins_par_other _ _ _ _ _ _ ins y Hi) in Hy. destruct (wf_parent h wf _ _ Hy) as [B1 B2].
      split; [exact B1 | exact (same_container _ _ Hs q B2)].
  - intros y Hy.
    destruct (up_change h h' p ns (ins_par _ _ _ _ _ _ ins) (ins_par_other _ _ _ _ _ _ ins)) with (a := y) (b := y)
      as [H | [(x & Hx & H1) H2]].
    + intros x Hx. split; apply (Hns x Hx).
    + exact Hy.
    + exact (wf_acyclic h wf y H).
    + destruct (Hns x Hx) as (_ & N1 & N2 & _). destruct H1 as [E1 | H1], H2 as [E2 | H2].
      * congruence.
      * rewrite E1 in H2. contradiction.
      * rewrite E2 in H1. contradiction.
      * exact (N2 (up_trans _ _ _ _ H2 H1)).
  - intros y Hy. rewrite (same_root _ _ Hs) in Hy. rewrite (ins_par_other _ _ _ _ _ _ ins); [exact (wf_root h wf y Hy)|].
    intros H. destruct (Hns y H) as (_ & _ & _ & B & _). congruence.
Qed.
