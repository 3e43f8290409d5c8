(** Proofs about removing and inserting several nodes, [set_text], fragments, and sequences of mutations. *)
From Verif Require Import Base Utils UtilsSpec UtilsProofs Attr Dom DomSpec Order DomProofs Sets SetsProofs
  ClassProofs Mutate MutateSpec MutateProofs InsertProofs.

(** * Lists *)
Lemma without_all_in d l y : In y (without_all d l) <-> In y l /\ ~ In y d.
Proof.
  unfold without_all. rewrite filter_In, negb_true_iff. split; intros [H1 H2]; (split; [exact H1|]).
  - intros H. assert (E : existsb (Nat.eqb y) d = true) by (apply existsb_exists; exists y; split; [exact H | apply Nat.eqb_refl]).
    congruence.
  - destruct (existsb (Nat.eqb y) d) eqn:E; [|reflexivity]. apply existsb_exists in E. destruct E as (z & Hz & Ez).
    apply Nat.eqb_eq in Ez. subst z. contradiction.
Qed.
Lemma without_all_nil l : without_all [] l = l.
Proof. unfold without_all. apply filter_all. reflexivity. Qed.
Lemma without_all_cons x d l : without_all (x :: d) l = without_all d (without x l).
Proof.
  unfold without_all, without. induction l as [|y l IH]; [reflexivity|]. cbn [filter existsb] in IH |- *.
  destruct (Nat.eqb y x) eqn:E; cbn [negb orb filter]; [exact IH|].
  destruct (existsb (Nat.eqb y) d); cbn [negb]; rewrite IH; reflexivity.
Qed.
Lemma without_all_notin d l : (forall x, In x d -> ~ In x l) -> without_all d l = l.
Proof.
  intros H. unfold without_all. apply filter_all. intros y Hy. apply negb_true_iff.
  destruct (existsb (Nat.eqb y) d) eqn:E; [|reflexivity]. apply existsb_exists in E. destruct E as (z & Hz & Ez).
  apply Nat.eqb_eq in Ez. subst z. exfalso. exact (H y Hz Hy).
Qed.
Lemma without_all_app d l1 l2 : without_all d (l1 ++ l2) = without_all d l1 ++ without_all d l2.
Proof. apply filter_app. Qed.

(** * Removing several elements *)
Lemma remove_one_ok h x : WF h -> Placed h x -> exists h', remove_one h x = Ok h' /\ WF h' /\ TakenOut h h' x.
Proof.
  intros wf [Hl Hp]. unfold remove_one. destruct (parent h x) as [p|] eqn:E.
  - destruct Hp as [Hp | Hp]; [discriminate|].
    pose proof (attached_listed h wf x p Hp E) as Hls.
    destruct (remove_child_ok h p x wf (ex_intro (fun i => Listed h p i x) (index h x) Hls)) as (h1 & E1 & H1 & H2 & _).
    exists h1. split; [exact E1|]. split; [exact (takenout_wf h h1 x wf H1 H2) | exact H1].
  - exists h. split; [reflexivity|]. split; [exact wf | exact (takenout_self h x wf E)].
Qed.
Lemma takenout_placed h h' x y : TakenOut h h' x -> y <> x -> Placed h y -> Placed h' y.
Proof.
  intros T Hn [Hl Hp]. split; [rewrite (proj1 (proj1 T)); exact Hl|]. destruct Hp as [Hp | (p & Hc)].
  - left. rewrite (proj2 (proj2 T)). exact Hp.
  - right. exists p. exact (takenout_kids_listed _ _ _ _ _ T Hc Hn).
Qed.
Lemma remove_all_ok d : forall h, WF h -> NoDup d -> Forall (Placed h) d ->
  exists h', remove_all h d = Ok h' /\ WF h' /\ TakenOutAll h h' d.
Proof.
  induction d as [|x d IH]; intros h wf Hn Hp.
  - exists h. split; [reflexivity|]. split; [exact wf|]. split; [apply same_nodes_refl|]. split; [|reflexivity].
    intros q. symmetry. apply without_all_nil.
  - inversion Hn as [|? ? Hx Hn']; subst. inversion Hp as [|? ? Px Hp']; subst.
    destruct (remove_one_ok h x wf Px) as (h1 & E1 & wf1 & T1).
    assert (Hp1 : Forall (Placed h1) d).
    { rewrite Forall_forall in Hp' |- *. intros y Hy. apply (takenout_placed h h1 x y T1); [|exact (Hp' y Hy)].
      intros ->. contradiction. }
    destruct (IH h1 wf1 Hn' Hp1) as (h' & E & wf' & (S' & K' & P')).
    exists h'. unfold remove_all in *. cbn [rfold]. rewrite E1. cbn [rbind]. split; [exact E|]. split; [exact wf'|].
    destruct T1 as (S1 & K1 & P1). split; [exact (same_nodes_trans _ _ _ S1 S')|]. split.
    + intros q. rewrite K', K1, without_all_cons. reflexivity.
    + intros y. rewrite P'. apply P1.
Qed.

(** * [set_text], [empty] *)
Lemma node_snoc h n y : node_of (h ++ [n]) y = if y <? length h then node_of h y else if Nat.eqb y (length h) then n else empty_node.
Proof.
  unfold node_of. destruct (Nat.ltb_spec y (length h)) as [H | H].
  - apply app_nth1. exact H.
  - rewrite app_nth2 by exact H. destruct (Nat.eqb_spec y (length h)) as [E | E].
    + rewrite E, Nat.sub_diag. reflexivity.
    + apply nth_overflow. cbn. lia.
Qed.
Lemma node_beyond h y : length h <= y -> node_of h y = empty_node.
Proof. intros H. unfold node_of. apply nth_overflow. exact H. Qed.

Lemma only_content_wf h h' x c : WF h -> OnlyContent h h' x c -> WF h'.
Proof.
  intros wf (Hl & Ho & _ & Ep & Ei & Ec & Et & Em & Er).
  assert (Par : forall y, parent h' y = parent h y).
  { intros y. destruct (Nat.eq_dec y x) as [-> | H]; [exact Ep | unfold parent; rewrite (Ho y H); reflexivity]. }
  assert (Idx : forall y, index h' y = index h y).
  { intros y. destruct (Nat.eq_dec y x) as [-> | H]; [exact Ei | unfold index; rewrite (Ho y H); reflexivity]. }
  assert (Kid : forall y, kids h' y = kids h y).
  { intros y. unfold kids. destruct (Nat.eq_dec y x) as [-> | H]; [rewrite Ec; reflexivity | unfold childs; rewrite (Ho y H); reflexivity]. }
  assert (Typ : forall y, ntype_of h' y = ntype_of h y).
  { intros y. destruct (Nat.eq_dec y x) as [-> | H]; [exact Et | unfold ntype_of; rewrite (Ho y H); reflexivity]. }
  split.
  - intros p i y H. unfold Listed in H. rewrite Kid in H. rewrite Par, Idx, Hl. exact (wf_listed h wf p i y H).
  - intros y p H. rewrite Par in H. rewrite Hl. unfold Container, is_element, is_root. rewrite Typ. exact (wf_parent h wf y p H).
  - intros y H. exact (wf_acyclic h wf y (up_same h h' Par y y H)).
  - intros y H. rewrite Par. apply (wf_root h wf). unfold is_root in *. rewrite Typ in H. exact H.
Qed.
Lemma set_con_only h x c : x < length h -> OnlyContent h (upd h x (set_con c)) x c.
Proof.
  intros H. split; [apply upd_length|]. split; [intros y Hy; apply node_upd_other; exact Hy|].
  unfold parent, index, childs, ntype_of. rewrite node_upd_same by exact H. repeat split.
Qed.

Lemma emptied_ok h x : Emptied h (upd h x (set_ch None)) x.
Proof.
  split; [apply same_nodes_set_ch|]. split.
  - destruct (lt_dec x (length h)) as [H | H].
    + unfold kids. rewrite childs_set_ch by exact H. reflexivity.
    + unfold kids, childs. rewrite node_beyond; [reflexivity|]. rewrite upd_length. lia.
  - split; [intros q Hq; apply node_upd_other; exact Hq|]. split; [apply parent_set_ch | apply index_set_ch].
Qed.
Lemma emptied_wf h h' x : WF h -> Emptied h h' x -> WF h'.
Proof.
  intros wf (Hs & Hk & Ho & Ep & Ei).
  assert (Par : forall y, parent h' y = parent h y).
  { intros y. destruct (Nat.eq_dec y x) as [-> | H]; [exact Ep | unfold parent; rewrite (Ho y H); reflexivity]. }
  assert (Idx : forall y, index h' y = index h y).
  { intros y. destruct (Nat.eq_dec y x) as [-> | H]; [exact Ei | unfold index; rewrite (Ho y H); reflexivity]. }
  split.
  - intros p i y H. destruct (Nat.eq_dec p x) as [-> | Hp].
    + unfold Listed in H. rewrite Hk in H. destruct i; discriminate.
    + rewrite (proj1 Hs), Par, Idx. apply (wf_listed h wf). unfold Listed, kids, childs in *. rewrite (Ho p Hp) in H. exact H.
  - intros y p H. rewrite Par in H. rewrite (proj1 Hs). destruct (wf_parent h wf y p H) as [H1 H2].
    split; [exact H1 | exact (same_container _ _ Hs p H2)].
  - intros y H. exact (wf_acyclic h wf y (up_same h h' Par y y H)).
  - intros y H. rewrite Par. rewrite (same_root _ _ Hs) in H. exact (wf_root h wf y H).
Qed.

Lemma text_only_ok h x c : x < length h ->
  TextOnly h (upd h x (set_ch (Some [length h])) ++ [new_text x c]) x (length h) c /\
  parent (upd h x (set_ch (Some [length h])) ++ [new_text x c]) (length h) = Some x /\
  index (upd h x (set_ch (Some [length h])) ++ [new_text x c]) (length h) = 0.
Proof.
  intros Hx. set (h1 := upd h x (set_ch (Some [length h]))).
  assert (L1 : length h1 = length h) by apply upd_length.
  assert (Hn : node_of (h1 ++ [new_text x c]) (length h) = new_text x c).
  { rewrite node_snoc, L1, Nat.ltb_irrefl, Nat.eqb_refl. reflexivity. }
  assert (Hxx : node_of (h1 ++ [new_text x c]) x = set_ch (Some [length h]) (node_of h x)).
  { rewrite node_snoc, L1. replace (x <? length h) with true by (symmetry; apply Nat.ltb_lt; exact Hx).
    apply node_upd_same. exact Hx. }
  split; [|split].
  - split; [rewrite app_length, L1; cbn; lia|]. split; [reflexivity|].
    unfold kids, childs, ntype_of, parent, index. rewrite Hn, Hxx. cbn [n_childs n_type n_content new_text].
    split; [reflexivity|]. split; [reflexivity|]. split; [reflexivity|]. split; [reflexivity|].
    split; [|repeat split].
    intros q H1 H2. rewrite node_snoc, L1. destruct (Nat.ltb_spec q (length h)) as [H | H].
    + apply node_upd_other. exact H1.
    + replace (Nat.eqb q (length h)) with false by (symmetry; apply Nat.eqb_neq; exact H2).
      symmetry. apply node_beyond. exact H.
  - unfold parent. rewrite Hn. reflexivity.
  - unfold index. rewrite Hn. reflexivity.
Qed.
Lemma text_only_wf h h' x n c : WF h -> is_element h x = true -> TextOnly h h' x n c ->
  parent h' n = Some x -> index h' n = 0 -> WF h'.
Proof.
  intros wf He (Hl & En & Kx & Tn & Cn & Kn & Ho & Tx & Mx & Cx & Px & Ix) Pn In_.
  pose proof (element_lt _ _ He) as Hx.
  assert (Par : forall y, y <> n -> parent h' y = parent h y).
  { intros y Hy. destruct (Nat.eq_dec y x) as [-> | H]; [exact Px | unfold parent; rewrite (Ho y H Hy); reflexivity]. }
  assert (Idx : forall y, y <> n -> index h' y = index h y).
  { intros y Hy. destruct (Nat.eq_dec y x) as [-> | H]; [exact Ix | unfold index; rewrite (Ho y H Hy); reflexivity]. }
  assert (Typ : forall y, y <> n -> ntype_of h' y = ntype_of h y).
  { intros y Hy. destruct (Nat.eq_dec y x) as [-> | H]; [exact Tx | unfold ntype_of; rewrite (Ho y H Hy); reflexivity]. }
  split.
  - intros p i y H. unfold Listed in H. destruct (Nat.eq_dec p x) as [Ep | Hp].
    + subst p. rewrite Kx in H. destruct i as [|i]; [|destruct i; discriminate].
      cbn in H. injection H as <-. split; [lia|]. split; [exact Pn | exact In_].
    + destruct (Nat.eq_dec p n) as [Ep | Hp2].
      * subst p. rewrite Kn in H. destruct i; discriminate.
      * unfold kids, childs in H. rewrite (Ho p Hp Hp2) in H.
        destruct (wf_listed h wf p i y H) as (B1 & B2 & B3). assert (Hy : y <> n) by lia.
        rewrite (Par y Hy), (Idx y Hy). split; [lia|]. split; assumption.
  - intros y p H. destruct (Nat.eq_dec y n) as [-> | Hy].
    + rewrite Pn in H. injection H as <-. split; [lia|]. left. unfold is_element. rewrite Typ by lia. exact He.
    + rewrite (Par y Hy) in H. destruct (wf_parent h wf y p H) as [B1 B2]. split; [lia|].
      unfold Container, is_element, is_root. rewrite Typ by lia. exact B2.
  - assert (HU : forall a b, Up h' a b -> b <> n /\ (Up h a b \/ a = n /\ (b = x \/ Up h x b))).
    { intros a b H. induction H as [a b Hp | a q b H IH Hp].
      - destruct (Nat.eq_dec a n) as [-> | Ha].
        + rewrite Pn in Hp. injection Hp as <-. split; [lia|]. right. split; [reflexivity | left; reflexivity].
        + rewrite (Par a Ha) in Hp. pose proof (wf_parent h wf _ _ Hp) as [B _]. split; [lia|]. left. constructor. exact Hp.
      - destruct IH as [Hq IH]. rewrite (Par q Hq) in Hp. pose proof (wf_parent h wf _ _ Hp) as [B _]. split; [lia|].
        destruct IH as [IH | [-> IH]].
        + left. exact (Up_step _ _ _ _ IH Hp).
        + right. split; [reflexivity|]. right. destruct IH as [-> | IH]; [constructor; exact Hp | exact (Up_step _ _ _ _ IH Hp)]. }
    intros y Hy. destruct (HU y y Hy) as [Hn [H | [H _]]]; [exact (wf_acyclic h wf y H) | contradiction].
  - intros y H. unfold is_root in H. destruct (Nat.eq_dec y n) as [-> | Hy].
    + rewrite Tn in H. discriminate.
    + rewrite (Par y Hy). apply (wf_root h wf). unfold is_root. rewrite <- (Typ y Hy). exact H.
Qed.

(** [set_text] by kind of node. *)
Lemma set_text_wf o h x s : WF h -> WF (fst (set_text o h x s)).
Proof.
  intros wf. unfold set_text. destruct (ntype_of h x) eqn:E.
  - exact wf.
  - assert (He : is_element h x = true) by (unfold is_element; rewrite E; reflexivity).
    pose proof (element_lt _ _ He) as Hx. cbv zeta.
    destruct s as [|a s], (od_content_tag o (tag_names h x)); cbn [negb fst].
    + exact (only_content_wf _ _ _ _ wf (set_con_only h x None Hx)).
    + exact (emptied_wf _ _ _ wf (emptied_ok h x)).
    + exact (only_content_wf _ _ _ _ wf (set_con_only h x (Some (a :: s)) Hx)).
    + destruct (text_only_ok h x (od_encode o (a :: s)) Hx) as (H1 & H2 & H3).
      exact (text_only_wf _ _ _ _ _ wf He H1 H2 H3).
  - destruct s as [|a s]; cbn [fst]; [exact wf|]. destruct (lt_dec x (length h)) as [Hx | Hx].
    + exact (only_content_wf _ _ _ _ wf (set_con_only h x (Some (a :: s)) Hx)).
    + unfold ntype_of in E. rewrite node_beyond in E by lia. discriminate.
  - destruct s as [|a s]; cbn [fst]; [exact wf|]. destruct (lt_dec x (length h)) as [Hx | Hx].
    + exact (only_content_wf _ _ _ _ wf (set_con_only h x (Some (a :: s)) Hx)).
    + unfold ntype_of in E. rewrite node_beyond in E by lia. discriminate.
  - destruct s as [|a s]; cbn [fst]; [exact wf|]. destruct (lt_dec x (length h)) as [Hx | Hx].
    + exact (only_content_wf _ _ _ _ wf (set_con_only h x (Some (a :: s)) Hx)).
    + unfold ntype_of in E. rewrite node_beyond in E by lia. discriminate.
  - exact wf.
  - exact wf.
  - exact wf.
Qed.

(** * Inserting several nodes *)
Lemma without_all_ext d d' l : (forall y, In y d <-> In y d') -> without_all d l = without_all d' l.
Proof.
  intros H. unfold without_all. apply filter_ext. intros y. f_equal. apply eq_true_iff_eq. rewrite !existsb_exists.
  split; intros (z & Hz & E); exists z; (split; [apply H; exact Hz | exact E]).
Qed.
Lemma cut_unique (x : id) a b a' b' : a ++ x :: b = a' ++ x :: b' -> ~ In x a -> ~ In x b -> a = a' /\ b = b'.
Proof.
  revert a'. induction a as [|y a IH]; intros a' E Ha Hb; destruct a' as [|z a']; cbn in E.
  - injection E as ->. split; reflexivity.
  - injection E as <- ->. exfalso. apply Hb. apply in_or_app. right. left. reflexivity.
  - injection E as -> _. exfalso. apply Ha. left. reflexivity.
  - injection E as -> E. destruct (IH a' E) as [-> ->].
    + intros H. apply Ha. right. exact H.
    + exact Hb.
    + split; reflexivity.
Qed.
Lemma moved_all_nil h p l1 l2 : kids h p = l1 ++ l2 -> MovedAllInto h h p l1 [] l2.
Proof.
  intros E. split; [apply same_nodes_refl|]. split; [rewrite without_all_nil; exact E|]. split; [exact E|].
  split; [intros q _; symmetry; apply without_all_nil|]. split; [intros y []|]. reflexivity.
Qed.
Lemma moved_compose h h1 h' p x a b A1 d B1 (first_ : bool) (A B : list id) :
  MovedInto h h1 p x a b -> MovedAllInto h1 h' p A1 d B1 -> ~ In x d ->
  (if first_ then A1 = A ++ [x] /\ B1 = B else A1 = A /\ B1 = x :: B) ->
  MovedAllInto h h' p A (if first_ then x :: d else d ++ [x]) B.
Proof.
  intros (S1 & W1 & K1 & O1 & P1 & Q1) (S2 & W2 & K2 & O2 & P2 & Q2) Hx HAB.
  assert (Hin : forall y, In y (x :: d) <-> In y (if first_ then x :: d else d ++ [x])).
  { intros y. destruct first_; [reflexivity|]. rewrite in_app_iff. cbn. tauto. }
  assert (Hab : ~ In x a /\ ~ In x b).
  { assert (H : ~ In x (a ++ b)) by (rewrite <- W1; intros H; apply without_in in H; tauto).
    rewrite in_app_iff in H. tauto. }
  assert (Hsplit : without_all d (kids h1 p) = without_all d a ++ x :: without_all d b).
  { rewrite K1, without_all_app. f_equal. unfold without_all. cbn [filter].
    destruct (existsb (Nat.eqb x) d) eqn:E; [|reflexivity]. apply existsb_exists in E. destruct E as (z & Hz & Ez).
    apply Nat.eqb_eq in Ez. subst z. contradiction. }
  assert (Hxa : ~ In x (without_all d a) /\ ~ In x (without_all d b)).
  { rewrite !without_all_in. tauto. }
  assert (HA : without_all d a = A /\ without_all d b = B).
  { rewrite Hsplit in W2. destruct first_; destruct HAB as [-> ->].
    - rewrite <- app_assoc in W2. cbn in W2. exact (cut_unique x _ _ _ _ W2 (proj1 Hxa) (proj2 Hxa)).
    - exact (cut_unique x _ _ _ _ W2 (proj1 Hxa) (proj2 Hxa)). }
  destruct HA as [HA HB].
  split; [exact (same_nodes_trans _ _ _ S1 S2)|].
  split; [|split; [|split; [|split]]].
  - rewrite <- (without_all_ext (x :: d) _ _ Hin), without_all_cons, W1, without_all_app, HA, HB. reflexivity.
  - rewrite K2. destruct first_; destruct HAB as [-> ->]; rewrite <- !app_assoc; reflexivity.
  - intros q Hq. rewrite (O2 q Hq), (O1 q Hq), <- (without_all_ext (x :: d) _ _ Hin), without_all_cons. reflexivity.
  - intros y Hy. destruct (in_dec Nat.eq_dec y d) as [Hd | Hd]; [exact (P2 y Hd)|].
    assert (y = x) by (apply Hin in Hy; destruct Hy as [Hy | Hy]; [congruence | contradiction]). subst y.
    rewrite (Q2 x Hd). exact P1.
  - intros y Hy. assert (Hy' : ~ In y (x :: d)) by (intros H; apply Hy, Hin; exact H). cbn in Hy'.
    rewrite Q2 by tauto. apply Q1. intros ->. tauto.
Qed.

Lemma moved_child h h' p x l1 l2 q y : MovedInto h h' p x l1 l2 -> y <> x -> Child h q y -> Child h' q y.
Proof.
  intros (_ & W & K & O & _) Hy Hc. apply child_in in Hc. apply child_in.
  assert (Hw : In y (without x (kids h q))) by (apply without_in; split; assumption).
  destruct (Nat.eq_dec q p) as [-> | Hq].
  - rewrite W in Hw. rewrite K. apply in_app_iff in Hw. apply in_or_app. cbn. tauto.
  - rewrite (O q Hq). exact Hw.
Qed.
Lemma accepts_moved h h' p x l1 l2 e y : WF h -> Accepts h e x -> Accepts h e y -> y <> x ->
  (p = e \/ parent h e = Some p) -> MovedInto h h' p x l1 l2 -> Accepts h' e y.
Proof.
  intros wf [He Hpx Hrx Hnx Hux] [_ Hpy Hry Hny Huy] Hyx Hp M. pose proof M as (S1 & _ & _ & _ & P1 & Q1).
  assert (Hpx' : x <> p /\ ~ Up h p x).
  { destruct Hp as [-> | Hp]; [split; [congruence | exact Hux]|]. split.
    - intros ->. apply Hux. constructor. exact Hp.
    - intros H. apply Hux. exact (up_first _ _ _ _ Hp (or_intror H)). }
  split.
  - rewrite (same_element _ _ S1). exact He.
  - destruct Hpy as [Hl Hpy]. split; [rewrite (proj1 S1); exact Hl|]. destruct Hpy as [Hpy | (q & Hc)].
    + left. rewrite (Q1 y Hyx). exact Hpy.
    + right. exists q. exact (moved_child _ _ _ _ _ _ _ _ M Hyx Hc).
  - rewrite (same_root _ _ S1). exact Hry.
  - exact Hny.
  - intros HU. destruct (up_change h h' p [x]) with (a := e) (b := y) as [H | [(z & [<- | []] & H) _]].
    + intros z [<- | []]. exact P1.
    + intros z Hz. apply Q1. intros ->. apply Hz. left. reflexivity.
    + intros z [<- | []]. exact Hpx'.
    + exact HU.
    + exact (Huy H).
    + destruct H as [H | H]; [congruence | exact (Hux H)].
Qed.

Lemma many_inside o e (at_end : bool) d : forall h es, WF h -> NoDup d -> Forall (Accepts h e) d ->
  Forall (fun x => od_allow_insert o (tag_names h e) (ntype_of h x) = true) d ->
  exists h', rfold (insert_step o (if at_end then BeforeEnd else AfterBegin) e) d (h, es) = Ok (h', es) /\ WF h' /\
    MovedAllInto h h' e (if at_end then without_all d (kids h e) else []) (if at_end then d else rev d)
      (if at_end then [] else without_all d (kids h e)).
Proof.
  induction d as [|x d IH]; intros h es wf Hn Ha Hal.
  - exists h. split; [reflexivity|]. split; [exact wf|]. destruct at_end; apply moved_all_nil; rewrite without_all_nil.
    + rewrite app_nil_r. reflexivity.
    + reflexivity.
  - inversion Hn as [|? ? Hx Hn']; subst. inversion Ha as [|? ? Ax Ha']; subst. inversion Hal as [|? ? Lx Hal']; subst.
    destruct (inside_ok o h e at_end x wf Ax Lx) as (h1 & E1 & wf1 & M1).
    pose proof M1 as (S1 & W1 & K1 & O1 & _).
    destruct (IH h1 es wf1 Hn') as (h' & E & wf' & M').
    { rewrite Forall_forall in Ha' |- *. intros y Hy.
      apply (accepts_moved h h1 e x _ _ e y wf Ax (Ha' y Hy)) with (2 := or_introl eq_refl) (3 := M1).
      intros ->. contradiction. }
    { rewrite Forall_forall in Hal' |- *. intros y Hy. rewrite (same_tag _ _ S1).
      unfold ntype_of. rewrite (proj1 (proj2 S1 y)). exact (Hal' y Hy). }
    exists h'. split; [|split; [exact wf'|]].
    + cbn [rfold]. unfold insert_step at 1. cbn [fst snd]. rewrite E1. cbn [rbind fst snd]. rewrite app_nil_r. exact E.
    + assert (Hwx' : without_all d [x] = [x]).
      { apply without_all_notin. intros y Hy [<- | []]. contradiction. }
      destruct at_end; cbn [rev].
      * refine (moved_compose h h1 h' e x _ _ _ _ _ true _ _ M1 M' Hx _). split; [|reflexivity].
        rewrite K1, without_all_app, Hwx', without_all_cons. reflexivity.
      * refine (moved_compose h h1 h' e x _ _ _ _ _ false _ _ M1 M' _ _).
        -- intros H. apply in_rev in H. contradiction.
        -- split; [reflexivity|]. rewrite K1. cbn [app]. change (x :: without x (kids h e)) with ([x] ++ without x (kids h e)).
           rewrite without_all_app, Hwx', without_all_cons. reflexivity.
Qed.

Lemma many_beside o e p (after_ : bool) d : forall h es l1 l2, WF h -> NoDup d -> Forall (Accepts h e) d ->
  Child h p e -> without_all d (kids h p) = l1 ++ e :: l2 ->
  exists h', rfold (insert_step o (if after_ then AfterEnd else BeforeBegin) e) d (h, es) = Ok (h', es) /\ WF h' /\
    MovedAllInto h h' p (if after_ then l1 ++ [e] else l1) (if after_ then rev d else d) (if after_ then l2 else e :: l2).
Proof.
  induction d as [|x d IH]; intros h es l1 l2 wf Hn Ha Hc Ew.
  - exists h. split; [reflexivity|]. split; [exact wf|]. rewrite without_all_nil in Ew.
    destruct after_; apply moved_all_nil; [rewrite <- app_assoc; exact Ew | exact Ew].
  - inversion Hn as [|? ? Hx Hn']; subst. inversion Ha as [|? ? Ax Ha']; subst.
    assert (Hin : In e (without x (kids h p))).
    { apply without_in. split; [apply child_in; exact Hc|]. apply (acc_ne _ _ _ Ax). }
    apply in_split in Hin. destruct Hin as (a & b & Eab).
    destruct (beside_ok o h e p after_ x a b wf Ax Hc Eab) as (h1 & E1 & wf1 & M1).
    pose proof M1 as (S1 & W1 & K1 & O1 & _).
    pose proof (child_parent h wf _ _ Hc) as Epar.
    assert (Hed : ~ In e d).
    { intros H. rewrite Forall_forall in Ha'. destruct (Ha' e H). congruence. }
    assert (Hab : without_all d a = l1 /\ without_all d b = l2).
    { rewrite without_all_cons, Eab, without_all_app in Ew.
      assert (Ee : without_all d (e :: b) = e :: without_all d b).
      { unfold without_all. cbn [filter]. destruct (existsb (Nat.eqb e) d) eqn:E; [|reflexivity].
        apply existsb_exists in E. destruct E as (z & Hz & Ez). apply Nat.eqb_eq in Ez. subst z. contradiction. }
      rewrite Ee in Ew.
      assert (Hnd : NoDup (a ++ e :: b)).
      { rewrite <- Eab. unfold without. apply NoDup_filter. exact (kids_nodup h wf p). }
      apply NoDup_remove_2 in Hnd. rewrite in_app_iff in Hnd.
      apply (cut_unique e _ _ _ _ Ew); rewrite without_all_in; tauto. }
    destruct Hab as [Hwa Hwb].
    assert (Hwx' : without_all d [x] = [x]).
    { apply without_all_notin. intros y Hy [<- | []]. contradiction. }
    assert (Hwe' : without_all d [e] = [e]).
    { apply without_all_notin. intros y Hy [<- | []]. contradiction. }
    destruct (IH h1 es (if after_ then l1 else l1 ++ [x]) (if after_ then x :: l2 else l2) wf1 Hn') as (h' & E & wf' & M').
    { rewrite Forall_forall in Ha' |- *. intros y Hy.
      apply (accepts_moved h h1 p x _ _ e y wf Ax (Ha' y Hy)) with (2 := or_intror Epar) (3 := M1).
      intros ->. contradiction. }
    { exact (moved_child _ _ _ _ _ _ _ _ M1 (acc_ne _ _ _ Ax) Hc). }
    { rewrite K1. destruct after_.
      - change ((a ++ [e]) ++ x :: b) with ((a ++ [e]) ++ [x] ++ b).
        rewrite !without_all_app, Hwa, Hwb, Hwx', Hwe', <- app_assoc. reflexivity.
      - change (a ++ x :: e :: b) with (a ++ [x] ++ [e] ++ b).
        rewrite !without_all_app, Hwa, Hwb, Hwx', Hwe', <- app_assoc. reflexivity. }
    exists h'. split; [|split; [exact wf'|]].
    + cbn [rfold]. unfold insert_step at 1. cbn [fst snd]. rewrite E1. cbn [rbind fst snd]. rewrite app_nil_r. exact E.
    + destruct after_; cbn [rev].
      * refine (moved_compose h h1 h' p x _ _ _ _ _ false _ _ M1 M' _ _).
        -- intros H. apply in_rev in H. contradiction.
        -- split; reflexivity.
      * refine (moved_compose h h1 h' p x _ _ _ _ _ true _ _ M1 M' Hx _). split; reflexivity.
Qed.

(** * Document fragments *)
(** The heap without the stale child list of the fragment. *)
Definition clear (h : heap) (f : id) : heap := upd h f (set_ch None).

Lemma clear_kids_self h f : kids (clear h f) f = [].
Proof. apply (emptied_ok h f). Qed.
Lemma clear_kids_other h f q : q <> f -> kids (clear h f) q = kids h q.
Proof. intros H. unfold clear. apply kids_set_ch_other. exact H. Qed.

Lemma inserted_clear h h' p l1 ns l2 f : f <> p -> Inserted h h' p l1 ns l2 ->
  Inserted (clear h f) (clear h' f) p l1 ns l2.
Proof.
  intros Hf [S1 O1 N1 K1 P1 Q1 I1 J1]. split.
  - unfold clear. destruct S1 as [A B]. split; [rewrite !upd_length; exact A|]. intros y. rewrite !node_upd, A.
    destruct (_ && _); apply B.
  - rewrite clear_kids_other by congruence. exact O1.
  - rewrite clear_kids_other by congruence. exact N1.
  - intros q Hq. destruct (Nat.eq_dec q f) as [-> | Hqf]; [rewrite !clear_kids_self; reflexivity|].
    rewrite !clear_kids_other by exact Hqf. exact (K1 q Hq).
  - intros y Hy. unfold clear. rewrite parent_set_ch. exact (P1 y Hy).
  - intros y Hy. unfold clear. rewrite !parent_set_ch. exact (Q1 y Hy).
  - intros j c Hj. unfold clear. rewrite index_set_ch. exact (I1 j c Hj).
  - intros c Hc. unfold clear. rewrite !index_set_ch. exact (J1 c Hc).
Qed.

Lemma fragment_root h f : is_fragment h f = true -> is_root h f = true /\ is_document h f = false.
Proof. unfold is_fragment, is_root, is_document. destruct (ntype_of h f) as [[|]| | | | | | |]; intros H; (discriminate || split; reflexivity). Qed.
Lemma element_not_fragment h x : is_element h x = true -> is_fragment h x = false.
Proof. unfold is_element, is_fragment. destruct (ntype_of h x); (reflexivity || discriminate). Qed.

(** What is true of the children of a fragment when nothing inside it is the target. *)
Lemma fragment_kids h p f ns : WF h -> is_fragment h f = true -> p <> f -> ~ Up h p f -> p < length h -> NoDup ns ->
  incl ns (kids h f) ->
  Insertable h p ns /\
  (forall x, In x ns -> x < length (clear h f) /\ x <> p /\ ~ Up (clear h f) p x /\ is_root (clear h f) x = false /\
             ~ Attached (clear h f) x).
Proof.
  intros wf Hf Hpf Hup Hp Hn Hi.
  assert (Hk : forall x, In x ns -> exists i, Listed h f i x).
  { intros x Hx. apply Hi in Hx. apply child_in in Hx. exact Hx. }
  split.
  - split.
    + exact Hp.
    + exact Hn.
    + intros x Hx. destruct (Hk x Hx) as (i & Hl). apply (wf_listed h wf _ _ _ Hl).
    + intros x Hx Hc. destruct (Hk x Hx) as (i & Hl). apply child_in in Hc. destruct Hc as (j & Hc).
      destruct (listed_inj h wf _ _ _ _ _ Hl Hc). congruence.
    + intros Hx. destruct (Hk p Hx) as (i & Hl). apply Hup. constructor. exact (listed_parent h wf _ _ _ Hl).
    + exact (kids_nodup h wf p).
    + intros c Hc. apply child_in in Hc. destruct Hc as (j & Hc). apply (wf_listed h wf _ _ _ Hc).
    + intros j c Hc. exact (listed_index h wf _ _ _ Hc).
  - intros x Hx. destruct (Hk x Hx) as (i & Hl). destruct (wf_listed h wf _ _ _ Hl) as (B1 & B2 & _).
    unfold clear. rewrite upd_length. split; [exact B1|]. split; [|split; [|split]].
    + intros ->. apply Hup. constructor. exact B2.
    + intros H. apply Hup. assert (Hu : Up h p x).
      { revert H. apply up_same. intros y. symmetry. rewrite parent_set_ch. reflexivity. }
      exact (Up_step _ _ _ _ Hu B2).
    + rewrite (same_root h) by apply same_nodes_set_ch. destruct (is_root h x) eqn:E; [|reflexivity].
      rewrite (wf_root h wf x E) in B2. discriminate.
    + intros (q & Hc). apply child_in in Hc. fold (clear h f) in Hc. destruct (Nat.eq_dec q f) as [-> | Hq].
      * rewrite clear_kids_self in Hc. destruct Hc.
      * rewrite clear_kids_other in Hc by exact Hq. apply child_in in Hc. destruct Hc as (j & Hc).
        destruct (listed_inj h wf _ _ _ _ _ Hl Hc). congruence.
Qed.

Lemma inserted_nothing h p l1 l2 : WF h -> kids h p = l1 ++ l2 -> Inserted h h p l1 [] l2.
Proof.
  intros wf E. split; try reflexivity.
  - apply same_nodes_refl.
  - exact E.
  - exact E.
  - intros y [].
  - intros j c Hj. cbn [app] in Hj. apply (listed_index h wf p). unfold Listed. rewrite E. exact Hj.
Qed.

Lemma fragment_inside o h self (at_end : bool) f : WF h -> is_element h self = true -> is_fragment h f = true ->
  ~ Up h self f ->
  let ns := filter (fun x => od_allow_insert o (tag_names h self) (ntype_of h x)) (kids h f) in
  exists h', insert_adjacent o h self (if at_end then BeforeEnd else AfterBegin) f = Ok (h', []) /\
    WF (clear h' f) /\
    Inserted h h' self (if at_end then kids h self else []) ns (if at_end then [] else kids h self).
Proof.
  intros wf He Hf Hup ns. destruct (fragment_root _ _ Hf) as [Hr Hd].
  assert (Hne : self <> f).
  { intros ->. rewrite (element_not_fragment _ _ He) in Hf. discriminate. }
  pose proof (element_lt _ _ He) as Hs.
  assert (wfc : WF (clear h f)) by exact (emptied_wf _ _ _ wf (emptied_ok h f)).
  assert (Hnd : NoDup ns) by (apply NoDup_filter; exact (kids_nodup h wf f)).
  assert (Hinc : incl ns (kids h f)) by (intros x Hx; apply filter_In in Hx; tauto).
  destruct (fragment_kids h self f ns wf Hf Hne Hup Hs Hnd Hinc) as [Ia Hns].
  assert (Hmain : exists h', insert_inside h self at_end ns = Ok h' /\
    Inserted h h' self (if at_end then kids h self else []) ns (if at_end then [] else kids h self))
    by exact (insert_inside_ok h self at_end ns Ia).
  assert (Hwf : forall h' l1 l2, Inserted h h' self l1 ns l2 -> WF (clear h' f)).
  { intros h' l1 l2 ins. apply (inserted_wf (clear h f) (clear h' f) self l1 ns l2 wfc).
    - apply inserted_clear; [congruence | exact ins].
    - left. unfold clear. rewrite (same_element h) by apply same_nodes_set_ch. exact He.
    - unfold clear. rewrite upd_length. exact Hs.
    - exact Hns. }
  assert (Hred : forall h', match ns with
      | [] => Ok (h, [] : errors)
      | _ => do h2 <- insert_inside h self at_end ns; Ok (h2, [])
      end = Ok (h', []) -> insert_adjacent o h self (if at_end then BeforeEnd else AfterBegin) f = Ok (h', [])).
  { intros h' E. unfold insert_adjacent. rewrite (validate_true h self f wf He Hd Hne Hup). cbn [rbind negb].
    unfold nodes_to_insert. rewrite Hf. cbn [rbind fst snd]. cbv zeta.
    destruct at_end; rewrite remove_not_allowed_ok; cbn [rbind]; fold ns;
      (destruct ns as [|n0 ns0]; [exact E | exact E]). }
  clearbody ns. destruct ns as [|n0 ns0].
  - exists h. split; [apply Hred; reflexivity|].
    assert (ins : Inserted h h self (if at_end then kids h self else []) [] (if at_end then [] else kids h self)).
    { apply inserted_nothing; [exact wf|]. destruct at_end; [rewrite app_nil_r|]; reflexivity. }
    split; [exact (Hwf _ _ _ ins) | exact ins].
  - destruct Hmain as (h' & E & ins). exists h'. split; [|split; [exact (Hwf _ _ _ ins) | exact ins]].
    apply Hred. rewrite E. reflexivity.
Qed.

Lemma fragment_beside o h self p (after_ : bool) f l1 l2 : WF h -> is_element h self = true -> is_fragment h f = true ->
  ~ Up h self f -> Child h p self -> kids h p = l1 ++ self :: l2 ->
  exists h', insert_adjacent o h self (if after_ then AfterEnd else BeforeBegin) f = Ok (h', []) /\
    WF (clear h' f) /\
    Inserted h h' p (if after_ then l1 ++ [self] else l1) (kids h f) (if after_ then l2 else self :: l2).
Proof.
  intros wf He Hf Hup Hc Ek. destruct (fragment_root _ _ Hf) as [Hr Hd].
  assert (Hne : self <> f).
  { intros ->. rewrite (element_not_fragment _ _ He) in Hf. discriminate. }
  pose proof (child_parent h wf _ _ Hc) as Epar. destruct (wf_parent h wf _ _ Epar) as [Hp Hco].
  assert (Hpf : p <> f). { intros ->. apply Hup. constructor. exact Epar. }
  assert (Hupp : ~ Up h p f). { intros H. apply Hup. exact (up_first _ _ _ _ Epar (or_intror H)). }
  assert (wfc : WF (clear h f)) by exact (emptied_wf _ _ _ wf (emptied_ok h f)).
  destruct (fragment_kids h p f (kids h f) wf Hf Hpf Hupp Hp (kids_nodup h wf f) (incl_refl _)) as [Ia Hns].
  pose proof Hc as (i & Hl).
  destruct (insert_beside_ok h p i self after_ (kids h f) Ia Epar Hl) as (h' & E & ins).
  destruct (nodup_cut _ _ _ _ _ Ek (kids_nodup h wf p) Hl) as (C1 & C2 & C3 & C4).
  assert (ins' : Inserted h h' p (if after_ then l1 ++ [self] else l1) (kids h f) (if after_ then l2 else self :: l2)).
  { destruct after_; [rewrite C3, C4 in ins | rewrite C1, C2 in ins]; exact ins. }
  assert (Hwf : forall h' l1 l2, Inserted h h' p l1 (kids h f) l2 -> WF (clear h' f)).
  { intros h'' m1 m2 ins''. apply (inserted_wf (clear h f) (clear h'' f) p m1 (kids h f) m2 wfc).
    - apply inserted_clear; [congruence | exact ins''].
    - apply (same_container h); [apply same_nodes_set_ch | exact Hco].
    - unfold clear. rewrite upd_length. exact Hp.
    - exact Hns. }
  assert (Hred : forall h', match kids h f with
      | [] => Ok (h, [] : errors)
      | _ => do h2 <- insert_beside h self after_ (kids h f); Ok (h2, [])
      end = Ok (h', []) -> insert_adjacent o h self (if after_ then AfterEnd else BeforeBegin) f = Ok (h', [])).
  { intros h'' E2. unfold insert_adjacent. rewrite (validate_true h self f wf He Hd Hne Hup). cbn [rbind negb].
    unfold nodes_to_insert. rewrite Hf. cbn [rbind fst snd]. cbv zeta.
    destruct after_; cbn [rbind]; (destruct (kids h f) as [|n0 ns0]; [exact E2 | exact E2]). }
  destruct (kids h f) as [|n0 ns0] eqn:Ens.
  - exists h. split; [apply Hred; reflexivity|].
    assert (ins0 : Inserted h h p (if after_ then l1 ++ [self] else l1) [] (if after_ then l2 else self :: l2)).
    { apply inserted_nothing; [exact wf|]. destruct after_; [rewrite <- app_assoc|]; exact Ek. }
    split; [exact (Hwf _ _ _ ins0) | exact ins0].
  - exists h'. split; [|split; [exact (Hwf _ _ _ ins') | exact ins']].
    apply Hred. rewrite E. reflexivity.
Qed.

(** * Insertion beside a node without parent *)
Lemma beside_lost o h self (after_ : bool) x : WF h -> Accepts h self x -> parent h self = None ->
  exists h', insert_adjacent o h self (if after_ then AfterEnd else BeforeBegin) x = Ok (h', []) /\ WF h' /\
    TakenOut h h' x.
Proof.
  intros wf [He Hpl Hr Hne Hup] Hno.
  destruct (take_ok h x wf Hpl Hr) as (h1 & E1 & T & wf1). pose proof T as (Sm & Kk & Pp).
  set (k := if after_ then S (index h1 self) else index h1 self).
  exists (reset_index h1 k [x]).
  assert (T' : TakenOut h (reset_index h1 k [x]) x).
  { split; [exact (same_nodes_trans _ _ _ Sm (same_nodes_reset _ _ _))|]. split.
    - intros q. rewrite kids_reset. apply Kk.
    - intros y. rewrite parent_reset. apply Pp. }
  split; [|split; [|exact T']].
  - unfold insert_adjacent.
    rewrite (validate_true h self x wf He (not_root_not_document _ _ Hr) Hne Hup). cbn [rbind negb].
    rewrite E1. cbn [rbind fst snd]. cbv zeta.
    destruct after_; cbn [rbind]; unfold insert_beside; cbv zeta; rewrite parent_reset, Pp, Hno; reflexivity.
  - apply (takenout_wf h _ x wf T'). intros q j c Hl. rewrite index_reset_other.
    + apply (listed_index h1 wf1 q). unfold Listed in *. rewrite kids_reset in Hl. exact Hl.
    + intros [<- | []]. apply (takenout_unattached _ _ _ T'). exists q, j. exact Hl.
Qed.

(** * Text nodes *)
Lemma upd_comm h x y f g : (x = y -> forall n, f (g n) = g (f n)) -> upd (upd h x f) y g = upd (upd h y g) x f.
Proof.
  revert x y. induction h as [|n h IH]; intros [|x] [|y] H; cbn [upd]; try reflexivity.
  - rewrite H by reflexivity. reflexivity.
  - rewrite IH; [reflexivity|]. intros E. apply H. congruence.
Qed.
Lemma reset_set_ch l p c : forall h s, reset_index (upd h p (set_ch c)) s l = upd (reset_index h s l) p (set_ch c).
Proof.
  induction l as [|x l IH]; intros h s; cbn [reset_index]; [reflexivity|].
  rewrite upd_comm by reflexivity. apply IH.
Qed.
Lemma text_remove_eq h p x : WF h -> Child h p x -> text_remove h x = remove_child h p x.
Proof.
  intros wf (i & Hl). pose proof (listed_parent h wf _ _ _ Hl) as Ep. pose proof (listed_index h wf _ _ _ Hl) as Ei.
  unfold text_remove, remove_child. rewrite Ep, Nat.eqb_refl, (in_kids_childs h p x (listed_in _ _ _ _ Hl)), Ei. cbv zeta.
  pose proof (nth_split_nodup _ _ _ (kids_nodup h wf p) Hl) as (Es & H1 & H2 & _).
  assert (Hi : i < length (kids h p)).
  { apply nth_error_Some. unfold Listed in Hl. rewrite Hl. discriminate. }
  unfold remove_at, rsub.
  replace (i <? length (kids h p)) with true by (symmetry; apply Nat.ltb_lt; exact Hi).
  replace (1 <=? length (kids h p)) with true by (symmetry; apply Nat.leb_le; lia). cbn [rbind].
  assert (E : skipn i (firstn i (kids h p) ++ skipn (S i) (kids h p)) = skipn (S i) (kids h p)).
  { rewrite skipn_app, firstn_length, Nat.min_l by lia. rewrite Nat.sub_diag, skipn_all2; [reflexivity|].
    rewrite firstn_length. lia. }
  rewrite E. assert (Hinc : includes (skipn (S i) (kids h p)) x = false).
  { destruct (includes (skipn (S i) (kids h p)) x) eqn:Ee; [|reflexivity]. apply includes_spec in Ee. contradiction. }
  rewrite Hinc, reset_set_ch. destruct (Nat.eqb_spec i (length (kids h p) - 1)) as [El | El].
  - rewrite (skipn_all2 (kids h p)) by lia. reflexivity.
  - replace (S i <=? length (kids h p)) with true by (symmetry; apply Nat.leb_le; lia). reflexivity.
Qed.
Lemma text_remove_ok h x : WF h -> Placed h x -> exists h', text_remove h x = Ok h' /\ WF h' /\ TakenOut h h' x.
Proof.
  intros wf Hpl. destruct (remove_one_ok h x wf Hpl) as (h' & E & wf' & T). exists h'. split; [|split; [exact wf' | exact T]].
  unfold remove_one in E. destruct Hpl as [_ Hp]. destruct (parent h x) as [p|] eqn:Ep.
  - destruct Hp as [Hp | Hp]; [discriminate|]. rewrite (text_remove_eq h p x wf); [exact E|].
    exists (index h x). exact (attached_listed h wf x p Hp Ep).
  - unfold text_remove. rewrite Ep. exact E.
Qed.

(** * Sequences of calls *)
Lemma insert_adjacent_wf o h self pos x : WF h -> Placed h self -> Placed h x -> is_root h x = false ->
  exists h' e, insert_adjacent o h self pos x = Ok (h', e) /\ WF h'.
Proof.
  intros wf Hself Hpl Hr. destruct (validate_ok h self x wf) as ([|] & Ev & Hv).
  - destruct (proj1 Hv eq_refl) as (He & _ & Hne & Hup).
    assert (Acc : Accepts h self x) by (split; assumption).
    assert (Hin : forall b : bool, exists h' e, insert_adjacent o h self (if b then BeforeEnd else AfterBegin) x = Ok (h', e) /\ WF h').
    { intros b. destruct (od_allow_insert o (tag_names h self) (ntype_of h x)) eqn:Ea.
      - destruct (inside_ok o h self b x wf Acc Ea) as (h' & E & W & _). exists h', []. split; assumption.
      - destruct (inside_not_allowed o h self b x wf Acc Ea) as (h' & E & W & _). exists h', []. split; assumption. }
    assert (Hbe : forall b : bool, exists h' e, insert_adjacent o h self (if b then AfterEnd else BeforeBegin) x = Ok (h', e) /\ WF h').
    { intros b. destruct Hself as [_ [Hno | (p & Hc)]].
      - destruct (beside_lost o h self b x wf Acc Hno) as (h' & E & W & _). exists h', []. split; assumption.
      - assert (Hi : In self (without x (kids h p))) by (apply without_in; split; [apply child_in; exact Hc | exact Hne]).
        apply in_split in Hi. destruct Hi as (a & b' & Eab).
        destruct (beside_ok o h self p b x a b' wf Acc Hc Eab) as (h' & E & W & _). exists h', []. split; assumption. }
    destruct pos; [apply (Hbe false) | apply (Hbe true) | apply (Hin false) | apply (Hin true)].
  - exists h, (halt h self). split; [|exact wf]. unfold insert_adjacent. rewrite Ev. reflexivity.
Qed.
Lemma run_op_ok o h c : WF h -> Covered h c -> exists h', run_op o h c = Ok h' /\ WF h'.
Proof.
  intros wf Hc. destruct c as [self pos x | x | x y | x s | x | x s | x s]; cbn [run_op Covered] in *.
  - destruct Hc as (H1 & H2 & H3). destruct (insert_adjacent_wf o h self pos x wf H1 H2 H3) as (h' & e & E & W).
    exists h'. rewrite E. split; [reflexivity | exact W].
  - destruct (remove_one_ok h x wf Hc) as (h' & E & W & _). exists h'. split; assumption.
  - destruct Hc as ((_ & H1) & H2 & H3 & H4 & H5). destruct H1 as [Hno | (p & Hch)].
    + destruct (take_ok h y wf H2 H3) as (h1 & E1 & (Sm & Kk & Pp) & wf1). exists h1. split; [|exact wf1].
      unfold replace_with. rewrite E1. cbn [rbind fst snd]. rewrite Pp, Hno. reflexivity.
    + destruct (replace_ok h p x y wf Hch H2 H3 H4 H5) as (h' & l1 & l2 & E & W & _). exists h'.
      rewrite E. split; [reflexivity | exact W].
  - exists (fst (set_text o h x s)). split; [reflexivity | exact (set_text_wf o h x s wf)].
  - destruct (text_remove_ok h x wf Hc) as (h' & E & W & _). exists h'. split; assumption.
  - unfold append_text. destruct (n_content (node_of h x)) as [t|] eqn:E; [|congruence].
    eexists. split; [reflexivity|]. apply (only_content_wf h _ x (Some (t ++ s)) wf). apply set_con_only.
    destruct (lt_dec x (length h)) as [H | H]; [exact H|]. rewrite node_beyond in E by lia. discriminate.
  - unfold prepend_text. destruct (n_content (node_of h x)) as [t|] eqn:E; [|congruence].
    eexists. split; [reflexivity|]. apply (only_content_wf h _ x (Some (s ++ t)) wf). apply set_con_only.
    destruct (lt_dec x (length h)) as [H | H]; [exact H|]. rewrite node_beyond in E by lia. discriminate.
Qed.
Lemma run_ops_ok o l : forall h, WF h -> CoveredAll o h l -> exists h', run_ops o h l = Ok h' /\ WF h'.
Proof.
  induction l as [|c l IH]; intros h wf Hc; cbn [CoveredAll] in Hc.
  - exists h. split; [reflexivity | exact wf].
  - destruct Hc as [Hc Hl]. destruct (run_op_ok o h c wf Hc) as (h1 & E1 & wf1).
    destruct (IH h1 wf1 (Hl h1 E1)) as (h' & E & W). exists h'. split; [|exact W].
    unfold run_ops in *. cbn [rfold]. rewrite E1. exact E.
Qed.
