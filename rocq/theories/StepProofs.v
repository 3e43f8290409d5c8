(** The lists of candidates the engine forms for each combinator. *)
From Verif Require Import Base Attr Dom DomSpec Order DomProofs OrderSpec OrderProofs
  Sets SetsProofs NavProofs Engine Rules SelSpec OneProofs PreProofs SelBool SibLists SibProofs.

Definition opt_eqb (a b : option id) : bool :=
  match a, b with Some x, Some y => Nat.eqb x y | None, None => true | _, _ => false end.
Lemma opt_eqb_spec a b : opt_eqb a b = true <-> a = b.
Proof.
  destruct a, b; cbn; try (split; congruence). rewrite Nat.eqb_eq. split; congruence.
Qed.
(** The first element of every parent. *)
Fixpoint firsts (h : heap) (seen : list (option id)) (l : list id) : list id :=
  match l with
  | [] => []
  | x :: l' => if existsb (opt_eqb (parent h x)) seen then firsts h seen l' else x :: firsts h (parent h x :: seen) l'
  end.

Definition following_list (h : heap) (x : id) : list id :=
  match parent h x with Some p => filter (is_element h) (skipn (S (index h x)) (kids h p)) | None => [] end.
Definition preceding_list (h : heap) (x : id) : list id :=
  match parent h x with Some p => filter (is_element h) (firstn (index h x) (kids h p)) | None => [] end.
Definition next_list (h : heap) (x : id) : list id := opt_list (hd_error (following_list h x)).
Definition prev_list (h : heap) (x : id) : list id := opt_list (hd_error (rev (preceding_list h x))).
(** The element ancestors, outermost first. *)
Fixpoint anc_list (fuel : nat) (h : heap) (x : id) : list id :=
  match fuel with
  | 0 => []
  | S f => match parent h x with Some p => if is_root h p then [] else anc_list f h p ++ [p] | None => [] end
  end.

Lemma in_firsts h l : forall seen x, In x (firsts h seen l) <->
  exists l1 l2, l = l1 ++ x :: l2 /\ ~ In (parent h x) seen /\ forall y, In y l1 -> parent h y <> parent h x.
Proof.
  induction l as [|z l IH]; intros seen x; cbn [firsts].
  - split; [intros [] | intros ([|] & l2 & E & _); discriminate].
  - assert (Hseen : existsb (opt_eqb (parent h z)) seen = true <-> In (parent h z) seen).
    { rewrite existsb_exists. split; [intros (o & Ho & E); apply opt_eqb_spec in E; congruence | intros H; exists (parent h z); split; [exact H | apply opt_eqb_spec; reflexivity]]. }
    destruct (existsb (opt_eqb (parent h z)) seen) eqn:E.
    + rewrite IH. split.
      * intros (l1 & l2 & -> & Hs & Hd). exists (z :: l1), l2. split; [reflexivity|]. split; [exact Hs|].
        intros y [<- | Hy]; [|exact (Hd y Hy)]. intros Eq. apply Hs. rewrite <- Eq. apply Hseen. reflexivity.
      * intros ([|z' l1] & l2 & El & Hs & Hd); cbn in El; injection El as -> ->.
        -- exfalso. apply Hs, Hseen. reflexivity.
        -- exists l1, l2. split; [reflexivity|]. split; [exact Hs|]. intros y Hy. apply Hd. right. exact Hy.
    + cbn [In]. rewrite IH. split.
      * intros [<- | (l1 & l2 & -> & Hs & Hd)].
        -- exists [], l. split; [reflexivity|]. split; [intros H; apply Hseen in H; discriminate | intros y []].
        -- exists (z :: l1), l2. split; [reflexivity|]. split; [intros H; apply Hs; right; exact H|].
           intros y [<- | Hy]; [|exact (Hd y Hy)]. intros Eq. apply Hs. left. exact Eq.
      * intros ([|z' l1] & l2 & El & Hs & Hd); cbn in El; injection El as -> ->; [left; reflexivity|]. right.
        exists l1, l2. split; [reflexivity|]. split.
        -- intros [Eq | H]; [exact (Hd z' (or_introl eq_refl) Eq) | exact (Hs H)].
        -- intros y Hy. apply Hd. right. exact Hy.
Qed.
Lemma firsts_sub h l seen x : In x (firsts h seen l) -> In x l.
Proof. rewrite in_firsts. intros (l1 & l2 & -> & _). apply in_elt. Qed.
Lemma firsts_seen h l : forall seen x, In x (firsts h seen l) -> ~ In (parent h x) seen.
Proof. intros seen x Hx. apply in_firsts in Hx. destruct Hx as (_ & _ & _ & H & _). exact H. Qed.
Lemma firsts_cover h l : forall x, In x l -> exists y, In y (firsts h [] l) /\ parent h y = parent h x.
Proof.
  intros x Hx. rewrite <- (firstn_skipn 0 l) in Hx. cbn in Hx.
  assert (H : forall l seen, In x l -> In (parent h x) seen \/ exists y, In y (firsts h seen l) /\ parent h y = parent h x).
  { clear. induction l as [|z l IH]; intros seen Hx; [destruct Hx|]. cbn [firsts].
    destruct (existsb (opt_eqb (parent h z)) seen) eqn:E.
    - destruct Hx as [-> | Hx]; [|exact (IH seen Hx)]. left. apply existsb_exists in E. destruct E as (o & Ho & E).
      apply opt_eqb_spec in E. subst o. exact Ho.
    - destruct Hx as [-> | Hx]; [right; exists x; split; [left; reflexivity | reflexivity]|].
      destruct (IH (parent h z :: seen) Hx) as [[Eq | H] | (y & Hy & Ey)].
      + right. exists z. split; [left; reflexivity | exact Eq].
      + left. exact H.
      + right. exists y. split; [right; exact Hy | exact Ey]. }
  destruct (H l [] Hx) as [[] | H0]. exact H0.
Qed.
Lemma firsts_distinct h l : forall seen, ForallOrdPairs (fun x y => parent h x <> parent h y) (firsts h seen l).
Proof.
  induction l as [|z l IH]; intros seen; cbn [firsts]; [constructor|].
  destruct (existsb (opt_eqb (parent h z)) seen); [apply IH|]. constructor; [|apply IH].
  apply Forall_forall. intros y Hy E. apply firsts_seen in Hy. apply Hy. left. exact E.
Qed.
Lemma firsts_pairs {P : id -> id -> Prop} h l : forall seen, ForallOrdPairs P l -> ForallOrdPairs P (firsts h seen l).
Proof.
  intros seen H. revert seen. induction H as [|x l Hf _ IH]; intros seen; cbn [firsts]; [constructor|].
  destruct (existsb (opt_eqb (parent h x)) seen); [apply IH|]. constructor; [|apply IH].
  rewrite Forall_forall in *. intros y Hy. apply Hf. exact (firsts_sub h l _ y Hy).
Qed.
Lemma ordered_pairs h l : Ordered h l <-> ForallOrdPairs (Before h) l.
Proof.
  induction l as [|x l IH]; cbn; [split; [constructor | tauto]|]. rewrite IH. split.
  - intros [H1 H2]. constructor; assumption.
  - intros H. inversion H; subst. split; assumption.
Qed.
Lemma pairs_imp {A} (P Q : A -> A -> Prop) l : (forall x y, In x l -> In y l -> P x y -> Q x y) -> ForallOrdPairs P l -> ForallOrdPairs Q l.
Proof.
  intros H. induction 1 as [|x l Hf _ IH]; [constructor|]. constructor.
  - rewrite Forall_forall in *. intros y Hy. apply H; [left; reflexivity | right; exact Hy | exact (Hf y Hy)].
  - apply IH. intros u v Hu Hv. apply H; right; assumption.
Qed.
Lemma pairs_app {A} (P : A -> A -> Prop) l m : ForallOrdPairs P (l ++ m) <->
  ForallOrdPairs P l /\ ForallOrdPairs P m /\ forall x y, In x l -> In y m -> P x y.
Proof.
  induction l as [|x l IH]; cbn.
  - split; [intros H; repeat split; [constructor | exact H | intros x y []] | tauto].
  - split.
    + intros H. inversion H as [|x0 l0 H1 H2]; subst. apply IH in H2. destruct H2 as (H2 & H3 & H4). rewrite Forall_app in H1. destruct H1 as [Ha Hb].
      split; [constructor; assumption|]. split; [exact H3|]. intros u y [<- | Hu] Hy; [|exact (H4 u y Hu Hy)].
      rewrite Forall_forall in Hb. exact (Hb y Hy).
    + intros (H1 & H2 & H3). inversion H1 as [|x0 l0 Ha Hb]; subst. constructor.
      * apply Forall_app. split; [exact Ha|]. apply Forall_forall. intros y Hy. apply H3; [left; reflexivity | exact Hy].
      * apply IH. split; [exact Hb|]. split; [exact H2|]. intros u y Hu. apply H3. right. exact Hu.
Qed.
Lemma pairs_rev {A} (P : A -> A -> Prop) l : ForallOrdPairs P (rev l) <-> ForallOrdPairs (fun x y => P y x) l.
Proof.
  induction l as [|x l IH]; cbn; [split; constructor|]. rewrite pairs_app, IH. split.
  - intros (H1 & _ & H2). constructor; [|exact H1]. apply Forall_forall. intros y Hy. apply H2; [apply -> in_rev; exact Hy | left; reflexivity].
  - intros H. inversion H as [|x0 l0 Hf Hr]; subst. split; [exact Hr|]. split; [repeat constructor|].
    intros u v Hu [<- | []]. rewrite Forall_forall in Hf. apply Hf. apply in_rev. exact Hu.
Qed.
Lemma pairs_flat {A B} (P : B -> B -> Prop) (f : A -> list B) l :
  (forall a, In a l -> ForallOrdPairs P (f a)) ->
  ForallOrdPairs (fun a b => forall x y, In x (f a) -> In y (f b) -> P x y) l ->
  ForallOrdPairs P (flat_map f l).
Proof.
  intros H1 H2. induction H2 as [|a l Hf _ IH]; [constructor|]. cbn. apply pairs_app.
  split; [apply H1; left; reflexivity|]. split; [apply IH; intros b Hb; apply H1; right; exact Hb|].
  intros x y Hx Hy. apply in_flat_map in Hy. destruct Hy as (b & Hb & Hy). rewrite Forall_forall in Hf. exact (Hf b Hb x y Hx Hy).
Qed.
Lemma pairs_and {A} (P Q : A -> A -> Prop) l : ForallOrdPairs P l -> ForallOrdPairs Q l -> ForallOrdPairs (fun x y => P x y /\ Q x y) l.
Proof.
  induction 1 as [|x l Hf _ IH]; intros HQ; [constructor|]. inversion HQ as [|x0 l0 Hq Hr]; subst. constructor; [|exact (IH Hr)].
  rewrite Forall_forall in *. intros y Hy. split; [exact (Hf y Hy) | exact (Hq y Hy)].
Qed.
Lemma pairs_filter {A} (P : A -> A -> Prop) f l : ForallOrdPairs P l -> ForallOrdPairs P (filter f l).
Proof.
  induction 1 as [|x l Hf _ IH]; [constructor|]. cbn. destruct (f x); [|exact IH]. constructor; [|exact IH].
  rewrite Forall_forall in *. intros y Hy. apply filter_In in Hy. apply Hf, Hy.
Qed.
Lemma pairs_map {A B} (P : B -> B -> Prop) (f : A -> B) l : ForallOrdPairs P (map f l) <-> ForallOrdPairs (fun x y => P (f x) (f y)) l.
Proof.
  induction l as [|x l IH]; cbn; [split; constructor|]. split; intros H; inversion H as [|x0 l0 Hf Hr]; subst; constructor; try (apply IH; exact Hr).
  - rewrite Forall_forall in *. intros y Hy. apply Hf, in_map, Hy.
  - rewrite Forall_forall in *. intros y Hy. apply in_map_iff in Hy. destruct Hy as (z & <- & Hz). exact (Hf z Hz).
Qed.
Lemma pairs_ne {A} (l : list A) : NoDup l <-> ForallOrdPairs (fun x y => x <> y) l.
Proof.
  induction l as [|x l IH]; [split; constructor|]. rewrite NoDup_cons_iff, IH. split.
  - intros [H1 H2]. constructor; [|exact H2]. apply Forall_forall. intros y Hy ->. contradiction.
  - intros H. inversion H as [|x0 l0 Hf Hr]; subst. split; [|exact Hr]. intros Hx. rewrite Forall_forall in Hf. exact (Hf x Hx eq_refl).
Qed.

Section Steps.
  Variable h : heap.
  Variable r : id.
  Hypothesis D : DocOk h r.
  Let wf : WF h := do_wf h r D.

  (** An element, or the root. *)
  Definition Start (x : id) : Prop := InTree h r x /\ (is_element h x = true \/ x = r).
  Lemma el_start x : ElIn h r x -> Start x.
  Proof. intros [H1 H2]. split; [exact H1 | left; exact H2]. Qed.
  Lemma root_no_parent : parent h r = None.
  Proof. exact (wf_root h wf r (do_root h r D)). Qed.
  Lemma start_parent x p : InTree h r x -> parent h x = Some p -> InTree h r p /\ Listed h p (index h x) x.
  Proof. exact (intree_parent h wf r x p). Qed.
  Lemma parent_none x : InTree h r x -> parent h x = None -> x = r.
  Proof.
    intros Hx E. destruct (Nat.eq_dec x r) as [Hr | Hr]; [exact Hr|].
    destruct (intree_attached h r x Hx Hr) as (p & Hc). rewrite (child_parent h wf _ _ Hc) in E. discriminate.
  Qed.
  Lemma listed_of x : InTree h r x -> x <> r -> exists p, parent h x = Some p /\ InTree h r p /\ Listed h p (index h x) x.
  Proof.
    intros Hx Hr. destruct (parent h x) as [p|] eqn:E; [|destruct (Hr (parent_none x Hx E))].
    exists p. split; [reflexivity | exact (start_parent x p Hx E)].
  Qed.
  Lemma container_parent x p : InTree h r x -> parent h x = Some p -> Start p.
  Proof.
    intros Hx E. destruct (start_parent x p Hx E) as [Hp _]. split; [exact Hp|].
    destruct (wf_parent h wf x p E) as [_ [He | Hr]]; [left; exact He|]. right.
    apply parent_none; [exact Hp | exact (wf_root h wf p Hr)].
  Qed.
  Lemma root_not_listed p i : ~ Listed h p i r.
  Proof. intros Hl. pose proof (listed_parent h wf _ _ _ Hl) as E. rewrite root_no_parent in E. discriminate. Qed.
  Lemma root_is x : InTree h r x -> (is_root h x = true <-> x = r).
  Proof.
    intros Hx. split; [|intros ->; exact (do_root h r D)]. intros E. apply parent_none; [exact Hx | exact (wf_root h wf x E)].
  Qed.

  (** * Siblings *)
  Lemma in_following x y : InTree h r x -> (In y (following_list h x) <-> Following h x y).
  Proof.
    intros Hx. unfold following_list. destruct (parent h x) as [p|] eqn:E.
    - destruct (start_parent x p Hx E) as [Hp Hl]. destruct (listed_split h p _ x Hl) as (pre & post & Ek & El).
      rewrite Ek, <- El, split_skipn. symmetry. exact (following_at h wf p x pre post Ek y).
    - split; [intros []|]. intros (p & i & j & Hl & _). rewrite (listed_parent h wf _ _ _ Hl) in E. discriminate.
  Qed.
  Lemma in_preceding x y : InTree h r x -> (In y (preceding_list h x) <-> Preceding h x y).
  Proof.
    intros Hx. unfold preceding_list. destruct (parent h x) as [p|] eqn:E.
    - destruct (start_parent x p Hx E) as [Hp Hl]. destruct (listed_split h p _ x Hl) as (pre & post & Ek & El).
      rewrite Ek, <- El, split_firstn. symmetry. exact (preceding_at h wf p x pre post Ek y).
    - split; [intros []|]. intros (p & i & j & _ & Hl & _). rewrite (listed_parent h wf _ _ _ Hl) in E. discriminate.
  Qed.
  Lemma nexts_eq x : InTree h r x -> next_element_siblings h x = Ok (following_list h x).
  Proof.
    intros Hx. unfold next_element_siblings, following_list. destruct (parent h x) as [p|] eqn:E; [|reflexivity].
    destruct (start_parent x p Hx E) as [Hp Hl]. assert (Hlt : index h x < length (kids h p)) by (apply nth_error_Some; unfold Listed in Hl; rewrite Hl; discriminate).
    unfold rsub. destruct (Nat.leb_spec (S (index h x)) (length (kids h p))); [reflexivity | lia].
  Qed.
  Lemma next_eq x : opt_list (next_element_sibling h x) = next_list h x.
  Proof. unfold next_element_sibling, next_list, following_list. destruct (parent h x); reflexivity. Qed.
  Lemma index_le x p : InTree h r x -> parent h x = Some p -> index h x <=? length (kids h p) = true.
  Proof.
    intros Hx E. destruct (start_parent x p Hx E) as [Hp Hl]. apply Nat.leb_le.
    assert (Hlt : index h x < length (kids h p)) by (apply nth_error_Some; unfold Listed in Hl; rewrite Hl; discriminate). lia.
  Qed.
  Lemma prevs_eq x : InTree h r x -> previous_element_siblings h x = Ok (preceding_list h x).
  Proof.
    intros Hx. unfold previous_element_siblings, preceding_list. destruct (parent h x) as [p|] eqn:E; [|reflexivity].
    rewrite (index_le x p Hx E). reflexivity.
  Qed.
  Lemma prev_eq x : InTree h r x -> (do p <- previous_element_sibling h x; Ok (opt_list p)) = Ok (prev_list h x).
  Proof.
    intros Hx. unfold previous_element_sibling, prev_list, preceding_list. destruct (parent h x) as [p|] eqn:E; [|reflexivity].
    rewrite (index_le x p Hx E). cbn [rbind]. rewrite <- filter_rev. reflexivity.
  Qed.
  Lemma in_next x y : InTree h r x -> (In y (next_list h x) <-> NextEl h x y).
  Proof.
    intros Hx. unfold next_list, following_list. destruct (parent h x) as [p|] eqn:E.
    - destruct (start_parent x p Hx E) as [Hp Hl]. destruct (listed_split h p _ x Hl) as (pre & post & Ek & El).
      rewrite Ek, <- El, split_skipn, (next_at h wf p x pre post Ek y).
      destruct (hd_error (filter (is_element h) post)); cbn; [|split; [intros [] | discriminate]].
      split; [intros [-> | []]; reflexivity | intros Ey; injection Ey as ->; left; reflexivity].
    - split; [intros []|]. intros (p & i & j & Hl & _). rewrite (listed_parent h wf _ _ _ Hl) in E. discriminate.
  Qed.
  Lemma in_prev x y : InTree h r x -> (In y (prev_list h x) <-> PrevEl h x y).
  Proof.
    intros Hx. unfold prev_list, preceding_list. destruct (parent h x) as [p|] eqn:E.
    - destruct (start_parent x p Hx E) as [Hp Hl]. destruct (listed_split h p _ x Hl) as (pre & post & Ek & El).
      rewrite Ek, <- El, split_firstn, <- filter_rev, (prev_at h wf p x pre post Ek y).
      destruct (hd_error (filter (is_element h) (rev pre))); cbn; [|split; [intros [] | discriminate]].
      split; [intros [-> | []]; reflexivity | intros Ey; injection Ey as ->; left; reflexivity].
    - split; [intros []|]. intros (p & i & j & _ & Hl & _). rewrite (listed_parent h wf _ _ _ Hl) in E. discriminate.
  Qed.
  (** Sibling facts in terms of parent and index. *)
  Lemma following_facts x y : InTree h r x -> Following h x y ->
    ElIn h r y /\ parent h y = parent h x /\ index h x < index h y.
  Proof.
    intros Hx (p & i & j & H1 & H2 & Hlt & He). rewrite (listed_parent h wf _ _ _ H1), (listed_parent h wf _ _ _ H2),
      (listed_index h wf _ _ _ H1), (listed_index h wf _ _ _ H2). split; [|split; [reflexivity | exact Hlt]].
    split; [|exact He]. apply (intree_down h r p y).
    - apply (intree_anc h wf r x p Hx). right. apply Anc_child. exists i. exact H1.
    - right. apply Anc_child. exists j. exact H2.
  Qed.
  Lemma preceding_facts x y : InTree h r x -> Preceding h x y ->
    ElIn h r y /\ parent h y = parent h x /\ index h y < index h x.
  Proof.
    intros Hx (p & i & j & H1 & H2 & Hlt & He). rewrite (listed_parent h wf _ _ _ H1), (listed_parent h wf _ _ _ H2),
      (listed_index h wf _ _ _ H1), (listed_index h wf _ _ _ H2). split; [|split; [reflexivity | exact Hlt]].
    split; [|exact He]. apply (intree_down h r p y).
    - apply (intree_anc h wf r x p Hx). right. apply Anc_child. exists j. exact H2.
    - right. apply Anc_child. exists i. exact H1.
  Qed.
  Lemma following_intro x y : InTree h r x -> ElIn h r y -> parent h x <> None -> parent h y = parent h x -> index h x < index h y -> Following h x y.
  Proof.
    intros Hx Hy Hn E Hlt. destruct (parent h x) as [p|] eqn:Ex; [|congruence].
    destruct (start_parent x p Hx Ex) as [_ H1]. destruct (start_parent y p (proj1 Hy) E) as [_ H2].
    exists p, (index h x), (index h y). split; [exact H1|]. split; [exact H2|]. split; [exact Hlt | exact (proj2 Hy)].
  Qed.
  Lemma preceding_intro x y : InTree h r x -> ElIn h r y -> parent h x <> None -> parent h y = parent h x -> index h y < index h x -> Preceding h x y.
  Proof.
    intros Hx Hy Hn E Hlt. destruct (parent h x) as [p|] eqn:Ex; [|congruence].
    destruct (start_parent x p Hx Ex) as [_ H1]. destruct (start_parent y p (proj1 Hy) E) as [_ H2].
    exists p, (index h y), (index h x). split; [exact H2|]. split; [exact H1|]. split; [exact Hlt | exact (proj2 Hy)].
  Qed.
  Lemma next_following x y : NextEl h x y -> Following h x y.
  Proof. intros (p & i & j & H1 & H2 & H3 & H4 & _). exists p, i, j. repeat split; assumption. Qed.
  Lemma prev_preceding x y : PrevEl h x y -> Preceding h x y.
  Proof. intros (p & i & j & H1 & H2 & H3 & H4 & _). exists p, i, j. repeat split; assumption. Qed.
  Lemma next_min x y z : InTree h r x -> NextEl h x y -> Following h x z -> index h y <= index h z.
  Proof.
    intros Hx (p & i & j & H1 & H2 & H3 & H4 & H5) (p' & i' & k & H1' & H2' & H3' & H4').
    destruct (listed_inj h wf _ _ _ _ _ H1 H1') as [<- <-]. rewrite (listed_index h wf _ _ _ H2), (listed_index h wf _ _ _ H2').
    apply Nat.nlt_ge. intros Hlt. rewrite (H5 k z (conj H3' Hlt) H2') in H4'. discriminate.
  Qed.
  Lemma prev_max x y z : InTree h r x -> PrevEl h x y -> Preceding h x z -> index h z <= index h y.
  Proof.
    intros Hx (p & i & j & H1 & H2 & H3 & H4 & H5) (p' & k & j' & H1' & H2' & H3' & H4').
    destruct (listed_inj h wf _ _ _ _ _ H2 H2') as [<- <-]. rewrite (listed_index h wf _ _ _ H1), (listed_index h wf _ _ _ H1').
    apply Nat.nlt_ge. intros Hlt. rewrite (H5 k z (conj Hlt H3') H1') in H4'. discriminate.
  Qed.
  Lemma sib_before x y : InTree h r x -> InTree h r y -> parent h x <> None -> parent h y = parent h x -> index h x < index h y -> Before h x y.
  Proof.
    intros Hx Hy Hn E Hlt. destruct (parent h x) as [p|] eqn:Ex; [|congruence].
    destruct (start_parent x p Hx Ex) as [_ H1]. destruct (start_parent y p Hy E) as [_ H2]. exact (listed_before h p _ _ x y H1 H2 Hlt).
  Qed.
  Lemma sib_eq x y : InTree h r x -> InTree h r y -> parent h x = parent h y -> index h x = index h y -> x = y.
  Proof.
    intros Hx Hy E Ei. destruct (parent h x) as [p|] eqn:Ex.
    - destruct (start_parent x p Hx Ex) as [_ H1]. destruct (start_parent y p Hy (eq_sym E)) as [_ H2]. rewrite Ei in H1. exact (listed_fun h _ _ _ _ H1 H2).
    - rewrite (parent_none x Hx Ex), (parent_none y Hy (eq_sym E)). reflexivity.
  Qed.

  (** * unique_sibling_first, unique_sibling_last *)
  Definition seen_paths (seen : list (option id)) : list (list nat) :=
    flat_map (fun o => match o with Some p => [key h p] | None => [] end) seen.
  Lemma idx_eqb_spec a b : idx_eqb a b = true <-> a = b.
  Proof. unfold idx_eqb. destruct (compare_indexs a b) eqn:E; [apply compare_eq in E; tauto | |]; (split; [discriminate | intros ->; rewrite compare_refl in E; discriminate]). Qed.
  Lemma us_fold l : Forall (InTree h r) l -> forall seen prev root keep,
    Forall (fun o => forall p, o = Some p -> InTree h r p) seen ->
    (forall p, prev = Some p -> In (Some p) seen) -> (root = true <-> In None seen) ->
    exists s, rfold (us_step h) l (mkUS (seen_paths seen) prev root keep) = Ok s /\ us_keep s = keep ++ firsts h seen l.
  Proof.
    induction l as [|x l IH]; intros Hl seen prev root keep Hs Hp Hr.
    { eexists. split; [reflexivity|]. cbn. rewrite app_nil_r. reflexivity. }
    inversion Hl as [|x0 l0 Hx Hl']; subst. cbn [rfold firsts]. unfold us_step at 1. destruct (parent h x) as [p|] eqn:E.
    - destruct (start_parent x p Hx E) as [Hpin _].
      assert (Hex : existsb (opt_eqb (Some p)) seen = existsb (idx_eqb (key h p)) (seen_paths seen)).
      { apply eq_true_iff_eq. rewrite !existsb_exists. split.
        - intros (o & Ho & Eo). apply opt_eqb_spec in Eo. subst o. exists (key h p). split; [|apply idx_eqb_spec; reflexivity].
          apply in_flat_map. exists (Some p). split; [exact Ho | left; reflexivity].
        - intros (k & Hk & Ek). apply idx_eqb_spec in Ek. subst k. apply in_flat_map in Hk. destruct Hk as ([q|] & Hq & Hk); [|destruct Hk].
          destruct Hk as [Hk | []]. rewrite Forall_forall in Hs. exists (Some q). split; [exact Hq|]. apply opt_eqb_spec. f_equal. symmetry.
          exact (key_inj h wf r q p (Hs _ Hq q eq_refl) Hpin Hk). }
      cbn [us_prev us_paths us_root us_keep].
      destruct (match prev with Some q => p =? q | None => false end) eqn:Eprev.
      + destruct prev as [q|]; [|discriminate]. apply Nat.eqb_eq in Eprev. subst q.
        assert (Hin : existsb (opt_eqb (Some p)) seen = true).
        { apply existsb_exists. exists (Some p). split; [exact (Hp p eq_refl) | apply opt_eqb_spec; reflexivity]. }
        rewrite Hin. cbn [rbind]. apply IH; assumption.
      + rewrite (tree_indexs_key h wf). cbn [rbind]. rewrite <- Hex. destruct (existsb (opt_eqb (Some p)) seen) eqn:Ein.
        * cbn [rbind]. apply IH; [exact Hl' | exact Hs | | exact Hr]. intros q Eq. injection Eq as <-.
          apply existsb_exists in Ein. destruct Ein as (o & Ho & Eo). apply opt_eqb_spec in Eo. subst o. exact Ho.
        * cbn [rbind]. destruct (IH Hl' (Some p :: seen) (Some p) root (keep ++ [x])) as (s & H1 & H2).
          -- constructor; [|exact Hs]. intros q Eq. injection Eq as <-. exact Hpin.
          -- intros q Eq. injection Eq as <-. left. reflexivity.
          -- rewrite Hr. cbn. split; [tauto | intros [H | H]; [discriminate | exact H]].
          -- exists s. split; [exact H1|]. rewrite H2, <- app_assoc. reflexivity.
    - cbn [us_prev us_paths us_root us_keep].
      assert (Hex : existsb (opt_eqb None) seen = root).
      { apply eq_true_iff_eq. rewrite Hr, existsb_exists. split.
        - intros (o & Ho & Eo). apply opt_eqb_spec in Eo. subst o. exact Ho.
        - intros H. exists None. split; [exact H | reflexivity]. }
      rewrite Hex. destruct root.
      + cbn [rbind]. apply IH; assumption.
      + cbn [rbind]. destruct (IH Hl' (None :: seen) prev true (keep ++ [x])) as (s & H1 & H2).
        * constructor; [discriminate | exact Hs].
        * intros q Eq. right. exact (Hp q Eq).
        * split; [left; reflexivity | reflexivity].
        * exists s. split; [exact H1|]. rewrite H2, <- app_assoc. reflexivity.
  Qed.
  Lemma us_first l : Forall (InTree h r) l -> unique_sibling_first h l = Ok (firsts h [] l).
  Proof.
    intros Hl. unfold unique_sibling_first, us_init. destruct (us_fold l Hl [] None false []) as (s & H1 & H2).
    - constructor.
    - discriminate.
    - split; [discriminate | intros []].
    - cbn [seen_paths flat_map] in H1. rewrite H1. cbn. rewrite H2. reflexivity.
  Qed.
  Lemma us_last l : Forall (InTree h r) l -> unique_sibling_last h l = Ok (rev (firsts h [] (rev l))).
  Proof.
    intros Hl. unfold unique_sibling_last, us_init. assert (Hl' : Forall (InTree h r) (rev l)) by (apply Forall_rev; exact Hl).
    destruct (us_fold (rev l) Hl' [] None false []) as (s & H1 & H2).
    - constructor.
    - discriminate.
    - split; [discriminate | intros []].
    - cbn [seen_paths flat_map] in H1. rewrite H1. cbn. rewrite H2. reflexivity.
  Qed.

  (** * Ancestors *)
  Lemma ancestors_eq fuel x : forall x0, x0 = x -> InTree h r x -> length (key h x) <= fuel -> ancestors h fuel x = Ok (anc_list fuel h x).
  Proof.
    intros _ _. revert x. induction fuel as [|f IH]; intros x Hx Hf.
    - pose proof (key_nonempty h wf x). destruct (key h x); [congruence | cbn in Hf; lia].
    - cbn [ancestors anc_list]. destruct (parent h x) as [p|] eqn:E; [|reflexivity]. destruct (is_root h p); [reflexivity|].
      destruct (start_parent x p Hx E) as [Hp _]. rewrite (IH p Hp); [reflexivity|].
      rewrite (key_down h wf x p E), app_length in Hf. cbn in Hf. lia.
  Qed.
  Lemma in_anc_list fuel : forall x, InTree h r x -> length (key h x) <= fuel -> forall y, In y (anc_list fuel h x) <-> Anc h y x /\ is_element h y = true.
  Proof.
    induction fuel as [|f IH]; intros x Hx Hf y.
    - pose proof (key_nonempty h wf x). destruct (key h x); [congruence | cbn in Hf; lia].
    - cbn [anc_list]. destruct (parent h x) as [p|] eqn:E.
      + destruct (start_parent x p Hx E) as [Hp Hl]. destruct (is_root h p) eqn:Er.
        * apply (root_is p Hp) in Er. subst p. split; [intros []|]. intros [Ha He]. exfalso. apply anc_inv in Ha.
          destruct Ha as (q & Hyq & Hq). rewrite (child_parent h wf _ _ Hq) in E. injection E as ->.
          destruct Hyq as [-> | Ha].
          -- pose proof (do_root h r D). unfold is_element, is_root in *. destruct (ntype_of h r); discriminate.
          -- apply anc_inv in Ha. destruct Ha as (q & _ & (i & Hi)). exact (root_not_listed q i Hi).
        * assert (Hf' : length (key h p) <= f) by (rewrite (key_down h wf x p E), app_length in Hf; cbn in Hf; lia).
          rewrite in_app_iff, (IH p Hp Hf' y). split.
          -- intros [[Ha He] | [<- | []]].
             ++ split; [exact (Anc_step h y p x Ha (ex_intro _ (index h x) Hl : Child h p x)) | exact He].
             ++ split; [exact (Anc_child h p x (ex_intro _ (index h x) Hl : Child h p x))|]. destruct (container_parent x p Hx E) as [_ [He | Hr]]; [exact He|].
                apply (root_is p Hp) in Hr. congruence.
          -- intros [Ha He]. apply anc_inv in Ha. destruct Ha as (q & Hyq & Hq). rewrite (child_parent h wf _ _ Hq) in E. injection E as ->.
             destruct Hyq as [-> | Ha]; [right; left; reflexivity | left; split; assumption].
      + split; [intros []|]. intros [Ha _]. apply anc_inv in Ha. destruct Ha as (q & _ & Hq). rewrite (child_parent h wf _ _ Hq) in E. discriminate.
  Qed.
  Lemma anc_full x : InTree h r x -> ancestors h (dfs_fuel h) x = Ok (anc_list (dfs_fuel h) h x) /\
    forall y, In y (anc_list (dfs_fuel h) h x) <-> Anc h y x /\ is_element h y = true.
  Proof.
    intros Hx. pose proof (key_length h wf x) as Hk. split; [exact (ancestors_eq _ x x eq_refl Hx Hk) | exact (in_anc_list _ x Hx Hk)].
  Qed.
  Lemma parent_el_spec x y : InTree h r x -> (In y (parent_el h x) <-> Child h y x /\ is_element h y = true).
  Proof.
    intros Hx. unfold parent_el. destruct (parent h x) as [p|] eqn:E.
    - destruct (start_parent x p Hx E) as [Hp Hl]. destruct (is_root h p) eqn:Er.
      + split; [intros []|]. intros [Hc He]. rewrite (child_parent h wf _ _ Hc) in E. injection E as ->. unfold is_element, is_root in *. destruct (ntype_of h p); discriminate.
      + split.
        * intros [<- | []]. split; [exists (index h x); exact Hl|]. destruct (container_parent x p Hx E) as [_ [He | Hr]]; [exact He|].
          apply (root_is p Hp) in Hr. congruence.
        * intros [Hc He]. rewrite (child_parent h wf _ _ Hc) in E. injection E as ->. left. reflexivity.
    - split; [intros []|]. intros [Hc _]. rewrite (child_parent h wf _ _ Hc) in E. discriminate.
  Qed.
End Steps.
