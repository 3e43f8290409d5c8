(** What the navigation functions of one element return. *)
From Verif Require Import Base Dom DomSpec Order DomProofs OrderSpec OrderProofs SetsProofs.

Lemma hd_filter_some {A} (f : A -> bool) l y : hd_error (filter f l) = Some y ->
  exists l1 l2, l = l1 ++ y :: l2 /\ f y = true /\ forall z, In z l1 -> f z = false.
Proof.
  induction l as [|x l IH]; cbn; [discriminate|]. destruct (f x) eqn:E; cbn.
  - intros H. injection H as <-. exists [], l. split; [reflexivity|]. split; [exact E | intros z []].
  - intros H. destruct (IH H) as (l1 & l2 & -> & H1 & H2). exists (x :: l1), l2. split; [reflexivity|].
    split; [exact H1|]. intros z [<- | Hz]; [exact E | exact (H2 z Hz)].
Qed.
Lemma hd_filter_app {A} (f : A -> bool) l1 y l2 : f y = true -> (forall z, In z l1 -> f z = false) ->
  hd_error (filter f (l1 ++ y :: l2)) = Some y.
Proof. intros Hy H. rewrite filter_app, (filter_nil f l1 H). cbn. rewrite Hy. reflexivity. Qed.

Section Nav.
  Variable h : heap.
  Hypothesis wf : WF h.

  Lemma in_children p c : In c (children h p) <-> ChildEl h p c.
  Proof. unfold children, ChildEl. rewrite filter_In, child_in. reflexivity. Qed.
  Lemma children_parent p c : In c (children h p) -> parent h c = Some p.
  Proof. intros H. apply in_children in H. exact (child_parent h wf _ _ (proj1 H)). Qed.
  Lemma children_nodup p : NoDup (children h p).
  Proof. apply NoDup_filter, kids_nodup, wf. Qed.

  (** The siblings around a listed node. *)
  Lemma listed_split p i x : Listed h p i x -> exists pre post, kids h p = pre ++ x :: post /\ length pre = i.
  Proof. intros H. exact (nth_error_split _ _ H). Qed.
  Lemma split_firstn (pre post : list id) x : firstn (length pre) (pre ++ x :: post) = pre.
  Proof. rewrite firstn_app, Nat.sub_diag, firstn_all. cbn. apply app_nil_r. Qed.
  Lemma split_skipn (pre post : list id) x : skipn (S (length pre)) (pre ++ x :: post) = post.
  Proof. induction pre as [|y pre IH]; [reflexivity | exact IH]. Qed.
  Lemma split_pre p pre x post j y : kids h p = pre ++ x :: post ->
    (Listed h p j y /\ j < length pre <-> nth_error pre j = Some y).
  Proof.
    intros E. unfold Listed. rewrite E. split.
    - intros [H Hj]. rewrite nth_error_app1 in H by exact Hj. exact H.
    - intros H. assert (Hj : j < length pre) by (apply nth_error_Some; rewrite H; discriminate).
      split; [rewrite nth_error_app1 by exact Hj; exact H | exact Hj].
  Qed.
  Lemma split_post p pre x post j y : kids h p = pre ++ x :: post ->
    (Listed h p j y /\ length pre < j <-> length pre < j /\ nth_error post (j - S (length pre)) = Some y).
  Proof.
    intros E. unfold Listed. rewrite E. split.
    - intros [H Hj]. split; [exact Hj|]. rewrite nth_error_app2 in H by lia.
      replace (j - length pre) with (S (j - S (length pre))) in H by lia. exact H.
    - intros [Hj H]. split; [|exact Hj]. rewrite nth_error_app2 by lia.
      replace (j - length pre) with (S (j - S (length pre))) by lia. exact H.
  Qed.

  Section At.
    Variables (p x : id) (pre post : list id).
    Hypothesis E : kids h p = pre ++ x :: post.
    Lemma at_listed : Listed h p (length pre) x.
    Proof. unfold Listed. rewrite E, nth_error_app2, Nat.sub_diag by lia. reflexivity. Qed.
    Lemma at_parent : parent h x = Some p.
    Proof. exact (listed_parent h wf _ _ _ at_listed). Qed.
    Lemma at_index : index h x = length pre.
    Proof. exact (listed_index h wf _ _ _ at_listed). Qed.
    Lemma at_len : length (kids h p) = length pre + S (length post).
    Proof. rewrite E, app_length. reflexivity. Qed.

    Lemma following_at y : Following h x y <-> In y (filter (is_element h) post).
    Proof.
      rewrite filter_In. split.
      - intros (q & i & j & H1 & H2 & Hlt & He). split; [|exact He].
        destruct (listed_inj h wf _ _ _ _ _ H1 at_listed) as [-> ->].
        destruct (proj1 (split_post p pre x post j y E) (conj H2 Hlt)) as [_ H4]. exact (nth_error_In _ _ H4).
      - intros [Hi He]. apply In_nth_error in Hi. destruct Hi as (k & Hk).
        exists p, (length pre), (S (length pre) + k). split; [exact at_listed|].
        destruct (proj2 (split_post p pre x post (S (length pre) + k) y E)) as [H1 H2].
        { split; [lia|]. replace (S (length pre) + k - S (length pre)) with k by lia. exact Hk. }
        split; [exact H1|]. split; [exact H2 | exact He].
    Qed.
    Lemma preceding_at y : Preceding h x y <-> In y (filter (is_element h) pre).
    Proof.
      rewrite filter_In. split.
      - intros (q & i & j & H1 & H2 & Hlt & He). split; [|exact He].
        destruct (listed_inj h wf _ _ _ _ _ H2 at_listed) as [-> ->].
        exact (nth_error_In _ _ (proj1 (split_pre p pre x post i y E) (conj H1 Hlt))).
      - intros [Hi He]. apply In_nth_error in Hi. destruct Hi as (k & Hk).
        destruct (proj2 (split_pre p pre x post k y E) Hk) as [H1 H2].
        exists p, k, (length pre). split; [exact H1|]. split; [exact at_listed|]. split; [exact H2 | exact He].
    Qed.
    Lemma next_at y : NextEl h x y <-> hd_error (filter (is_element h) post) = Some y.
    Proof.
      split.
      - intros (q & i & j & H1 & H2 & Hlt & He & Hb).
        destruct (listed_inj h wf _ _ _ _ _ H1 at_listed) as [-> ->].
        destruct (proj1 (split_post p pre x post j y E) (conj H2 Hlt)) as [_ H4].
        destruct (nth_error_split _ _ H4) as (l1 & l2 & El & Hlen). rewrite El. apply hd_filter_app; [exact He|].
        intros z Hz. apply In_nth_error in Hz. destruct Hz as (k & Hk).
        assert (Hk' : k < length l1) by (apply nth_error_Some; rewrite Hk; discriminate).
        apply (Hb (S (length pre) + k) z); [lia|].
        apply (proj2 (split_post p pre x post (S (length pre) + k) z E)). split; [lia|].
        replace (S (length pre) + k - S (length pre)) with k by lia. rewrite El, nth_error_app1 by exact Hk'. exact Hk.
      - intros H. apply hd_filter_some in H. destruct H as (l1 & l2 & El & He & Hb).
        exists p, (length pre), (S (length pre) + length l1). split; [exact at_listed|].
        assert (Hy : nth_error post (length l1) = Some y).
        { rewrite El, nth_error_app2, Nat.sub_diag by lia. reflexivity. }
        split; [|split; [lia | split; [exact He|]]].
        + apply (proj2 (split_post p pre x post (S (length pre) + length l1) y E)). split; [lia|].
          replace (S (length pre) + length l1 - S (length pre)) with (length l1) by lia. exact Hy.
        + intros k z Hk Hz.
          destruct (proj1 (split_post p pre x post k z E)) as [_ H4]. { split; [exact Hz | lia]. }
          apply Hb. rewrite El, nth_error_app1 in H4 by lia. exact (nth_error_In _ _ H4).
    Qed.
    Lemma prev_at y : PrevEl h x y <-> hd_error (filter (is_element h) (rev pre)) = Some y.
    Proof.
      split.
      - intros (q & i & j & H1 & H2 & Hlt & He & Hb).
        destruct (listed_inj h wf _ _ _ _ _ H2 at_listed) as [-> ->].
        pose proof (proj1 (split_pre p pre x post i y E) (conj H1 Hlt)) as H4.
        destruct (nth_error_split _ _ H4) as (l1 & l2 & El & Hlen). rewrite El, rev_app_distr. cbn [rev].
        rewrite <- app_assoc. cbn [app]. apply hd_filter_app; [exact He|].
        intros z Hz. apply in_rev in Hz. apply In_nth_error in Hz. destruct Hz as (k & Hk).
        assert (Hk' : k < length l2) by (apply nth_error_Some; rewrite Hk; discriminate).
        assert (Hpl : length pre = length l1 + S (length l2)) by (rewrite El, app_length; reflexivity).
        apply (Hb (S (length l1) + k) z); [lia|].
        apply (proj2 (split_pre p pre x post (S (length l1) + k) z E)).
        rewrite El, nth_error_app2 by lia. replace (S (length l1) + k - length l1) with (S k) by lia. exact Hk.
      - intros H. apply hd_filter_some in H. destruct H as (l1 & l2 & El & He & Hb).
        assert (Ep : pre = rev l2 ++ y :: rev l1).
        { rewrite <- (rev_involutive pre), El, rev_app_distr. cbn [rev]. rewrite <- app_assoc. reflexivity. }
        exists p, (length (rev l2)), (length pre). split; [|split; [exact at_listed|split; [|split; [exact He|]]]].
        + apply (proj2 (split_pre p pre x post (length (rev l2)) y E)).
          rewrite Ep, nth_error_app2, Nat.sub_diag by lia. reflexivity.
        + rewrite Ep, app_length. cbn [length]. lia.
        + intros k z Hk Hz.
          pose proof (proj1 (split_pre p pre x post k z E) (conj Hz (proj2 Hk))) as H4. apply Hb. apply in_rev.
          rewrite Ep, nth_error_app2 in H4 by lia.
          replace (k - length (rev l2)) with (S (k - S (length (rev l2)))) in H4 by lia. cbn [nth_error] in H4.
          exact (nth_error_In _ _ H4).
    Qed.
    Lemma next_siblings_at : next_element_siblings h x = Ok (filter (is_element h) post).
    Proof.
      unfold next_element_siblings. rewrite at_parent, at_index, at_len.
      unfold rsub. destruct (Nat.leb_spec (S (length pre)) (length pre + S (length post))); [|lia].
      cbn [rbind]. rewrite E, split_skipn. reflexivity.
    Qed.
    Lemma next_sibling_at : next_element_sibling h x = hd_error (filter (is_element h) post).
    Proof. unfold next_element_sibling. rewrite at_parent, at_index, E, split_skipn. reflexivity. Qed.
    Lemma prev_siblings_at : previous_element_siblings h x = Ok (filter (is_element h) pre).
    Proof.
      unfold previous_element_siblings. rewrite at_parent, at_index, at_len.
      destruct (Nat.leb_spec (length pre) (length pre + S (length post))); [|lia].
      rewrite E, split_firstn. reflexivity.
    Qed.
    Lemma prev_sibling_at : previous_element_sibling h x = Ok (hd_error (filter (is_element h) (rev pre))).
    Proof.
      unfold previous_element_sibling. rewrite at_parent, at_index, at_len.
      destruct (Nat.leb_spec (length pre) (length pre + S (length post))); [|lia].
      rewrite E, split_firstn. reflexivity.
    Qed.
    Lemma siblings_at : siblings h x = Ok (filter (is_element h) pre ++ filter (is_element h) post).
    Proof.
      unfold siblings. rewrite at_parent, next_siblings_at, prev_siblings_at, at_index, at_len.
      destruct (Nat.eqb_spec (length pre) 0) as [E0 | Hne].
      - destruct pre; [reflexivity | discriminate].
      - unfold rsub. destruct (Nat.leb_spec 1 (length pre + S (length post))); [|lia]. cbn [rbind].
        destruct (Nat.eqb_spec (length pre) (length pre + S (length post) - 1)) as [E1 | Hne1].
        + destruct post; [cbn; rewrite app_nil_r; reflexivity | cbn in E1; lia].
        + destruct (Nat.leb_spec (length pre) (length pre + S (length post))); [|lia].
          rewrite E, split_firstn, split_skipn. reflexivity.
    Qed.
  End At.

  Lemma attached_split x : Attached h x -> exists p pre post, kids h p = pre ++ x :: post.
  Proof. intros (p & i & H). destruct (listed_split p i x H) as (pre & post & E & _). exists p, pre, post. exact E. Qed.

  Lemma next_sibling_spec x y : Attached h x -> (next_element_sibling h x = Some y <-> NextEl h x y).
  Proof.
    intros H. destruct (attached_split x H) as (p & pre & post & E).
    rewrite (next_sibling_at p x pre post E). symmetry. exact (next_at p x pre post E y).
  Qed.
  Lemma prev_sibling_spec x : Attached h x -> exists o, previous_element_sibling h x = Ok o /\
    forall y, o = Some y <-> PrevEl h x y.
  Proof.
    intros H. destruct (attached_split x H) as (p & pre & post & E). eexists. split; [exact (prev_sibling_at p x pre post E)|].
    intros y. symmetry. exact (prev_at p x pre post E y).
  Qed.

  (** Order of siblings. *)
  Lemma listed_before p i j x y : Listed h p i x -> Listed h p j y -> i < j -> Before h x y.
  Proof. intros H1 H2 Hlt. right. exists p, i, j, x, y. repeat split; try assumption; left; reflexivity. Qed.
  Lemma kids_ordered p : Ordered h (kids h p).
  Proof.
    assert (A : forall l pre, kids h p = pre ++ l -> Ordered h l).
    { induction l as [|x l IH]; intros pre E; [exact I|]. split.
      - apply Forall_forall. intros y Hy. apply In_nth_error in Hy. destruct Hy as (k & Hk).
        apply (listed_before p (length pre) (length pre + S k)); [| |lia]; unfold Listed; rewrite E, nth_error_app2 by lia.
        + rewrite Nat.sub_diag. reflexivity.
        + replace (length pre + S k - length pre) with (S k) by lia. exact Hk.
      - apply (IH (pre ++ [x])). rewrite <- app_assoc. exact E. }
    exact (A (kids h p) [] eq_refl).
  Qed.
  Lemma children_ordered p : Ordered h (children h p).
  Proof. apply ordered_filter, kids_ordered. Qed.
End Nav.
