(** Insertion at several targets: the nodes go from target to target and stay at the last one. *)
From Verif Require Import Base Dom DomSpec DomProofs Mutate MutateSpec MutateProofs InsertProofs HistoryProofs.

Lemma moved_all_same h h1 p l1 d l2 : MovedAllInto h h1 p l1 d l2 -> forall q, without_all d (kids h1 q) = without_all d (kids h q).
Proof.
  intros (_ & W & K & O & _) q.
  assert (Hw : forall l, without_all d (without_all d l) = without_all d l).
  { intros l. apply without_all_notin. intros y Hy H. apply without_all_in in H. tauto. }
  destruct (Nat.eq_dec q p) as [-> | Hq]; [|rewrite (O q Hq); apply Hw].
  rewrite K, !without_all_app.
  assert (E : without_all d d = []).
  { destruct (without_all d d) as [|y l] eqn:E; [reflexivity|]. assert (H : In y (without_all d d)) by (rewrite E; left; reflexivity).
    apply without_all_in in H. tauto. }
  rewrite E. cbn [app]. rewrite <- without_all_app, <- W. apply Hw.
Qed.

(** Only the last place counts. *)
Lemma moved_all_again h h1 h2 p1 a1 d1 b1 p2 a2 d2 b2 : (forall y, In y d1 <-> In y d2) ->
  MovedAllInto h h1 p1 a1 d1 b1 -> MovedAllInto h1 h2 p2 a2 d2 b2 -> MovedAllInto h h2 p2 a2 d2 b2.
Proof.
  intros Hd M1 M2. pose proof (moved_all_same _ _ _ _ _ _ M1) as HS.
  assert (HS2 : forall q, without_all d2 (kids h1 q) = without_all d2 (kids h q)).
  { intros q. specialize (HS q). rewrite !(without_all_ext d1 d2) in HS by exact Hd. exact HS. }
  destruct M1 as (S1 & _ & _ & _ & _ & P1). destruct M2 as (S2 & W & K & O & P & P2).
  split; [exact (same_nodes_trans _ _ _ S1 S2)|]. split; [rewrite <- HS2; exact W|]. split; [exact K|].
  split; [intros q Hq; rewrite (O q Hq); apply HS2|]. split; [exact P|].
  intros y Hy. rewrite (P2 y Hy). apply P1. rewrite Hd. exact Hy.
Qed.

Lemma moved_all_up h h1 p l1 d l2 e : MovedAllInto h h1 p l1 d l2 -> ~ In e d -> (forall x, In x d -> ~ Up h e x) ->
  forall y, Up h1 e y -> Up h e y.
Proof.
  intros (_ & _ & _ & _ & _ & P) He Hu y H. revert He Hu. induction H as [x p0 H | x q y H IH H2]; intros He Hu.
  - rewrite (P x He) in H. exact (Up_parent h x p0 H).
  - specialize (IH He Hu). apply (Up_step h x q y IH). rewrite <- (P q); [exact H2|]. intros Hq. exact (Hu q Hq IH).
Qed.
Lemma moved_all_accepts h h1 p l1 d l2 e x : WF h -> MovedAllInto h h1 p l1 d l2 -> Forall (Accepts h e) d -> In x d -> Accepts h1 e x.
Proof.
  intros wf M HA Hx. rewrite Forall_forall in HA. pose proof M as (S1 & _ & K & _ & P & _). destruct (HA x Hx) as [A0 A1 A2 A3 A5].
  split.
  all: try (rewrite ?(same_element _ _ S1), ?(same_root _ _ S1); assumption).
  - destruct A1 as [L _]. destruct S1 as [L1 _]. rewrite <- L1 in L. split; [exact L|]. right. exists p. apply child_in. rewrite K.
    apply in_or_app. right. apply in_or_app. left. exact Hx.
  - intros H. apply A5. refine (moved_all_up _ _ _ _ _ _ _ M _ _ _ H).
    + intros He. destruct (HA e He). congruence.
    + intros z Hz. destruct (HA z Hz). assumption.
Qed.
Lemma moved_all_child h h1 p l1 d l2 q e : MovedAllInto h h1 p l1 d l2 -> ~ In e d -> Child h q e -> Child h1 q e.
Proof.
  intros (_ & W & K & O & _) He Hc. apply child_in in Hc. apply child_in.
  assert (H : In e (without_all d (kids h q))) by (apply without_all_in; tauto).
  destruct (Nat.eq_dec q p) as [-> | Hq]; [|rewrite (O q Hq); exact H].
  rewrite K. rewrite W in H. apply in_app_or in H. apply in_or_app. destruct H as [H | H]; [left; exact H|]. right. apply in_or_app. right. exact H.
Qed.

(** The place next to or inside a target, as seen without the inserted nodes. *)
Definition at_place (pos : position_) (h : heap) (d : list id) (e p : id) (a b : list id) : Prop :=
  match pos with
  | BeforeEnd => p = e /\ a = without_all d (kids h e) /\ b = []
  | AfterBegin => p = e /\ a = [] /\ b = without_all d (kids h e)
  | BeforeBegin => Child h p e /\ exists l2, without_all d (kids h p) = a ++ e :: l2 /\ b = e :: l2
  | AfterEnd => Child h p e /\ exists l1, without_all d (kids h p) = l1 ++ e :: b /\ a = l1 ++ [e]
  end.
Definition laid (pos : position_) (d : list id) : list id :=
  match pos with BeforeEnd | BeforeBegin => rev d | AfterBegin | AfterEnd => d end.
Definition target_ok (o : oracles_dom) (pos : position_) (h : heap) (d : list id) (e : id) : Prop :=
  Forall (Accepts h e) d /\
  match pos with
  | BeforeEnd | AfterBegin => Forall (fun x => od_allow_insert o (tag_names h e) (ntype_of h x) = true) d
  | _ => exists p, Child h p e
  end.

Lemma wa_rev d l : without_all (rev d) l = without_all d l.
Proof. apply without_all_ext. intros y. rewrite <- in_rev. reflexivity. Qed.
Lemma target_not_in h e d : Forall (Accepts h e) d -> ~ In e d.
Proof. intros H He. rewrite Forall_forall in H. destruct (H e He). congruence. Qed.
Lemma one_target o pos h d e es p a b : WF h -> NoDup d -> target_ok o pos h d e -> at_place pos h d e p a b ->
  exists h', rfold (insert_step o pos e) (rev d) (h, es) = Ok (h', es) /\ WF h' /\ MovedAllInto h h' p a (laid pos d) b.
Proof.
  intros wf Hn [HA HT] HP. apply NoDup_rev in Hn. apply Forall_rev in HA. destruct pos; cbn [at_place laid target_ok] in *.
  - destruct HP as (Hc & l2 & Ew & ->). destruct (many_beside o e p false (rev d) h es a l2 wf Hn HA Hc) as (h' & E & W & M).
    { rewrite wa_rev. exact Ew. }
    exists h'. auto.
  - destruct HP as (Hc & l1 & Ew & ->). destruct (many_beside o e p true (rev d) h es l1 b wf Hn HA Hc) as (h' & E & W & M).
    { rewrite wa_rev. exact Ew. }
    cbv iota in M. rewrite rev_involutive in M. exists h'. auto.
  - destruct HP as (-> & -> & ->). apply Forall_rev in HT.
    destruct (many_inside o e false (rev d) h es wf Hn HA HT) as (h' & E & W & M). rewrite wa_rev, rev_involutive in M. exists h'. auto.
  - destruct HP as (-> & -> & ->). apply Forall_rev in HT.
    destruct (many_inside o e true (rev d) h es wf Hn HA HT) as (h' & E & W & M). rewrite wa_rev in M. exists h'. auto.
Qed.
Lemma place_exists o pos h d e : target_ok o pos h d e -> exists p a b, at_place pos h d e p a b.
Proof.
  intros [HA HT].
  assert (HB : (exists p, Child h p e) -> exists p l1 l2, Child h p e /\ without_all d (kids h p) = l1 ++ e :: l2).
  { intros (p & Hc). assert (H : In e (without_all d (kids h p))).
    { apply without_all_in. split; [apply child_in; exact Hc | exact (target_not_in h e d HA)]. }
    apply in_split in H as (l1 & l2 & E). exists p, l1, l2. auto. }
  destruct pos; cbn [at_place].
  - destruct (HB HT) as (p & l1 & l2 & Hc & E). exists p, l1, (e :: l2). split; [exact Hc|]. exists l2. auto.
  - destruct (HB HT) as (p & l1 & l2 & Hc & E). exists p, (l1 ++ [e]), l2. split; [exact Hc|]. exists l1. auto.
  - exists e, [], (without_all d (kids h e)). auto.
  - exists e, (without_all d (kids h e)), []. auto.
Qed.
Lemma laid_in pos d y : In y (laid pos d) <-> In y d.
Proof. destruct pos; cbn [laid]; rewrite <- ?in_rev; reflexivity. Qed.

Lemma several o pos d e : NoDup d -> forall ts h es p a b, WF h -> (forall t, In t (ts ++ [e]) -> target_ok o pos h d t) -> at_place pos h d e p a b ->
  exists h', rfold (fun s t => rfold (insert_step o pos t) (rev d) s) (ts ++ [e]) (h, es) = Ok (h', es) /\ WF h' /\ MovedAllInto h h' p a (laid pos d) b.
Proof.
  intros Hn. induction ts as [|t ts IH]; intros h es p a b wf HT HP.
  - cbn [app rfold]. destruct (one_target o pos h d e es p a b wf Hn (HT e (or_introl eq_refl)) HP) as (h' & E & W). exists h'. rewrite E. auto.
  - pose proof (HT t (or_introl eq_refl)) as Ht. destruct (place_exists o pos h d t Ht) as (p1 & a1 & b1 & HP1).
    destruct (one_target o pos h d t es p1 a1 b1 wf Hn Ht HP1) as (h1 & E1 & wf1 & M1).
    assert (Hd : forall q, without_all d (kids h1 q) = without_all d (kids h q)).
    { intros q. pose proof (moved_all_same _ _ _ _ _ _ M1 q) as H. rewrite !(without_all_ext (laid pos d) d) in H by apply laid_in. exact H. }
    pose proof M1 as (S1 & _).
    assert (HT1 : forall u, In u (ts ++ [e]) -> target_ok o pos h1 d u).
    { intros u Hu. destruct (HT u (or_intror Hu)) as [HA HU].
      assert (HA' : Forall (Accepts h u) (laid pos d)).
      { rewrite Forall_forall in *. intros x Hx. apply HA. apply (laid_in pos). exact Hx. }
      split.
      - rewrite Forall_forall. intros x Hx. apply (moved_all_accepts h h1 p1 a1 (laid pos d) b1 u x wf M1 HA'). apply laid_in. exact Hx.
      - assert (HC : (exists q, Child h q u) -> exists q, Child h1 q u).
        { intros (q & Hq). exists q. apply (moved_all_child _ _ _ _ _ _ q u M1); [exact (target_not_in h u _ HA') | exact Hq]. }
        assert (HL : Forall (fun x => od_allow_insert o (tag_names h u) (ntype_of h x) = true) d -> Forall (fun x => od_allow_insert o (tag_names h1 u) (ntype_of h1 x) = true) d).
        { rewrite !Forall_forall. intros H x Hx. rewrite (same_tag _ _ S1). unfold ntype_of. rewrite (proj1 (proj2 S1 x)). exact (H x Hx). }
        destruct pos; auto. }
    assert (HPe : at_place pos h1 d e p a b).
    { destruct (HT e (or_intror (in_elt e ts []))) as [HA _]. pose proof (target_not_in h e d HA) as He.
      assert (He' : ~ In e (laid pos d)) by (rewrite laid_in; exact He).
      destruct pos; cbn [at_place] in *; rewrite !Hd; try exact HP.
      all: destruct HP as [Hc HP]; split; [exact (moved_all_child _ _ _ _ _ _ p e M1 He' Hc) | exact HP]. }
    destruct (IH h1 es p a b wf1 HT1 HPe) as (h2 & E2 & wf2 & M2). exists h2. cbn [app rfold]. rewrite E1. cbn [rbind]. split; [exact E2|]. split; [exact wf2|].
    refine (moved_all_again _ _ _ _ _ _ _ _ _ _ _ _ M1 M2). intros y. reflexivity.
Qed.
