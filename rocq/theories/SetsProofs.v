(** Facts about positions, membership, filtering by a set or a closure. *)
From Verif Require Import Base Dom DomSpec Order OrderSpec DomProofs OrderProofs Sets.

Lemma filter_all {A} (f : A -> bool) l : (forall x, In x l -> f x = true) -> filter f l = l.
Proof.
  induction l as [|x l IH]; intros H; [reflexivity|]. cbn. rewrite (H x (or_introl eq_refl)).
  rewrite IH by (intros y Hy; apply H; right; exact Hy). reflexivity.
Qed.
Lemma filter_nil {A} (f : A -> bool) l : (forall x, In x l -> f x = false) -> filter f l = [].
Proof.
  induction l as [|x l IH]; intros H; [reflexivity|]. cbn. rewrite (H x (or_introl eq_refl)).
  apply IH. intros y Hy; apply H; right; exact Hy.
Qed.

Lemma nodup_app {A} (l m : list A) : NoDup l -> NoDup m -> (forall x, In x l -> ~ In x m) -> NoDup (l ++ m).
Proof.
  intros Hl Hm Hd. induction l as [|x l IH]; [exact Hm|]. apply NoDup_cons_iff in Hl. destruct Hl as [Hx Hl]. cbn.
  constructor.
  - rewrite in_app_iff. intros [H | H]; [exact (Hx H) | exact (Hd x (or_introl eq_refl) H)].
  - apply IH; [exact Hl|]. intros y Hy. apply Hd. right; exact Hy.
Qed.

Lemma includes_spec l x : includes l x = true <-> In x l.
Proof.
  unfold includes. rewrite existsb_exists. split.
  - intros (y & Hy & E). apply Nat.eqb_eq in E. subst y. exact Hy.
  - intros H. exists x. split; [exact H | apply Nat.eqb_refl].
Qed.

Lemma pos_from_spec l x i :
  match pos_from l x i with
  | Some j => i <= j /\ nth_error l (j - i) = Some x /\ forall k, k < j - i -> nth_error l k <> Some x
  | None => ~ In x l
  end.
Proof.
  revert i. induction l as [|y l IH]; intros i; cbn [pos_from]; [intros []|].
  destruct (Nat.eqb_spec x y) as [-> | Hne].
  - rewrite Nat.sub_diag. cbn. repeat split; [lia | intros k Hk; lia].
  - specialize (IH (S i)). destruct (pos_from l x (S i)) as [j|].
    + destruct IH as (H1 & H2 & H3). replace (j - i) with (S (j - S i)) by lia. cbn. repeat split; [lia | exact H2 |].
      intros [|k] Hk; cbn; [congruence | apply H3; lia].
    + intros [E | H]; [congruence | exact (IH H)].
Qed.

Lemma index_of_spec l x s :
  match index_of l x s with
  | Some j => s <= j /\ nth_error l j = Some x /\ forall k, s <= k < j -> nth_error l k <> Some x
  | None => forall k, s <= k -> nth_error l k <> Some x
  end.
Proof.
  unfold index_of. assert (Hsk : forall k, nth_error (skipn s l) k = nth_error l (s + k)).
  { clear. revert l. induction s as [|s IH]; intros l k; [reflexivity|]. destruct l as [|y l]; [destruct k; reflexivity|]. cbn. apply IH. }
  destruct (Nat.ltb_spec s (length l)) as [Hs | Hs].
  - pose proof (pos_from_spec (skipn s l) x s) as H. destruct (pos_from (skipn s l) x s) as [j|].
    + destruct H as (H1 & H2 & H3). rewrite Hsk in H2. replace (s + (j - s)) with j in H2 by lia.
      repeat split; [exact H1 | exact H2 |]. intros k Hk. specialize (H3 (k - s)). rewrite Hsk in H3.
      replace (s + (k - s)) with k in H3 by lia. apply H3. lia.
    + intros k Hk E. apply H. apply nth_error_In with (n := k - s). rewrite Hsk. replace (s + (k - s)) with k by lia. exact E.
  - intros k Hk E. assert (nth_error l k <> None) by congruence. apply nth_error_Some in H. lia.
Qed.

(** * Closures *)
Lemma filter_by_filter f l : filter_by (fun _ => f) l = filter f l.
Proof.
  unfold filter_by. generalize 0. induction l as [|x l IH]; intros i; cbn; [reflexivity|]. rewrite IH. reflexivity.
Qed.

(** Positions kept by a closure. *)
Lemma filter_by_combine f l i :
  filter_by_from f i l = map snd (filter (fun p => f (fst p) (snd p)) (combine (seq i (length l)) l)).
Proof.
  revert i. induction l as [|x l IH]; intros i; cbn; [reflexivity|]. rewrite IH. destruct (f i x); reflexivity.
Qed.
Lemma not_by_combine f l i :
  not_by_from f i l = map snd (filter (fun p => negb (f (fst p) (snd p))) (combine (seq i (length l)) l)).
Proof.
  revert i. induction l as [|x l IH]; intros i; cbn; [reflexivity|]. rewrite IH. destruct (f i x); reflexivity.
Qed.
Lemma is_by_combine f l i :
  is_by_from f i l = existsb (fun p => f (fst p) (snd p)) (combine (seq i (length l)) l).
Proof.
  revert i. induction l as [|x l IH]; intros i; cbn; [reflexivity|]. rewrite IH. destruct (f i x); reflexivity.
Qed.
Lemma is_all_by_combine f l i :
  is_all_by_from f i l = forallb (fun p => f (fst p) (snd p)) (combine (seq i (length l)) l).
Proof.
  revert i. induction l as [|x l IH]; intros i; cbn; [reflexivity|]. rewrite IH. destruct (f i x); reflexivity.
Qed.

(** * Filtering by another set.  [R]: any strict order for which both lists are sorted. *)
Section Sorted.
  Variable R : id -> id -> Prop.
  Hypothesis R_irrefl : forall x, ~ R x x.
  Hypothesis R_trans : forall x y z, R x y -> R y z -> R x z.

  Fixpoint RSorted (l : list id) : Prop :=
    match l with [] => True | x :: l' => Forall (R x) l' /\ RSorted l' end.

  Lemma rsorted_nth l i j x y : RSorted l -> nth_error l i = Some x -> nth_error l j = Some y -> i < j -> R x y.
  Proof.
    revert i j. induction l as [|z l IH]; intros i j Hs Hi Hj Hij; [destruct i; discriminate|].
    destruct Hs as [Hz Hs]. destruct j as [|j]; [lia|]. cbn in Hj. destruct i as [|i]; cbn in Hi.
    - injection Hi as <-. rewrite Forall_forall in Hz. apply Hz. exact (nth_error_In _ _ Hj).
    - apply (IH i j); try assumption. lia.
  Qed.
  Lemma rsorted_nth_inj l i j x : RSorted l -> nth_error l i = Some x -> nth_error l j = Some x -> i = j.
  Proof.
    intros Hs Hi Hj. destruct (Nat.lt_trichotomy i j) as [H | [H | H]]; [|exact H|].
    - destruct (R_irrefl x (rsorted_nth l i j x x Hs Hi Hj H)).
    - destruct (R_irrefl x (rsorted_nth l j i x x Hs Hj Hi H)).
  Qed.

  (** Everything still to visit is after what was passed over in [search]. *)
  Definition Passed (search : list id) (s : nat) (l : list id) : Prop :=
    forall x i, In x l -> nth_error search i = Some x -> s <= i.

  Lemma index_of_in search s l x : Passed search s (x :: l) ->
    match index_of search x s with
    | Some i => nth_error search i = Some x
    | None => ~ In x search
    end.
  Proof.
    intros Hp. pose proof (index_of_spec search x s) as H. destruct (index_of search x s) as [i|].
    - exact (proj1 (proj2 H)).
    - intros Hx. apply In_nth_error in Hx. destruct Hx as (i & Hi).
      exact (H i (Hp x i (or_introl eq_refl) Hi) Hi).
  Qed.
  Lemma passed_next search x l i : RSorted search -> RSorted (x :: l) -> nth_error search i = Some x ->
    Passed search (S i) l.
  Proof.
    intros Hs [Hx _] Hi y j Hy Hj. destruct (Nat.lt_trichotomy i j) as [H | [-> | H]]; [lia | |].
    - assert (x = y) by congruence. subst y. rewrite Forall_forall in Hx. destruct (R_irrefl x (Hx x Hy)).
    - rewrite Forall_forall in Hx. specialize (Hx y Hy). pose proof (rsorted_nth search j i y x Hs Hj Hi H) as Hyx.
      destruct (R_irrefl x (R_trans _ _ _ Hx Hyx)).
  Qed.
  Lemma passed_tail search s x l : Passed search s (x :: l) -> Passed search s l.
  Proof. intros H y i Hy. apply H. right; exact Hy. Qed.

  Lemma filter_in_sorted search : RSorted search -> forall l s, RSorted l -> Passed search s l ->
    filter_in_from search s l = filter (includes search) l.
  Proof.
    intros Hs. induction l as [|x l IH]; intros s Hl Hp; [reflexivity|]. cbn [filter_in_from filter].
    pose proof (index_of_in search s l x Hp) as Hi. destruct Hl as [Hx Hl'].
    destruct (index_of search x s) as [i|].
    - rewrite (proj2 (includes_spec search x)) by exact (nth_error_In _ _ Hi). f_equal.
      pose proof (passed_next search x l i Hs (conj Hx Hl') Hi) as Hp'.
      destruct (Nat.leb_spec (length search) (S i)) as [Hlen | Hlen]; [|apply IH; assumption].
      symmetry. destruct (filter (includes search) l) as [|y f] eqn:E; [reflexivity|]. exfalso.
      assert (Hy : In y (filter (includes search) l)) by (rewrite E; left; reflexivity).
      apply filter_In in Hy. destruct Hy as [Hy1 Hy2]. apply includes_spec in Hy2. apply In_nth_error in Hy2.
      destruct Hy2 as (j & Hj). pose proof (Hp' y j Hy1 Hj). assert (nth_error search j <> None) by congruence.
      apply nth_error_Some in H0. lia.
    - replace (includes search x) with false; [apply IH; [exact Hl' | exact (passed_tail _ _ _ _ Hp)]|].
      symmetry. apply not_true_is_false. rewrite includes_spec. exact Hi.
  Qed.
  Lemma not_in_sorted search : RSorted search -> forall l s, RSorted l -> Passed search s l ->
    not_in_from search s l = filter (fun x => negb (includes search x)) l.
  Proof.
    intros Hs. induction l as [|x l IH]; intros s Hl Hp; [reflexivity|]. cbn [not_in_from filter].
    pose proof (index_of_in search s l x Hp) as Hi. destruct Hl as [Hx Hl'].
    destruct (index_of search x s) as [i|].
    - rewrite (proj2 (includes_spec search x)) by exact (nth_error_In _ _ Hi). cbn. apply IH; [exact Hl'|].
      exact (passed_next search x l i Hs (conj Hx Hl') Hi).
    - replace (includes search x) with false; [cbn; f_equal; apply IH; [exact Hl' | exact (passed_tail _ _ _ _ Hp)]|].
      symmetry. apply not_true_is_false. rewrite includes_spec. exact Hi.
  Qed.
  Lemma is_all_in_from_sorted search : RSorted search -> forall l s, RSorted l -> Passed search s l ->
    is_all_in_from search s l = forallb (includes search) l.
  Proof.
    intros Hs. induction l as [|x l IH]; intros s Hl Hp; [reflexivity|]. cbn [is_all_in_from forallb].
    pose proof (index_of_in search s l x Hp) as Hi. destruct Hl as [Hx Hl'].
    destruct (index_of search x s) as [i|].
    - rewrite (proj2 (includes_spec search x)) by exact (nth_error_In _ _ Hi). cbn. apply IH; [exact Hl'|].
      exact (passed_next search x l i Hs (conj Hx Hl') Hi).
    - replace (includes search x) with false; [reflexivity|].
      symmetry. apply not_true_is_false. rewrite includes_spec. exact Hi.
  Qed.
  Lemma rsorted_nodup l : RSorted l -> NoDup l.
  Proof.
    induction l as [|x l IH]; [constructor|]. intros [Hx Hl]. constructor; [|exact (IH Hl)].
    intros H. rewrite Forall_forall in Hx. exact (R_irrefl x (Hx x H)).
  Qed.
  Lemma is_all_in_sorted l search : RSorted l -> RSorted search ->
    is_all_in l search = forallb (includes search) l.
  Proof.
    intros Hl Hs. unfold is_all_in. destruct (Nat.leb_spec (length l) (length search)) as [H | H].
    - apply is_all_in_from_sorted; try assumption. intros x i _ _. lia.
    - symmetry. apply not_true_is_false. intros E. rewrite forallb_forall in E.
      assert (incl l search) by (intros x Hx; apply includes_spec; exact (E x Hx)).
      pose proof (NoDup_incl_length (rsorted_nodup l Hl) H0). lia.
  Qed.
End Sorted.

(** Document-ordered sets of one tree are sorted for such an order. *)
Definition TreeBefore (h : heap) (r x y : id) : Prop := InTree h r x /\ InTree h r y /\ Before h x y.
Lemma treebefore_irrefl h r (wf : WF h) x : ~ TreeBefore h r x x.
Proof. intros (H1 & _ & H2). exact (before_irrefl h wf r x H1 H2). Qed.
Lemma treebefore_trans h r (wf : WF h) x y z : TreeBefore h r x y -> TreeBefore h r y z -> TreeBefore h r x z.
Proof.
  intros (H1 & H2 & H3) (_ & H4 & H5). split; [exact H1|]. split; [exact H4|].
  exact (before_trans h wf r x y z H1 H2 H4 H3 H5).
Qed.
Lemma docset_sorted h r l : DocSet h r l -> RSorted (TreeBefore h r) l.
Proof.
  intros [Ha Ho]. induction l as [|x l IH]; [exact I|].
  apply Forall_inv in Ha as Hx. apply Forall_inv_tail in Ha as Ha'. destruct Ho as [Hxl Ho].
  split; [|exact (IH Ha' Ho)]. rewrite Forall_forall in *. intros y Hy. exact (conj Hx (conj (Ha' y Hy) (Hxl y Hy))).
Qed.

(** No confusion, whatever the order: kept elements are really in the search set; dropped ones too. *)
Lemma filter_in_sound search : forall l s x, In x (filter_in_from search s l) -> In x l /\ In x search.
Proof.
  induction l as [|y l IH]; intros s x H; cbn in H; [destruct H|].
  pose proof (index_of_spec search y s) as Hi. destruct (index_of search y s) as [i|].
  - destruct H as [<- | H]; [split; [left; reflexivity | exact (nth_error_In _ _ (proj1 (proj2 Hi)))]|].
    destruct (length search <=? S i); [destruct H|]. destruct (IH _ _ H). split; [right|]; assumption.
  - destruct (IH _ _ H). split; [right|]; assumption.
Qed.
Lemma not_in_complete search : forall l s x, In x l -> ~ In x search -> In x (not_in_from search s l).
Proof.
  induction l as [|y l IH]; intros s x Hx Hn; cbn; [destruct Hx|].
  pose proof (index_of_spec search y s) as Hi. destruct (index_of search y s) as [i|].
  - apply IH; [|exact Hn]. destruct Hx as [<- | Hx]; [|exact Hx].
    destruct Hn. exact (nth_error_In _ _ (proj1 (proj2 Hi))).
  - destruct Hx as [<- | Hx]; [left; reflexivity | right; apply IH; assumption].
Qed.
Lemma is_in_spec l search : is_in l search = true <-> exists x, In x l /\ In x search.
Proof.
  unfold is_in. rewrite existsb_exists. split; intros (x & H1 & H2); exists x; (split; [exact H1 | apply includes_spec; exact H2]).
Qed.
