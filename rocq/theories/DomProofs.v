(** Facts about well-formed heaps and the tree relations. *)
From Verif Require Import Base Dom DomSpec Order.

(** * Paths *)
Lemma path_nil_inv h r c : Path h r [] c -> c = r.
Proof.
  intros H. inversion H as [|l p i c' Hp Hl E]; subst; [reflexivity|].
  destruct l; discriminate.
Qed.

Lemma path_snoc_inv h r l i c : Path h r (l ++ [i]) c -> exists p, Path h r l p /\ Listed h p i c.
Proof.
  intros H. inversion H as [E|l' p i' c' Hp Hl E]; subst.
  - destruct l; discriminate.
  - apply app_inj_tail in E. destruct E as [-> ->]. exists p. split; assumption.
Qed.

Lemma path_app h r l x m y : Path h r l x -> Path h x m y -> Path h r (l ++ m) y.
Proof.
  intros H1 H2. induction H2 as [|m p i c H2 IH Hl].
  - rewrite app_nil_r. exact H1.
  - rewrite app_assoc. exact (Path_down _ _ _ _ _ _ IH Hl).
Qed.

Lemma path_split h r l m y : Path h r (l ++ m) y -> exists x, Path h r l x /\ Path h x m y.
Proof.
  revert y. induction m as [|i m IH] using rev_ind; intros y H.
  - rewrite app_nil_r in H. exists y. split; [exact H | constructor].
  - rewrite app_assoc in H. apply path_snoc_inv in H. destruct H as (p & Hp & Hl).
    destruct (IH p Hp) as (x & Hx & Hxp). exists x. split; [exact Hx|].
    exact (Path_down _ _ _ _ _ _ Hxp Hl).
Qed.

Lemma path_one h p i c : Listed h p i c -> Path h p [i] c.
Proof. intros H. exact (Path_down h p [] p i c (Path_here h p) H). Qed.

Lemma path_one_inv h p i c : Path h p [i] c -> Listed h p i c.
Proof.
  intros H. apply (path_snoc_inv h p [] i c) in H. destruct H as (q & Hq & Hl).
  apply path_nil_inv in Hq. subst q. exact Hl.
Qed.

Lemma path_cons_inv h r i l y : Path h r (i :: l) y -> exists c, Listed h r i c /\ Path h c l y.
Proof.
  intros H. apply (path_split h r [i] l y) in H. destruct H as (c & Hc & Hy).
  exists c. split; [exact (path_one_inv _ _ _ _ Hc) | exact Hy].
Qed.

Lemma path_cons h r i c l y : Listed h r i c -> Path h c l y -> Path h r (i :: l) y.
Proof. intros Hl Hp. exact (path_app h r [i] c l y (path_one _ _ _ _ Hl) Hp). Qed.

Lemma listed_fun h p i a b : Listed h p i a -> Listed h p i b -> a = b.
Proof. unfold Listed. intros H1 H2. congruence. Qed.

Lemma path_fun h r l x y : Path h r l x -> Path h r l y -> x = y.
Proof.
  revert x y. induction l as [|i l IH] using rev_ind; intros x y Hx Hy.
  - apply path_nil_inv in Hx, Hy. congruence.
  - apply path_snoc_inv in Hx, Hy. destruct Hx as (p & Hp & Hx), Hy as (q & Hq & Hy).
    rewrite (IH q p Hq Hp) in Hy. exact (listed_fun _ _ _ _ _ Hx Hy).
Qed.

Lemma listed_in h p i c : Listed h p i c -> In c (kids h p).
Proof. apply nth_error_In. Qed.
Lemma child_in h p c : Child h p c <-> In c (kids h p).
Proof.
  split.
  - intros (i & H). exact (listed_in _ _ _ _ H).
  - intros H. apply In_nth_error in H. exact H.
Qed.

Lemma anc_path h x y : Anc h x y <-> exists l, l <> [] /\ Path h x l y.
Proof.
  split.
  - intros H. induction H as [p c (i & Hl) | p q c _ (l & Hn & Hp) (i & Hl)].
    + exists [i]. split; [discriminate | exact (path_one _ _ _ _ Hl)].
    + exists (l ++ [i]). split; [destruct l; discriminate | exact (Path_down _ _ _ _ _ _ Hp Hl)].
  - intros (l & Hn & Hp). revert y Hn Hp. induction l as [|i l IH] using rev_ind; intros y Hn Hp; [congruence|].
    apply path_snoc_inv in Hp. destruct Hp as (p & Hp & Hl).
    destruct l as [|j l].
    + apply path_nil_inv in Hp. subst p. constructor. exists i. exact Hl.
    + apply Anc_step with (q := p); [apply IH; [discriminate | exact Hp] | exists i; exact Hl].
Qed.

Lemma anceq_path h x y : AncEq h x y <-> exists l, Path h x l y.
Proof.
  split.
  - intros [-> | H]; [exists []; constructor|]. apply anc_path in H. destruct H as (l & _ & H). exists l; exact H.
  - intros (l & H). destruct l as [|i l].
    + apply path_nil_inv in H. left; congruence.
    + right. apply anc_path. exists (i :: l). split; [discriminate | exact H].
Qed.

Lemma anc_trans h x y z : Anc h x y -> Anc h y z -> Anc h x z.
Proof.
  intros H1 H2. induction H2 as [p c Hc | p q c H2 IH Hc].
  - exact (Anc_step _ _ _ _ H1 Hc).
  - exact (Anc_step _ _ _ _ (IH H1) Hc).
Qed.
Lemma anceq_anc h x y z : AncEq h x y -> Anc h y z -> Anc h x z.
Proof. intros [-> | H] H2; [exact H2 | exact (anc_trans _ _ _ _ H H2)]. Qed.
Lemma anc_anceq h x y z : Anc h x y -> AncEq h y z -> Anc h x z.
Proof. intros H [<- | H2]; [exact H | exact (anc_trans _ _ _ _ H H2)]. Qed.
Lemma anceq_trans h x y z : AncEq h x y -> AncEq h y z -> AncEq h x z.
Proof. intros [-> | H] H2; [exact H2 | right; exact (anc_anceq _ _ _ _ H H2)]. Qed.
Lemma anc_inv h x y : Anc h x y -> exists p, AncEq h x p /\ Child h p y.
Proof.
  intros H. destruct H as [p c Hc | p q c H Hc].
  - exists p. split; [left; reflexivity | exact Hc].
  - exists q. split; [right; exact H | exact Hc].
Qed.
(** First step of a descent. *)
Lemma anc_first h x y : Anc h x y -> exists c, Child h x c /\ AncEq h c y.
Proof.
  intros H. apply anc_path in H. destruct H as (l & Hn & Hp).
  destruct l as [|i l]; [congruence|].
  apply path_cons_inv in Hp. destruct Hp as (c & Hl & Hp).
  exists c. split; [exists i; exact Hl | apply anceq_path; exists l; exact Hp].
Qed.
Lemma anc_of_first h x c y : Child h x c -> AncEq h c y -> Anc h x y.
Proof. intros H1 H2. exact (anc_anceq _ _ _ _ (Anc_child _ _ _ H1) H2). Qed.

(** * Parent pointers *)
Lemma up_trans h x y z : Up h x y -> Up h y z -> Up h x z.
Proof.
  intros H1 H2. induction H2 as [y p Hp | y q p H2 IH Hp].
  - exact (Up_step _ _ _ _ H1 Hp).
  - exact (Up_step _ _ _ _ (IH H1) Hp).
Qed.
Lemma up_first h x p z : parent h x = Some p -> (p = z \/ Up h p z) -> Up h x z.
Proof.
  intros H [-> | H2]; [constructor; exact H|].
  exact (up_trans _ _ _ _ (Up_parent _ _ _ H) H2).
Qed.
Lemma up_inv_first h x z : Up h x z -> exists p, parent h x = Some p /\ (p = z \/ Up h p z).
Proof.
  intros H. induction H as [x p Hp | x q p H IH Hp].
  - exists p. split; [exact Hp | left; reflexivity].
  - destruct IH as (p' & Hp' & Hr). exists p'. split; [exact Hp'|]. right.
    destruct Hr as [-> | Hr]; [constructor; exact Hp | exact (Up_step _ _ _ _ Hr Hp)].
Qed.

(** * Consequences of well-formedness *)
Section WithWF.
  Variable h : heap.
  Hypothesis wf : WF h.

  Lemma listed_parent p i c : Listed h p i c -> parent h c = Some p.
  Proof. intros H. apply (wf_listed h wf p i c H). Qed.
  Lemma listed_index p i c : Listed h p i c -> index h c = i.
  Proof. intros H. apply (wf_listed h wf p i c H). Qed.
  Lemma child_parent p c : Child h p c -> parent h c = Some p.
  Proof. intros (i & H). exact (listed_parent _ _ _ H). Qed.
  Lemma listed_inj p i q j c : Listed h p i c -> Listed h q j c -> p = q /\ i = j.
  Proof.
    intros H1 H2. pose proof (listed_parent _ _ _ H1). pose proof (listed_parent _ _ _ H2).
    pose proof (listed_index _ _ _ H1). pose proof (listed_index _ _ _ H2). split; congruence.
  Qed.
  Lemma attached_listed x p : Attached h x -> parent h x = Some p -> Listed h p (index h x) x.
  Proof.
    intros (q & i & H) Hp. rewrite (listed_parent _ _ _ H) in Hp. injection Hp as <-.
    rewrite (listed_index _ _ _ H). exact H.
  Qed.
  Lemma kids_nodup p : NoDup (kids h p).
  Proof.
    apply NoDup_nth_error. intros i j Hi E.
    destruct (nth_error (kids h p) i) as [c|] eqn:Ei.
    - symmetry in E. exact (proj2 (listed_inj p i p j c Ei E)).
    - apply nth_error_Some in Hi. congruence.
  Qed.

  Lemma anc_up x y : Anc h x y -> Up h y x.
  Proof.
    intros H. induction H as [p c Hc | p q c H IH Hc].
    - constructor. exact (child_parent _ _ Hc).
    - apply up_first with (p := q); [exact (child_parent _ _ Hc) | right; exact IH].
  Qed.
  Lemma anc_irrefl x : ~ Anc h x x.
  Proof. intros H. exact (wf_acyclic h wf x (anc_up _ _ H)). Qed.
  Lemma anc_asym x y : Anc h x y -> ~ Anc h y x.
  Proof. intros H1 H2. exact (anc_irrefl x (anc_trans _ _ _ _ H1 H2)). Qed.

  (** ** Bounded ancestor chains *)
  Fixpoint ups (n : nat) (x : id) : list id :=
    match n with
    | 0 => []
    | S m => match parent h x with Some p => p :: ups m p | None => [] end
    end.
  Lemma ups_up n x y : In y (ups n x) -> Up h x y.
  Proof.
    revert x. induction n as [|n IH]; intros x H; cbn in H; [destruct H|].
    destruct (parent h x) as [p|] eqn:E; [|destruct H].
    destruct H as [<- | H]; [constructor; exact E|].
    apply up_first with (p := p); [exact E | right; exact (IH p H)].
  Qed.
  Lemma ups_nodup n x : NoDup (ups n x).
  Proof.
    revert x. induction n as [|n IH]; intros x; cbn; [constructor|].
    destruct (parent h x) as [p|] eqn:E; [|constructor].
    constructor; [|apply IH]. intros H. exact (wf_acyclic h wf p (ups_up _ _ _ H)).
  Qed.
  Lemma ups_lt n x y : In y (ups n x) -> y < length h.
  Proof.
    intros H. apply ups_up in H. destruct H as [x p Hp | x q p _ Hp]; exact (proj1 (wf_parent h wf _ _ Hp)).
  Qed.
  Lemma ups_length n x : length (ups n x) <= length h.
  Proof.
    pose proof (ups_nodup n x) as Hn.
    assert (Hi : incl (ups n x) (seq 0 (length h))).
    { intros y Hy. apply in_seq. pose proof (ups_lt _ _ _ Hy). lia. }
    pose proof (NoDup_incl_length Hn Hi) as H. rewrite seq_length in H. exact H.
  Qed.

  Lemma up_wf_aux n : forall x, length (ups n x) < n ->
    forall P : id -> Prop, (forall y, (forall p, parent h y = Some p -> P p) -> P y) -> P x.
  Proof.
    induction n as [|n IH]; intros x H P HP; cbn in H; [lia|].
    apply HP. intros p Hp. rewrite Hp in H. cbn in H. apply IH; [lia | exact HP].
  Qed.
  (** Induction along parent pointers. *)
  Lemma up_ind_wf (P : id -> Prop) :
    (forall y, (forall p, parent h y = Some p -> P p) -> P y) -> forall x, P x.
  Proof.
    intros HP x. apply (up_wf_aux (S (length h)) x); [|exact HP].
    pose proof (ups_length (S (length h)) x). lia.
  Qed.

  (** ** Index paths *)
  Inductive TI : id -> list nat -> Prop :=
  | TI_top x : parent h x = None -> TI x [index h x]
  | TI_down x p k : parent h x = Some p -> TI p k -> TI x (k ++ [index h x]).

  Lemma TI_fun x k1 k2 : TI x k1 -> TI x k2 -> k1 = k2.
  Proof.
    intros H1. revert k2. induction H1 as [x E | x p k E H1 IH]; intros k2 H2.
    - inversion H2; subst; congruence.
    - inversion H2 as [x' E' | x' p' k' E' H2']; subst; [congruence|].
      assert (p' = p) by congruence. subst p'. rewrite (IH _ H2'). reflexivity.
  Qed.

  Lemma tree_indexs_fuel_ok n : forall x acc, length (ups n x) < n ->
    exists k, TI x k /\ tree_indexs_fuel n h x acc = Ok (k ++ acc).
  Proof.
    induction n as [|n IH]; intros x acc H; cbn in H; [lia|]. cbn [tree_indexs_fuel].
    destruct (parent h x) as [p|] eqn:E.
    - cbn in H. destruct (IH p (index h x :: acc)) as (k & Hk & Ek); [lia|].
      exists (k ++ [index h x]). split; [exact (TI_down _ _ _ E Hk)|].
      rewrite Ek, <- app_assoc. reflexivity.
    - exists [index h x]. split; [exact (TI_top _ E) | reflexivity].
  Qed.
  Lemma tree_indexs_ok x : exists k, TI x k /\ get_tree_indexs h x = Ok k.
  Proof.
    destruct (tree_indexs_fuel_ok (S (length h)) x []) as (k & H1 & H2).
    - pose proof (ups_length (S (length h)) x). lia.
    - rewrite app_nil_r in H2. exists k. split; assumption.
  Qed.
  Lemma tree_indexs_TI x k : get_tree_indexs h x = Ok k <-> TI x k.
  Proof.
    destruct (tree_indexs_ok x) as (k' & H1 & H2). rewrite H2. split; intros H.
    - injection H as <-. exact H1.
    - rewrite (TI_fun _ _ _ H H1). reflexivity.
  Qed.
  (** The (total) key of a node. *)
  Definition key (x : id) : list nat := match get_tree_indexs h x with Ok k => k | _ => [] end.
  Lemma tree_indexs_key x : get_tree_indexs h x = Ok (key x).
  Proof. unfold key. destruct (tree_indexs_ok x) as (k & _ & E). rewrite E. reflexivity. Qed.
  Lemma TI_key x : TI x (key x).
  Proof. apply tree_indexs_TI, tree_indexs_key. Qed.
  Lemma key_top x : parent h x = None -> key x = [index h x].
  Proof. intros H. exact (TI_fun _ _ _ (TI_key x) (TI_top x H)). Qed.
  Lemma key_down x p : parent h x = Some p -> key x = key p ++ [index h x].
  Proof. intros H. exact (TI_fun _ _ _ (TI_key x) (TI_down x p _ H (TI_key p))). Qed.
  Lemma key_listed p i c : Listed h p i c -> key c = key p ++ [i].
  Proof. intros H. rewrite (key_down c p (listed_parent _ _ _ H)), (listed_index _ _ _ H). reflexivity. Qed.
  Lemma key_path r l x : Path h r l x -> key x = key r ++ l.
  Proof.
    intros H. induction H as [|l p i c H IH Hl]; [rewrite app_nil_r; reflexivity|].
    rewrite (key_listed _ _ _ Hl), IH, app_assoc. reflexivity.
  Qed.
  Lemma key_nonempty x : key x <> [].
  Proof.
    destruct (parent h x) as [p|] eqn:E.
    - rewrite (key_down _ _ E). destruct (key p); discriminate.
    - rewrite (key_top _ E). discriminate.
  Qed.
  Lemma key_length x : length (key x) <= S (length h).
  Proof.
    assert (H : forall n y, length (ups n y) < n -> length (key y) = S (length (ups n y))).
    { induction n as [|n IH]; intros y Hy; cbn in Hy; [lia|]. cbn [ups].
      destruct (parent h y) as [p|] eqn:E.
      - cbn in Hy. rewrite (key_down _ _ E), app_length, (IH p) by lia. cbn. lia.
      - rewrite (key_top _ E). reflexivity. }
    pose proof (ups_length (S (length h)) x). rewrite (H (S (length h)) x); lia.
  Qed.

  (** Induction down the child lists. *)
  Lemma down_ind_wf (P : id -> Prop) :
    (forall x, (forall c, Child h x c -> P c) -> P x) -> forall x, P x.
  Proof.
    intros HP.
    assert (H : forall n x, S (length h) - length (key x) < n -> P x).
    { induction n as [|n IH]; intros x Hn; [lia|]. apply HP. intros c (i & Hc). apply IH.
      pose proof (key_length c) as Hk. pose proof (key_listed _ _ _ Hc) as E. apply (f_equal (@length nat)) in E.
      rewrite app_length in E. change (length [i]) with 1 in E. lia. }
    intros x. exact (H _ x (Nat.lt_succ_diag_r _)).
  Qed.

  (** ** Trees *)
  Lemma intree_anc_path r lx x a l : parent h r = None -> Path h r lx x -> Path h a l x ->
    exists l0, lx = l0 ++ l /\ Path h r l0 a.
  Proof.
    intros Hr. revert lx x. induction l as [|i l IH] using rev_ind; intros lx x Hx Ha.
    - apply path_nil_inv in Ha. subst a. exists lx. split; [rewrite app_nil_r; reflexivity | exact Hx].
    - apply path_snoc_inv in Ha. destruct Ha as (p & Hp & Hl).
      destruct lx as [|j lx _] using rev_ind.
      + apply path_nil_inv in Hx. subst x. rewrite (listed_parent _ _ _ Hl) in Hr. discriminate.
      + apply path_snoc_inv in Hx. destruct Hx as (q & Hq & Hl').
        destruct (listed_inj _ _ _ _ _ Hl Hl') as [<- <-].
        destruct (IH lx p Hq Hp) as (l0 & -> & H0). exists l0. split; [rewrite app_assoc; reflexivity | exact H0].
  Qed.
  Lemma path_unique r l m x : parent h r = None -> Path h r l x -> Path h r m x -> l = m.
  Proof.
    intros Hr H1 H2. destruct (intree_anc_path r l x r m Hr H1 H2) as (l0 & -> & H0).
    destruct l0 as [|j l0 _] using rev_ind; [reflexivity|].
    apply path_snoc_inv in H0. destruct H0 as (p & _ & Hl). rewrite (listed_parent _ _ _ Hl) in Hr. discriminate.
  Qed.
  Lemma intree_anc r x a : InTree h r x -> AncEq h a x -> InTree h r a.
  Proof.
    intros (Hr & l & H) Ha. apply anceq_path in Ha. destruct Ha as (m & Ha). split; [exact Hr|].
    destruct (intree_anc_path r l x a m Hr H Ha) as (l0 & _ & H0). exists l0. exact H0.
  Qed.
  Lemma intree_down r x y : InTree h r x -> AncEq h x y -> InTree h r y.
  Proof.
    intros (Hr & l & H) Ha. apply anceq_path in Ha. destruct Ha as (m & Ha). split; [exact Hr|].
    exists (l ++ m). exact (path_app _ _ _ _ _ _ H Ha).
  Qed.
  Lemma intree_top r x : InTree h r x -> AncEq h r x.
  Proof. intros (_ & l & H). apply anceq_path. exists l. exact H. Qed.
  (** In a tree, a parent pointer is backed by the child list. *)
  Lemma intree_parent r x p : InTree h r x -> parent h x = Some p -> InTree h r p /\ Listed h p (index h x) x.
  Proof.
    intros (Hr & l & H) Hp. destruct l as [|i l _] using rev_ind.
    - apply path_nil_inv in H. subst x. congruence.
    - apply path_snoc_inv in H. destruct H as (q & Hq & Hl).
      pose proof (listed_parent _ _ _ Hl). assert (q = p) by congruence. subst q.
      rewrite (listed_index _ _ _ Hl). split; [split; [exact Hr | exists l; exact Hq] | exact Hl].
  Qed.
  Lemma intree_attached r x : InTree h r x -> x <> r -> Attached h x.
  Proof.
    intros (Hr & l & H) Hn. destruct l as [|i l _] using rev_ind.
    - apply path_nil_inv in H. congruence.
    - apply path_snoc_inv in H. destruct H as (q & _ & Hl). exists q, i. exact Hl.
  Qed.
  Lemma intree_up_anc r x y : InTree h r x -> Up h x y -> Anc h y x.
  Proof.
    intros Hx H. revert Hx. induction H as [x p Hp | x q p H IH Hp]; intros Hx.
    - destruct (intree_parent _ _ _ Hx Hp) as [_ Hl]. constructor. exists (index h x). exact Hl.
    - specialize (IH Hx). pose proof (intree_anc _ _ q Hx (or_intror IH)) as Hq.
      destruct (intree_parent _ _ _ Hq Hp) as [_ Hl].
      apply anc_trans with (y := q); [constructor; exists (index h q); exact Hl | exact IH].
  Qed.
  Lemma intree_not_root r x : InTree h r x -> x <> r -> is_root h x = false.
  Proof.
    intros Hx Hn. destruct (intree_attached _ _ Hx Hn) as (p & Hc).
    destruct (is_root h x) eqn:E; [|reflexivity].
    pose proof (child_parent _ _ Hc) as Hp.
    rewrite (wf_root h wf _ E) in Hp. discriminate.
  Qed.
End WithWF.
