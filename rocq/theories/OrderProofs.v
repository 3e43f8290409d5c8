(** Document order: comparison of index paths is document order; sorting and de-duplication. *)
From Verif Require Import Base Dom DomSpec Order OrderSpec DomProofs.
From Coq Require Import Sorting.Permutation.

(** * Comparing index paths *)
Lemma compare_refl a : compare_indexs a a = Eq.
Proof. induction a as [|x a IH]; cbn; [reflexivity|]. rewrite Nat.compare_refl. exact IH. Qed.
Lemma compare_eq a b : compare_indexs a b = Eq <-> a = b.
Proof.
  split; [|intros ->; apply compare_refl]. revert b. induction a as [|x a IH]; intros [|y b] H; cbn in H; try discriminate.
  - reflexivity.
  - destruct (Nat.compare_spec x y) as [-> | |]; try discriminate. rewrite (IH b H). reflexivity.
Qed.
Lemma compare_antisym a b : compare_indexs b a = CompOpp (compare_indexs a b).
Proof.
  revert b. induction a as [|x a IH]; intros [|y b]; cbn; try reflexivity.
  rewrite (Nat.compare_antisym x y). destruct (Nat.compare x y); cbn; [apply IH | reflexivity | reflexivity].
Qed.
Lemma compare_app c a b : compare_indexs (c ++ a) (c ++ b) = compare_indexs a b.
Proof. induction c as [|x c IH]; cbn; [reflexivity|]. rewrite Nat.compare_refl. exact IH. Qed.

(** [Lt] is: proper prefix, or smaller at the first difference. *)
Lemma compare_lt a b : compare_indexs a b = Lt <->
  (exists i m, b = a ++ i :: m) \/
  (exists c i j a' b', a = c ++ i :: a' /\ b = c ++ j :: b' /\ i < j).
Proof.
  split.
  - revert b. induction a as [|x a IH]; intros [|y b] H; cbn in H; try discriminate.
    + left. exists y, b. reflexivity.
    + destruct (Nat.compare_spec x y) as [-> | Hlt | ]; try discriminate.
      * destruct (IH b H) as [(i & m & ->) | (c & i & j & a' & b' & -> & -> & Hij)].
        -- left. exists i, m. reflexivity.
        -- right. exists (y :: c), i, j, a', b'. repeat split; assumption.
      * right. exists [], x, y, a, b. repeat split; assumption.
  - intros [(i & m & ->) | (c & i & j & a' & b' & -> & -> & Hij)].
    + rewrite <- (app_nil_r a) at 1. rewrite compare_app. reflexivity.
    + rewrite compare_app. cbn. destruct (Nat.compare_spec i j); lia || reflexivity.
Qed.

Lemma relation_of_spec a b :
  match relation_of a b with
  | REqual => a = b
  | RAncestor => exists i m, b = a ++ i :: m
  | RDescendant => exists i m, a = b ++ i :: m
  | RFeature => exists c i j a' b', a = c ++ i :: a' /\ b = c ++ j :: b' /\ i <> j
  end.
Proof.
  revert b. induction a as [|x a IH]; intros [|y b]; cbn.
  - reflexivity.
  - exists y, b. reflexivity.
  - exists x, a. reflexivity.
  - destruct (Nat.eqb_spec x y) as [-> | Hne].
    + specialize (IH b). destruct (relation_of a b).
      * destruct IH as (i & m & ->). exists i, m. reflexivity.
      * rewrite IH. reflexivity.
      * destruct IH as (i & m & ->). exists i, m. reflexivity.
      * destruct IH as (c & i & j & a' & b' & -> & -> & H). exists (y :: c), i, j, a', b'. repeat split; assumption.
    + exists [], x, y, a, b. repeat split; assumption.
Qed.

Definition klt (a b : list nat) : Prop := compare_indexs a b = Lt.
Lemma klt_irrefl a : ~ klt a a.
Proof. unfold klt. rewrite compare_refl. discriminate. Qed.
Lemma klt_trans a b c : klt a b -> klt b c -> klt a c.
Proof.
  unfold klt. revert b c. induction a as [|x a IH]; intros [|y b] [|z c]; cbn; try discriminate; try reflexivity.
  destruct (Nat.compare_spec x y) as [-> | Hxy | Hxy]; try discriminate.
  - destruct (Nat.compare_spec y z); try discriminate; [apply IH | reflexivity].
  - intros _. destruct (Nat.compare_spec y z) as [-> | |]; try discriminate; intros _;
      destruct (Nat.compare_spec x z); try reflexivity; lia.
Qed.
Lemma klt_total a b : klt a b \/ a = b \/ klt b a.
Proof.
  unfold klt. destruct (compare_indexs a b) eqn:E.
  - right; left. apply compare_eq. exact E.
  - left; reflexivity.
  - right; right. rewrite compare_antisym, E. reflexivity.
Qed.

Section WithWF.
  Variable h : heap.
  Hypothesis wf : WF h.
  Notation key := (key h).

  (** * The order on nodes of one tree *)
  Section Tree.
    Variable r : id.

    Lemma key_tree x : InTree h r x -> exists l, Path h r l x /\ key x = index h r :: l.
    Proof.
      intros (Hr & l & H). exists l. split; [exact H|].
      rewrite (key_path h wf r l x H), (key_top h wf r Hr). reflexivity.
    Qed.
    Lemma key_inj x y : InTree h r x -> InTree h r y -> key x = key y -> x = y.
    Proof.
      intros Hx Hy E. destruct (key_tree x Hx) as (l & Hl & El). destruct (key_tree y Hy) as (m & Hm & Em).
      rewrite El, Em in E. injection E as ->. exact (path_fun _ _ _ _ _ Hl Hm).
    Qed.
    Lemma key_before x y : InTree h r x -> InTree h r y -> klt (key x) (key y) -> Before h x y.
    Proof.
      intros Hx Hy H. destruct (key_tree x Hx) as (l & Hl & El). destruct (key_tree y Hy) as (m & Hm & Em).
      rewrite El, Em in H. unfold klt in H. cbn in H. rewrite Nat.compare_refl in H.
      apply compare_lt in H. destruct H as [(i & m' & ->) | (c & i & j & a' & b' & -> & -> & Hij)].
      - left. apply path_split in Hm. destruct Hm as (z & Hz & Hy').
        rewrite (path_fun _ _ _ _ _ Hz Hl) in Hy'. apply anc_path. exists (i :: m'). split; [discriminate | exact Hy'].
      - right. apply path_split in Hl, Hm. destruct Hl as (p & Hp & Hx'), Hm as (q & Hq & Hy').
        rewrite (path_fun _ _ _ _ _ Hq Hp) in Hy'.
        apply path_cons_inv in Hx', Hy'. destruct Hx' as (a & Ha & Hx'), Hy' as (b & Hb & Hy').
        exists p, i, j, a, b. repeat split; try assumption; apply anceq_path; eexists; eassumption.
    Qed.
    Lemma before_key x y : InTree h r x -> InTree h r y -> Before h x y -> klt (key x) (key y).
    Proof.
      intros Hx Hy [Ha | (p & i & j & a & b & Ha & Hb & Hij & Hax & Hby)].
      - apply anc_path in Ha. destruct Ha as (l & Hn & Hl). rewrite (key_path h wf _ _ _ Hl).
        apply compare_lt. left. destruct l as [|i l]; [congruence|]. exists i, l. reflexivity.
      - apply anceq_path in Hax, Hby. destruct Hax as (l & Hl), Hby as (m & Hm).
        rewrite (key_path h wf _ _ _ Hl), (key_path h wf _ _ _ Hm), (key_listed h wf _ _ _ Ha), (key_listed h wf _ _ _ Hb).
        apply compare_lt. right. exists (key p), i, j, l, m. rewrite <- !app_assoc. repeat split. exact Hij.
    Qed.
    Lemma before_iff x y : InTree h r x -> InTree h r y -> (Before h x y <-> compare_indexs (key x) (key y) = Lt).
    Proof. intros Hx Hy. split; [apply before_key | apply key_before]; assumption. Qed.
    Lemma before_irrefl x : InTree h r x -> ~ Before h x x.
    Proof. intros Hx H. apply before_key in H; try assumption. exact (klt_irrefl _ H). Qed.
    Lemma before_trans x y z : InTree h r x -> InTree h r y -> InTree h r z ->
      Before h x y -> Before h y z -> Before h x z.
    Proof.
      intros Hx Hy Hz H1 H2. apply key_before; try assumption.
      apply klt_trans with (b := key y); apply before_key; assumption.
    Qed.
    Lemma before_total x y : InTree h r x -> InTree h r y -> Before h x y \/ x = y \/ Before h y x.
    Proof.
      intros Hx Hy. destruct (klt_total (key x) (key y)) as [H | [H | H]].
      - left. apply key_before; assumption.
      - right; left. apply key_inj; assumption.
      - right; right. apply key_before; assumption.
    Qed.
    Lemma before_asym x y : InTree h r x -> InTree h r y -> Before h x y -> ~ Before h y x.
    Proof. intros Hx Hy H1 H2. exact (before_irrefl x Hx (before_trans x y x Hx Hy Hx H1 H2)). Qed.

    Lemma ordered_nodup l : AllIn h r l -> Ordered h l -> NoDup l.
    Proof.
      induction l as [|x l IH]; intros Ha Ho; [constructor|].
      apply Forall_inv in Ha as Hx. apply Forall_inv_tail in Ha. destruct Ho as [H Ho].
      constructor; [|apply IH; assumption]. intros Hi.
      rewrite Forall_forall in H. exact (before_irrefl x Hx (H x Hi)).
    Qed.
    Lemma ordered_unique l m : AllIn h r l -> Ordered h l -> Ordered h m -> SameSet l m -> l = m.
    Proof.
      revert m. induction l as [|x l IH]; intros m Ha Hl Hm HS.
      - destruct m as [|y m]; [reflexivity|]. destruct (proj2 (HS y) (or_introl eq_refl)).
      - assert (Hm' : AllIn h r m).
        { apply Forall_forall. intros y Hy. rewrite Forall_forall in Ha. apply Ha, HS, Hy. }
        destruct m as [|y m]; [destruct (proj1 (HS x) (or_introl eq_refl))|].
        apply Forall_inv in Ha as Hx. apply Forall_inv_tail in Ha as Ha'.
        apply Forall_inv in Hm' as Hy. apply Forall_inv_tail in Hm' as Hm''.
        destruct Hl as [Hxl Hl], Hm as [Hym Hm]. rewrite Forall_forall in Hxl, Hym.
        assert (x = y).
        { destruct (proj1 (HS x) (or_introl eq_refl)) as [-> | Hi]; [reflexivity|].
          destruct (proj2 (HS y) (or_introl eq_refl)) as [-> | Hj]; [reflexivity|].
          destruct (before_asym x y Hx Hy (Hxl _ Hj) (Hym _ Hi)). }
        subst y. f_equal. apply IH; try assumption.
        intros z. split; intros Hz.
        + destruct (proj1 (HS z) (or_intror Hz)) as [<- | H]; [|exact H].
          destruct (before_irrefl x Hx (Hxl _ Hz)).
        + destruct (proj2 (HS z) (or_intror Hz)) as [<- | H]; [|exact H].
          destruct (before_irrefl x Hx (Hym _ Hz)).
    Qed.
    Lemma ordered_filter f l : Ordered h l -> Ordered h (filter f l).
    Proof.
      induction l as [|x l IH]; cbn; [trivial|]. intros [H Ho]. destruct (f x); [|exact (IH Ho)].
      split; [|exact (IH Ho)]. apply Forall_forall. rewrite Forall_forall in H. intros y Hy. apply filter_In in Hy. apply H, Hy.
    Qed.
    Lemma ordered_app l m : Ordered h (l ++ m) <-> Ordered h l /\ Ordered h m /\ (forall x y, In x l -> In y m -> Before h x y).
    Proof.
      induction l as [|x l IH]; cbn.
      - split; [intros H; repeat split; [exact H | intros ? ? []] | intros (_ & H & _); exact H].
      - rewrite IH, Forall_app, !Forall_forall. split.
        + intros ((H1 & H2) & H3 & H4 & H5). repeat split; try assumption.
          intros a b [<- | Ha] Hb; [apply H2; exact Hb | apply H5; assumption].
        + intros ((H1 & H2) & H3 & H4). repeat split; try assumption; [intros b Hb | intros a b Ha Hb]; apply H4; auto.
    Qed.

    (** * Sorting *)
    Fixpoint KSorted (l : list (list nat * id)) : Prop :=
      match l with
      | [] => True
      | k :: l' => Forall (fun k' => klt (fst k) (fst k') \/ fst k = fst k') l' /\ KSorted l'
      end.
    Lemma insert_key_perm k l : Permutation (insert_key k l) (k :: l).
    Proof.
      induction l as [|k' l IH]; cbn; [reflexivity|].
      destruct (compare_indexs (fst k) (fst k')); try reflexivity.
      rewrite IH. apply perm_swap.
    Qed.
    Lemma insert_key_sorted k l : KSorted l -> KSorted (insert_key k l).
    Proof.
      induction l as [|k' l IH]; cbn; [repeat constructor|]. intros [H Hs].
      destruct (compare_indexs (fst k) (fst k')) eqn:E.
      - apply compare_eq in E. cbn. repeat split; try assumption. constructor; [right; exact E|].
        rewrite E. exact H.
      - cbn. repeat split; try assumption. constructor; [left; exact E|].
        rewrite Forall_forall in *. intros z Hz. left. destruct (H z Hz) as [Hz' | <-]; [exact (klt_trans _ _ _ E Hz') | exact E].
      - cbn. split; [|exact (IH Hs)]. rewrite Forall_forall in *. intros z Hz.
        apply (Permutation_in z (insert_key_perm k l)) in Hz. destruct Hz as [<- | Hz]; [|exact (H z Hz)].
        left. unfold klt. rewrite compare_antisym, E. reflexivity.
    Qed.
    Lemma sort_keys_perm l : Permutation (sort_keys l) l.
    Proof.
      induction l as [|k l IH]; [reflexivity|]. cbn. fold (sort_keys l). rewrite insert_key_perm, IH. reflexivity.
    Qed.
    Lemma sort_keys_sorted l : KSorted (sort_keys l).
    Proof. induction l as [|k l IH]; [exact I|]. cbn. fold (sort_keys l). apply insert_key_sorted, IH. Qed.

    Lemma with_key_ok l : rmapl (with_key h) l = Ok (map (fun x => (key x, x)) l).
    Proof. apply rmapl_ok. intros x _. unfold with_key. rewrite (tree_indexs_key h wf x). reflexivity. Qed.

    Fixpoint WOrdered (l : list id) : Prop :=
      match l with
      | [] => True
      | x :: l' => Forall (fun y => Before h x y \/ x = y) l' /\ WOrdered l'
      end.
    Lemma sort_ok l : exists l', sort h l = Ok l' /\ Permutation l' l /\ (AllIn h r l -> WOrdered l').
    Proof.
      unfold sort. rewrite with_key_ok. cbn. set (ks := map (fun x => (key x, x)) l).
      exists (map snd (sort_keys ks)). split; [reflexivity|].
      assert (Hp : Permutation (map snd (sort_keys ks)) l).
      { rewrite (Permutation_map snd (sort_keys_perm ks)). unfold ks. rewrite map_map. cbn. rewrite map_id. reflexivity. }
      split; [exact Hp|]. intros Ha.
      assert (Hk : forall k, In k (sort_keys ks) -> fst k = key (snd k) /\ InTree h r (snd k)).
      { intros k Hk. apply (Permutation_in k (sort_keys_perm ks)) in Hk. unfold ks in Hk.
        apply in_map_iff in Hk. destruct Hk as (x & <- & Hx). split; [reflexivity|].
        rewrite Forall_forall in Ha. exact (Ha x Hx). }
      pose proof (sort_keys_sorted ks) as Hs. revert Hk Hs. generalize (sort_keys ks).
      induction l0 as [|k l0 IH]; intros Hk Hs; [exact I|]. cbn in *. destruct Hs as [H Hs].
      split; [|apply IH; [intros k' Hk'; apply Hk; right; exact Hk' | exact Hs]].
      rewrite Forall_forall in *. intros y Hy. apply in_map_iff in Hy. destruct Hy as (k' & <- & Hk').
      destruct (Hk k (or_introl eq_refl)) as [E1 T1]. destruct (Hk k' (or_intror Hk')) as [E2 T2].
      specialize (H k' Hk'). rewrite E1, E2 in H. destruct H as [H | H].
      - left. apply key_before; assumption.
      - right. apply key_inj; assumption.
    Qed.

    (** * De-duplication *)
    Lemma dedup_from_in x l y : In y (x :: l) <-> In y (x :: dedup_from x l).
    Proof.
      revert x. induction l as [|z l IH]; intros x; cbn; [reflexivity|].
      destruct (Nat.eqb_spec z x) as [-> | Hne].
      - rewrite <- (IH x). cbn. tauto.
      - cbn. rewrite <- (IH z). cbn. tauto.
    Qed.
    Lemma unique_in l y : In y l <-> In y (unique l).
    Proof. destruct l as [|x l]; [reflexivity|]. apply dedup_from_in. Qed.
    Lemma dedup_from_ordered x l : AllIn h r (x :: l) -> WOrdered (x :: l) -> Ordered h (x :: dedup_from x l).
    Proof.
      revert x. induction l as [|z l IH]; intros x Ha Hw.
      { cbn. split; [constructor | exact I]. }
      apply Forall_inv in Ha as Hx. apply Forall_inv_tail in Ha as Ha'. apply Forall_inv in Ha' as Hz.
      apply Forall_inv_tail in Ha' as Ha''.
      destruct Hw as [H Hw]. cbn [dedup_from]. destruct (Nat.eqb_spec z x) as [-> | Hne].
      - apply IH; [exact Ha'|]. exact Hw.
      - assert (Hxz : Before h x z) by (apply Forall_inv in H; destruct H; [assumption | congruence]).
        pose proof (IH z Ha' Hw) as Hd. cbn. split; [|exact Hd].
        destruct Hd as [Hd _].
        constructor; [exact Hxz|]. rewrite Forall_forall in *. intros y Hy.
        apply before_trans with (y := z); try assumption.
        + assert (Hi : In y (z :: l)) by (apply dedup_from_in; right; exact Hy). apply Ha', Hi.
        + exact (Hd y Hy).
    Qed.
    Lemma sort_and_unique_ok l : AllIn h r l ->
      exists l', sort_and_unique h l = Ok l' /\ DocSet h r l' /\ SameSet l' l.
    Proof.
      intros Ha. destruct (sort_ok l) as (m & E & Hp & Hw). specialize (Hw Ha).
      assert (Ham : AllIn h r m).
      { apply Forall_forall. intros x Hx. rewrite Forall_forall in Ha. apply Ha. exact (Permutation_in x Hp Hx). }
      unfold sort_and_unique. rewrite E. cbn. exists (unique m). split; [reflexivity|].
      assert (HS : SameSet (unique m) l).
      { intros x. rewrite <- unique_in. split; intros Hx; [exact (Permutation_in x Hp Hx) | exact (Permutation_in x (Permutation_sym Hp) Hx)]. }
      split; [|exact HS]. split.
      - apply Forall_forall. intros x Hx. rewrite Forall_forall in Ha. apply Ha, HS, Hx.
      - destruct m as [|x m]; [exact I|]. exact (dedup_from_ordered x m Ham Hw).
    Qed.

    (** * Keeping only the topmost elements *)
    Lemma relation_tree x y : InTree h r x -> InTree h r y ->
      match relation_of (key x) (key y) with
      | REqual => x = y
      | RAncestor => Anc h x y
      | RDescendant => Anc h y x
      | RFeature => ~ AncEq h x y /\ ~ AncEq h y x
      end.
    Proof.
      intros Hx Hy. pose proof (relation_of_spec (key x) (key y)) as H.
      assert (Hanc : forall x y i m, InTree h r x -> InTree h r y -> key y = key x ++ i :: m -> Anc h x y).
      { intros x' y' i m Hx' Hy' E. destruct (key_tree x' Hx') as (l & Hl & El). destruct (key_tree y' Hy') as (l' & Hl' & El').
        rewrite El, El' in E. cbn in E. injection E as ->. apply path_split in Hl'. destruct Hl' as (z & Hz & Hy'').
        rewrite (path_fun _ _ _ _ _ Hz Hl) in Hy''. apply anc_path. exists (i :: m). split; [discriminate | exact Hy'']. }
      destruct (relation_of (key x) (key y)).
      - destruct H as (i & m & E). exact (Hanc x y i m Hx Hy E).
      - exact (key_inj x y Hx Hy H).
      - destruct H as (i & m & E). exact (Hanc y x i m Hy Hx E).
      - destruct H as (c & i & j & a & b & E1 & E2 & Hij). split; intros Ha; apply anceq_path in Ha; destruct Ha as (l & Hl);
          apply (key_path h wf) in Hl; rewrite E1, E2, <- app_assoc in Hl; apply app_inv_head in Hl; cbn in Hl; congruence.
    Qed.

    (** The result keeps an element exactly when no other element of the set is above it. *)
    Definition Topmost (l : list id) (x : id) : Prop := In x l /\ forall y, In y l -> ~ Anc h y x.

    (** In document order, what comes between an element and one of its descendants is also a descendant. *)
    Lemma before_between a x y : InTree h r a -> InTree h r x -> InTree h r y ->
      Before h a x -> Before h x y -> Anc h a y -> Anc h a x.
    Proof.
      intros Ha Hx Hy H1 H2 H3. apply before_key in H1; try assumption. apply before_key in H2; try assumption.
      apply anc_path in H3. destruct H3 as (l & Hn & Hl). rewrite (key_path h wf _ _ _ Hl) in H2.
      pose proof (relation_tree a x Ha Hx) as Hr. pose proof (relation_of_spec (key a) (key x)) as Hs.
      destruct (relation_of (key a) (key x)).
      - exact Hr.
      - subst x. destruct (klt_irrefl _ H1).
      - destruct Hs as (i & m & E). rewrite E in H1. assert (klt (key x) (key x ++ i :: m)) by (apply compare_lt; left; exists i, m; reflexivity).
        destruct (klt_irrefl _ (klt_trans _ _ _ H1 H)).
      - destruct Hs as (c & i & j & a' & b' & E1 & E2 & Hij). exfalso. rewrite E1, E2 in *.
        unfold klt in H1, H2. rewrite compare_app in H1. rewrite <- app_assoc, compare_app in H2. cbn in H1, H2.
        rewrite Nat.compare_antisym in H2. destruct (Nat.compare_spec i j); cbn in *; try congruence. 
    Qed.

    Lemma up_step_rfold l : forall s z0,
      AllIn h r l -> Ordered h l ->
      (s = [] \/ exists s0 t, s = s0 ++ [(key t, t)] /\ InTree h r t /\ (forall x, In x l -> Before h t x)) ->
      s = map (fun x => (key x, x)) z0 ->
      exists l', rfold (up_step h) l s = Ok (map (fun x => (key x, x)) (z0 ++ l')) /\
        incl l' l /\ Ordered h l' /\
        (forall x, In x l -> (In x l' <-> (forall y, In y l -> ~ Anc h y x) /\ (forall t s0, s = s0 ++ [(key t, t)] -> ~ Anc h t x))).
    Proof.
      induction l as [|x l IH]; intros s z0 Ha Ho Hs Ez.
      - exists []. cbn. rewrite app_nil_r, Ez. split; [reflexivity|]. split; [intros ? []|]. split; [exact I|]. intros ? [].
      - apply Forall_inv in Ha as Hx. apply Forall_inv_tail in Ha as Ha'. destruct Ho as [Hxl Ho].
        cbn [rfold]. unfold up_step at 1. rewrite (tree_indexs_key h wf x). cbn [rbind].
        assert (Hnew : forall s1 z1, s1 = map (fun x => (key x, x)) z1 ->
           rfold (up_step h) l (s1 ++ [(key x, x)]) = rfold (up_step h) l (s1 ++ [(key x, x)])  ->
           exists l', rfold (up_step h) l (s1 ++ [(key x, x)]) = Ok (map (fun x => (key x, x)) (z1 ++ x :: l')) /\
             incl l' l /\ Ordered h l' /\
             (forall y, In y l -> (In y l' <-> (forall z, In z l -> ~ Anc h z y) /\ ~ Anc h x y))).
        { intros s1 z1 E1 _. destruct (IH (s1 ++ [(key x, x)]) (z1 ++ [x])) as (l' & E & Hi & Ho' & Hc).
          - exact Ha'.
          - exact Ho.
          - right. exists s1, x. split; [reflexivity|]. split; [exact Hx|]. rewrite Forall_forall in Hxl. exact Hxl.
          - rewrite map_app, E1. reflexivity.
          - exists l'. rewrite <- app_assoc in E. split; [exact E|]. split; [exact Hi|]. split; [exact Ho'|].
            intros y Hy. rewrite (Hc y Hy). split; intros [H1 H2]; (split; [exact H1|]).
            + exact (H2 x s1 eq_refl).
            + intros t s0 E0. apply app_inj_tail in E0. destruct E0 as [_ E0]. injection E0 as _ <-. exact H2. }
        assert (Hfirst : forall y, In y l -> ~ Anc h y x).
        { intros y Hy Hyx. rewrite Forall_forall in Hxl, Ha'. apply (before_asym x y Hx (Ha' y Hy) (Hxl y Hy)). left. exact Hyx. }
        destruct Hs as [-> | (s0 & t & -> & Ht & Hb)].
        + cbn [rev rbind]. destruct z0 as [|z0 z0']; [|discriminate].
          destruct (Hnew [] [] eq_refl eq_refl) as (l' & E & Hi & Ho' & Hc). cbn [app] in E. rewrite E.
          exists (x :: l'). split; [reflexivity|]. split.
          { intros y [<- | Hy]; [left; reflexivity | right; exact (Hi y Hy)]. }
          split.
          { split; [|exact Ho']. rewrite Forall_forall in *. intros y Hy. exact (Hxl y (Hi y Hy)). }
          intros y [<- | Hy].
          * split; [|intros _; left; reflexivity]. intros _. split; [|intros t s0 E0; destruct s0; discriminate].
            intros z [<- | Hz]; [apply (anc_irrefl h wf) | exact (Hfirst z Hz)].
          * split.
            -- intros [<- | Hy']; [exfalso; rewrite Forall_forall in Hxl; exact (before_irrefl x Hx (Hxl x Hy))|].
               apply (Hc y Hy) in Hy'. destruct Hy' as [H1 H2]. split; [|intros t s0 E0; destruct s0; discriminate].
               intros z [<- | Hz]; [exact H2 | exact (H1 z Hz)].
            -- intros [H1 _]. right. apply (Hc y Hy). split; [intros z Hz; apply H1; right; exact Hz | apply H1; left; reflexivity].
        + rewrite rev_app_distr. cbn [rev app].
          pose proof (relation_tree x t Hx Ht) as Hrel.
          pose proof (Hb x (or_introl eq_refl)) as Htx.
          destruct (relation_of (key x) (key t)); cbn [rbind].
          * exfalso. apply (before_asym t x Ht Hx Htx). left; exact Hrel.
          * exfalso. subst t. exact (before_irrefl x Hx Htx).
          * (* below the last kept one *)
            destruct (IH (s0 ++ [(key t, t)]) z0) as (l' & E & Hi & Ho' & Hc); try assumption.
            { right. exists s0, t. split; [reflexivity|]. split; [exact Ht|]. intros y Hy. apply Hb. right; exact Hy. }
            exists l'. split; [exact E|]. split; [intros y Hy; right; exact (Hi y Hy)|]. split; [exact Ho'|].
            intros y [<- | Hy].
            { split.
              - intros Hx'. exfalso. apply Hi in Hx'. rewrite Forall_forall in Hxl. exact (before_irrefl x Hx (Hxl x Hx')).
              - intros [_ H2]. destruct (H2 t s0 eq_refl Hrel). }
            rewrite (Hc y Hy). split; intros [H1 H2]; (split; [|exact H2]).
            { intros z [<- | Hz]; [|exact (H1 z Hz)]. intros Hxy. apply (H2 t s0 eq_refl). exact (anc_trans _ _ _ _ Hrel Hxy). }
            { intros z Hz. apply H1. right; exact Hz. }
          * (* unrelated *)
            destruct (Hnew (s0 ++ [(key t, t)]) z0 Ez eq_refl) as (l' & E & Hi & Ho' & Hc). rewrite E.
            exists (x :: l'). split; [reflexivity|]. split.
            { intros y [<- | Hy]; [left; reflexivity | right; exact (Hi y Hy)]. }
            split.
            { split; [|exact Ho']. rewrite Forall_forall in *. intros y Hy. exact (Hxl y (Hi y Hy)). }
            assert (Htn : forall y, In y l -> ~ Anc h t y).
            { intros y Hy Hty. rewrite Forall_forall in Hxl, Ha'. apply (proj2 Hrel). right.
              exact (before_between t x y Ht Hx (Ha' y Hy) Htx (Hxl y Hy) Hty). }
            intros y [<- | Hy].
            { split; [|intros _; left; reflexivity]. intros _. split.
              - intros z [<- | Hz]; [apply (anc_irrefl h wf) | exact (Hfirst z Hz)].
              - intros t' s1 E0 Hax. apply app_inj_tail in E0. destruct E0 as [_ E0]. injection E0 as _ <-. apply (proj2 Hrel). right; exact Hax. }
            { split.
              - intros [<- | Hy']; [exfalso; rewrite Forall_forall in Hxl; exact (before_irrefl x Hx (Hxl x Hy))|].
                apply (Hc y Hy) in Hy'. destruct Hy' as [H1 H2]. split.
                + intros z [<- | Hz]; [exact H2 | exact (H1 z Hz)].
                + intros t' s1 E0. apply app_inj_tail in E0. destruct E0 as [_ E0]. injection E0 as _ <-. exact (Htn y Hy).
              - intros [H1 _]. right. apply (Hc y Hy). split; [intros z Hz; apply H1; right; exact Hz | apply H1; left; reflexivity]. }
    Qed.

    Lemma unique_parents_ok l : DocSet h r l ->
      exists l', unique_parents h l = Ok l' /\ DocSet h r l' /\ (forall x, In x l' <-> Topmost l x).
    Proof.
      intros [Ha Ho]. destruct (up_step_rfold l [] [] Ha Ho (or_introl eq_refl) eq_refl) as (l' & E & Hi & Ho' & Hc).
      unfold unique_parents. rewrite E. cbn. exists l'. rewrite map_map. cbn. rewrite map_id. split; [reflexivity|].
      split.
      - split; [|exact Ho']. apply Forall_forall. intros x Hx. rewrite Forall_forall in Ha. exact (Ha x (Hi x Hx)).
      - intros x. split.
        + intros Hx. pose proof (Hi x Hx) as Hxl. split; [exact Hxl|]. apply (Hc x Hxl) in Hx. exact (proj1 Hx).
        + intros [Hxl H]. apply (Hc x Hxl). split; [exact H|]. intros t s0 E0. destruct s0; discriminate.
    Qed.

    (** Every element of the set is at or below a topmost one. *)
    Lemma topmost_covers l x : AllIn h r l -> In x l -> exists t, Topmost l t /\ AncEq h t x.
    Proof.
      intros Ha. revert x. apply (up_ind_wf h wf (fun x => In x l -> exists t, Topmost l t /\ AncEq h t x)).
      assert (Hdec : forall x, InTree h r x -> (exists y, In y l /\ Anc h y x) \/ (forall y, In y l -> ~ Anc h y x)).
      { intros x Hx. clear - Ha Hx wf. induction l as [|y l IH]; [right; intros ? []|].
        apply Forall_inv in Ha as Hy. apply Forall_inv_tail in Ha. destruct (IH Ha) as [(z & Hz & Hzx) | Hn].
        - left. exists z. split; [right; exact Hz | exact Hzx].
        - pose proof (relation_tree y x Hy Hx) as Hr. destruct (relation_of (key y) (key x)).
          + left. exists y. split; [left; reflexivity | exact Hr].
          + right. subst y. intros z [<- | Hz]; [apply (anc_irrefl h wf) | exact (Hn z Hz)].
          + right. intros z [<- | Hz]; [apply (anc_asym h wf); exact Hr | exact (Hn z Hz)].
          + right. intros z [<- | Hz]; [intros H; apply (proj1 Hr); right; exact H | exact (Hn z Hz)]. }
      (* strong induction on the parent chain: use the length of the key *)
      assert (Hlen : forall n x, length (key x) < n -> In x l -> exists t, Topmost l t /\ AncEq h t x).
      { induction n as [|n IHn]; intros x Hn Hxl; [lia|].
        assert (Hx : InTree h r x) by (rewrite Forall_forall in Ha; exact (Ha x Hxl)).
        destruct (Hdec x Hx) as [(y & Hy & Hyx) | Hno].
        - destruct (IHn y) as (t & Ht & Hty).
          + apply anc_path in Hyx. destruct Hyx as (m & Hm & Hp). rewrite (key_path h wf _ _ _ Hp), app_length in Hn.
            destruct m; [congruence|]. cbn in Hn. lia.
          + exact Hy.
          + exists t. split; [exact Ht | right; exact (anceq_anc _ _ _ _ Hty Hyx)].
        - exists x. split; [split; assumption | left; reflexivity]. }
      intros x _ Hx. exact (Hlen (S (length (key x))) x (Nat.lt_succ_diag_r _) Hx).
    Qed.
  End Tree.
End WithWF.
