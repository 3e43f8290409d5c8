(** Checking the conditions of the filter and find theorems on concrete documents.  Nothing here models code. *)
From Verif Require Import Base Attr Dom DomSpec Order OrderSpec DomProofs OrderProofs DomBuild DomBuildProofs Nth
  Engine Rules SelSpec FindSpec OneProofs PreProofs SelBool SelBuild.

Section Defs.
  Variable h : heap.
  Variable text_of : id -> str.
  Definition beforeb (x y : id) : bool := match compare_indexs (key h x) (key h y) with Lt => true | _ => false end.
  Definition add_check (a b : id -> bool) : bool :=
    forallb (fun x => negb (a x && b x && forallb (fun z => negb (a z && beforeb x z)) (all_els h)) ||
                      forallb (fun y => negb (b y && beforeb x y)) (all_els h)) (all_els h).
  Fixpoint adds_check (a : id -> bool) (bs : list (id -> bool)) : bool :=
    match bs with
    | [] => true
    | b :: bs' => add_check a b && adds_check (fun x => a x || b x) bs'
    end.
  Definition compsb (cp : list (rule * comb)) : bcompound := map (fun e : rule * comb => let '(r', c) := e in (holdsb h text_of r', c)) cp.
  Definition stepb (p : id -> bool) (cp : list (rule * comb)) : id -> bool :=
    let next := filter (fun x => compb (compsb cp) x && existsb (fun s => p s && relb h (comp_comb cp) s x) (all_els h)) (all_els h) in
    fun x => existsb (Nat.eqb x) next.
  Fixpoint walkb (p : id -> bool) (g : list (list (rule * comb))) : id -> bool :=
    match g with
    | [] => p
    | cp :: g' => let p' := stepb p cp in walkb p' g'
    end.
  Definition nest_check (p : id -> bool) : bool := forallb (fun u => negb (p u) || forallb (fun v => negb (p v && upb h u v)) (all_els h)) (all_els h).
  Definition follow_check (p : id -> bool) : bool :=
    forallb (fun u => negb (p u) || forallb (fun v => negb (p v) || forallb (fun z => negb (relb h NextAll u z && upb h z v)) (all_els h)) (all_els h)) (all_els h).
  Definition ord_check (c : comb) (p : id -> bool) (o : bool) : bool :=
    match c with
    | ChildrenAll => true
    | Children | Next => o && nest_check p
    | NextAll => o && nest_check p && follow_check p
    | _ => false
    end.
  Definition all_check (p : id -> bool) (q : id -> bool) : bool := forallb (fun x => negb (p x) || q x) (all_els h).
  Definition safe_check (c : comb) (rl : rule) (p : id -> bool) : bool :=
    match c with
    | ChildrenAll => negb (last_number rl) || all_check p (fun x => nonempty (kids h x))
    | Children => negb (is_id rl) && (negb (last_number rl) || all_check p (fun x => nonempty (kids h x))) &&
        (nth_at0 rl || all_check p (fun x => nonempty (children h x)))
    | _ => true
    end.
  Fixpoint steps_check (p : id -> bool) (o : bool) (g : list (list (rule * comb))) : bool :=
    match g with
    | [] => true
    | cp :: g' =>
        let o' := ord_check (comp_comb cp) p o in
        (comp_any_order cp || o') && (negb (comb_eqb (comp_comb cp) ChildrenAll) || o) &&
        safe_check (comp_comb cp) (head_rule cp) p && (let p' := stepb p cp in steps_check p' o' g')
    end.
  Fixpoint steps_ord_check (p : id -> bool) (o : bool) (g : list (list (rule * comb))) : bool :=
    match g with
    | [] => o
    | cp :: g' => let p' := stepb p cp in steps_ord_check p' (ord_check (comp_comb cp) p o) g'
    end.
  Definition inb (els : list id) (x : id) : bool := existsb (Nat.eqb x) els.
  Definition find_check (els : list id) (g : list (list (rule * comb))) : bool :=
    if looks_up g then
      match skipn (pivot g) g with
      | cp :: rest => safe_check ChildrenAll (head_rule cp) (inb els) && steps_check (walkb (inb els) (firstn (S (pivot g)) g)) true rest
      | [] => false
      end
    else steps_check (inb els) true g.
  Definition find_ord_check (els : list id) (g : list (list (rule * comb))) : bool :=
    if looks_up g then steps_ord_check (walkb (inb els) (firstn (S (pivot g)) g)) true (skipn (S (pivot g)) g)
    else steps_ord_check (inb els) true g.
End Defs.

Section Check.
  Variable h : heap.
  Variable r : id.
  Variable text_of : id -> str.
  Hypothesis D : DocOk h r.
  Let wf : WF h := do_wf h r D.
  Hypothesis Whole : AllIn h r (seq 0 (length h)).

  Lemma all_spec x : In x (all_els h) <-> ElIn h r x.
  Proof.
    split; [|exact (all_els_in h r x D)]. intros Hx. unfold all_els in Hx. apply filter_In in Hx. rewrite Forall_forall in Whole.
    split; [exact (Whole x (proj1 Hx)) | apply Hx].
  Qed.
  (** A computable set of elements. *)
  Definition Decides (p : id -> bool) (P : id -> Prop) : Prop := (forall x, P x -> ElIn h r x) /\ forall x, ElIn h r x -> (p x = true <-> P x).

  (** * UnionOk *)
  Lemma beforeb_spec x y : ElIn h r x -> ElIn h r y -> (beforeb h x y = true <-> Before h x y).
  Proof.
    intros Hx Hy. rewrite (before_iff h wf r x y (proj1 Hx) (proj1 Hy)). unfold beforeb. destruct (compare_indexs (key h x) (key h y)); split; congruence.
  Qed.
  Lemma all_false (q : id -> bool) : forallb (fun z => negb (q z)) (all_els h) = false -> exists z, ElIn h r z /\ q z = true.
  Proof.
    intros H. destruct (existsb q (all_els h)) eqn:E.
    - apply existsb_exists in E. destruct E as (z & Hz & E). exists z. split; [apply all_spec; exact Hz | exact E].
    - exfalso. rewrite <- not_true_iff_false in H. apply H. apply forallb_forall. intros z Hz. apply negb_true_iff. apply not_true_is_false. intros Eq.
      assert (existsb q (all_els h) = true) by (apply existsb_exists; exists z; split; assumption). congruence.
  Qed.
  Lemma add_check_sound a b A B : Decides a A -> Decides b B -> add_check h a b = true -> AddFree h A B.
  Proof.
    intros [HA1 HA2] [HB1 HB2] H.
    assert (G : forall x y, A x -> (forall z, A z -> ~ Before h x z) -> B x -> B y -> ~ Before h x y).
    2:{ split; [intros (Hs & x & y & Hx & Hm & Hy & Hxy); exact (G x y Hx Hm (Hs x Hx) Hy Hxy)|].
        intros la lb Hla Hlb HA HB (a0 & x & b1 & b2 & v & Ea & Eb & Hne & _).
        assert (HAx : A x) by (apply HA; rewrite Ea; apply in_elt). assert (Hx : InTree h r x) by (apply (HA1 x HAx)).
        destruct b2 as [|y b2]; [congruence|]. apply (G x y HAx).
        - intros z Hz Hxz. pose proof (proj1 (HA1 z Hz)) as Hzt. apply HA in Hz. rewrite Ea in Hz, Hla. apply ordered_app in Hla. destruct Hla as (_ & _ & Hs).
          apply in_app_iff in Hz. destruct Hz as [Hz | [<- | []]]; [|exact (before_irrefl h wf r x Hx Hxz)].
          exact (before_asym h wf r x z Hx Hzt Hxz (Hs z x Hz (or_introl eq_refl))).
        - apply HB. rewrite Eb. apply in_elt.
        - apply HB. rewrite Eb. apply in_app_iff. right; right; left; reflexivity.
        - rewrite Eb in Hlb. apply ordered_app in Hlb. destruct Hlb as (_ & [Hlb _] & _). apply Forall_inv in Hlb. exact Hlb. }
    intros x y HAx Hmax HBx HBy HBf. pose proof (HA1 x HAx) as Hx. pose proof (HB1 y HBy) as Hy.
    unfold add_check in H. rewrite forallb_forall in H. specialize (H x (proj2 (all_spec x) Hx)). apply orb_true_iff in H. destruct H as [H | H].
    - apply negb_true_iff, andb_false_iff in H. rewrite andb_false_iff in H. destruct H as [[H | H] | H].
      + apply (HA2 x Hx) in HAx. congruence.
      + apply (HB2 x Hx) in HBx. congruence.
      + apply all_false in H. destruct H as (z & Hz & E). apply andb_true_iff in E. destruct E as [E1 E2]. apply (beforeb_spec x z Hx Hz) in E2.
        apply (Hmax z); [apply (HA2 z Hz); exact E1 | exact E2].
    - rewrite forallb_forall in H. specialize (H y (proj2 (all_spec y) Hy)). apply negb_true_iff, andb_false_iff in H. destruct H as [H | H].
      + apply (HB2 y Hy) in HBy. congruence.
      + apply (beforeb_spec x y Hx Hy) in HBf. congruence.
  Qed.
  Lemma adds_check_sound bs Bs : Forall2 Decides bs Bs -> forall a A, Decides a A -> adds_check h a bs = true -> AddsFree h A Bs.
  Proof.
    induction 1 as [|b B bs Bs HB _ IH]; intros a A HA H; [exact I|]. cbn in H. apply andb_true_iff in H. destruct H as [H1 H2]. split.
    - exact (add_check_sound a b A B HA HB H1).
    - apply (IH (fun x => a x || b x)); [|exact H2]. destruct HA as [HA1 HA2], HB as [HB1 HB2]. split.
      + intros x [Hx | Hx]; [exact (HA1 x Hx) | exact (HB1 x Hx)].
      + intros x Hx. rewrite orb_true_iff, (HA2 x Hx), (HB2 x Hx). reflexivity.
  Qed.
  Lemma union_check_sound bs Bs : Forall2 Decides bs Bs -> adds_check h (fun _ => false) bs = true -> UnionOk h Bs.
  Proof.
    intros HB H. apply (adds_check_sound bs Bs HB (fun _ => false)); [|exact H]. split; [intros x [] | intros x _; split; [discriminate | intros []]].
  Qed.

  (** * FindOk *)
  Lemma inb_spec els x : inb els x = true <-> In x els.
  Proof.
    unfold inb. rewrite existsb_exists. split.
    - intros (y & Hy & E). apply Nat.eqb_eq in E. subst y. exact Hy.
    - intros Hx. exists x. split; [exact Hx | apply Nat.eqb_refl].
  Qed.
  Lemma decides_in els : Forall (ElIn h r) els -> Decides (inb els) (fun x => In x els).
  Proof. intros H. rewrite Forall_forall in H. split; [exact H | intros x _; apply inb_spec]. Qed.
  Lemma stepb_spec p P cp : Decides p P -> comp_wf cp = true -> CompOk h r text_of cp -> Decides (stepb h text_of p cp) (Step h P (comp_preds h text_of cp)).
  Proof.
    intros [HP1 HP2] Hw Hok. assert (Hf : fwd (comp_comb cp) = true) by (destruct cp as [|[rl c] cp]; [discriminate|]; apply andb_true_iff in Hw; apply Hw).
    assert (Ec : comp_comb (comp_preds h text_of cp) = comp_comb cp) by apply comp_comb_map.
    split.
    - intros x [(s & Hs & HR) _]. rewrite Ec in HR. exact (rel_el h r D _ s x (proj1 (HP1 s Hs)) Hf HR).
    - intros x Hx. unfold stepb. change (existsb (Nat.eqb x) ?l) with (inb l x). rewrite inb_spec, filter_In, andb_true_iff, existsb_exists.
      assert (HC : compb (compsb h text_of cp) x = true <-> CompHolds (comp_preds h text_of cp) x).
      { apply (compb_spec h r text_of cp x Hx). intros rl c Hi. exact (holdsb_spec h r text_of D rl (Hok rl c Hi)). }
      rewrite HC. unfold Step. rewrite Ec. split.
      + intros (_ & H & s & Hs & E). apply andb_true_iff in E. destruct E as [E1 E2]. apply all_spec in Hs. split; [|exact H]. exists s.
        split; [apply (HP2 s Hs); exact E1 | apply (relb_spec h r D _ s x Hf Hx Hs); exact E2].
      + intros ((s & Hs & HR) & H). pose proof (HP1 s Hs) as Hs'. split; [apply all_spec; exact Hx|]. split; [exact H|]. exists s. split; [apply all_spec; exact Hs'|].
        apply andb_true_iff. split; [apply (HP2 s Hs'); exact Hs | apply (relb_spec h r D _ s x Hf Hx Hs'); exact HR].
  Qed.
  Lemma walkb_spec g : forallb comp_wf g = true -> GroupOk h r text_of g -> forall p P, Decides p P -> Decides (walkb h text_of p g) (Walk h P (preds h text_of g)).
  Proof.
    induction g as [|cp g IH]; intros Hw Hok p P HP; [exact HP|]. cbn in Hw. apply andb_true_iff in Hw. destruct Hw as [Hw1 Hw2]. cbn [walkb preds map Walk].
    apply IH; [exact Hw2 | intros cp' Hc; apply Hok; right; exact Hc|]. apply stepb_spec; [exact HP | exact Hw1 | apply Hok; left; reflexivity].
  Qed.
  Lemma nest_check_sound p P : Decides p P -> nest_check h p = true -> NestFree h P.
  Proof.
    intros [HP1 HP2] H u v Hu Hv Ha. pose proof (HP1 u Hu) as Eu. pose proof (HP1 v Hv) as Ev. unfold nest_check in H. rewrite forallb_forall in H.
    specialize (H u (proj2 (all_spec u) Eu)). rewrite (proj2 (HP2 u Eu) Hu) in H. cbn [negb orb] in H. rewrite forallb_forall in H. specialize (H v (proj2 (all_spec v) Ev)).
    rewrite (proj2 (HP2 v Ev) Hv), (proj2 (upb_spec h r D v u (proj1 Ev)) Ha) in H. discriminate.
  Qed.
  Lemma follow_check_sound p P : Decides p P -> follow_check h p = true -> NoFollow h P.
  Proof.
    intros [HP1 HP2] H u v z Hu Hv Hf Ha. pose proof (HP1 u Hu) as Eu. pose proof (HP1 v Hv) as Ev. unfold follow_check in H. rewrite forallb_forall in H.
    specialize (H u (proj2 (all_spec u) Eu)). rewrite (proj2 (HP2 u Eu) Hu) in H. cbn [negb orb] in H. rewrite forallb_forall in H. specialize (H v (proj2 (all_spec v) Ev)).
    rewrite (proj2 (HP2 v Ev) Hv) in H. cbn [negb orb] in H. rewrite forallb_forall in H. assert (Ez : ElIn h r z) by exact (rel_el h r D NextAll u z (proj1 Eu) eq_refl Hf).
    specialize (H z (proj2 (all_spec z) Ez)). rewrite (proj2 (relb_spec h r D NextAll u z eq_refl Ez Eu) Hf), (proj2 (upb_spec h r D v z (proj1 Ev)) Ha) in H. discriminate.
  Qed.
  Lemma ord_check_sound c p P o (ord : Prop) : Decides p P -> (o = true -> ord) -> ord_check h c p o = true -> OrdAfter h c P ord.
  Proof.
    intros HP Ho H. destruct c; cbn in *; try discriminate; try exact I; rewrite ?andb_true_iff in H.
    - split; [apply Ho; apply H | apply (nest_check_sound p P HP); apply H].
    - destruct H as [[H1 H2] H3]. split; [exact (Ho H1)|]. split; [exact (nest_check_sound p P HP H2) | exact (follow_check_sound p P HP H3)].
    - split; [apply Ho; apply H | apply (nest_check_sound p P HP); apply H].
  Qed.
  Lemma all_check_sound p P q : Decides p P -> all_check h p q = true -> forall x, P x -> q x = true.
  Proof.
    intros [HP1 HP2] H x Hx. pose proof (HP1 x Hx) as Ex. unfold all_check in H. rewrite forallb_forall in H. specialize (H x (proj2 (all_spec x) Ex)).
    rewrite (proj2 (HP2 x Ex) Hx) in H. exact H.
  Qed.
  Lemma safe_check_sound c rl p P : Decides p P -> safe_check h c rl p = true -> RuleSafe h c rl P.
  Proof.
    intros HP H. destruct c; try exact I; cbn in *.
    - intros El x Hx _. rewrite El in H. cbn in H. apply (all_check_sound p P _ HP H) in Hx. cbv beta in Hx. intros E0. rewrite E0 in Hx. discriminate.
    - rewrite !andb_true_iff, negb_true_iff in H. destruct H as [[H1 H2] H3]. split; [exact H1|]. split.
      + intros El x Hx. rewrite El in H2. cbn in H2. apply (all_check_sound p P _ HP H2) in Hx. cbv beta in Hx. intros E0. rewrite E0 in Hx. discriminate.
      + intros El x Hx. rewrite El in H3. cbn in H3. apply (all_check_sound p P _ HP H3) in Hx. cbv beta in Hx. intros E0. rewrite E0 in Hx. discriminate.
  Qed.
  Lemma steps_check_sound g : forallb comp_wf g = true -> GroupOk h r text_of g -> forall p P o (ord : Prop), Decides p P -> (o = true -> ord) ->
    steps_check h text_of p o g = true -> StepsOk h text_of P ord g.
  Proof.
    induction g as [|cp g IH]; intros Hw Hok p P o ord HP Ho H; [exact I|]. cbn in Hw. apply andb_true_iff in Hw. destruct Hw as [Hw1 Hw2].
    cbn [steps_check] in H. cbn zeta in H. rewrite !andb_true_iff, !orb_true_iff in H. destruct H as [[[H1 H2] H3] H4]. cbn [StepsOk].
    split; [destruct H1 as [H1 | H1]; [left; exact H1 | right; exact (ord_check_sound _ p P o ord HP Ho H1)]|].
    split; [intros E; rewrite E in H2; cbn in H2; destruct H2 as [H2 | H2]; [discriminate | exact (Ho H2)]|].
    split; [exact (safe_check_sound _ _ p P HP H3)|].
    apply (IH Hw2 (fun cp' Hc => Hok cp' (or_intror Hc)) (stepb h text_of p cp) _ (ord_check h (comp_comb cp) p o)); [| |exact H4].
    - exact (stepb_spec p P cp HP Hw1 (Hok cp (or_introl eq_refl))).
    - exact (ord_check_sound _ p P o ord HP Ho).
  Qed.
  Lemma steps_ord_sound g : forallb comp_wf g = true -> GroupOk h r text_of g -> forall p P o (ord : Prop), Decides p P -> (o = true -> ord) ->
    steps_ord_check h text_of p o g = true -> StepsOrd h text_of P ord g.
  Proof.
    induction g as [|cp g IH]; intros Hw Hok p P o ord HP Ho H; [exact (Ho H)|]. cbn in Hw. apply andb_true_iff in Hw. destruct Hw as [Hw1 Hw2].
    cbn [steps_ord_check] in H. cbn zeta in H. cbn [StepsOrd].
    apply (IH Hw2 (fun cp' Hc => Hok cp' (or_intror Hc)) (stepb h text_of p cp) _ (ord_check h (comp_comb cp) p o)); [| |exact H].
    - exact (stepb_spec p P cp HP Hw1 (Hok cp (or_introl eq_refl))).
    - exact (ord_check_sound _ p P o ord HP Ho).
  Qed.
  Lemma wf_firstn {A} n (g : list (list (A * comb))) : forallb comp_wf g = true -> forallb comp_wf (firstn n g) = true.
  Proof. rewrite !forallb_forall. intros H x Hx. apply H. exact (in_firstn n g x Hx). Qed.
  Lemma in_skipn {A} n (l : list A) x : In x (skipn n l) -> In x l.
  Proof. intros H. rewrite <- (firstn_skipn n l). apply in_or_app. right. exact H. Qed.
  Lemma wf_skipn {A} n (g : list (list (A * comb))) : forallb comp_wf g = true -> forallb comp_wf (skipn n g) = true.
  Proof. rewrite !forallb_forall. intros H x Hx. apply H. exact (in_skipn n g x Hx). Qed.
  Lemma find_check_sound els g : Forall (ElIn h r) els -> group_wf g = true -> GroupOk h r text_of g -> find_check h text_of els g = true -> FindOk h text_of els g.
  Proof.
    intros He Hw Hok H. unfold group_wf in Hw. apply andb_true_iff in Hw. destruct Hw as [_ Hw]. unfold find_check in H. unfold FindOk. destruct (looks_up g).
    - destruct (skipn (pivot g) g) as [|cp rest] eqn:Es; [discriminate|]. apply andb_true_iff in H. destruct H as [H1 H2].
      split; [exact (safe_check_sound _ _ _ _ (decides_in els He) H1)|].
      assert (Hsub : forall cp', In cp' rest -> In cp' g) by (intros cp' Hc; apply (in_skipn (pivot g)); rewrite Es; right; exact Hc).
      refine (steps_check_sound rest _ _ _ _ true True _ (fun _ => I) H2).
      + rewrite forallb_forall in *. intros cp' Hc. apply Hw, Hsub, Hc.
      + intros cp' Hc. apply Hok, Hsub, Hc.
      + apply walkb_spec; [apply wf_firstn; exact Hw | intros cp' Hc; apply Hok; exact (in_firstn _ _ _ Hc) | exact (decides_in els He)].
    - exact (steps_check_sound g Hw Hok _ _ true True (decides_in els He) (fun _ => I) H).
  Qed.
  Lemma find_ord_sound els g : Forall (ElIn h r) els -> group_wf g = true -> GroupOk h r text_of g -> find_ord_check h text_of els g = true -> FindOrd h text_of els g.
  Proof.
    intros He Hw Hok H. unfold group_wf in Hw. apply andb_true_iff in Hw. destruct Hw as [_ Hw]. unfold find_ord_check in H. unfold FindOrd. destruct (looks_up g).
    - refine (steps_ord_sound _ _ _ _ _ true True _ (fun _ => I) H).
      + apply wf_skipn. exact Hw.
      + intros cp' Hc. apply Hok. exact (in_skipn _ _ _ Hc).
      + apply walkb_spec; [apply wf_firstn; exact Hw | intros cp' Hc; apply Hok; exact (in_firstn _ _ _ Hc) | exact (decides_in els He)].
    - exact (steps_ord_sound g Hw Hok _ _ true True (decides_in els He) (fun _ => I) H).
  Qed.
End Check.
