(** What [has_ele] and the filter functions compute. *)
From Verif Require Import Base Attr Dom DomSpec Order DomProofs OrderSpec OrderProofs
  Sets SetsProofs AddProofs AddExact NavProofs Engine Rules SelSpec OneProofs PreProofs SelBool SibLists SibProofs StepProofs BackProofs.

Lemma rexists_prop {A} (f : A -> res bool) (P : A -> Prop) l : (forall x, In x l -> exists b, f x = Ok b /\ (b = true <-> P x)) ->
  exists b, rexists f l = Ok b /\ (b = true <-> exists x, In x l /\ P x).
Proof.
  intros H. exists (existsb (fun x => ok_or (f x)) l). split.
  - apply rexists_ok. intros x Hx. destruct (H x Hx) as (b & -> & _). reflexivity.
  - rewrite existsb_exists. split.
    + intros (x & Hx & E). exists x. split; [exact Hx|]. destruct (H x Hx) as (b & Eb & Hb). rewrite Eb in E. apply Hb. exact E.
    + intros (x & Hx & HP). exists x. split; [exact Hx|]. destruct (H x Hx) as (b & -> & Hb). apply Hb. exact HP.
Qed.
Lemma rfilter_prop {A} (f : A -> res bool) (p : A -> bool) l : (forall x, In x l -> exists b, f x = Ok b /\ (b = true <-> p x = true)) ->
  rfilter f l = Ok (filter p l).
Proof.
  intros H. apply rfilter_ok. intros x Hx. destruct (H x Hx) as (b & -> & Hb). f_equal. apply eq_true_iff_eq. exact Hb.
Qed.
Lemma existsb_prop {A} (p : A -> bool) (P : A -> Prop) l : (forall x, In x l -> (p x = true <-> P x)) ->
  (existsb p l = true <-> exists x, In x l /\ P x).
Proof.
  intros H. rewrite existsb_exists. split; intros (x & Hx & HP); exists x; (split; [exact Hx | apply (H x Hx); exact HP]).
Qed.
Lemma nonempty_filter {A} (p : A -> bool) l : nonempty (filter p l) = existsb p l.
Proof. induction l as [|x l IH]; [reflexivity|]. cbn. destruct (p x); [reflexivity | exact IH]. Qed.

Lemma not_in_filter els q : NoDup els -> not_in els (filter q els) = filter (fun x => negb (q x)) els.
Proof.
  intros Hn. set (R := fun x y => exists i j, nth_error els i = Some x /\ nth_error els j = Some y /\ i < j).
  assert (Hinj : forall i j (x : id), nth_error els i = Some x -> nth_error els j = Some x -> i = j).
  { intros i j x Hi Hj. apply (proj1 (NoDup_nth_error els) Hn); [apply nth_error_Some; rewrite Hi; discriminate | congruence]. }
  assert (Hirr : forall x, ~ R x x) by (intros x (i & j & Hi & Hj & Hlt); pose proof (Hinj i j x Hi Hj); lia).
  assert (Htr : forall x y z, R x y -> R y z -> R x z).
  { intros x y z (i & j & Hi & Hj & Hlt) (j' & k & Hj' & Hk & Hlt'). pose proof (Hinj j j' y Hj Hj'). exists i, k. repeat split; [exact Hi | exact Hk | lia]. }
  assert (Hs : forall l pre, els = pre ++ l -> RSorted R l).
  { induction l as [|x l IH]; intros pre E; [exact I|]. split.
    - apply Forall_forall. intros y Hy. apply In_nth_error in Hy. destruct Hy as (k & Hk). exists (length pre), (length pre + S k).
      rewrite E. split; [rewrite nth_error_app2 by lia; rewrite Nat.sub_diag; reflexivity|].
      split; [rewrite nth_error_app2 by lia; replace (length pre + S k - length pre) with (S k) by lia; exact Hk | lia].
    - apply (IH (pre ++ [x])). rewrite <- app_assoc. exact E. }
  assert (Hf : forall l, RSorted R l -> RSorted R (filter q l)).
  { induction l as [|x l IH]; [trivial|]. intros [H1 H2]. cbn. destruct (q x); [|exact (IH H2)]. split; [|exact (IH H2)].
    rewrite Forall_forall in *. intros y Hy. apply filter_In in Hy. apply H1, Hy. }
  unfold not_in. rewrite (not_in_sorted R Hirr Htr (filter q els) (Hf els (Hs els [] eq_refl)) els 0 (Hs els [] eq_refl)).
  - apply filter_ext_in. intros x Hx. f_equal. apply eq_true_iff_eq. rewrite includes_spec, filter_In. tauto.
  - intros x i _ _. lia.
Qed.

Section Filter.
  Variable h : heap.
  Variable r : id.
  Hypothesis D : DocOk h r.
  Let wf : WF h := do_wf h r D.

  (** Matching backwards until a node of [S] is met. *)
  Fixpoint BackRev (g_rev : bgroup) (c : comb) (S : id -> Prop) (x : id) : Prop :=
    match g_rev with
    | [] => exists s, S s /\ Rel h c s x
    | cp :: rest => exists y, ElIn h r y /\ Rel h c y x /\ compb cp y = true /\ BackRev rest (comp_comb cp) S y
    end.

  Lemma has_above_ok set : forall fuel x, InTree h r x -> length (key h x) <= fuel ->
    exists b, has_above h fuel set x = Ok b /\ (b = true <-> exists s, In s set /\ Anc h s x).
  Proof.
    induction fuel as [|f IH]; intros x Hx Hf.
    { pose proof (key_nonempty h wf x). destruct (key h x); [congruence | cbn in Hf; lia]. }
    cbn [has_above]. destruct (parent h x) as [p|] eqn:E.
    - destruct (start_parent h r D x p Hx E) as [Hp Hl]. assert (Hc : Child h p x) by (exists (index h x); exact Hl).
      destruct (includes set p) eqn:Ei.
      { exists true. split; [reflexivity|]. split; [|reflexivity]. intros _. exists p. apply includes_spec in Ei. split; [exact Ei | exact (Anc_child h p x Hc)]. }
      assert (Hnp : ~ In p set) by (rewrite <- includes_spec; congruence).
      destruct (parent h p) as [a|] eqn:Ea.
      + destruct (start_parent h r D p a Hp Ea) as [Ha Hla]. assert (Hca : Child h a p) by (exists (index h p); exact Hla).
        assert (Hax : Anc h a x) by exact (Anc_step h a p x (Anc_child h a p Hca) Hc).
        destruct (includes set a) eqn:Eia.
        { exists true. split; [reflexivity|]. split; [|reflexivity]. intros _. exists a. apply includes_spec in Eia. split; [exact Eia | exact Hax]. }
        destruct (IH a Ha) as (b & Eb & Hb).
        { rewrite (key_down h wf x p E), (key_down h wf p a Ea), !app_length in Hf. cbn in Hf. lia. }
        exists b. split; [exact Eb|]. rewrite Hb. split; intros (s & Hs & Hsa); exists s; (split; [exact Hs|]).
        * exact (anc_trans h s a x Hsa Hax).
        * apply anc_inv in Hsa. destruct Hsa as (p' & Hsp & Hc'). rewrite (child_parent h wf _ _ Hc') in E. injection E as ->.
          destruct Hsp as [-> | Hsp]; [contradiction|]. apply anc_inv in Hsp. destruct Hsp as (a' & Hsa & Hc''). rewrite (child_parent h wf _ _ Hc'') in Ea. injection Ea as ->.
          destruct Hsa as [-> | Hsa]; [|exact Hsa]. apply includes_spec in Hs. congruence.
      + exists false. split; [reflexivity|]. split; [discriminate|]. intros (s & Hs & Hsa). exfalso.
        apply anc_inv in Hsa. destruct Hsa as (p' & Hsp & Hc'). rewrite (child_parent h wf _ _ Hc') in E. injection E as ->.
        destruct Hsp as [-> | Hsp]; [contradiction|]. apply anc_inv in Hsp. destruct Hsp as (a' & _ & Hc''). rewrite (child_parent h wf _ _ Hc'') in Ea. discriminate.
    - exists false. split; [reflexivity|]. split; [discriminate|]. intros (s & Hs & Hsa). exfalso.
      apply anc_inv in Hsa. destruct Hsa as (p' & _ & Hc'). rewrite (child_parent h wf _ _ Hc') in E. discriminate.
  Qed.
  Lemma has_above_full set x : InTree h r x -> exists b, has_above h (dfs_fuel h) set x = Ok b /\ (b = true <-> exists s, In s set /\ Anc h s x).
  Proof. intros Hx. exact (has_above_ok set (dfs_fuel h) x Hx (key_length h wf x)). Qed.

  Lemma next_prev s x : Start h r s -> ElIn h r x -> (NextEl h s x <-> PrevEl h x s).
  Proof.
    intros [Hs Hse] Hx. split; intros (p & i & j & H1 & H2 & H3 & H4 & H5); exists p, i, j; repeat split; try assumption.
    - destruct Hse as [He | ->]; [exact He | destruct (root_not_listed h r D p i H1)].
    - apply Hx.
  Qed.
  Lemma following_preceding s x : Start h r s -> ElIn h r x -> (Following h s x <-> Preceding h x s).
  Proof.
    intros [Hs Hse] Hx. split; intros (p & i & j & H1 & H2 & H3 & H4); exists p, i, j; repeat split; try assumption.
    - destruct Hse as [He | ->]; [exact He | destruct (root_not_listed h r D p i H1)].
    - apply Hx.
  Qed.

  Lemma has_final_ok set els c rc : Forall (Start h r) set -> fwd c = true -> comb_reverse c = Ok rc -> Forall (ElIn h r) els ->
    exists b, has_final h set els rc = Ok b /\ (b = true <-> exists e, In e els /\ exists s, In s set /\ Rel h c s e).
  Proof.
    intros HS Hf Hr He. rewrite Forall_forall in HS, He. destruct c; try discriminate; injection Hr as <-; cbn [has_final Rel].
    - apply (rexists_prop _ (fun e => exists s, In s set /\ DescEl h s e)). intros e Hi. destruct (has_above_full set e (proj1 (He e Hi))) as (b & Eb & Hb).
      exists b. split; [exact Eb|]. rewrite Hb. split; intros (s & Hs & Ha); exists s; (split; [exact Hs|]); [split; [exact Ha | apply (He e Hi)] | apply Ha].
    - eexists. split; [reflexivity|]. apply (existsb_prop _ (fun e => exists s, In s set /\ ChildEl h s e)). intros e Hi.
      destruct (el_parent h r D e (He e Hi)) as (p & -> & Hp & Hl). rewrite includes_spec. split.
      + intros Hs. exists p. split; [exact Hs|]. split; [exists (index h e); exact Hl | apply (He e Hi)].
      + intros (s & Hs & Hc & _). destruct Hc as (i & Hc). destruct (listed_inj h wf _ _ _ _ _ Hc Hl) as [-> _]. exact Hs.
    - apply (rexists_prop _ (fun e => exists s, In s set /\ Following h s e)). intros e Hi. rewrite (prevs_eq h r D e (proj1 (He e Hi))). cbn [rbind].
      eexists. split; [reflexivity|]. rewrite existsb_exists. split.
      + intros (s & Hs & Es). apply includes_spec in Es. exists s. split; [exact Es|].
        apply (following_preceding s e (HS s Es) (He e Hi)). exact (proj1 (in_preceding h r D e s (proj1 (He e Hi))) Hs).
      + intros (s & Hs & HR). exists s. split; [|apply includes_spec; exact Hs]. apply (in_preceding h r D e s (proj1 (He e Hi))).
        apply (following_preceding s e (HS s Hs) (He e Hi)). exact HR.
    - apply (rexists_prop _ (fun e => exists s, In s set /\ NextEl h s e)). intros e Hi. pose proof (prev_eq h r D e (proj1 (He e Hi))) as Ep.
      destruct (previous_element_sibling h e) as [o| |]; cbn [rbind] in Ep; try discriminate. injection Ep as Ep. cbn [rbind]. rewrite Ep.
      eexists. split; [reflexivity|]. rewrite existsb_exists. split.
      + intros (s & Hs & Es). apply includes_spec in Es. exists s. split; [exact Es|].
        apply (next_prev s e (HS s Es) (He e Hi)). exact (proj1 (in_prev h r D e s (proj1 (He e Hi))) Hs).
      + intros (s & Hs & HR). exists s. split; [|apply includes_spec; exact Hs]. apply (in_prev h r D e s (proj1 (He e Hi))).
        apply (next_prev s e (HS s Hs) (He e Hi)). exact HR.
  Qed.

  Lemma cok_comb cp b s : COk h r cp b s -> fwd (comp_comb b) = true /\ exists m c rest, cp = (m, c) :: rest /\ c = comp_comb b.
  Proof.
    intros (Hw & Hc & _). destruct cp as [|[m c] rest]; [discriminate|]. cbn in Hw, Hc. apply andb_true_iff in Hw. rewrite <- Hc.
    split; [apply Hw|]. exists m, c, rest. split; reflexivity.
  Qed.
  Lemma fwd_reverse c : fwd c = true -> exists rc, comb_reverse c = Ok rc.
  Proof. destruct c; try discriminate; intros _; eexists; reflexivity. Qed.

  Lemma has_lookup_ok x S : InTree h r x -> forall lk gb, Forall2 (fun cp b => COk h r cp b false) lk gb ->
    forall els c rc, fwd c = true -> comb_reverse c = Ok rc -> BackSet h r x els ->
    exists o, has_lookup h els rc lk = Ok o /\
      match o with
      | None => forall e, In e els -> ~ BackRev gb c S e
      | Some (els', rc') => exists c', fwd c' = true /\ comb_reverse c' = Ok rc' /\ BackSet h r x els' /\
          ((exists e, In e els' /\ exists s, S s /\ Rel h c' s e) <-> exists e, In e els /\ BackRev gb c S e)
      end.
  Proof.
    intros Hx lk gb HF. induction HF as [|cp b lk gb HC _ IH]; intros els c rc Hf Hr HB.
    - exists (Some (els, rc)). split; [reflexivity|]. exists c. split; [exact Hf|]. split; [exact Hr|]. split; [exact HB|]. cbn. reflexivity.
    - cbn [has_lookup]. destruct (back_select h r D c rc cp b false x els Hf Hr HC Hx HB) as (l & El & HBl & Hl). rewrite El. cbn [rbind].
      destruct (nonempty l) eqn:En.
      + destruct (cok_comb cp b false HC) as (Hf' & m & c' & rest & -> & Ec). cbn [rnth nth_error rbind snd]. subst c'.
        destruct (fwd_reverse _ Hf') as (rc' & Er). rewrite Er. cbn [rbind].
        destruct (IH l (comp_comb b) rc' Hf' Er HBl) as (o & Eo & Ho). exists o. split; [exact Eo|].
        assert (HE : (exists e, In e l /\ BackRev gb (comp_comb b) S e) <-> exists e, In e els /\ BackRev (b :: gb) c S e).
        { cbn [BackRev]. split.
          - intros (y & Hy & Hbr). apply Hl in Hy as Hy'. destruct Hy' as (Hc & e & He & HR & Hye). exists e. split; [exact He|]. exists y.
            split; [|split; [exact HR|]; split; [exact Hc | exact Hbr]]. destruct HBl as [HBl _]. apply lc_els in HBl. rewrite Forall_forall in HBl. exact (HBl y Hy).
          - intros (e & He & y & Hy & HR & Hc & Hbr). exists y. split; [|exact Hbr]. apply Hl. split; [exact Hc|]. exists e. split; [exact He|]. split; [exact HR | apply Hy]. }
        destruct o as [[els' rc'']|].
        * destruct Ho as (c'' & H1 & H2 & H3 & H4). exists c''. split; [exact H1|]. split; [exact H2|]. split; [exact H3|]. rewrite H4. exact HE.
        * intros e He Hbr. destruct (proj2 HE (ex_intro _ e (conj He Hbr))) as (y & Hy & Hby). exact (Ho y Hy Hby).
      + exists None. split; [reflexivity|]. intros e He (y & Hy & HR & Hc & _). assert (Hi : In y l).
        { apply Hl. split; [exact Hc|]. exists e. split; [exact He|]. split; [exact HR | apply Hy]. }
        destruct l; [exact Hi | discriminate].
  Qed.
  Lemma backset_one x : ElIn h r x -> BackSet h r x [x].
  Proof. intros Hx. split; [constructor; [exact (lc_self h r x Hx) | constructor] | cbn; split; [constructor | exact I]]. Qed.

  (** [has_ele]: an element is reached backwards from [x]. *)
  Lemma has_ele_ok set x c lk gb : Forall (Start h r) set -> ElIn h r x -> fwd c = true ->
    Forall2 (fun cp b => COk h r cp b false) lk gb ->
    exists b, has_ele h set x c lk = Ok b /\ (b = true <-> BackRev (rev gb) c (fun s => In s set) x).
  Proof.
    intros HS Hx Hf HF. unfold has_ele. destruct (fwd_reverse c Hf) as (rc & Er). rewrite Er. cbn [rbind].
    assert (HF' : Forall2 (fun cp b => COk h r cp b false) (rev lk) (rev gb)).
    { clear -HF. induction HF; [constructor|]. cbn. apply Forall2_app; [exact IHHF | constructor; [assumption | constructor]]. }
    destruct (has_lookup_ok x (fun s => In s set) (proj1 Hx) _ _ HF' [x] c rc Hf Er (backset_one x Hx)) as (o & Eo & Ho).
    rewrite Eo. cbn [rbind]. destruct o as [[els' rc']|].
    - destruct Ho as (c' & Hf' & Er' & HB & Ho). destruct (has_final_ok set els' c' rc' HS Hf' Er') as (b & Eb & Hb).
      { destruct HB as [HB _]. exact (lc_els h r x els' HB). }
      exists b. split; [exact Eb|]. rewrite Hb, Ho. split; [intros (e & [<- | []] & H); exact H | intros H; exists x; split; [left; reflexivity | exact H]].
    - exists false. split; [reflexivity|]. split; [discriminate|]. intros H. destruct (Ho x (or_introl eq_refl) H).
  Qed.
  Lemma has_plain_ok set x c : Forall (Start h r) set -> ElIn h r x -> fwd c = true ->
    exists b, has_plain h set x c = Ok b /\ (b = true <-> exists s, In s set /\ Rel h c s x).
  Proof.
    intros HS Hx Hf. unfold has_plain. destruct (fwd_reverse c Hf) as (rc & Er). rewrite Er. cbn [rbind].
    destruct (has_final_ok set [x] c rc HS Hf Er) as (b & Eb & Hb); [constructor; [exact Hx | constructor]|].
    exists b. split; [exact Eb|]. rewrite Hb. split; [intros (e & [<- | []] & H); exact H | intros H; exists x; split; [left; reflexivity | exact H]].
  Qed.

  (** * Matching a whole chain *)
  Lemma relb_intree c y x : fwd c = true -> ElIn h r x -> relb h c y x = true -> InTree h r y.
  Proof.
    intros Hc Hx Hr. destruct (el_parent h r D x Hx) as (p & Ep & Hp & Hl). destruct c; try discriminate; cbn [relb] in Hr.
    - apply andb_true_iff in Hr. apply (intree_anc h wf r x y (proj1 Hx)). right. apply (upb_spec h r D); [exact (proj1 Hx) | apply Hr].
    - rewrite Ep in Hr. apply andb_true_iff in Hr. destruct Hr as [Hr _]. apply Nat.eqb_eq in Hr. subst y. exact Hp.
    - rewrite Ep in Hr. apply andb_true_iff in Hr. destruct Hr as [Hr _]. apply existsb_exists in Hr.
      destruct Hr as (z & Hz & E). apply Nat.eqb_eq in E. subst z.
      apply (intree_down h r p y Hp). right. apply Anc_child, child_in. exact (in_firstn _ _ _ Hz).
    - rewrite Ep in Hr. apply andb_true_iff in Hr. destruct Hr as [Hr _].
      destruct (hd_error (filter (is_element h) (rev (firstn (index h x) (kids h p))))) as [z|] eqn:Ez; [|discriminate].
      apply Nat.eqb_eq in Hr. subst z. apply hd_filter_some in Ez. destruct Ez as (l1 & l2 & El & _).
      apply (intree_down h r p y Hp). right. apply Anc_child, child_in. apply (in_firstn (index h x)).
      apply in_rev. rewrite El. apply in_elt.
  Qed.
  Lemma match_revb_cons cp cp' rest x : fwd (comp_comb cp) = true -> ElIn h r x ->
    (match_revb h (cp :: cp' :: rest) x = true <->
     compb cp x = true /\ exists y, ElIn h r y /\ Rel h (comp_comb cp) y x /\ match_revb h (cp' :: rest) y = true).
  Proof.
    intros Hc Hx.
    assert (E : match_revb h (cp :: cp' :: rest) x = compb cp x && existsb (fun y => is_element h y && relb h (comp_comb cp) y x && match_revb h (cp' :: rest) y) (seq 0 (length h))) by reflexivity.
    rewrite E, andb_true_iff, existsb_exists. apply and_iff_compat_l. split.
    - intros (y & _ & H). rewrite !andb_true_iff in H. destruct H as ((He & Hr) & Hm). exists y.
      assert (Hy : ElIn h r y) by (split; [exact (relb_intree _ y x Hc Hx Hr) | exact He]).
      split; [exact Hy|]. split; [apply (relb_spec h r D); assumption | exact Hm].
    - intros (y & Hy & Hr & Hm). exists y. split; [apply in_seq; pose proof (el_lt h r D y Hy); lia|]. rewrite !andb_true_iff.
      split; [split; [apply Hy | apply (relb_spec h r D); assumption] | exact Hm].
  Qed.

  (** A combinator in front of the first compound: relative to the document, when there are further compounds. *)
  Definition topb (c : comb) (x : id) : bool :=
    match c with
    | ChildrenAll => true
    | Children => match parent h x with Some p => Nat.eqb p r | None => false end
    | _ => false
    end.
  Definition rootc (cp : list ((id -> bool) * comb)) : list ((id -> bool) * comb) :=
    match cp with (p, c) :: ps => (p, ChildrenAll) :: (topb c, Chain) :: ps | [] => [] end.
  Definition rootedb (g : bgroup) : bgroup := match g with cp :: cp' :: rest => rootc cp :: cp' :: rest | _ => g end.
  Fixpoint rlast (g : bgroup) : bgroup :=
    match g with [] => [] | cp :: rest => match rest with [] => [rootc cp] | _ => cp :: rlast rest end end.
  Lemma rlast_app l cp : rlast (l ++ [cp]) = l ++ [rootc cp].
  Proof. induction l as [|a l IH]; [reflexivity|]. cbn [app rlast]. rewrite IH. destruct (l ++ [cp]) eqn:E; [destruct l; discriminate | reflexivity]. Qed.
  Lemma rootedb_rev g a b : rev g = a :: b :: tl (tl (rev g)) -> rev (rootedb g) = rlast (rev g).
  Proof.
    intros E. destruct g as [|cp [|cp' g]]; [discriminate | discriminate|]. cbn [rootedb]. change (rev (rootc cp :: cp' :: g)) with (rev (cp' :: g) ++ [rootc cp]).
    change (rev (cp :: cp' :: g)) with (rev (cp' :: g) ++ [cp]). symmetry. apply rlast_app.
  Qed.
  Lemma topb_spec c x : fwd c = true -> ElIn h r x -> (topb c x = true <-> Rel h c r x).
  Proof.
    intros Hf Hx. assert (Hno : forall p i, ~ Listed h p i r) by exact (root_not_listed h r D). destruct (el_parent h r D x Hx) as (p & Ep & Hp & Hl).
    destruct c; try discriminate; cbn [topb Rel].
    - split; [intros _ | reflexivity]. split; [|apply Hx]. destruct (intree_top h r x (proj1 Hx)) as [E | Ha]; [|exact Ha].
      exfalso. exact (el_not_top h r D x Hx (eq_sym E)).
    - rewrite Ep, Nat.eqb_eq. split.
      + intros ->. split; [exists (index h x); exact Hl | apply Hx].
      + intros [Hc _]. pose proof (child_parent h wf _ _ Hc). congruence.
    - split; [discriminate|]. intros (q & i & j & H1 & _). destruct (Hno q i H1).
    - split; [discriminate|]. intros (q & i & j & H1 & _). destruct (Hno q i H1).
  Qed.
  Lemma compb_rootc cp x : compb (rootc cp) x = compb cp x && topb (comp_comb cp) x || match cp with [] => true | _ => false end.
  Proof. destruct cp as [|[p c] cp]; [reflexivity|]. cbn. rewrite orb_false_r. destruct (p x), (topb c x); cbn; try reflexivity; rewrite ?andb_true_r, ?andb_false_r; reflexivity. Qed.
  Lemma comb_rlast cp rest : rlast (cp :: rest) = (match rest with [] => rootc cp | _ => cp end) :: rlast rest.
  Proof. destruct rest; reflexivity. Qed.
  Lemma match_back rest : forall cp x, Forall (fun b => fwd (comp_comb b) = true) (cp :: rest) -> ElIn h r x ->
    (match_revb h (rlast (cp :: rest)) x = true <-> compb cp x = true /\ BackRev rest (comp_comb cp) (fun s => s = r) x).
  Proof.
    induction rest as [|cp' rest IH]; intros cp x HF Hx; inversion HF as [|c0 l0 Hf HF']; subst.
    - cbn [rlast match_revb BackRev]. rewrite andb_true_r, compb_rootc. destruct cp as [|pc cp]; [discriminate|]. rewrite orb_false_r, andb_true_iff.
      apply and_iff_compat_l. rewrite (topb_spec _ x Hf Hx). split; [intros H; exists r; split; [reflexivity | exact H] | intros (s & -> & H); exact H].
    - change (rlast (cp :: cp' :: rest)) with (cp :: rlast (cp' :: rest)). pose proof (fun y Hy => IH cp' y HF' Hy) as IH'.
      destruct (rlast (cp' :: rest)) as [|a l] eqn:E; [rewrite comb_rlast in E; discriminate|]. rewrite (match_revb_cons cp a l x Hf Hx). apply and_iff_compat_l. cbn [BackRev].
      split; intros (y & Hy & HR & H); exists y; (split; [exact Hy|]); (split; [exact HR|]); apply (IH' y Hy); exact H.
  Qed.

  Lemma match_revb_ext g g' : Forall2 (fun a b => comp_comb a = comp_comb b /\ forall x, compb a x = compb b x) g g' -> forall x, match_revb h g x = match_revb h g' x.
  Proof.
    induction 1 as [|a b g g' [E1 E2] HF IH]; intros x; [reflexivity|]. cbn [match_revb]. rewrite E2. f_equal.
    destruct HF as [|a' b' g g' Hab HF]; [reflexivity|]. rewrite E1. induction (seq 0 (length h)) as [|y l IHl]; [reflexivity|]. cbn [existsb]. rewrite IHl, IH. reflexivity.
  Qed.
  Lemma rooted_desc gb x : comp_comb (hd [] gb) = ChildrenAll -> matchesb h gb x = matchesb h (rootedb gb) x.
  Proof.
    intros Hd. destruct gb as [|cp [|cp' gb]]; [reflexivity | reflexivity|]. unfold matchesb. cbn [rootedb]. apply match_revb_ext.
    change (rev (cp :: cp' :: gb)) with (rev (cp' :: gb) ++ [cp]). change (rev (rootc cp :: cp' :: gb)) with (rev (cp' :: gb) ++ [rootc cp]). apply Forall2_app.
    - clear. induction (rev (cp' :: gb)); constructor; [split; reflexivity | assumption].
    - constructor; [|constructor]. cbn in Hd. destruct cp as [|[p c] cp]; [discriminate|]. cbn in Hd. subst c. split; [reflexivity | intros y; reflexivity].
  Qed.

  (** * Filtering *)
  Definition GroupB (s : bool) (g : cgroup) (gb : bgroup) : Prop :=
    exists gb', gb' <> [] /\ Forall2 (fun cp b => COk h r cp b s) g gb' /\ forall x, ElIn h r x -> matchesb h gb x = matchesb h (rootedb gb') x.
  Lemma cok_weaken cp b s : COk h r cp b true -> COk h r cp b s.
  Proof.
    intros (H1 & H2 & ps & H3 & H4). split; [exact H1|]. split; [exact H2|]. exists ps. split; [|exact H4].
    clear -H3. induction H3; constructor; [apply mok_weaken; assumption | assumption].
  Qed.
  Lemma cok_false cp b s : COk h r cp b s -> COk h r cp b false.
  Proof. destruct s; [apply cok_weaken | trivial]. Qed.
  Lemma fwd_all s g gb : Forall2 (fun cp b => COk h r cp b s) g gb -> Forall (fun b => fwd (comp_comb b) = true) gb.
  Proof. induction 1 as [|cp b g gb HC _ IH]; constructor; [exact (proj1 (cok_comb cp b s HC)) | exact IH]. Qed.

  Lemma filter_process_root s els root p gb : (root = None \/ root = Some r) -> Good h r s els -> gb <> [] -> Forall2 (fun cp b => COk h r cp b s) (query p) gb ->
    exists root', filter_process h els root p = Ok (filter (matchesb h (rootedb gb)) els, root') /\ (root' = None \/ root' = Some r).
  Proof.
    intros Hroot HG Hne HF. unfold filter_process. set (q := query p) in *.
    destruct (exists_last Hne) as (gb0 & lb & ->).
    apply Forall2_app_inv_r in HF. destruct HF as (q0 & q1 & HF0 & HF1 & Eq). inversion HF1 as [|lq b1 q2 l2 HC HF2 E1 E2]; subst. inversion HF2; subst. clear HF1 HF2.
    rewrite Eq, rev_app_distr. cbn [rev app].
    destruct (compound_chain h r lq lb s HC) as (m & c & rest & p0 & -> & Hf & Ec & M & Hp & Hch).
    cbn [rnth nth_error rbind fst snd select_by_rule]. rewrite (mo_none h r m p0 s M els HG). cbn [rbind tl].
    pose proof HG as (Hels & _). rewrite (Hch els Hels (good_filter h r s p0 els HG)). cbn [rbind].
    assert (Hall : Forall (fun b => fwd (comp_comb b) = true) (lb :: rev gb0)).
    { constructor; [rewrite <- Ec; exact Hf|]. apply Forall_rev. exact (fwd_all s q0 gb0 HF0). }
    destruct (rev q0) as [|b0 br] eqn:Er.
    - assert (Hq0 : q0 = []) by (rewrite <- (rev_involutive q0), Er; reflexivity). subst q0. inversion HF0; subst. exists root. split; [|exact Hroot].
      assert (Em : filter (matchesb h (rootedb ([] ++ [lb]))) els = filter (compb lb) els).
      { apply filter_ext. intros x. unfold matchesb. cbn. apply andb_true_r. }
      rewrite Em. destruct (filter (compb lb) els); reflexivity.
    - assert (HF0' : Forall2 (fun cp b => COk h r cp b false) q0 gb0).
      { clear -HF0. induction HF0; constructor; [apply (cok_false _ _ s); assumption | assumption]. }
      assert (HM : forall x, matchesb h (rootedb (gb0 ++ [lb])) x = match_revb h (rlast (lb :: rev gb0)) x).
      { intros x. unfold matchesb. assert (El : rev (gb0 ++ [lb]) = lb :: rev gb0) by apply rev_unit.
        destruct (rev gb0) as [|a l] eqn:Eg.
        - exfalso. assert (gb0 = []) by (rewrite <- (rev_involutive gb0), Eg; reflexivity). subst gb0. inversion HF0; subst. discriminate.
        - rewrite (rootedb_rev (gb0 ++ [lb]) lb a) by (rewrite El; reflexivity). rewrite El. reflexivity. }
      assert (Em : forall x, ElIn h r x -> compb lb x = true -> forall rt, rt = r ->
        exists b, has_ele h [rt] x c (rev (b0 :: br)) = Ok b /\ (b = true <-> matchesb h (rootedb (gb0 ++ [lb])) x = true)).
      { intros x Hx Hcx rt ->. rewrite <- Er, rev_involutive.
        assert (HS : Forall (Start h r) [r]).
        { constructor; [|constructor]. split; [|right; reflexivity]. split; [exact (root_no_parent h r D) | exists []; constructor]. }
        destruct (has_ele_ok [r] x c q0 gb0 HS Hx Hf HF0') as (b & Eb & Hb). exists b. split; [exact Eb|]. rewrite Hb.
        rewrite HM, (match_back (rev gb0) lb x Hall Hx), <- Ec.
        assert (HB : forall g c0 y, BackRev g c0 (fun s0 => In s0 [r]) y <-> BackRev g c0 (fun s0 => s0 = r) y).
        { clear. induction g as [|cp g IH]; intros c0 y; cbn [BackRev].
          - split; intros (s0 & Hs & HR); exists s0; (split; [|exact HR]); [destruct Hs as [<- | []]; reflexivity | left; congruence].
          - split; intros (z & H1 & H2 & H3 & H4); exists z; repeat (split; [assumption|]); apply IH; assumption. }
        rewrite (HB (rev gb0) c x). tauto. }
      assert (Ef : forall rt, rt = r -> rfilter (fun y => has_ele h [rt] y c (rev (b0 :: br))) (filter (compb lb) els) = Ok (filter (matchesb h (rootedb (gb0 ++ [lb]))) els)).
      { intros rt Hrt. rewrite (rfilter_prop _ (matchesb h (rootedb (gb0 ++ [lb])))).
        - f_equal. rewrite filter_filter. apply filter_ext_in. intros x Hx. rewrite Forall_forall in Hels.
          destruct (compb lb x) eqn:Ecx; [reflexivity|]. symmetry. apply not_true_is_false. rewrite HM, (match_back (rev gb0) lb x Hall (Hels x Hx)). intros [H _]. congruence.
        - intros x Hx. apply filter_In in Hx. rewrite Forall_forall in Hels. exact (Em x (Hels x (proj1 Hx)) (proj2 Hx) rt Hrt). }
      destruct (filter (compb lb) els) as [|x l] eqn:El.
      + exists root. split; [|exact Hroot]. specialize (Ef r eq_refl). cbn in Ef. injection Ef as Ef. rewrite <- Ef. reflexivity.
      + assert (Hrt : match root with Some r0 => r0 | None => match owner_document h x with Some d => d | None => x end end = r).
        { destruct Hroot as [-> | ->]; [|reflexivity].
          assert (Hx : In x (filter (compb lb) els)) by (rewrite El; left; reflexivity). apply filter_In in Hx. rewrite Forall_forall in Hels.
          destruct (Hels x (proj1 Hx)) as [Hi He]. rewrite (do_owner h r D x Hi (or_introl He)). reflexivity. }
        exists (Some r). split; [|right; reflexivity]. rewrite Hrt, (Ef r eq_refl). reflexivity.
  Qed.
  Lemma filter_process_ok s els root p gb : (root = None \/ root = Some r) -> Good h r s els -> GroupB s (query p) gb ->
    exists root', filter_process h els root p = Ok (filter (matchesb h gb) els, root') /\ (root' = None \/ root' = Some r).
  Proof.
    intros Hroot HG (gb' & Hne & HF & E). destruct (filter_process_root s els root p gb' Hroot HG Hne HF) as (root' & Er & Hr). exists root'. split; [|exact Hr].
    rewrite Er. do 2 f_equal. apply filter_ext_in. intros x Hx. symmetry. apply E. destruct HG as (Hels & _). rewrite Forall_forall in Hels. exact (Hels x Hx).
  Qed.

  Definition SelB (s : bool) (sel : selector) (gbs : list bgroup) : Prop := Forall2 (fun p gb => GroupB s (query p) gb) sel gbs.

  (** Every time a group's matches are added, the joining goes well. *)
  Fixpoint AddOk (els : list id) (q : id -> bool) (gbs : list bgroup) : Prop :=
    match gbs with
    | [] => True
    | g :: gbs' => JoinOk h (filter q els) (filter (matchesb h g) els) /\ AddOk els (fun x => q x || matchesb h g x) gbs'
    end.
  Lemma addok_ext els gbs : forall q q', (forall x, In x els -> q x = q' x) -> AddOk els q gbs -> AddOk els q' gbs.
  Proof.
    induction gbs as [|g gbs IH]; intros q q' E H; [exact I|]. destruct H as [H1 H2]. cbn. split.
    - rewrite <- (filter_ext_in q q' els E). exact H1.
    - apply (IH (fun x => q x || matchesb h g x)); [intros x Hx; rewrite (E x Hx); reflexivity | exact H2].
  Qed.
  Lemma exclusive_addok els : Forall (ElIn h r) els -> forall gbs q,
    ForallOrdPairs (fun g g' => forall x, ElIn h r x -> matchesb h g x = true -> matchesb h g' x = false) gbs ->
    (forall x g, ElIn h r x -> In g gbs -> q x = true -> matchesb h g x = false) -> AddOk els q gbs.
  Proof.
    intros He. rewrite Forall_forall in He. induction gbs as [|g gbs IH]; intros q HP Hq; [exact I|]. inversion HP as [|g0 l0 H1 H2]; subst. cbn. split.
    - apply join_disjoint. intros x Ha Hb. apply filter_In in Ha, Hb.
      rewrite (Hq x g (He x (proj1 Ha)) (or_introl eq_refl) (proj2 Ha)) in Hb. destruct Hb; discriminate.
    - apply IH; [exact H2|]. intros x g' Hx Hg' E. apply orb_true_iff in E. destruct E as [E | E].
      + exact (Hq x g' Hx (or_intror Hg') E).
      + rewrite Forall_forall in H1. exact (H1 g' Hg' x Hx E).
  Qed.

  Lemma filter_loop_add els : Good h r false els -> forall sel gbs, SelB false sel gbs -> forall root q, (root = None \/ root = Some r) -> AddOk els q gbs ->
    filter_loop h els false root (filter q els) sel = Ok (filter (fun x => q x || matches_anyb h gbs x) els, false).
  Proof.
    intros HG. induction 1 as [|p gb sel gbs HB _ IH]; intros root q Hroot HA; cbn [filter_loop].
    - do 2 f_equal. apply filter_ext. intros x. rewrite orb_false_r. reflexivity.
    - destruct (filter_process_ok false els root p gb Hroot HG HB) as (root' & -> & Hroot'). cbn [rbind]. destruct HA as [HA1 HA2].
      assert (Hnext : filter_loop h els false root' (filter (fun x => q x || matchesb h gb x) els) sel =
        Ok (filter (fun x => q x || matches_anyb h (gb :: gbs) x) els, false)).
      { rewrite (IH root' _ Hroot' HA2). do 2 f_equal. apply filter_ext. intros x. cbn. rewrite orb_assoc. reflexivity. }
      destruct (nonempty (filter (matchesb h gb) els)) eqn:En.
      + assert (HDS : forall p0, DocSet h r (filter p0 els)).
        { intros p0. destruct (good_filter h r false p0 els HG) as (G1 & _ & G3). split; [|exact (G3 eq_refl)]. revert G1. apply Forall_impl. intros x [Hx _]. exact Hx. }
        destruct (add_join h wf r _ _ (HDS q) (HDS (matchesb h gb)) HA1) as (l & -> & HL & Hl). cbn [rbind].
        assert (El : l = filter (fun x => q x || matchesb h gb x) els).
        { apply (ordered_unique h wf r); [exact (proj1 HL) | exact (proj2 HL) | exact (proj2 (HDS _))|].
          intros x. rewrite (Hl x), !filter_In, orb_true_iff. tauto. }
        rewrite El. exact Hnext.
      + rewrite nonempty_filter in En. rewrite <- Hnext. f_equal. apply filter_ext_in. intros x Hx.
        destruct (matchesb h gb x) eqn:E; [|rewrite orb_false_r; reflexivity]. exfalso.
        assert (existsb (matchesb h gb) els = true) by (apply existsb_exists; exists x; split; assumption). congruence.
  Qed.
  Lemma filter_loop_one s els sel gbs : Good h r s els -> SelB s sel gbs -> length gbs <= 1 ->
    filter_loop h els false None [] sel = Ok (filter (matches_anyb h gbs) els, false).
  Proof.
    intros HG HB Hl. destruct HB as [|p gb sel gbs HB HS]; cbn [filter_loop].
    - do 2 f_equal. symmetry. apply filter_nil. reflexivity.
    - destruct gbs as [|]; [|cbn in Hl; lia]. inversion HS; subst.
      destruct (filter_process_ok s els None p gb (or_introl eq_refl) HG HB) as (root' & -> & _). cbn [rbind filter_loop].
      assert (E : filter (matches_anyb h [gb]) els = filter (matchesb h gb) els).
      { apply filter_ext. intros x. cbn. apply orb_false_r. }
      rewrite E. destruct (filter (matchesb h gb) els); reflexivity.
  Qed.
  Lemma filter_loop_is s els : Good h r s els -> forall sel gbs, SelB s sel gbs -> forall root, (root = None \/ root = Some r) ->
    filter_loop h els true root [] sel = Ok ([], existsb (matches_anyb h gbs) els).
  Proof.
    intros HG. induction 1 as [|p gb sel gbs HB _ IH]; intros root Hroot; cbn [filter_loop].
    - do 2 f_equal. symmetry. apply not_true_is_false. rewrite existsb_exists. intros (x & _ & E). discriminate.
    - destruct (filter_process_ok s els root p gb Hroot HG HB) as (root' & -> & Hroot'). cbn [rbind].
      assert (E : existsb (matches_anyb h (gb :: gbs)) els = existsb (matchesb h gb) els || existsb (matches_anyb h gbs) els).
      { clear. induction els as [|x els IH]; [reflexivity|]. cbn [existsb]. rewrite IH. cbn [matches_anyb existsb]. fold (matches_anyb h gbs x).
        destruct (matchesb h gb x), (matches_anyb h gbs x), (existsb (matchesb h gb) els); reflexivity. }
      rewrite E, nonempty_filter. destruct (existsb (matchesb h gb) els); [reflexivity|]. exact (IH root' Hroot').
  Qed.

  (** ** The four uses *)
  (** Multi-group selectors need document order and the guard of [add]. *)
  Definition FilterOk (s : bool) (els : list id) (gbs : list bgroup) : Prop :=
    length gbs <= 1 \/ (s = false /\ AddOk els (fun _ => false) gbs).
  Lemma filter_false {A} (l : list A) : filter (fun _ => false) l = [].
  Proof. apply filter_nil. reflexivity. Qed.
  Lemma filter_loop_ok s els sel gbs : Good h r s els -> SelB s sel gbs -> FilterOk s els gbs ->
    filter_loop h els false None [] sel = Ok (filter (matches_anyb h gbs) els, false).
  Proof.
    intros HG HB [Hl | [-> HA]]; [exact (filter_loop_one s els sel gbs HG HB Hl)|].
    pose proof (filter_loop_add els HG sel gbs HB None (fun _ => false) (or_introl eq_refl) HA) as E. rewrite filter_false in E. exact E.
  Qed.
  Lemma filter_handle s els sel gbs : Good h r s els -> SelB s sel gbs -> FilterOk s els gbs ->
    filter_type_handle h els sel FFilter = Ok (filter (matches_anyb h gbs) els, false).
  Proof. intros H1 H2 H3. unfold filter_type_handle. rewrite (filter_loop_ok s els sel gbs H1 H2 H3). reflexivity. Qed.
  Lemma not_handle s els sel gbs : Good h r s els -> SelB s sel gbs -> FilterOk s els gbs ->
    filter_type_handle h els sel FNot = Ok (filter (fun x => negb (matches_anyb h gbs x)) els, false).
  Proof.
    intros H1 H2 H3. unfold filter_type_handle. rewrite (filter_loop_ok s els sel gbs H1 H2 H3). cbn [rbind].
    rewrite not_in_filter by exact (good_nodup h r D s els H1). rewrite nonempty_filter.
    destruct (existsb (matches_anyb h gbs) els) eqn:E; [reflexivity|]. do 2 f_equal. symmetry. apply filter_all. intros x Hx.
    apply negb_true_iff. apply not_true_is_false. intros Ex. assert (existsb (matches_anyb h gbs) els = true) by (apply existsb_exists; exists x; split; assumption). congruence.
  Qed.
  Lemma is_handle s els sel gbs : Good h r s els -> SelB s sel gbs ->
    exists l, filter_type_handle h els sel FIs = Ok (l, existsb (matches_anyb h gbs) els).
  Proof.
    intros H1 H2. unfold filter_type_handle. rewrite (filter_loop_is s els H1 sel gbs H2 None (or_introl eq_refl)). eexists. reflexivity.
  Qed.
  Lemma filter_len_all {A} (p : A -> bool) l : Nat.eqb (length (filter p l)) (length l) = forallb p l.
  Proof.
    induction l as [|x l IH]; [reflexivity|]. cbn [filter forallb]. destruct (p x); cbn [length andb]; [exact IH|].
    apply Nat.eqb_neq. clear IH. assert (length (filter p l) <= length l); [|lia].
    induction l as [|y l IH]; [reflexivity|]. cbn. destruct (p y); cbn; lia.
  Qed.
  Lemma is_all_handle s els sel gbs : Good h r s els -> SelB s sel gbs -> FilterOk s els gbs ->
    exists l, filter_type_handle h els sel FIsAll = Ok (l, forallb (matches_anyb h gbs) els).
  Proof.
    intros H1 H2 H3. unfold filter_type_handle. rewrite (filter_loop_ok s els sel gbs H1 H2 H3). cbn [rbind]. rewrite filter_len_all. eexists. reflexivity.
  Qed.

  (** * has *)
  Lemma children_good s p : InTree h r p -> Good h r s (children h p).
  Proof.
    intros Hp. apply good_ordered; [exact D | |exact (children_ordered h p)]. apply Forall_forall. intros c Hc. exact (el_child h r p c Hp Hc).
  Qed.
  Lemma has_loop_ok sel gbs : SelB false sel gbs -> forall fuel x, InTree h r x -> Deep h fuel x ->
    has_loop h fuel sel x = Ok (existsb (matches_anyb h gbs) (pre fuel h x)).
  Proof.
    intros HB. induction fuel as [|f IH]; intros x Hx Hd; [destruct (deep_pos h r D _ _ Hd); discriminate|].
    cbn [has_loop pre]. destruct (nonempty (children h x)) eqn:En; [|destruct (children h x); [reflexivity | discriminate]].
    destruct (is_handle false (children h x) sel gbs (children_good false x Hx) HB) as (l & ->). cbn [rbind snd].
    assert (E : existsb (matches_anyb h gbs) (flat_map (fun c => c :: pre f h c) (children h x)) =
      existsb (matches_anyb h gbs) (children h x) || existsb (fun c => existsb (matches_anyb h gbs) (pre f h c)) (children h x)).
    { clear. induction (children h x) as [|c l IH]; [reflexivity|]. cbn [flat_map app existsb]. rewrite existsb_app, IH.
      destruct (matches_anyb h gbs c), (existsb (matches_anyb h gbs) (pre f h c)), (existsb (matches_anyb h gbs) l); reflexivity. }
    rewrite E. destruct (existsb (matches_anyb h gbs) (children h x)); [reflexivity|]. cbn [orb]. apply rexists_ok.
    intros c Hc. apply IH; [exact (proj1 (el_child h r x c Hx Hc))|]. apply in_children in Hc. exact (deep_child h r D _ _ _ Hd (proj1 Hc)).
  Qed.
  Lemma has_ok sel gbs els : SelB false sel gbs -> AllIn h r els ->
    has_sel h els sel = Ok (filter (fun x => existsb (matches_anyb h gbs) (descendants h x)) els).
  Proof.
    intros HB He. unfold has_sel. apply rfilter_ok. intros x Hx. rewrite Forall_forall in He.
    exact (has_loop_ok sel gbs HB _ x (He x Hx) (deep_full h r D x)).
  Qed.
End Filter.
