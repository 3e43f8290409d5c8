(** The meaning of selectors as a computable test, and the proof that the test decides [Holds].
    (Used inside the proofs and to check the examples.) *)
From Verif Require Import Base Utils UtilsSpec UtilsProofs Nth NthSpec Attr AttrSpec AttrProofs ClassSpec Dom DomSpec
  Order DomProofs OrderSpec OrderProofs Sets SetsProofs NavProofs Engine Rules SelSpec OneProofs PreProofs.

(** * Induction over rules and the rules nested in them *)
Definition rule_sub (rl : rule) : ast :=
  match rl with
  | RNot (NSel gs) | RHas (NSel gs) | RAlias gs => gs
  | _ => []
  end.
Definition InAst (rl : rule) (gs : ast) : Prop := exists g cp c, In g gs /\ In cp g /\ In (rl, c) cp.

Definition sum (l : list nat) : nat := fold_right Nat.add 0 l.
Fixpoint rsize (rl : rule) : nat :=
  let sz gs := sum (map (fun g => sum (map (fun cp => sum (map (fun e : rule * comb => let '(r', _) := e in rsize r') cp)) g)) gs) in
  match rl with
  | RNot n => match n with NSel gs => S (sz gs) | _ => 1 end
  | RHas n => match n with NSel gs => S (sz gs) | _ => 1 end
  | RAlias gs => S (sz gs)
  | _ => 1
  end.
Lemma sum_in l n : In n l -> n <= sum l.
Proof.
  induction l as [|m l IH]; intros H; [destruct H|]. cbn. destruct H as [<- | H]; [lia|]. specialize (IH H). fold (sum l). lia.
Qed.
Lemma sum_map_in {A} (f : A -> nat) l a n : In a l -> n <= f a -> n <= sum (map f l).
Proof. intros H Hn. pose proof (sum_in (map f l) (f a) (in_map f l a H)). lia. Qed.
Lemma rsize_sub rl rl' : InAst rl' (rule_sub rl) -> rsize rl' < rsize rl.
Proof.
  intros (g & cp & c & Hg & Hc & He).
  assert (H : forall gs : ast, In g gs ->
    rsize rl' <= sum (map (fun g => sum (map (fun cp => sum (map (fun e : rule * comb => let '(r', _) := e in rsize r') cp)) g)) gs)).
  { intros gs Hgs. eapply sum_map_in; [exact Hgs|]. eapply sum_map_in; [exact Hc|]. eapply sum_map_in; [exact He|]. cbn. lia. }
  destruct rl as [| | | | | | | | | | | | |n| |n| |gs]; cbn in Hg; try contradiction.
  - destruct n; cbn in Hg; try contradiction. cbn. specialize (H _ Hg). lia.
  - destruct n; cbn in Hg; try contradiction. cbn. specialize (H _ Hg). lia.
  - cbn. specialize (H _ Hg). lia.
Qed.
Lemma rule_sub_ind (P : rule -> Prop) :
  (forall rl, (forall rl', InAst rl' (rule_sub rl) -> P rl') -> P rl) -> forall rl, P rl.
Proof.
  intros H. assert (A : forall n rl, rsize rl < n -> P rl).
  { induction n as [|n IH]; intros rl Hn; [lia|]. apply H. intros rl' Hi. apply IH. pose proof (rsize_sub rl rl' Hi). lia. }
  intros rl. exact (A (S (rsize rl)) rl (Nat.lt_succ_diag_r _)).
Qed.

Lemma in_firstn {A} n (l : list A) x : In x (firstn n l) -> In x l.
Proof. intros H. rewrite <- (firstn_skipn n l). apply in_or_app. left. exact H. Qed.
Lemma fold_and_in {A} (f : A -> Prop) l : fold_right and True (map f l) <-> (forall x, In x l -> f x).
Proof.
  induction l as [|a l IH]; cbn; [tauto|]. rewrite IH. split.
  - intros [H1 H2] x [<- | Hx]; [exact H1 | exact (H2 x Hx)].
  - intros H. split; [apply H; left; reflexivity | intros x Hx; apply H; right; exact Hx].
Qed.

Section Bool.
  Variable h : heap.
  Variable r : id.
  Variable text_of : id -> str.

  Definition ok_or (x : res bool) : bool := match x with Ok b => b | _ => false end.

  (** ** Relations *)
  Definition upb (y x : id) : bool := existsb (Nat.eqb y) (ups h (S (length h)) x).
  Definition relb (c : comb) (y x : id) : bool :=
    match c with
    | ChildrenAll => upb y x && is_element h x
    | Children => match parent h x with Some p => Nat.eqb p y | None => false end && is_element h x
    | NextAll =>
        match parent h x with
        | Some p => existsb (Nat.eqb y) (firstn (index h x) (kids h p)) && is_element h x
        | None => false
        end
    | Next =>
        match parent h x with
        | Some p => match hd_error (filter (is_element h) (rev (firstn (index h x) (kids h p)))) with
                    | Some z => Nat.eqb z y
                    | None => false
                    end && is_element h x
        | None => false
        end
    | _ => false
    end.

  (** ** Chains *)
  Definition bcompound := list ((id -> bool) * comb).
  Definition bgroup := list bcompound.
  Definition compb (cp : bcompound) (x : id) : bool := forallb (fun e => fst e x) cp.
  Fixpoint match_revb (g_rev : bgroup) (x : id) : bool :=
    match g_rev with
    | [] => false
    | cp :: rest =>
        compb cp x &&
        match rest with
        | [] => true
        | _ => existsb (fun y => is_element h y && relb (comp_comb cp) y x && match_revb rest y) (seq 0 (length h))
        end
    end.
  Definition matchesb (g : bgroup) (x : id) : bool := match_revb (rev g) x.
  Definition matches_anyb (gs : list bgroup) (x : id) : bool := existsb (fun g => matchesb g x) gs.

  (** ** Positions *)
  Definition sib_list (x : id) : list id := match parent h x with Some p => children h p | None => [] end.
  Definition type_list (x : id) : list id := filter (same_type h x) (sib_list x).
  Definition at_place (l : list id) (x : id) (asc : bool) (t : Z -> Z -> bool) : bool :=
    match pos_from l x 0 with Some i => t (Z.of_nat (length l)) (place_of asc i (length l)) | None => false end.
  Definition nthb (a b total i : Z) : bool :=
    ((1 <=? i) && (i <=? total) &&
     (if a =? 0 then i =? b else ((i - b) mod a =? 0) && (0 <=? (i - b) / a)))%Z.

  Fixpoint holdsb (rl : rule) (x : id) {struct rl} : bool :=
    let sub gs := map (map (map (fun e : rule * comb => let '(r', c) := e in (holdsb r', c)))) gs in
    match rl with
    | RAll => true
    | RName n => ok_or (name_one h n x)
    | RClass n => ok_or (class_one h n x)
    | RId n => match node_attribute h x (lit "id") with Ok (Some (AV v _)) => str_eqb v n | _ => false end
    | RAttr k t => ok_or (attr_one h k t x)
    | RRoot => ok_or (root_one h x)
    | REmpty => ok_or (empty_one h x)
    | RFirstChild asc => at_place (sib_list x) x asc (fun _ i => Z.eqb i 1)
    | ROnlyChild => at_place (sib_list x) x true (fun t _ => Z.eqb t 1)
    | RNthChild asc f => at_place (sib_list x) x asc (nthb (formula_step f) (snd f))
    | RFirstOfType asc => at_place (type_list x) x asc (fun _ i => Z.eqb i 1)
    | RNthOfType asc f => at_place (type_list x) x asc (nthb (formula_step f) (snd f))
    | ROnlyOfType => at_place (type_list x) x true (fun t _ => Z.eqb t 1)
    | RNot n => match n with NSel gs => negb (matches_anyb (sub gs) x) | _ => false end
    | RContains t => ok_or (contains_one text_of t x)
    | RHas n =>
        match n with
        | NSel gs => existsb (matches_anyb (sub gs)) (descendants h x)
        | _ => false
        end
    | RChecked => ok_or (checked_one h x)
    | RAlias gs => matches_anyb (sub gs) x
    end.
  Definition predb (g : list (list (rule * comb))) : bgroup :=
    map (map (fun e : rule * comb => let '(r', c) := e in (holdsb r', c))) g.

  (** * The test decides the meaning *)
  Section Decides.
    Hypothesis D : DocOk h r.
    Let wf : WF h := do_wf h r D.

    Lemma el_not_top x : ElIn h r x -> x <> r.
    Proof.
      intros [_ He] ->. pose proof (do_root h r D) as Hr. unfold is_element, is_root in *. destruct (ntype_of h r); discriminate.
    Qed.
    Lemma el_attached x : ElIn h r x -> Attached h x.
    Proof. intros Hx. exact (intree_attached h r x (proj1 Hx) (el_not_top x Hx)). Qed.
    Lemma el_parent x : ElIn h r x -> exists p, parent h x = Some p /\ InTree h r p /\ Listed h p (index h x) x.
    Proof.
      intros Hx. destruct (el_attached x Hx) as (p & Hc). pose proof (child_parent h wf _ _ Hc) as E.
      exists p. split; [exact E|]. exact (intree_parent h wf r x p (proj1 Hx) E).
    Qed.
    Lemma el_lt x : ElIn h r x -> x < length h.
    Proof. intros Hx. destruct (el_parent x Hx) as (p & _ & _ & Hl). exact (proj1 (wf_listed h wf _ _ _ Hl)). Qed.

    Lemma ups_complete n : forall x y, length (ups h n x) < n -> Up h x y -> In y (ups h n x).
    Proof.
      induction n as [|n IH]; intros x y Hn Hu; [lia|]. apply up_inv_first in Hu. destruct Hu as (p & Ep & Hp).
      cbn in *. rewrite Ep in *. destruct Hp as [-> | Hp]; [left; reflexivity|]. right. apply IH; [cbn in Hn; lia | exact Hp].
    Qed.
    Lemma upb_spec x y : InTree h r x -> (upb y x = true <-> Anc h y x).
    Proof.
      intros Hx. unfold upb. rewrite existsb_exists. split.
      - intros (z & Hz & E). apply Nat.eqb_eq in E. subst z. apply (ups_up h) in Hz. exact (intree_up_anc h wf r x y Hx Hz).
      - intros Ha. exists y. split; [|apply Nat.eqb_refl]. apply ups_complete; [|exact (anc_up h wf y x Ha)].
        pose proof (ups_length h wf (S (length h)) x). lia.
    Qed.
    Lemma rel_intree c y x : fwd c = true -> InTree h r x -> Rel h c y x -> InTree h r y.
    Proof.
      intros Hc Hx HR. destruct c; try discriminate; cbn in HR.
      - apply (intree_anc h wf r x y Hx). right. exact (proj1 HR).
      - apply (intree_anc h wf r x y Hx). right. apply Anc_child. exact (proj1 HR).
      - destruct HR as (p & i & j & H1 & H2 & _). apply (intree_down h r p y).
        + apply (intree_anc h wf r x p Hx). right. apply Anc_child. exists j. exact H2.
        + right. apply Anc_child. exists i. exact H1.
      - destruct HR as (p & i & j & H1 & H2 & _). apply (intree_down h r p y).
        + apply (intree_anc h wf r x p Hx). right. apply Anc_child. exists j. exact H2.
        + right. apply Anc_child. exists i. exact H1.
    Qed.
    Lemma rel_el c s x : InTree h r s -> fwd c = true -> Rel h c s x -> ElIn h r x.
    Proof.
      intros Hs Hc HR. destruct c; try discriminate; cbn in HR.
      - destruct HR as [Ha He]. split; [|exact He]. apply (intree_down h r s x Hs). right. exact Ha.
      - destruct HR as [Ha He]. split; [|exact He]. apply (intree_down h r s x Hs). right. apply Anc_child. exact Ha.
      - destruct HR as (p & i & j & H1 & H2 & _ & He). split; [|exact He]. apply (intree_down h r p x).
        + apply (intree_anc h wf r s p Hs). right. apply Anc_child. exists i. exact H1.
        + right. apply Anc_child. exists j. exact H2.
      - destruct HR as (p & i & j & H1 & H2 & _ & He & _). split; [|exact He]. apply (intree_down h r p x).
        + apply (intree_anc h wf r s p Hs). right. apply Anc_child. exists i. exact H1.
        + right. apply Anc_child. exists j. exact H2.
    Qed.
    Lemma relb_spec c y x : fwd c = true -> ElIn h r x -> ElIn h r y -> (relb c y x = true <-> Rel h c y x).
    Proof.
      intros Hc Hx Hy. destruct (el_parent x Hx) as (p & Ep & Hp & Hl). destruct (el_parent y Hy) as (q & Eq & Hq & Hm).
      destruct c; try discriminate; cbn [relb Rel].
      - rewrite andb_true_iff, (upb_spec x y (proj1 Hx)). reflexivity.
      - rewrite Ep, andb_true_iff, Nat.eqb_eq. unfold ChildEl. split.
        + intros [-> He]. split; [exists (index h x); exact Hl | exact He].
        + intros [Hch He]. rewrite (child_parent h wf _ _ Hch) in Ep. injection Ep as ->. split; [reflexivity | exact He].
      - rewrite Ep. destruct (listed_split h p _ x Hl) as (pre & post & Ek & Elen). rewrite Ek, <- Elen, split_firstn, andb_true_iff.
        unfold Following. rewrite existsb_exists. split.
        + intros [(z & Hz & E) He]. apply Nat.eqb_eq in E. subst z. apply In_nth_error in Hz. destruct Hz as (k & Hk).
          destruct (proj2 (split_pre h p pre x post k y Ek) Hk) as [H1 H2].
          exists p, k, (index h x). split; [exact H1|]. split; [exact Hl|]. split; [lia | exact He].
        + intros (p' & i & j & H1 & H2 & Hlt & He). split; [|exact He].
          destruct (listed_inj h wf _ _ _ _ _ H2 Hl) as [-> ->]. exists y. split; [|apply Nat.eqb_refl].
          apply (nth_error_In _ i). apply (split_pre h p pre x post i y Ek). split; [exact H1 | lia].
      - rewrite Ep. destruct (listed_split h p _ x Hl) as (pre & post & Ek & Elen). rewrite Ek, <- Elen, split_firstn, andb_true_iff.
        pose proof (prev_at h wf p x pre post Ek y) as HP.
        assert (HQ : NextEl h y x <-> PrevEl h x y /\ is_element h x = true).
        { unfold NextEl, PrevEl. split.
          - intros (p' & i & j & H1 & H2 & Hlt & He & Hb). split; [|exact He]. exists p', i, j. repeat split; try assumption. exact (proj2 Hy).
          - intros ((p' & i & j & H1 & H2 & Hlt & He & Hb) & Hex). exists p', i, j. repeat split; assumption. }
        rewrite HQ, HP. apply and_iff_compat_r.
        destruct (hd_error (filter (is_element h) (rev pre))) as [z|]; [rewrite Nat.eqb_eq|]; split; congruence.
    Qed.

    (** ** Positions *)
    Lemma nthb_spec a b total i : nthb a b total i = true <-> NthPos a b total i.
    Proof.
      unfold nthb, NthPos. rewrite !andb_true_iff, !Z.leb_le. destruct (Z.eqb_spec a 0) as [-> | Hne].
      - rewrite Z.eqb_eq. split.
        + intros [[H1 H2] ->]. split; [lia|]. exists 0%Z. lia.
        + intros [H (k & _ & E)]. lia.
      - rewrite andb_true_iff, Z.eqb_eq, Z.leb_le. split.
        + intros [[H1 H2] [Hm Hd]]. split; [lia|]. exists ((i - b) / a)%Z. split; [exact Hd|].
          pose proof (Z.div_mod (i - b) a Hne). lia.
        + intros [H (k & Hk & E)]. split; [lia|]. replace (i - b)%Z with (k * a)%Z by lia.
          rewrite Z.mod_mul, Z.div_mul by exact Hne. split; [reflexivity | exact Hk].
    Qed.
    Lemma pos_nth l x i : NoDup l -> (pos_from l x 0 = Some i <-> nth_error l i = Some x).
    Proof.
      intros Hn. pose proof (pos_from_spec l x 0) as H. destruct (pos_from l x 0) as [j|].
      - destruct H as (_ & Hj & _). rewrite Nat.sub_0_r in Hj. split.
        + intros E. injection E as <-. exact Hj.
        + intros Hi. f_equal. rewrite NoDup_nth_error in Hn. apply Hn.
          * apply nth_error_Some. rewrite Hj. discriminate.
          * congruence.
      - split; [discriminate|]. intros Hi. exfalso. apply H. exact (nth_error_In _ _ Hi).
    Qed.
    Lemma at_place_spec l x asc t : NoDup l ->
      (at_place l x asc t = true <-> exists i, nth_error l i = Some x /\ t (Z.of_nat (length l)) (place_of asc i (length l)) = true).
    Proof.
      intros Hn. unfold at_place. split.
      - destruct (pos_from l x 0) as [i|] eqn:E; [|discriminate]. intros H. exists i. split; [|exact H].
        apply pos_nth; assumption.
      - intros (i & Hi & Ht). apply (pos_nth l x i Hn) in Hi. rewrite Hi. exact Ht.
    Qed.
    Lemma sibpos_list x i total : ElIn h r x ->
      (SibPos h x i total <-> nth_error (sib_list x) i = Some x /\ length (sib_list x) = total).
    Proof.
      intros Hx. destruct (el_parent x Hx) as (p & Ep & Hp & Hl). unfold sib_list. rewrite Ep. unfold SibPos. split.
      - intros (q & H1 & H2). pose proof (children_parent h wf q x (nth_error_In _ _ H1)) as E.
        rewrite Ep in E. injection E as ->. split; assumption.
      - intros [H1 H2]. exists p. split; assumption.
    Qed.
    Lemma typepos_list x i total : ElIn h r x ->
      (TypePos h x i total <-> nth_error (type_list x) i = Some x /\ length (type_list x) = total).
    Proof.
      intros Hx. destruct (el_parent x Hx) as (p & Ep & Hp & Hl). unfold type_list, sib_list. rewrite Ep. unfold TypePos. split.
      - intros (q & H1 & H2). pose proof (nth_error_In _ _ H1) as Hi. apply filter_In in Hi.
        pose proof (children_parent h wf q x (proj1 Hi)) as E.
        rewrite Ep in E. injection E as ->. split; assumption.
      - intros [H1 H2]. exists p. split; assumption.
    Qed.
    Lemma sib_list_nodup x : NoDup (sib_list x).
    Proof. unfold sib_list. destruct (parent h x) as [p|]; [apply (children_nodup h wf) | constructor]. Qed.
    Lemma type_list_nodup x : NoDup (type_list x).
    Proof. apply NoDup_filter, sib_list_nodup. Qed.
    Lemma sib_place x asc t (T : Z -> Z -> Prop) : ElIn h r x -> (forall a b, t a b = true <-> T a b) ->
      (at_place (sib_list x) x asc t = true <->
       exists i total, SibPos h x i total /\ T (Z.of_nat total) (place_of asc i total)).
    Proof.
      intros Hx Ht. rewrite at_place_spec by apply sib_list_nodup. split.
      - intros (i & Hi & H). exists i, (length (sib_list x)). split; [apply sibpos_list; [exact Hx|]; split; [exact Hi | reflexivity] | apply Ht, H].
      - intros (i & total & HS & H). apply sibpos_list in HS; [|exact Hx]. destruct HS as [Hi <-]. exists i. split; [exact Hi | apply Ht, H].
    Qed.
    Lemma type_place x asc t (T : Z -> Z -> Prop) : ElIn h r x -> (forall a b, t a b = true <-> T a b) ->
      (at_place (type_list x) x asc t = true <->
       exists i total, TypePos h x i total /\ T (Z.of_nat total) (place_of asc i total)).
    Proof.
      intros Hx Ht. rewrite at_place_spec by apply type_list_nodup. split.
      - intros (i & Hi & H). exists i, (length (type_list x)). split; [apply typepos_list; [exact Hx|]; split; [exact Hi | reflexivity] | apply Ht, H].
      - intros (i & total & HS & H). apply typepos_list in HS; [|exact Hx]. destruct HS as [Hi <-]. exists i. split; [exact Hi | apply Ht, H].
    Qed.

    (** ** Chains *)
    Definition Reflects (rl : rule) : Prop := forall x, ElIn h r x -> (holdsb rl x = true <-> Holds h text_of rl x).
    Lemma compb_spec cp x : ElIn h r x -> (forall rl c, In (rl, c) cp -> Reflects rl) ->
      (compb (map (fun e : rule * comb => let '(r', c) := e in (holdsb r', c)) cp) x = true <->
       CompHolds (map (fun e : rule * comb => let '(r', c) := e in (Holds h text_of r', c)) cp) x).
    Proof.
      intros Hx HR. unfold compb, CompHolds. rewrite forallb_forall. split.
      - intros H P c Hi. apply in_map_iff in Hi. destruct Hi as ([rl c'] & E & Hi). injection E as <- <-.
        apply (HR rl c' Hi x Hx). apply (H (holdsb rl, c')). apply in_map_iff. exists (rl, c'). split; [reflexivity | exact Hi].
      - intros H e Hi. apply in_map_iff in Hi. destruct Hi as ([rl c'] & <- & Hi). cbn.
        apply (HR rl c' Hi x Hx). apply (H (Holds h text_of rl) c'). apply in_map_iff. exists (rl, c'). split; [reflexivity | exact Hi].
    Qed.
    Lemma comp_comb_map {A B} (f : A -> B) (cp : list (A * comb)) :
      comp_comb (map (fun e => let '(a, c) := e in (f a, c)) cp) = comp_comb cp.
    Proof. destruct cp as [|[a c] cp]; reflexivity. Qed.
    Lemma match_revb_spec (g : list (list (rule * comb))) : (forall cp rl c, In cp g -> In (rl, c) cp -> Reflects rl) ->
      forallb comp_wf g = true -> forall x, ElIn h r x ->
      (match_revb (predb g) x = true <-> MatchRev h (preds h text_of g) x).
    Proof.
      induction g as [|cp g IH]; intros HR Hw x Hx; [cbn; split; [discriminate | tauto]|].
      cbn in Hw. apply andb_true_iff in Hw. destruct Hw as [Hw1 Hw2].
      assert (IH' := IH (fun cp' rl c Hi => HR cp' rl c (or_intror Hi)) Hw2). clear IH.
      assert (Hc : fwd (comp_comb cp) = true).
      { destruct cp as [|[a c] cp]; [discriminate|]. cbn in Hw1 |- *. apply andb_true_iff in Hw1. apply Hw1. }
      assert (HC := compb_spec cp x Hx (fun rl c => HR cp rl c (or_introl eq_refl))).
      destruct g as [|cp' g].
      { cbn [predb preds map match_revb MatchRev]. rewrite andb_true_r, HC. tauto. }
      change (predb (cp :: cp' :: g)) with (map (fun e : rule * comb => let '(r', c) := e in (holdsb r', c)) cp :: predb (cp' :: g)).
      change (preds h text_of (cp :: cp' :: g)) with
        (map (fun e : rule * comb => let '(r', c) := e in (Holds h text_of r', c)) cp :: preds h text_of (cp' :: g)).
      remember (cp' :: g) as g' eqn:Eg.
      assert (E1 : exists a b, predb g' = a :: b) by (subst g'; cbn; eauto).
      assert (E2 : exists a b, preds h text_of g' = a :: b) by (subst g'; cbn; eauto).
      cbn [match_revb MatchRev]. rewrite andb_true_iff, HC, !comp_comb_map.
      destruct E1 as (a1 & b1 & E1), E2 as (a2 & b2 & E2). rewrite E1, E2. rewrite <- E1, <- E2. rewrite existsb_exists.
      apply and_iff_compat_l. split.
      - intros (y & _ & H). rewrite !andb_true_iff in H. destruct H as ((He & Hr) & Hm). exists y.
        assert (Hy : ElIn h r y).
        { split; [|exact He]. (* via relb *)
          destruct (el_parent x Hx) as (p & Ep & Hp & Hl).
          destruct (comp_comb cp); try discriminate; cbn [relb] in Hr.
          - apply andb_true_iff in Hr. apply (intree_anc h wf r x y (proj1 Hx)). right. apply upb_spec; [exact (proj1 Hx) | apply Hr].
          - rewrite Ep in Hr. apply andb_true_iff in Hr. destruct Hr as [Hr _]. apply Nat.eqb_eq in Hr. subst y. exact Hp.
          - rewrite Ep in Hr. apply andb_true_iff in Hr. destruct Hr as [Hr _]. apply existsb_exists in Hr.
            destruct Hr as (z & Hz & E). apply Nat.eqb_eq in E. subst z.
            apply (intree_down h r p y Hp). right. apply Anc_child, child_in. exact (in_firstn _ _ _ Hz).
          - rewrite Ep in Hr. apply andb_true_iff in Hr. destruct Hr as [Hr _].
            destruct (hd_error (filter (is_element h) (rev (firstn (index h x) (kids h p))))) as [z|] eqn:Ez; [|discriminate].
            apply Nat.eqb_eq in Hr. subst z. apply hd_filter_some in Ez. destruct Ez as (l1 & l2 & El & _).
            apply (intree_down h r p y Hp). right. apply Anc_child, child_in. apply (in_firstn (index h x)).
            apply in_rev. rewrite El. apply in_elt. }
        split; [exact He|]. split; [apply relb_spec; assumption | apply IH'; assumption].
      - intros (y & He & Hr & Hm). assert (Hy : ElIn h r y) by (split; [exact (rel_intree _ y x Hc (proj1 Hx) Hr) | exact He]).
        exists y. split; [apply in_seq; pose proof (el_lt y Hy); lia|]. rewrite !andb_true_iff.
        split; [split; [exact He | apply relb_spec; assumption] | apply IH'; assumption].
    Qed.
    Lemma matchesb_spec g : (forall cp rl c, In cp g -> In (rl, c) cp -> Reflects rl) ->
      forallb comp_wf g = true -> forall x, ElIn h r x ->
      (matchesb (predb g) x = true <-> Matches h (preds h text_of g) x).
    Proof.
      intros HR Hw x Hx. unfold matchesb, Matches, predb, preds. rewrite <- !map_rev. apply match_revb_spec; [| |exact Hx].
      - intros cp rl c Hi. apply HR. apply in_rev. exact Hi.
      - rewrite forallb_forall in *. intros cp Hi. apply Hw. apply in_rev. exact Hi.
    Qed.
    Lemma matches_anyb_spec gs : (forall rl, InAst rl gs -> Reflects rl) -> sel_wf gs = true -> forall x, ElIn h r x ->
      (matches_anyb (map predb gs) x = true <-> MatchesAny h (map (preds h text_of) gs) x).
    Proof.
      intros HR Hw x Hx. unfold matches_anyb, MatchesAny. rewrite existsb_exists. unfold sel_wf in Hw. rewrite forallb_forall in Hw.
      assert (A : forall g, In g gs -> (matchesb (predb g) x = true <-> Matches h (preds h text_of g) x)).
      { intros g Hg. apply matchesb_spec; [| |exact Hx].
        - intros cp rl c H1 H2. apply HR. exists g, cp, c. split; [exact Hg|]. split; assumption.
        - specialize (Hw g Hg). unfold group_wf in Hw. rewrite !andb_true_iff in Hw. apply Hw. }
      split.
      - intros (g' & Hg & H). apply in_map_iff in Hg. destruct Hg as (g & <- & Hg). exists (preds h text_of g).
        split; [apply in_map; exact Hg | apply A; assumption].
      - intros (g' & Hg & H). apply in_map_iff in Hg. destruct Hg as (g & <- & Hg). exists (predb g).
        split; [apply in_map; exact Hg | apply A; assumption].
    Qed.

    Lemma rule_ok_sub rl : RuleOk h r text_of rl -> forall rl', InAst rl' (rule_sub rl) -> RuleOk h r text_of rl'.
    Proof.
      intros H rl' (g & cp & c & Hg & Hc & He).
      assert (A : forall gs : ast, In g gs ->
        fold_right and True (map (fun g => fold_right and True (map (fun cp =>
          fold_right and True (map (fun e : rule * comb => let '(r', _) := e in RuleOk h r text_of r') cp)) g)) gs) ->
        RuleOk h r text_of rl').
      { intros gs Hgs Ha. rewrite fold_and_in in Ha. specialize (Ha g Hgs). rewrite fold_and_in in Ha. specialize (Ha cp Hc).
        rewrite fold_and_in in Ha. exact (Ha (rl', c) He). }
      destruct rl as [| | | | | | | | | | | | |n| |n| |gs]; cbn in Hg; try contradiction.
      - destruct n; cbn in Hg; try contradiction. exact (A gs Hg (proj1 (proj2 H))).
      - destruct n; cbn in Hg; try contradiction. exact (A gs Hg (proj2 H)).
      - exact (A gs Hg (proj1 (proj2 H))).
    Qed.

    Theorem holdsb_spec rl : RuleOk h r text_of rl -> Reflects rl.
    Proof.
      induction rl as [rl IH] using rule_sub_ind. intros Hok.
      assert (IH' : forall rl', InAst rl' (rule_sub rl) -> Reflects rl').
      { intros rl' Hi. apply IH; [exact Hi | exact (rule_ok_sub rl Hok rl' Hi)]. }
      clear IH. intros x Hx.
      assert (Hone : forall f P, (exists b, f = Ok b /\ (b = true <-> P)) -> (ok_or f = true <-> P)).
      { intros f P (b & -> & Hb). exact Hb. }
      destruct rl as [|n|n|n|k t| | |asc| |asc f|asc|asc f| |n|t|n| |gs]; cbn [holdsb Holds].
      - tauto.
      - apply Hone. exact (name_one_spec h r D n x Hx).
      - apply Hone. exact (class_one_spec h r D n x Hx).
      - destruct (el_attr h r D x (lit "id") Hx) as (a & Ea). unfold IdIs, ReadsAs. rewrite Ea. split.
        + destruct a as [[v q|]|]; try discriminate. intros E. apply str_eqb_spec in E. subst v. exists (Some (AV n q)). split; reflexivity.
        + intros (a' & E & Hs). injection E as <-. destruct a as [[v q|]|]; try discriminate. cbn in Hs. injection Hs as ->. apply str_eqb_refl.
      - apply Hone. apply (attr_one_spec h r D k t x Hx). intros a _. destruct t as [[[] w]|]; cbn in Hok |- *; try exact I; intros E; contradiction.
      - apply Hone. exact (root_one_spec h r D x Hx).
      - apply Hone. exact (empty_one_spec h x).
      - apply (sib_place x asc _ (fun _ i => i = 1%Z) Hx). intros _ b. apply Z.eqb_eq.
      - rewrite (sib_place x true _ (fun t _ => t = 1%Z) Hx) by (intros a _; apply Z.eqb_eq). split.
        + intros (i & total & HS & E). assert (total = 1) by lia. subst total. pose proof HS as HS'.
          apply sibpos_list in HS'; [|exact Hx]. destruct HS' as [Hi Hl].
          assert (i < length (sib_list x)) by (apply nth_error_Some; rewrite Hi; discriminate).
          replace i with 0 in HS by lia. exact HS.
        + intros HS. exists 0, 1. split; [exact HS | reflexivity].
      - apply (sib_place x asc _ (NthPos (formula_step f) (snd f)) Hx). intros a b. apply nthb_spec.
      - apply (type_place x asc _ (fun _ i => i = 1%Z) Hx). intros _ b. apply Z.eqb_eq.
      - apply (type_place x asc _ (NthPos (formula_step f) (snd f)) Hx). intros a b. apply nthb_spec.
      - rewrite (type_place x true _ (fun t _ => t = 1%Z) Hx) by (intros a _; apply Z.eqb_eq). split.
        + intros (i & total & HS & E). assert (total = 1) by lia. subst total. pose proof HS as HS'.
          apply typepos_list in HS'; [|exact Hx]. destruct HS' as [Hi Hl].
          assert (i < length (type_list x)) by (apply nth_error_Some; rewrite Hi; discriminate).
          replace i with 0 in HS by lia. exact HS.
        + intros HS. exists 0, 1. split; [exact HS | reflexivity].
      - destruct n as [gs| |]; try contradiction; [|split; [discriminate|intros []]]. rewrite negb_true_iff, <- not_true_iff_false.
        apply not_iff_compat. exact (matches_anyb_spec gs IH' (proj1 Hok) x Hx).
      - apply Hone. exact (contains_one_spec text_of t x).
      - destruct n as [gs| |]; try contradiction; [|split; [discriminate|intros []]]. rewrite existsb_exists. split.
        + intros (y & Hy & Hm). apply (descendants_in h r D x y (proj1 Hx)) in Hy. exists y. split; [exact Hy|].
          exact (proj1 (matches_anyb_spec gs IH' (proj1 Hok) y (desc_el h r x y (proj1 Hx) Hy)) Hm).
        + intros (y & Hxy & Hm). exists y. split; [exact (proj2 (descendants_in h r D x y (proj1 Hx)) Hxy)|].
          exact (proj2 (matches_anyb_spec gs IH' (proj1 Hok) y (desc_el h r x y (proj1 Hx) Hxy)) Hm).
      - apply Hone. exact (checked_one_spec h r D x Hx Hok).
      - exact (matches_anyb_spec gs IH' (proj1 Hok) x Hx).
    Qed.
  End Decides.
End Bool.
