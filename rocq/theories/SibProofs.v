(** The set versions of the positional pseudo classes keep exactly the elements at the right place. *)
From Verif Require Import Base Utils Nth NthSpec NthProofs Attr Dom DomSpec Order DomProofs OrderSpec OrderProofs
  Sets SetsProofs NavProofs Engine Rules SelSpec OneProofs PreProofs SelBool SibLists.

Lemma map_seq {A} (f : A -> nat) l s : (forall i c, nth_error l i = Some c -> f c = s + i) -> map f l = seq s (length l).
Proof.
  revert s. induction l as [|x l IH]; intros s H; [reflexivity|]. cbn. rewrite (H 0 x eq_refl), Nat.add_0_r. f_equal.
  apply IH. intros i c E. rewrite (H (S i) c E). lia.
Qed.
Lemma inc_seq s n : Inc (seq s n).
Proof.
  revert s. induction n as [|n IH]; intros s; [exact I|]. cbn. split; [|apply IH]. apply Forall_forall. intros i Hi. apply in_seq in Hi. lia.
Qed.
Lemma inc_unique {A} (f : A -> nat) : forall l m, Inc (map f l) -> Inc (map f m) -> (forall x, In x l <-> In x m) -> l = m.
Proof.
  induction l as [|x l IH]; intros [|y m] Hl Hm H; try reflexivity.
  - destruct (proj2 (H y) (or_introl eq_refl)).
  - destruct (proj1 (H x) (or_introl eq_refl)).
  - destruct Hl as [Fl Hl], Hm as [Fm Hm]. rewrite Forall_forall in Fl, Fm.
    assert (Gl : forall z, In z l -> f x < f z) by (intros z Hz; apply Fl, in_map, Hz).
    assert (Gm : forall z, In z m -> f y < f z) by (intros z Hz; apply Fm, in_map, Hz).
    assert (E : x = y).
    { destruct (proj1 (H x) (or_introl eq_refl)) as [E | Hx]; [symmetry; exact E|].
      destruct (proj2 (H y) (or_introl eq_refl)) as [E | Hy]; [exact E|].
      pose proof (Gl _ Hy). pose proof (Gm _ Hx). lia. }
    subst y. f_equal. apply IH; try assumption. intros z. split; intros Hz.
    + destruct (proj1 (H z) (or_intror Hz)) as [<- | Hz']; [|exact Hz']. pose proof (Gl _ Hz). lia.
    + destruct (proj2 (H z) (or_intror Hz)) as [<- | Hz']; [|exact Hz']. pose proof (Gm _ Hz). lia.
Qed.
Lemma range_mid {A} (a run rest : list A) : range (a ++ run ++ rest) (length a) (length a + length run) = run.
Proof.
  unfold range. replace (length a + length run - length a) with (length run) by lia.
  rewrite skipn_app, skipn_all, Nat.sub_diag. cbn [skipn app].
  rewrite firstn_app, firstn_all, Nat.sub_diag. cbn. apply app_nil_r.
Qed.

Lemma nth_allowed f total :
  (fst f = None /\ Readable (snd f)) \/ (NthSmall (formula_step f) (snd f) (Z.of_nat total) /\ NthSafe (formula_step f) (snd f) (Z.of_nat total)) ->
  exists l, get_allowed_indexs f total = Ok l /\ ZIncr l /\
            forall x, In x l <-> NthPos (formula_step f) (snd f) (Z.of_nat total) (x + 1).
Proof.
  intros [[E R] | [H1 H2]]; [|apply allowed_correct; assumption]. destruct f as [[a|] b]; [discriminate|].
  unfold get_allowed_indexs, formula_step, allowed_only_index. cbn [fst snd] in *. rewrite (chk_readable b R). cbn [rbind].
  destruct (Z.leb_spec b 0), (Z.ltb_spec (Z.of_nat total) b); cbn [orb].
  1-3: exists []; split; [reflexivity|]; split; [exact I|]; intros x; split; [intros [] | intros (H3 & k & Hk & E')]; lia.
  exists [(b - 1)%Z]. split; [reflexivity|]. split; [cbn; tauto|]. intros x. split.
  - intros [<- | []]. split; [lia|]. exists 0%Z. lia.
  - intros (H3 & k & Hk & E'). left. lia.
Qed.

Section Sib.
  Variable h : heap.
  Variable r : id.
  Hypothesis D : DocOk h r.
  Let wf : WF h := do_wf h r D.

  (** Elements with the same parent stand in the order of their positions. *)
  Definition SibInc (l : list id) : Prop :=
    ForallOrdPairs (fun x y => forall p, parent h x = Some p -> parent h y = Some p -> index h x < index h y) l.

  Lemma sibinc_filter p l : SibInc l -> SibInc (filter p l).
  Proof.
    induction 1 as [|x l H1 H2 IH]; [constructor|]. cbn. destruct (p x); [|exact IH]. constructor; [|exact IH].
    rewrite Forall_forall in *. intros y Hy. apply filter_In in Hy. apply H1, Hy.
  Qed.
  Lemma sibinc_app l m : SibInc (l ++ m) <-> SibInc l /\ SibInc m /\
    forall x y p, In x l -> In y m -> parent h x = Some p -> parent h y = Some p -> index h x < index h y.
  Proof.
    induction l as [|x l IH]; cbn.
    - split; [intros H; repeat split; [constructor | exact H | intros x y p []] | tauto].
    - split.
      + intros H. inversion H as [|x0 l0 H1 H2]; subst. apply IH in H2. destruct H2 as (H2 & H3 & H4). rewrite Forall_app in H1. destruct H1 as [Ha Hb].
        split; [constructor; assumption|]. split; [exact H3|]. intros u y p [<- | Hu] Hy; [|exact (H4 u y p Hu Hy)].
        rewrite Forall_forall in Hb. exact (Hb y Hy p).
      + intros (H1 & H2 & H3). inversion H1 as [|x0 l0 Ha Hb]; subst. constructor.
        * apply Forall_app. split; [exact Ha|]. apply Forall_forall. intros y Hy p. apply H3; [left; reflexivity | exact Hy].
        * apply IH. split; [exact Hb|]. split; [exact H2|]. intros u y p Hu. apply H3. right. exact Hu.
  Qed.
  Lemma sibinc_nodup l : Forall (ElIn h r) l -> SibInc l -> NoDup l.
  Proof.
    intros He. induction 1 as [|x l H1 H2 IH]; [constructor|]. inversion He as [|x0 l0 Hx Hl]; subst. constructor; [|exact (IH Hl)].
    intros Hin. rewrite Forall_forall in H1. destruct (el_parent h r D x Hx) as (p & Ep & _).
    pose proof (H1 x Hin p Ep Ep). lia.
  Qed.
  Lemma ordered_sibinc l : Forall (ElIn h r) l -> Ordered h l -> SibInc l.
  Proof.
    induction l as [|x l IH]; intros He Ho; [constructor|]. inversion He as [|x0 l0 Hx Hl]; subst. destruct Ho as [Hb Ho].
    constructor; [|exact (IH Hl Ho)]. rewrite Forall_forall in *. intros y Hy p Ex Ey. specialize (Hb y Hy).
    destruct (el_parent h r D x Hx) as (p' & E' & _ & Lx). rewrite Ex in E'. injection E' as <-.
    destruct (el_parent h r D y (Hl y Hy)) as (p' & E' & _ & Ly). rewrite Ey in E'. injection E' as <-.
    destruct (Nat.lt_trichotomy (index h x) (index h y)) as [H | [H | H]]; [exact H | |]; exfalso.
    - rewrite H in Lx. rewrite (listed_fun h _ _ _ _ Lx Ly) in Hb. exact (before_irrefl h wf r y (proj1 (Hl y Hy)) Hb).
    - exact (before_asym h wf r x y (proj1 Hx) (proj1 (Hl y Hy)) Hb (listed_before h p _ _ y x Ly Lx H)).
  Qed.
  Lemma kids_inc p : map (index h) (kids h p) = seq 0 (length (kids h p)).
  Proof. apply map_seq. intros i c E. exact (proj2 (proj2 (wf_listed h wf p i c E))). Qed.
  Lemma children_inc p : Inc (map (index h) (children h p)).
  Proof. apply inc_filter. rewrite kids_inc. apply inc_seq. Qed.

  (** * Groups *)
  Lemma groups_step (F : sgroup -> res (list id)) pb els :
    (forall a run rest p, els = a ++ run ++ rest -> run <> [] -> (forall x, In x run -> parent h x = Some p) ->
       F (length a, length a + length run, p) = Ok (filter pb run)) ->
    forall rest a run q, els = a ++ run ++ rest -> run <> [] -> (forall x, In x run -> parent h x = Some q) ->
      (forall x, In x rest -> parent h x <> None) ->
      rflat F (sib_groups h rest (length a + length run) (Some (length a, length a + length run, q))) = Ok (filter pb (run ++ rest)).
  Proof.
    intros HF. induction rest as [|x rest IH]; intros a run q E Hne Hq Hp.
    - cbn [sib_groups opt_list rflat]. rewrite (HF a run [] q E Hne Hq). cbn. rewrite !app_nil_r. reflexivity.
    - cbn [sib_groups]. destruct (parent h x) as [p|] eqn:Ep; [|exfalso; exact (Hp x (or_introl eq_refl) Ep)].
      assert (Hp' : forall y, In y rest -> parent h y <> None) by (intros y Hy; apply Hp; right; exact Hy).
      destruct (Nat.eqb_spec p q) as [-> | Hpq].
      + assert (E' : els = a ++ (run ++ [x]) ++ rest) by (rewrite <- app_assoc; exact E).
        specialize (IH a (run ++ [x]) q E'). rewrite app_length in IH. cbn [length] in IH.
        replace (length a + (length run + 1)) with (S (length a + length run)) in IH by lia. rewrite IH.
        * rewrite <- app_assoc. reflexivity.
        * destruct run; discriminate.
        * intros y Hy. apply in_app_or in Hy. destruct Hy as [Hy | [<- | []]]; [exact (Hq y Hy) | exact Ep].
        * exact Hp'.
      + cbn [rflat]. rewrite (HF a run (x :: rest) q E Hne Hq). cbn [rbind].
        assert (E' : els = (a ++ run) ++ [x] ++ rest) by (rewrite <- app_assoc; exact E).
        specialize (IH (a ++ run) [x] p E'). rewrite app_length in IH. cbn [length] in IH.
        replace (length a + length run + 1) with (S (length a + length run)) in IH by lia. rewrite IH.
        * cbn [rbind]. rewrite (filter_app pb run). reflexivity.
        * discriminate.
        * intros y [<- | []]. exact Ep.
        * exact Hp'.
  Qed.
  Lemma group_filter (F : sgroup -> res (list id)) pb els :
    (forall a run rest p, els = a ++ run ++ rest -> run <> [] -> (forall x, In x run -> parent h x = Some p) ->
       F (length a, length a + length run, p) = Ok (filter pb run)) ->
    (forall x, In x els -> parent h x <> None) -> rflat F (group_siblings h els) = Ok (filter pb els).
  Proof.
    intros HF Hp. unfold group_siblings. destruct els as [|x els]; [reflexivity|]. cbn [sib_groups].
    destruct (parent h x) as [p|] eqn:Ep; [|exfalso; exact (Hp x (or_introl eq_refl) Ep)].
    apply (groups_step F pb (x :: els) HF els [] [x] p); [reflexivity | discriminate | |].
    - intros y [<- | []]. exact Ep.
    - intros y Hy. apply Hp. right. exact Hy.
  Qed.
  (** A run of siblings is a part of its parent's children. *)
  Lemma run_children run p : Forall (ElIn h r) run -> SibInc run -> (forall x, In x run -> parent h x = Some p) ->
    run = filter (includes run) (children h p).
  Proof.
    intros He Hs Hp. apply (inc_unique (index h)).
    - induction Hs as [|x l H1 H2 IH]; [exact I|]. inversion He as [|x0 l0 Hx Hl]; subst. split; [|apply IH; [exact Hl | intros y Hy; apply Hp; right; exact Hy]].
      apply Forall_forall. intros i Hi. apply in_map_iff in Hi. destruct Hi as (y & <- & Hy). rewrite Forall_forall in H1.
      apply (H1 y Hy p); apply Hp; [left; reflexivity | right; exact Hy].
    - apply inc_filter, children_inc.
    - intros x. rewrite filter_In, includes_spec. split; [|tauto]. intros Hx. split; [|exact Hx].
      rewrite Forall_forall in He. destruct (el_parent h r D x (He x Hx)) as (p' & E & _ & Hl). rewrite (Hp x Hx) in E. injection E as <-.
      apply in_children. split; [exists (index h x); exact Hl | exact (proj2 (He x Hx))].
  Qed.
  Lemma sib_groups_ok (F : sgroup -> res (list id)) pb els :
    Forall (ElIn h r) els -> SibInc els ->
    (forall s e p q, InTree h r p -> children h p <> [] -> range els s e = filter q (children h p) -> e - s = length (range els s e) ->
       F (s, e, p) = Ok (filter pb (filter q (children h p)))) ->
    rflat F (group_siblings h els) = Ok (filter pb els).
  Proof.
    intros He Hs HF. apply group_filter.
    - intros a run rest p E Hne Hp.
      assert (He' : Forall (ElIn h r) run) by (rewrite E in He; apply Forall_app in He; destruct He as [_ He]; apply Forall_app in He; apply He).
      assert (Hs' : SibInc run) by (rewrite E in Hs; apply sibinc_app in Hs; destruct Hs as (_ & Hs & _); apply sibinc_app in Hs; apply Hs).
      pose proof (run_children run p He' Hs' Hp) as Er. pose proof (range_mid a run rest) as Em. rewrite <- E in Em.
      assert (Hx' : exists x, In x run) by (destruct run as [|x run']; [congruence | exists x; left; reflexivity]).
      destruct Hx' as (x & Hx).
      rewrite Forall_forall in He'. destruct (el_parent h r D x (He' x Hx)) as (p' & E1 & Hin & _). rewrite (Hp x Hx) in E1. injection E1 as <-.
      rewrite (HF _ _ p (includes run)); [congruence | exact Hin | | congruence | rewrite Em; lia].
      intros E0. rewrite E0 in Er. rewrite Er in Hx. destruct Hx.
    - intros x Hx. rewrite Forall_forall in He. destruct (el_parent h r D x (He x Hx)) as (p & E & _). congruence.
  Qed.

  (** * Positions *)
  Lemma place_at p k x asc t : nth_error (children h p) k = Some x ->
    at_place (sib_list h x) x asc t = t (Z.of_nat (length (children h p))) (place_of asc k (length (children h p))).
  Proof.
    intros E. unfold sib_list, at_place. rewrite (children_parent h wf p x (nth_error_In _ _ E)).
    apply (pos_nth _ _ _ (children_nodup h wf p)) in E. rewrite E. reflexivity.
  Qed.
  Lemma same_type_cnt x l : length (filter (same_type h x) l) = cnt h l x.
  Proof.
    unfold cnt, same_type. f_equal. apply filter_ext. intros y. rewrite (tag_name_eqb h). reflexivity.
  Qed.
  Lemma type_at p l1 x l2 asc t : children h p = l1 ++ x :: l2 ->
    at_place (type_list h x) x asc t =
    t (Z.of_nat (cnt h l1 x + S (cnt h l2 x))) (Z.of_nat (if asc then S (cnt h l1 x) else S (cnt h l2 x))).
  Proof.
    intros E. assert (Hx : In x (children h p)) by (rewrite E; apply in_elt).
    pose proof (type_list_nodup h r D x) as Hn.
    assert (El : type_list h x = filter (same_type h x) l1 ++ x :: filter (same_type h x) l2).
    { unfold type_list, sib_list. rewrite (children_parent h wf p x Hx), E, filter_app. cbn [filter].
      assert (Es : same_type h x x = true) by apply str_eqb_refl. rewrite Es. reflexivity. }
    unfold at_place. rewrite El in *.
    assert (Ep : pos_from (filter (same_type h x) l1 ++ x :: filter (same_type h x) l2) x 0 = Some (cnt h l1 x)).
    { apply pos_nth; [exact Hn|]. rewrite <- same_type_cnt, nth_error_app2, Nat.sub_diag by lia. reflexivity. }
    rewrite Ep, app_length. cbn [length]. rewrite !same_type_cnt. unfold place_of. f_equal. destruct asc; lia.
  Qed.
  Lemma type_count_le p l1 x l2 : children h p = l1 ++ x :: l2 -> cnt h l1 x + S (cnt h l2 x) <= length (children h p).
  Proof.
    intros E. rewrite E, app_length. cbn [length]. unfold cnt.
    pose proof (filter_len (fun y => str_eqb (tag_name h y) (tag_name h x)) l1).
    pose proof (filter_len (fun y => str_eqb (tag_name h y) (tag_name h x)) l2). lia.
  Qed.
  Lemma nthb_allowed f total allow j : (forall x, In x allow <-> NthPos (formula_step f) (snd f) (Z.of_nat total) (x + 1)) ->
    allowed allow j = nthb (formula_step f) (snd f) (Z.of_nat total) (Z.of_nat j + 1).
  Proof. intros H. apply eq_true_iff_eq. rewrite allowed_spec, nthb_spec. apply H. Qed.
  Lemma allow_range f total allow : (forall x, In x allow <-> NthPos (formula_step f) (snd f) (Z.of_nat total) (x + 1)) ->
    Forall (fun z => 0 <= z < Z.of_nat total)%Z allow.
  Proof. intros H. apply Forall_forall. intros z Hz. apply H in Hz. destruct Hz as [Hz _]. lia. Qed.
  Lemma place_side asc k n : k < n -> place_of asc k n = (Z.of_nat (from_side asc n k) + 1)%Z.
  Proof. intros H. unfold place_of, from_side. destruct asc; lia. Qed.
  Lemma pick_filter q T P l : (forall k x, nth_error l k = Some x -> T k = P x) -> filter q (pickn T 0 l) = filter P (filter q l).
  Proof.
    intros H. rewrite (pickn_filter T P 0 l H). clear H. induction l as [|x l IH]; [reflexivity|].
    cbn. destruct (P x) eqn:E1, (q x) eqn:E2; cbn; rewrite ?E1, ?E2, IH; reflexivity.
  Qed.

  (** Picking the [n]th children among a part of them. *)
  Variable text_of : id -> str.
  Lemma nth_side asc f q els s e p allow :
    range els s e = filter q (children h p) -> e - s = length (range els s e) ->
    ZIncr allow -> (forall x, In x allow <-> NthPos (formula_step f) (snd f) (Z.of_nat (length (children h p))) (x + 1)) ->
    nth_handle asc els s e allow (children h p) = Ok (filter (holdsb h text_of (RNthChild asc f)) (filter q (children h p))).
  Proof.
    intros Hr Hl Ha Hin. rewrite (nth_handle_ok asc q _ _ _ _ _ (children_nodup h wf p) Hr Hl Ha (allow_range _ _ _ Hin)).
    f_equal. apply pick_filter. intros k x Hk. cbn [holdsb]. rewrite (place_at p k x asc _ Hk).
    assert (Hlt : k < length (children h p)) by (apply nth_error_Some; rewrite Hk; discriminate).
    rewrite place_side by exact Hlt. apply nthb_allowed. exact Hin.
  Qed.
  Lemma nth_ok_at f p : NthOk h r f -> InTree h r p -> children h p <> [] ->
    exists l, get_allowed_indexs f (length (children h p)) = Ok l /\ ZIncr l /\
      forall x, In x l <-> NthPos (formula_step f) (snd f) (Z.of_nat (length (children h p))) (x + 1).
  Proof. intros [[E R] | H] Hp Hne; apply nth_allowed; [left; split; assumption | right; exact (H p Hp Hne)]. Qed.

  Lemma nth_child_none asc f els : NthOk h r f -> Forall (ElIn h r) els -> SibInc els ->
    nth_child_all h asc f els None = Ok (filter (holdsb h text_of (RNthChild asc f)) els).
  Proof.
    intros Hok He Hs. cbn [nth_child_all]. apply sib_groups_ok; try assumption. intros s e p q Hp Hne Hr Hl. cbn [snd].
    destruct (nth_ok_at f p Hok Hp Hne) as (allow & -> & Ha & Hin). cbn [rbind handle_nth_child].
    pose proof (nth_side asc f q els s e p allow Hr Hl Ha Hin) as H. destruct allow as [|a rest]; [|exact H].
    f_equal. symmetry. apply filter_nil. intros x Hx. apply filter_In in Hx. destruct Hx as [Hx _].
    apply In_nth_error in Hx. destruct Hx as (k & Hk). cbn [holdsb]. rewrite (place_at p k x asc _ Hk).
    apply not_true_iff_false. rewrite nthb_spec. intros HN. apply (Hin (place_of asc k (length (children h p)) - 1)%Z).
    rewrite Z.sub_add. exact HN.
  Qed.
  Lemma range_all {A} (l : list A) : range l 0 (length l) = l.
  Proof. unfold range. cbn [skipn]. rewrite Nat.sub_0_r. apply firstn_all. Qed.
  Lemma filter_true {A} (l : list A) : filter (fun _ => true) l = l.
  Proof. apply filter_all. reflexivity. Qed.
  Lemma nth_child_some asc f p b : NthOk h r f -> InTree h r p -> children h p <> [] ->
    nth_child_all h asc f (children h p) (Some b) = Ok (filter (holdsb h text_of (RNthChild asc f)) (children h p)).
  Proof.
    intros Hok Hp Hne. cbn [nth_child_all]. destruct (nth_ok_at f p Hok Hp Hne) as (allow & -> & Ha & Hin). cbn [rbind].
    rewrite (nth_side asc f (fun _ => true) (children h p) 0 (length (children h p)) p allow).
    - rewrite filter_true. reflexivity.
    - rewrite range_all, filter_true. reflexivity.
    - rewrite range_all. lia.
    - exact Ha.
    - exact Hin.
  Qed.
  (** [:first-child] is [:nth-child(1)]. *)
  Lemma one_pos total x : (0 < total)%Z -> (In x [0%Z] <-> NthPos 0 1 total (x + 1)).
  Proof.
    intros H. unfold NthPos. cbn. split.
    - intros [<- | []]. split; [lia|]. exists 0%Z. lia.
    - intros (H1 & k & Hk & E). left. lia.
  Qed.
  Lemma nthb_one total i : (1 <= i <= total)%Z -> nthb 0 1 total i = (i =? 1)%Z.
  Proof.
    intros H. unfold nthb. cbn [Z.eqb]. replace (1 <=? i)%Z with true by (symmetry; apply Z.leb_le; lia).
    replace (i <=? total)%Z with true by (symmetry; apply Z.leb_le; lia). reflexivity.
  Qed.
  Lemma first_child_holds asc p x : In x (children h p) ->
    holdsb h text_of (RNthChild asc (None, 1%Z)) x = holdsb h text_of (RFirstChild asc) x.
  Proof.
    intros Hx. apply In_nth_error in Hx. destruct Hx as (k & Hk). cbn [holdsb]. rewrite !(place_at p k x asc _ Hk).
    assert (Hlt : k < length (children h p)) by (apply nth_error_Some; rewrite Hk; discriminate).
    unfold formula_step. cbn [fst snd]. apply nthb_one. unfold place_of. destruct asc; lia.
  Qed.
  Lemma first_child_none asc els : Forall (ElIn h r) els -> SibInc els ->
    first_child_all h asc els = Ok (filter (holdsb h text_of (RFirstChild asc)) els).
  Proof.
    intros He Hs. unfold first_child_all. apply sib_groups_ok; try assumption. intros s e p q Hp Hne Hr Hl.
    cbn [handle_nth_child]. rewrite (nth_side asc (None, 1%Z) q els s e p [0%Z] Hr Hl).
    - f_equal. apply filter_ext_in. intros x Hx. apply filter_In in Hx. exact (first_child_holds asc p x (proj1 Hx)).
    - cbn. tauto.
    - intros x. unfold formula_step. cbn [fst snd]. apply one_pos. destruct (children h p); [congruence | cbn; lia].
  Qed.

  (** * of-type *)
  Lemma type_allowed asc f p allow l1 x l2 : children h p = l1 ++ x :: l2 ->
    (forall x, In x allow <-> NthPos (formula_step f) (snd f) (Z.of_nat (length (children h p))) (x + 1)) ->
    allowed allow (if asc : bool then cnt h l1 x else cnt h l2 x) = holdsb h text_of (RNthOfType asc f) x.
  Proof.
    intros E Hin. cbn [holdsb]. rewrite (type_at p l1 x l2 asc _ E), (nthb_allowed f _ _ _ Hin).
    pose proof (type_count_le p l1 x l2 E) as Hle. apply eq_true_iff_eq. rewrite !nthb_spec. unfold NthPos.
    replace (Z.of_nat (if asc then S (cnt h l1 x) else S (cnt h l2 x)))
      with (Z.of_nat (if asc then cnt h l1 x else cnt h l2 x) + 1)%Z by (destruct asc; lia).
    apply and_iff_compat_r. destruct asc; lia.
  Qed.
  Lemma nth_type_part asc f q els s e p allow :
    range els s e = filter q (children h p) -> ZIncr allow ->
    (forall x, In x allow <-> NthPos (formula_step f) (snd f) (Z.of_nat (length (children h p))) (x + 1)) ->
    handle_nth_of_type h asc els s e (Some p) allow = Ok (filter (holdsb h text_of (RNthOfType asc f)) (filter q (children h p))).
  Proof.
    intros Hr Ha Hin. apply of_type_ok; [apply children_inc | exact Hr | exact Ha | |].
    - eapply Forall_impl; [|exact (allow_range _ _ _ Hin)]. cbn. lia.
    - intros l1 x l2 E. exact (type_allowed asc f p allow l1 x l2 E Hin).
  Qed.
  Lemma nth_type_none asc f els : NthOk h r f -> Forall (ElIn h r) els -> SibInc els ->
    nth_of_type_all h asc f els None = Ok (filter (holdsb h text_of (RNthOfType asc f)) els).
  Proof.
    intros Hok He Hs. cbn [nth_of_type_all]. apply sib_groups_ok; try assumption. intros s e p q Hp Hne Hr Hl.
    destruct (nth_ok_at f p Hok Hp Hne) as (allow & -> & Ha & Hin). cbn [rbind].
    exact (nth_type_part asc f q els s e p allow Hr Ha Hin).
  Qed.
  Lemma nth_type_some asc f p b : NthOk h r f -> InTree h r p -> children h p <> [] ->
    nth_of_type_all h asc f (children h p) (Some b) = Ok (filter (holdsb h text_of (RNthOfType asc f)) (children h p)).
  Proof.
    intros Hok Hp Hne. cbn [nth_of_type_all]. destruct (nth_ok_at f p Hok Hp Hne) as (allow & -> & Ha & Hin). cbn [rbind].
    assert (Ep : match children h p with x :: _ => parent h x | [] => None end = Some p).
    { destruct (children h p) as [|x cs] eqn:E; [congruence|]. apply (children_parent h wf). rewrite E. left. reflexivity. }
    rewrite Ep, (nth_type_part asc f (fun _ => true) (children h p) 0 (length (children h p)) p allow).
    - rewrite filter_true. reflexivity.
    - rewrite range_all, filter_true. reflexivity.
    - exact Ha.
    - exact Hin.
  Qed.
  Lemma first_type_holds asc p x : In x (children h p) ->
    holdsb h text_of (RNthOfType asc (None, 1%Z)) x = holdsb h text_of (RFirstOfType asc) x.
  Proof.
    intros Hx. apply in_split in Hx. destruct Hx as (l1 & l2 & E). cbn [holdsb]. rewrite !(type_at p l1 x l2 asc _ E).
    unfold formula_step. cbn [fst snd]. apply nthb_one. destruct asc; lia.
  Qed.
  Lemma first_type_none asc els : Forall (ElIn h r) els -> SibInc els ->
    first_of_type_all h asc els = Ok (filter (holdsb h text_of (RFirstOfType asc)) els).
  Proof.
    intros He Hs. unfold first_of_type_all. apply sib_groups_ok; try assumption. intros s e p q Hp Hne Hr Hl.
    rewrite (nth_type_part asc (None, 1%Z) q els s e p [0%Z] Hr).
    - f_equal. apply filter_ext_in. intros x Hx. apply filter_In in Hx. exact (first_type_holds asc p x (proj1 Hx)).
    - cbn. tauto.
    - intros x. unfold formula_step. cbn [fst snd]. apply one_pos. destruct (children h p); [congruence | cbn; lia].
  Qed.
  Lemma only_type_holds p x : In x (children h p) -> once h (children h p) x = holdsb h text_of ROnlyOfType x.
  Proof.
    intros Hx. apply in_split in Hx. destruct Hx as (l1 & l2 & E). cbn [holdsb]. rewrite (type_at p l1 x l2 true _ E).
    unfold once. rewrite E, cnt_app. unfold cnt at 2. cbn [filter]. rewrite str_eqb_refl. cbn [length]. fold (cnt h l2 x).
    apply eq_true_iff_eq. rewrite Nat.eqb_eq, Z.eqb_eq. lia.
  Qed.
  Lemma only_type_none els : Forall (ElIn h r) els -> SibInc els ->
    only_of_type_all h els = Ok (filter (holdsb h text_of ROnlyOfType) els).
  Proof.
    intros He Hs. unfold only_of_type_all. apply sib_groups_ok; try assumption. intros s e p q Hp Hne Hr Hl. rewrite Hr.
    assert (Eh : forall l, (forall x, In x l -> In x (children h p)) -> filter (once h (children h p)) l = filter (holdsb h text_of ROnlyOfType) l).
    { intros l H. apply filter_ext_in. intros x Hx. apply only_type_holds, H, Hx. }
    destruct (Nat.eqb_spec (length (filter q (children h p))) (length (children h p))) as [E | E].
    - rewrite (filter_all q (children h p)) by (apply filter_full; exact E). rewrite only_full, Eh by tauto. reflexivity.
    - rewrite only_part_all by apply (children_nodup h wf). rewrite Eh; [reflexivity|]. intros x Hx. apply filter_In in Hx. apply Hx.
  Qed.
  Lemma only_child_holds p x : In x (children h p) -> (length (children h p) =? 1) = holdsb h text_of ROnlyChild x.
  Proof.
    intros Hx. apply In_nth_error in Hx. destruct Hx as (k & Hk). cbn [holdsb]. rewrite (place_at p k x true _ Hk).
    apply eq_true_iff_eq. rewrite Nat.eqb_eq, Z.eqb_eq. lia.
  Qed.
  Lemma only_child_ok : forall els prev, Forall (ElIn h r) els -> SibInc els ->
    (forall x q, In x els -> prev = Some q -> parent h x = Some q -> holdsb h text_of ROnlyChild x = false) ->
    only_child_all h els prev = filter (holdsb h text_of ROnlyChild) els.
  Proof.
    induction els as [|x els IH]; intros prev He Hs Hp; [reflexivity|].
    inversion He as [|x0 l0 Hx He']; subst. inversion Hs as [|x0 l0 Hf Hs']; subst.
    destruct (el_parent h r D x Hx) as (p & Ep & Hin & Hl). cbn [only_child_all filter]. rewrite Ep.
    assert (Hc : In x (children h p)) by (apply in_children; split; [exists (index h x); exact Hl | exact (proj2 Hx)]).
    assert (Hp' : forall y q, In y els -> prev = Some q -> parent h y = Some q -> holdsb h text_of ROnlyChild y = false).
    { intros y q Hy. apply Hp. right. exact Hy. }
    destruct (match prev with Some q => q =? p | None => false end) eqn:Eq.
    - destruct prev as [q|]; [|discriminate]. apply Nat.eqb_eq in Eq. subst q.
      rewrite (Hp x p (or_introl eq_refl) eq_refl Ep). apply IH; assumption.
    - rewrite (only_child_holds p x Hc), (IH (Some p) He' Hs').
      + destruct (holdsb h text_of ROnlyChild x); reflexivity.
      + intros y q Hy E Ey. injection E as <-. apply not_true_iff_false. intros Hh.
        rewrite Forall_forall in Hf, He'. pose proof (Hf y Hy p Ep Ey) as Hlt.
        destruct (el_parent h r D y (He' y Hy)) as (p' & E' & _ & Ly). rewrite Ey in E'. injection E' as <-.
        assert (Hcy : In y (children h p)) by (apply in_children; split; [exists (index h y); exact Ly | exact (proj2 (He' y Hy))]).
        rewrite <- (only_child_holds p y Hcy) in Hh. apply Nat.eqb_eq in Hh.
        destruct (children h p) as [|a [|b cs]]; try discriminate. destruct Hc as [-> | []], Hcy as [-> | []]. lia.
  Qed.
  Lemma only_child_none els : Forall (ElIn h r) els -> SibInc els ->
    only_child_all h els None = filter (holdsb h text_of ROnlyChild) els.
  Proof. intros He Hs. apply only_child_ok; try assumption. intros x q _ E. discriminate. Qed.

  (** * The specified handles *)
  Lemma since_first p : since_by h p 0 false = Ok (children h p).
  Proof. unfold since_by, children, kids. destruct (childs h p); reflexivity. Qed.
  Lemma since_last p : kids h p <> [] -> rsub (child_nodes_length h p) 1 = Ok (length (kids h p) - 1) /\
    since_by h p (length (kids h p) - 1) true = Ok (rev (children h p)).
  Proof.
    intros Hk. unfold since_by, children, child_nodes_length, kids in *. destruct (childs h p) as [cs|]; [|congruence].
    assert (Hl : 1 <= length cs) by (destruct cs; [congruence | cbn; lia]). split.
    - unfold rsub. destruct (Nat.leb_spec 1 (length cs)); [reflexivity | lia].
    - destruct (Nat.ltb_spec (length cs - 1) (length cs)); [|lia]. replace (S (length cs - 1)) with (length cs) by lia.
      rewrite firstn_all, filter_rev. reflexivity.
  Qed.
  Lemma events_ok (cs : list id) (marks : list bool) P : (forall k x, nth_error cs k = Some x -> nth_error marks k = Some (P x)) ->
    rmapl (fun p : nat * id => do b <- rnth marks (fst p); Ok (snd p, b, true)) (combine (seq 0 (length cs)) cs) = Ok (map (fun c => (c, P c, true)) cs).
  Proof.
    intros H.
    assert (G : forall suf s, (forall k x, nth_error suf k = Some x -> nth_error marks (s + k) = Some (P x)) ->
      rmapl (fun p : nat * id => do b <- rnth marks (fst p); Ok (snd p, b, true)) (combine (seq s (length suf)) suf) = Ok (map (fun c => (c, P c, true)) suf)).
    { induction suf as [|x suf IH]; intros s Hs; [reflexivity|]. cbn [length seq combine rmapl fst snd map].
      pose proof (Hs 0 x eq_refl) as H0. rewrite Nat.add_0_r in H0. unfold rnth at 1. rewrite H0. cbn [rbind].
      rewrite (IH (S s)); [reflexivity|]. intros k y Hk. replace (S s + k) with (s + S k) by lia. exact (Hs (S k) y Hk). }
    exact (G cs 0 H).
  Qed.
  Lemma mark_index_nth l index : forall i k x, nth_error l k = Some x -> nth_error (mark_index l i index) k = Some (Z.of_nat (i + k) =? index)%Z.
  Proof.
    induction l as [|y l IH]; intros i [|k] x E; try discriminate; cbn in *.
    - rewrite Nat.add_0_r. reflexivity.
    - rewrite (IH (S i) k x E). do 3 f_equal. lia.
  Qed.
  Lemma mark_index_length l index i : length (mark_index l i index) = length l.
  Proof. revert i. induction l as [|y l IH]; intros i; [reflexivity|]. cbn. rewrite IH. reflexivity. Qed.
  Lemma nth_rev {A} (l : list A) k x : nth_error l k = Some x <-> k < length l /\ nth_error (rev l) (length l - 1 - k) = Some x.
  Proof.
    split.
    - intros E. assert (Hk : k < length l) by (apply nth_error_Some; rewrite E; discriminate). split; [exact Hk|].
      apply nth_error_split in E. destruct E as (l1 & l2 & -> & <-). rewrite rev_app_distr, app_length. cbn [rev length].
      rewrite <- app_assoc, nth_error_app2 by (rewrite rev_length; lia). rewrite rev_length.
      replace (length l1 + S (length l2) - 1 - length l1 - length l2) with 0 by lia. reflexivity.
    - intros [Hk E]. apply nth_error_split in E. destruct E as (l1 & l2 & E & El).
      assert (E' : l = rev l2 ++ x :: rev l1).
      { rewrite <- (rev_involutive l), E, rev_app_distr. cbn. rewrite <- app_assoc. reflexivity. }
      assert (Hlen : length l = length l2 + S (length l1)) by (rewrite E', app_length; cbn; rewrite !rev_length; lia).
      rewrite E', nth_error_app2 by (rewrite rev_length; lia). rewrite rev_length. replace (k - length l2) with 0 by lia. reflexivity.
  Qed.
  Lemma nthb_index index total i : (1 <= i <= total)%Z -> nthb 0 index total i = (i =? index)%Z.
  Proof.
    intros H. unfold nthb. cbn [Z.eqb]. replace (1 <=? i)%Z with true by (symmetry; apply Z.leb_le; lia).
    replace (i <=? total)%Z with true by (symmetry; apply Z.leb_le; lia). reflexivity.
  Qed.
  Definition Events (sp : id -> res (list (id * bool * bool))) (pb : id -> bool) : Prop :=
    forall p, InTree h r p -> kids h p <> [] ->
      sp p = Ok (map (fun c => (c, pb c, true)) (children h p)).
  Lemma nth_child_events asc index : (0 < index)%Z -> Events (nth_child_spec h asc index) (holdsb h text_of (RNthChild asc (None, index))).
  Proof.
    intros Hi p Hp Hk. unfold nth_child_spec. destruct (Z.ltb_spec 0 index); [|lia]. rewrite since_first. cbn [rbind].
    assert (HP : forall k x, nth_error (children h p) k = Some x ->
      holdsb h text_of (RNthChild asc (None, index)) x = (Z.of_nat (from_side asc (length (children h p)) k) =? index - 1)%Z).
    { intros k x E. cbn [holdsb]. rewrite (place_at p k x asc _ E). unfold formula_step. cbn [fst snd].
      assert (Hlt : k < length (children h p)) by (apply nth_error_Some; rewrite E; discriminate).
      rewrite nthb_index by (unfold place_of; destruct asc; lia). rewrite place_side by exact Hlt.
      apply eq_true_iff_eq. rewrite !Z.eqb_eq. lia. }
    destruct asc.
    - cbn [rbind]. apply events_ok. intros k x E. rewrite (HP k x E). exact (mark_index_nth _ _ 0 k x E).
    - destruct (since_last p Hk) as [-> H2]. cbn [rbind]. rewrite H2. cbn [rbind]. apply events_ok. intros k x E.
      rewrite (HP k x E). apply nth_rev. rewrite rev_length, mark_index_length, rev_length, rev_involutive.
      apply nth_rev in E. destruct E as [Hlt E]. split; [exact Hlt|]. exact (mark_index_nth _ _ 0 _ x E).
  Qed.
  Lemma tmarks_nth allow l : forall d k x, nth_error l k = Some x ->
    nth_error (tmarks h allow d l) k = Some (allowed allow (cnt h (d ++ firstn k l) x)).
  Proof.
    induction l as [|y l IH]; intros d [|k] x E; try discriminate; cbn in *.
    - injection E as ->. rewrite app_nil_r. reflexivity.
    - rewrite (IH (d ++ [y]) k x E), <- app_assoc. reflexivity.
  Qed.
  Lemma nth_type_events asc index : (0 < index)%Z -> Events (nth_of_type_spec h asc index) (holdsb h text_of (RNthOfType asc (None, index))).
  Proof.
    intros Hi p Hp Hk. unfold nth_of_type_spec. destruct (Z.ltb_spec 0 index); [|lia]. rewrite since_first. cbn [rbind].
    assert (HP : forall l1 x l2, children h p = l1 ++ x :: l2 ->
      holdsb h text_of (RNthOfType asc (None, index)) x = allowed [(index - 1)%Z] (if asc then cnt h l1 x else cnt h l2 x : nat)).
    { intros l1 x l2 E. cbn [holdsb]. rewrite (type_at p l1 x l2 asc _ E). unfold formula_step. cbn [fst snd].
      rewrite nthb_index by (destruct asc; lia). rewrite allowed_cons, allowed_nil, orb_false_r.
      apply eq_true_iff_eq. rewrite !Z.eqb_eq. destruct asc; lia. }
    assert (HW : forall l, names_walk h [] [(index - 1)%Z] l = Ok (tmarks h [(index - 1)%Z] [] l)).
    { intros l. apply names_walk_ok; [discriminate | cbn; tauto | constructor; [lia | constructor] | reflexivity]. }
    destruct asc.
    - rewrite HW. cbn [rbind]. apply events_ok. intros k x E. rewrite (tmarks_nth _ _ [] k x E). cbn [app].
      apply nth_error_split in E. destruct E as (l1 & l2 & E & <-). rewrite (HP l1 x l2 E), E, split_firstn. reflexivity.
    - destruct (since_last p Hk) as [-> H2]. cbn [rbind]. rewrite H2. cbn [rbind]. rewrite HW. cbn [rbind]. apply events_ok. intros k x E.
      apply nth_rev. rewrite rev_length, tmarks_length, rev_length, rev_involutive.
      pose proof E as E'. apply nth_rev in E'. destruct E' as [Hlt E']. split; [exact Hlt|].
      rewrite (tmarks_nth _ _ [] _ x E'). cbn [app].
      apply nth_error_split in E. destruct E as (l1 & l2 & E & El). rewrite (HP l1 x l2 E), E, rev_app_distr. cbn [rev].
      rewrite <- app_assoc. rewrite app_length. cbn [length]. replace (length l1 + S (length l2) - 1 - k) with (length (rev l2)) by (rewrite rev_length; lia).
      cbn [app]. rewrite split_firstn, cnt_rev. reflexivity.
  Qed.
End Sib.
