(** Checking the hypotheses of the selector theorems on concrete documents.  Nothing here models code. *)
From Verif Require Import Base Attr AttrSpec AttrProofs Dom DomSpec Order OrderSpec DomProofs OrderProofs DomBuild DomBuildProofs
  UtilsSpec Nth NthSpec NavProofs Engine Rules SelSpec FindSpec OneProofs PreProofs SelBool.

Definition meta_check (m : meta) : bool :=
  forallb (fun e => str_eqb (str_lower (fst e)) (fst e) && (snd e <? length (m_attrs m))) (m_lc m) &&
  forallb (fun e => forallb (fun e' => negb (Nat.eqb (snd e) (snd e')) || str_eqb (fst e) (fst e')) (m_lc m)) (m_lc m).
Lemma amap_get_in (l : amap) k i : amap_get l k = Some i -> In (k, i) l.
Proof.
  induction l as [|[k' i'] l IH]; [discriminate|]. cbn. destruct (str_eqb k' k) eqn:E.
  - intros H. injection H as <-. apply str_eqb_spec in E. subst. left. reflexivity.
  - intros H. right. exact (IH H).
Qed.
Lemma meta_check_sound m : meta_check m = true -> MetaOk m.
Proof.
  unfold meta_check. rewrite andb_true_iff, !forallb_forall. intros [H1 H2]. split.
  - intros k i E. apply amap_get_in in E. specialize (H1 _ E). cbn in H1. apply andb_true_iff in H1. destruct H1 as [Ha Hb].
    split; [apply str_eqb_spec; exact Ha | apply Nat.ltb_lt; exact Hb].
  - intros k k' i E E'. apply amap_get_in in E, E'. specialize (H2 _ E). rewrite forallb_forall in H2. specialize (H2 _ E'). cbn in H2.
    rewrite Nat.eqb_refl in H2. apply str_eqb_spec. exact H2.
Qed.
Definition docok_check (h : heap) (r : id) : bool :=
  wf_check h && is_root h r && (r <? length h) &&
  forallb (fun x => (negb (is_element h x || is_root h x) || match owner_document h x with Some d => Nat.eqb d r | None => false end) &&
                    (negb (is_element h x) || match n_meta (node_of h x) with Some m => meta_check m | None => false end)) (seq 0 (length h)).
Lemma docok_check_sound h r : docok_check h r = true -> DocOk h r.
Proof.
  unfold docok_check. rewrite !andb_true_iff, forallb_forall. intros (((H1 & H2) & H3) & H4). apply wf_check_sound in H1.
  assert (Hlt : forall x, InTree h r x -> x < length h).
  { intros x Hx. destruct (Nat.eq_dec x r) as [-> | Hne]; [apply Nat.ltb_lt; exact H3|].
    destruct (intree_attached h r x Hx Hne) as (p & i & Hl). exact (proj1 (wf_listed h H1 _ _ _ Hl)). }
  assert (H5 : forall x, InTree h r x -> (Container h x -> owner_document h x = Some r) /\ (is_element h x = true -> exists m, n_meta (node_of h x) = Some m /\ MetaOk m)).
  { intros x Hx. assert (Hi : In x (seq 0 (length h))) by (apply in_seq; pose proof (Hlt x Hx); lia). specialize (H4 x Hi).
    apply andb_true_iff in H4. destruct H4 as [Ha Hb]. split.
    - intros Hc. assert (E : is_element h x || is_root h x = true) by (apply orb_true_iff; exact Hc). rewrite E in Ha. cbn in Ha.
      destruct (owner_document h x) as [d|]; [|discriminate]. apply Nat.eqb_eq in Ha. subst d. reflexivity.
    - intros He. rewrite He in Hb. cbn in Hb. destruct (n_meta (node_of h x)) as [m|]; [|discriminate]. exists m. split; [reflexivity | exact (meta_check_sound m Hb)]. }
  split; [exact H1 | exact H2 | intros x Hx; apply (H5 x Hx) | intros x Hx; apply (H5 x Hx)].
Qed.

(** An id cache for a concrete document. *)
Definition has_id (h : heap) (s : str) (x : id) : bool :=
  is_element h x && match node_attribute h x (lit "id") with Ok (Some (AV v _)) => str_eqb v s | _ => false end.
Definition ids_of (h : heap) (d : id) (s : str) : option id := List.find (has_id h s) (seq 0 (length h)).
Definition ids_check (h : heap) (r : id) : bool := allin_check h r (seq 0 (length h)).
Lemma has_id_spec h s y : has_id h s y = true <-> is_element h y = true /\ IdIs h y s.
Proof.
  unfold has_id, IdIs, ReadsAs. rewrite andb_true_iff. apply and_iff_compat_l.
  destruct (node_attribute h y (lit "id")) as [[[v q|]|]| |]; split; try discriminate; try (intros (a & E & Es); injection E as <-; discriminate); try (intros (a & E & _); discriminate).
  - intros E. apply str_eqb_spec in E. subst v. exists (Some (AV s q)). split; reflexivity.
  - intros (a & E & Es). injection E as <-. cbn in Es. injection Es as ->. apply str_eqb_refl.
Qed.
Lemma ids_check_sound h r : DocOk h r -> ids_check h r = true -> IdCache h r (ids_of h).
Proof.
  intros D Ha s. apply allin_check_sound in Ha. rewrite Forall_forall in Ha. unfold ids_of. destruct (List.find (has_id h s) (seq 0 (length h))) as [y|] eqn:E.
  - apply find_some in E. destruct E as [Hi E]. apply has_id_spec in E. split; [split; [exact (Ha y Hi) | apply E] | apply E].
  - intros x Hx Hid. assert (Hs : In x (seq 0 (length h))) by (apply in_seq; pose proof (el_lt h r D x Hx); lia).
    pose proof (find_none _ _ E x Hs) as Hn. rewrite (proj2 (has_id_spec h s x) (conj (proj2 Hx) Hid)) in Hn. discriminate.
Qed.
Definition unique_check (h : heap) (s : str) : bool := length (filter (has_id h s) (seq 0 (length h))) <=? 1.
Lemma unique_check_sound h r s : DocOk h r -> unique_check h s = true -> IdUnique h r s.
Proof.
  intros D H x y Hx Hy Hix Hiy. apply Nat.leb_le in H.
  assert (A : forall z, ElIn h r z -> IdIs h z s -> In z (filter (has_id h s) (seq 0 (length h)))).
  { intros z Hz Hi. apply filter_In. split; [apply in_seq; pose proof (el_lt h r D z Hz); lia | apply has_id_spec; split; [apply Hz | exact Hi]]. }
  pose proof (A x Hx Hix) as H1. pose proof (A y Hy Hiy) as H2. destruct (filter (has_id h s) (seq 0 (length h))) as [|a [|b l]]; cbn in *; [tauto | | lia].
  destruct H1 as [<- | []], H2 as [<- | []]. reflexivity.
Qed.

(** Sets of elements. *)
Definition els_check (h : heap) (r : id) (l : list id) : bool := allin_check h r l && forallb (is_element h) l.
Lemma els_check_sound h r l : els_check h r l = true -> Forall (ElIn h r) l.
Proof.
  unfold els_check. rewrite andb_true_iff, forallb_forall. intros [H1 H2]. apply allin_check_sound in H1. rewrite Forall_forall in *.
  intros x Hx. split; [exact (H1 x Hx) | exact (H2 x Hx)].
Qed.

(** Ordered sets of elements. *)
Definition elset_check (h : heap) (r : id) (l : list id) : bool := els_check h r l && docset_check h r l.
Lemma elset_check_sound h r l : elset_check h r l = true -> Forall (ElIn h r) l /\ Ordered h l.
Proof.
  unfold elset_check. rewrite andb_true_iff. intros [H1 H2]. split; [exact (els_check_sound h r l H1)|].
  apply docset_check_sound in H2. apply H2.
Qed.

(** * The conditions on rules *)
Definition nth_check (h : heap) (f : nth_formula) : bool :=
  match fst f with
  | None => (- 2 ^ 63 <=? snd f)%Z && (snd f <? 2 ^ 63)%Z
  | Some a => forallb (fun p =>
      let t := Z.of_nat (length (children h p)) in let b := snd f in
      (t =? 0) || ((- 2 ^ 62 <? a) && (a <? 2 ^ 62) && (- 2 ^ 62 <? b) && (b <? 2 ^ 62) && (t <? 2 ^ 62) &&
        negb ((0 <? a) && (1 - a <? b) && (b <? 0)) && negb ((0 <? a) && (t <? b) && (b <? t + a)) &&
        negb ((a <? 0) && (- a <? b) && (t <? b) && (b <? t - a))))%Z (seq 0 (length h))
  end.
Lemma nth_check_sound h r f : nth_check h f = true -> NthOk h r f.
Proof.
  unfold nth_check, NthOk. destruct f as [[a|] b]; cbn [fst snd formula_step]; [|rewrite andb_true_iff, Z.leb_le, Z.ltb_lt; intros H; left; split; [reflexivity | unfold Readable; cbn [snd]; lia]]. rewrite forallb_forall. intros H. right.
  intros p _ Hc. assert (Hp : p < length h).
  { destruct (Nat.lt_ge_cases p (length h)) as [L | L]; [exact L|]. exfalso. apply Hc. unfold children, kids, childs. rewrite (node_of_out h p L). reflexivity. }
  assert (Hi : In p (seq 0 (length h))) by (apply in_seq; lia). specialize (H p Hi). cbn zeta in H.
  set (t := Z.of_nat (length (children h p))) in *. assert (Ht : (0 < t)%Z) by (subst t; destruct (children h p); [congruence | cbn [length]; lia]).
  apply orb_true_iff in H. destruct H as [H | H]; [apply Z.eqb_eq in H; lia|].
  rewrite !andb_true_iff, !negb_true_iff, !andb_false_iff, !Z.ltb_lt, !Z.ltb_ge in H. unfold NthSmall, NthSafe. cbn [formula_step fst]. lia.
Qed.

(** The elements of a document. *)
Definition all_els (h : heap) : list id := filter (is_element h) (seq 0 (length h)).
Lemma all_els_in h r x : DocOk h r -> ElIn h r x -> In x (all_els h).
Proof.
  intros D Hx. unfold all_els. apply filter_In. split; [apply in_seq; pose proof (el_lt h r D x Hx); lia | apply Hx].
Qed.
Definition named (h : heap) (n : str) (x : id) : bool := ok_or (name_one h n x).
Lemma named_spec h r n x : DocOk h r -> ElIn h r x -> (named h n x = true <-> NameIs h x n).
Proof. intros D Hx. destruct (name_one_spec h r D n x Hx) as (b & E & H). unfold named. rewrite E. exact H. Qed.
Definition options_check (h : heap) : bool :=
  let o := named h (lit "option") in
  forallb (fun x => negb (o x) || forallb (fun y => o y || negb (relb h NextAll y x) ||
    forallb (fun z => negb (o z) || negb (upb h y z)) (all_els h)) (all_els h)) (all_els h).
Lemma options_check_sound h r : DocOk h r -> options_check h = true -> OptionsFirst h r.
Proof.
  intros D H x y z Hx Hox HP Hny Ha Hoz. unfold options_check in H. rewrite forallb_forall in H. specialize (H x (all_els_in h r x D Hx)).
  apply orb_true_iff in H. destruct H as [H | H]; [apply negb_true_iff in H; apply (named_spec h r _ x D Hx) in Hox; congruence|].
  assert (Hy : ElIn h r y).
  { destruct HP as (p & j & i & L2 & L1 & _ & He). destruct (el_parent h r D x Hx) as (p' & Ep & Hp & _).
    pose proof (wf_listed h (do_wf h r D) _ _ _ L1) as (_ & E1 & _). rewrite Ep in E1. injection E1 as ->. apply (el_child h r p y Hp). apply in_children.
    split; [exists j; exact L2 | exact He]. }
  assert (Hz : ElIn h r z) by (split; [exact (intree_down h r y z (proj1 Hy) (or_intror Ha)) | exact (proj1 Hoz)]).
  rewrite forallb_forall in H. specialize (H y (all_els_in h r y D Hy)). rewrite !orb_true_iff in H. destruct H as [[H | H] | H].
  - apply Hny. apply (named_spec h r _ y D Hy). exact H.
  - apply negb_true_iff in H. assert (relb h NextAll y x = true); [|congruence]. apply (relb_spec h r D NextAll y x eq_refl Hx Hy). cbn.
    destruct HP as (p & j & i & L2 & L1 & L & He). exists p, j, i. split; [exact L2|]. split; [exact L1|]. split; [exact L | apply Hx].
  - rewrite forallb_forall in H. specialize (H z (all_els_in h r z D Hz)). apply orb_true_iff in H. destruct H as [H | H]; apply negb_true_iff in H.
    + apply (named_spec h r _ z D Hz) in Hoz. congruence.
    + apply (upb_spec h r D z y (proj1 Hz)) in Ha. congruence.
Qed.

(** No element satisfies two of the groups. *)
Fixpoint excl_check (h : heap) (gbs : list bgroup) : bool :=
  match gbs with
  | [] => true
  | g :: gbs' => forallb (fun g' => forallb (fun x => negb (matchesb h g x && matchesb h g' x)) (all_els h)) gbs' && excl_check h gbs'
  end.
Lemma excl_check_sound h r text_of (gs : ast) : DocOk h r -> (forall g x, In g gs -> ElIn h r x -> (matchesb h (predb h text_of g) x = true <-> Matches h (preds h text_of g) x)) ->
  excl_check h (map (predb h text_of) gs) = true -> Exclusive h r (map (preds h text_of) gs).
Proof.
  intros D. induction gs as [|g gs IH]; intros HM H; [constructor|]. cbn in H. apply andb_true_iff in H. destruct H as [H1 H2]. constructor.
  - rewrite forallb_forall in H1. apply Forall_forall. intros g' Hg'. apply in_map_iff in Hg'. destruct Hg' as (g0 & <- & Hg0). intros x Hx Ha Hb.
    specialize (H1 (predb h text_of g0) (in_map _ _ _ Hg0)). rewrite forallb_forall in H1. specialize (H1 x (all_els_in h r x D Hx)).
    apply negb_true_iff, andb_false_iff in H1. apply (HM g x (or_introl eq_refl) Hx) in Ha. apply (HM g0 x (or_intror Hg0) Hx) in Hb. destruct H1; congruence.
  - apply IH; [|exact H2]. intros g' x Hg'. apply HM. right. exact Hg'.
Qed.

Fixpoint rule_check (h : heap) (text_of : id -> str) (rl : rule) {struct rl} : bool :=
  let ok gs := sel_wf gs && forallb (fun g => forallb (fun cp => forallb (fun e : rule * comb => let '(r', _) := e in rule_check h text_of r') cp) g) gs in
  match rl with
  | RId n => unique_check h n
  | RAttr _ (Some (MEq, w)) | RAttr _ (Some (MDash, w)) | RAttr _ (Some (MNot, w)) => nonempty w
  | RNthChild _ f | RNthOfType _ f => nth_check h f
  | RNot n => match n with NSel gs => ok gs && excl_check h (map (predb h text_of) gs) | NErr => true | NPanic => false end
  | RHas n => match n with NSel gs => ok gs | NErr => true | NPanic => false end
  | RChecked => options_check h
  | RAlias gs => ok gs && excl_check h (map (predb h text_of) gs)
  | _ => true
  end.
Lemma rule_check_sound h r text_of rl : DocOk h r -> rule_check h text_of rl = true -> RuleOk h r text_of rl.
Proof.
  intros D. induction rl as [rl IH] using rule_sub_ind. intros H.
  assert (A : forall gs, (forall rl', InAst rl' gs -> rule_check h text_of rl' = true -> RuleOk h r text_of rl') ->
    sel_wf gs && forallb (fun g => forallb (fun cp => forallb (fun e : rule * comb => let '(r', _) := e in rule_check h text_of r') cp) g) gs = true ->
    sel_wf gs = true /\ fold_right and True (map (fun g => fold_right and True (map (fun cp =>
      fold_right and True (map (fun e : rule * comb => let '(r', _) := e in RuleOk h r text_of r') cp)) g)) gs) /\
    (excl_check h (map (predb h text_of) gs) = true -> Exclusive h r (map (preds h text_of) gs))).
  { intros gs IH' E. apply andb_true_iff in E. destruct E as [Hw E]. rewrite forallb_forall in E.
    assert (HR : forall g cp rl c, In g gs -> In cp g -> In (rl, c) cp -> RuleOk h r text_of rl).
    { intros g cp rl' c Hg Hc Hi. apply IH'; [exists g, cp, c; repeat split; assumption|]. specialize (E g Hg). rewrite forallb_forall in E. specialize (E cp Hc).
      rewrite forallb_forall in E. exact (E (rl', c) Hi). }
    split; [exact Hw|]. split.
    - apply fold_and_in. intros g Hg. apply fold_and_in. intros cp Hc. apply fold_and_in. intros [rl' c] Hi. exact (HR g cp rl' c Hg Hc Hi).
    - apply excl_check_sound; [exact D|]. intros g x Hg Hx. unfold sel_wf in Hw. rewrite forallb_forall in Hw. specialize (Hw g Hg). apply andb_true_iff in Hw.
      destruct Hw as [Hw _]. unfold group_wf in Hw. apply andb_true_iff in Hw.
      apply (matchesb_spec h r text_of D g); [|exact (proj2 Hw) | exact Hx]. intros cp rl' c Hc Hi. exact (holdsb_spec h r text_of D rl' (HR g cp rl' c Hg Hc Hi)). }
  destruct rl as [| | | |k [[[] w]|]| | | | |asc f| |asc f| |n| |n| |gs]; try exact I; cbn [rule_check] in H; cbn [RuleOk].
  - exact (unique_check_sound h r _ D H).
  - intros ->. discriminate.
  - intros ->. discriminate.
  - intros ->. discriminate.
  - exact (nth_check_sound h r f H).
  - exact (nth_check_sound h r f H).
  - destruct n as [gs| |]; try discriminate; [|exact I]. apply andb_true_iff in H. destruct H as [H1 H2]. destruct (A gs IH H1) as (Ha & Hb & Hc).
    split; [exact Ha|]. split; [exact Hb | exact (Hc H2)].
  - destruct n as [gs| |]; try discriminate; [|exact I]. destruct (A gs IH H) as (Ha & Hb & _). split; [exact Ha | exact Hb].
  - exact (options_check_sound h r D H).
  - apply andb_true_iff in H. destruct H as [H1 H2]. destruct (A gs IH H1) as (Ha & Hb & Hc). split; [exact Ha|]. split; [exact Hb | exact (Hc H2)].
Qed.
Definition sel_check (h : heap) (text_of : id -> str) (gs : ast) : bool := forallb (forallb (forallb (fun e : rule * comb => rule_check h text_of (fst e)))) gs.
Lemma sel_check_sound h r text_of gs : DocOk h r -> sel_check h text_of gs = true -> SelOk h r text_of gs.
Proof.
  intros D H g Hg cp Hc rl c Hi. unfold sel_check in H. rewrite forallb_forall in H. specialize (H g Hg). rewrite forallb_forall in H. specialize (H cp Hc).
  rewrite forallb_forall in H. exact (rule_check_sound h r text_of rl D (H (rl, c) Hi)).
Qed.
