(** filter, not, is, is_all, has on parsed selectors. *)
From Verif Require Import Base Utils UtilsSpec Nth NthSpec NthProofs Attr AttrSpec Dom DomSpec Order DomProofs OrderSpec OrderProofs
  Sets SetsProofs AddProofs NavProofs Engine Rules SelSpec FindSpec OneProofs PreProofs SelBool SibLists SibProofs StepProofs BackProofs FilterProofs
  RuleProofs FindProofs FindRules.

Lemma kept_filter {A} (p : A -> bool) (P : A -> Prop) l : (forall x, In x l -> (p x = true <-> P x)) -> Kept P l (filter p l).
Proof.
  induction l as [|x l IH]; intros H; [constructor|]. assert (H' : Kept P l (filter p l)) by (apply IH; intros y Hy; apply H; right; exact Hy).
  cbn. destruct (p x) eqn:E; constructor; try exact H'.
  - apply (H x (or_introl eq_refl)). exact E.
  - intros HP. apply (H x (or_introl eq_refl)) in HP. congruence.
Qed.
Lemma kept_in {A} (P : A -> Prop) l l' : Kept P l l' -> forall x, In x l' <-> In x l /\ P x.
Proof.
  induction 1 as [|x l l' HP _ IH|x l l' HP _ IH]; intros y; cbn; [tauto | |].
  - rewrite IH. split; [intros [<- | [H1 H2]]; tauto | tauto].
  - rewrite IH. split; [tauto | intros [[<- | H1] H2]; tauto].
Qed.
Lemma kept_fun {A} (P : A -> Prop) l l1 : Kept P l l1 -> forall l2, Kept P l l2 -> l1 = l2.
Proof.
  induction 1 as [|x l l' HP _ IH|x l l' HP _ IH]; intros l2 H2; inversion H2; subst; try contradiction; try reflexivity.
  - f_equal. apply IH. assumption.
  - apply IH. assumption.
Qed.
Lemma kept_nil_iff {A} (P : A -> Prop) l : Kept P l [] <-> forall x, In x l -> ~ P x.
Proof.
  split.
  - intros H x Hx HP. exact (proj2 (kept_in P l [] H x) (conj Hx HP)).
  - induction l as [|x l IH]; intros H; constructor; [exact (H x (or_introl eq_refl)) | apply IH; intros y Hy; apply H; right; exact Hy].
Qed.
Lemma kept_ext {A} (P Q : A -> Prop) l l' : (forall x, In x l -> (P x <-> Q x)) -> Kept P l l' -> Kept Q l l'.
Proof.
  intros E H. induction H as [|x l l' HP _ IH|x l l' HP _ IH].
  - constructor.
  - apply Kept_keep; [apply (E x (or_introl eq_refl)); exact HP | apply IH; intros y Hy; apply E; right; exact Hy].
  - apply Kept_drop; [intros HQ; apply HP, (E x (or_introl eq_refl)); exact HQ | apply IH; intros y Hy; apply E; right; exact Hy].
Qed.

Section Select.
  Variable h : heap.
  Variable r : id.
  Hypothesis D : DocOk h r.
  Let wf : WF h := do_wf h r D.
  Variable text_of : id -> str.
  Variable by_id : id -> str -> option id.
  Hypothesis IC : IdCache h r by_id.
  Notation pb := (predb h text_of).
  Notation meets gs := (MatchesAny h (map (preds h text_of) gs)).

  Lemma meets_spec gs x : SelOk h r text_of gs -> sel_wf gs = true -> ElIn h r x -> (matches_anyb h (map pb gs) x = true <-> meets gs x).
  Proof.
    intros Hok Hw Hx. apply (matches_anyb_spec h r text_of D gs); [|exact Hw | exact Hx].
    intros rl Hi. exact (holdsb_spec h r text_of D rl (ast_ok h r text_of gs rl Hok Hi)).
  Qed.
  Lemma match_spec gs g x : SelOk h r text_of gs -> sel_wf gs = true -> In g gs -> ElIn h r x -> (matchesb h (pb g) x = true <-> Matches h (preds h text_of g) x).
  Proof.
    intros Hok Hw Hg Hx. unfold sel_wf in Hw. rewrite forallb_forall in Hw. specialize (Hw g Hg). apply andb_true_iff in Hw.
    destruct Hw as [Hw _]. unfold group_wf in Hw. apply andb_true_iff in Hw.
    apply (matchesb_spec h r text_of D g); [|exact (proj2 Hw) | exact Hx].
    intros cp rl c Hc Hi. exact (holdsb_spec h r text_of D rl (Hok g Hg cp Hc rl c Hi)).
  Qed.

  (** * A combinator in front *)
  Lemma match_pair (gb : bgroup) (gp : pgroup) :
    Forall2 (fun b p => comp_comb b = comp_comb p /\ fwd (comp_comb b) = true /\ forall x, ElIn h r x -> (compb b x = true <-> CompHolds p x)) gb gp ->
    forall x, ElIn h r x -> (match_revb h gb x = true <-> MatchRev h gp x).
  Proof.
    induction 1 as [|b p gb gp (E1 & Hf & E2) HF IH]; intros x Hx; [cbn; split; [discriminate | intros []]|].
    destruct HF as [|b' p' gb gp Hbp HF]; [cbn; rewrite andb_true_r, (E2 x Hx); tauto|].
    rewrite (match_revb_cons h r D b b' gb x Hf Hx), (E2 x Hx).
    change (MatchRev h (p :: p' :: gp) x) with (CompHolds p x /\ exists y, is_element h y = true /\ Rel h (comp_comb p) y x /\ MatchRev h (p' :: gp) y).
    apply and_iff_compat_l. rewrite <- E1. split.
    - intros (y & Hy & HR & Hm). exists y. split; [apply Hy|]. split; [exact HR | apply (IH y Hy); exact Hm].
    - intros (y & He & HR & Hm). assert (Hy : ElIn h r y) by (split; [exact (rel_intree h r D _ y x Hf (proj1 Hx) HR) | exact He]).
      exists y. split; [exact Hy|]. split; [exact HR | apply (IH y Hy); exact Hm].
  Qed.
  Lemma top_spec c x : ElIn h r x -> (topb h r c x = true <-> Top h c x).
  Proof.
    intros Hx. destruct c; cbn [topb Top]; try (split; [discriminate | intros []]); [split; reflexivity|].
    destruct (el_parent h r D x Hx) as (p & Ep & Hp & Hl). rewrite Ep, Nat.eqb_eq. split.
    - intros ->. exists r. split; [exists (index h x); exact Hl|]. destruct (is_element h r) eqn:E; [|reflexivity].
      exfalso. apply (el_not_top h r D r); [split; [exact Hp | exact E] | reflexivity].
    - intros (q & Hq & He). assert (q = p) by (pose proof (child_parent h wf _ _ Hq); congruence). subst q.
      destruct (container_parent h r D x p (proj1 Hx) Ep) as [_ [Hpe | E]]; [congruence | exact E].
  Qed.
  Lemma comp_pair cp : comp_wf cp = true -> (forall rl c, In (rl, c) cp -> RuleOk h r text_of rl) ->
    let b := map (fun e : rule * comb => let '(r', c) := e in (holdsb h text_of r', c)) cp in
    let p := map (fun e : rule * comb => let '(r', c) := e in (Holds h text_of r', c)) cp in
    comp_comb b = comp_comb p /\ fwd (comp_comb b) = true /\ forall x, ElIn h r x -> (compb b x = true <-> CompHolds p x).
  Proof.
    intros Hw Hok b p. subst b p. rewrite !comp_comb_map. split; [reflexivity|]. split.
    - destruct cp as [|[a c] cp]; [discriminate|]. cbn in Hw |- *. apply andb_true_iff in Hw. apply Hw.
    - intros x Hx. apply (compb_spec h r text_of cp x Hx). intros rl c Hi. exact (holdsb_spec h r text_of D rl (Hok rl c Hi)).
  Qed.
  Lemma root_spec g x : GroupOk h r text_of g -> group_wf g = true -> ElIn h r x ->
    (matchesb h (rootedb h r (pb g)) x = true <-> Matches h (rooted h (preds h text_of g)) x).
  Proof.
    intros Hok Hw Hx. unfold group_wf in Hw. apply andb_true_iff in Hw. destruct Hw as [_ Hw]. rewrite forallb_forall in Hw.
    unfold matchesb, Matches. apply match_pair; [|exact Hx].
    assert (HR : forall (A B : Type) (R : A -> B -> Prop) l l', Forall2 R l l' -> Forall2 R (rev l) (rev l')).
    { clear. induction 1; [constructor|]. cbn. apply Forall2_app; [assumption | repeat constructor; assumption]. }
    apply HR. clear HR.
    assert (HP : forall g', (forall cp, In cp g' -> In cp g) -> Forall2 (fun (b : list ((id -> bool) * comb)) (p : list ((id -> Prop) * comb)) => comp_comb b = comp_comb p /\ fwd (comp_comb b) = true /\
      forall x, ElIn h r x -> (compb b x = true <-> CompHolds p x)) (pb g') (preds h text_of g')).
    { induction g' as [|cp g' IH]; intros Hi; [constructor|]. cbn [predb preds map]. constructor; [|apply IH; intros cp' Hc; apply Hi; right; exact Hc].
      pose proof (Hi cp (or_introl eq_refl)) as Hc. exact (comp_pair cp (Hw cp Hc) (Hok cp Hc)). }
    destruct g as [|[|[rl c] cp] [|cp' g]]; try (apply HP; trivial).
    - discriminate (Hw [] (or_introl eq_refl)).
    - cbn [predb preds map rooted rootedb rootc]. constructor; [|apply (HP (cp' :: g)); intros cp0 H0; right; exact H0].
      destruct (comp_pair ((rl, c) :: cp) (Hw _ (or_introl eq_refl)) (Hok _ (or_introl eq_refl))) as (_ & _ & HC). cbn [map comp_comb] in *.
      split; [reflexivity|]. split; [reflexivity|]. intros y Hy. specialize (HC y Hy). unfold compb, CompHolds in *. cbn [forallb fst] in *.
      rewrite !andb_true_iff in *. rewrite (top_spec c y Hy). split.
      + intros (H1 & H2 & H3) P d [H | [H | H]]; [injection H as <- <- | injection H as <- <- | ].
        * apply (proj1 HC (conj H1 H3) _ c). left. reflexivity.
        * exact H2.
        * apply (proj1 HC (conj H1 H3) _ d). right. exact H.
      + intros H. assert (HC' : holdsb h text_of rl y = true /\ forallb (fun e => fst e y) (map (fun e : rule * comb => let '(r', c0) := e in (holdsb h text_of r', c0)) cp) = true).
        { apply HC. intros P d [Hi | Hi]; [injection Hi as <- <-; apply (H _ ChildrenAll); left; reflexivity | apply (H P d); right; right; exact Hi]. }
        split; [apply HC'|]. split; [apply (H _ Chain); right; left; reflexivity | apply HC'].
  Qed.
  Lemma top_free P ps (l : pgroup) : forall x,
    MatchRev h (l ++ [(P, ChildrenAll) :: (Top h ChildrenAll, Chain) :: ps]) x <-> MatchRev h (l ++ [(P, ChildrenAll) :: ps]) x.
  Proof.
    induction l as [|a l IH]; intros x; cbn [app].
    - assert (HC : CompHolds ((P, ChildrenAll) :: (Top h ChildrenAll, Chain) :: ps) x <-> CompHolds ((P, ChildrenAll) :: ps) x).
      { unfold CompHolds. split; intros H Q c Hi.
        - apply (H Q c). destruct Hi as [Hi | Hi]; [left; exact Hi | right; right; exact Hi].
        - destruct Hi as [Hi | [Hi | Hi]]; [apply (H Q c); left; exact Hi | injection Hi as <- <-; exact I | apply (H Q c); right; exact Hi]. }
      cbn [MatchRev]. apply and_iff_compat_r. exact HC.
    - cbn [MatchRev]. apply and_iff_compat_l. destruct l as [|a' l]; cbn [app] in *; split; intros (y & H1 & H2 & H3); exists y; (split; [exact H1|]); (split; [exact H2|]); apply IH; exact H3.
  Qed.
  Lemma rooted_plain g x : group_desc g = true -> Matches h (rooted h (preds h text_of g)) x <-> Matches h (preds h text_of g) x.
  Proof.
    intros Hd. destruct g as [|[|[rl c] cp] [|cp' g]]; try tauto. unfold group_desc in Hd. cbn in Hd. apply comb_eqb_eq in Hd. subst c.
    cbn [preds map rooted]. unfold Matches. exact (top_free _ _ (rev (_ :: _)) x).
  Qed.

  (** * The guard of [add] *)
  Lemma filter_docset p els : Forall (ElIn h r) els -> Ordered h els -> DocSet h r (filter p els).
  Proof.
    intros He Ho. split; [|apply ordered_filter; exact Ho]. rewrite Forall_forall in *. intros x Hx. apply filter_In in Hx. apply (He x (proj1 Hx)).
  Qed.
  Lemma adds_addok els gs : Forall (ElIn h r) els -> Ordered h els ->
    (forall g x, In g gs -> ElIn h r x -> (matchesb h (pb g) x = true <-> Matches h (preds h text_of g) x)) ->
    forall (A : id -> Prop) q, (forall x, In x els -> (q x = true <-> A x)) -> (forall x, A x -> In x els) ->
    AddsFree h A (map (fun g x => In x els /\ Matches h (preds h text_of g) x) gs) -> AddOk h els q (map pb gs).
  Proof.
    intros He Ho. induction gs as [|g gs IH]; intros HM A q Hq HA HF; [exact I|]. cbn [map AddsFree AddOk] in *. destruct HF as [HF1 HF2].
    assert (HB : forall x, In x els -> (matchesb h (pb g) x = true <-> Matches h (preds h text_of g) x)).
    { intros x Hx. apply HM; [left; reflexivity|]. rewrite Forall_forall in He. exact (He x Hx). }
    split.
    - apply (addfree_join h r A (fun x => In x els /\ Matches h (preds h text_of g) x)); [exact (filter_docset q els He Ho) | exact (filter_docset _ els He Ho) | | | exact HF1].
      + intros x. rewrite filter_In. split; [intros [H1 H2]; apply Hq; assumption | intros H; split; [exact (HA x H) | apply Hq; [exact (HA x H) | exact H]]].
      + intros x. rewrite filter_In. split; intros [H1 H2]; (split; [exact H1 | apply HB; assumption]).
    - apply (IH (fun g' x Hg' => HM g' x (or_intror Hg')) (fun x => A x \/ (In x els /\ Matches h (preds h text_of g) x))); [| |exact HF2].
      + intros x Hx. rewrite orb_true_iff, (Hq x Hx), (HB x Hx). tauto.
      + intros x [H | [H _]]; [exact (HA x H) | exact H].
  Qed.

  (** * On ordered sets *)
  Lemma filter_ok els gs : Forall (ElIn h r) els -> Ordered h els -> SelOk h r text_of gs -> sel_wf gs = true ->
    UnionOk h (map (fun g x => In x els /\ Matches h (preds h text_of g) x) gs) ->
    FilterOk h false els (map pb gs) /\ Good h r false els /\ SelB h r false (compile_selector h text_of by_id false gs) (map pb gs).
  Proof.
    intros He Ho Hok Hw HU. split; [|split; [exact (good_ordered h r D false els He Ho)|]].
    - right. split; [reflexivity|]. apply (adds_addok els gs He Ho) with (A := fun _ => False); [| intros x _; split; [discriminate | intros []] | intros x [] | exact HU].
      intros g x Hg Hx. exact (match_spec gs g x Hok Hw Hg Hx).
    - apply (selb_ok h r D text_of by_id IC); [exact Hok | exact Hw | discriminate].
  Qed.
  (** * One group without combined nested selectors, on sets with siblings in order *)
  Lemma filter_ok_any els gs : Forall (ElIn h r) els -> SibInc h els -> SelOk h r text_of gs -> sel_wf gs = true -> length gs <= 1 ->
    forallb (forallb comp_any_order) gs = true ->
    FilterOk h true els (map pb gs) /\ Good h r true els /\ SelB h r true (compile_selector h text_of by_id false gs) (map pb gs).
  Proof.
    intros He Ho Hok Hw Hl Ha. split; [left; rewrite map_length; exact Hl|]. split; [split; [exact He|]; split; [exact Ho | discriminate]|].
    apply (selb_ok h r D text_of by_id IC); [exact Hok | exact Hw |]. intros _. exact Ha.
  Qed.

  Definition Uses (els : list id) (gs : ast) : Prop :=
    exists s, FilterOk h s els (map pb gs) /\ Good h r s els /\ SelB h r s (compile_selector h text_of by_id false gs) (map pb gs).

  Lemma good_el els s x : Good h r s els -> In x els -> ElIn h r x.
  Proof. intros (H & _) Hx. rewrite Forall_forall in H. exact (H x Hx). Qed.
  Lemma filter_ast_ok els gs : SelOk h r text_of gs -> sel_wf gs = true -> Uses els gs ->
    filter_ast h text_of by_id els gs = Ok (filter (matches_anyb h (map pb gs)) els).
  Proof.
    intros Hok Hw (s & HF & HG & HB). unfold filter_ast, filter_sel. destruct (nonempty els) eqn:En; [|apply nonempty_false in En; subst els; reflexivity].
    rewrite (filter_handle h r D s els _ _ HG HB HF). reflexivity.
  Qed.
  Lemma not_ast_ok els gs : SelOk h r text_of gs -> sel_wf gs = true -> Uses els gs ->
    not_ast h text_of by_id els gs = Ok (filter (fun x => negb (matches_anyb h (map pb gs) x)) els).
  Proof.
    intros Hok Hw (s & HF & HG & HB). unfold not_ast, not_sel. destruct (nonempty els) eqn:En; [|apply nonempty_false in En; subst els; reflexivity].
    rewrite (not_handle h r D s els _ _ HG HB HF). reflexivity.
  Qed.
  Lemma is_all_ast_ok els gs : SelOk h r text_of gs -> sel_wf gs = true -> Uses els gs ->
    is_all_ast h text_of by_id els gs = Ok (nonempty els && forallb (matches_anyb h (map pb gs)) els).
  Proof.
    intros Hok Hw (s & HF & HG & HB). unfold is_all_ast, is_all_sel. destruct (nonempty els) eqn:En; [|reflexivity].
    destruct (is_all_handle h r D s els _ _ HG HB HF) as (l & ->). reflexivity.
  Qed.
  Lemma is_ast_ok els gs s : SelOk h r text_of gs -> sel_wf gs = true -> Good h r s els -> SelB h r s (compile_selector h text_of by_id false gs) (map pb gs) ->
    is_ast h text_of by_id els gs = Ok (existsb (matches_anyb h (map pb gs)) els).
  Proof.
    intros Hok Hw HG HB. unfold is_ast, is_sel. destruct (nonempty els) eqn:En; [|apply nonempty_false in En; subst els; reflexivity].
    destruct (is_handle h r D s els _ _ HG HB) as (l & ->). reflexivity.
  Qed.

  (** * Selectors with a combinator in front *)
  Definition rb (gs : ast) : list bgroup := map (fun g => rootedb h r (pb g)) gs.
  Notation rooted_any gs := (MatchesAny h (map (fun g => rooted h (preds h text_of g)) gs)).
  Lemma rb_pairs gs : SelOk h r text_of gs -> forallb group_wf gs = true ->
    Forall2 (fun b p => forall x, ElIn h r x -> (matchesb h b x = true <-> Matches h p x)) (rb gs) (map (fun g => rooted h (preds h text_of g)) gs).
  Proof.
    intros Hok Hw. rewrite forallb_forall in Hw. unfold rb. assert (HI : forall l : ast, (forall g, In g l -> In g gs) ->
      Forall2 (fun b p => forall x, ElIn h r x -> (matchesb h b x = true <-> Matches h p x)) (map (fun g => rootedb h r (pb g)) l) (map (fun g => rooted h (preds h text_of g)) l)).
    { induction l as [|g l IH]; intros Hl; [constructor|]. cbn [map]. constructor; [|apply IH; intros g' Hg'; apply Hl; right; exact Hg'].
      intros x Hx. pose proof (Hl g (or_introl eq_refl)) as Hg. exact (root_spec g x (Hok g Hg) (Hw g Hg) Hx). }
    apply HI. trivial.
  Qed.
  Lemma rooted_spec gs x : SelOk h r text_of gs -> forallb group_wf gs = true -> ElIn h r x -> (matches_anyb h (rb gs) x = true <-> rooted_any gs x).
  Proof.
    intros Hok Hw Hx. pose proof (rb_pairs gs Hok Hw) as HP. unfold matches_anyb, MatchesAny. rewrite existsb_exists.
    induction HP as [|b p bs ps H HP IH]; [split; intros (y & [] & _)|]. split; intros (y & [<- | Hi] & Hm).
    - exists p. split; [left; reflexivity | apply (H x Hx); exact Hm].
    - destruct (proj1 IH (ex_intro _ y (conj Hi Hm))) as (z & Hz & Hm'). exists z. split; [right; exact Hz | exact Hm'].
    - exists b. split; [left; reflexivity | apply (H x Hx); exact Hm].
    - destruct (proj2 IH (ex_intro _ y (conj Hi Hm))) as (z & Hz & Hm'). exists z. split; [right; exact Hz | exact Hm'].
  Qed.
  Lemma pairs_addok els bs ps : Forall (ElIn h r) els -> Ordered h els ->
    Forall2 (fun b p => forall x, ElIn h r x -> (matchesb h b x = true <-> Matches h p x)) bs ps ->
    forall (A : id -> Prop) q, (forall x, In x els -> (q x = true <-> A x)) -> (forall x, A x -> In x els) ->
    AddsFree h A (map (fun p x => In x els /\ Matches h p x) ps) -> AddOk h els q bs.
  Proof.
    intros He Ho HP. induction HP as [|b p bs ps H HP IH]; intros A q Hq HA HF; [exact I|]. cbn [map AddsFree AddOk] in *. destruct HF as [HF1 HF2].
    assert (HB : forall x, In x els -> (matchesb h b x = true <-> Matches h p x)).
    { intros x Hx. apply H. rewrite Forall_forall in He. exact (He x Hx). }
    split.
    - apply (addfree_join h r A (fun x => In x els /\ Matches h p x)); [exact (filter_docset q els He Ho) | exact (filter_docset _ els He Ho) | | | exact HF1].
      + intros x. rewrite filter_In. split; [intros [H1 H2]; apply Hq; assumption | intros H0; split; [exact (HA x H0) | apply Hq; [exact (HA x H0) | exact H0]]].
      + intros x. rewrite filter_In. split; intros [H1 H2]; (split; [exact H1 | apply HB; assumption]).
    - apply (IH (fun x => A x \/ (In x els /\ Matches h p x))); [| |exact HF2].
      + intros x Hx. rewrite orb_true_iff, (Hq x Hx), (HB x Hx). tauto.
      + intros x [H0 | [H0 _]]; [exact (HA x H0) | exact H0].
  Qed.
  Lemma filter_rooted els gs : Forall (ElIn h r) els -> Ordered h els -> SelOk h r text_of gs -> forallb group_wf gs = true ->
    UnionOk h (map (fun g x => In x els /\ Matches h (rooted h (preds h text_of g)) x) gs) ->
    filter_ast h text_of by_id els gs = Ok (filter (matches_anyb h (rb gs)) els) /\
    not_ast h text_of by_id els gs = Ok (filter (fun x => negb (matches_anyb h (rb gs) x)) els) /\
    is_all_ast h text_of by_id els gs = Ok (nonempty els && forallb (matches_anyb h (rb gs)) els).
  Proof.
    intros He Ho Hok Hw HU. pose proof (good_ordered h r D false els He Ho) as HG.
    assert (HB : SelB h r false (compile_selector h text_of by_id false gs) (rb gs)) by (apply (selb_root_ok h r D text_of by_id IC); [exact Hok | exact Hw | discriminate]).
    assert (HF : FilterOk h false els (rb gs)).
    { right. split; [reflexivity|]. apply (pairs_addok els (rb gs) _ He Ho (rb_pairs gs Hok Hw)) with (A := fun _ => False); [intros x _; split; [discriminate | intros []] | intros x [] |].
      rewrite map_map. exact HU. }
    unfold filter_ast, filter_sel, not_ast, not_sel, is_all_ast, is_all_sel. destruct (nonempty els) eqn:En; [|apply nonempty_false in En; subst els; repeat split; reflexivity].
    rewrite (filter_handle h r D false els _ _ HG HB HF), (not_handle h r D false els _ _ HG HB HF). destruct (is_all_handle h r D false els _ _ HG HB HF) as (l & ->).
    repeat split; reflexivity.
  Qed.
  Lemma is_rooted els gs : Forall (ElIn h r) els -> Ordered h els -> SelOk h r text_of gs -> forallb group_wf gs = true ->
    is_ast h text_of by_id els gs = Ok (existsb (matches_anyb h (rb gs)) els).
  Proof.
    intros He Ho Hok Hw. unfold is_ast, is_sel. destruct (nonempty els) eqn:En; [|apply nonempty_false in En; subst els; reflexivity].
    assert (HB : SelB h r false (compile_selector h text_of by_id false gs) (rb gs)) by (apply (selb_root_ok h r D text_of by_id IC); [exact Hok | exact Hw | discriminate]).
    destruct (is_handle h r D false els _ (rb gs) (good_ordered h r D false els He Ho) HB) as (l & ->). reflexivity.
  Qed.
  Lemma has_rooted els gs : AllIn h r els -> SelOk h r text_of gs -> forallb group_wf gs = true ->
    has_ast h text_of by_id els gs = Ok (filter (fun x => existsb (matches_anyb h (rb gs)) (descendants h x)) els).
  Proof.
    intros He Hok Hw. apply (has_ok h r D _ (rb gs)); [|exact He]. apply (selb_root_ok h r D text_of by_id IC); [exact Hok | exact Hw | discriminate].
  Qed.

  (** * has_in *)
  Lemma has_in_loop_ok search : forall fuel x, InTree h r x -> Deep h fuel x ->
    has_in_loop h fuel search x = Ok (existsb (includes search) (pre fuel h x)).
  Proof.
    induction fuel as [|f IH]; intros x Hx Hd; [destruct (deep_pos h r D _ _ Hd); discriminate|].
    cbn [has_in_loop pre]. destruct (nonempty (children h x)) eqn:En; [|destruct (children h x); [reflexivity | discriminate]].
    assert (E : existsb (includes search) (flat_map (fun c => c :: pre f h c) (children h x)) =
      is_in (children h x) search || existsb (fun c => existsb (includes search) (pre f h c)) (children h x)).
    { clear. unfold is_in. induction (children h x) as [|c l IH]; [reflexivity|]. cbn [flat_map app existsb]. rewrite existsb_app, IH.
      destruct (includes search c), (existsb (includes search) (pre f h c)), (existsb (includes search) l); reflexivity. }
    rewrite E. destruct (is_in (children h x) search); [reflexivity|]. cbn [orb]. apply rexists_ok.
    intros c Hc. apply IH; [exact (proj1 (el_child h r x c Hx Hc))|]. apply in_children in Hc. exact (deep_child h r D _ _ _ Hd (proj1 Hc)).
  Qed.
  Lemma has_in_ok els search : AllIn h r els -> has_in h els search = Ok (filter (fun x => existsb (includes search) (descendants h x)) els).
  Proof.
    intros He. unfold has_in. apply rfilter_ok. intros x Hx. rewrite Forall_forall in He.
    exact (has_in_loop_ok search _ x (He x Hx) (deep_full h r D x)).
  Qed.
End Select.
