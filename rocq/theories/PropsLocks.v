(** Property theorems: calls do not disturb later ones through the tables of the parser (C58). *)
From Verif Require Import Base CharProofs Utils Nth NthSpec Engine Rules Parse ParseSpec ParseTotal ParsePanic ParseClosed Locks PropsParse.

(** Some text read among these calls makes the parser panic. *)
Definition Broken (wide_digit : char -> bool) (acts : list act) : Prop := exists s, In (AText s) acts /\ from_str wide_digit s = Panic.
(** A step without filter text was made before any such text. *)
Definition StarFirst (wide_digit : char -> bool) (acts : list act) : Prop :=
  exists p q, acts = p ++ AStar :: q /\ ~ Broken wide_digit p.
(** What a call gives in a process of its own. *)
Definition alone (wide_digit : char -> bool) (a : act) : outcome :=
  match a with AText s => OText (from_str wide_digit s) | AStar => OStar (Ok tt) end.

Section Locks.
  Variable wide_digit : char -> bool.

  Lemma empty_text : from_str wide_digit [] <> Panic.
  Proof. vm_compute. discriminate. Qed.
  Lemma broken_snoc acts a : Broken wide_digit (acts ++ [a]) <-> Broken wide_digit acts \/ exists s, a = AText s /\ from_str wide_digit s = Panic.
  Proof.
    split.
    - intros (s & Hs & E). apply in_app_or in Hs as [Hs | [-> | []]]; [left; exists s; tauto | right; exists s; tauto].
    - intros [(s & Hs & E) | (s & -> & E)]; exists s; (split; [apply in_or_app|exact E]); [left; exact Hs | right; left; reflexivity].
  Qed.
  Lemma star_snoc acts a : StarFirst wide_digit (acts ++ [a]) <-> StarFirst wide_digit acts \/ (a = AStar /\ ~ Broken wide_digit acts).
  Proof.
    split.
    - intros (p & q & E & Hp). destruct q as [|b q] using rev_ind.
      + apply app_inj_tail in E as [-> ->]. right. split; [reflexivity | exact Hp].
      + clear IHq. rewrite app_comm_cons, app_assoc in E. apply app_inj_tail in E as [-> ->]. left. exists p, q. split; [reflexivity | exact Hp].
    - intros [(p & q & -> & Hp) | [-> Hp]]; [exists p, (q ++ [a]) | exists acts, []]; (split; [rewrite ?app_comm_cons, ?app_assoc; reflexivity | exact Hp]).
  Qed.
  (** What the tables remember of the calls made. *)
  Definition Remembers (acts : list act) (st : locks) : Prop :=
    (l_rules st = true <-> Broken wide_digit acts) /\
    match l_all st with
    | CellFilled => StarFirst wide_digit acts
    | CellEmpty => ~ In AStar acts
    | CellPoisoned => Broken wide_digit acts /\ ~ StarFirst wide_digit acts
    end.
  Lemma star_in acts : StarFirst wide_digit acts -> In AStar acts.
  Proof. intros (p & q & -> & _). apply in_or_app. right. left. reflexivity. Qed.
  Lemma remembers acts : Remembers acts (locks_after wide_digit acts).
  Proof.
    unfold locks_after. induction acts as [|a acts [IH1 IH2]] using rev_ind.
    - cbn. split; [split; [discriminate | intros (s & [] & _)] | intros []].
    - rewrite fold_left_app. cbn [fold_left]. set (st := fold_left (fun st a => fst (act_step wide_digit st a)) acts locks_new) in *.
      unfold Remembers. pose proof (broken_snoc acts a) as HBr. destruct a as [s|]; cbn [act_step fst].
      + assert (HS : StarFirst wide_digit (acts ++ [AText s]) <-> StarFirst wide_digit acts).
        { rewrite star_snoc. split; [intros [H | [H _]]; [exact H | discriminate] | tauto]. }
        assert (HI : In AStar (acts ++ [AText s]) <-> In AStar acts).
        { split; [intros H; apply in_app_or in H as [H | [H | []]]; [exact H | discriminate] | intros H; apply in_or_app; left; exact H]. }
        assert (HN : forall r, from_str wide_digit s = r -> r <> Panic -> (exists s0, AText s = AText s0 /\ from_str wide_digit s0 = Panic) -> False).
        { intros r E Hr (s0 & Es & E0). injection Es as <-. congruence. }
        unfold locked_from_str. destruct s as [|c s].
        * cbn [fst]. pose proof (HN _ eq_refl empty_text). split; [tauto|]. destruct (l_all st); tauto.
        * destruct (l_rules st) eqn:Er; cbn [fst].
          -- rewrite Er. assert (Broken wide_digit acts) by (apply IH1; reflexivity). split; [tauto|]. destruct (l_all st); tauto.
          -- destruct (from_str wide_digit (c :: s)) as [o| |] eqn:E; cbn [fst l_rules l_all].
             ++ pose proof (HN _ eq_refl ltac:(discriminate)). rewrite Er. split; [tauto|]. destruct (l_all st); tauto.
             ++ split; [split; [intros _; apply HBr; right; exists (c :: s); tauto | reflexivity]|]. destruct (l_all st); tauto.
             ++ pose proof (HN _ eq_refl ltac:(discriminate)). rewrite Er. split; [tauto|]. destruct (l_all st); tauto.
      + pose proof (star_snoc acts AStar) as HS. assert (HN : ~ exists s0, AStar = AText s0 /\ from_str wide_digit s0 = Panic) by (intros (s0 & E & _); discriminate).
        unfold locked_comb_all. destruct (l_all st) eqn:Ea; cbn [fst].
        * destruct (l_rules st) eqn:Er; cbn [fst l_rules l_all].
          -- assert (HB : Broken wide_digit acts) by (apply IH1; reflexivity). split; [tauto|]. split; [tauto|].
             intros H'; apply HS in H' as [H | [_ H]]; [exact (IH2 (star_in _ H)) | exact (H HB)].
          -- assert (HB : ~ Broken wide_digit acts) by (intros H; apply IH1 in H; discriminate). split; [split; [discriminate | tauto]|]. apply HS. right. split; [reflexivity | exact HB].
        * rewrite Ea. split; [tauto | apply HS; left; exact IH2].
        * rewrite Ea. split; [tauto|]. destruct IH2 as [H1 H2]. tauto.
  Qed.
End Locks.

(** Full claim: always.  Missing: after a text the parser panics on (C34) the claim is false, see below.
    As long as no text made the parser panic, every call gives what it gives in a process of its own. *)
Theorem C58_undisturbed_partial (wide_digit : char -> bool) (before : list act) (a : act) :
  ~ Broken wide_digit before -> outcome_after wide_digit before a = alone wide_digit a.
Proof.
  intros HB. destruct (remembers wide_digit before) as [R1 R2]. unfold outcome_after.
  destruct (l_rules (locks_after wide_digit before)) eqn:Er; [destruct HB; apply R1; reflexivity|].
  destruct a as [s|]; cbn [act_step snd alone].
  - unfold locked_from_str. rewrite Er. destruct s as [|c s]; [reflexivity|]. destruct (from_str wide_digit (c :: s)); reflexivity.
  - unfold locked_comb_all. rewrite Er. destruct (l_all _) eqn:Ea; try reflexivity. destruct R2. contradiction.
Qed.
Print Assumptions C58_undisturbed_partial.
Example C58_ex : ~ Broken ascii_only [AText (lit "p > b"); AStar; AText (lit "p >"); AText []] /\
  outcome_after ascii_only [AText (lit "p > b"); AStar; AText (lit "p >"); AText []] (AText (lit "b")) = OText (Ok (Some [[[(RName (lit "b"), ChildrenAll)]]])).
Proof.
  split; [|vm_compute; reflexivity]. intros (s & Hs & E). repeat (destruct Hs as [Hs | Hs]; [try discriminate; injection Hs as <-; vm_compute in E; discriminate|]). destruct Hs.
Qed.

(** C58: after such a text every text but the empty one panics, and steps without a filter text go on only when one had been made
    before it. *)
Theorem C58_disturbed (wide_digit : char -> bool) (before : list act) : Broken wide_digit before ->
  (forall s, s <> [] -> outcome_after wide_digit before (AText s) = OText Panic) /\
  outcome_after wide_digit before (AText []) = alone wide_digit (AText []) /\
  (StarFirst wide_digit before -> outcome_after wide_digit before AStar = OStar (Ok tt)) /\
  (~ StarFirst wide_digit before -> outcome_after wide_digit before AStar = OStar Panic).
Proof.
  intros HB. destruct (remembers wide_digit before) as [R1 R2]. unfold outcome_after. apply R1 in HB. cbn [act_step snd alone].
  split; [|split; [|split]].
  - intros s Hs. unfold locked_from_str. rewrite HB. destruct s; [congruence | reflexivity].
  - reflexivity.
  - intros HS. unfold locked_comb_all. destruct (l_all _) eqn:Ea; [destruct (R2 (star_in _ _ HS)) | reflexivity | destruct R2; contradiction].
  - intros HS. unfold locked_comb_all. rewrite HB. destruct (l_all _) eqn:Ea; [reflexivity | contradiction | reflexivity].
Qed.
Print Assumptions C58_disturbed.
(** The text [[a] makes every later query panic; steps only when none was made before. *)
Theorem C58_refuted : forall wide_digit : char -> bool, exists s1 s2,
  alone wide_digit (AText s2) = OText (Ok (Some [[[(RName s2, ChildrenAll)]]])) /\
  outcome_after wide_digit [AText s1] (AText s2) = OText Panic /\ outcome_after wide_digit [AText s1] AStar = OStar Panic /\
  outcome_after wide_digit [AStar; AText s1] AStar = OStar (Ok tt).
Proof. intros wd. exists (lit "[a"), (lit "p"). repeat split. Qed.
Print Assumptions C58_refuted.
Example C58_ex2 : Broken ascii_only [AStar; AText (lit "[a")] /\ StarFirst ascii_only [AStar; AText (lit "[a")] /\ ~ StarFirst ascii_only [AText (lit "[a"); AStar].
Proof.
  split; [exists (lit "[a"); split; [right; left; reflexivity | vm_compute; reflexivity]|]. split.
  - exists [], [AText (lit "[a")]. split; [reflexivity|]. intros (s & [] & _).
  - intros (p & q & E & Hp). apply Hp. destruct p as [|b p]; [discriminate|]. injection E as <- _. exists (lit "[a"). split; [left; reflexivity | vm_compute; reflexivity].
Qed.
