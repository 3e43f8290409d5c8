(** What the parser does with nested texts outside the grammar. *)
From Verif Require Import Base CharSpec Utils CharProofs Nth NthSpec NthProofs Engine Rules Regex RegexProofs Parse ParseSpec PatProofs NthText TokenProofs ParseProofs ParseTotal ParsePanic TailSpec ParseTail DeepSpec.
From Verif Require ParseClosed.

Section Deep.
  Variable wide_digit : char -> bool.
  Notation exec := (exec wide_digit).
  Notation first_rule := (first_rule wide_digit).
  Notation PU := (PU wide_digit).
  Notation Goes := (Goes wide_digit).
  Notation until := [PSpaces; rparen].

  Lemma mark_splits w : Mark w -> Splits w.
  Proof. intros [w' H N|w1 o w2 H1 H2 H3]; [apply SP_blank; assumption | apply SP_sign; [exact H1 | apply op_in; exact H2 | exact H3]]. Qed.

  Definition Fits (p : place) (rest : str) : Prop :=
    (p = AfterPart -> Follow rest) /\ (p = AfterSign -> heads is_unicode_ws rest = false /\ heads is_op rest = false).
  Lemma run_walk n p t : Run n p t -> forall (rest chars : str) top i Y, Fits p rest -> skipn i chars = t ++ rest -> PU chars top (i + length t) Y -> PU chars top i Y.
  Proof.
    intros H. induction H as [|p t r u Hr IH Ht Hn Hh|p t w Hr IH Hp Hw]; intros rest chars top i Y (F1 & F2) E G.
    - rewrite Nat.add_0_r in G. exact G.
    - rewrite <- app_assoc in E. apply (IH (u ++ rest) chars top i Y); [|exact E|].
      + split.
        * intros Hp. exact (rtext_follow (inner n) r u rest Ht (Hh Hp)).
        * intros _. destruct (rtext_fresh (inner n) r u rest Ht) as (_ & A & B). split; assumption.
      + apply (pu_rule wide_digit chars top (i + length t) r u rest); [exact (skipn_more i chars t _ E) | exact (rtext_fresh (inner n) r u rest Ht) | exact (rtext_complete wide_digit (inner n) r u rest Ht Hn (F1 eq_refl)) |].
        rewrite app_length, Nat.add_assoc in G. exact G.
    - rewrite <- app_assoc in E. pose proof (mark_splits w Hw) as Hs. apply (IH (w ++ rest) chars top i Y); [|exact E|].
      + split; [intros _; exact (splits_follow w rest Hs) | intros Hx; contradiction].
      + destruct (F2 eq_refl) as [A B]. apply (pu_split wide_digit chars top (i + length t) w rest); [exact (skipn_more i chars t _ E) | exact Hs | exact A | exact B |].
        rewrite app_length, Nat.add_assoc in G. exact G.
  Qed.
  Lemma fits_fresh p u : Fresh u -> (p = AfterPart -> Follow u) -> Fits p u.
  Proof. intros (_ & A & B) F. split; [exact F | intros _; split; assumption]. Qed.

  (** The walk ends without closing parenthesis, or breaks off. *)
  Definition Out (chars : str) (top : bool) (i : nat) : Prop := PU chars top i Panic \/ exists j, skipn j chars = [] /\ PU chars top i (Ok (Some (j, []))).
  Lemma run_out n p t (rest chars : str) top i : Run n p t -> Fits p rest -> skipn i chars = t ++ rest -> Out chars top (i + length t) -> Out chars top i.
  Proof.
    intros H F E [G | (j & Ej & G)]; [left | right; exists j; split; [exact Ej|]]; exact (run_walk n p t H rest chars top i _ F E G).
  Qed.

  Lemma pu_none (chars u : str) top i : skipn i chars = u -> Fresh u -> first_rule rules u = Ok None -> (exists ms l, exec until u = Ok (ms, l, 1)) -> PU chars top i (Ok None).
  Proof.
    intros E (F0 & F1 & F2) Ef (ms & l & Eu) f Hf. destruct f as [|f]; [lia|]. cbn [Parse.parse_until]. rewrite E. rewrite (split_none wide_digit _ F1 F2).
    destruct u as [|x u]; [congruence|]. cbn [rbind]. rewrite Ef. cbn [rbind nonempty]. rewrite E, Eu. reflexivity.
  Qed.
  Lemma pu_panic (chars u : str) top i : skipn i chars = u -> Fresh u -> first_rule rules u = Panic -> PU chars top i Panic.
  Proof.
    intros E (F0 & F1 & F2) Ef f Hf. destruct f as [|f]; [lia|]. cbn [Parse.parse_until]. rewrite E. rewrite (split_none wide_digit _ F1 F2).
    destruct u as [|x u]; [congruence|]. cbn [rbind]. rewrite Ef. reflexivity.
  Qed.
  Lemma until_stop (w : str) (c : char) (s : str) : Spaces w -> is_ascii_ws c = false -> c <> 41%N -> exists ms l, exec until (w ++ c :: s) = Ok (ms, l, 1).
  Proof.
    intros Hw Hc Hn. exists [plain w], (length w + 0). apply exec_step; [apply pm_spaces; [exact Hw | exact Hc] | unfold m_len; cbn; lia |].
    apply exec_stop. unfold rparen. cbn [Parse.pat_matched]. assert (E : char_eqb 41%N c = false) by (apply N.eqb_neq; congruence). rewrite E. reflexivity.
  Qed.

  (** One level down. *)
  Lemma nest_step mk name w1 (v chars : str) top i f : NestName mk name -> Spaces w1 -> heads is_ascii_ws v = false -> skipn i chars = name ++ w1 ++ v ->
    parse_until wide_digit (S f) chars until top i =
    (do inner <- parse_until wide_digit f v until false 0;
     match inner with
     | None => Ok None
     | Some (m, _) =>
         do t <- exec until (skipn (i + length (name ++ w1) + m) chars);
         let '(ms, count, num) := t in
         if negb (Nat.eqb num 2) then Ok None
         else Ok (Some (i + length (name ++ w1) + m + count, if top then [plain (firstn (i + length (name ++ w1) + m) chars)] ++ ms else []))
     end).
  Proof.
    intros Hname H1 Hv E. destruct (tok_nested wide_digit mk name w1 v Hname H1 Hv) as (k & Ef & _).
    assert (Es : skipn (i + length (name ++ w1)) chars = v) by (apply (skipn_more i chars (name ++ w1)); rewrite E, <- app_assoc; reflexivity).
    destruct (nest_colon mk name (w1 ++ v) Hname) as (x & Ex).
    assert (Hs : exec_queues wide_digit splitter (name ++ w1 ++ v) = Ok None) by (rewrite Ex; apply split_none; reflexivity).
    cbn [Parse.parse_until]. rewrite E, Hs. rewrite Ef. rewrite Ex. cbn [rbind]. change (Nat.eqb 2 (length (q_nested name))) with false. cbn iota. rewrite Es.
    change (skipn 3 (q_nested name)) with until. destruct (parse_until wide_digit f v until false 0) as [[[m ms]|]| |]; cbn [rbind]; try reflexivity.
    cbn [nonempty]. destruct (exec until _) as [[[ms' count] num]| |]; cbn [rbind]; try reflexivity. change (length until) with 2. destruct top; reflexivity.
  Qed.
  Lemma nest_fresh mk name s : NestName mk name -> Fresh (name ++ s) /\ Follow (name ++ s).
  Proof. intros H. destruct (nest_colon mk name s H) as (x & ->). split; [apply fresh_char | apply follow_char]; cbn; tauto. Qed.
  Lemma first_ws v : First (fun c => is_ascii_ws c = false) v -> heads is_ascii_ws v = false.
  Proof. destruct v; [reflexivity | exact (fun H => H)]. Qed.
  Lemma nest_none mk name w1 (v chars : str) top i : NestName mk name -> Spaces w1 -> heads is_ascii_ws v = false -> skipn i chars = name ++ w1 ++ v ->
    PU v false 0 (Ok None) -> PU chars top i (Ok None).
  Proof.
    intros Hname H1 Hv E G f Hf. destruct f as [|f]; [lia|]. rewrite (nest_step mk name w1 v chars top i f Hname H1 Hv E). rewrite G; [reflexivity|].
    rewrite E, !app_length in Hf. cbn [skipn]. destruct Hname; cbn in Hf; slia.
  Qed.
  Lemma nest_out mk name w1 (v chars : str) top i : NestName mk name -> Spaces w1 -> heads is_ascii_ws v = false -> skipn i chars = name ++ w1 ++ v ->
    Out v false 0 -> PU chars top i Panic.
  Proof.
    intros Hname H1 Hv E G f Hf. destruct f as [|f]; [lia|]. rewrite (nest_step mk name w1 v chars top i f Hname H1 Hv E).
    assert (L : length (skipn 0 v) < f) by (rewrite E, !app_length in Hf; cbn [skipn]; destruct Hname; cbn in Hf; slia).
    destruct G as [G | (j & Ej & G)]; rewrite (G f L); [reflexivity|]. cbn [rbind].
    assert (Es : skipn (i + length (name ++ w1)) chars = v) by (apply (skipn_more i chars (name ++ w1)); rewrite E, <- app_assoc; reflexivity).
    rewrite ParseClosed.skipn_plus, Es, Ej. reflexivity.
  Qed.

  Lemma nested_parts n r t : RText (inner n) r t -> is_nested r = true ->
    exists mk name w1 gs u w2, NestName mk name /\ Spaces w1 /\ inner n gs u /\ Spaces w2 /\ t = name ++ w1 ++ u ++ w2 ++ [41%N].
  Proof.
    intros Hr Hn.
    destruct Hr as [ |m u H|m u H|m u H|w1 k w2 a u w3 H1 Hk H2 Ha H3|r' u H|mk name w1 a b u w2 H H1 Ht H2 Ra Rb|w1 q v w2 H1 Hq Hv H2|w1 v w2 H1 Hv H2|mk name w1 gs u w2 H H1 H2 H3]; try discriminate.
    - cbn [In plain_pseudos] in H. repeat (destruct H as [H | H]; [injection H as <- <-; discriminate|]). destruct H.
    - destruct H; discriminate.
    - exists mk, name, w1, gs, u, w2. repeat split; assumption.
  Qed.
  (** Behind a nested pseudo class only [until] is tried. *)
  Lemma behind n r (u rest chars : str) top i : RText (inner n) r u -> is_nested r = true -> skipn i chars = u ++ rest ->
    forall f, length (skipn i chars) < f -> parse_until wide_digit f chars until top i =
      (do t <- exec until rest;
       let '(ms, count, num) := t in
       if negb (Nat.eqb num 2) then Ok None else Ok (Some (i + length u + count, if top then [plain (firstn (i + length u) chars)] ++ ms else []))).
  Proof.
    intros Hr Hn E f Hf. destruct f as [|f]; [lia|]. destruct (nested_parts n r u Hr Hn) as (mk & name & w1 & gs & x & w2 & Hname & H1 & Hx & H2 & Eu).
    destruct (inner_tight n gs x Hx) as [Hne Hws]. set (v := x ++ w2 ++ [41%N] ++ rest).
    assert (Hv : heads is_ascii_ws v = false) by (unfold v; rewrite heads_app by exact Hne; exact (ws_heads x Hws)).
    assert (E' : skipn i chars = name ++ w1 ++ v) by (rewrite E, Eu; unfold v; rewrite <- !app_assoc; reflexivity).
    rewrite (nest_step mk name w1 v chars top i f Hname H1 Hv E').
    destruct (inner_walks wide_digit n gs x w2 rest v false 0 Hx H2 eq_refl) as (k0 & ms0 & _ & G0). cbn [Nat.add] in G0. rewrite G0.
    2: { cbn [skipn]. rewrite E', !app_length in Hf. destruct Hname; cbn in Hf; slia. }
    cbn [rbind]. assert (El : i + length (name ++ w1) + (length x + length w2 + 1) = i + length u) by (rewrite Eu, !app_length; cbn; slia).
    rewrite El, (skipn_more i chars u rest E). reflexivity.
  Qed.

  Lemma foreign_none p u : Foreign p u -> Fresh u /\ (p = AfterPart -> Follow u) /\ first_rule rules u = Ok None /\ exists ms l, exec until u = Ok (ms, l, 1).
  Proof.
    intros H.
    assert (N : NoPart p u).
    { destruct H as [p c s H1 H2 H3 H4 H5|p s H]; [apply NP_char; try assumption; intros Hin; apply H2; cbn in Hin |- *; tauto | exact (NP_pseudo p s H)]. }
    destruct (nopart_goes wide_digit p u N) as (_ & F & Fo). split; [exact F|]. split; [exact Fo|].
    destruct H as [p c s H1 H2 H3 H4 H5|p s H].
    - split; [apply char_none; [exact H1 | intros Hin; apply H2; cbn in Hin |- *; tauto]|]. apply (until_stop [] c s); [constructor | | intros ->; apply H2; cbn; tauto].
      destruct (is_ascii_ws c) eqn:E; [|reflexivity]. rewrite (ascii_unicode_ws c E) in H3. discriminate.
    - split; [exact (pseudo_none wide_digit s H)|]. apply (until_stop [] 58%N s); [constructor | reflexivity | discriminate].
  Qed.
  Lemma rejected_walk n v : Rejected n v -> forall (chars : str) top i, skipn i chars = v -> PU chars top i (Ok None).
  Proof.
    intros H. induction H as [p t u Hr Hu|p t r u w c s Hr Hu Hn Hw Hc Hc'|p t mk name w v Hr Hname Hw Hv _ IH]; intros chars top i E.
    - destruct (foreign_none p u Hu) as (F & Fo & Ef & Eu). apply (run_walk n p t Hr u chars top i _ (fits_fresh p u F Fo) E).
      exact (pu_none chars u top _ (skipn_more i chars t u E) F Ef Eu).
    - apply (run_walk n p t Hr (u ++ w ++ c :: s) chars top i); [| exact E |].
      + apply fits_fresh; [exact (rtext_fresh (inner n) r u _ Hu)|]. intros _. apply (rtext_follow (inner n) r u _ Hu). destruct r; try discriminate; reflexivity.
      + intros f Hf. rewrite (behind n r u (w ++ c :: s) chars top _ Hu Hn (skipn_more i chars t _ E) f Hf). destruct (until_stop w c s Hw Hc Hc') as (ms & l & ->). reflexivity.
    - destruct (nest_fresh mk name (w ++ v) Hname) as [F Fo]. apply (run_walk n p t Hr (name ++ w ++ v) chars top i _ (fits_fresh p _ F (fun _ => Fo)) E).
      apply (nest_none mk name w v chars top _ Hname Hw (first_ws v Hv) (skipn_more i chars t _ E)). apply IH. reflexivity.
  Qed.

  Lemma end_out (chars w : str) top i : skipn i chars = w -> Spaces w -> Out chars top i.
  Proof.
    intros E Hw. right.
    assert (P : forall i, skipn i chars = [] -> PU chars top i (Ok (Some (i, [])))).
    { clear. intros i E f Hf. destruct f as [|f]; [lia|]. cbn [Parse.parse_until]. rewrite E. reflexivity. }
    destruct w as [|x w]; [exists i; split; [exact E | exact (P i E)]|].
    assert (Es : skipn (i + length (x :: w)) chars = []) by (apply (skipn_more i chars (x :: w)); rewrite app_nil_r; exact E).
    exists (i + length (x :: w)). split; [exact Es|].
    apply (pu_split wide_digit chars top i (x :: w) []); [rewrite app_nil_r; exact E | constructor; [exact (spaces_blank _ Hw) | discriminate] | reflexivity | reflexivity | exact (P _ Es)].
  Qed.
  Lemma broken_walk n v : Broken n v -> forall (chars : str) top i, skipn i chars = v -> Out chars top i.
  Proof.
    intros H. induction H as [p t c Hr Hc|p t r u Hr Hu Hb|p t w Hr Hw Hp|p t r u w Hr Hu Hn Hw|p t mk name w v Hr Hname Hw Hv _ IH]; intros chars top i E.
    - assert (Hc' : In c (lit ".#[:")) by (cbn in Hc |- *; tauto).
      apply (run_out n p t [c] chars top i Hr (fits_fresh p _ (fresh_char c [] Hc') (fun _ => follow_char c [] Hc')) E). left.
      apply (pu_panic chars [c]); [exact (skipn_more i chars t _ E) | exact (fresh_char c [] Hc') | apply sign_panic; cbn in Hc |- *; tauto].
    - destruct (bracket_ends (inner n) r _ Hu Hb) as (c & x & Et & Hc). apply app_inj_tail in Et. destruct Et as [-> _].
      assert (Hc' : In c (lit ".#[:")) by (destruct Hc as [<- | [<- | []]]; cbn; tauto).
      apply (run_out n p t (c :: x) chars top i Hr (fits_fresh p _ (fresh_char c x Hc') (fun _ => follow_char c x Hc')) E). left.
      apply (pu_panic chars (c :: x)); [exact (skipn_more i chars t _ E) | exact (fresh_char c x Hc') | exact (cut_panic wide_digit (inner n) r (c :: x) Hu Hb)].
    - apply (run_out n p t w chars top i Hr); [| exact E | exact (end_out chars w top _ (skipn_more i chars t _ E) Hw)].
      split; [intros _; destruct Hw as [|x w Hx]; [reflexivity | exact (ws_not_id x (ascii_unicode_ws x Hx))] | intros Hs; rewrite (Hp Hs); split; reflexivity].
    - apply (run_out n p t (u ++ w) chars top i Hr); [| exact E |].
      + apply fits_fresh; [exact (rtext_fresh (inner n) r u _ Hu)|]. intros _. apply (rtext_follow (inner n) r u _ Hu). destruct r; try discriminate; reflexivity.
      + left. intros f Hf. rewrite (behind n r u w chars top _ Hu Hn (skipn_more i chars t _ E) f Hf). rewrite (until_open wide_digit w Hw). reflexivity.
    - destruct (nest_fresh mk name (w ++ v) Hname) as [F Fo]. apply (run_out n p t (name ++ w ++ v) chars top i Hr (fits_fresh p _ F (fun _ => Fo)) E). left.
      apply (nest_out mk name w v chars top _ Hname Hw (first_ws v Hv) (skipn_more i chars t _ E)). apply IH. reflexivity.
  Qed.

  Lemma rejected_goes n mk name w v G cb prev last : NestName mk name -> Spaces w -> First (fun c => is_ascii_ws c = false) v -> Rejected n v ->
    Goes (name ++ w ++ v) G cb prev last (Ok None).
  Proof.
    intros Hname Hw Hv H f Hf. destruct f as [|f]; [lia|]. destruct (tok_nested wide_digit mk name w v Hname Hw (first_ws v Hv)) as (k & Ef & _).
    destruct (nest_colon mk name (w ++ v) Hname) as (x & Ex).
    assert (Hs : exec_queues wide_digit splitter (name ++ w ++ v) = Ok None) by (rewrite Ex; apply split_none; reflexivity).
    assert (S : skipn (length (name ++ w)) (name ++ w ++ v) = v) by (rewrite app_assoc; apply skipn_pre).
    assert (Hx : name ++ w ++ v <> []) by (destruct Hname; discriminate).
    cbn [Parse.from_loop]. rewrite Hs, Ef. destruct (name ++ w ++ v) as [|y z]; [congruence|]. cbn [rbind].
    change (Nat.eqb 2 (length (q_nested name))) with false. cbn iota. change (nth_error (q_nested name) 2) with (Some PNested). cbn iota. rewrite S.
    change (skipn 3 (q_nested name)) with until. rewrite (rejected_walk n v H v true 0 eq_refl) by (cbn [skipn]; lia). reflexivity.
  Qed.
  Lemma broken_goes n mk name w v G cb prev last : NestName mk name -> Spaces w -> First (fun c => is_ascii_ws c = false) v -> Broken n v ->
    Goes (name ++ w ++ v) G cb prev last Panic.
  Proof.
    intros Hname Hw Hv H. apply (goes_open wide_digit mk); [exact Hname | exact Hw | exact (first_ws v Hv)|].
    destruct (broken_walk n v H v true 0 eq_refl) as [O | (j & _ & O)]; [right; exact O | left; exists j; exact O].
  Qed.
End Deep.
