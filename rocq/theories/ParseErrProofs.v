(** Proofs about the errors of the selector parser. *)
From Verif Require Import Base Utils Engine Rules Regex RegexProofs Parse ParseSpec PatProofs ParseProofs ParseTotal ParsePanic ParseErr.

Section ErrProofs.
  Variable wide_digit : char -> bool.
  Notation exec_queues := (exec_queues wide_digit).
  Notation exec := (exec wide_digit).
  Notation first_rule := (first_rule wide_digit).
  Notation parse_until := (parse_until wide_digit).
  Notation from_loop := (from_loop wide_digit).
  Notation until_err := (until_err wide_digit).
  Notation loop_err := (loop_err wide_digit).

  (** * The same outcomes *)
  Definition forget {A E} (r : res (A + E)) : res (option A) := do x <- r; Ok (match x with inl a => Some a | inr _ => None end).
  Lemma forget_until f : forall chars until top i, parse_until f chars until top i = forget (until_err f chars until top i).
  Proof.
    induction f as [|f IH]; intros chars until top i; [reflexivity|]. cbn [Parse.parse_until ParseErr.until_err].
    destruct (skipn i chars) as [|x rest] eqn:Es; [reflexivity|]. rewrite <- Es.
    destruct (exec_queues splitter (skipn i chars)) as [[[[ms l] n]|]| |]; cbn [rbind]; try reflexivity; [apply IH|].
    assert (F : forall idx, (if nonempty until then do t <- exec until (skipn idx chars); let '(ms, count, num) := t in
                      if negb (Nat.eqb num (length until)) then Ok None else Ok (Some (idx + count, if top then (if top then [plain (firstn idx chars)] else []) ++ ms else []))
                    else Ok (Some (idx, if top then [plain (firstn idx chars)] else []))) =
              forget (if nonempty until then do t <- exec until (skipn idx chars); let '(ms, count, num) := t in
                      if negb (Nat.eqb num (length until)) then Ok (inr (skipn idx chars, idx)) else Ok (inl (idx + count, if top then (if top then [plain (firstn idx chars)] else []) ++ ms else []))
                    else Ok (inl (idx, if top then [plain (firstn idx chars)] else [])))).
    { intros idx. destruct (nonempty until); [|reflexivity]. destruct (exec until (skipn idx chars)) as [[[ms2 c2] n2]| |]; cbn [rbind]; try reflexivity.
      destruct (negb (n2 =? length until)); reflexivity. }
    destruct (first_rule rules (skipn i chars)) as [[[[k qs] [[ms l] n]]|]| |]; cbn [rbind]; try reflexivity; [|apply F].
    destruct (Nat.eqb n (length qs)); cbn [rbind]; [apply IH|]. rewrite IH.
    destruct (until_err f (skipn (i + l) chars) (skipn (S n) qs) false 0) as [[[m ms']|e]| |]; cbn [rbind forget]; try reflexivity. apply F.
  Qed.
  Lemma forget_loop f : forall s i groups cb prev last, from_loop f s groups cb prev last = forget (loop_err f s i groups cb prev last).
  Proof.
    induction f as [|f IH]; intros s i groups cb prev last; [reflexivity|]. cbn [Parse.from_loop ParseErr.loop_err].
    destruct s as [|x s]; [destruct (prev_eqb last PSelector); reflexivity|]. set (t := x :: s).
    destruct (exec_queues splitter t) as [[[[ms l] n]|]| |]; cbn [rbind]; try reflexivity.
    - destruct (rnth ms 0) as [m| |]; cbn [rbind]; try reflexivity. destruct (prev_eqb prev PSplitter); [reflexivity|].
      destruct (str_eqb (trim (m_chars m)) [44%N]); [destruct (negb (prev_eqb prev PSelector)); [reflexivity | apply IH]|].
      destruct (comb_from (trim (m_chars m))) as [c| |]; cbn [rbind]; try reflexivity. apply IH.
    - destruct (first_rule rules t) as [[[[k qs] [[ms l] n]]|]| |]; cbn [rbind]; try reflexivity. destruct (Nat.eqb n (length qs)).
      + match goal with |- context [make ?p k ms] => destruct (make p k ms) as [rl| |] end; cbn [rbind]; try reflexivity. apply IH.
      + destruct (nth_error qs n) as [[]|]; try reflexivity. rewrite forget_until.
        destruct (until_err (S (length (skipn l t))) (skipn l t) (skipn (S n) qs) true 0) as [[[m ms']|[c e]]| |]; cbn [rbind forget]; try reflexivity.
        match goal with |- context [make ?p k ?d] => destruct (make p k d) as [rl| |] end; cbn [rbind]; try reflexivity. apply IH.
  Qed.

  (** * What a splitter takes *)
  Lemma blank_split s : exists b r, s = b ++ r /\ Blank b /\ heads is_unicode_ws r = false.
  Proof.
    induction s as [|c s (b & r & -> & Hb & Hr)]; [exists [], []; repeat split; constructor|]. destruct (is_unicode_ws c) eqn:E.
    - exists (c :: b), r. repeat split; [constructor; assumption | exact Hr].
    - exists [], (c :: b ++ r). repeat split; [constructor | exact E].
  Qed.
  (** A sign with the blanks around it, or all the blanks where no sign follows. *)
  Inductive Taken : str -> str -> Prop :=
  | TK_sign w1 o w2 u : Blank w1 -> is_op o = true -> Blank w2 -> heads is_unicode_ws u = false -> Taken (w1 ++ o :: w2) u
  | TK_blank w u : Blank w -> w <> [] -> heads is_unicode_ws u = false -> heads is_op u = false -> Taken w u.
  Lemma split_taken s ms l n : exec_queues splitter s = Ok (Some (ms, l, n)) ->
    exists m u, ms = [m] /\ s = m_chars m ++ u /\ l = length (m_chars m) /\ Taken (m_chars m) u.
  Proof.
    intros H. destruct (splitter_cases _ _ _ _ _ H) as (m & u & -> & Es & -> & _). exists m, u. split; [reflexivity|]. split; [exact Es|]. split; [reflexivity|].
    destruct (queues_hit _ _ _ _ _ _ H) as [E _]. unfold splitter in E. cbn [Parse.exec Parse.pat_matched] in E.
    assert (G : forall w v, s = w ++ v -> (exists c, re_exec re_splitter (w ++ v) = Some (w, c)) -> Taken w v -> Taken (m_chars m) u).
    { intros w v Ew (c & Ec) HT. rewrite <- Ew in Ec. rewrite Ec in E. cbn [rbind m_chars m_ignore] in E. injection E as <- _ _. cbn [m_chars] in *.
      rewrite Ew in Es. apply app_inv_head in Es. subst v. exact HT. }
    destruct (blank_split s) as (b & r & Eb & Hb & Hr). destruct r as [|o r].
    - destruct b as [|c b]; [rewrite Eb in E; cbn [app] in E; rewrite (splitter_none [] eq_refl eq_refl) in E; discriminate|].
      assert (Hn : c :: b <> []) by discriminate. exact (G _ _ Eb (splitter_blank _ [] Hb Hn eq_refl eq_refl) (TK_blank _ [] Hb Hn eq_refl eq_refl)).
    - destruct (is_op o) eqn:Ho.
      + destruct (blank_split r) as (b2 & r2 & -> & Hb2 & Hr2). assert (Eb' : s = (b ++ o :: b2) ++ r2) by (rewrite Eb, <- app_assoc; reflexivity).
        exact (G _ _ Eb' (splitter_sign _ _ _ r2 Hb Ho Hb2 Hr2) (TK_sign _ _ _ r2 Hb Ho Hb2 Hr2)).
      + destruct b as [|c b].
        * rewrite Eb in E. cbn [app] in E. rewrite (splitter_none (o :: r) Hr Ho) in E. discriminate.
        * assert (Hn : c :: b <> []) by discriminate. exact (G _ _ Eb (splitter_blank _ (o :: r) Hb Hn Hr Ho) (TK_blank _ (o :: r) Hb Hn Hr Ho)).
  Qed.
  Lemma split_not s : exec_queues splitter s = Ok None -> heads is_unicode_ws s = false /\ heads is_op s = false.
  Proof.
    intros H. destruct (blank_split s) as (b & r & Eb & Hb & Hr).
    assert (G : forall w v, s = w ++ v -> w <> [] -> (exists c, re_exec re_splitter (w ++ v) = Some (w, c)) -> False).
    { intros w v Ew Hn (c & Ec). rewrite <- Ew in Ec. unfold Parse.exec_queues, splitter in H. cbn [Parse.exec Parse.pat_matched] in H. rewrite Ec in H. cbn [rbind m_chars m_ignore] in H.
      destruct w as [|y w]; [congruence|]. discriminate. }
    destruct r as [|o r].
    - destruct b as [|c b]; [rewrite Eb; split; reflexivity|]. assert (Hn : c :: b <> []) by discriminate. elim (G _ _ Eb Hn (splitter_blank _ [] Hb Hn eq_refl eq_refl)).
    - destruct (is_op o) eqn:Ho.
      + destruct (blank_split r) as (b2 & r2 & -> & Hb2 & Hr2). assert (Eb' : s = (b ++ o :: b2) ++ r2) by (rewrite Eb, <- app_assoc; reflexivity).
        elim (G _ _ Eb' ltac:(destruct b; discriminate) (splitter_sign _ _ _ r2 Hb Ho Hb2 Hr2)).
      + destruct b as [|c b]; [rewrite Eb; split; assumption|]. assert (Hn : c :: b <> []) by discriminate. elim (G _ _ Eb Hn (splitter_blank _ (o :: r) Hb Hn Hr Ho)).
  Qed.

  (** * Lengths *)
  Lemma identity_len s : forall esc r n, identity_loop s esc = (r, n) -> length r + n <= length s.
  Proof.
    induction s as [|c s IH]; intros esc r n E; cbn [identity_loop] in E; [injection E as <- <-; cbn; lia|].
    destruct esc; [|destruct (is_ascii_alnum c || char_eqb c 45%N || char_eqb c 95%N); [|destruct (char_eqb c 92%N)]];
      [destruct (identity_loop s false) as [r' n'] eqn:E'; pose proof (IH _ _ _ E'); injection E as <- <-; cbn; lia
      |destruct (identity_loop s false) as [r' n'] eqn:E'; pose proof (IH _ _ _ E'); injection E as <- <-; cbn; lia
      |destruct (identity_loop s true) as [r' n'] eqn:E'; pose proof (IH _ _ _ E'); injection E as <- <-; cbn; lia
      |injection E as <- <-; cbn; lia].
  Qed.
  Lemma pat_len q s m : pat_matched wide_digit q s = Ok (Some m) -> length (m_chars m) + m_ignore m <= length s.
  Proof.
    destruct q as [c|v| | | | |r|]; cbn [Parse.pat_matched]; intros H.
    - destruct s as [|x s]; [discriminate|]. destruct (char_eqb c x); [|discriminate]. injection H as <-. cbn. lia.
    - destruct (starts_with s v) eqn:E; [|discriminate]. injection H as <-. destruct (starts_with_prefix _ _ E) as (r & ->). cbn [m_chars m_ignore plain]. rewrite app_length. slia.
    - destruct s as [|x s]; [discriminate|]. destruct (is_ascii_upper x || is_ascii_lower x || char_eqb x 95%N); [|discriminate]. destruct (identity_loop (x :: s) false) as [r n] eqn:E.
      injection H as <-. cbn [m_chars m_ignore]. exact (identity_len _ _ _ _ E).
    - destruct (nonempty (take_while is_char_available_in_key s)); [|discriminate]. injection H as <-. destruct (take_while_split is_char_available_in_key s) as (u & E & _).
      cbn [m_chars m_ignore plain]. apply (f_equal (@length _)) in E. rewrite app_length in E. slia.
    - injection H as <-. destruct (take_while_split is_ascii_ws s) as (u & E & _). cbn [m_chars m_ignore plain]. apply (f_equal (@length _)) in E. rewrite app_length in E. slia.
    - injection H as H. destruct (nth_free _ s m H) as (u & E & Ei & _). apply (f_equal (@length _)) in E. rewrite app_length in E. slia.
    - destruct (re_exec r s) as [[w c]|] eqn:E; [|discriminate]. injection H as <-. destruct (re_exec_lang _ _ _ _ E) as [_ (u & ->)]. cbn [m_chars m_ignore]. rewrite app_length. slia.
    - discriminate.
  Qed.
  Lemma exec_len qs : forall s ms l n, exec qs s = Ok (ms, l, n) -> l <= length s.
  Proof.
    induction qs as [|q qs IH]; intros s ms l n H; cbn [Parse.exec] in H; [injection H as <- <- <-; lia|].
    destruct (pat_matched wide_digit q s) as [[m|]| |] eqn:E; cbn [rbind] in H; [| injection H as <- <- <-; lia | discriminate..]. pose proof (pat_len _ _ _ E) as L.
    destruct (exec qs (skipn (length (m_chars m) + m_ignore m) s)) as [[[ms' l'] n']| |] eqn:E'; cbn [rbind] in H; [|discriminate..]. injection H as <- <- <-.
    pose proof (IH _ _ _ _ E') as L'. rewrite skipn_length in L'. slia.
  Qed.
  Lemma queues_len qs s ms l n : exec_queues qs s = Ok (Some (ms, l, n)) -> 0 < l <= length s.
  Proof. intros H. destruct (queues_hit _ _ _ _ _ _ H) as [He Hl]. split; [exact Hl | exact (exec_len _ _ _ _ _ He)]. Qed.
  Lemma first_len rs s k qs ms l n : first_rule rs s = Ok (Some (k, qs, (ms, l, n))) -> In (k, qs) rs /\ 0 < l <= length s.
  Proof. intros H. destruct (first_hit _ _ _ _ _ _ H) as [Hin Hq]. split; [exact Hin | exact (queues_len _ _ _ _ _ Hq)]. Qed.

  (** * Where an error is reported *)
  (** [a] ends with a sign and blanks. *)
  Definition SignEnd (a : str) : Prop := exists a' o w, a = a' ++ o :: w /\ is_op o = true /\ Blank w.
  (** [until], the end of the queue of a rule, does not match completely at [c]. *)
  Definition Unclosed (c : str) : Prop :=
    exists k qs j ms n l, In (k, qs) rules /\ exec (skipn j qs) c = Ok (ms, l, n) /\ n <> length (skipn j qs).
  Definition Report (s : str) (e : perr) : Prop :=
    match e with
    | EComb op i => exists a o w v, s = a ++ op ++ v /\ length a = i /\ op = o :: w /\ is_op o = true /\ Blank w /\ SignEnd a
    | EEmpty i => exists w1 w2 v, s = (w1 ++ 44%N :: w2) ++ v /\ length (w1 ++ 44%N :: w2) = i /\ Blank w1 /\ Blank w2 /\ heads is_unicode_ws v = false
    | EUnknown t i => exists a, s = a ++ t /\ t <> [] /\ length a <= i <= length s /\ heads is_unicode_ws t = false /\ heads is_op t = false /\
        (i = length a <-> first_rule rules t = Ok None)
    | ELast => Blank s \/ SignEnd s
    | ENested c i => exists a b, s = a ++ b ++ c /\ a <> [] /\ length b = i /\ Unclosed c
    end.

  (** The end of [parse_until], at [idx]. *)
  Definition stop (chars : str) (until : list pat) (top : bool) (idx : nat) : res ((nat * list matched) + (str * nat)) :=
    let own := if top : bool then [plain (firstn idx chars)] else [] in
    if nonempty until then
      do t <- exec until (skipn idx chars);
      let '(ms, count, num) := t in
      if negb (Nat.eqb num (length until)) then Ok (inr (skipn idx chars, idx)) else Ok (inl (idx + count, if top then own ++ ms else []))
    else Ok (inl (idx, own)).
  Definition Stopped (chars : str) (r : res ((nat * list matched) + (str * nat))) : Prop :=
    match r with
    | Ok (inl (n, _)) => n <= length chars
    | Ok (inr (c, n)) => exists a b, chars = a ++ b ++ c /\ length b = n /\ Unclosed c
    | _ => True
    end.
  Lemma stop_ok chars k qs j top idx : In (k, qs) rules -> idx <= length chars -> Stopped chars (stop chars (skipn j qs) top idx).
  Proof.
    intros Hin Hi. unfold stop. destruct (nonempty (skipn j qs)); [|exact Hi]. destruct (exec (skipn j qs) (skipn idx chars)) as [[[ms l] n]| |] eqn:E; cbn [rbind]; [|exact I..].
    destruct (Nat.eqb_spec n (length (skipn j qs))) as [En | En]; cbn [negb Stopped].
    - pose proof (exec_len _ _ _ _ _ E) as L. rewrite skipn_length in L. slia.
    - exists [], (firstn idx chars). cbn [app]. split; [symmetry; apply firstn_skipn|]. split; [rewrite firstn_length; slia|]. exists k, qs, j, ms, n, l. split; [exact Hin|]. split; [exact E | exact En].
  Qed.
  Lemma until_report f : forall chars k qs j top i, In (k, qs) rules -> i <= length chars -> Stopped chars (until_err f chars (skipn j qs) top i).
  Proof.
    induction f as [|f IH]; intros chars k qs j top i Hin Hi; [exact I|]. cbn [ParseErr.until_err].
    destruct (skipn i chars) as [|x rest] eqn:Es; [exact Hi|]. rewrite <- Es.
    destruct (exec_queues splitter (skipn i chars)) as [[[[ms l] m]|]| |] eqn:E1; cbn [rbind]; [|  | exact I..].
    { pose proof (queues_len _ _ _ _ _ E1) as [_ L]. rewrite skipn_length in L. apply (IH _ k); [exact Hin | slia]. }
    destruct (first_rule rules (skipn i chars)) as [[[[k' qs'] [[ms l] m]]|]| |] eqn:E2; cbn [rbind]; [| exact (stop_ok chars k qs j top i Hin Hi) | exact I..].
    destruct (first_len _ _ _ _ _ _ _ E2) as [Hin' [_ L]]. rewrite skipn_length in L.
    destruct (Nat.eqb m (length qs')); cbn [rbind]; [apply (IH _ k); [exact Hin | slia]|].
    pose proof (IH (skipn (i + l) chars) k' qs' (S m) false 0 Hin' (Nat.le_0_l _)) as HI.
    destruct (until_err f (skipn (i + l) chars) (skipn (S m) qs') false 0) as [[[p ms']|[c e]]| |]; cbn [rbind]; [| |exact I..]; cbn [Stopped] in HI.
    - rewrite skipn_length in HI. refine (stop_ok chars k qs j top (i + l + p) Hin _). slia.
    - destruct HI as (a & b & Ea & Hb & HU). exists (firstn (i + l) chars ++ a), b. split; [|split; assumption]. rewrite <- app_assoc, <- Ea. symmetry. apply firstn_skipn.
  Qed.

  (** What the loop knows of the text before [s]. *)
  Definition Before (a s : str) (prev last : prev_in) : Prop :=
    match prev with
    | PBegin => a = [] /\ last = PBegin
    | PSelector => last = PSelector
    | PSplitter => heads is_unicode_ws s = false /\ (last = PSelector \/ Blank a \/ SignEnd a) /\ (heads is_op s = true -> SignEnd a)
    end.
  Lemma taken_sign w u : Taken w u -> trim w <> [] -> exists w1 o w2, w = w1 ++ o :: w2 /\ Blank w1 /\ is_op o = true /\ Blank w2 /\ trim w = [o].
  Proof.
    intros [w1 o w2 u' H1 Ho H2 Hu | w' u' Hw _ _ _] H; [|elim H; exact (trim_blank w' Hw)].
    exists w1, o, w2. repeat (split; [first [reflexivity | assumption]|]). apply trim_sign; [exact H1 | | exact H2].
    destruct (is_unicode_ws o) eqn:E; [rewrite (ws_not_op o E) in Ho; discriminate | reflexivity].
  Qed.
  Lemma taken_ws w u : Taken w u -> heads is_unicode_ws u = false.
  Proof. intros []; assumption. Qed.
  Lemma sign_end a w1 o w2 : is_op o = true -> Blank w2 -> SignEnd (a ++ w1 ++ o :: w2).
  Proof. intros Ho H2. exists (a ++ w1), o, w2. rewrite <- app_assoc. split; [reflexivity | split; assumption]. Qed.
  Lemma sign_then_blank a w : SignEnd a -> Blank w -> SignEnd (a ++ w).
  Proof. intros (a' & o & w' & -> & Ho & H) Hw. exists a', o, (w' ++ w). rewrite <- app_assoc. split; [reflexivity|]. split; [exact Ho | apply Forall_app; split; assumption]. Qed.

  Lemma loop_report f : forall a s groups cb prev last e, Before a s prev last -> loop_err f s (length a) groups cb prev last = Ok (inr e) -> Report (a ++ s) e.
  Proof.
    induction f as [|f IH]; intros a s groups cb prev last e HB H; [discriminate|]. cbn [ParseErr.loop_err] in H.
    destruct s as [|x s].
    { destruct (prev_eqb last PSelector) eqn:El; [discriminate|]. injection H as <-. rewrite app_nil_r. cbn [Report]. destruct prev; cbn [Before] in HB.
      - destruct HB as [-> _]. left. constructor.
      - destruct HB as (_ & [-> | HB] & _); [discriminate | exact HB].
      - subst last. discriminate. }
    set (t := x :: s) in *.
    assert (Next : forall l groups' cb' prev' last', l <= length t -> Before (a ++ firstn l t) (skipn l t) prev' last' ->
      loop_err f (skipn l t) (length a + l) groups' cb' prev' last' = Ok (inr e) -> Report (a ++ t) e).
    { intros l groups' cb' prev' last' Hl HB' H'. assert (El : length (a ++ firstn l t) = length a + l) by (rewrite app_length, firstn_length; lia). rewrite <- El in H'.
      pose proof (IH _ _ _ _ _ _ _ HB' H') as R. rewrite <- app_assoc, firstn_skipn in R. exact R. }
    destruct (exec_queues splitter t) as [[[[ms l] n]|]| |] eqn:E1; cbn [rbind] in H; try discriminate.
    - destruct (split_taken _ _ _ _ E1) as (m & u & -> & Et & -> & HT). cbn [rnth nth_error rbind] in H.
      assert (Hl : length (m_chars m) <= length t) by (rewrite Et, app_length; lia).
      assert (Ef : firstn (length (m_chars m)) t = m_chars m) by (rewrite Et, firstn_app, Nat.sub_diag, firstn_all; cbn [firstn]; apply app_nil_r).
      assert (Ek : skipn (length (m_chars m)) t = u) by (rewrite Et; apply skipn_pre).
      destruct (prev_eqb prev PSplitter) eqn:Ep.
      { injection H as <-. destruct prev; try discriminate. cbn [Before] in HB. destruct HB as (Hw & _ & Ho). cbn [Report].
        revert Et. clear Hl Ef Ek E1. destruct HT as [w1 o w2 u Hw1 Hop Hw2 Hu | w u Hw' Hn _ _]; intros Et.
        - destruct w1 as [|c w1].
          + cbn [app] in *. exists a, o, w2, u. rewrite Et. split; [reflexivity|]. split; [reflexivity|]. split; [reflexivity|]. split; [exact Hop|]. split; [exact Hw2|].
            apply Ho. rewrite Et. exact Hop.
          + rewrite Et in Hw. inversion Hw1; subst. cbn in Hw. congruence.
        - destruct w as [|c w]; [congruence|]. rewrite Et in Hw. inversion Hw'; subst. cbn in Hw. congruence. }
      destruct (str_eqb (trim (m_chars m)) [44%N]) eqn:Es.
      + apply str_eqb_spec in Es. destruct (taken_sign _ _ HT ltac:(rewrite Es; discriminate)) as (w1 & o & w2 & Em & Hw1 & Ho & Hw2 & Etr). rewrite Es in Etr. injection Etr as <-.
        destruct (negb (prev_eqb prev PSelector)) eqn:En.
        * injection H as <-. destruct prev; try discriminate. cbn [Before] in HB. destruct HB as [-> _]. cbn [app length Nat.add Report].
          exists w1, w2, u. rewrite Et, Em. split; [reflexivity|]. split; [reflexivity|]. split; [exact Hw1|]. split; [exact Hw2 | exact (taken_ws _ _ HT)].
        * refine (Next _ _ _ _ _ Hl _ H). rewrite Ef, Ek. cbn [Before]. rewrite Em. pose proof (sign_end a w1 44%N w2 Ho Hw2) as S.
          split; [exact (taken_ws _ _ HT)|]. split; [right; right; exact S | intros _; exact S].
      + destruct (comb_from (trim (m_chars m))) as [c| |]; cbn [rbind] in H; try discriminate. refine (Next _ _ _ _ _ Hl _ H). rewrite Ef, Ek. cbn [Before].
        split; [exact (taken_ws _ _ HT)|]. destruct (trim (m_chars m)) as [|y tr] eqn:Etr.
        * assert (HTb : Blank (m_chars m) /\ heads is_op u = false).
          { destruct HT as [w1 o w2 u' Hw1 Hop Hw2 Hu | w u' Hw' Hn _ Hou]; [|split; assumption]. rewrite trim_sign in Etr; [discriminate | exact Hw1 | | exact Hw2].
            destruct (is_unicode_ws o) eqn:E; [rewrite (ws_not_op o E) in Hop; discriminate | reflexivity]. }
          cbn [nonempty]. split; [|intros X; rewrite (proj2 HTb) in X; discriminate]. destruct prev; cbn [Before] in HB; [| discriminate | left; reflexivity].
          destruct HB as [-> _]. right. left. exact (proj1 HTb).
        * destruct (taken_sign _ _ HT ltac:(rewrite Etr; discriminate)) as (w1 & o & w2 & Em & Hw1 & Ho & Hw2 & _). rewrite Em. pose proof (sign_end a w1 o w2 Ho Hw2) as S.
          split; [right; right; exact S | intros _; exact S].
    - destruct (split_not _ E1) as [Hws Hop].
      destruct (first_rule rules t) as [[[[k qs] [[ms l] n]]|]| |] eqn:E2; cbn [rbind] in H; try discriminate.
      + destruct (first_len _ _ _ _ _ _ _ E2) as [Hin [Hp Hl]].
        destruct (Nat.eqb n (length qs)).
        * match type of H with context [make ?p k ms] => destruct (make p k ms) as [rl| |] end; cbn [rbind] in H; try discriminate. refine (Next _ _ _ _ _ Hl _ H). reflexivity.
        * assert (U : forall i, i = length a + l -> Report (a ++ t) (EUnknown t i)).
          { intros i ->. exists a. split; [reflexivity|]. split; [discriminate|]. split; [rewrite app_length; slia|]. split; [exact Hws|]. split; [exact Hop|]. rewrite E2. split; [intros X; exfalso; slia | discriminate]. }
          destruct (nth_error qs n) as [[]|]; try (injection H as <-; exact (U _ eq_refl)).
          pose proof (until_report (S (length (skipn l t))) (skipn l t) k qs (S n) true 0 Hin (Nat.le_0_l _)) as HU.
          destruct (until_err (S (length (skipn l t))) (skipn l t) (skipn (S n) qs) true 0) as [[[m ms']|[c i]]| |]; cbn [rbind] in H; try discriminate; cbn [Stopped] in HU.
          -- match type of H with context [make ?p k ?d] => destruct (make p k d) as [rl| |] end; cbn [rbind] in H; try discriminate.
             rewrite skipn_length in HU. assert (Hlm : l + m <= length t) by slia.
             assert (Es : skipn m (skipn l t) = skipn (l + m) t) by (clear; generalize t; induction l as [|l IHl]; intros t'; [reflexivity|]; destruct t'; [rewrite !skipn_nil; reflexivity | exact (IHl t')]).
             rewrite Es, <- Nat.add_assoc in H. refine (Next _ _ _ _ _ Hlm _ H). reflexivity.
          -- injection H as <-. destruct HU as (a' & b & Ea & Hb & HU). cbn [Report]. exists (a ++ firstn l t ++ a'), b.
             split; [rewrite <- !app_assoc, <- Ea, firstn_skipn; reflexivity|]. split; [|split; assumption].
             intros X. apply app_eq_nil in X. destruct X as [_ X]. apply app_eq_nil in X. destruct X as [X _]. apply (f_equal (@length _)) in X. rewrite firstn_length in X. cbn [length] in X. slia.
      + injection H as <-. cbn [Report]. exists a. split; [reflexivity|]. split; [discriminate|]. split; [rewrite app_length; slia|]. split; [exact Hws|]. split; [exact Hop|]. rewrite E2. split; reflexivity.
  Qed.
  Lemma from_report s e : from_err wide_digit s = Ok (inr e) -> Report s e.
  Proof.
    unfold from_err. destruct s as [|x s]; [discriminate|]. intros H. apply (loop_report (S (length (x :: s))) [] (x :: s) [[]] ChildrenAll PBegin PBegin e); [split; reflexivity | exact H].
  Qed.
End ErrProofs.
