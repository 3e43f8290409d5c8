(** Which texts are accepted between the parentheses of an nth pseudo class: only those of the grammar. *)
From Verif Require Import Base Utils Nth NthSpec NthProofs Engine Rules Regex RegexProofs Parse PatProofs NthText TokenProofs SelSpec ParseSpec ParseProofs ParseTotal ParsePanic.

Section Sound.
  Variable wide_digit : char -> bool.
  Notation exec := (exec wide_digit).
  Notation first_rule := (first_rule wide_digit).

  Lemma digits_value_some ds : forall acc v, digits_value ds acc = Some v -> Forall (fun c => is_ascii_digit c = true) ds.
  Proof. induction ds as [|c ds IH]; intros acc v H; [constructor|]. cbn in H. destruct (is_ascii_digit c) eqn:E; [|discriminate]. constructor; [exact E | exact (IH _ _ H)]. Qed.
  Lemma unreadable : ~ Readable (2 ^ 63)%Z.
  Proof. unfold Readable. lia. Qed.
  Lemma parse_back ds c c' (neg : bool) : Lang (re_num wide_digit) ds c c' -> Readable (parse_isize (if neg then 45%N :: ds else ds)) ->
    Numeral ds /\ parse_isize (if neg then 45%N :: ds else ds) = ((if neg then -1 else 1) * value_of ds)%Z.
  Proof.
    intros L R. destruct (num_digits _ _ _ _ L) as (N1 & N2 & N3 & _).
    assert (S : sign_split (if neg then 45%N :: ds else ds) = (neg, ds)).
    { destruct neg; [reflexivity|]. destruct ds as [|d ds]; [reflexivity|]. inversion N2 as [|? ? Hd _]; subst. unfold sign_split, char_eqb.
      destruct (N.eqb_spec d 45) as [-> | _]; [destruct Hd as [Hd | Hd]; [discriminate | lia]|]. destruct (N.eqb_spec d 43) as [-> | _]; [destruct Hd as [Hd | Hd]; [discriminate | lia]|]. reflexivity. }
    unfold parse_isize in *. rewrite S in *. destruct ds as [|d ds]; [congruence|]. destruct (digits_value (d :: ds) 0) as [v|] eqn:E; [|elim (unreadable R)].
    pose proof (digits_value_some _ _ _ E) as F. split; [exact (N3 F)|]. rewrite (digits_value_fold _ F 0%Z) in E. fold (value_of (d :: ds)) in E. injection E as <-.
    destruct ((isize_min <=? (if neg then - value_of (d :: ds) else value_of (d :: ds))) && ((if neg then - value_of (d :: ds) else value_of (d :: ds)) <=? isize_max))%Z; [|elim (unreadable R)].
    destruct neg; lia.
  Qed.
  Lemma lang_opt a u c c' : Lang (ROpt a) u c c' -> Lang a u c c' \/ (u = [] /\ c' = c).
  Proof. unfold ROpt. intros H. apply lang_alt in H. destruct H as [H | H]; [left; exact H | right]. apply lang_eps in H. destruct H as [-> ->]. split; reflexivity. Qed.
  Lemma lang_sign g u c c' : Lang (RGrp g re_sign) u c c' -> exists z (neg : bool), Sign u z /\ c' = (g, u) :: c /\ str_eqb u [45%N] = neg /\ z = (if neg then -1 else 1)%Z /\ (neg = true -> u = [45%N]).
  Proof.
    intros L. apply lang_grp in L. destruct L as (c3 & L & ->). apply lang_chr in L. destruct L as (x & -> & Hx & ->). apply existsb_char in Hx.
    destruct Hx as [<- | [<- | []]]; [exists 1%Z, false | exists (-1)%Z, true]; (split; [constructor|]; split; [reflexivity|]; split; [reflexivity|]; split; [reflexivity | discriminate || reflexivity]).
  Qed.
  Lemma lang_optsign g u c c' : Lang (ROpt (RGrp g re_sign)) u c c' -> cap c g = None -> exists z (neg : bool), OptSign u z /\ z = (if neg then -1 else 1)%Z /\
    (forall (x : str), match cap c' g with Some o => if str_eqb o [45%N] then Some (o ++ x) else Some x | None => Some x end = Some (if neg then 45%N :: x else x)).
  Proof.
    intros L Hg. destruct (lang_opt _ _ _ _ L) as [H | [-> ->]].
    - destruct (lang_sign _ _ _ _ H) as (z & neg & S & -> & E & Ez & En). exists z, neg. split; [apply OS_some, S|]. split; [exact Ez|]. intros x. cbn [cap]. rewrite Nat.eqb_refl, E.
      destruct neg; [rewrite (En eq_refl)|]; reflexivity.
    - exists 1%Z, false. split; [constructor|]. split; [reflexivity|]. intros x. rewrite Hg. reflexivity.
  Qed.
  Lemma lang_re_s u c c' : Lang (RStar true re_s) u c c' -> Blank u /\ c' = c.
  Proof. intros H. apply lang_star_chr in H. exact H. Qed.
  Lemma nth_sound s m f : nth_matched wide_digit s = Some m -> make_formula m = Ok f -> (forall z, fst f = Some z -> Readable z) -> Readable (snd f) -> NthText (fst f) (snd f) (m_chars m).
  Proof.
    unfold nth_matched. destruct (re_exec (re_nth wide_digit) s) as [[cs data]|] eqn:E.
    - destruct (re_exec_lang _ _ _ _ E) as [L _]. clear E s. unfold re_nth in L. apply lang_alt in L. destruct L as [L | L].
      + rewrite (lang_caps _ _ _ _ 6 L eq_refl). cbn [cap]. cbn [rseqs] in L. apply lang_seq in L. destruct L as (sg & u1 & c1 & -> & L1 & L). apply lang_seq in L. destruct L as (fs & u2 & c2 & -> & L2 & L).
        apply lang_seq in L. destruct L as (nn & os & c3 & -> & L3 & L4). apply lang_chr in L3. destruct L3 as (x & -> & Hx & ->). apply N.eqb_eq in Hx. subst x.
        intros Hm. injection Hm as <-. unfold make_formula, get_number. cbn [m_n m_index m_chars].
        (* the captures of each part *)
        assert (C1 : cap data 1 = cap c1 1) by (rewrite (lang_caps _ _ _ _ 1 L4 eq_refl), (lang_caps _ _ _ _ 1 L2 eq_refl); reflexivity).
        assert (C2 : cap data 2 = cap c2 2) by (rewrite (lang_caps _ _ _ _ 2 L4 eq_refl); reflexivity).
        assert (C20 : cap c1 2 = None) by (rewrite (lang_caps _ _ _ _ 2 L1 eq_refl); reflexivity).
        assert (C30 : cap c2 3 = None) by (rewrite (lang_caps _ _ _ _ 3 L2 eq_refl), (lang_caps _ _ _ _ 3 L1 eq_refl); reflexivity).
        assert (C40 : cap c2 4 = None) by (rewrite (lang_caps _ _ _ _ 4 L2 eq_refl), (lang_caps _ _ _ _ 4 L1 eq_refl); reflexivity).
        destruct (lang_optsign _ _ _ _ L1 eq_refl) as (z & neg & S & Ez & Hs).
        assert (FA : exists x, (match cap data 2 with Some x => Some x | None => Some (lit "1") end) = Some x /\
          (Readable (parse_isize (if neg then 45%N :: x else x)) -> exists a, Factor fs a /\ parse_isize (if neg then 45%N :: x else x) = (z * a)%Z)).
        { rewrite C2. destruct (lang_opt _ _ _ _ L2) as [H | [-> ->]].
          - apply lang_grp in H. destruct H as (c4 & H & ->). cbn [cap Nat.eqb]. exists fs. split; [reflexivity|]. intros R. destruct (parse_back fs _ _ neg H R) as [Hn Hv].
            exists (value_of fs). split; [apply FA_some, Hn | rewrite Hv, Ez; reflexivity].
          - rewrite C20. exists (lit "1"). split; [reflexivity|]. intros _. exists 1%Z. split; [constructor | rewrite Ez; destruct neg; reflexivity]. }
        destruct FA as (x & Ex & FA). rewrite Ex. rewrite C1. pose proof (Hs x) as Hsx. unfold str, char in *. rewrite Hsx.
        destruct (lang_opt _ _ _ _ L4) as [H | [-> Ed]].
        * cbn [rseqs] in H. apply lang_seq in H. destruct H as (w1 & v1 & d1 & -> & M1 & H). apply lang_seq in H. destruct H as (s2 & v2 & d2 & -> & M2 & H). apply lang_seq in H. destruct H as (w2 & ds & d3 & -> & M3 & M4).
          apply lang_re_s in M1. destruct M1 as [B1 ->]. apply lang_re_s in M3. destruct M3 as [B2 ->]. destruct (lang_sign _ _ _ _ M2) as (z2 & neg2 & S2 & -> & E2 & Ez2 & En2).
          apply lang_grp in M4. destruct M4 as (d5 & M4 & ->). destruct (num_digits _ _ _ _ M4) as (_ & _ & _ & ->). cbn [cap Nat.eqb]. rewrite E2.
          assert (EI : (if neg2 then Some (s2 ++ ds) else Some ds) = Some (if neg2 then 45%N :: ds else ds)) by (destruct neg2; [rewrite (En2 eq_refl)|]; reflexivity). unfold str, char in *. rewrite EI.
          intros Hf. injection Hf as <-. cbn [fst snd]. intros Ra Rb. destruct (FA (Ra _ eq_refl)) as (a & Fa & Ea). destruct (parse_back ds _ _ neg2 M4 Rb) as [Hn Hv]. unfold str, char in *. rewrite Ea, Hv, <- Ez2.
          apply NT_n; [exact S | exact Fa | apply OF_some; assumption].
        * rewrite Ed, C40. intros Hf. injection Hf as <-. cbn [fst snd]. intros Ra _. destruct (FA (Ra _ eq_refl)) as (a & Fa & Ea). unfold str, char in *. rewrite Ea. apply NT_n; [exact S | exact Fa | constructor].
      + apply lang_seq in L. destruct L as (sg & ds & c1 & -> & L1 & L2). apply lang_grp in L2. destruct L2 as (c2 & L2 & ->). cbn [cap Nat.eqb].
        destruct (num_digits _ _ _ _ L2) as (_ & _ & _ & ->). destruct (lang_optsign _ _ _ _ L1 eq_refl) as (z & neg & S & Ez & Hs).
        intros Hm. injection Hm as <-. unfold make_formula, get_number. cbn [m_n m_index m_chars cap Nat.eqb]. pose proof (Hs ds) as Hsx. unfold str, char in *. rewrite Hsx. unfold chk.
        match goal with |- rbind (if ?c then _ else _) _ = _ -> _ => destruct c; [|discriminate] end. cbn [rbind].
        intros Hf. injection Hf as <-. cbn [fst snd]. intros _ R. destruct (parse_back ds _ _ neg L2 R) as [Hn Hv]. unfold str, char in *. rewrite Hv, <- Ez. apply NT_int; assumption.
    - destruct (starts_with s (lit "even")); [|destruct (starts_with s (lit "odd")); [|discriminate]]; intros H; injection H as <-; cbn; intros Hf; injection Hf as <-; constructor.
  Qed.

  (** The whole text. *)
  Lemma exec_full_len q qs s ms l : exec (q :: qs) s = Ok (ms, l, length (q :: qs)) -> exists m ms' l', pat_matched wide_digit q s = Ok (Some m) /\ ms = m :: ms' /\
    exec qs (skipn (length (m_chars m) + m_ignore m) s) = Ok (ms', l', length qs) /\ l = length (m_chars m) + m_ignore m + l'.
  Proof.
    cbn [Parse.exec]. destruct (pat_matched wide_digit q s) as [[m|]| |]; cbn [rbind]; [|discriminate..].
    destruct (exec qs (skipn (length (m_chars m) + m_ignore m) s)) as [[[ms' l'] n']| |] eqn:E; cbn [rbind]; [|discriminate..]. intros H. injection H as <- <- ->.
    exists m, ms', l'. split; [reflexivity|]. split; [reflexivity|]. split; [exact E | reflexivity].
  Qed.
  Lemma only_close (v t u : str) : ~ In 41%N v -> v ++ [41%N] = t ++ 41%N :: u -> v = t /\ u = [].
  Proof.
    revert t. induction v as [|c v IH]; intros t Hv E.
    - destruct t as [|d t]; cbn in E; [injection E as <-; split; reflexivity|]. injection E as _ E. destruct t; discriminate.
    - destruct t as [|d t]; cbn in E; [injection E as -> _; elim Hv; left; reflexivity|]. injection E as -> E. destruct (IH t) as [-> ->]; [intros H; apply Hv; right; exact H | exact E | split; reflexivity].
  Qed.
  Ltac skip := repeat first
    [ rewrite rule_skip_vec by reflexivity
    | rewrite (rule_skip wide_digit KName) by (apply queues_none, pm_identity_none; [reflexivity | reflexivity | discriminate]) ].
  Lemma nth_rule mk name u : NthName mk name -> exists k rs, first_rule rules (name ++ u) = first_rule ((k, q_nth name) :: rs) (name ++ u) /\
    forall parse ms, make parse k ms = do m <- rnth ms 2; do f <- make_formula m; Ok (mk f).
  Proof.
    intros Hn. destruct Hn; [exists (KNthChild true) | exists (KNthChild false) | exists (KNthOfType true) | exists (KNthOfType false)];
      (eexists; split; [unfold rules; unfold q_nth at 1 2 3 4; unfold q_nested; skip; reflexivity | reflexivity]).
  Qed.
  Theorem nth_only mk name v gs : NthName mk name -> ~ In 41%N v -> from_str wide_digit (name ++ v ++ [41%N]) = Ok (Some gs) ->
    exists a b w1 t w2, gs = [[[(mk (a, b), ChildrenAll)]]] /\ v = w1 ++ t ++ w2 /\ Spaces w1 /\ Spaces w2 /\
      ((forall z, a = Some z -> Readable z) -> Readable b -> NthText a b t).
  Proof.
    intros Hn Hv H. unfold from_str in H. assert (Hc : exists x, name ++ v ++ [41%N] = 58%N :: x) by (destruct Hn; eexists; reflexivity). destruct Hc as (x & Hx). rewrite Hx in H. cbv iota in H. rewrite <- Hx in H.
    rewrite loop_eq in H. rewrite Hx in H. cbv iota in H. rewrite <- Hx in H. unfold loop_step in H.
    assert (Hs : exec_queues wide_digit splitter (name ++ v ++ [41%N]) = Ok None).
    { apply queues_none. cbn [Parse.pat_matched]. rewrite splitter_none; [reflexivity | rewrite Hx; reflexivity | rewrite Hx; reflexivity]. }
    rewrite Hs in H. cbn [rbind] in H. destruct (nth_rule mk name (v ++ [41%N]) Hn) as (k & rs & Ek & Mk). rewrite Ek in H. cbn [Parse.first_rule] in H.
    destruct (exec_queues wide_digit (q_nth name) (name ++ v ++ [41%N])) as [[[[ms l] n]|]| |] eqn:Eq; cbn [rbind] in H; try discriminate.
    2: { exfalso. unfold exec_queues in Eq. destruct (exec (q_nth name) (name ++ v ++ [41%N])) as [[[ms l] n]| |] eqn:Ee; cbn [rbind] in Eq; try discriminate. unfold q_nth in Ee. cbn [Parse.exec] in Ee.
         rewrite pm_vec in Ee. cbn [rbind m_chars m_ignore plain] in Ee. match type of Ee with (do t <- ?y; _) = _ => destruct y as [[[ms' l'] n']| |]; cbn [rbind] in Ee; try discriminate end. injection Ee as _ <- _.
         destruct Hn; discriminate. }
    destruct (queues_hit _ _ _ _ _ _ Eq) as [He Hl]. destruct (Nat.eqb_spec n (length (q_nth name))) as [En | En].
    2: { destruct (nth_error (q_nth name) n) as [[]|] eqn:Ep; try discriminate. exfalso. unfold q_nth in Ep. do 5 (destruct n as [|n]; [discriminate|]). destruct n; discriminate. }
    rewrite En in He. unfold q_nth in He. destruct (exec_full_len _ _ _ _ _ He) as (m1 & ms1 & l1 & E1 & -> & H1 & EL1). destruct (exec_full_len _ _ _ _ _ H1) as (m2 & ms2 & l2 & E2 & -> & H2 & EL2).
    destruct (exec_full_len _ _ _ _ _ H2) as (m3 & ms3 & l3 & E3 & -> & H3 & EL3). destruct (exec_full_len _ _ _ _ _ H3) as (m4 & ms4 & l4 & E4 & -> & H4 & EL4).
    destruct (exec_full_len _ _ _ _ _ H4) as (m5 & ms5 & l5 & E5 & -> & H5 & EL5).
    rewrite pm_vec in E1. injection E1 as <-. cbn [m_chars m_ignore plain] in *. rewrite Nat.add_0_r, skipn_pre in *. remember (v ++ [41%N]) as u eqn:Eu0.
    cbn [Parse.pat_matched] in E2. injection E2 as <-. destruct (take_while_split is_ascii_ws u) as (u1 & Eu & F1). cbn [m_chars m_ignore plain] in *. rewrite Nat.add_0_r in *.
    remember (take_while is_ascii_ws u) as w1 eqn:Ew1. clear Ew1. assert (Ku1 : skipn (length w1) u = u1) by (rewrite Eu, skipn_pre; reflexivity). unfold str, char in *. rewrite Ku1 in *.
    cbn [Parse.pat_matched] in E3. injection E3 as E3. destruct (nth_free _ u1 m3 E3) as (u2 & Eu1 & Ei & _). rewrite Ei, Nat.add_0_r in *. assert (Ku2 : skipn (length (m_chars m3)) u1 = u2) by (rewrite Eu1, skipn_pre; reflexivity). unfold str, char in *. rewrite Ku2 in *.
    cbn [Parse.pat_matched] in E4. injection E4 as <-. destruct (take_while_split is_ascii_ws u2) as (u3 & Eu2 & F2). cbn [m_chars m_ignore plain] in *. rewrite Nat.add_0_r in *.
    remember (take_while is_ascii_ws u2) as w2 eqn:Ew2. clear Ew2. assert (Ku3 : skipn (length w2) u2 = u3) by (rewrite Eu2, skipn_pre; reflexivity). unfold str, char in *. rewrite Ku3 in *.
    destruct u3 as [|y u3]; [discriminate|]. cbn [Parse.pat_matched rparen] in E5. destruct (char_eqb 41%N y) eqn:Ey; [|discriminate E5]. apply N.eqb_eq in Ey. subst y. injection E5 as <-.
    cbn [Parse.exec] in H5. injection H5 as <- <-.
    rewrite Eu1, Eu2, Eu0 in Eu. assert (Eu' : v ++ [41%N] = (w1 ++ m_chars m3 ++ w2) ++ 41%N :: u3) by (rewrite <- !app_assoc; exact Eu).
    destruct (only_close _ _ _ Hv Eu') as [Ev ->].
    rewrite Mk in H. cbn [rnth nth_error rbind] in H. destruct (make_formula m3) as [[a b]| |] eqn:Ef; cbn [rbind] in H; try discriminate.
    exists a, b, w1, (m_chars m3), w2. split; [|split; [exact Ev | split; [exact F1 | split; [exact F2 | intros Ra Rb; exact (nth_sound u1 m3 (a, b) E3 Ef Ra Rb)]]]].
    rewrite Eu0 in *. assert (El : l = length (name ++ v ++ [41%N])).
    { rewrite EL1, EL2, EL3, EL4, EL5, Ev. repeat rewrite app_length. cbn [length plain m_chars m_ignore]. rewrite ?Ei. slia. }
    rewrite El in H. rewrite skipn_all in H. cbn [negb prev_eqb] in H. rewrite Hx in H. cbn [length Parse.from_loop] in H. injection H as <-. reflexivity.
  Qed.
End Sound.
