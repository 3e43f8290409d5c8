(** Where the parser panics: only at a part that the end of the text cuts off, at a bare number that is no [isize], or
    inside [:not(] and [:has(]. *)
From Verif Require Import Base Utils Nth NthSpec NthProofs Engine Rules Regex RegexProofs Parse PatProofs NthText TokenProofs SelSpec ParseSpec ParseProofs ParseTotal.

Section Panic.
  Variable wide_digit : char -> bool.
  Notation pat_matched := (pat_matched wide_digit).
  Notation exec := (exec wide_digit).
  Notation exec_queues := (exec_queues wide_digit).
  Notation first_rule := (first_rule wide_digit).
  Notation from_loop := (from_loop wide_digit).

  Lemma exec_panic q qs s : exec (q :: qs) s = Panic -> pat_matched q s = Panic \/ exists m, pat_matched q s = Ok (Some m) /\ exec qs (skipn (length (m_chars m) + m_ignore m) s) = Panic.
  Proof.
    cbn [Parse.exec]. destruct (pat_matched q s) as [[m|]| |]; cbn [rbind]; intros H; [|discriminate | left; reflexivity | discriminate]. right. exists m. split; [reflexivity|].
    destruct (exec qs (skipn (length (m_chars m) + m_ignore m) s)) as [[[ms l] n]| |]; cbn [rbind] in H; congruence.
  Qed.
  Lemma take_while_split p (s : str) : exists u, s = take_while p s ++ u /\ Forall (fun c => p c = true) (take_while p s).
  Proof.
    induction s as [|c s (u & E & F)]; [exists []; split; [reflexivity | constructor]|]. cbn [take_while]. destruct (p c) eqn:Ep; [|exists (c :: s); split; [reflexivity | constructor]].
    exists u. split; [cbn; congruence | constructor; assumption].
  Qed.
  Lemma panic_vec v qs s : exec (PVec v :: qs) s = Panic -> exists u, s = v ++ u /\ exec qs u = Panic.
  Proof.
    intros H. destruct (exec_panic _ _ _ H) as [H' | (m & E & H')]; [discriminate|]. cbn in E. destruct (starts_with s v) eqn:Es; [|discriminate]. injection E as <-.
    destruct (starts_with_prefix _ _ Es) as (u & ->). cbn [m_chars m_ignore plain] in H'. rewrite Nat.add_0_r, skipn_pre in H'. exists u. split; [reflexivity | exact H'].
  Qed.
  Lemma panic_spaces qs s : exec (PSpaces :: qs) s = Panic -> exists w u, s = w ++ u /\ Spaces w /\ exec qs u = Panic.
  Proof.
    intros H. destruct (exec_panic _ _ _ H) as [H' | (m & E & H')]; [discriminate|]. cbn in E. injection E as <-. destruct (take_while_split is_ascii_ws s) as (u & Es & F).
    exists (take_while is_ascii_ws s), u. split; [exact Es|]. split; [exact F|]. cbn [m_chars m_ignore plain] in H'. rewrite Nat.add_0_r in H'. rewrite Es in H' at 2. rewrite skipn_pre in H'. exact H'.
  Qed.
  Lemma panic_key qs s : exec (PAttrKey :: qs) s = Panic -> exists w u, s = w ++ u /\ Forall (fun c => is_char_available_in_key c = true) w /\ exec qs u = Panic.
  Proof.
    intros H. destruct (exec_panic _ _ _ H) as [H' | (m & E & H')]; [discriminate|]. cbn in E. destruct (nonempty (take_while is_char_available_in_key s)); [|discriminate]. injection E as <-.
    destruct (take_while_split is_char_available_in_key s) as (u & Es & F). exists (take_while is_char_available_in_key s), u. split; [exact Es|]. split; [exact F|].
    cbn [m_chars m_ignore plain] in H'. rewrite Nat.add_0_r in H'. rewrite Es in H' at 2. rewrite skipn_pre in H'. exact H'.
  Qed.
  Lemma panic_regex r qs s : exec (PRegex r :: qs) s = Panic -> exists w u c, s = w ++ u /\ Lang r w [] c /\ exec qs u = Panic.
  Proof.
    intros H. destruct (exec_panic _ _ _ H) as [H' | (m & E & H')]; [discriminate|]. cbn in E. destruct (re_exec r s) as [[w c]|] eqn:Er; [|discriminate]. injection E as <-.
    destruct (re_exec_lang _ _ _ _ Er) as [L (u & ->)]. exists w, u, c. split; [reflexivity|]. split; [exact L|]. cbn [m_chars m_ignore] in H'. rewrite Nat.add_0_r, skipn_pre in H'. exact H'.
  Qed.
  Lemma panic_char c s : exec [PChar c] s = Panic -> s = [].
  Proof.
    intros H. destruct (exec_panic _ _ _ H) as [H' | (m & E & H')].
    - cbn in H'. destruct s; [reflexivity | discriminate].
    - discriminate.
  Qed.
  Lemma panic_identity s : exec [PIdentity] s = Panic -> s = [].
  Proof.
    intros H. destruct (exec_panic _ _ _ H) as [H' | (m & E & H')].
    - cbn in H'. destruct s as [|x s]; [reflexivity|]. destruct (is_ascii_upper x || is_ascii_lower x || char_eqb x 95%N); [|discriminate]. destruct (identity_loop (x :: s) false); discriminate.
    - discriminate.
  Qed.
  Lemma panic_nested qs s : exec (PNested :: qs) s <> Panic.
  Proof. discriminate. Qed.

  (** * The texts matched *)
  Definition free (c : char) (w : str) : Prop := ~ In c w.
  Lemma free_app c u v : free c u -> free c v -> free c (u ++ v).
  Proof. unfold free. rewrite in_app_iff. tauto. Qed.
  Lemma free_forall c p w : Forall (fun x => p x = true) w -> p c = false -> free c w.
  Proof. intros H Hp Hin. rewrite Forall_forall in H. rewrite (H c Hin) in Hp. discriminate. Qed.
  Lemma free_one c x : x <> c -> free c [x].
  Proof. intros H [E | []]. congruence. Qed.
  (** An expression whose characters exclude [c]. *)
  Fixpoint avoids (c : char) (r : re) : bool :=
    match r with
    | REps => true
    | RChr p => negb (p c)
    | RSeq a b | RAlt a b => avoids c a && avoids c b
    | RStar _ a | RGrp _ a => avoids c a
    end.
  Lemma avoids_spec c r u c1 c2 : Lang r u c1 c2 -> avoids c r = true -> free c u.
  Proof.
    intros H. induction H as [c0|p x c0 Hx|a b u v c0 c1 c2 _ IH1 _ IH2|a b u c0 c1 _ IH|a b u c0 c1 _ IH|g a c0|g a u v c0 c1 c2 _ IH1 _ IH2|m a u c0 c1 _ IH]; cbn [avoids]; intros Ha; try apply andb_true_iff in Ha.
    - intros [].
    - apply free_one. intros ->. rewrite Hx in Ha. discriminate.
    - apply free_app; [apply IH1, Ha | apply IH2, Ha].
    - apply IH, Ha.
    - apply IH, Ha.
    - intros [].
    - apply free_app; [apply IH1, Ha | apply IH2, Ha].
    - exact (IH Ha).
  Qed.
  Lemma lang_quoted n q u c c' : Lang (rseqs [chr q; RGrp n re_quoted; chr q]) u c c' -> exists v, u = q :: v ++ [q].
  Proof.
    cbn [rseqs]. intros H. apply lang_seq in H. destruct H as (a & b & c1 & -> & H1 & H). apply lang_chr in H1. destruct H1 as (x & -> & Hx & _). apply N.eqb_eq in Hx. subst x.
    apply lang_seq in H. destruct H as (v & d & c2 & -> & _ & H2). apply lang_chr in H2. destruct H2 as (x & -> & Hx & _). apply N.eqb_eq in Hx. subst x. exists v. reflexivity.
  Qed.
  Lemma quote_end q v w : Quote q -> Spaces w -> QuoteEnd ((q :: v ++ [q]) ++ w).
  Proof. intros Hq Hw. right. exists q, v, w. split; [exact Hq|]. split; [exact Hw|]. cbn. rewrite <- app_assoc. reflexivity. Qed.
  Lemma attr_lang u c c' : Lang re_attr u c c' -> free 93%N u \/ exists a q v, u = a ++ q :: v ++ [q] /\ free 93%N a /\ Quote q.
  Proof.
    unfold re_attr, ROpt. intros H. apply lang_alt in H. destruct H as [H | H]; [|apply lang_eps in H; destruct H as [-> _]; left; intros []].
    change (Lang (RSeq (RGrp 1 (ROpt (one_of (lit "*^$~|!")))) (RSeq (chr 61%N) (RSeq (RStar true re_s) attr_values))) u c c') in H.
    apply lang_seq in H. destruct H as (a1 & u1 & c1 & -> & H1 & H). apply lang_seq in H. destruct H as (a2 & u2 & c2 & -> & H2 & H). apply lang_seq in H. destruct H as (a3 & u3 & c3 & -> & H3 & H).
    assert (F1 : free 93%N a1) by (apply (avoids_spec _ _ _ _ _ H1); reflexivity). assert (F2 : free 93%N a2) by (apply (avoids_spec _ _ _ _ _ H2); reflexivity).
    assert (F3 : free 93%N a3) by (apply (avoids_spec _ _ _ _ _ H3); reflexivity).
    assert (F : free 93%N (a1 ++ a2 ++ a3)) by (repeat apply free_app; assumption).
    unfold attr_values in H. cbn [ralts] in H. apply lang_alt in H. destruct H as [H | H]; [|apply lang_alt in H; destruct H as [H | H]].
    - right. destruct (lang_quoted _ _ _ _ _ H) as (v & ->). exists (a1 ++ a2 ++ a3), 39%N, v. split; [rewrite <- !app_assoc; reflexivity|]. split; [exact F | left; reflexivity].
    - left. rewrite !app_assoc, <- (app_assoc a1). apply free_app; [exact F|]. apply (avoids_spec _ _ _ _ _ H). reflexivity.
    - right. destruct (lang_quoted _ _ _ _ _ H) as (v & ->). exists (a1 ++ a2 ++ a3), 34%N, v. split; [rewrite <- !app_assoc; reflexivity|]. split; [exact F | right; reflexivity].
  Qed.
  Lemma contains_lang u c c' : Lang re_contains u c c' -> (exists q v, u = q :: v ++ [q] /\ Quote q) \/ (free 41%N u /\ free 34%N u /\ free 39%N u).
  Proof.
    unfold re_contains. cbn [ralts]. intros H. apply lang_alt in H. destruct H as [H | H]; [|apply lang_alt in H; destruct H as [H | H]].
    - left. destruct (lang_quoted _ _ _ _ _ H) as (v & ->). exists 39%N, v. split; [reflexivity | left; reflexivity].
    - left. destruct (lang_quoted _ _ _ _ _ H) as (v & ->). exists 34%N, v. split; [reflexivity | right; reflexivity].
    - right. repeat split; apply (avoids_spec _ _ _ _ _ H); reflexivity.
  Qed.
  Lemma nth_free s m : nth_matched wide_digit s = Some m -> exists u, s = m_chars m ++ u /\ m_ignore m = 0 /\ free 41%N (m_chars m).
  Proof.
    unfold nth_matched. destruct (re_exec (re_nth wide_digit) s) as [[cs data]|] eqn:E.
    - destruct (re_exec_lang _ _ _ _ E) as [L (u & ->)]. assert (F : free 41%N cs) by (apply (avoids_spec _ _ _ _ _ L); reflexivity).
      intros H. exists u. destruct (cap data 6); injection H as <-; (split; [reflexivity | split; [reflexivity | exact F]]).
    - destruct (starts_with s (lit "even")) eqn:E1; [|destruct (starts_with s (lit "odd")) eqn:E2; [|discriminate]]; intros H; injection H as <-.
      + destruct (starts_with_prefix _ _ E1) as (u & ->). exists u. split; [reflexivity|]. split; [reflexivity|]. intros Hin; cbn in Hin; repeat (destruct Hin as [Hin | Hin]; [vm_compute in Hin; discriminate Hin|]); exact Hin.
      + destruct (starts_with_prefix _ _ E2) as (u & ->). exists u. split; [reflexivity|]. split; [reflexivity|]. intros Hin; cbn in Hin; repeat (destruct Hin as [Hin | Hin]; [vm_compute in Hin; discriminate Hin|]); exact Hin.
  Qed.
  Lemma spaces_free c w : Spaces w -> is_ascii_ws c = false -> free c w.
  Proof. intros H Hc. exact (free_forall c is_ascii_ws w H Hc). Qed.
  Lemma panic_nth mk name s : NthName mk name -> exec (q_nth name) s = Panic -> CutOff s.
  Proof.
    intros Hn H. unfold q_nth in H. apply panic_vec in H. destruct H as (u & -> & H). apply panic_spaces in H. destruct H as (w1 & u1 & -> & H1 & H).
    destruct (exec_panic _ _ _ H) as [H' | (m & E & H')]; [discriminate|]. cbn in E. injection E as E. destruct (nth_free u1 m E) as (u2 & -> & Ei & Fm). rewrite Ei, Nat.add_0_r, skipn_pre in H'.
    apply panic_spaces in H'. destruct H' as (w2 & u3 & -> & H2 & H'). apply panic_char in H'. subst u3. rewrite app_nil_r.
    apply (CU_nth mk name); [exact Hn|]. apply free_app; [(refine (spaces_free _ _ H1 _); reflexivity) | apply free_app; [exact Fm | (refine (spaces_free _ _ H2 _); reflexivity)]].
  Qed.
  Lemma panic_rule k qs s : In (k, qs) rules -> s <> [] -> exec qs s = Panic -> CutOff s.
  Proof.
    intros Hin Hs H. unfold rules in Hin. cbn [In] in Hin.
    destruct Hin as [E | Hin]; [injection E as <- <-; apply panic_vec in H; destruct H as (u & -> & H); apply panic_identity in H; subst u; exact CU_class|].
    destruct Hin as [E | Hin]; [injection E as <- <-; apply panic_vec in H; destruct H as (u & -> & H); apply panic_identity in H; subst u; exact CU_id|].
    destruct Hin as [E | Hin]; [injection E as <- <-; apply panic_identity in H; contradiction|].
    destruct Hin as [E | Hin].
    { injection E as <- <-. apply panic_vec in H. destruct H as (u & -> & H). apply panic_spaces in H. destruct H as (w1 & u1 & -> & H1 & H). apply panic_key in H. destruct H as (k & u2 & -> & Hk & H).
      apply panic_spaces in H. destruct H as (w2 & u3 & -> & H2 & H). apply panic_regex in H. destruct H as (t & u4 & c & -> & L & H). apply panic_spaces in H. destruct H as (w3 & u5 & -> & H3 & H).
      apply panic_char in H. subst u5. rewrite app_nil_r.
      assert (F : free 93%N (w1 ++ k ++ w2)).
      { apply free_app; [(refine (spaces_free _ _ H1 _); reflexivity)|]. apply free_app; [(refine (free_forall _ _ _ Hk _); reflexivity) | (refine (spaces_free _ _ H2 _); reflexivity)]. }
      destruct (attr_lang t _ _ L) as [Ft | (a & q & v & -> & Fa & Hq)].
      - replace (lit "[" ++ w1 ++ k ++ w2 ++ t ++ w3) with (91%N :: ((w1 ++ k ++ w2) ++ t ++ w3) ++ []) by (rewrite app_nil_r, <- !app_assoc; reflexivity).
        apply CU_attr; [|left; reflexivity]. apply free_app; [exact F|]. apply free_app; [exact Ft | (refine (spaces_free _ _ H3 _); reflexivity)].
      - replace (lit "[" ++ w1 ++ k ++ w2 ++ (a ++ q :: v ++ [q]) ++ w3) with (91%N :: ((w1 ++ k ++ w2) ++ a) ++ (q :: v ++ [q]) ++ w3) by (rewrite <- !app_assoc; reflexivity).
        apply CU_attr; [apply free_app; assumption | exact (quote_end q v w3 Hq H3)]. }
    repeat (destruct Hin as [E | Hin]; [injection E as <- <-; first
      [ apply panic_vec in H; destruct H as (u & _ & H); discriminate
      | refine (panic_nth _ _ s _ H); constructor
      | unfold q_nested in H; apply panic_vec in H; destruct H as (u & _ & H); apply panic_spaces in H; destruct H as (w1 & u1 & _ & _ & H); discriminate
      | apply panic_char in H; contradiction
      | idtac ]|]).
    { apply panic_vec in H. destruct H as (u & -> & H). apply panic_spaces in H. destruct H as (w1 & u1 & -> & H1 & H). apply panic_regex in H. destruct H as (t & u2 & c & -> & L & H).
      apply panic_spaces in H. destruct H as (w2 & u3 & -> & H2 & H). apply panic_char in H. subst u3. rewrite app_nil_r.
      destruct (contains_lang t _ _ L) as [(q & v & -> & Hq) | (Ft & _)].
      - apply CU_contains; [(refine (spaces_free _ _ H1 _); reflexivity) | exact (quote_end q v w2 Hq H2)].
      - rewrite <- (app_nil_r (w1 ++ t ++ w2)). apply CU_contains; [|left; reflexivity]. apply free_app; [(refine (spaces_free _ _ H1 _); reflexivity)|]. apply free_app; [exact Ft | (refine (spaces_free _ _ H2 _); reflexivity)]. }
    destruct Hin.
  Qed.
  Lemma first_panic rs s : (forall k qs, In (k, qs) rs -> In (k, qs) rules) -> s <> [] -> first_rule rs s = Panic -> CutOff s.
  Proof.
    intros Hrs Hs. induction rs as [|[k qs] rs IH]; cbn [Parse.first_rule]; [discriminate|]. unfold Parse.exec_queues. destruct (exec qs s) as [[[ms l] n]| |] eqn:E; cbn [rbind]; [| |discriminate].
    - destruct (0 <? l); [discriminate|]. apply IH. intros k' qs' H. apply Hrs. right. exact H.
    - intros _. exact (panic_rule k qs s (Hrs k qs (or_introl eq_refl)) Hs E).
  Qed.
  Lemma splitter_total s : exec_queues splitter s <> Panic.
  Proof. unfold Parse.exec_queues, splitter. cbn [Parse.exec Parse.pat_matched]. destruct (re_exec re_splitter s) as [[w c]|]; cbn [rbind]; discriminate. Qed.

  (** * Building a rule *)
  Lemma num_digits ds c c' : Lang (re_num wide_digit) ds c c' -> ds <> [] /\ Forall (fun c => is_ascii_digit c = true \/ (128 <= c)%N) ds /\
    (Forall (fun c => is_ascii_digit c = true) ds -> Numeral ds) /\ c' = c.
  Proof.
    unfold re_num. intros H. apply lang_alt in H. destruct H as [H | H].
    - apply lang_seq in H. destruct H as (a & b & c1 & -> & H1 & H). apply lang_chr in H1. destruct H1 as (x & -> & Hx & ->). unfold RPlus in H. apply lang_seq in H. destruct H as (a & b' & c2 & -> & H2 & H).
      apply lang_chr in H2. destruct H2 as (y & -> & Hy & ->). apply lang_star_chr in H. destruct H as [Hb ->].
      assert (D : forall z, is_d wide_digit z = true -> is_ascii_digit z = true \/ (128 <= z)%N).
      { intros z Hz. unfold is_d in Hz. destruct (N.ltb_spec z 128); [left; exact Hz | right; assumption]. }
      assert (Dx : is_ascii_digit x = true) by (apply (digit_range wide_digit); exact Hx).
      split; [discriminate|]. split.
      + constructor; [left; exact Dx|]. constructor; [exact (D y Hy)|]. eapply Forall_impl; [exact D | exact Hb].
      + split; [|reflexivity]. intros F. inversion F as [|? ? _ F']; subst. apply NU_many; [exact Dx | intros ->; discriminate | discriminate | exact F'].
    - apply lang_chr in H. destruct H as (x & -> & Hx & ->). split; [discriminate|]. split; [constructor; [left; exact Hx | constructor]|]. split; [intros _; apply NU_one; exact Hx | reflexivity].
  Qed.
  Lemma formula_panic s m : nth_matched wide_digit s = Some m -> make_formula m = Panic -> exists sg z ds, OptSign sg z /\ ds <> [] /\
    Forall (fun c => is_ascii_digit c = true \/ (128 <= c)%N) ds /\ ~ (Forall (fun c => is_ascii_digit c = true) ds /\ Readable (z * value_of ds)) /\ m_chars m = sg ++ ds.
  Proof.
    unfold nth_matched. destruct (re_exec (re_nth wide_digit) s) as [[cs data]|] eqn:E.
    - destruct (re_exec_lang _ _ _ _ E) as [L _]. destruct (cap data 6) as [d|] eqn:E6.
      + intros H. injection H as <-. unfold get_number. rewrite E6. intros HP. cbn [m_chars]. unfold re_nth in L. apply lang_alt in L. destruct L as [L | L].
        { rewrite (lang_caps _ _ _ _ 6 L eq_refl) in E6. discriminate. }
        apply lang_seq in L. destruct L as (sg & ds & c1 & -> & L1 & L2). apply lang_grp in L2. destruct L2 as (c2 & L2 & ->). cbn [cap] in E6. injection E6 as <-.
        destruct (num_digits ds _ _ L2) as (N1 & N2 & N3 & ->).
        assert (S : exists z, OptSign sg z /\ ((z = 1)%Z /\ (cap c1 5 = None \/ cap c1 5 = Some (lit "+")) \/ (z = -1)%Z /\ cap c1 5 = Some (lit "-"))).
        { unfold ROpt in L1. apply lang_alt in L1. destruct L1 as [L1 | L1].
          - apply lang_grp in L1. destruct L1 as (c3 & L1 & ->). apply lang_chr in L1. destruct L1 as (x & -> & Hx & ->). apply existsb_char in Hx.
            destruct Hx as [<- | [<- | []]]; [exists 1%Z | exists (-1)%Z]; (split; [apply OS_some; constructor | cbn; tauto]).
          - apply lang_eps in L1. destruct L1 as [-> ->]. exists 1%Z. split; [constructor | left; split; [reflexivity | left; reflexivity]]. }
        destruct S as (z & Hz & Hc). exists sg, z, ds. split; [exact Hz|]. split; [exact N1|]. split; [exact N2|]. split; [|reflexivity]. intros [F R]. specialize (N3 F).
        assert (P : parse_isize (match cap ((6, ds) :: c1) 5 with Some o => if str_eqb o [45%N] then o ++ ds else ds | None => ds end) = (z * value_of ds)%Z).
        { cbn [cap Nat.eqb]. destruct Hc as [[-> [-> | ->]] | [-> ->]].
          - rewrite Z.mul_1_l in *. apply parse_plain; assumption.
          - change (str_eqb (lit "+") [45%N]) with false. cbv iota. rewrite Z.mul_1_l in *. apply parse_plain; assumption.
          - exact (parse_minus wide_digit ds N3 R). }
        unfold make_formula in HP. unfold str, char in P, HP. cbn [m_n m_index] in HP. cbn [cap Nat.eqb] in P, HP. destruct (cap c1 5) as [o|]; [destruct (str_eqb o [45%N])|]; cbv beta iota in HP; rewrite P in HP; unfold chk in HP; rewrite (in_range _ R) in HP; discriminate.
      + intros H. injection H as <-. unfold make_formula, get_number. cbn [m_n m_index]. destruct (match cap data 2 with Some x => Some x | None => Some (lit "1") end) as [x|] eqn:E2; [|destruct (cap data 2); discriminate].
        destruct (cap data 1) as [o|]; [destruct (str_eqb o [45%N])|]; destruct (cap data 4) as [y|]; try discriminate; destruct (cap data 3) as [o'|]; try discriminate; destruct (str_eqb o' [45%N]); discriminate.
    - destruct (starts_with s (lit "even")); [|destruct (starts_with s (lit "odd")); [|discriminate]]; intros H; injection H as <-; discriminate.
  Qed.

  (** A complete match, pattern by pattern. *)
  Lemma exec_full q qs s ms l : exec (q :: qs) s = Ok (ms, l, length (q :: qs)) -> exists m ms' l', pat_matched q s = Ok (Some m) /\ ms = m :: ms' /\
    exec qs (skipn (length (m_chars m) + m_ignore m) s) = Ok (ms', l', length qs).
  Proof.
    cbn [Parse.exec]. destruct (pat_matched q s) as [[m|]| |]; cbn [rbind]; [|discriminate..].
    destruct (exec qs (skipn (length (m_chars m) + m_ignore m) s)) as [[[ms' l'] n']| |] eqn:E; cbn [rbind]; [|discriminate..]. intros H. injection H as <- _ ->.
    exists m, ms', l'. split; [reflexivity|]. split; [reflexivity | exact E].
  Qed.
  Lemma nth_full mk name s ms l : NthName mk name -> exec (q_nth name) s = Ok (ms, l, 5) -> exists m, nth_error ms 2 = Some m /\ (make_formula m = Panic -> BigIndex s).
  Proof.
    intros Hn H. unfold q_nth in H. destruct (exec_full _ _ _ _ _ H) as (m1 & ms1 & l1 & E1 & -> & H1). destruct (exec_full _ _ _ _ _ H1) as (m2 & ms2 & l2 & E2 & -> & H2).
    destruct (exec_full _ _ _ _ _ H2) as (m3 & ms3 & l3 & E3 & -> & H3). destruct (exec_full _ _ _ _ _ H3) as (m4 & ms4 & l4 & E4 & -> & H4).
    destruct (exec_full _ _ _ _ _ H4) as (m5 & ms5 & l5 & E5 & -> & _). exists m3. split; [reflexivity|]. intros HP.
    cbn in E1. destruct (starts_with s name) eqn:Es; [|discriminate]. injection E1 as <-. destruct (starts_with_prefix _ _ Es) as (u & ->). cbn [m_chars m_ignore plain] in *. rewrite Nat.add_0_r, skipn_pre in *.
    cbn in E2. injection E2 as <-. destruct (take_while_split is_ascii_ws u) as (u1 & Eu & F1). cbn [m_chars m_ignore plain] in *. rewrite Nat.add_0_r in *.
    remember (take_while is_ascii_ws u) as w1 eqn:Ew1. clear Ew1. subst u. rewrite skipn_pre in *.
    cbn in E3. injection E3 as E3. destruct (nth_free u1 m3 E3) as (u2 & Eu1 & Ei & _). rewrite Ei, Nat.add_0_r in *. destruct (formula_panic u1 m3 E3 HP) as (sg & z & ds & S1 & S2 & S3 & S4 & S5).
    rewrite Eu1 in E4. rewrite Eu1 in E5. rewrite skipn_pre in E4. rewrite skipn_pre in E5.
    cbn in E4. injection E4 as <-. destruct (take_while_split is_ascii_ws u2) as (u3 & Eu2 & F2). cbn [m_chars m_ignore plain] in *. rewrite Nat.add_0_r in *.
    remember (take_while is_ascii_ws u2) as w2 eqn:Ew2. clear Ew2. subst u2. rewrite skipn_pre in *.
    destruct u3 as [|x u3]; [discriminate|]. cbn [Parse.pat_matched rparen] in E5. destruct (char_eqb 41%N x) eqn:Ex; [|discriminate E5]. apply N.eqb_eq in Ex. subst x.
    exists mk, name, w1, sg, z, ds, w2, u3. repeat (split; [assumption|]). rewrite Eu1, S5, <- !app_assoc. reflexivity.
  Qed.
  Lemma rnth_some {A} (l : list A) i x : nth_error l i = Some x -> rnth l i = Ok x.
  Proof. intros H. unfold rnth. rewrite H. reflexivity. Qed.
  Lemma len_nth {A} (l : list A) i : i < length l -> exists x, rnth l i = Ok x.
  Proof. intros H. destruct (nth_error l i) as [x|] eqn:E; [exists x; exact (rnth_some l i x E) | apply nth_error_None in E; lia]. Qed.
  Lemma make_panic parse k qs s ms l : In (k, qs) rules -> exec qs s = Ok (ms, l, length qs) -> make parse k ms = Panic -> BigIndex s \/ nest_kind k.
  Proof.
    intros Hin H HP. destruct (exec_counts _ _ _ _ _ _ H) as (Hlen & _ & _). unfold rules in Hin. cbn [In] in Hin.
    repeat (destruct Hin as [E | Hin]; [injection E as <- <-; cbn [length q_nth q_nested] in Hlen; cbn [make] in HP; first
      [ discriminate
      | right; unfold nest_kind; tauto
      | exfalso; destruct (len_nth ms 1 ltac:(lia)) as (m & Em); rewrite Em in HP; discriminate
      | exfalso; unfold make_attr in HP; destruct (len_nth ms 2 ltac:(lia)) as (m & Em); destruct (len_nth ms 4 ltac:(lia)) as (m' & Em'); rewrite Em, Em' in HP; discriminate
      | exfalso; destruct (len_nth ms 0 ltac:(lia)) as (m & Em); rewrite Em in HP; discriminate
      | left; match type of H with exec (q_nth ?nm) _ = _ => assert (HN : exists mk, NthName mk nm) by (eexists; constructor) end; destruct HN as (mk & HN);
        destruct (nth_full mk _ s ms l HN H) as (m & Em & Hm); rewrite (rnth_some _ _ _ Em) in HP; cbn [rbind] in HP; destruct (make_formula m) as [f| |]; cbn [rbind] in HP; try discriminate; exact (Hm eq_refl)
      | idtac ]|]).
    { exfalso. destruct (exec_full _ _ _ _ _ H) as (m1 & ms1 & l1 & E1 & -> & H1). destruct (exec_full _ _ _ _ _ H1) as (m2 & ms2 & l2 & E2 & -> & H2).
      destruct (exec_full _ _ _ _ _ H2) as (m3 & ms3 & l3 & E3 & -> & _). cbn [rnth nth_error rbind] in HP. cbn [Parse.pat_matched] in E3. remember (skipn _ (skipn _ s)) as t. destruct (re_exec re_contains t) as [[w c]|] eqn:Er; [|discriminate].
      injection E3 as <-. cbn [m_chars] in HP. destruct (re_exec_lang _ _ _ _ Er) as [L _]. unfold make_contains in HP. destruct (contains_lang w _ _ L) as [(q & v & -> & Hq) | (_ & F1 & F2)].
      - change (q :: v ++ [q]) with ((q :: v) ++ [q]) in HP. rewrite removelast_last in HP. cbn [app] in HP. destruct (char_eqb q 34%N || char_eqb q 39%N); discriminate.
      - destruct w as [|x w]; [discriminate|]. destruct (char_eqb x 34%N || char_eqb x 39%N) eqn:Ex; [|discriminate]. apply orb_true_iff in Ex. unfold char_eqb in Ex. rewrite !N.eqb_eq in Ex.
        destruct Ex as [-> | ->]; [apply F1 | apply F2]; left; reflexivity. }
    destruct Hin.
  Qed.

  Lemma suffix_skipn n (s : str) : Suffix (skipn n s) s.
  Proof. exists (firstn n s). symmetry. apply firstn_skipn. Qed.
End Panic.
