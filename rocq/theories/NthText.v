(** The formulas of [:nth-child(..)]: the regular expression of pattern.rs:195 on the texts of the grammar. *)
From Verif Require Import Base Utils Nth NthSpec NthProofs Engine Rules Regex RegexProofs Parse ParseSpec PatProofs.

Section NthText.
  Variable wide_digit : char -> bool.
  Notation is_d := (is_d wide_digit).
  Notation re_num := (re_num wide_digit).

  Lemma digit_d c : is_ascii_digit c = true -> is_d c = true.
  Proof.
    intros H. unfold Parse.is_d. destruct (N.ltb_spec c 128); [exact H|]. unfold is_ascii_digit in H. rewrite andb_true_iff, !N.leb_le in H. lia.
  Qed.
  Lemma digit_nonzero c : is_ascii_digit c = true -> c <> 48%N -> ((49 <=? c) && (c <=? 57))%N = true.
  Proof. unfold is_ascii_digit. rewrite !andb_true_iff, !N.leb_le. lia. Qed.
  Lemma digit_range c : ((49 <=? c) && (c <=? 57))%N = true -> is_ascii_digit c = true.
  Proof. unfold is_ascii_digit. rewrite !andb_true_iff, !N.leb_le. lia. Qed.
  Lemma digit_cases c : is_ascii_digit c = true -> In c [48; 49; 50; 51; 52; 53; 54; 55; 56; 57]%N.
  Proof. unfold is_ascii_digit. rewrite !andb_true_iff, !N.leb_le. cbn. lia. Qed.

  Lemma num_longest ds r c k x : Numeral ds -> heads is_d r = false -> k r c = Some x -> rmatch re_num (ds ++ r) c k = Some x.
  Proof.
    intros Hn Hr Hk. unfold Parse.re_num. rewrite rmatch_alt, rmatch_seq, !rmatch_chr. destruct Hn as [d Hd | d ds Hd H0 Hne Hds]; cbn [app].
    - unfold RPlus. rewrite rmatch_seq, rmatch_chr. rewrite Hd.
      replace (match r with [] => None | x :: s' => if is_d x then rmatch (RStar true (RChr is_d)) s' c k else None end) with (@None (str * caps)).
      + destruct ((49 <=? d) && (d <=? 57))%N; exact Hk.
      + destruct r as [|y r]; [reflexivity|]. cbn in Hr. rewrite Hr. reflexivity.
    - rewrite (digit_nonzero d Hd H0). unfold RPlus. rewrite rmatch_seq, rmatch_chr. destruct Hds as [|e ds He Hds]; [congruence|]. cbn [app].
      rewrite (digit_d e He). erewrite star_chr_longest; [reflexivity | | exact Hr | exact Hk]. revert Hds. apply Forall_impl. exact digit_d.
  Qed.
  Lemma num_none s c k : heads is_ascii_digit s = false -> rmatch re_num s c k = None.
  Proof.
    intros H. unfold Parse.re_num. rewrite rmatch_alt, rmatch_seq, !rmatch_chr. destruct s as [|d s]; [reflexivity|]. cbn in H. rewrite H.
    destruct ((49 <=? d) && (d <=? 57))%N eqn:E; [rewrite (digit_range d E) in H; discriminate | reflexivity].
  Qed.
  Lemma num_fail ds r c k : Numeral ds -> heads is_d r = false -> (forall u v, ds = u ++ v -> k (v ++ r) c = None) -> rmatch re_num (ds ++ r) c k = None.
  Proof.
    intros Hn Hr Hk. unfold Parse.re_num. rewrite rmatch_alt, rmatch_seq, !rmatch_chr. destruct Hn as [d Hd | d ds Hd H0 Hne Hds]; cbn [app].
    - unfold RPlus. rewrite rmatch_seq, rmatch_chr. rewrite Hd.
      replace (match r with [] => None | x :: s' => if is_d x then rmatch (RStar true (RChr is_d)) s' c k else None end) with (@None (str * caps)).
      + pose proof (Hk [d] [] eq_refl) as E. cbn [app] in E. rewrite E. destruct ((49 <=? d) && (d <=? 57))%N; reflexivity.
      + destruct r as [|y r]; [reflexivity|]. cbn in Hr. rewrite Hr. reflexivity.
    - rewrite (digit_nonzero d Hd H0), Hd. unfold RPlus. rewrite rmatch_seq, rmatch_chr.
      pose proof (Hk [d] ds eq_refl) as E1. destruct Hds as [|e ds He Hds]; [congruence|]. cbn [app] in E1 |- *. rewrite (digit_d e He).
      rewrite star_chr_none; [exact E1 | | exact Hr |].
      + revert Hds. apply Forall_impl. exact digit_d.
      + intros u v ->. apply (Hk (d :: e :: u) v). reflexivity.
  Qed.

  (** * The numbers *)
  Lemma digits_value_fold ds : Forall (fun c => is_ascii_digit c = true) ds -> forall acc,
    digits_value ds acc = Some (fold_left (fun a c => a * 10 + digit_value c)%Z ds acc).
  Proof. induction 1 as [|d ds Hd _ IH]; intros acc; [reflexivity|]. cbn [digits_value fold_left]. rewrite Hd. apply IH. Qed.
  Lemma numeral_digits ds : Numeral ds -> ds <> [] /\ Forall (fun c => is_ascii_digit c = true) ds.
  Proof. intros [d Hd | d ds' Hd _ _ H]; split; try discriminate; repeat constructor; assumption. Qed.
  Lemma in_range z : Readable z -> ((isize_min <=? z) && (z <=? isize_max))%Z = true.
  Proof. unfold Readable, isize_min, isize_max. intros H. rewrite andb_true_iff, !Z.leb_le. lia. Qed.
  Lemma parse_plain ds : Numeral ds -> Readable (value_of ds) -> parse_isize ds = value_of ds.
  Proof.
    intros H R. destruct (numeral_digits ds H) as [Hn Hd]. destruct ds as [|d ds]; [congruence|]. pose proof (digits_value_fold _ Hd 0%Z) as E.
    fold (value_of (d :: ds)) in E. unfold parse_isize.
    assert (E' : sign_split (d :: ds) = (false, d :: ds)).
    { inversion Hd as [|? ? Hd0 _]; subst. apply digit_cases in Hd0. cbn in Hd0.
      repeat (destruct Hd0 as [<- | Hd0]; [reflexivity|]). destruct Hd0. }
    rewrite E', E. rewrite (in_range _ R). reflexivity.
  Qed.
  Lemma parse_minus ds : Numeral ds -> Readable (-1 * value_of ds) -> parse_isize (45%N :: ds) = (-1 * value_of ds)%Z.
  Proof.
    intros H R. destruct (numeral_digits ds H) as [Hn Hd]. pose proof (digits_value_fold _ Hd 0%Z) as E.
    fold (value_of ds) in E. unfold parse_isize. change (sign_split (45%N :: ds)) with (true, ds). destruct ds as [|d ds]; [congruence|]. cbv beta iota. rewrite E. replace (- value_of (d :: ds))%Z with (-1 * value_of (d :: ds))%Z by lia.
    rewrite (in_range _ R). reflexivity.
  Qed.

  (** * What follows a formula: spaces and the closing bracket *)
  Definition Closing (r : str) : Prop := exists w u, Spaces w /\ r = w ++ 41%N :: u.
  Lemma closing_heads p r : Closing r -> (forall c, is_ascii_ws c = true -> p c = false) -> p 41%N = false -> heads p r = false.
  Proof. intros (w & u & Hw & ->) H H'. destruct Hw as [|c w Hc]; [exact H' | apply H, Hc]. Qed.
  Lemma ws_not_d c : is_ascii_ws c = true -> is_d c = false.
  Proof.
    unfold is_ascii_ws, Parse.is_d, is_ascii_digit. rewrite !orb_true_iff, !N.eqb_eq. intros H. destruct (N.ltb_spec c 128); [|lia].
    apply andb_false_iff. rewrite !N.leb_gt. lia.
  Qed.
  Lemma closing_d r : Closing r -> heads is_d r = false.
  Proof. intros H. apply (closing_heads _ r H); [exact ws_not_d | reflexivity]. Qed.
  Lemma closing_char ch r : Closing r -> is_ascii_ws ch = false -> ch <> 41%N -> heads (char_eqb ch) r = false.
  Proof.
    intros H H1 H2. apply (closing_heads _ r H); [|apply N.eqb_neq; exact H2]. intros c Hc. apply N.eqb_neq. intros ->. congruence.
  Qed.

  (** * The two alternatives *)
  Definition k0 : str -> caps -> option (str * caps) := fun s' c' => Some (s', c').
  Definition re_first : re :=
    rseqs [ROpt (RGrp 1 re_sign); ROpt (RGrp 2 re_num); chr 110%N;
           ROpt (rseqs [RStar true re_s; RGrp 3 re_sign; RStar true re_s; RGrp 4 re_num])].
  Definition re_second : re := RSeq (ROpt (RGrp 5 re_sign)) (RGrp 6 re_num).
  Definition is_sign (c : char) : bool := existsb (char_eqb c) [43; 45]%N.

  Lemma sign_match n s z r c k x : Sign s z -> k r ((n, s) :: c) = Some x -> rmatch (RGrp n re_sign) (s ++ r) c k = Some x.
  Proof.
    intros Hs Hk. rewrite rmatch_grp. unfold re_sign, one_of. rewrite rmatch_chr. destruct Hs;
      (match goal with |- context [lit ?l ++ r] => change (lit l ++ r) with (nth 0 (lit l) 0%N :: r) end; cbn [nth lit map Ascii.N_of_ascii String.list_ascii_of_string];
       match goal with |- context [if ?b then _ else _] => change b with true; cbn iota end;
       match goal with |- context [firstn (length (?o :: ?s) - length ?s) (?o :: ?s)] => change (o :: s) with ([o] ++ s); rewrite firstn_pre end; exact Hk).
  Qed.
  Lemma sign_none n s c k : heads is_sign s = false -> rmatch (RGrp n re_sign) s c k = None.
  Proof. intros H. rewrite rmatch_grp. unfold re_sign, one_of. rewrite rmatch_chr. destruct s as [|d s]; [reflexivity|]. cbn [heads] in H. unfold is_sign in H. rewrite H. reflexivity. Qed.
  Definition SignCaps (n : nat) (s : str) (c c' : caps) : Prop := (s = [] /\ c' = c) \/ (s <> [] /\ c' = (n, s) :: c).
  Lemma optsign_match n s z r c k x : OptSign s z -> heads is_sign r = false -> (forall c', SignCaps n s c c' -> k r c' = Some x) ->
    rmatch (ROpt (RGrp n re_sign)) (s ++ r) c k = Some x.
  Proof.
    intros Hs Hr Hk. unfold ROpt. rewrite rmatch_alt. destruct Hs as [|s z Hs].
    - cbn [app]. rewrite sign_none by exact Hr. apply Hk. left. split; reflexivity.
    - erewrite sign_match; [reflexivity | exact Hs |]. apply Hk. right. split; [destruct Hs; discriminate | reflexivity].
  Qed.
  Lemma digit_not_sign c : is_ascii_digit c = true -> is_sign c = false.
  Proof. intros H. apply digit_cases in H. cbn in H. repeat (destruct H as [<- | H]; [reflexivity|]). destruct H. Qed.
  Lemma numeral_heads p ds r : Numeral ds -> (forall c, is_ascii_digit c = true -> p c = false) -> heads p (ds ++ r) = false.
  Proof. intros [d Hd | d ds' Hd _ _ _] H; exact (H d Hd). Qed.

  (** A bare number is not read by the first alternative. *)
  Lemma first_no_n s z ds r : OptSign s z -> Numeral ds -> Closing r -> rmatch re_first (s ++ ds ++ r) [] k0 = None.
  Proof.
    intros Hs Hd Hr. unfold re_first. cbn [rseqs]. rewrite rmatch_seq.
    set (K := fun s' c' => rmatch _ s' c' k0).
    assert (HK1 : forall s' c', heads (char_eqb 110%N) s' = false -> heads is_ascii_digit s' = false -> K s' c' = None).
    { intros s' c' H1 H2. unfold K. rewrite rmatch_seq. unfold ROpt at 1. rewrite rmatch_alt, rmatch_grp, num_none by exact H2. rewrite rmatch_eps, rmatch_seq. unfold chr. rewrite rmatch_chr.
      destruct s' as [|d s']; [reflexivity|]. cbn [heads] in H1. rewrite H1. reflexivity. }
    assert (HN : forall c', rmatch (RSeq (chr 110%N) (ROpt (rseqs [RStar true re_s; RGrp 3 re_sign; RStar true re_s; RGrp 4 re_num]))) (ds ++ r) c' k0 = None).
    { intros c'. rewrite rmatch_seq. unfold chr. rewrite rmatch_chr.
      assert (H : heads (char_eqb 110%N) (ds ++ r) = false).
      { apply numeral_heads; [exact Hd|]. intros d H. apply digit_cases in H. cbn in H. repeat (destruct H as [<- | H]; [reflexivity|]). destruct H. }
      destruct (ds ++ r) as [|d s']; [reflexivity|]. cbn [heads] in H. rewrite H. reflexivity. }
    assert (HK2 : forall c', K (ds ++ r) c' = None).
    { intros c'. unfold K. rewrite rmatch_seq. unfold ROpt at 1. rewrite rmatch_alt, rmatch_grp. rewrite rmatch_eps.
      rewrite (num_fail ds r); [apply HN | exact Hd | apply closing_d; exact Hr|]. intros u v E. rewrite rmatch_seq. unfold chr. rewrite rmatch_chr.
      assert (H : heads (char_eqb 110%N) (v ++ r) = false).
      { destruct (numeral_digits ds Hd) as [_ Hf]. rewrite E in Hf. apply Forall_app in Hf. destruct Hf as [_ Hf]. destruct Hf as [|d v H].
        - apply closing_char; [exact Hr | reflexivity | discriminate].
        - cbn. apply digit_cases in H. cbn in H. repeat (destruct H as [<- | H]; [reflexivity|]). destruct H. }
      destruct (v ++ r) as [|d s']; [reflexivity|]. cbn [heads] in H. rewrite H. reflexivity. }
    unfold ROpt at 1. rewrite rmatch_alt. destruct Hs as [|s z Hs].
    - cbn [app]. rewrite sign_none by (apply numeral_heads; [exact Hd | exact digit_not_sign]). rewrite rmatch_eps. apply HK2.
    - rewrite rmatch_eps. rewrite (HK1 (s ++ ds ++ r) []); [|destruct Hs; reflexivity..]. rewrite rmatch_grp. unfold re_sign, one_of. rewrite rmatch_chr.
      destruct Hs; match goal with |- context [lit ?l ++ ?t] => change (lit l ++ t) with (nth 0 (lit l) 0%N :: t) end; cbn [nth lit map Ascii.N_of_ascii String.list_ascii_of_string];
       match goal with |- context [if ?b then _ else _] => change b with true; cbn iota end; rewrite HK2; reflexivity.
  Qed.
  Lemma second_match s z ds r : OptSign s z -> Numeral ds -> Closing r ->
    exists c, SignCaps 5 s [] c /\ rmatch re_second (s ++ ds ++ r) [] k0 = Some (r, (6, ds) :: c).
  Proof.
    intros Hs Hd Hr.
    assert (Hc : exists c, SignCaps 5 s [] c) by (destruct Hs as [|s z Hs]; [exists []; left; split; reflexivity | exists [(5, s)]; right; split; [destruct Hs; discriminate | reflexivity]]).
    destruct Hc as (c & Hc). exists c. split; [exact Hc|]. unfold re_second. rewrite rmatch_seq. apply (optsign_match 5 s z); [exact Hs | apply numeral_heads; [exact Hd | exact digit_not_sign] |].
    intros c' Hc'. assert (c' = c) as -> by (destruct Hc as [[E ->] | [E ->]], Hc' as [[E' ->] | [E' ->]]; congruence).
    rewrite rmatch_grp. apply num_longest; [exact Hd | apply closing_d; exact Hr |]. rewrite firstn_pre. reflexivity.
  Qed.

  Definition OffCaps (os : str) (b : Z) (c c' : caps) : Prop :=
    (os = [] /\ b = 0%Z /\ c' = c) \/
    (exists s z ds, Sign s z /\ Numeral ds /\ b = (z * value_of ds)%Z /\ c' = (4, ds) :: (3, s) :: c).
  Lemma offset_match os b r c : Offset os b -> Closing r ->
    exists c', OffCaps os b c c' /\ rmatch (ROpt (rseqs [RStar true re_s; RGrp 3 re_sign; RStar true re_s; RGrp 4 re_num])) (os ++ r) c k0 = Some (r, c').
  Proof.
    intros Ho Hr. unfold ROpt. destruct Ho as [|w1 s z w2 ds H1 Hs H2 Hd].
    - exists c. split; [left; auto|]. rewrite rmatch_alt. cbn [rseqs app]. rewrite rmatch_seq. unfold re_s at 1. destruct Hr as (w & u & Hw & ->).
      rewrite star_chr_none; [reflexivity | exact (spaces_blank w Hw) | reflexivity |]. intros u' v E. rewrite rmatch_seq. apply sign_none.
      assert (Hv : Spaces v) by (subst w; apply Forall_app in Hw; apply Hw). destruct Hv as [|d v Hv]; [reflexivity|]. cbn.
      unfold is_sign. cbn. unfold char_eqb. destruct (N.eqb_spec d 43); [subst d; discriminate|]. destruct (N.eqb_spec d 45); [subst d; discriminate | reflexivity].
    - exists ((4, ds) :: (3, s) :: c). split; [right; exists s, z, ds; auto|]. rewrite rmatch_alt. cbn [rseqs]. rewrite rmatch_seq. unfold re_s at 1. rewrite <- !app_assoc.
      erewrite star_chr_longest; [reflexivity | exact H1 | destruct Hs; reflexivity |]. rewrite rmatch_seq. apply (sign_match 3 s z); [exact Hs|].
      rewrite rmatch_seq. unfold re_s. apply star_chr_longest; [exact H2 | |].
      + apply numeral_heads; [exact Hd|]. intros d H. apply digit_cases in H. cbn in H. repeat (destruct H as [<- | H]; [reflexivity|]). destruct H.
      + rewrite rmatch_grp. apply num_longest; [exact Hd | apply closing_d; exact Hr |]. rewrite firstn_pre. reflexivity.
  Qed.
  Definition FacCaps (fs : str) (c c' : caps) : Prop := (fs = [] /\ c' = c) \/ (fs <> [] /\ c' = (2, fs) :: c).
  Lemma first_match s z fs a os b r : OptSign s z -> Factor fs a -> Offset os b -> Closing r ->
    exists c1 c2 c3, SignCaps 1 s [] c1 /\ FacCaps fs c1 c2 /\ OffCaps os b c2 c3 /\
      rmatch re_first ((s ++ fs ++ lit "n" ++ os) ++ r) [] k0 = Some (r, c3).
  Proof.
    intros Hs Hf Ho Hr.
    assert (Hc : exists c, SignCaps 1 s [] c) by (destruct Hs as [|s z Hs]; [exists []; left; split; reflexivity | exists [(1, s)]; right; split; [destruct Hs; discriminate | reflexivity]]).
    destruct Hc as (c1 & H1).
    assert (Hc : exists c, FacCaps fs c1 c) by (destruct Hf as [|fs Hf]; [exists c1; left; split; reflexivity | exists ((2, fs) :: c1); right; split; [apply numeral_digits; exact Hf | reflexivity]]).
    destruct Hc as (c2 & H2). destruct (offset_match os b r c2 Ho Hr) as (c3 & H3 & E). exists c1, c2, c3. split; [exact H1|]. split; [exact H2|]. split; [exact H3|].
    unfold re_first. cbn [rseqs]. rewrite rmatch_seq. rewrite <- !app_assoc. apply (optsign_match 1 s z); [exact Hs | |].
    - destruct Hf as [|fs Hf]; [reflexivity | apply numeral_heads; [exact Hf | exact digit_not_sign]].
    - intros c' Hc'. assert (c' = c1) as -> by (destruct H1 as [[E1 ->] | [E1 ->]], Hc' as [[E' ->] | [E' ->]]; congruence).
      assert (EN : rmatch (RSeq (chr 110%N) (ROpt (rseqs [RStar true re_s; RGrp 3 re_sign; RStar true re_s; RGrp 4 re_num]))) (lit "n" ++ os ++ r) c2 k0 = Some (r, c3)).
      { rewrite rmatch_seq. unfold chr. rewrite rmatch_chr. exact E. }
      rewrite rmatch_seq. unfold ROpt at 1. rewrite rmatch_alt. destruct Hf as [|fs Hf].
      + cbn [app]. destruct H2 as [[_ ->] | [H2 _]]; [|congruence]. rewrite rmatch_grp, num_none by reflexivity. rewrite rmatch_eps. exact EN.
      + destruct H2 as [[H2 _] | [_ ->]]; [destruct (numeral_digits fs Hf); congruence|]. rewrite rmatch_grp.
        erewrite num_longest; [reflexivity | exact Hf | reflexivity |]. rewrite firstn_pre. exact EN.
  Qed.

  (** * Nth::matched *)
  Lemma sign_cases s z : OptSign s z -> (s = lit "-" /\ z = (-1)%Z) \/ (s = lit "+" /\ z = 1%Z) \/ (s = [] /\ z = 1%Z).
  Proof. intros [|t z' []]; auto. Qed.
  Lemma nth_text_match a b t r : NthText a b t -> Closing r ->
    exists m, nth_matched wide_digit (t ++ r) = Some m /\ m_chars m = t /\ m_ignore m = 0 /\
      ((forall z, a = Some z -> Readable z) -> Readable b -> make_formula m = Ok (a, b)).
  Proof.
    intros Ht Hr. destruct Ht as [| |s z ds Hs Hd|s z fs a os b Hs Hf Ho].
    - unfold nth_matched. change (re_exec (re_nth wide_digit) (lit "even" ++ r)) with (@None (str * caps)). rewrite starts_with_app.
      eexists. split; [reflexivity|]. split; [reflexivity|]. split; [reflexivity|]. reflexivity.
    - unfold nth_matched. change (re_exec (re_nth wide_digit) (lit "odd" ++ r)) with (@None (str * caps)). rewrite starts_with_app.
      change (starts_with (lit "odd" ++ r) (lit "even")) with false.
      eexists. split; [reflexivity|]. split; [reflexivity|]. split; [reflexivity|]. reflexivity.
    - destruct (second_match s z ds r Hs Hd Hr) as (c & Hc & E). rewrite <- app_assoc.
      assert (Ee : re_exec (re_nth wide_digit) (s ++ ds ++ r) = Some (s ++ ds, (6, ds) :: c)).
      { apply re_exec_of with (u := r); [apply app_assoc|]. unfold re_nth. rewrite rmatch_alt. fold re_first. fold k0. rewrite (first_no_n s z ds r Hs Hd Hr). exact E. }
      unfold nth_matched. rewrite Ee. cbn [cap Nat.eqb]. eexists. split; [reflexivity|]. split; [reflexivity|]. split; [reflexivity|]. intros _ R.
      unfold make_formula. cbn [m_n m_index]. unfold get_number. cbn [cap Nat.eqb].
      destruct (sign_cases s z Hs) as [[-> ->] | [[-> ->] | [-> ->]]]; destruct Hc as [[E1 ->] | [E1 ->]]; try discriminate; try (destruct (E1 eq_refl)); cbn [cap Nat.eqb].
      + change (str_eqb (lit "-") [45%N]) with true. cbn iota. change (lit "-" ++ ds) with (45%N :: ds). rewrite parse_minus by assumption. rewrite chk_readable by assumption. reflexivity.
      + change (str_eqb (lit "+") [45%N]) with false. cbn iota. rewrite Z.mul_1_l in *. rewrite parse_plain by assumption. rewrite chk_readable by assumption. reflexivity.
      + rewrite Z.mul_1_l in *. rewrite parse_plain by assumption. rewrite chk_readable by assumption. reflexivity.
    - destruct (first_match s z fs a os b r Hs Hf Ho Hr) as (c1 & c2 & c3 & H1 & H2 & H3 & E).
      assert (Ee : re_exec (re_nth wide_digit) ((s ++ fs ++ lit "n" ++ os) ++ r) = Some (s ++ fs ++ lit "n" ++ os, c3)).
      { apply re_exec_of with (u := r); [reflexivity|]. unfold re_nth. rewrite rmatch_alt. fold re_first. fold k0. rewrite E. reflexivity. }
      unfold nth_matched. rewrite Ee.
      assert (C6 : cap c3 6 = None /\ cap c3 1 = cap c1 1 /\ cap c3 2 = cap c2 2 /\ cap c2 1 = cap c1 1).
      { destruct H3 as [(_ & _ & ->) | (s' & z' & ds' & _ & _ & _ & ->)]; destruct H2 as [[_ ->] | [_ ->]]; destruct H1 as [[_ ->] | [_ ->]]; repeat split; reflexivity. }
      destruct C6 as (C6 & C1 & C2 & C21). rewrite C6. eexists. split; [reflexivity|]. split; [reflexivity|]. split; [reflexivity|]. intros Ra Rb. specialize (Ra _ eq_refl).
      assert (En : match get_number c3 2 1 (Some (lit "1")) with Some n => parse_isize n = (z * a)%Z | None => False end).
      { unfold get_number. rewrite C2, C1. clear - wide_digit H1 H2 Hf Hs Ra.
        assert (G : forall ds, Numeral ds -> Readable (z * value_of ds) ->
          match (match cap c1 1 with Some o => if str_eqb o [45%N] then Some (o ++ ds) else Some ds | None => Some ds end) with Some n => parse_isize n = (z * value_of ds)%Z | None => False end).
        { intros ds Hn R. destruct (sign_cases s z Hs) as [[-> ->] | [[-> ->] | [-> ->]]]; destruct H1 as [[E1 ->] | [E1 ->]]; try discriminate; try (destruct (E1 eq_refl)); cbn [cap Nat.eqb].
          - change (str_eqb (lit "-") [45%N]) with true. cbn iota. change (lit "-" ++ ds) with (45%N :: ds). apply parse_minus; assumption.
          - change (str_eqb (lit "+") [45%N]) with false. cbn iota. rewrite Z.mul_1_l in *. apply parse_plain; assumption.
          - rewrite Z.mul_1_l in *. apply parse_plain; assumption. }
        destruct Hf as [|fs Hf].
        - destruct H2 as [[_ ->] | [H2 _]]; [|congruence].
          assert (E2 : cap c1 2 = None) by (destruct H1 as [[_ ->] | [_ ->]]; reflexivity). rewrite E2. apply (G (lit "1")); [constructor; reflexivity | exact Ra].
        - destruct H2 as [[H2 _] | [_ ->]]; [destruct (numeral_digits fs Hf); congruence|]. cbn [cap Nat.eqb]. apply G; assumption. }
      assert (Ei : match get_number c3 4 3 None with Some i => parse_isize i = b | None => b = 0%Z end).
      { unfold get_number. destruct H3 as [(_ & -> & ->) | (s' & z' & ds' & Hs' & Hd' & -> & ->)].
        - assert (E4 : cap c2 4 = None) by (destruct H2 as [[_ ->] | [_ ->]]; destruct H1 as [[_ ->] | [_ ->]]; reflexivity). rewrite E4. reflexivity.
        - cbn [cap Nat.eqb]. destruct Hs'.
          + change (str_eqb (lit "+") [45%N]) with false. cbn iota. rewrite Z.mul_1_l in *. apply parse_plain; assumption.
          + change (str_eqb (lit "-") [45%N]) with true. cbn iota. change (lit "-" ++ ds') with (45%N :: ds'). apply parse_minus; assumption. }
      unfold make_formula. cbn [m_n m_index]. destruct (get_number c3 2 1 (Some (lit "1"))) as [n|]; [|destruct En].
      destruct (get_number c3 4 3 None) as [i|]; [rewrite En, Ei; reflexivity | subst b; rewrite En; reflexivity].
  Qed.
End NthText.
