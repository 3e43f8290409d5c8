(** What the parser does behind the front of a selector: parts that are cut off, numbers that are no [isize], and
    characters that start no part. *)
From Verif Require Import Base CharSpec Utils CharProofs Nth NthSpec NthProofs Engine Rules Regex RegexProofs Parse ParseSpec PatProofs NthText TokenProofs ParseProofs ParseTotal ParsePanic TailSpec.

(** * A match does not depend on what it does not reach *)
Section Truncate.
  Variable v : str.
  (** The result on a text that ends with [v], and on the text without it. *)
  Definition Tr (long short : option (str * caps)) : Prop :=
    match long with
    | None => short = None
    | Some (t, c) => length v <= length t -> exists s, t = s ++ v /\ short = Some (s, c)
    end.
  Definition Dec (k : str -> caps -> option (str * caps)) : Prop := forall s c t c', k s c = Some (t, c') -> length t <= length s.

  Lemma rmatch_dec r k : Dec k -> Dec (fun s c => rmatch r s c k).
  Proof.
    intros H s c t c' E. destruct (rmatch_some r s c k _ E) as (s1 & c1 & S1 & E1). pose proof (H _ _ _ _ E1). pose proof (suffix_length _ _ S1). lia.
  Qed.
  Lemma loop_dec g a k f : Dec k -> Dec (star_loop g a k f).
  Proof.
    intros H. induction f as [|f IH]; intros s c t c' E; [discriminate|].
    assert (R : forall x, rmatch a s c (fun s' c' => if length s' <? length s then star_loop g a k f s' c' else None) = Some x -> length (fst x) <= length s).
    { intros [t1 c1] E1. apply (rmatch_dec a (fun s' c' => if length s' <? length s then star_loop g a k f s' c' else None)) in E1; [exact E1|].
      intros s2 c2 t2 c2' E2. destruct (length s2 <? length s); [exact (IH _ _ _ _ E2) | discriminate]. }
    destruct g; [rewrite star_loop_step_g in E | rewrite star_loop_step_l in E].
    - destruct (rmatch a s c _) as [x|] eqn:E1; [|exact (H _ _ _ _ E)]. injection E as ->. exact (R _ eq_refl).
    - destruct (k s c) as [x|] eqn:E1; [injection E as ->; exact (H _ _ _ _ E1) | exact (R _ E)].
  Qed.
  Lemma tr_or l1 s1 l2 s2 : Tr l1 s1 -> Tr l2 s2 ->
    Tr (match l1 with Some x => Some x | None => l2 end) (match s1 with Some x => Some x | None => s2 end).
  Proof.
    intros H1 H2. destruct l1 as [[t c]|]; cbn in H1.
    - intros L. destruct (H1 L) as (s & -> & ->). exists s. split; reflexivity.
    - rewrite H1. exact H2.
  Qed.
  Lemma rmatch_tr r : forall s c k k', Dec k -> (forall s' c', Tr (k (s' ++ v) c') (k' s' c')) ->
    Tr (rmatch r (s ++ v) c k) (rmatch r s c k').
  Proof.
    induction r as [|p|a IHa b IHb|a IHa b IHb|g a IHa|n a IHa]; intros s c k k' D H.
    - apply H.
    - rewrite !rmatch_chr. destruct s as [|x s]; cbn [app].
      + destruct v as [|x v'] eqn:Ev; [reflexivity|]. destruct (p x); [|reflexivity]. destruct (k v' c) as [[t c']|] eqn:E; [|reflexivity].
        cbn. rewrite Ev. intros L. apply D in E. cbn in L. lia.
      + destruct (p x); [apply H | reflexivity].
    - rewrite !rmatch_seq. apply IHa; [exact (rmatch_dec b k D)|]. intros s' c'. apply IHb; assumption.
    - rewrite !rmatch_alt. apply tr_or; [apply IHa; assumption | apply IHb; assumption].
    - rewrite !star_loop_eq.
      assert (G : forall f f' s c, length (s ++ v) < f -> length s < f' -> Tr (star_loop g a k f (s ++ v) c) (star_loop g a k' f' s c)).
      { clear s c. induction f as [|f IH]; intros f' s c Lf Lf'; [lia|]. destruct f' as [|f']; [lia|].
        assert (R : Tr (rmatch a (s ++ v) c (fun s' c' => if length s' <? length (s ++ v) then star_loop g a k f s' c' else None))
          (rmatch a s c (fun s' c' => if length s' <? length s then star_loop g a k' f' s' c' else None))).
        { apply IHa.
          - intros s2 c2 t2 c2' E2. destruct (length s2 <? length (s ++ v)); [exact (loop_dec g a k f D _ _ _ _ E2) | discriminate].
          - intros s' c'. rewrite !app_length in *. destruct (Nat.ltb_spec (length s') (length s)), (Nat.ltb_spec (length s' + length v) (length s + length v)); try lia; [|reflexivity].
            apply IH; [rewrite app_length|]; lia. }
        destruct g; [rewrite !star_loop_step_g | rewrite !star_loop_step_l]; apply tr_or; try exact R; apply H. }
      apply G; lia.
    - rewrite !rmatch_grp. apply IHa.
      + intros s2 c2 t2 c2' E2. exact (D _ _ _ _ E2).
      + intros s' c'. replace (firstn (length (s ++ v) - length (s' ++ v)) (s ++ v)) with (firstn (length s - length s') s); [apply H|].
        rewrite !app_length. replace (length s + length v - (length s' + length v)) with (length s - length s') by lia.
        rewrite firstn_app. replace (length s - length s' - length s) with 0 by lia. cbn [firstn]. symmetry. apply app_nil_r.
  Qed.
  Lemma re_exec_tr r (x y : str) c : re_exec r (x ++ y ++ v) = Some (x, c) -> re_exec r (x ++ y) = Some (x, c).
  Proof.
    intros E. unfold re_exec in E. destruct (rmatch r (x ++ y ++ v) [] (fun s' c' => Some (s', c'))) as [[t c']|] eqn:Er; [|discriminate].
    injection E as Ex ->.
    destruct (rmatch_lang _ _ _ _ _ Er) as (w & s' & c2 & Es & _ & K). injection K as -> ->. rewrite Es, firstn_front in Ex. subst w. apply app_inv_head in Es. subst t.
    pose proof (rmatch_tr r (x ++ y) [] (fun s' c' => Some (s', c')) (fun s' c' => Some (s', c'))) as G. rewrite <- app_assoc, Er in G. cbn in G.
    destruct G as (s & E1 & E2).
    - intros s1 c1 t1 c1' E1. injection E1 as -> _. lia.
    - intros s1 c1. cbn. intros _. exists s1. split; reflexivity.
    - rewrite app_length. lia.
    - apply app_inv_tail in E1. subst s. exact (re_exec_of r (x ++ y) x y c eq_refl E2).
  Qed.
  Lemma re_exec_none r (s : str) : re_exec r (s ++ v) = None -> re_exec r s = None.
  Proof.
    intros E. unfold re_exec in E |- *. destruct (rmatch r (s ++ v) [] (fun s' c' => Some (s', c'))) as [[t c']|] eqn:Er; [discriminate|].
    pose proof (rmatch_tr r s [] (fun s' c' => Some (s', c')) (fun s' c' => Some (s', c'))) as G. rewrite Er in G. cbn in G.
    assert (G' : rmatch r s [] (fun s' c' => Some (s', c')) = None); [apply G | rewrite G'; reflexivity].
    - intros s1 c1 t1 c1' E1. injection E1 as -> _. lia.
    - intros s1 c1. cbn. intros _. exists s1. split; reflexivity.
  Qed.
End Truncate.

Lemma starts_long (w s v : str) : length w <= length s -> starts_with (s ++ v) w = starts_with s w.
Proof.
  revert s. induction w as [|c w IH]; intros s L; [destruct s, v; reflexivity|]. destruct s as [|x s]; [cbn in L; lia|].
  cbn in L |- *. rewrite IH by lia. reflexivity.
Qed.
Lemma starts_cut (w s v : str) : starts_with (s ++ v) w = false -> starts_with s w = false.
Proof.
  revert s. induction w as [|c w IH]; intros s H; [destruct s, v; discriminate|]. destruct s as [|x s]; [reflexivity|].
  cbn in H |- *. destruct (char_eqb c x); [exact (IH s H) | reflexivity].
Qed.
Lemma take_cut p (s v : str) : length (take_while p (s ++ v)) <= length s -> take_while p (s ++ v) = take_while p s.
Proof.
  induction s as [|x s IH]; cbn [app take_while]; intros H.
  - destruct (take_while p v); [reflexivity | cbn in H; slia].
  - destruct (p x); [|reflexivity]. f_equal. apply IH. cbn [length] in H. slia.
Qed.

Section Tail.
  Variable wide_digit : char -> bool.
  Notation pat_matched := (pat_matched wide_digit).
  Notation exec := (exec wide_digit).
  Notation exec_queues := (exec_queues wide_digit).
  Notation first_rule := (first_rule wide_digit).
  Notation from_loop := (from_loop wide_digit).
  Notation Goes := (Goes wide_digit).
  Notation Complete := (Complete wide_digit).

  Lemma prefix_cut {A} (x u s v : list A) : x ++ u = s ++ v -> length x <= length s -> exists y, s = x ++ y /\ u = y ++ v.
  Proof.
    revert s. induction x as [|a x IH]; intros s E L; [exists s; split; [reflexivity | exact E]|]. destruct s as [|b s]; [cbn in L; lia|].
    cbn in E, L. injection E as -> E. destruct (IH s E) as (y & -> & ->); [lia|]. exists y. split; reflexivity.
  Qed.

  (** * The rules on a text without its last character *)
  Definition reads_on (q : pat) : bool := match q with PVec _ | PSpaces | PAttrKey | PRegex _ | PNth => true | _ => false end.
  Lemma nth_tr (x y v : str) m : nth_matched wide_digit (x ++ y ++ v) = Some m -> m_chars m = x -> nth_matched wide_digit (x ++ y) = Some m.
  Proof.
    unfold nth_matched. destruct (re_exec (re_nth wide_digit) (x ++ y ++ v)) as [[cs data]|] eqn:E.
    - intros H Hx.
      assert (cs = x) by (destruct (cap data 6); injection H as <-; exact Hx). subst cs. rewrite (re_exec_tr v _ x y data E). exact H.
    - rewrite app_assoc in E. rewrite (re_exec_none v _ (x ++ y) E). rewrite app_assoc. intros H Hx.
      destruct (starts_with ((x ++ y) ++ v) (lit "even")) eqn:E1.
      + injection H as <-. cbn in Hx. subst x. rewrite starts_with_app. reflexivity.
      + rewrite (starts_cut _ _ _ E1). destruct (starts_with ((x ++ y) ++ v) (lit "odd")) eqn:E2; [|discriminate].
        injection H as <-. cbn in Hx. subst x. rewrite starts_with_app. reflexivity.
  Qed.
  Lemma pat_tr q (s v : str) m : reads_on q = true -> pat_matched q (s ++ v) = Ok (Some m) -> m_len m <= length s -> pat_matched q s = Ok (Some m).
  Proof.
    intros Hq E L. destruct q as [c|w| | | | |r|]; try discriminate; cbn [Parse.pat_matched] in E |- *.
    - destruct (starts_with (s ++ v) w) eqn:Ew; [|discriminate]. injection E as <-. unfold m_len in L. cbn in L.
      rewrite <- (starts_long w s v) by lia. rewrite Ew. reflexivity.
    - destruct (take_while is_char_available_in_key (s ++ v)) as [|x t] eqn:Et; [discriminate|]. injection E as <-. unfold m_len in L. cbn in L.
      rewrite <- (take_cut _ s v) by (rewrite Et; cbn; slia). rewrite Et. reflexivity.
    - injection E as <-. unfold m_len in L. cbn in L. rewrite (take_cut _ s v) by slia. reflexivity.
    - injection E as E. destruct (nth_free wide_digit _ _ E) as (u & Es & Ei & _). unfold m_len in L. rewrite Ei in L.
      destruct (prefix_cut (m_chars m) u s v) as (y & Ey & _); [symmetry; exact Es | lia |].
      f_equal. rewrite Ey in *. rewrite <- app_assoc in E. exact (nth_tr _ y v m E eq_refl).
    - injection E as E. destruct (re_exec r (s ++ v)) as [[cs data]|] eqn:Er; [|discriminate]. injection E as <-. unfold m_len in L. cbn in L.
      destruct (re_exec_prefix _ _ _ _ Er) as (u & Es). destruct (prefix_cut cs u s v) as (y & Ey & _); [symmetry; exact Es | lia |].
      subst s. rewrite <- app_assoc in Er. rewrite (re_exec_tr v r cs y data Er). reflexivity.
  Qed.
  Lemma exec_nil b qs ms l k : exec (qs ++ [PChar b]) [] = Ok (ms, l, k) -> k <> S (length qs).
  Proof.
    revert ms l k. induction qs as [|q qs IH]; intros ms l k; [discriminate|]. cbn [app Parse.exec].
    destruct (pat_matched q []) as [[m|]| |]; cbn [rbind]; try discriminate; [|intros E; injection E as _ _ <-; discriminate].
    rewrite skipn_nil. destruct (exec (qs ++ [PChar b]) []) as [[[ms1 l1] k1]| |] eqn:E1; cbn [rbind]; try discriminate. intros E. injection E as _ _ <-.
    intros Ek. apply (IH _ _ _ eq_refl). cbn in Ek. lia.
  Qed.
  Lemma exec_tr b qs : forallb reads_on qs = true -> forall (s : str) ms, exec (qs ++ [PChar b]) (s ++ [b]) = Ok (ms, length s + 1, S (length qs)) ->
    exec (qs ++ [PChar b]) s = Panic.
  Proof.
    induction qs as [|q qs IH]; intros Hq s ms E.
    - destruct s as [|x s]; [reflexivity|]. cbn in E. destruct (char_eqb b x); [|discriminate]. injection E as _ L. cbn in L. lia.
    - cbn [forallb] in Hq. apply andb_true_iff in Hq. destruct Hq as [Hq Hqs]. cbn [app Parse.exec] in E |- *.
      destruct (pat_matched q (s ++ [b])) as [[m|]| |] eqn:Em; cbn [rbind] in E; try discriminate. fold (m_len m) in E.
      destruct (exec (qs ++ [PChar b]) (skipn (m_len m) (s ++ [b]))) as [[[ms' l] k]| |] eqn:Ee; cbn [rbind] in E; try discriminate.
      injection E as _ El Ek.
      assert (L : m_len m <= length s).
      { destruct (Nat.le_gt_cases (m_len m) (length s)) as [L | L]; [exact L|]. exfalso.
        rewrite skipn_all2 in Ee by (rewrite app_length; cbn; slia). exact (exec_nil b qs ms' l k Ee Ek). }
      rewrite (pat_tr q s [b] m Hq Em L). cbn [rbind]. fold (m_len m).
      rewrite skipn_app in Ee. replace (m_len m - length s) with 0 in Ee by lia. cbn [skipn] in Ee.
      rewrite (IH Hqs (skipn (m_len m) s) ms'); [reflexivity|]. rewrite Ee. rewrite skipn_length. repeat f_equal; slia.
  Qed.
  Definition starter (c : char) (r : kind * list pat) : bool :=
    match snd r with
    | PVec (_ :: _) :: _ => true
    | PIdentity :: _ => negb (is_ascii_upper c || is_ascii_lower c || char_eqb c 95%N)
    | PChar d :: _ => negb (char_eqb d c)
    | _ => false
    end.
  Lemma vec_length v qs s r : exec_queues (PVec v :: qs) s = Ok r -> starts_with s v = true -> v <> [] -> r <> None.
  Proof.
    intros E H Hv. unfold Parse.exec_queues in E. cbn [Parse.exec Parse.pat_matched] in E. rewrite H in E. cbn [rbind plain m_chars m_ignore] in E.
    destruct (exec qs _) as [[[ms l] n]| |]; cbn [rbind] in E; try discriminate. destruct v as [|x v]; [congruence|]. cbn in E. injection E as <-. discriminate.
  Qed.
  Lemma first_tr b c (s : str) rs : forallb (starter c) rs = true -> forall k qs ms, forallb reads_on qs = true ->
    first_rule rs ((c :: s) ++ [b]) = Ok (Some (k, qs ++ [PChar b], (ms, length (c :: s) + 1, S (length qs)))) -> first_rule rs (c :: s) = Panic.
  Proof.
    intros Hs k qs ms Hq. induction rs as [|[k' qs'] rs IH]; [discriminate|]. cbn [forallb] in Hs. apply andb_true_iff in Hs. destruct Hs as [Hc Hs].
    cbn [Parse.first_rule]. destruct (exec_queues qs' ((c :: s) ++ [b])) as [[t|]| |] eqn:E; cbn [rbind]; try discriminate.
    - intros H. injection H as _ -> ->. unfold Parse.exec_queues in E |- *.
      destruct (exec (qs ++ [PChar b]) ((c :: s) ++ [b])) as [[[ms' l] n]| |] eqn:Ee; cbn [rbind] in E; try discriminate.
      destruct (0 <? l); [|discriminate]. injection E as -> -> ->. rewrite (exec_tr b qs Hq (c :: s) ms Ee). reflexivity.
    - intros H. assert (En : exec_queues qs' (c :: s) = Ok None); [|rewrite En; cbn [rbind]; exact (IH Hs H)].
      unfold starter in Hc. cbn [snd] in Hc. destruct qs' as [|[d|[|x v]| | | | | |] qs']; try discriminate; apply queues_none.
      + cbn. apply negb_true_iff in Hc. rewrite Hc. reflexivity.
      + apply pm_vec_none. apply (starts_cut _ _ [b]). destruct (starts_with ((c :: s) ++ [b]) (x :: v)) eqn:Ev; [|reflexivity].
        elim (vec_length _ _ _ _ E Ev); [discriminate | reflexivity].
      + apply negb_true_iff in Hc. cbn [Parse.pat_matched]. rewrite Hc. reflexivity.
  Qed.

  (** * Parts with a bracket or a parenthesis of their own *)
  Lemma bracket_ends Inner r t : RText Inner r t -> bracketed r = true -> exists c u, t = (c :: u) ++ [closer r] /\ In c [91; 58]%N.
  Proof.
    intros [ |n u H|n u H|n u H|w1 k w2 a u w3 H1 Hk H2 Ha H3|r' u H|mk name w1 a b u w2 Hn H1 Ht H2 Ra Rb|w1 q v w2 H1 Hq Hv H2|w1 v w2 H1 Hv H2|mk name w1 gs u w2 H _ _ _] Hb; try discriminate.
    - exists 91%N, (w1 ++ k ++ w2 ++ u ++ w3). cbn [app closer]. rewrite <- !app_assoc. split; [reflexivity | left; reflexivity].
    - cbn [In plain_pseudos] in H. repeat (destruct H as [H | H]; [injection H as <- <-; discriminate|]). destruct H.
    - exists 58%N, (tl name ++ w1 ++ u ++ w2). destruct Hn; cbn [closer]; rewrite app_comm_cons, <- !app_assoc; (split; [reflexivity | right; left; reflexivity]).
    - exists 58%N, (lit "contains(" ++ w1 ++ (q :: v ++ [q]) ++ w2). cbn [closer]. rewrite !app_comm_cons, <- !app_assoc. split; [reflexivity | right; left; reflexivity].
    - exists 58%N, (lit "contains(" ++ w1 ++ v ++ w2). cbn [closer]. rewrite app_comm_cons, <- !app_assoc. split; [reflexivity | right; left; reflexivity].
    - destruct H; discriminate.
  Qed.
  Lemma contains_result cs r : make_contains cs = Ok r -> exists x, r = RContains x.
  Proof.
    unfold make_contains. destruct cs as [|c cs]; [intros E; injection E as <-; eexists; reflexivity|]. destruct (char_eqb c 34%N || char_eqb c 39%N).
    - destruct (removelast (c :: cs)); [discriminate|]. intros E. injection E as <-. eexists. reflexivity.
    - intros E. injection E as <-. eexists. reflexivity.
  Qed.
  Lemma make_kind parse k ms r : make parse k ms = Ok r -> bracketed r = true -> forall qs, In (k, qs) rules ->
    exists qs', qs = qs' ++ [PChar (closer r)] /\ forallb reads_on qs' = true.
  Proof.
    intros E Hb qs Hin. unfold rules in Hin. cbn [In] in Hin.
    repeat (destruct Hin as [Hin | Hin]; [injection Hin as <- <-; cbn [make] in E; unfold make_attr in E;
      repeat (match type of E with context [do _ <- ?e; _] => let H := fresh in destruct e eqn:H; cbn [rbind] in E end; try discriminate E);
      try (injection E as <-; discriminate Hb);
      try (injection E as <-; eexists (_ :: _ :: _ :: _ :: _ :: _ :: []); split; [reflexivity | reflexivity]);
      try (injection E as <-; eexists (_ :: _ :: _ :: _ :: []); split; [reflexivity | reflexivity])|]); try destruct Hin.
    destruct (contains_result _ _ E) as (x & ->). eexists (_ :: _ :: _ :: _ :: []). split; reflexivity.
  Qed.
  (** A part without its closing bracket at the end of the text. *)
  Lemma cut_panic Inner r t : RText Inner r (t ++ [closer r]) -> bracketed r = true -> first_rule rules t = Panic.
  Proof.
    intros Hr Hb. destruct (bracket_ends Inner r _ Hr Hb) as (c & u & Et & Hc). apply app_inj_tail in Et. destruct Et as [-> _].
    assert (Hi : is_nested r = false) by (destruct r; reflexivity || discriminate).
    destruct (rtext_complete wide_digit Inner r _ [] Hr Hi eq_refl) as (k & qs & ms & Ef & Hm). rewrite app_nil_r in Ef.
    destruct (first_hit wide_digit _ _ _ _ _ Ef) as [Hin _].
    destruct (make_kind (fun _ => Panic) k ms r (Hm _) Hb qs Hin) as (qs' & -> & Hq).
    apply (first_tr (closer r) c u rules) with (k := k) (qs := qs') (ms := ms); [|exact Hq|].
    - destruct Hc as [<- | [<- | []]]; reflexivity.
    - rewrite Ef. rewrite !app_length. cbn [length]. repeat f_equal; lia.
  Qed.
  Lemma sign_panic c : In c [46; 35]%N -> first_rule rules [c] = Panic.
  Proof. intros [<- | [<- | []]]; reflexivity. Qed.

  (** * Numbers *)
  Lemma parse_plain_big ds : Numeral ds -> ~ Readable (value_of ds) -> parse_isize ds = (2 ^ 63)%Z.
  Proof.
    intros H R. destruct (numeral_digits ds H) as [Hn Hd]. destruct ds as [|d ds]; [congruence|]. pose proof (digits_value_fold _ Hd 0%Z) as E.
    fold (value_of (d :: ds)) in E. unfold parse_isize.
    assert (E' : sign_split (d :: ds) = (false, d :: ds)).
    { inversion Hd as [|? ? Hd0 _]; subst. apply (digit_cases wide_digit) in Hd0. cbn in Hd0.
      repeat (destruct Hd0 as [<- | Hd0]; [reflexivity|]). destruct Hd0. }
    rewrite E', E. destruct ((isize_min <=? value_of (d :: ds)) && (value_of (d :: ds) <=? isize_max))%Z eqn:Er; [|reflexivity].
    elim R. revert Er. unfold Readable, isize_min, isize_max. rewrite andb_true_iff, !Z.leb_le. lia.
  Qed.
  Lemma parse_minus_big ds : Numeral ds -> ~ Readable (-1 * value_of ds) -> parse_isize (45%N :: ds) = (2 ^ 63)%Z.
  Proof.
    intros H R. destruct (numeral_digits ds H) as [Hn Hd]. pose proof (digits_value_fold _ Hd 0%Z) as E.
    fold (value_of ds) in E. unfold parse_isize. change (sign_split (45%N :: ds)) with (true, ds). destruct ds as [|d ds]; [congruence|]. cbv beta iota. rewrite E.
    destruct ((isize_min <=? - value_of (d :: ds)) && (- value_of (d :: ds) <=? isize_max))%Z eqn:Er; [|reflexivity].
    elim R. revert Er. unfold Readable, isize_min, isize_max. rewrite andb_true_iff, !Z.leb_le. lia.
  Qed.
  Lemma number_panic b t r : NthText None b t -> ~ Readable b -> Closing r ->
    exists m, nth_matched wide_digit (t ++ r) = Some m /\ m_chars m = t /\ m_ignore m = 0 /\ make_formula m = Panic.
  Proof.
    intros Ht R Hr. remember None as a eqn:Ea in Ht. destruct Ht as [| |s z ds Hs Hd|]; try discriminate. clear Ea.
    destruct (second_match wide_digit s z ds r Hs Hd Hr) as (c & Hc & E). rewrite <- app_assoc.
    assert (Ee : re_exec (re_nth wide_digit) (s ++ ds ++ r) = Some (s ++ ds, (6, ds) :: c)).
    { apply re_exec_of with (u := r); [apply app_assoc|]. unfold re_nth. rewrite rmatch_alt. fold (re_first wide_digit). fold k0. rewrite (first_no_n wide_digit s z ds r Hs Hd Hr). exact E. }
    unfold nth_matched. rewrite Ee. cbn [cap Nat.eqb]. eexists. split; [reflexivity|]. split; [reflexivity|]. split; [reflexivity|].
    unfold make_formula. cbn [m_n m_index]. unfold get_number. cbn [cap Nat.eqb].
    destruct (sign_cases s z Hs) as [[-> ->] | [[-> ->] | [-> ->]]]; destruct Hc as [[E1 ->] | [E1 ->]]; try discriminate; try (destruct (E1 eq_refl)); cbn [cap Nat.eqb].
    - change (str_eqb (lit "-") [45%N]) with true. cbn iota. change (lit "-" ++ ds) with (45%N :: ds). rewrite parse_minus_big by assumption. reflexivity.
    - change (str_eqb (lit "+") [45%N]) with false. cbn iota. rewrite Z.mul_1_l in *. rewrite parse_plain_big by assumption. reflexivity.
    - rewrite Z.mul_1_l in *. rewrite parse_plain_big by assumption. reflexivity.
  Qed.
  Lemma number_token mk name w1 b t w2 rest : NthName mk name -> Spaces w1 -> NthText None b t -> ~ Readable b -> Spaces w2 ->
    exists k ms, first_rule rules (name ++ w1 ++ t ++ w2 ++ [41%N] ++ rest) = Ok (Some (k, q_nth name, (ms, length (name ++ w1 ++ t ++ w2 ++ [41%N]), 5))) /\
      forall parse, make parse k ms = Panic.
  Proof.
    intros Hn H1 Ht R H2. destruct (number_panic b t (w2 ++ [41%N] ++ rest) Ht R) as (m & E & E1 & E2 & F).
    { exists w2, rest. split; [exact H2 | reflexivity]. }
    assert (Ex : exec (q_nth name) (name ++ w1 ++ t ++ w2 ++ [41%N] ++ rest) = Ok ([plain name; plain w1; m; plain w2; plain [41%N]], length (name ++ w1 ++ t ++ w2 ++ [41%N]), 5)).
    { unfold q_nth. rewrite !app_length.
      apply exec_step; [apply pm_vec | unfold m_len; cbn; lia |].
      apply exec_step; [apply pm_spaces; [exact H1 | exact (nth_text_heads wide_digit _ b t _ Ht)] | unfold m_len; cbn; lia |].
      apply exec_step; [cbn [Parse.pat_matched]; rewrite E; reflexivity | unfold m_len; rewrite E1, E2; lia |].
      apply exec_step; [apply pm_spaces; [exact H2 | reflexivity] | unfold m_len; cbn; lia |].
      exact (exec_step wide_digit _ [] [41%N] rest (plain [41%N]) [] 0 0 (pm_char wide_digit 41%N rest) eq_refl eq_refl). }
    destruct Hn; [exists (KNthChild true) | exists (KNthChild false) | exists (KNthOfType true) | exists (KNthOfType false)]; eexists;
        (split; [unfold rules; unfold q_nth at 1 2 3 4; unfold q_nested; repeat first
    [ rewrite rule_skip_vec by reflexivity
    | rewrite (rule_skip wide_digit KName) by (apply queues_none, pm_identity_none; [reflexivity | reflexivity | discriminate]) ]; apply rule_hit; [exact Ex | rewrite app_length; cbn; lia] |
                 intros parse; cbn [make rnth nth_error rbind]; rewrite F; reflexivity]).
  Qed.

  (** * The loop *)
  Lemma goes_panic s G cb prev last : Fresh s -> first_rule rules s = Panic -> Goes s G cb prev last Panic.
  Proof.
    intros (Hn & H1 & H2) E f Hf. destruct f as [|f]; [lia|]. cbn [Parse.from_loop]. rewrite (split_none wide_digit _ H1 H2), E.
    destruct s as [|x s]; [congruence|]. reflexivity.
  Qed.
  Lemma goes_make_panic s k qs ms l G cb prev last : Fresh s -> first_rule rules s = Ok (Some (k, qs, (ms, l, length qs))) -> (forall parse, make parse k ms = Panic) ->
    Goes s G cb prev last Panic.
  Proof.
    intros (Hn & H1 & H2) E Hm f Hf. destruct f as [|f]; [lia|]. cbn [Parse.from_loop]. rewrite (split_none wide_digit _ H1 H2), E.
    destruct s as [|x s]; [congruence|]. cbn [rbind]. rewrite Nat.eqb_refl, Hm. reflexivity.
  Qed.
  Lemma goes_none s G cb prev last : Fresh s -> first_rule rules s = Ok None -> Goes s G cb prev last (Ok None).
  Proof.
    intros (Hn & H1 & H2) E f Hf. destruct f as [|f]; [lia|]. cbn [Parse.from_loop]. rewrite (split_none wide_digit _ H1 H2), E.
    destruct s as [|x s]; [congruence|]. reflexivity.
  Qed.
  Lemma goes_partly s k qs ms l m G cb prev last : Fresh s -> first_rule rules s = Ok (Some (k, qs, (ms, l, m))) -> m <> length qs -> nth_error qs m <> Some PNested ->
    Goes s G cb prev last (Ok None).
  Proof.
    intros (Hn & H1 & H2) E Hm Hq f Hf. destruct f as [|f]; [lia|]. cbn [Parse.from_loop]. rewrite (split_none wide_digit _ H1 H2), E.
    destruct s as [|x s]; [congruence|]. cbn [rbind]. apply Nat.eqb_neq in Hm. rewrite Hm. destruct (nth_error qs m) as [[]|]; congruence || reflexivity.
  Qed.

  (** * A nested text that is not closed *)
  Notation until := [PSpaces; rparen].
  Lemma until_open (w : str) : Spaces w -> exec until w = Panic.
  Proof.
    intros Hw. cbn [Parse.exec Parse.pat_matched rbind plain m_chars m_ignore]. pose proof (take_while_app is_ascii_ws w [] Hw eq_refl) as T. rewrite app_nil_r in T. rewrite T.
    rewrite skipn_all2 by lia. reflexivity.
  Qed.
  Definition RunsOut (chars : str) (i : nat) : Prop := (exists j, PU wide_digit chars true i (Ok (Some (j, [])))) \/ PU wide_digit chars true i Panic.
  Lemma out_end (chars w : str) i : skipn i chars = w -> Spaces w -> RunsOut chars i.
  Proof.
    intros E Hw. left.
    assert (P : forall i, skipn i chars = [] -> PU wide_digit chars true i (Ok (Some (i, [])))).
    { clear. intros i E f Hf. destruct f as [|f]; [lia|]. cbn [Parse.parse_until]. rewrite E. reflexivity. }
    destruct w as [|x w]; [exists i; exact (P i E)|]. exists (i + length (x :: w)).
    apply (pu_split wide_digit chars true i (x :: w) []); [rewrite app_nil_r; exact E | constructor; [exact (spaces_blank _ Hw) | discriminate] | reflexivity | reflexivity |].
    apply P. apply (skipn_more i chars (x :: w)). rewrite app_nil_r. exact E.
  Qed.
  Lemma out_nested Inner r (t w chars : str) i : Walks wide_digit Inner -> Tight Inner -> RText Inner r t -> is_nested r = true -> Spaces w ->
    skipn i chars = t ++ w -> PU wide_digit chars true i Panic.
  Proof.
    intros HW HT Hr Hn Hw E.
    assert (Hfr : Fresh (t ++ w)) by exact (rtext_fresh Inner r t _ Hr).
    assert (N : exists mk name w1 gs u w2, NestName mk name /\ Spaces w1 /\ Inner gs u /\ Spaces w2 /\ t = name ++ w1 ++ u ++ w2 ++ [41%N]).
    { destruct Hr as [ |n u H|n u H|n u H|w1 k w2 a u w3 H1 Hk H2 Ha H3|r' u H|mk name w1 a b u w2 H H1 Ht H2 Ra Rb|w1 q v w2 H1 Hq Hv H2|w1 v w2 H1 Hv H2|mk name w1 gs u w2 H H1 H2 H3]; try discriminate.
      - cbn [In plain_pseudos] in H. repeat (destruct H as [H | H]; [injection H as <- <-; discriminate|]). destruct H.
      - destruct H; discriminate.
      - exists mk, name, w1, gs, u, w2. repeat split; assumption. }
    destruct N as (mk & name & w1 & gs & u & w2 & Hname & H1 & Hu & H2 & Et).
    destruct (HT gs u Hu) as [Hne Hws].
    assert (Hh : heads is_ascii_ws (u ++ w2 ++ [41%N] ++ w) = false) by (rewrite heads_app by exact Hne; exact (ws_heads u Hws)).
    destruct (tok_nested wide_digit mk name w1 _ Hname H1 Hh) as (k & Ef & _).
    assert (Et' : t ++ w = name ++ w1 ++ u ++ w2 ++ [41%N] ++ w) by (subst t; rewrite <- !app_assoc; reflexivity).
    set (inner := u ++ w2 ++ [41%N] ++ w) in *.
    assert (Es : skipn (i + length (name ++ w1)) chars = inner) by (apply (skipn_more i chars (name ++ w1)); rewrite E, Et', <- app_assoc; reflexivity).
    destruct (HW gs u w2 w inner false 0 Hu H2 eq_refl) as (k0 & ms0 & _ & G0). cbn [Nat.add] in G0.
    assert (El : i + length (name ++ w1) + (length u + length w2 + 1) = i + length t) by (subst t; rewrite !app_length; cbn; lia).
    intros f Hf. destruct f as [|f]; [lia|]. cbn [Parse.parse_until].
    destruct Hfr as (F0 & F1 & F2). rewrite E in *. rewrite (split_none wide_digit _ F1 F2).
    destruct (t ++ w) as [|x v] eqn:Ex; [congruence|]. cbn [rbind]. rewrite Et', Ef. cbn [rbind].
    change (Nat.eqb 2 (length (q_nested name))) with false. cbn iota. rewrite Es.
    change (skipn 3 (q_nested name)) with until.
    rewrite G0.
    2: { cbn [skipn]. rewrite Et' in Hf. rewrite !app_length in Hf. fold inner in Hf. destruct Hname; cbn in Hf; lia. }
    cbn [rbind]. rewrite El. cbn [nonempty]. rewrite (skipn_more i chars t w) by congruence.
    rewrite (until_open w Hw). reflexivity.
  Qed.
  Lemma out_flat Inner rs t : Walks wide_digit Inner -> Tight Inner -> Flat Inner rs t -> forallb (fun r => negb (is_nested r)) (removelast rs) = true ->
    forall (w chars : str) i, Spaces w -> skipn i chars = t ++ w -> RunsOut chars i.
  Proof.
    intros HW HT H. induction H as [|r t rs u Hr Hf Hfl IH|v rs u Hv Hu Hfl IH]; intros Hn w chars i Hw E.
    - exact (out_end chars w i E Hw).
    - assert (Fw : Follow w).
      { destruct Hw as [|x w Hx]; [reflexivity | exact (ws_not_id x (ascii_unicode_ws x Hx))]. }
      destruct (is_nested r) eqn:Er.
      + assert (rs = []) by (destruct rs as [|r' rs]; [reflexivity|]; cbn [removelast forallb] in Hn; rewrite Er in Hn; discriminate). subst rs.
        assert (u = []).
        { clear - Hfl. remember [] as rs eqn:Ers in Hfl. induction Hfl as [|r t rs u _ _ _ _|v rs u _ Hu _ IH]; [reflexivity | discriminate|].
          destruct Hu as (Hu & _). elim Hu. exact (IH Ers). }
        subst u. rewrite app_nil_r in *. right. exact (out_nested Inner r t w chars i HW HT Hr Er Hw E).
      + rewrite <- app_assoc in E.
        assert (Hn' : forallb (fun r => negb (is_nested r)) (removelast rs) = true).
        { destruct rs as [|r' rs]; [reflexivity|]. cbn [removelast forallb] in Hn. apply andb_true_iff in Hn. apply Hn. }
        assert (Hc : Complete r t (u ++ w)) by exact (rtext_complete wide_digit Inner r t _ Hr Er (follow_app u _ Hf Fw)).
        destruct (IH Hn' w chars (i + length t) Hw (skipn_more i chars t _ E)) as [(j & G) | G]; [left; exists j | right];
          exact (pu_rule wide_digit chars true i r t (u ++ w) _ E (rtext_fresh Inner r t _ Hr) Hc G).
    - rewrite <- app_assoc in E. destruct (fresh_app u w Hu) as (_ & U1 & U2).
      destruct (IH Hn w chars (i + length v) Hw (skipn_more i chars v _ E)) as [(j & G) | G]; [left; exists j | right];
        exact (pu_split wide_digit chars true i v (u ++ w) _ E Hv U1 U2 G).
  Qed.
  Lemma nest_make parse k name mk (a b : matched) : NestName mk name -> In (k, q_nested name) rules -> make parse k [a; b] = Panic.
  Proof.
    intros Hn Hin. unfold rules in Hin. cbn [In] in Hin.
    repeat (destruct Hin as [Hin | Hin]; [first [injection Hin as <- _; reflexivity | destruct Hn; discriminate Hin | injection Hin; intros; subst; reflexivity]|]). destruct Hin.
  Qed.
  Lemma goes_open mk name w1 own G cb prev last : NestName mk name -> Spaces w1 -> heads is_ascii_ws own = false -> RunsOut own 0 ->
    Goes (name ++ w1 ++ own) G cb prev last Panic.
  Proof.
    intros Hname H1 Hh Ho f Hf. destruct f as [|f]; [lia|].
    destruct (tok_nested wide_digit mk name w1 own Hname H1 Hh) as (k & Ef & _).
    pose proof (proj1 (first_hit wide_digit _ _ _ _ _ Ef)) as Hin. cbn [Parse.from_loop].
    assert (Hs : exec_queues splitter (name ++ w1 ++ own) = Ok None) by (apply split_none; destruct Hname; reflexivity). rewrite Hs, Ef.
    assert (S : skipn (length (name ++ w1)) (name ++ w1 ++ own) = own) by (rewrite app_assoc; apply skipn_pre).
    assert (Hx : name ++ w1 ++ own <> []) by (destruct Hname; discriminate).
    destruct (name ++ w1 ++ own) as [|x v]; [congruence|]. cbn [rbind].
    change (Nat.eqb 2 (length (q_nested name))) with false. cbn iota. change (nth_error (q_nested name) 2) with (Some PNested). cbn iota. rewrite S.
    change (skipn 3 (q_nested name)) with until. destruct Ho as [(j & Ho) | Ho]; rewrite Ho by (cbn [skipn]; lia); cbn [rbind]; [|reflexivity].
    rewrite app_nil_r. rewrite (nest_make _ k name mk _ _ Hname Hin). reflexivity.
  Qed.

  (** * Cut parts and numbers *)
  Lemma fresh_char c s : In c (lit ".#[:") -> Fresh (c :: s).
  Proof. intros H. cbn [In lit map] in H. split; [discriminate|]. repeat (destruct H as [<- | H]; [split; reflexivity|]). destruct H. Qed.
  Lemma follow_char c s : In c (lit ".#[:") -> Follow (c :: s).
  Proof. intros H. cbn in H. repeat (destruct H as [<- | H]; [reflexivity|]). destruct H. Qed.
  Lemma nest_colon mk name s : NestName mk name -> exists u, name ++ s = 58%N :: u.
  Proof. intros []; eexists; reflexivity. Qed.
  Lemma nth_colon mk name s : NthName mk name -> exists u, name ++ s = 58%N :: u.
  Proof. intros []; eexists; reflexivity. Qed.
  Ltac pick := cbn; tauto.
  Lemma cut_goes n u : CutPart n u -> (forall G cb prev last, Goes u G cb prev last Panic) /\ exists c v, u = c :: v /\ In c (lit ".#[:").
  Proof.
    intros [r t Hr Hb| | |mk name w1 gs v w2 Hname H1 Hu H2|mk name w1 Hname H1].
    - destruct (bracket_ends (inner n) r _ Hr Hb) as (c & v & Et & Hc). apply app_inj_tail in Et. destruct Et as [-> _].
      assert (Hc' : In c (lit ".#[:")) by (destruct Hc as [<- | [<- | []]]; pick). split; [|exists c, v; split; [reflexivity | exact Hc']].
      intros G cb prev last. apply goes_panic; [exact (fresh_char c v Hc') | exact (cut_panic (inner n) r (c :: v) Hr Hb)].
    - split; [|exists 46%N, []; split; [reflexivity | pick]]. intros G cb prev last. apply goes_panic; [apply fresh_char; pick | reflexivity].
    - split; [|exists 35%N, []; split; [reflexivity | pick]]. intros G cb prev last. apply goes_panic; [apply fresh_char; pick | reflexivity].
    - split; [|destruct (nest_colon mk name (w1 ++ v ++ w2) Hname) as (x & ->); exists 58%N, x; split; [reflexivity | pick]].
      intros G cb prev last. destruct (inner_tight n gs v Hu) as [Hne Hws]. apply (goes_open mk); [exact Hname | exact H1 | rewrite heads_app by exact Hne; exact (ws_heads v Hws) |].
      destruct n as [|n]; [destruct Hu|]. destruct (inside_flat (inner n) gs v Hu) as (F & Hn & _ & _).
      exact (out_flat (inner n) _ v (inner_walks wide_digit n) (inner_tight n) F Hn w2 (v ++ w2) 0 H2 eq_refl).
    - split; [|destruct (nest_colon mk name w1 Hname) as (x & ->); exists 58%N, x; split; [reflexivity | pick]].
      intros G cb prev last. rewrite <- (app_nil_r w1). apply (goes_open mk); [exact Hname | exact H1 | reflexivity|]. apply (out_end [] [] 0); [reflexivity | constructor].
  Qed.
  Lemma big_goes u : BigPart u -> (forall G cb prev last, Goes u G cb prev last Panic) /\ exists c v, u = c :: v /\ In c (lit ".#[:").
  Proof.
    intros [mk name w1 b t w2 rest Hname H1 Ht R H2].
    destruct (nth_colon mk name (w1 ++ t ++ w2 ++ [41%N] ++ rest) Hname) as (x & Ex).
    split; [|exists 58%N, x; split; [exact Ex | pick]]. intros G cb prev last.
    destruct (number_token mk name w1 b t w2 rest Hname H1 Ht R H2) as (k & ms & E & Hm). refine (goes_make_panic _ k (q_nth name) ms _ G cb prev last _ E Hm).
    rewrite Ex. apply fresh_char. pick.
  Qed.

  (** * Texts that start with no part *)
  Lemma prefix_starts p s : starts_with s p = true -> Prefix p s.
  Proof. intros H. destruct (starts_with_prefix _ _ H) as (u & ->). exists u. reflexivity. Qed.
  Ltac skip := repeat first
    [ rewrite rule_skip_vec by reflexivity
    | rewrite (rule_skip wide_digit KName) by (apply queues_none, pm_identity_none; [reflexivity | reflexivity | discriminate]) ].
  Lemma not_start c : ~ IdStart c -> is_ascii_upper c || is_ascii_lower c || char_eqb c 95%N = false.
  Proof.
    intros H. destruct (is_ascii_upper c || is_ascii_lower c || char_eqb c 95%N) eqn:E; [|reflexivity]. elim H. apply orb_true_iff in E. destruct E as [E | E].
    - apply orb_true_iff in E. destruct E as [E | E]; [left; exact E | right; left; exact E].
    - right; right. apply N.eqb_eq. exact E.
  Qed.
  Lemma char_none c s : ~ IdStart c -> ~ In c (lit ".#[:*") -> first_rule rules (c :: s) = Ok None.
  Proof.
    intros H1 H2.
    assert (V : forall d v, In d (lit ".#[:*") -> starts_with (c :: s) (d :: v) = false).
    { intros d v Hd. cbn. unfold char_eqb. destruct (N.eqb_spec d c); [subst; contradiction | reflexivity]. }
    assert (N : forall k qs rs, first_rule ((k, PIdentity :: qs) :: rs) (c :: s) = first_rule rs (c :: s)).
    { intros k qs rs. apply rule_skip, queues_none. cbn [Parse.pat_matched]. rewrite (not_start c H1). reflexivity. }
    unfold rules, q_nth, q_nested.
    repeat first [rewrite rule_skip_vec by (apply V; pick) | rewrite N].
    rewrite rule_skip; [reflexivity|]. apply queues_none. cbn [Parse.pat_matched].
    assert (E : char_eqb 42%N c = false) by (apply N.eqb_neq; intros <-; apply H2; pick). rewrite E. reflexivity.
  Qed.
  Lemma sign_partly c d s : In c (lit ".#") -> ~ IdStart d -> exists k qs ms, first_rule rules (c :: d :: s) = Ok (Some (k, qs, (ms, 1, 1))) /\ length qs = 2 /\ nth_error qs 1 = Some PIdentity.
  Proof.
    intros Hc Hd. assert (E : exec [PIdentity] (d :: s) = Ok ([], 0, 0)) by (apply exec_stop; cbn [Parse.pat_matched]; rewrite (not_start d Hd); reflexivity).
    cbn in Hc. destruct Hc as [<- | [<- | []]].
    - exists KClass, [PVec (lit "."); PIdentity], [plain (lit ".")]. split; [|split; reflexivity]. unfold rules. apply rule_hit; [|lia].
      exact (exec_step wide_digit (PVec (lit ".")) _ (lit ".") (d :: s) (plain (lit ".")) _ _ _ (pm_vec wide_digit (lit ".") (d :: s)) eq_refl E).
    - exists KId, [PVec (lit "#"); PIdentity], [plain (lit "#")]. split; [|split; reflexivity]. unfold rules. skip. apply rule_hit; [|lia].
      exact (exec_step wide_digit (PVec (lit "#")) _ (lit "#") (d :: s) (plain (lit "#")) _ _ _ (pm_vec wide_digit (lit "#") (d :: s)) eq_refl E).
  Qed.
  Notation attr_queue := [PVec (lit "["); PSpaces; PAttrKey; PSpaces; PRegex re_attr; PSpaces; PChar 93%N].
  Lemma attr_hit s ms l n : exec attr_queue (91%N :: s) = Ok (ms, l, n) -> 0 < l -> first_rule rules (91%N :: s) = Ok (Some (KAttr, attr_queue, (ms, l, n))).
  Proof. intros E L. unfold rules, q_nth, q_nested. skip. apply rule_hit; assumption. Qed.
  Lemma key_false c : ~ KeyChar c -> is_char_available_in_key c = false.
  Proof. intros H. destruct (is_char_available_in_key c) eqn:E; [|reflexivity]. elim H. apply key_char_ok. exact E. Qed.
  Lemma bracket_partly w s : Spaces w -> First (fun c => is_ascii_ws c = false /\ ~ KeyChar c) s ->
    exists ms l, first_rule rules (91%N :: w ++ s) = Ok (Some (KAttr, attr_queue, (ms, l, 2))).
  Proof.
    intros Hw Hs. assert (H1 : heads is_ascii_ws s = false) by (destruct s; [reflexivity | apply Hs]).
    assert (H2 : pat_matched PAttrKey s = Ok None) by (destruct s as [|c s]; [reflexivity|]; cbn; rewrite (key_false c (proj2 Hs)); reflexivity).
    exists [plain (lit "["); plain w], (1 + (length w + 0)). apply attr_hit; [|lia].
    refine (exec_step wide_digit (PVec (lit "[")) _ (lit "[") (w ++ s) (plain (lit "[")) _ _ _ (pm_vec wide_digit (lit "[") (w ++ s)) eq_refl _).
    apply exec_step; [apply pm_spaces; assumption | unfold m_len; cbn; lia |]. apply exec_stop. exact H2.
  Qed.
  Lemma attr_empty c s : ~ In c (lit "]=*^$~|!") -> re_exec re_attr (c :: s) = Some ([], []).
  Proof.
    intros H. unfold re_exec, re_attr. unfold ROpt at 1. rewrite rmatch_alt. cbn [rseqs]. rewrite rmatch_seq, rmatch_grp. unfold ROpt at 1. rewrite rmatch_alt. unfold one_of at 1.
    rewrite rmatch_chr.
    assert (E : existsb (char_eqb c) (lit "*^$~|!") = false).
    { destruct (existsb (char_eqb c) (lit "*^$~|!")) eqn:E; [|reflexivity]. apply existsb_exists in E. destruct E as (x & Hx & E). apply N.eqb_eq in E. subst x. elim H. right. right. exact Hx. }
    rewrite E, rmatch_eps, rmatch_seq. unfold chr at 1. rewrite rmatch_chr.
    assert (E' : char_eqb 61%N c = false) by (apply N.eqb_neq; intros <-; apply H; pick). rewrite E'. rewrite rmatch_eps, Nat.sub_diag. reflexivity.
  Qed.
  Lemma attr_partly w1 k w2 c s : Spaces w1 -> KeyText k -> Spaces w2 -> is_ascii_ws c = false -> (w2 = [] -> ~ KeyChar c) -> ~ In c (lit "]=*^$~|!") ->
    exists ms l, first_rule rules (91%N :: w1 ++ k ++ w2 ++ c :: s) = Ok (Some (KAttr, attr_queue, (ms, l, 6))).
  Proof.
    intros H1 Hk H2 Hw Hc Hn. exists [plain (lit "["); plain w1; plain k; plain w2; mkMatched [] 0 [] None None; plain []], (1 + (length w1 + (length k + (length w2 + (0 + (0 + 0)))))).
    apply attr_hit; [|lia].
    refine (exec_step wide_digit (PVec (lit "[")) _ (lit "[") _ (plain (lit "[")) _ _ _ (pm_vec wide_digit (lit "[") _) eq_refl _).
    apply exec_step; [apply pm_spaces; [exact H1 | exact (key_not_ws k _ Hk)] | unfold m_len; cbn; lia |].
    apply exec_step; [apply pm_key; [exact Hk | destruct H2 as [|x w2 Hx]; [exact (key_false c (Hc eq_refl)) | exact (ascii_ws_not_key x Hx)]] | unfold m_len; cbn; lia |].
    apply exec_step; [apply pm_spaces; [exact H2 | exact Hw] | unfold m_len; cbn; lia |].
    refine (exec_step wide_digit _ _ [] (c :: s) _ _ _ _ _ _ _); [cbn [app Parse.pat_matched]; rewrite (attr_empty c s Hn); reflexivity | reflexivity|].
    refine (exec_step wide_digit _ _ [] (c :: s) _ _ _ _ _ _ _); [exact (pm_spaces wide_digit [] (c :: s) (Forall_nil _) Hw) | reflexivity|].
    apply exec_stop. cbn [Parse.pat_matched]. assert (E : char_eqb 93%N c = false) by (apply N.eqb_neq; intros <-; apply Hn; pick). rewrite E. reflexivity.
  Qed.
  Lemma pseudo_none s : (forall name, In name pseudo_names -> ~ Prefix name (58%N :: s)) -> first_rule rules (58%N :: s) = Ok None.
  Proof.
    intros H. assert (V : forall name, In name pseudo_names -> starts_with (58%N :: s) name = false).
    { intros name Hin. destruct (starts_with (58%N :: s) name) eqn:E; [|reflexivity]. elim (H name Hin). exact (prefix_starts _ _ E). }
    unfold rules, q_nth, q_nested.
    repeat first
      [ rewrite rule_skip_vec by reflexivity
      | rewrite (rule_skip wide_digit KName) by (apply queues_none, pm_identity_none; [reflexivity | reflexivity | discriminate])
      | rewrite rule_skip_vec by (apply V; cbn; tauto) ].
    rewrite rule_skip; [reflexivity|]. apply queues_none. reflexivity.
  Qed.
  Lemma nth_none s : First (fun c => is_ascii_ws c = false /\ is_ascii_digit c = false /\ ~ In c (lit "+-n")) s -> ~ Prefix (lit "even") s -> ~ Prefix (lit "odd") s ->
    nth_matched wide_digit s = None.
  Proof.
    intros Hs He Ho. unfold nth_matched.
    assert (E : re_exec (re_nth wide_digit) s = None).
    { unfold re_exec, re_nth. rewrite rmatch_alt.
      assert (S : heads is_sign s = false).
      { destruct s as [|c s]; [reflexivity|]. destruct Hs as (_ & _ & Hs). cbn [heads]. unfold is_sign. destruct (existsb (char_eqb c) [43; 45]%N) eqn:E; [|reflexivity].
        apply existsb_exists in E. destruct E as (x & Hx & E). apply N.eqb_eq in E. subst x. elim Hs. cbn in Hx. cbn. tauto. }
      assert (D : heads is_ascii_digit s = false) by (destruct s as [|c s]; [reflexivity | apply Hs]).
      cbn [rseqs]. rewrite !rmatch_seq. unfold ROpt. rewrite !rmatch_alt. rewrite !sign_none by exact S. rewrite !rmatch_eps, rmatch_seq, rmatch_alt, !rmatch_grp, !num_none by exact D.
      rewrite rmatch_eps, rmatch_seq. unfold chr. rewrite rmatch_chr. destruct s as [|c s]; [reflexivity|].
      assert (E : char_eqb 110%N c = false) by (apply N.eqb_neq; intros <-; apply Hs; pick). rewrite E. reflexivity. }
    rewrite E. destruct (starts_with s (lit "even")) eqn:E1; [elim He; exact (prefix_starts _ _ E1)|].
    destruct (starts_with s (lit "odd")) eqn:E2; [elim Ho; exact (prefix_starts _ _ E2) | reflexivity].
  Qed.
  Lemma nth_partly mk name w s : NthName mk name -> Spaces w -> First (fun c => is_ascii_ws c = false /\ is_ascii_digit c = false /\ ~ In c (lit "+-n")) s ->
    ~ Prefix (lit "even") s -> ~ Prefix (lit "odd") s -> exists k ms l, first_rule rules (name ++ w ++ s) = Ok (Some (k, q_nth name, (ms, l, 2))).
  Proof.
    intros Hname Hw Hs He Ho.
    assert (Ex : exec (q_nth name) (name ++ w ++ s) = Ok ([plain name; plain w], length name + (length w + 0), 2)).
    { unfold q_nth. apply exec_step; [apply pm_vec | unfold m_len; cbn; lia |].
      apply exec_step; [apply pm_spaces; [exact Hw | destruct s; [reflexivity | apply Hs]] | unfold m_len; cbn; lia |].
      apply exec_stop. cbn [Parse.pat_matched]. rewrite (nth_none s Hs He Ho). reflexivity. }
    destruct Hname; (eexists; eexists; eexists; unfold rules; unfold q_nth at 1 2 3 4; unfold q_nested; skip; apply rule_hit; [exact Ex | cbn; lia]).
  Qed.
  Lemma op_in c : is_op c = true <-> In c op_chars.
  Proof.
    unfold is_op, op_chars. rewrite existsb_exists. split.
    - intros (x & Hx & E). apply N.eqb_eq in E. subst x. exact Hx.
    - intros H. exists c. split; [exact H | apply N.eqb_refl].
  Qed.
  Lemma nopart_goes p u : NoPart p u -> (forall G cb prev last, Goes u G cb prev last (Ok None)) /\ Fresh u /\ (p = AfterPart -> Follow u).
  Proof.
    intros [p' c s H1 H2 H3 H4 H5|p' c d s Hc Hd|p' w s Hw Hs|p' w1 k w2 c s H1 Hk H2 H3 H4 H5|p' s H|p' mk name w s Hname Hw Hs He Ho].
    - assert (F : Fresh (c :: s)).
      { split; [discriminate|]. split; [exact H3|]. cbn [heads]. destruct (is_op c) eqn:E; [|reflexivity]. elim H4. apply op_in. exact E. }
      split; [|split; [exact F|]].
      + intros G cb prev last. apply goes_none; [exact F | exact (char_none c s H1 H2)].
      + intros Hp. destruct (H5 Hp) as [N1 N2]. unfold Follow. cbn [heads]. destruct (id_more c) eqn:E; [|reflexivity]. unfold id_more in E. rewrite !orb_true_iff in E.
        destruct E as [[[E | E] | E] | E]; [elim N1; left; exact E | | |]; apply N.eqb_eq in E; subst c; [elim N1; right; left; reflexivity | elim N1; right; right; reflexivity | congruence].
    - assert (Hc' : In c (lit ".#[:")) by (cbn in Hc; cbn; tauto).
      split; [|split; [exact (fresh_char c _ Hc') | intros _; exact (follow_char c _ Hc')]].
      intros G cb prev last. destruct (sign_partly c d s Hc Hd) as (k & qs & ms & E & L & Q). apply (goes_partly _ k qs ms 1 1); [exact (fresh_char c _ Hc') | exact E | lia | congruence].
    - split; [|split; [apply fresh_char; pick | intros _; apply follow_char; pick]].
      intros G cb prev last. destruct (bracket_partly w s Hw Hs) as (ms & l & E). refine (goes_partly _ _ _ ms l 2 _ _ _ _ _ E _ _); [apply fresh_char; pick | discriminate | discriminate].
    - split; [|split; [apply fresh_char; pick | intros _; apply follow_char; pick]].
      intros G cb prev last. destruct (attr_partly w1 k w2 c s H1 Hk H2 H3 H4 H5) as (ms & l & E). refine (goes_partly _ _ _ ms l 6 _ _ _ _ _ E _ _); [apply fresh_char; pick | discriminate | discriminate].
    - split; [|split; [apply fresh_char; pick | intros _; apply follow_char; pick]].
      intros G cb prev last. apply goes_none; [apply fresh_char; pick | exact (pseudo_none s H)].
    - destruct (nth_partly mk name w s Hname Hw Hs He Ho) as (k & ms & l & E).
      destruct (nth_colon mk name (w ++ s) Hname) as (x & Ex). rewrite Ex in *.
      split; [|split; [apply fresh_char; pick | intros _; apply follow_char; pick]].
      intros G cb prev last. refine (goes_partly _ _ _ ms l 2 _ _ _ _ _ E _ _); [apply fresh_char; pick | discriminate | discriminate].
  Qed.

  (** * Behind the front *)
  Lemma below n : forall gs u w, inner n gs u -> Blank w -> Parsed wide_digit gs (u ++ w).
  Proof. destruct n as [|n]; [intros gs u w [] |]. intros gs u w Hu Hw. apply (reads_parsed wide_digit n). exact (inside_whole _ gs u w Hu Hw). Qed.
  Lemma lead_goes n c l gs t rest X : Lead c l -> Body (inner n) c gs t -> Follow rest -> (forall G cb, Goes rest G cb PSelector PSelector X) ->
    Goes ((l ++ t) ++ rest) [[]] ChildrenAll PBegin PBegin X.
  Proof.
    intros Hl Hb Hf HG. rewrite <- app_assoc. destruct (body_flat _ c gs t Hb) as [_ Fb].
    assert (HB : forall prev last, prev <> PSelector -> Goes (t ++ rest) [[]] c prev last X).
    { intros prev last Hp. apply (goes_body wide_digit n (below n) c gs t); [exact Hb | exact Hp | exact Hf | intros cb; apply HG]. }
    destruct Hl as [v Hv | c s w1 w2 Hs H1 H2].
    - destruct v as [|x v]; [apply HB; discriminate|].
      apply (goes_comb wide_digit n (below n) ChildrenAll (x :: v)); [constructor; [exact Hv | discriminate] | discriminate | exact (fresh_app t rest Fb) |]. intros l. apply HB. discriminate.
    - apply (goes_comb wide_digit n (below n) c); [constructor; assumption | discriminate | exact (fresh_app t rest Fb) |]. intros l. apply HB. discriminate.
  Qed.
  Lemma sign_exec (w1 : str) o (w2 rest : str) : Blank w1 -> In o op_chars -> Blank w2 -> heads is_unicode_ws rest = false ->
    exists c, exec_queues splitter ((w1 ++ o :: w2) ++ rest) = Ok (Some ([mkMatched (w1 ++ o :: w2) 0 c None None], length (w1 ++ o :: w2), 1)).
  Proof.
    intros H1 Ho H2 Hr. destruct (splitter_sign w1 o w2 rest H1 (proj2 (op_in o) Ho) H2 Hr) as (c & E). exists c.
    apply queues_some; [|rewrite app_length; cbn; lia].
    pose proof (exec_step wide_digit (PRegex re_splitter) [] (w1 ++ o :: w2) rest (mkMatched (w1 ++ o :: w2) 0 c None None) [] 0 0) as G'. rewrite Nat.add_0_r in G'. apply G'; [|unfold m_len; cbn; lia|reflexivity].
    cbn [Parse.pat_matched]. rewrite E. reflexivity.
  Qed.
  (** A sign, and what follows it; the sign before it must not have been one. *)
  Lemma goes_sign w1 o w2 rest G cb prev last X : Blank w1 -> In o op_chars -> Blank w2 -> heads is_unicode_ws rest = false -> prev <> PSplitter ->
    (o = 44%N -> prev = PSelector) -> (forall G cb, Goes rest G cb PSplitter PSplitter X) -> Goes ((w1 ++ o :: w2) ++ rest) G cb prev last X.
  Proof.
    intros H1 Ho H2 Hr Hp Hcomma HG f Hf. destruct f as [|f]; [lia|].
    assert (Hws : is_unicode_ws o = false) by (cbn in Ho; repeat (destruct Ho as [<- | Ho]; [reflexivity|]); destruct Ho).
    destruct (sign_exec w1 o w2 rest H1 Ho H2 Hr) as (c & Es).
    cbn [Parse.from_loop]. rewrite Es.
    assert (L : length rest < f) by (rewrite !app_length in Hf; cbn in Hf; slia).
    assert (S : skipn (length (w1 ++ o :: w2)) ((w1 ++ o :: w2) ++ rest) = rest) by apply skipn_pre.
    assert (Hx : (w1 ++ o :: w2) ++ rest <> []) by (destruct w1; discriminate).
    destruct ((w1 ++ o :: w2) ++ rest) as [|x v]; [congruence|]. cbn [rbind rnth nth_error m_chars]. rewrite S.
    assert (Ep : prev_eqb prev PSplitter = false) by (destruct prev; [reflexivity | congruence | reflexivity]). rewrite Ep.
    pose proof (trim_sign w1 o w2 H1 Hws H2) as T. unfold str, char in *. rewrite T.
    cbn in Ho. destruct Ho as [<- | [<- | [<- | [<- | []]]]]; cbn [str_eqb char_eqb].
    - cbn. apply HG. exact L.
    - rewrite (Hcomma eq_refl). cbn. apply HG. exact L.
    - cbn. apply HG. exact L.
    - cbn. apply HG. exact L.
  Qed.
  Lemma split_hit o s : In o op_chars -> exists m l n, exec_queues splitter (o :: s) = Ok (Some ([m], l, n)).
  Proof.
    intros Ho. destruct (split_while is_unicode_ws s) as (w & r & -> & Hw & Hr).
    destruct (splitter_sign [] o w r (Forall_nil _) (proj2 (op_in o) Ho) Hw Hr) as (c & E). cbn [app] in E.
    exists (mkMatched (o :: w) 0 c None None), (length (o :: w)), 1. apply queues_some; [|cbn; lia].
    pose proof (exec_step wide_digit (PRegex re_splitter) [] (o :: w) r (mkMatched (o :: w) 0 c None None) [] 0 0) as G'. rewrite Nat.add_0_r in G'. apply G'; [|unfold m_len; cbn; lia|reflexivity].
    cbn [Parse.pat_matched]. cbn [app]. rewrite E. reflexivity.
  Qed.
  Lemma goes_double o s G cb last : In o op_chars -> Goes (o :: s) G cb PSplitter last (Ok None).
  Proof.
    intros Ho f Hf. destruct f as [|f]; [lia|]. destruct (split_hit o s Ho) as (m & l & n & E). cbn [Parse.from_loop]. rewrite E. reflexivity.
  Qed.
  Lemma goes_unfinished G cb prev : Goes [] G cb prev PSplitter (Ok None).
  Proof. intros f Hf. destruct f as [|f]; [lia|]. reflexivity. Qed.
  Lemma comb_op c s : CombSign c s -> In s op_chars /\ s <> 44%N.
  Proof. intros []; (split; [cbn; tauto | discriminate]). Qed.
  Lemma blank_sign_follow w1 o w2 (rest : str) : Blank w1 -> In o op_chars -> Follow ((w1 ++ o :: w2) ++ rest).
  Proof. intros H1 Ho. rewrite <- app_assoc. apply heads_blank_app; [exact ws_not_id | exact H1 | exact (op_not_id o (proj2 (op_in o) Ho))]. Qed.

  Lemma front_goes n p t rest X : Front n p t -> Fresh rest -> (p = AfterPart -> Follow rest) -> (forall G cb prev last, Goes rest G cb prev last X) ->
    Goes (t ++ rest) [[]] ChildrenAll PBegin PBegin X.
  Proof.
    intros [w Hw|c s w1 w2 Hs H1 H2|c l gs u Hl Hb|c l gs u w Hl Hb Hw Hne|c l gs u w1 o w2 Hl Hb H1 Ho H2] Hr Hf HG.
    - destruct w as [|x w]; [apply HG|]. apply (goes_comb wide_digit n (below n) ChildrenAll (x :: w)); [constructor; [exact Hw | discriminate] | discriminate | exact Hr |]. intros l. apply HG.
    - apply (goes_comb wide_digit n (below n) c); [constructor; assumption | discriminate | exact Hr |]. intros l. apply HG.
    - apply (lead_goes n c l gs u); [exact Hl | exact Hb | exact (Hf eq_refl) | intros G cb; apply HG].
    - rewrite (app_assoc l u w), <- (app_assoc (l ++ u)). apply (lead_goes n c l gs u); [exact Hl | exact Hb | |].
      + destruct Hw as [|x w Hx]; [congruence | exact (ws_not_id x Hx)].
      + intros G cb. apply (goes_comb wide_digit n (below n) ChildrenAll w); [constructor; assumption | discriminate | exact Hr |]. intros l'. apply HG.
    - rewrite (app_assoc l u (w1 ++ o :: w2)), <- (app_assoc (l ++ u)). apply (lead_goes n c l gs u); [exact Hl | exact Hb | exact (blank_sign_follow w1 o w2 rest H1 Ho) |].
      intros G cb. destruct Hr as (_ & Hr & _). apply goes_sign; [exact H1 | exact Ho | exact H2 | exact Hr | discriminate | reflexivity | intros; apply HG].
  Qed.
  Lemma front_sign_goes n t rest X : Front n AfterSign t -> heads is_unicode_ws rest = false -> (forall G cb, Goes rest G cb PSplitter PSplitter X) ->
    Goes (t ++ rest) [[]] ChildrenAll PBegin PBegin X.
  Proof.
    intros H Hr HG. remember AfterSign as p eqn:Ep. destruct H as [w Hw|c s w1 w2 Hs H1 H2|c l gs u Hl Hb|c l gs u w Hl Hb Hw Hne|c l gs u w1 o w2 Hl Hb H1 Ho H2]; try discriminate Ep.
    - destruct (comb_op c s Hs) as [Ho Hc]. apply goes_sign; [exact H1 | exact Ho | exact H2 | exact Hr | discriminate | intros E; congruence | exact HG].
    - rewrite (app_assoc l u (w1 ++ o :: w2)), <- (app_assoc (l ++ u)). apply (lead_goes n c l gs u); [exact Hl | exact Hb | exact (blank_sign_follow w1 o w2 rest H1 Ho) |].
      intros G cb. apply goes_sign; [exact H1 | exact Ho | exact H2 | exact Hr | discriminate | reflexivity | exact HG].
  Qed.
  Lemma goes_str s X : s <> [] -> Goes s [[]] ChildrenAll PBegin PBegin X -> from_str wide_digit s = X.
  Proof. intros Hn H. destruct s as [|c s]; [congruence|]. apply (H (S (length (c :: s)))). lia. Qed.
  Lemma goes_comma_split (w : str) (o : char) (v r : str) : Blank w -> o = 44%N -> Blank v -> heads is_unicode_ws r = false -> Goes ((w ++ o :: v) ++ r) [[]] ChildrenAll PBegin PBegin (Ok None).
  Proof.
    intros Hw Ho Hv Hr f Hf. destruct f as [|f]; [lia|]. assert (Hin : In o op_chars) by (subst o; cbn; tauto). assert (Hs : is_unicode_ws o = false) by (subst o; reflexivity).
    destruct (sign_exec w o v r Hw Hin Hv Hr) as (c & Es).
    cbn [Parse.from_loop]. rewrite Es. assert (Hx : (w ++ o :: v) ++ r <> []) by (destruct w; discriminate).
    destruct ((w ++ o :: v) ++ r); [congruence|]. cbn [rbind rnth nth_error m_chars prev_eqb].
    pose proof (trim_sign w o v Hw Hs Hv) as T. unfold str, char in *. rewrite T. subst o. reflexivity.
  Qed.
  Lemma goes_comma_first (w s : str) : Blank w -> Goes (w ++ 44%N :: s) [[]] ChildrenAll PBegin PBegin (Ok None).
  Proof.
    intros Hw. destruct (split_while is_unicode_ws s) as (v & r & -> & Hv & Hr). pose proof (goes_comma_split w 44%N v r Hw eq_refl Hv Hr) as G.
    rewrite <- app_assoc in G. exact G.
  Qed.
End Tail.
