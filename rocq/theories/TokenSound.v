(** A rule of the parser that matches as a whole has read a text of its kind. *)
From Verif Require Import Base CharSpec Utils CharProofs Nth NthSpec NthProofs Engine Rules Regex RegexProofs Parse ParseSpec PatProofs NthText TokenProofs ParseProofs ParseTotal ParsePanic NthSound LooseSpec.

Lemma escapes_tail u s : Escapes (u ++ s) -> Escapes s.
Proof. intros H a b E. apply (H (u ++ a) b). rewrite E, app_assoc. reflexivity. Qed.
Lemma escapes_cut (t : str) c v : is_ascii_ws c = true \/ c = 41%N -> Escapes (t ++ c :: v) -> Escapes t.
Proof.
  intros Hc H a b E. destruct (H a (b ++ c :: v)) as (d & v' & Ed & H1 & H2); [rewrite E, <- app_assoc; reflexivity|].
  destruct b as [|e b]; cbn in Ed; injection Ed as -> Ed.
  - exfalso. destruct Hc as [Hc | ->]; [congruence | apply H1; cbn; tauto].
  - exists d, b. split; [reflexivity | split; assumption].
Qed.

(** * Quoted and bare texts *)
Lemma no_quote_quoted n : forall q v, length v <= n -> ~ In q v -> ~ In 10%N v -> (forall u, v <> u ++ [92%N]) -> Quoted q v.
Proof.
  induction n as [|n IH]; intros q v L Hq Hn He.
  - destruct v; [constructor | cbn in L; lia].
  - destruct v as [|c v]; [constructor|]. destruct (N.eq_dec c 92) as [-> | Hc].
    + assert (G : forall v : str, (forall u, 92%N :: v <> u ++ [92%N]) -> exists k d w, 92%N :: v = repeat 92%N (S k) ++ d :: w /\ d <> 92%N).
      { clear. induction v as [|d v IH]; intros H; [elim (H []); reflexivity|]. destruct (N.eq_dec d 92) as [-> | Hd].
        - destruct IH as (k & d & w & E & Hd); [intros u E; apply (H (92%N :: u)); cbn [app]; f_equal; exact E|]. exists (S k), d, w. split; [change (repeat 92%N (S (S k)) ++ d :: w) with (92%N :: (repeat 92%N (S k) ++ d :: w)); f_equal; exact E | exact Hd].
        - exists 0, d, v. split; [reflexivity | exact Hd]. }
      destruct (G v He) as (k & d & w & E & Hd). rewrite E in *. apply Q_escape.
      * intros ->. apply Hn, in_or_app. right. left. reflexivity.
      * exact Hd.
      * apply IH.
        -- rewrite app_length, repeat_length in L. cbn [length] in L. lia.
        -- intros H. apply Hq, in_or_app. right. right. exact H.
        -- intros H. apply Hn, in_or_app. right. right. exact H.
        -- intros u Eu. apply (He (repeat 92%N (S k) ++ d :: u)). rewrite Eu, <- app_assoc. reflexivity.
    + apply Q_plain; [intros ->; apply Hq; left; reflexivity | intros ->; apply Hn; left; reflexivity | exact Hc|]. apply IH.
      * cbn in L. lia.
      * intros H. apply Hq. right. exact H.
      * intros H. apply Hn. right. exact H.
      * intros u Eu. apply (He (c :: u)). rewrite Eu. reflexivity.
Qed.
Lemma first_quote (q : char) (s : str) : In q s -> exists v u, s = v ++ q :: u /\ ~ In q v.
Proof.
  induction s as [|c s IH]; [intros []|]. intros H. destruct (N.eq_dec c q) as [-> | Hc]; [exists [], s; split; [reflexivity | intros []]|].
  destruct IH as (v & u & -> & Hv); [destruct H as [H | H]; [congruence | exact H]|]. exists (c :: v), u. split; [reflexivity|]. intros [H' | H']; [congruence | exact (Hv H')].
Qed.
Lemma cut_prefix (v a u b : str) (q : char) : v ++ q :: u = a ++ q :: b -> ~ In q v -> exists z, a = v ++ z.
Proof.
  revert a. induction v as [|c v IH]; intros a E Hv; [exists a; reflexivity|]. destruct a as [|d a]; cbn in E; injection E as -> E; [elim Hv; left; reflexivity|].
  destruct (IH a E) as (z & ->); [intros H; apply Hv; right; exact H|]. exists z. reflexivity.
Qed.
Lemma quoted_lang q n u c c' : Lang (rseqs [chr q; RGrp n re_quoted; chr q]) u c c' -> exists v, u = q :: v ++ [q] /\ ~ In 10%N v.
Proof.
  cbn [rseqs]. intros H. apply lang_seq in H. destruct H as (a & x & c1 & -> & H1 & H). apply lang_seq in H. destruct H as (v & b & c2 & -> & H2 & H3).
  apply lang_chr in H1. destruct H1 as (y & -> & Hy & _). apply N.eqb_eq in Hy. subst y. apply lang_chr in H3. destruct H3 as (y & -> & Hy & _). apply N.eqb_eq in Hy. subst y.
  exists v. split; [reflexivity|]. apply lang_grp in H2. destruct H2 as (c3 & H2 & _). refine (avoids_spec (fun _ => true) _ _ _ _ _ H2 _). reflexivity.
Qed.
(** Behind a quote that is closed somewhere stands a quoted text. *)
Lemma quoted_cut q (v rest : str) : Quote q -> ~ In 10%N v -> Escapes (q :: v ++ q :: rest) -> exists v0 r0, v ++ q :: rest = v0 ++ q :: r0 /\ Quoted q v0.
Proof.
  intros Hq Hn He. destruct (first_quote q (v ++ q :: rest)) as (v0 & r0 & E & H0); [apply in_or_app; right; left; reflexivity|]. exists v0, r0. split; [exact E|].
  destruct (cut_prefix v0 v r0 rest q (eq_sym E) H0) as (z & Ez). apply (no_quote_quoted (length v0)); [apply le_n | exact H0 | intros H; apply Hn; rewrite Ez; apply in_or_app; left; exact H|].
  intros u Eu. destruct (He (q :: u) (q :: r0)) as (c & v' & Ec & H1 & _).
  - rewrite E, Eu, <- app_assoc. reflexivity.
  - injection Ec as <- _. apply H1. destruct Hq as [-> | ->]; cbn; tauto.
Qed.
Lemma bare_back stop v : Forall (fun c => bare_char stop c = true) v -> Bare stop v.
Proof.
  apply Forall_impl. unfold bare_char. intros c H. apply andb_true_iff in H. destruct H as [H1 H2]. split; [apply negb_true_iff, H1|]. intros Hin. apply negb_true_iff in H2.
  rewrite <- not_true_iff_false in H2. apply H2, existsb_exists. exists c. split; [exact Hin | apply N.eqb_refl].
Qed.
Lemma take_heads p (s : str) : exists u, s = take_while p s ++ u /\ Forall (fun c => p c = true) (take_while p s) /\ heads p u = false.
Proof.
  induction s as [|c s (u & E & F & H)]; [exists []; split; [reflexivity | split; [constructor | reflexivity]]|]. cbn [take_while]. destruct (p c) eqn:Ep.
  - exists u. split; [cbn; congruence | split; [constructor; assumption | exact H]].
  - exists (c :: s). split; [reflexivity | split; [constructor | exact Ep]].
Qed.

(** * The test of an attribute *)
Lemma attr_from m op w n v x r : ModeText m op -> Blank w -> heads is_unicode_ws (x ++ r) = false -> n = 2 \/ n = 3 \/ n = 4 ->
  rmatch attr_values (x ++ r) [(1, op)] (fun s' c' => Some (s', c')) = Some (r, [(n, v); (1, op)]) ->
  re_exec re_attr ((op ++ [61%N] ++ w ++ x) ++ r) = Some (op ++ [61%N] ++ w ++ x, [(n, v); (1, op)]).
Proof.
  intros Hm Hw Hx Hn E.
  apply re_exec_of with (u := r); [reflexivity|]. unfold re_attr, ROpt at 1. rewrite rmatch_alt. cbn [rseqs]. rewrite rmatch_seq, rmatch_grp.
  assert (G : forall t, t = (op ++ [61%N] ++ w ++ x) ++ r ->
    rmatch (ROpt (one_of (lit "*^$~|!"))) t [] (fun s' c' =>
      rmatch (RSeq (chr 61%N) (RSeq (RStar true re_s) attr_values)) s' ((1, firstn (length t - length s') t) :: c') (fun s'0 c'0 => Some (s'0, c'0))) = Some (r, [(n, v); (1, op)])).
  { intros t ->. rewrite <- !app_assoc. cbn [app].
    assert (G : rmatch (RSeq (chr 61%N) (RSeq (RStar true re_s) attr_values)) (61%N :: w ++ x ++ r) [(1, op)] (fun s' c' => Some (s', c')) = Some (r, [(n, v); (1, op)])).
    { rewrite rmatch_seq. unfold chr at 1. rewrite rmatch_chr. cbn [char_eqb]. unfold char_eqb at 1. rewrite N.eqb_refl. rewrite rmatch_seq. unfold re_s.
      apply star_chr_longest; [exact Hw | exact Hx | exact E]. }
    unfold ROpt. rewrite rmatch_alt. unfold one_of at 1. rewrite rmatch_chr. destruct Hm.
    1: { cbn [app]. change (existsb (char_eqb 61%N) (lit "*^$~|!")) with false. cbn iota. rewrite rmatch_eps, Nat.sub_diag. exact G. }
    all: cbn [lit map Ascii.N_of_ascii String.list_ascii_of_string app].
    all: match goal with |- context [if ?b then _ else _] => change b with true; cbn iota end.
    all: match goal with |- context [firstn (length (?o :: ?s) - length ?s) (?o :: ?s)] => change (o :: s) with ([o] ++ s); rewrite firstn_pre end.
    all: match type of G with ?A = _ => match goal with |- context [rmatch ?a ?b ?c ?d] => change (rmatch a b c d) with A end end; rewrite G; reflexivity. }
  specialize (G _ eq_refl).
  match goal with |- match ?X with Some x => Some x | None => _ end = _ => replace X with (Some (r, [(n, v); (1, op)])) by (symmetry; exact G) end.
  reflexivity.
Qed.
Lemma attr_quoted_match m op w q v r : ModeText m op -> Blank w -> Quote q -> Quoted q v ->
  exists c', re_exec re_attr ((op ++ [61%N] ++ w ++ (q :: v ++ [q])) ++ r) = Some (op ++ [61%N] ++ w ++ (q :: v ++ [q]), c') /\ cap c' 1 = Some op /\ value_cap c' = Some v.
Proof.
  intros Hm Hw Hq Hv. exists [(if char_eqb q 39%N then 2 else 4, v); (1, op)]. split; [|destruct Hq as [-> | ->]; split; reflexivity].
  apply (attr_from m); [exact Hm | exact Hw | destruct Hq as [-> | ->]; reflexivity | destruct Hq as [-> | ->]; [left; reflexivity | right; right; reflexivity]|].
  unfold attr_values. cbn [ralts app]. rewrite <- app_assoc. cbn [app]. rewrite rmatch_alt. destruct Hq as [-> | ->].
  - change (if char_eqb 39%N 39%N then 2 else 4) with 2. erewrite quoted_group; [reflexivity | discriminate | exact Hv | reflexivity].
  - change (if char_eqb 34%N 39%N then 2 else 4) with 4. rewrite quoted_other by discriminate. rewrite rmatch_alt, rmatch_grp. unfold RPlus. rewrite none_of_stop by reflexivity.
    apply quoted_group; [discriminate | exact Hv | reflexivity].
Qed.
Definition attr_of (c : caps) : option (amode * str) :=
  match value_cap c with Some v => Some (mode_of (match cap c 1 with Some m => m | None => [] end), v) | None => None end.
Lemma attr_sound s w c : re_exec re_attr s = Some (w, c) -> Escapes s -> AttrText (attr_of c) w.
Proof.
  intros E He. destruct (re_exec_lang _ _ _ _ E) as [L (rest & ->)]. assert (L0 := L). unfold re_attr, ROpt in L. apply lang_alt in L. destruct L as [L | L].
  2: { apply lang_eps in L. destruct L as [-> ->]. constructor. }
  change (Lang (RSeq (RGrp 1 (ROpt (one_of (lit "*^$~|!")))) (RSeq (chr 61%N) (RSeq (RStar true re_s) attr_values))) w [] c) in L.
  apply lang_seq in L. destruct L as (op & u1 & c1 & -> & H1 & L). apply lang_seq in L. destruct L as (a2 & u2 & c2 & -> & H2 & L). apply lang_seq in L. destruct L as (b & x & c3 & -> & H3 & L).
  assert (HM : exists m, ModeText m op).
  { apply lang_grp in H1. destruct H1 as (c4 & H1 & _). unfold ROpt in H1. apply lang_alt in H1. destruct H1 as [H1 | H1].
    - apply lang_chr in H1. destruct H1 as (y & -> & Hy & _). apply existsb_char in Hy. cbn in Hy. repeat (destruct Hy as [<- | Hy]; [eexists; constructor|]). destruct Hy.
    - apply lang_eps in H1. destruct H1 as [-> _]. eexists; constructor. }
  assert (H61 : a2 = [61%N]) by (apply lang_chr in H2; destruct H2 as (y & -> & Hy & _); apply N.eqb_eq in Hy; subst y; reflexivity).
  assert (HB : Blank b) by (apply lang_star_chr in H3; exact (proj1 H3)). destruct HM as (m & HM). subst a2.
  (* the value as the grammar reads it *)
  assert (V : exists v x0 r0, x ++ rest = x0 ++ r0 /\ ValueText v x0 /\ (exists c', re_exec re_attr ((op ++ [61%N] ++ b ++ x0) ++ r0) = Some (op ++ [61%N] ++ b ++ x0, c') /\ cap c' 1 = Some op /\ value_cap c' = Some v)).
  { assert (Hx : Escapes (x ++ rest)) by (apply (escapes_tail ((op ++ [61%N]) ++ b)); rewrite <- !app_assoc in *; exact He).
    assert (QQ : forall q v, Quote q -> x = q :: v ++ [q] -> ~ In 10%N v -> exists v x0 r0, x ++ rest = x0 ++ r0 /\ ValueText v x0 /\ (exists c', re_exec re_attr ((op ++ [61%N] ++ b ++ x0) ++ r0) = Some (op ++ [61%N] ++ b ++ x0, c') /\ cap c' 1 = Some op /\ value_cap c' = Some v)).
    { intros q v Hq -> Hv. destruct (quoted_cut q v rest Hq Hv) as (v0 & r0 & E0 & H0); [cbn [app] in Hx; rewrite <- app_assoc in Hx; exact Hx|].
      exists v0, (q :: v0 ++ [q]), r0. split; [cbn [app]; f_equal; rewrite <- !app_assoc; exact E0|]. split; [apply VT_quoted; assumption|]. exact (attr_quoted_match m op b q v0 r0 HM HB Hq H0). }
    unfold attr_values in L. cbn [ralts] in L. apply lang_alt in L. destruct L as [L | L]; [|apply lang_alt in L; destruct L as [L | L]].
    - destruct (quoted_lang _ _ _ _ _ L) as (v & Ex & Hv). exact (QQ 39%N v (or_introl eq_refl) Ex Hv).
    - destruct (take_heads (bare_char attr_stop) (x ++ rest)) as (r0 & Er & F & Hr). exists (take_while (bare_char attr_stop) (x ++ rest)), (take_while (bare_char attr_stop) (x ++ rest)), r0.
      assert (N0 : take_while (bare_char attr_stop) (x ++ rest) <> []).
      { apply lang_grp in L. destruct L as (c5 & L & _). unfold RPlus in L. apply lang_seq in L. destruct L as (d & y & c6 & -> & L & _). unfold none_of in L. apply lang_chr in L. destruct L as (z & -> & Hz & _).
        cbn [app take_while]. change (bare_char attr_stop z) with (negb (is_unicode_ws z) && negb (existsb (char_eqb z) (93 :: 39 :: 34 :: lit "<>/=`")%N)). rewrite Hz. discriminate. }
      pose proof (VT_bare _ N0 (bare_back _ _ F)) as VT. split; [exact Er|]. split; [exact VT|]. exact (attr_test_match m op b _ _ r0 HM HB VT Hr).
    - destruct (quoted_lang _ _ _ _ _ L) as (v & Ex & Hv). exact (QQ 34%N v (or_intror eq_refl) Ex Hv). }
  destruct V as (v & x0 & r0 & Ex & HV & c' & E' & C1 & C2).
  assert (Es : (op ++ [61%N] ++ b ++ x) ++ rest = (op ++ [61%N] ++ b ++ x0) ++ r0) by (rewrite <- !app_assoc, Ex; reflexivity).
  unfold str, char in *. rewrite Es in E. rewrite E in E'. injection E' as E1 <-. unfold attr_of. rewrite C2, C1, (mode_spec m op HM). cbn [app]. rewrite E1. apply (AT_test m op b v x0); assumption.
Qed.

(** * The argument of [:contains] *)
Lemma contains_sound s w c (w2 u : str) : re_exec re_contains s = Some (w, c) -> Escapes s -> s = w ++ w2 ++ 41%N :: u -> Spaces w2 ->
  (exists q v, Quote q /\ Quoted q v /\ w = q :: v ++ [q]) \/ Bare (lit ")'""<>/=`") w.
Proof.
  intros E He Es H2. destruct (re_exec_lang _ _ _ _ E) as [L _].
  assert (QQ : forall q v, Quote q -> w = q :: v ++ [q] -> ~ In 10%N v -> exists q v, Quote q /\ Quoted q v /\ w = q :: v ++ [q]).
  { intros q v Hq Ew Hv. destruct (quoted_cut q v (w2 ++ 41%N :: u) Hq Hv) as (v0 & r0 & E0 & H0).
    - rewrite Es, Ew in He. cbn [app] in He. rewrite <- app_assoc in He. exact He.
    - destruct (contains_quoted_match q v0 r0 Hq H0) as (c' & E'). assert (X : s = (q :: v0 ++ [q]) ++ r0) by (rewrite Es, Ew; cbn [app]; f_equal; rewrite <- !app_assoc; exact E0).
      rewrite X in E. unfold str, char in *. rewrite E in E'. injection E' as Ew' _. exists q, v0. split; [exact Hq | split; [exact H0 | exact Ew']]. }
  unfold re_contains in L. cbn [ralts] in L. apply lang_alt in L. destruct L as [L | L]; [|apply lang_alt in L; destruct L as [L | L]].
  - left. destruct (quoted_lang _ _ _ _ _ L) as (v & Ew & Hv). exact (QQ 39%N v (or_introl eq_refl) Ew Hv).
  - left. destruct (quoted_lang _ _ _ _ _ L) as (v & Ew & Hv). exact (QQ 34%N v (or_intror eq_refl) Ew Hv).
  - right. apply lang_grp in L. destruct L as (c3 & L & _). unfold none_of in L. apply lang_star_chr in L. exact (bare_back _ _ (proj1 L)).
Qed.

(** * Identifiers *)
Lemma idchar_back c : is_ascii_alnum c || char_eqb c 45%N || char_eqb c 95%N = true -> IdChar c.
Proof. rewrite !orb_true_iff. unfold IdChar, char_eqb. rewrite !N.eqb_eq. tauto. Qed.
Lemma idtail_back k : forall s r n, length s <= k -> identity_loop s false = (r, n) -> Escapes s -> exists t u, s = t ++ u /\ IdTail r t /\ length r + n = length t /\ Follow u.
Proof.
  induction k as [|k IH]; intros s r n Hk E He.
  - destruct s; [|cbn in Hk; lia]. cbn in E. injection E as <- <-. exists [], []. repeat split. constructor.
  - destruct s as [|c s]; [cbn in E; injection E as <- <-; exists [], []; repeat split; constructor|]. cbn [identity_loop] in E. cbn [length] in Hk.
    destruct (is_ascii_alnum c || char_eqb c 45%N || char_eqb c 95%N) eqn:Ec.
    + destruct (identity_loop s false) as [r' n'] eqn:E'. injection E as <- <-. destruct (IH s r' n') as (t & u & -> & Ht & L & F); [lia | exact E' | exact (escapes_tail [c] s He)|].
      exists (c :: t), u. split; [reflexivity|]. split; [apply IT_plain; [exact (idchar_back c Ec) | exact Ht]|]. split; [cbn; slia | exact F].
    + destruct (char_eqb c 92%N) eqn:E92.
      * apply N.eqb_eq in E92. subst c. destruct (He [] s eq_refl) as (d & v & -> & _). cbn [identity_loop] in E. destruct (identity_loop v false) as [r' n'] eqn:E'. injection E as <- <-.
        destruct (IH v r' n') as (t & u & -> & Ht & L & F); [cbn in Hk; lia | exact E' | exact (escapes_tail [92%N; d] v He)|].
        exists (92%N :: d :: t), u. split; [reflexivity|]. split; [apply IT_escape, Ht|]. split; [cbn; slia | exact F].
      * injection E as <- <-. exists [], (c :: s). split; [reflexivity|]. split; [constructor|]. split; [reflexivity|]. unfold Follow. cbn [heads]. unfold id_more. rewrite Ec, E92. reflexivity.
Qed.

Section Sound.
  Variable wide_digit : char -> bool.
  Notation exec := (exec wide_digit).
  Notation first_rule := (first_rule wide_digit).
  Notation parse_until := (parse_until wide_digit).

  (** * Patterns that match as a whole *)
  Definition Full (qs : list pat) (s : str) (ms : list matched) (l : nat) : Prop := exec qs s = Ok (ms, l, length qs).
  Lemma full_nil s ms l : Full [] s ms l -> ms = [] /\ l = 0.
  Proof. intros H. injection H as <- <-. split; reflexivity. Qed.
  Lemma full_vec v qs s ms l : Full (PVec v :: qs) s ms l -> exists u ms' l', s = v ++ u /\ Full qs u ms' l' /\ ms = plain v :: ms' /\ l = length v + l'.
  Proof.
    intros H. destruct (exec_full_len _ _ _ _ _ _ H) as (m & ms' & l' & E & -> & H' & ->). cbn [Parse.pat_matched] in E. destruct (starts_with s v) eqn:Es; [|discriminate]. injection E as <-.
    destruct (starts_with_prefix _ _ Es) as (u & ->). cbn [m_chars m_ignore plain] in *. rewrite Nat.add_0_r in *. rewrite skipn_pre in H'. exists u, ms', l'. repeat split; trivial.
  Qed.
  Lemma full_char c qs s ms l : Full (PChar c :: qs) s ms l -> exists u ms' l', s = c :: u /\ Full qs u ms' l' /\ ms = plain [c] :: ms' /\ l = S l'.
  Proof.
    intros H. destruct (exec_full_len _ _ _ _ _ _ H) as (m & ms' & l' & E & -> & H' & ->). cbn [Parse.pat_matched] in E. destruct s as [|x s]; [discriminate|].
    destruct (char_eqb c x) eqn:Es; [|discriminate]. injection E as <-. apply N.eqb_eq in Es. subst x. exists s, ms', l'. repeat split; trivial.
  Qed.
  Lemma full_spaces qs s ms l : Full (PSpaces :: qs) s ms l -> exists w u ms' l', s = w ++ u /\ Spaces w /\ Full qs u ms' l' /\ ms = plain w :: ms' /\ l = length w + l'.
  Proof.
    intros H. destruct (exec_full_len _ _ _ _ _ _ H) as (m & ms' & l' & E & -> & H' & ->). cbn [Parse.pat_matched] in E. injection E as <-.
    destruct (take_heads is_ascii_ws s) as (u & Es & F & _). remember (take_while is_ascii_ws s) as w eqn:Ew. clear Ew. subst s. cbn [m_chars m_ignore plain] in *. rewrite Nat.add_0_r in *. rewrite skipn_pre in H'.
    exists w, u, ms', l'. repeat split; trivial.
  Qed.
  Lemma full_key qs s ms l : Full (PAttrKey :: qs) s ms l -> exists k u ms' l', s = k ++ u /\ KeyText k /\ Full qs u ms' l' /\ ms = plain k :: ms' /\ l = length k + l'.
  Proof.
    intros H. destruct (exec_full_len _ _ _ _ _ _ H) as (m & ms' & l' & E & -> & H' & ->). cbn [Parse.pat_matched] in E.
    destruct (take_heads is_char_available_in_key s) as (u & Es & F & _). remember (take_while is_char_available_in_key s) as k eqn:Ek. clear Ek. destruct (nonempty k) eqn:Ne; [|discriminate]. injection E as <-. subst s.
    cbn [m_chars m_ignore plain] in *. rewrite Nat.add_0_r in *. rewrite skipn_pre in H'. exists k, u, ms', l'. repeat split; trivial.
    - intros ->. discriminate.
    - exact (Forall_impl _ (fun c => proj1 (key_char_ok c)) F).
  Qed.
  Lemma full_regex r qs s ms l : Full (PRegex r :: qs) s ms l -> exists w c u ms' l', s = w ++ u /\ re_exec r s = Some (w, c) /\ Full qs u ms' l' /\ ms = mkMatched w 0 c None None :: ms' /\ l = length w + l'.
  Proof.
    intros H. destruct (exec_full_len _ _ _ _ _ _ H) as (m & ms' & l' & E & -> & H' & ->). cbn [Parse.pat_matched] in E. destruct (re_exec r s) as [[w c]|] eqn:Er; [|discriminate]. injection E as <-.
    destruct (re_exec_prefix _ _ _ _ Er) as (u & ->). cbn [m_chars m_ignore] in *. rewrite Nat.add_0_r in *. rewrite skipn_pre in H'. exists w, c, u, ms', l'. repeat split; trivial.
  Qed.
  Lemma full_nth qs s ms l : Full (PNth :: qs) s ms l -> exists m u ms' l', s = m_chars m ++ u /\ nth_matched wide_digit s = Some m /\ Full qs u ms' l' /\ ms = m :: ms' /\ l = length (m_chars m) + l'.
  Proof.
    intros H. destruct (exec_full_len _ _ _ _ _ _ H) as (m & ms' & l' & E & -> & H' & ->). cbn [Parse.pat_matched] in E. injection E as E. destruct (nth_free _ s m E) as (u & Es & Ei & _).
    rewrite Ei, Nat.add_0_r in *. rewrite Es in H'. rewrite skipn_pre in H'. exists m, u, ms', l'. repeat split; trivial.
  Qed.
  Lemma full_id qs s ms l : Full (PIdentity :: qs) s ms l -> Escapes s -> exists n t u ms' l' m, s = t ++ u /\ IdText n t /\ Follow u /\ Full qs u ms' l' /\ ms = m :: ms' /\ m_chars m = n /\ l = length t + l'.
  Proof.
    intros H He. destruct (exec_full_len _ _ _ _ _ _ H) as (m & ms' & l' & E & -> & H' & ->). cbn [Parse.pat_matched] in E. destruct s as [|x s]; [discriminate|].
    destruct (is_ascii_upper x || is_ascii_lower x || char_eqb x 95%N) eqn:Ex; [|discriminate]. cbn [identity_loop] in E.
    assert (Ha : is_ascii_alnum x || char_eqb x 45%N || char_eqb x 95%N = true).
    { unfold is_ascii_alnum. rewrite !orb_true_iff in *. tauto. }
    rewrite Ha in E. destruct (identity_loop s false) as [r n] eqn:El. injection E as <-. cbn [m_chars m_ignore] in *.
    destruct (idtail_back _ s r n (le_n _) El (escapes_tail [x] s He)) as (t & u & -> & Ht & L & F). exists (x :: r), (x :: t), u, ms', l', (mkMatched (x :: r) n [] None None).
    assert (Lx : length (x :: r) + n = length (x :: t)) by (cbn; slia). unfold str, char in *. rewrite Lx in *. change (x :: t ++ u) with ((x :: t) ++ u) in H'. rewrite skipn_pre in H'. split; [reflexivity|].
    split; [constructor; [|exact Ht]|repeat split; trivial]. unfold IdStart. rewrite !orb_true_iff in Ex. unfold char_eqb in Ex. rewrite N.eqb_eq in Ex. tauto.
  Qed.

  (** * Rules *)
  Definition Hit (r : rule) (s : str) (l : nat) : Prop := exists t u, s = t ++ u /\ l = length t /\ t <> [] /\ LPart r t /\ (ident r = true -> Follow u).
  Lemma pseudo_hit r v s ms l : In (r, v) plain_pseudos -> Full [PVec v] s ms l -> Hit r s l.
  Proof.
    intros Hin H. destruct (full_vec _ _ _ _ _ H) as (u & ms' & l' & -> & H' & -> & ->). destruct (full_nil _ _ _ H') as [-> ->]. exists v, u. split; [reflexivity|]. split; [lia|].
    pose proof (RT_pseudo (fun _ _ => False) r v Hin) as P. split; [exact (rtext_nonempty _ _ _ P)|]. split; [exact (LP_rule r v P)|].
    cbn [In plain_pseudos] in Hin. repeat (destruct Hin as [Hin | Hin]; [injection Hin as <- <-; discriminate|]). destruct Hin.
  Qed.
  Lemma nth_hit mk name s ms l r : NthName mk name -> Full (q_nth name) s ms l -> (do m <- rnth ms 2; do f <- make_formula m; Ok (mk f)) = Ok r -> Hit r s l.
  Proof.
    intros Hn H Hm. destruct (full_vec _ _ _ _ _ H) as (u1 & ms1 & l1 & -> & H1 & -> & ->). destruct (full_spaces _ _ _ _ H1) as (w1 & u2 & ms2 & l2 & -> & S1 & H2 & -> & ->).
    destruct (full_nth _ _ _ _ H2) as (m & u3 & ms3 & l3 & Eu & Em & H3 & -> & ->). destruct (full_spaces _ _ _ _ H3) as (w2 & u4 & ms4 & l4 & -> & S2 & H4 & -> & ->).
    destruct (full_char _ _ _ _ _ H4) as (u5 & ms5 & l5 & -> & H5 & -> & ->). destruct (full_nil _ _ _ H5) as [-> ->]. cbn [rnth nth_error rbind] in Hm.
    destruct (make_formula m) as [[a b]| |] eqn:Ef; cbn [rbind] in Hm; [|discriminate..]. injection Hm as <-.
    exists (name ++ w1 ++ m_chars m ++ w2 ++ [41%N]), u5. rewrite Eu. split; [rewrite <- !app_assoc; reflexivity|]. split; [rewrite !app_length; cbn [length]; slia|].
    split; [destruct Hn; discriminate|]. split; [|destruct Hn; discriminate].
    assert (D : ((forall z, a = Some z -> Readable z) /\ Readable b) \/ ~ ((forall z, a = Some z -> Readable z) /\ Readable b)).
    { assert (D : forall z, Readable z \/ ~ Readable z) by (intros z; unfold Readable; lia). destruct (D b) as [Db | Db]; [|right; tauto]. destruct a as [z|]; [|left; split; [discriminate | exact Db]].
      destruct (D z) as [Dz | Dz]; [left; split; [intros z' E; injection E as <-; exact Dz | exact Db] | right; intros [X _]; exact (Dz (X z eq_refl))]. }
    destruct D as [[D1 D2] | D].
    - apply LP_rule. apply RT_nth; trivial. exact (nth_sound wide_digit _ m (a, b) Em Ef D1 D2).
    - apply LP_big; trivial. destruct (nth_free _ _ _ Em) as (_ & _ & _ & F). exact F.
  Qed.
  Lemma contains_hit s ms l r : Full [PVec (lit ":contains("); PSpaces; PRegex re_contains; PSpaces; rparen] s ms l -> Escapes s -> (do m <- rnth ms 2; make_contains (m_chars m)) = Ok r -> Hit r s l.
  Proof.
    intros H He Hm. destruct (full_vec _ _ _ _ _ H) as (u1 & ms1 & l1 & -> & H1 & -> & ->). destruct (full_spaces _ _ _ _ H1) as (w1 & u2 & ms2 & l2 & -> & S1 & H2 & -> & ->).
    destruct (full_regex _ _ _ _ _ H2) as (x & c & u3 & ms3 & l3 & Eu & Er & H3 & -> & ->). destruct (full_spaces _ _ _ _ H3) as (w2 & u4 & ms4 & l4 & -> & S2 & H4 & -> & ->).
    destruct (full_char _ _ _ _ _ H4) as (u5 & ms5 & l5 & -> & H5 & -> & ->). destruct (full_nil _ _ _ H5) as [-> ->]. cbn [rnth nth_error rbind m_chars] in Hm.
    assert (He2 : Escapes u2) by (apply (escapes_tail (lit ":contains(" ++ w1)); rewrite <- app_assoc; exact He).
    assert (R : PartText r (lit ":contains(" ++ w1 ++ x ++ w2 ++ [41%N])).
    { destruct (contains_sound u2 x c w2 u5 Er He2 Eu S2) as [(q & v & Hq & Hv & ->) | Hb].
      - unfold make_contains in Hm. assert (Hc : char_eqb q 34%N || char_eqb q 39%N = true) by (destruct Hq as [-> | ->]; reflexivity). rewrite Hc in Hm.
        change (q :: v ++ [q]) with ((q :: v) ++ [q]) in Hm. rewrite removelast_last in Hm. injection Hm as <-. apply RT_contains_quoted; assumption.
      - assert (Hm' : r = RContains x).
        { unfold make_contains in Hm. destruct x as [|d x]; [injection Hm as <-; reflexivity|]. inversion Hb as [|? ? [_ Hd] _]; subst.
          assert (Hc : char_eqb d 34%N || char_eqb d 39%N = false) by (apply orb_false_iff; split; apply N.eqb_neq; intros ->; apply Hd; cbn; tauto). rewrite Hc in Hm. injection Hm as <-. reflexivity. }
        subst r. apply RT_contains_bare; assumption. }
    exists (lit ":contains(" ++ w1 ++ x ++ w2 ++ [41%N]), u5. rewrite Eu. split; [rewrite <- !app_assoc; reflexivity|]. split; [rewrite !app_length; cbn [length]; slia|].
    split; [discriminate|]. split; [exact (LP_rule _ _ R)|]. assert (Hi : ident r = false).
    { unfold make_contains in Hm. destruct x as [|d x]; [injection Hm as <-; reflexivity|]. destruct (char_eqb d 34%N || char_eqb d 39%N); [destruct (removelast (d :: x)); [discriminate|]|]; injection Hm as <-; reflexivity. }
    rewrite Hi. discriminate.
  Qed.
  Lemma attr_hit s ms l r : Full [PVec (lit "["); PSpaces; PAttrKey; PSpaces; PRegex re_attr; PSpaces; PChar 93%N] s ms l -> Escapes s -> make_attr ms = Ok r -> Hit r s l.
  Proof.
    intros H He Hm. destruct (full_vec _ _ _ _ _ H) as (u1 & ms1 & l1 & -> & H1 & -> & ->). destruct (full_spaces _ _ _ _ H1) as (w1 & u2 & ms2 & l2 & -> & S1 & H2 & -> & ->).
    destruct (full_key _ _ _ _ H2) as (k & u3 & ms3 & l3 & -> & Hk & H3 & -> & ->). destruct (full_spaces _ _ _ _ H3) as (w2 & u4 & ms4 & l4 & -> & S2 & H4 & -> & ->).
    destruct (full_regex _ _ _ _ _ H4) as (x & c & u5 & ms5 & l5 & Eu & Er & H5 & -> & ->). destruct (full_spaces _ _ _ _ H5) as (w3 & u6 & ms6 & l6 & -> & S3 & H6 & -> & ->).
    destruct (full_char _ _ _ _ _ H6) as (u7 & ms7 & l7 & -> & H7 & -> & ->). destruct (full_nil _ _ _ H7) as [-> ->].
    assert (He4 : Escapes u4) by (apply (escapes_tail (lit "[" ++ w1 ++ k ++ w2)); rewrite <- !app_assoc; exact He).
    pose proof (attr_sound u4 x c Er He4) as A. unfold make_attr in Hm. cbn [rnth nth_error rbind m_chars m_caps plain] in Hm. injection Hm as <-.
    change (match _ with Some v => Some (_, v) | None => None end) with (attr_of c).
    exists (91%N :: w1 ++ k ++ w2 ++ x ++ w3 ++ [93%N]), u7. rewrite Eu. split; [change (lit "[") with [91%N]; cbn [app]; rewrite <- !app_assoc; reflexivity|].
    split; [change (lit "[") with [91%N]; cbn [length]; rewrite !app_length; cbn [length]; slia|].
    split; [discriminate|]. split; [apply LP_rule, RT_attr; assumption | discriminate].
  Qed.
  Lemma id_hit p n0 mk s ms l r : (p = [] /\ n0 = 0 /\ mk = RName \/ p = [46%N] /\ n0 = 1 /\ mk = RClass \/ p = [35%N] /\ n0 = 1 /\ mk = RId) -> Full (match p with [] => [] | _ => [PVec p] end ++ [PIdentity]) s ms l -> Escapes s ->
    (do m <- rnth ms n0; Ok (mk (m_chars m))) = Ok r -> Hit r s l.
  Proof.
    intros Hp H He Hm.
    assert (G : exists n t u, s = p ++ t ++ u /\ IdText n t /\ Follow u /\ r = mk n /\ l = length (p ++ t)).
    { destruct Hp as [(-> & -> & ->) | [(-> & -> & ->) | (-> & -> & ->)]]; cbn [app] in H.
      - destruct (full_id _ _ _ _ H He) as (n & t & u & ms' & l' & m & -> & Ht & F & H' & -> & <- & ->). destruct (full_nil _ _ _ H') as [-> ->]. cbn in Hm. injection Hm as <-.
        exists (m_chars m), t, u. split; [reflexivity|]. split; [exact Ht|]. split; [exact F|]. split; [reflexivity | cbn; slia].
      - destruct (full_vec _ _ _ _ _ H) as (u1 & ms1 & l1 & -> & H1 & -> & ->).
        destruct (full_id _ _ _ _ H1 (escapes_tail _ _ He)) as (n & t & u & ms' & l' & m & -> & Ht & F & H' & -> & <- & ->). destruct (full_nil _ _ _ H') as [-> ->]. cbn in Hm. injection Hm as <-.
        exists (m_chars m), t, u. split; [reflexivity|]. split; [exact Ht|]. split; [exact F|]. split; [reflexivity | cbn; slia].
      - destruct (full_vec _ _ _ _ _ H) as (u1 & ms1 & l1 & -> & H1 & -> & ->).
        destruct (full_id _ _ _ _ H1 (escapes_tail _ _ He)) as (n & t & u & ms' & l' & m & -> & Ht & F & H' & -> & <- & ->). destruct (full_nil _ _ _ H') as [-> ->]. cbn in Hm. injection Hm as <-.
        exists (m_chars m), t, u. split; [reflexivity|]. split; [exact Ht|]. split; [exact F|]. split; [reflexivity | cbn; slia]. }
    destruct G as (n & t & u & -> & Ht & F & -> & ->). exists (p ++ t), u. split; [apply app_assoc|]. split; [reflexivity|].
    assert (R : PartText (mk n) (p ++ t)) by (destruct Hp as [(-> & _ & ->) | [(-> & _ & ->) | (-> & _ & ->)]]; [apply RT_name | apply RT_class | apply RT_id]; exact Ht).
    split; [exact (rtext_nonempty _ _ _ R)|]. split; [exact (LP_rule _ _ R) | intros _; exact F].
  Qed.
  Lemma all_hit s ms l : Full [PChar 42%N] s ms l -> Hit RAll s l.
  Proof.
    intros H. destruct (full_char _ _ _ _ _ H) as (u & ms' & l' & -> & H' & -> & ->). destruct (full_nil _ _ _ H') as [-> ->]. exists [42%N], u.
    split; [reflexivity|]. split; [reflexivity|]. split; [discriminate|]. split; [apply LP_rule, RT_all | discriminate].
  Qed.
  Lemma rule_sound parse s k qs ms l r : first_rule rules s = Ok (Some (k, qs, (ms, l, length qs))) -> Escapes s -> make parse k ms = Ok r -> Hit r s l.
  Proof.
    intros H He Hm. destruct (rule_cases wide_digit _ _ _ _ _ _ H) as (_ & _ & [[_ Hk] | [Hc _]]); [|congruence].
    destruct (first_hit _ _ _ _ _ _ H) as [Hin Hq]. destruct (queues_hit _ _ _ _ _ _ Hq) as [He' _]. change (Full qs s ms l) in He'. clear H Hq. unfold rules in Hin. cbn [In] in Hin.
    repeat (destruct Hin as [Hin | Hin]; [injection Hin as <- <-;
      first [ elim Hk; unfold nest_kind; tauto
            | injection Hm as <-; refine (pseudo_hit _ _ s ms l _ He'); cbn; tauto
            | injection Hm as <-; exact (all_hit s ms l He')
            | exact (nth_hit _ _ s ms l r NN_child He' Hm)
            | exact (nth_hit _ _ s ms l r NN_last_child He' Hm)
            | exact (nth_hit _ _ s ms l r NN_type He' Hm)
            | exact (nth_hit _ _ s ms l r NN_last_type He' Hm)
            | exact (contains_hit s ms l r He' He Hm)
            | exact (attr_hit s ms l r He' He Hm)
            | exact (id_hit [] 0 RName s ms l r ltac:(tauto) He' He Hm)
            | exact (id_hit [46%N] 1 RClass s ms l r ltac:(tauto) He' He Hm)
            | exact (id_hit [35%N] 1 RId s ms l r ltac:(tauto) He' He Hm) ]|]).
    destruct Hin.
  Qed.

  (** * The nested text *)
  Lemma until_closed f : forall chars i n ms, parse_until f chars [PSpaces; rparen] true i = Ok (Some (n, ms)) -> ms <> [] ->
    exists own w u ms', chars = own ++ w ++ 41%N :: u /\ Spaces w /\ ms = plain own :: ms' /\ n = length (own ++ w ++ [41%N]).
  Proof.
    induction f as [|f IH]; intros chars i n ms H Hm; [discriminate|]. cbn [Parse.parse_until] in H.
    destruct (skipn i chars) as [|x rest] eqn:Es; [injection H as <- <-; congruence|]. rewrite <- Es in *.
    destruct (Parse.exec_queues wide_digit splitter (skipn i chars)) as [[[[ms1 l1] n1]|]| |]; cbn [rbind] in H; try discriminate; [exact (IH _ _ _ _ H Hm)|].
    assert (F : forall idx, (do t <- exec [PSpaces; rparen] (skipn idx chars); let '(ms, count, num) := t in
                      if negb (Nat.eqb num 2) then Ok None else Ok (Some (idx + count, [plain (firstn idx chars)] ++ ms))) = Ok (Some (n, ms)) ->
                    exists own w u ms', chars = own ++ w ++ 41%N :: u /\ Spaces w /\ ms = plain own :: ms' /\ n = length (own ++ w ++ [41%N])).
    { intros idx G. destruct (exec [PSpaces; rparen] (skipn idx chars)) as [[[ms2 c2] n2]| |] eqn:Ex; cbn [rbind] in G; [|discriminate..]. destruct (Nat.eqb_spec n2 2) as [-> | _]; [|discriminate].
      cbn [negb] in G. injection G as <- <-. change (Full [PSpaces; rparen] (skipn idx chars) ms2 c2) in Ex.
      destruct (full_spaces _ _ _ _ Ex) as (w & u4 & ms4 & l4 & E4 & S2 & H4 & -> & ->). destruct (full_char _ _ _ _ _ H4) as (u5 & ms5 & l5 & -> & H5 & -> & ->). destruct (full_nil _ _ _ H5) as [-> ->].
      exists (firstn idx chars), w, u5. eexists. split; [rewrite <- (firstn_skipn idx chars) at 1; f_equal; exact E4|]. split; [exact S2|]. split; [reflexivity|].
      assert (Li : idx <= length chars).
      { destruct (le_lt_dec idx (length chars)) as [Hl | Hl]; [exact Hl|]. assert (X : skipn idx chars = []) by (apply skipn_all2; slia). rewrite X in E4. destruct w; discriminate. }
      rewrite !app_length, firstn_length. cbn [length]. slia. }
    destruct (first_rule rules (skipn i chars)) as [[[[k qs] [[ms1 l] n1]]|]| |]; cbn [rbind] in H; try discriminate; [|exact (F i H)].
    destruct (Nat.eqb n1 (length qs)); cbn [rbind] in H; [exact (IH _ _ _ _ H Hm)|].
    destruct (parse_until f (skipn (i + l) chars) (skipn (S n1) qs) false 0) as [[[m ms']|]| |]; cbn [rbind] in H; try discriminate. exact (F _ H).
  Qed.
End Sound.
