(** The rules of the parser on the texts of the grammar. *)
From Verif Require Import Base CharSpec Utils CharProofs Nth NthSpec NthProofs Engine Rules Regex RegexProofs Parse ParseSpec PatProofs NthText.

(** A text that does not continue an identifier. *)
Definition id_more (c : char) : bool := is_ascii_alnum c || char_eqb c 45%N || char_eqb c 95%N || char_eqb c 92%N.
Definition Follow (s : str) : Prop := heads id_more s = false.

Lemma idtail_loop n t rest : IdTail n t -> Follow rest -> exists k, identity_loop (t ++ rest) false = (n, k) /\ length n + k = length t.
Proof.
  intros Ht Hf. induction Ht as [|c n t Hc Ht IH|c n t Ht IH].
  - exists 0. cbn [app]. split; [|reflexivity]. destruct rest as [|c r]; [reflexivity|]. unfold Follow in Hf. cbn [heads] in Hf. unfold id_more in Hf.
    apply orb_false_iff in Hf. destruct Hf as [Hf1 Hf2]. cbn [identity_loop]. rewrite Hf1, Hf2. reflexivity.
  - destruct IH as (k & E & L). exists k. cbn [app identity_loop].
    assert (H : is_ascii_alnum c || char_eqb c 45%N || char_eqb c 95%N = true).
    { destruct Hc as [-> | [-> | ->]]; [reflexivity | | rewrite !orb_true_r; reflexivity]. change (char_eqb 45%N 45%N) with true. rewrite orb_true_r. reflexivity. }
    rewrite H, E. split; [reflexivity | cbn; slia].
  - destruct IH as (k & E & L). exists (S k). cbn [app identity_loop]. change (is_ascii_alnum 92%N || char_eqb 92%N 45%N || char_eqb 92%N 95%N) with false.
    change (char_eqb 92%N 92%N) with true. cbn iota. rewrite E. split; [reflexivity | cbn; slia].
Qed.

Section Tokens.
  Variable wide_digit : char -> bool.
  Notation pat_matched := (pat_matched wide_digit).
  Notation exec := (exec wide_digit).
  Notation exec_queues := (exec_queues wide_digit).
  Notation first_rule := (first_rule wide_digit).

  Definition m_len (m : matched) : nat := length (m_chars m) + m_ignore m.
  Lemma exec_step q qs w r m ms l n : pat_matched q (w ++ r) = Ok (Some m) -> m_len m = length w -> exec qs r = Ok (ms, l, n) ->
    exec (q :: qs) (w ++ r) = Ok (m :: ms, length w + l, S n).
  Proof. intros E L H. cbn [Parse.exec]. rewrite E. cbn [rbind]. fold (m_len m). rewrite L, skipn_pre, H. reflexivity. Qed.
  Lemma exec_stop q qs s : pat_matched q s = Ok None -> exec (q :: qs) s = Ok ([], 0, 0).
  Proof. intros E. cbn [Parse.exec]. rewrite E. reflexivity. Qed.
  Lemma queues_some qs s ms l n : exec qs s = Ok (ms, l, n) -> 0 < l -> exec_queues qs s = Ok (Some (ms, l, n)).
  Proof. intros E L. unfold Parse.exec_queues. rewrite E. cbn [rbind]. apply Nat.ltb_lt in L. rewrite L. reflexivity. Qed.
  Lemma queues_none q qs s : pat_matched q s = Ok None -> exec_queues (q :: qs) s = Ok None.
  Proof. intros E. unfold Parse.exec_queues. rewrite (exec_stop q qs s E). reflexivity. Qed.

  Lemma pm_vec v r : pat_matched (PVec v) (v ++ r) = Ok (Some (plain v)).
  Proof. cbn. rewrite starts_with_app. reflexivity. Qed.
  Lemma pm_vec_none v s : starts_with s v = false -> pat_matched (PVec v) s = Ok None.
  Proof. intros H. cbn. rewrite H. reflexivity. Qed.
  Lemma take_while_app p w r : Forall (fun c => p c = true) w -> heads p r = false -> take_while p (w ++ r) = w.
  Proof.
    intros Hw Hr. induction Hw as [|c w Hc _ IH]; cbn [app take_while].
    - destruct r as [|c r]; [reflexivity|]. cbn in Hr. cbn. rewrite Hr. reflexivity.
    - rewrite Hc, IH. reflexivity.
  Qed.
  Lemma pm_spaces w r : Spaces w -> heads is_ascii_ws r = false -> pat_matched PSpaces (w ++ r) = Ok (Some (plain w)).
  Proof. intros Hw Hr. cbn. rewrite (take_while_app _ w r Hw Hr). reflexivity. Qed.
  Lemma pm_key k r : KeyText k -> heads is_char_available_in_key r = false -> pat_matched PAttrKey (k ++ r) = Ok (Some (plain k)).
  Proof. intros [Hn Hk] Hr. apply (Forall_impl _ (fun c => proj2 (key_char_ok c))) in Hk. cbn. rewrite (take_while_app _ k r Hk Hr). destruct k; [congruence | reflexivity]. Qed.
  Lemma pm_char c r : pat_matched (PChar c) ([c] ++ r) = Ok (Some (plain [c])).
  Proof. cbn. unfold char_eqb. rewrite N.eqb_refl. reflexivity. Qed.
  Lemma pm_identity n t r : IdText n t -> Follow r -> exists k, pat_matched PIdentity (t ++ r) = Ok (Some (mkMatched n k [] None None)) /\ length n + k = length t.
  Proof.
    intros [c n' t' Hc Ht] Hf. destruct (idtail_loop n' t' r Ht Hf) as (k & E & L). exists k. cbn [app Parse.pat_matched].
    assert (H : is_ascii_upper c || is_ascii_lower c || char_eqb c 95%N = true).
    { destruct Hc as [-> | [-> | ->]]; [reflexivity | rewrite orb_true_r; reflexivity | reflexivity]. }
    assert (H' : is_ascii_alnum c || char_eqb c 45%N || char_eqb c 95%N = true).
    { unfold is_ascii_alnum. destruct Hc as [-> | [-> | ->]]; [rewrite orb_true_r; reflexivity | rewrite orb_true_r; reflexivity | reflexivity]. }
    rewrite H. cbn [identity_loop]. rewrite H', E. split; [reflexivity | cbn; slia].
  Qed.
  Lemma pm_identity_none c s : is_ascii_upper c = false -> is_ascii_lower c = false -> c <> 95%N -> pat_matched PIdentity (c :: s) = Ok None.
  Proof. intros H1 H2 H3. cbn. rewrite H1, H2. unfold char_eqb. destruct (N.eqb_spec c 95); [congruence | reflexivity]. Qed.

  Lemma rule_skip k qs rs s : exec_queues qs s = Ok None -> first_rule ((k, qs) :: rs) s = first_rule rs s.
  Proof. intros E. cbn [Parse.first_rule]. rewrite E. reflexivity. Qed.
  Lemma rule_skip_vec k v qs rs s : starts_with s v = false -> first_rule ((k, PVec v :: qs) :: rs) s = first_rule rs s.
  Proof. intros E. apply rule_skip, queues_none, pm_vec_none, E. Qed.
  Lemma rule_hit k qs rs s ms l n : exec qs s = Ok (ms, l, n) -> 0 < l -> first_rule ((k, qs) :: rs) s = Ok (Some (k, qs, (ms, l, n))).
  Proof. intros E L. cbn [Parse.first_rule]. rewrite (queues_some qs s ms l n E L). reflexivity. Qed.

  (** Only the rule whose fixed text the input starts with is reached. *)
  Ltac skip := repeat first
    [ rewrite rule_skip_vec by reflexivity
    | rewrite (rule_skip KName) by (apply queues_none, pm_identity_none; [reflexivity | reflexivity | discriminate]) ].

  Definition Complete (r : rule) (t rest : str) : Prop := exists k qs ms, first_rule rules (t ++ rest) = Ok (Some (k, qs, (ms, length t, length qs))) /\
    forall parse, make parse k ms = Ok r.

  Lemma tok_all rest : Complete RAll (lit "*") rest.
  Proof.
    exists KAll, [PChar 42%N], [plain [42%N]]. split; [|reflexivity]. unfold rules, q_nth, q_nested. skip.
    apply rule_hit; [|cbn; lia]. exact (exec_step _ [] [42%N] rest (plain [42%N]) [] 0 0 (pm_char 42%N rest) eq_refl eq_refl).
  Qed.
  Lemma start_not_vec c s d v : IdStart c -> ~ IdStart d -> starts_with (c :: s) (d :: v) = false.
  Proof. intros H1 H2. cbn. destruct (N.eqb_spec d c); [subst; contradiction|]. unfold char_eqb. destruct (N.eqb_spec d c); [congruence | reflexivity]. Qed.
  Lemma tok_name n t rest : IdText n t -> Follow rest -> Complete (RName n) t rest.
  Proof.
    intros H Hf. destruct (pm_identity n t rest H Hf) as (k & E & L). exists KName, [PIdentity], [mkMatched n k [] None None]. split; [|reflexivity].
    unfold rules. assert (Hc : exists c t', t = c :: t' /\ IdStart c) by (destruct H as [c n' t' Hc _]; exists c, t'; split; [reflexivity | exact Hc]).
    destruct Hc as (c & t' & -> & Hc).
    rewrite !rule_skip_vec; [| apply start_not_vec; [exact Hc | intros [H' | [H' | H']]; discriminate] ..].
    apply rule_hit; [|cbn; lia]. pose proof (exec_step PIdentity [] (c :: t') rest _ [] 0 0 E L eq_refl) as G. rewrite Nat.add_0_r in G. exact G.
  Qed.
  Lemma tok_class n t rest : IdText n t -> Follow rest -> Complete (RClass n) (46%N :: t) rest.
  Proof.
    intros H Hf. destruct (pm_identity n t rest H Hf) as (k & E & L). exists KClass, [PVec (lit "."); PIdentity], [plain (lit "."); mkMatched n k [] None None]. split; [|reflexivity].
    unfold rules. apply rule_hit; [|cbn; lia]. pose proof (exec_step PIdentity [] t rest _ [] 0 0 E L eq_refl) as G. rewrite Nat.add_0_r in G.
    exact (exec_step (PVec (lit ".")) _ (lit ".") (t ++ rest) (plain (lit ".")) _ _ _ (pm_vec (lit ".") (t ++ rest)) eq_refl G).
  Qed.
  Lemma tok_id n t rest : IdText n t -> Follow rest -> Complete (RId n) (35%N :: t) rest.
  Proof.
    intros H Hf. destruct (pm_identity n t rest H Hf) as (k & E & L). exists KId, [PVec (lit "#"); PIdentity], [plain (lit "#"); mkMatched n k [] None None]. split; [|reflexivity].
    unfold rules, q_nth, q_nested. skip. apply rule_hit; [|cbn; lia]. pose proof (exec_step PIdentity [] t rest _ [] 0 0 E L eq_refl) as G. rewrite Nat.add_0_r in G.
    exact (exec_step (PVec (lit "#")) _ (lit "#") (t ++ rest) (plain (lit "#")) _ _ _ (pm_vec (lit "#") (t ++ rest)) eq_refl G).
  Qed.
  Lemma vec_hit k v rs rest : v <> [] -> first_rule ((k, [PVec v]) :: rs) (v ++ rest) = Ok (Some (k, [PVec v], ([plain v], length v, length [PVec v]))).
  Proof.
    intros Hv. apply rule_hit; [|destruct v; [congruence | cbn; lia]]. pose proof (exec_step (PVec v) [] v rest (plain v) [] 0 0 (pm_vec v rest)) as G.
    rewrite Nat.add_0_r in G. apply G; [unfold m_len; cbn; lia | reflexivity].
  Qed.
  Lemma tok_pseudo r t rest : In (r, t) plain_pseudos -> Complete r t rest.
  Proof.
    intros H. cbn [In plain_pseudos] in H.
    repeat (destruct H as [H | H]; [injection H as <- <-; eexists; eexists; eexists; split; [unfold rules, q_nth, q_nested; skip; rewrite vec_hit by discriminate; reflexivity | reflexivity]|]).
    destruct H.
  Qed.

  (** * Attribute rules *)
  Lemma ascii_ws_not_key c : is_ascii_ws c = true -> is_char_available_in_key c = false.
  Proof.
    intros H. unfold is_ascii_ws in H. rewrite !orb_true_iff, !N.eqb_eq in H. destruct H as [[[[-> | ->] | ->] | ->] | ->]; reflexivity.
  Qed.
  Lemma heads_spaces_app p w r : (forall c, is_ascii_ws c = true -> p c = false) -> Spaces w -> heads p r = false -> heads p (w ++ r) = false.
  Proof. intros H Hw Hr. destruct Hw as [|c w Hc]; [exact Hr | apply H, Hc]. Qed.
  Lemma key_not_ws k r : KeyText k -> heads is_ascii_ws (k ++ r) = false.
  Proof.
    intros [Hn Hk]. destruct Hk as [|c k Hc]; [congruence|]. cbn. destruct (is_ascii_ws c) eqn:E; [|reflexivity]. apply key_char_ok in Hc. rewrite (ascii_ws_not_key c E) in Hc. discriminate.
  Qed.
  Lemma mode_heads p m op r : ModeText m op -> p 61%N = false -> forallb (fun c => negb (p c)) (lit "*^$~|!") = true -> heads p (op ++ 61%N :: r) = false.
  Proof.
    intros Hm H1 H2. rewrite forallb_forall in H2. destruct Hm; [exact H1|..]; apply negb_true_iff, H2; cbn; tauto.
  Qed.
  Lemma tok_attr w1 k w2 a t w3 rest : Spaces w1 -> KeyText k -> Spaces w2 -> AttrText a t -> Spaces w3 ->
    Complete (RAttr k a) (91%N :: w1 ++ k ++ w2 ++ t ++ w3 ++ [93%N]) rest.
  Proof.
    intros H1 Hk H2 Ha H3.
    assert (G : forall u x y m, Spaces u -> Spaces y -> heads is_ascii_ws (x ++ y ++ [93%N] ++ rest) = false -> heads is_char_available_in_key (x ++ y ++ [93%N] ++ rest) = false ->
      pat_matched (PRegex re_attr) (x ++ y ++ [93%N] ++ rest) = Ok (Some m) -> m_len m = length x ->
      exec [PSpaces; PAttrKey; PSpaces; PRegex re_attr; PSpaces; PChar 93%N] (w1 ++ k ++ u ++ x ++ y ++ [93%N] ++ rest) =
        Ok ([plain w1; plain k; plain u; m; plain y; plain [93%N]], length (w1 ++ k ++ u ++ x ++ y ++ [93%N]), 6)).
    { intros u x y m Hu Hy Hx Hx' E L. rewrite !app_length.
      apply exec_step; [apply pm_spaces; [exact H1 | exact (key_not_ws k _ Hk)] | unfold m_len; cbn; lia |].
      apply exec_step; [apply pm_key; [exact Hk | apply heads_spaces_app; [exact ascii_ws_not_key | exact Hu | exact Hx']] | unfold m_len; cbn; lia |].
      apply exec_step; [apply pm_spaces; [exact Hu | exact Hx] | unfold m_len; cbn; lia |].
      apply exec_step; [exact E | exact L |].
      apply exec_step; [apply pm_spaces; [exact Hy | reflexivity] | unfold m_len; cbn; lia |].
      exact (exec_step _ [] [93%N] rest (plain [93%N]) [] 0 0 (pm_char 93%N rest) eq_refl eq_refl). }
    assert (GG : forall u x y m, Spaces u -> Spaces y -> heads is_ascii_ws (x ++ y ++ [93%N] ++ rest) = false -> heads is_char_available_in_key (x ++ y ++ [93%N] ++ rest) = false ->
      pat_matched (PRegex re_attr) (x ++ y ++ [93%N] ++ rest) = Ok (Some m) -> m_len m = length x ->
      first_rule rules (lit "[" ++ (w1 ++ k ++ u ++ x ++ y ++ [93%N] ++ rest)) =
        Ok (Some (KAttr, [PVec (lit "["); PSpaces; PAttrKey; PSpaces; PRegex re_attr; PSpaces; PChar 93%N],
                  ([plain (lit "["); plain w1; plain k; plain u; m; plain y; plain [93%N]], 1 + length (w1 ++ k ++ u ++ x ++ y ++ [93%N]), 7)))).
    { intros u x y m Hu Hy Hx Hx' E L. unfold rules, q_nth, q_nested. skip. apply rule_hit; [|lia].
      exact (exec_step (PVec (lit "[")) _ (lit "[") _ (plain (lit "[")) _ _ _ (pm_vec (lit "[") _) eq_refl (G u x y m Hu Hy Hx Hx' E L)). }
    destruct Ha as [|m op w v x Hm Hw Hv].
    - assert (Hu : Spaces (w2 ++ w3)) by (apply Forall_app; split; assumption).
      exists KAttr. eexists. eexists. split.
      + cbn [app]. rewrite <- !app_assoc.
        rewrite (app_assoc w2 w3).
        etransitivity; [apply (GG (w2 ++ w3) [] [] (mkMatched [] 0 [] None None) Hu); [constructor | reflexivity | reflexivity | | reflexivity]|].
        * cbn [app]. cbn [Parse.pat_matched]. rewrite attr_has_match. reflexivity.
        * repeat f_equal. cbn [app length]. rewrite !app_length. cbn [length]. slia.
      + intros parse. reflexivity.
    - set (x' := op ++ [61%N] ++ w ++ x).
      assert (Hr : heads (bare_char attr_stop) (w3 ++ [93%N] ++ rest) = false).
      { apply heads_spaces_app; [|exact H3|reflexivity]. intros c Hc. apply bare_ws, ascii_unicode_ws, Hc. }
      destruct (attr_test_match m op w v x _ Hm Hw Hv Hr) as (c & E & C1 & C2). fold x' in E.
      exists KAttr. exists [PVec (lit "["); PSpaces; PAttrKey; PSpaces; PRegex re_attr; PSpaces; PChar 93%N].
      exists [plain (lit "["); plain w1; plain k; plain w2; mkMatched x' 0 c None None; plain w3; plain [93%N]]. split.
      + rewrite <- app_comm_cons, <- !app_assoc.
        apply (GG w2 x' w3 (mkMatched x' 0 c None None) H2 H3).
        * unfold x'. rewrite <- !app_assoc. apply (mode_heads _ m); [exact Hm | reflexivity..].
        * unfold x'. rewrite <- !app_assoc. apply (mode_heads _ m); [exact Hm | reflexivity..].
        * cbn [Parse.pat_matched]. rewrite E. reflexivity.
        * unfold m_len. cbn [m_chars m_ignore]. lia.
      + intros parse. cbn [make]. unfold make_attr. cbn [rnth nth_error rbind m_chars plain m_caps]. rewrite C1. fold (value_cap c). rewrite C2, (mode_spec m op Hm). reflexivity.
  Qed.

  (** * nth *)
  Lemma nth_text_heads a b t r : NthText a b t -> heads is_ascii_ws (t ++ r) = false.
  Proof.
    intros [| |s z ds Hs Hd|s z fs a' os b' Hs Hf Ho]; [reflexivity..| |].
    - destruct (sign_cases s z Hs) as [[-> _] | [[-> _] | [-> _]]]; [reflexivity..|]. destruct Hd as [d Hd | d ds Hd _ _ _];
        apply (digit_cases wide_digit) in Hd; cbn in Hd; repeat (destruct Hd as [<- | Hd]; [reflexivity|]); destruct Hd.
    - destruct (sign_cases s z Hs) as [[-> _] | [[-> _] | [-> _]]]; [reflexivity..|]. destruct Hf as [|fs Hd]; [reflexivity|]. destruct Hd as [d Hd | d ds Hd _ _ _];
        apply (digit_cases wide_digit) in Hd; cbn in Hd; repeat (destruct Hd as [<- | Hd]; [reflexivity|]); destruct Hd.
  Qed.
  Lemma nth_exec name w1 a b t w2 rest : Spaces w1 -> NthText a b t -> Spaces w2 -> 
    exists m, exec (q_nth name) (name ++ w1 ++ t ++ w2 ++ [41%N] ++ rest) = Ok ([plain name; plain w1; m; plain w2; plain [41%N]], length (name ++ w1 ++ t ++ w2 ++ [41%N]), 5) /\
      ((forall z, a = Some z -> Readable z) -> Readable b -> make_formula m = Ok (a, b)).
  Proof.
    intros H1 Ht H2. destruct (nth_text_match wide_digit a b t (w2 ++ [41%N] ++ rest) Ht) as (m & E & E1 & E2 & F).
    { exists w2, rest. split; [exact H2 | reflexivity]. }
    exists m. split; [|exact F]. unfold q_nth. rewrite !app_length.
    apply exec_step; [apply pm_vec | unfold m_len; cbn; lia |].
    apply exec_step; [apply pm_spaces; [exact H1 | exact (nth_text_heads a b t _ Ht)] | unfold m_len; cbn; lia |].
    apply exec_step; [cbn [Parse.pat_matched]; rewrite E; reflexivity | unfold m_len; rewrite E1, E2; lia |].
    apply exec_step; [apply pm_spaces; [exact H2 | reflexivity] | unfold m_len; cbn; lia |].
    exact (exec_step _ [] [41%N] rest (plain [41%N]) [] 0 0 (pm_char 41%N rest) eq_refl eq_refl).
  Qed.
  Lemma tok_nth mk name w1 a b t w2 rest : NthName mk name -> Spaces w1 -> NthText a b t -> Spaces w2 ->
    (forall z, a = Some z -> Readable z) -> Readable b -> Complete (mk (a, b)) (name ++ w1 ++ t ++ w2 ++ [41%N]) rest.
  Proof.
    intros Hn H1 Ht H2 Ra Rb. destruct (nth_exec name w1 a b t w2 rest H1 Ht H2) as (m & E & F). specialize (F Ra Rb).
    assert (G : exists k, first_rule rules (name ++ w1 ++ t ++ w2 ++ [41%N] ++ rest) =
      Ok (Some (k, q_nth name, ([plain name; plain w1; m; plain w2; plain [41%N]], length (name ++ w1 ++ t ++ w2 ++ [41%N]), 5))) /\
      forall parse, make parse k [plain name; plain w1; m; plain w2; plain [41%N]] = Ok (mk (a, b))).
    { destruct Hn; [exists (KNthChild true) | exists (KNthChild false) | exists (KNthOfType true) | exists (KNthOfType false)];
        (split; [unfold rules; unfold q_nth at 1 2 3 4; unfold q_nested; skip; apply rule_hit; [exact E | rewrite app_length; cbn; lia] |
                 intros parse; cbn [make rnth nth_error rbind]; rewrite F; reflexivity]). }
    destruct G as (k & G & M). exists k, (q_nth name). eexists. split; [|exact M]. rewrite <- !app_assoc. exact G.
  Qed.

  (** * contains *)
  Lemma contains_exec w1 x w2 rest c : Spaces w1 -> Spaces w2 -> heads is_ascii_ws (x ++ w2 ++ [41%N] ++ rest) = false ->
    re_exec re_contains (x ++ w2 ++ [41%N] ++ rest) = Some (x, c) ->
    first_rule rules (lit ":contains(" ++ w1 ++ x ++ w2 ++ [41%N] ++ rest) =
      Ok (Some (KContains, [PVec (lit ":contains("); PSpaces; PRegex re_contains; PSpaces; rparen],
        ([plain (lit ":contains("); plain w1; mkMatched x 0 c None None; plain w2; plain [41%N]], length (lit ":contains(" ++ w1 ++ x ++ w2 ++ [41%N]), 5))).
  Proof.
    intros H1 H2 Hx E. unfold rules, q_nth, q_nested. skip. apply rule_hit; [|cbn; lia]. rewrite !app_length.
    apply exec_step; [apply pm_vec | unfold m_len; cbn; lia |].
    apply exec_step; [apply pm_spaces; [exact H1 | exact Hx] | unfold m_len; cbn; lia |].
    apply exec_step; [cbn [Parse.pat_matched]; rewrite E; reflexivity | unfold m_len; cbn; lia |].
    apply exec_step; [apply pm_spaces; [exact H2 | reflexivity] | unfold m_len; cbn; lia |].
    exact (exec_step _ [] [41%N] rest (plain [41%N]) [] 0 0 (pm_char 41%N rest) eq_refl eq_refl).
  Qed.
  Lemma tok_contains_quoted w1 q v w2 rest : Spaces w1 -> Quote q -> Quoted q v -> Spaces w2 ->
    Complete (RContains v) (lit ":contains(" ++ w1 ++ (q :: v ++ [q]) ++ w2 ++ [41%N]) rest.
  Proof.
    intros H1 Hq Hv H2. destruct (contains_quoted_match q v (w2 ++ [41%N] ++ rest) Hq Hv) as (c & E).
    exists KContains, [PVec (lit ":contains("); PSpaces; PRegex re_contains; PSpaces; rparen]. eexists. split.
    - rewrite <- !app_assoc. apply (contains_exec w1 (q :: v ++ [q]) w2 rest c H1 H2); [destruct Hq as [-> | ->]; reflexivity | exact E].
    - intros parse. cbn [make rnth nth_error rbind m_chars]. unfold make_contains.
      assert (Hc : char_eqb q 34%N || char_eqb q 39%N = true) by (destruct Hq as [-> | ->]; reflexivity). rewrite Hc.
      change (q :: v ++ [q]) with ((q :: v) ++ [q]). rewrite removelast_last. reflexivity.
  Qed.
  Lemma tok_contains_bare w1 v w2 rest : Spaces w1 -> Bare (lit ")'""<>/=`") v -> Spaces w2 ->
    Complete (RContains v) (lit ":contains(" ++ w1 ++ v ++ w2 ++ [41%N]) rest.
  Proof.
    intros H1 Hv H2.
    assert (G : forall u y, Spaces u -> Spaces y -> heads is_ascii_ws (v ++ y ++ [41%N] ++ rest) = false -> u ++ v ++ y = w1 ++ v ++ w2 -> Complete (RContains v) (lit ":contains(" ++ w1 ++ v ++ w2 ++ [41%N]) rest).
    { intros u y Hu Hy Hh Eu.
      destruct (contains_bare_match v (y ++ [41%N] ++ rest) Hv) as (c & E).
      { apply heads_spaces_app; [intros c Hc; apply bare_ws, ascii_unicode_ws, Hc | exact Hy | reflexivity]. }
      { apply heads_spaces_app; [|exact Hy | reflexivity]. intros c Hc. cbn. unfold char_eqb. destruct (N.eqb_spec c 39); [subst c; discriminate|].
        destruct (N.eqb_spec c 34); [subst c; discriminate | reflexivity]. }
      replace (lit ":contains(" ++ w1 ++ v ++ w2 ++ [41%N]) with (lit ":contains(" ++ u ++ v ++ y ++ [41%N]).
      2: { f_equal. rewrite (app_assoc v y), (app_assoc u), Eu, <- !app_assoc. reflexivity. }
      exists KContains, [PVec (lit ":contains("); PSpaces; PRegex re_contains; PSpaces; rparen]. eexists. split.
      - rewrite <- !app_assoc. exact (contains_exec u v y rest c Hu Hy Hh E).
      - intros parse. cbn [make rnth nth_error rbind m_chars]. unfold make_contains. destruct v as [|d v]; [reflexivity|].
        inversion Hv as [|? ? [_ Hd] _]; subst.
        assert (Hc : char_eqb d 34%N || char_eqb d 39%N = false).
        { apply orb_false_iff. split; apply N.eqb_neq; intros ->; apply Hd; cbn; tauto. }
        rewrite Hc. reflexivity. }
    destruct v as [|d v].
    - apply (G (w1 ++ w2) []); [apply Forall_app; split; assumption | constructor | reflexivity | apply app_nil_r].
    - apply (G w1 w2); [exact H1 | exact H2 | | reflexivity]. cbn. inversion Hv as [|? ? [Hd _] _]; subst.
      destruct (is_ascii_ws d) eqn:E; [|reflexivity]. rewrite (ascii_unicode_ws d E) in Hd. discriminate.
  Qed.

  (** * Nested pseudo classes: only the name and the spaces are matched by the rule itself *)
  Lemma tok_nested mk name w1 rest : NestName mk name -> Spaces w1 -> heads is_ascii_ws rest = false ->
    exists k, first_rule rules (name ++ w1 ++ rest) = Ok (Some (k, q_nested name, ([plain name; plain w1], length (name ++ w1), 2))) /\
      forall parse own ms, make parse k ([plain name; plain w1] ++ plain own :: ms) = (do n <- parse own; Ok (mk n)).
  Proof.
    intros Hn H1 Hr.
    assert (E : exec (q_nested name) (name ++ w1 ++ rest) = Ok ([plain name; plain w1], length (name ++ w1), 2)).
    { unfold q_nested. rewrite app_length. rewrite <- (Nat.add_0_r (length w1)).
      apply exec_step; [apply pm_vec | unfold m_len; cbn; lia |]. apply exec_step; [apply pm_spaces; [exact H1 | exact Hr] | unfold m_len; cbn; lia |].
      apply exec_stop. reflexivity. }
    destruct Hn; [exists KNot | exists KHas];
      (split; [unfold rules, q_nth; unfold q_nested at 1 2; skip; apply rule_hit; [exact E | cbn; lia] | reflexivity]).
  Qed.
End Tokens.
