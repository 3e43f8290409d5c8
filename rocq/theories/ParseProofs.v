(** Every text of the grammar is parsed to the groups it denotes. *)
From Verif Require Import Base Utils Nth NthSpec NthProofs Engine Rules Regex RegexProofs Parse ParseSpec PatProofs NthText TokenProofs.

(** * Texts *)
Lemma heads_app p t r : t <> [] -> heads p (t ++ r) = heads p t.
Proof. destruct t; [congruence | reflexivity]. Qed.
Lemma idstart_ws c : IdStart c -> is_unicode_ws c = false.
Proof.
  intros H. destruct (is_unicode_ws c) eqn:E; [|reflexivity]. unfold is_unicode_ws in E. rewrite !orb_true_iff, !andb_true_iff, !N.eqb_eq, !N.leb_le in E.
  unfold IdStart, is_ascii_upper, is_ascii_lower in H. rewrite !andb_true_iff, !N.leb_le in H. lia.
Qed.
Lemma idstart_op c : IdStart c -> is_op c = false.
Proof.
  intros H. destruct (is_op c) eqn:E; [|reflexivity]. unfold is_op in E. cbn in E. unfold char_eqb in E. rewrite !orb_true_iff, !N.eqb_eq in E.
  unfold IdStart, is_ascii_upper, is_ascii_lower in H. rewrite !andb_true_iff, !N.leb_le in H.
  destruct E as [-> | [-> | [-> | [-> | E]]]]; [lia.. | discriminate].
Qed.
Lemma ws_not_id c : is_unicode_ws c = true -> id_more c = false.
Proof.
  intros H. destruct (id_more c) eqn:E; [|reflexivity]. unfold id_more, is_ascii_alnum, is_ascii_digit, is_ascii_upper, is_ascii_lower, char_eqb in E.
  rewrite !orb_true_iff, !andb_true_iff, !N.eqb_eq, !N.leb_le in E. unfold is_unicode_ws in H. rewrite !orb_true_iff, !andb_true_iff, !N.eqb_eq, !N.leb_le in H. lia.
Qed.
Lemma op_not_id c : is_op c = true -> id_more c = false.
Proof.
  intros H. unfold is_op in H. cbn in H. unfold char_eqb in H. rewrite !orb_true_iff, !N.eqb_eq in H.
  destruct H as [-> | [-> | [-> | [-> | H]]]]; [reflexivity.. | discriminate].
Qed.

Section Heads.
  Variable Inner : ast -> str -> Prop.
  Lemma rtext_head r t : RText Inner r t -> exists c t', t = c :: t' /\ (In c (lit "*.#[:") \/ IdStart c).
  Proof.
    intros [ |n u H|n u H|n u H|w1 k w2 a u w3 _ _ _ _ _|r' u H|mk name w1 a b u w2 H _ _ _ _ _|w1 q v w2 _ _ _ _|w1 v w2 _ _ _|mk name w1 gs u w2 H _ _ _].
    - exists 42%N, []. split; [reflexivity | left; cbn; tauto].
    - destruct H as [c n' u' Hc _]. exists c, u'. split; [reflexivity | right; exact Hc].
    - exists 46%N, u. split; [reflexivity | left; cbn; tauto].
    - exists 35%N, u. split; [reflexivity | left; cbn; tauto].
    - eexists. eexists. split; [reflexivity | left; cbn; tauto].
    - cbn [In plain_pseudos] in H. repeat (destruct H as [H | H]; [injection H as <- <-; eexists; eexists; split; [reflexivity | left; cbn; tauto]|]). destruct H.
    - destruct H; eexists; eexists; (split; [reflexivity | left; cbn; tauto]).
    - eexists. eexists. split; [reflexivity | left; cbn; tauto].
    - eexists. eexists. split; [reflexivity | left; cbn; tauto].
    - destruct H; eexists; eexists; (split; [reflexivity | left; cbn; tauto]).
  Qed.
  Lemma rtext_nonempty r t : RText Inner r t -> t <> [].
  Proof. intros H. destruct (rtext_head r t H) as (c & t' & -> & _). discriminate. Qed.
  Lemma rtext_ws r t u : RText Inner r t -> heads is_unicode_ws (t ++ u) = false.
  Proof.
    intros H. destruct (rtext_head r t H) as (c & t' & -> & [Hc | Hc]); [|exact (idstart_ws c Hc)].
    cbn in Hc. repeat (destruct Hc as [<- | Hc]; [reflexivity|]). destruct Hc.
  Qed.
  Lemma rtext_op r t u : RText Inner r t -> heads is_op (t ++ u) = false.
  Proof.
    intros H. destruct (rtext_head r t H) as (c & t' & -> & [Hc | Hc]); [|exact (idstart_op c Hc)].
    cbn in Hc. repeat (destruct Hc as [<- | Hc]; [reflexivity|]). destruct Hc.
  Qed.
  Lemma rtext_follow r t u : RText Inner r t -> head_only r = false -> Follow (t ++ u).
  Proof.
    intros [ |n v H|n v H|n v H|w1 k w2 a v w3 _ _ _ _ _|r' v H|mk name w1 a b v w2 H _ _ _ _ _|w1 q v w2 _ _ _ _|w1 v w2 _ _ _|mk name w1 gs v w2 H _ _ _] Hh;
      try discriminate; try reflexivity; try (destruct H; reflexivity).
    cbn [In plain_pseudos] in H. repeat (destruct H as [H | H]; [injection H as <- <-; reflexivity|]). destruct H.
  Qed.

  (** The pieces of a text: parts and splitters. *)
  Inductive Splits : str -> Prop :=
  | SP_blank w : Blank w -> w <> [] -> Splits w
  | SP_sign w1 o w2 : Blank w1 -> is_op o = true -> Blank w2 -> Splits (w1 ++ o :: w2).
  Definition Fresh (u : str) : Prop := u <> [] /\ heads is_unicode_ws u = false /\ heads is_op u = false.
  Inductive Flat : list rule -> str -> Prop :=
  | FL_nil : Flat [] []
  | FL_rule r t rs u : RText Inner r t -> Follow u -> Flat rs u -> Flat (r :: rs) (t ++ u)
  | FL_split w rs u : Splits w -> Fresh u -> Flat rs u -> Flat rs (w ++ u).

  Lemma follow_app u v : Follow u -> Follow v -> Follow (u ++ v).
  Proof. unfold Follow. destruct u; [intros _ H; exact H | intros H _; exact H]. Qed.
  Lemma fresh_app u v : Fresh u -> Fresh (u ++ v).
  Proof.
    intros (Hn & H1 & H2). split; [destruct u; [congruence | discriminate]|]. rewrite !heads_app by exact Hn. split; assumption.
  Qed.
  Lemma rtext_fresh r t u : RText Inner r t -> Fresh (t ++ u).
  Proof.
    intros H. split; [|split; [exact (rtext_ws r t u H) | exact (rtext_op r t u H)]].
    pose proof (rtext_nonempty r t H). destruct t; [congruence | discriminate].
  Qed.
  Lemma splits_follow w u : Splits w -> Follow (w ++ u).
  Proof.
    intros [w' Hw Hn | w1 o w2 H1 Ho _].
    - destruct Hw as [|c w' Hc]; [congruence | exact (ws_not_id c Hc)].
    - rewrite <- app_assoc. apply heads_blank_app; [exact ws_not_id | exact H1 | exact (op_not_id o Ho)].
  Qed.
  Lemma comb_splits c w : CombText c w -> Splits w.
  Proof.
    intros [w' Hw Hn | c' s w1 w2 Hs H1 H2]; [exact (SP_blank _ Hw Hn)|]. apply SP_sign; [exact H1 | destruct Hs; reflexivity | exact H2].
  Qed.
  Lemma comma_splits w : CommaText w -> Splits w.
  Proof. intros [w1 w2 H1 H2]. apply SP_sign; [exact H1 | reflexivity | exact H2]. Qed.

  Lemma flat_app rs u rs' u' : Flat rs u -> Flat rs' u' -> Follow u' -> Flat (rs ++ rs') (u ++ u').
  Proof.
    intros H H' Hf. induction H as [|r t rs u Hr Hu _ IH|w rs u Hw Hu _ IH]; [exact H' | |].
    - rewrite <- app_assoc. apply (FL_rule r t); [exact Hr | exact (follow_app u u' Hu Hf) | exact IH].
    - rewrite <- app_assoc. apply (FL_split w); [exact Hw | exact (fresh_app u u' Hu) | exact IH].
  Qed.
  Lemma chained_flat rs u : Chained Inner rs u -> Flat (map fst rs) u /\ Follow u.
  Proof.
    induction 1 as [|r t rs u Hr Hh _ [IH F]]; [split; [constructor | reflexivity]|].
    split; [exact (FL_rule r t _ u Hr F IH) | exact (rtext_follow r t u Hr Hh)].
  Qed.
  Lemma compound_flat c cp t : Compound Inner c cp t -> Flat (map fst cp) t /\ Fresh t.
  Proof.
    intros [r u rs v Hr Hc]. destruct (chained_flat rs v Hc) as [F Fo]. split; [exact (FL_rule r u _ v Hr Fo F) | exact (rtext_fresh r u v Hr)].
  Qed.
  Lemma further_flat g u : Further Inner g u -> Flat (map fst (concat g)) u /\ Follow u.
  Proof.
    induction 1 as [|c w cp t g u Hw Hcp _ [IH F]]; [split; [constructor | reflexivity]|]. destruct (compound_flat c cp t Hcp) as [Ft Fr].
    split; [|exact (splits_follow w _ (comb_splits c w Hw))]. cbn [concat]. rewrite map_app.
    apply FL_split; [exact (comb_splits c w Hw) | exact (fresh_app t u Fr) | exact (flat_app _ _ _ _ Ft IH F)].
  Qed.
  Lemma group_flat c g t : Group Inner c g t -> Flat (map fst (concat g)) t /\ Fresh t.
  Proof.
    intros [cp u g' v Hc Hf]. destruct (compound_flat c cp u Hc) as [Fc Fr]. destruct (further_flat g' v Hf) as [Ff Fo]. cbn [concat]. rewrite map_app.
    split; [exact (flat_app _ _ _ _ Fc Ff Fo) | exact (fresh_app u v Fr)].
  Qed.
  Lemma more_flat gs u : More Inner gs u -> Flat (all_rules gs) u /\ Follow u.
  Proof.
    unfold all_rules. induction 1 as [|w g t gs u Hw Hg _ [IH F]]; [split; [constructor | reflexivity]|]. destruct (group_flat _ g t Hg) as [Ft Fr].
    split; [|exact (splits_follow w _ (comma_splits w Hw))]. cbn [concat]. rewrite concat_app, map_app.
    apply FL_split; [exact (comma_splits w Hw) | exact (fresh_app t u Fr) | exact (flat_app _ _ _ _ Ft IH F)].
  Qed.
  Lemma body_flat c gs t : Body Inner c gs t -> Flat (all_rules gs) t /\ Fresh t.
  Proof.
    intros [g u gs' v Hg Hm]. destruct (group_flat c g u Hg) as [Fg Fr]. destruct (more_flat gs' v Hm) as [Fm Fo].
    split; [|exact (fresh_app u v Fr)]. unfold all_rules in *. cbn [concat]. rewrite concat_app, map_app. exact (flat_app _ _ _ _ Fg Fm Fo).
  Qed.
  Lemma inside_flat gs t : Inside Inner gs t -> Flat (all_rules gs) t /\ nested_last gs = true /\ t <> [] /\ heads is_unicode_ws t = false.
  Proof.
    intros [gs' u Hb Hn | c s w gs' u Hs Hw Hb Hn].
    - destruct (body_flat _ gs' u Hb) as [F (F1 & F2 & F3)]. repeat split; assumption.
    - destruct (body_flat _ gs' u Hb) as [F Fr]. split; [|split; [exact Hn | split; [discriminate | destruct Hs; reflexivity]]].
      change (s :: w ++ u) with ((s :: w) ++ u). apply FL_split; [apply (SP_sign [] s w); [constructor | destruct Hs; reflexivity | exact Hw] | exact Fr | exact F].
  Qed.
  (** With the white space behind it, the text inside a nested pseudo class is a whole text. *)
  Lemma inside_whole gs t w : Inside Inner gs t -> Blank w -> Whole Inner gs (t ++ w).
  Proof.
    intros [gs' u Hb _ | c s v gs' u Hs Hv Hb _] Hw.
    - exact (WH Inner ChildrenAll [] gs' u w (LE_blank [] (Forall_nil _)) Hb Hw).
    - change ((s :: v ++ u) ++ w) with (s :: (v ++ u) ++ w). rewrite <- app_assoc.
      exact (WH Inner c ([] ++ s :: v) gs' u w (LE_sign c s [] v Hs (Forall_nil _) Hv) Hb Hw).
  Qed.
End Heads.

Section Proofs.
  Variable wide_digit : char -> bool.
  Notation exec := (exec wide_digit).
  Notation exec_queues := (exec_queues wide_digit).
  Notation first_rule := (first_rule wide_digit).
  Notation parse_until := (parse_until wide_digit).
  Notation from_loop := (from_loop wide_digit).

  Lemma rtext_complete Inner r t rest : RText Inner r t -> is_nested r = false -> Follow rest -> Complete wide_digit r t rest.
  Proof.
    intros [ |n u H|n u H|n u H|w1 k w2 a u w3 H1 Hk H2 Ha H3|r' u H|mk name w1 a b u w2 Hn H1 Ht H2 Ra Rb|w1 q v w2 H1 Hq Hv H2|w1 v w2 H1 Hv H2|mk name w1 gs u w2 H _ _ _] Hi Hf.
    - apply tok_all.
    - apply tok_name; assumption.
    - apply tok_class; assumption.
    - apply tok_id; assumption.
    - apply tok_attr; assumption.
    - apply tok_pseudo; assumption.
    - apply tok_nth; assumption.
    - apply tok_contains_quoted; assumption.
    - apply tok_contains_bare; assumption.
    - destruct H; discriminate.
  Qed.

  (** * Splitters *)
  Lemma split_none s : heads is_unicode_ws s = false -> heads is_op s = false -> exec_queues splitter s = Ok None.
  Proof. intros H1 H2. apply queues_none. cbn [Parse.pat_matched]. rewrite (splitter_none s H1 H2). reflexivity. Qed.
  Lemma splits_some w u : Splits w -> heads is_unicode_ws u = false -> heads is_op u = false ->
    exists c, exec_queues splitter (w ++ u) = Ok (Some ([mkMatched w 0 c None None], length w, 1)).
  Proof.
    intros Hw H1 H2.
    assert (E : exists c, re_exec re_splitter (w ++ u) = Some (w, c)).
    { destruct Hw as [w' Hw Hn | w1 o w2 Hw1 Ho Hw2]; [apply splitter_blank | apply splitter_sign]; assumption. }
    destruct E as (c & E). exists c. apply queues_some.
    - pose proof (exec_step wide_digit (PRegex re_splitter) [] w u (mkMatched w 0 c None None) [] 0 0) as G. rewrite Nat.add_0_r in G. apply G.
      + cbn [Parse.pat_matched]. rewrite E. reflexivity.
      + unfold m_len. cbn. lia.
      + reflexivity.
    - destruct Hw as [w' Hw Hn | w1 o w2 Hw1 Ho Hw2]; [destruct w'; [congruence | cbn; lia] | rewrite app_length; cbn; lia].
  Qed.

  (** * Nested texts *)
  Notation until := [PSpaces; rparen].
  Definition PU (chars : str) (top : bool) (i : nat) (Y : res (option (nat * list matched))) : Prop :=
    forall f, length (skipn i chars) < f -> parse_until f chars until top i = Y.

  Lemma skipn_more {A} i (l w r : list A) : skipn i l = w ++ r -> skipn (i + length w) l = r.
  Proof.
    revert l. induction i as [|i IH]; intros l E; cbn [Nat.add].
    - cbn in E. subst l. apply skipn_pre.
    - destruct l as [|x l]; [|exact (IH l E)]. cbn in E. destruct w; [|discriminate]. exact E.
  Qed.
  Lemma pu_split (chars : str) top i (w u : str) Y : skipn i chars = w ++ u -> Splits w -> heads is_unicode_ws u = false -> heads is_op u = false ->
    PU chars top (i + length w) Y -> PU chars top i Y.
  Proof.
    intros E Hw H1 H2 G f Hf. destruct f as [|f]; [lia|]. cbn [Parse.parse_until]. rewrite E.
    destruct (splits_some w u Hw H1 H2) as (c & Es). assert (Hn : w <> []) by (destruct Hw as [w' _ Hn | w1 o w2 _ _ _]; [exact Hn | destruct w1; discriminate]).
    destruct w as [|x w]; [congruence|]. cbn [app] in *. rewrite Es. cbn [rbind]. apply G. rewrite (skipn_more i chars (x :: w) u E). rewrite E in Hf. cbn in Hf. rewrite app_length in Hf. lia.
  Qed.
  Lemma pu_rule (chars : str) top i r (t u : str) Y : skipn i chars = t ++ u -> Fresh (t ++ u) -> Complete wide_digit r t u ->
    PU chars top (i + length t) Y -> PU chars top i Y.
  Proof.
    intros E (Hn & H1 & H2) (k & qs & ms & Ef & _) G f Hf. destruct f as [|f]; [lia|]. cbn [Parse.parse_until]. rewrite E.
    rewrite (split_none _ H1 H2), Ef.
    assert (Ht : t <> []).
    { intros ->. cbn [app] in Ef. clear - Ef. revert Ef. induction rules as [|[k' qs'] rs IH]; cbn [Parse.first_rule]; [discriminate|].
      unfold Parse.exec_queues. destruct (Parse.exec wide_digit qs' u) as [[[ms' l] n]| |]; cbn [rbind]; [|discriminate..].
      destruct (0 <? l) eqn:El; [|exact IH]. intros H. injection H as -> -> -> -> _. discriminate. }
    destruct (t ++ u) as [|x v] eqn:Ex; [congruence|]. cbn [rbind]. rewrite Nat.eqb_refl. cbn [rbind]. apply G.
    rewrite E in Hf. rewrite (skipn_more i chars t u) by congruence. rewrite <- Ex, app_length in Hf. destruct t; [congruence|]. cbn in Hf. slia.
  Qed.
  Lemma paren_none rest : first_rule rules ([41%N] ++ rest) = Ok None.
  Proof.
    unfold rules, q_nth, q_nested. repeat first [ rewrite rule_skip_vec by reflexivity
      | rewrite (rule_skip wide_digit KName) by (apply queues_none, pm_identity_none; [reflexivity | reflexivity | discriminate]) ].
    rewrite rule_skip; [reflexivity | apply queues_none; reflexivity].
  Qed.
  Lemma until_exec (w rest : str) : Spaces w -> exec until (w ++ [41%N] ++ rest) = Ok ([plain w; plain [41%N]], length w + 1, 2).
  Proof.
    intros Hw. apply exec_step; [apply pm_spaces; [exact Hw | reflexivity] | unfold m_len; cbn; lia |].
    exact (exec_step wide_digit _ [] [41%N] rest (plain [41%N]) [] 0 0 (pm_char wide_digit 41%N rest) eq_refl eq_refl).
  Qed.

  (** From [i] the walk ends behind the closing parenthesis; the text kept ends at [j] or behind the white space that follows. *)
  Definition EndsAt (chars : str) (top : bool) (i j : nat) (w : str) : Prop := exists k ms, (k = 0 \/ k = length w) /\
    PU chars top i (Ok (Some (j + length w + 1, if top then plain (firstn (j + k) chars) :: ms else []))).

  Lemma ends_paren (chars : str) top i (w rest : str) : skipn i chars = w ++ [41%N] ++ rest -> Spaces w -> EndsAt chars top i i w.
  Proof.
    intros E Hw.
    assert (P : forall i w, skipn i chars = w ++ [41%N] ++ rest -> w = [] -> PU chars top i (Ok (Some (i + 1, if top then plain (firstn i chars) :: [plain []; plain [41%N]] else [])))).
    { clear i w E Hw. intros i w E -> f Hf. destruct f as [|f]; [lia|]. cbn [Parse.parse_until]. rewrite E. cbn [app].
      rewrite split_none by reflexivity. cbn [rbind]. change (41%N :: rest) with ([41%N] ++ rest). rewrite paren_none. cbn [rbind nonempty].
      pose proof (until_exec [] rest (Forall_nil _)) as U. cbn [app] in U, E. rewrite E, U. destruct top; reflexivity. }
    destruct w as [|x w].
    - exists 0, [plain []; plain [41%N]]. split; [left; reflexivity|]. cbn [length]. rewrite Nat.add_0_r. exact (P i [] E eq_refl).
    - exists (length (x :: w)), [plain []; plain [41%N]]. split; [right; reflexivity|].
      apply (pu_split chars top i (x :: w) ([41%N] ++ rest)); [exact E | constructor; [exact (spaces_blank _ Hw) | discriminate] | reflexivity | reflexivity |].
      apply (P _ []); [|reflexivity]. exact (skipn_more i chars (x :: w) _ E).
  Qed.

  (** What is needed of the texts one level down. *)
  Definition Walks (Inner : ast -> str -> Prop) : Prop := forall gs (t w rest chars : str) top i, Inner gs t -> Spaces w -> skipn i chars = t ++ w ++ [41%N] ++ rest ->
    EndsAt chars top i (i + length t) w.
  Definition Tight (Inner : ast -> str -> Prop) : Prop := forall gs t, Inner gs t -> t <> [] /\ heads is_unicode_ws t = false.

  Lemma ws_heads s : heads is_unicode_ws s = false -> heads is_ascii_ws s = false.
  Proof. destruct s as [|c s]; [reflexivity|]. cbn. intros H. destruct (is_ascii_ws c) eqn:E; [|reflexivity]. rewrite (ascii_unicode_ws c E) in H. discriminate. Qed.

  Lemma ends_nested Inner r (t w rest chars : str) top i : Walks Inner -> Tight Inner -> RText Inner r t -> is_nested r = true -> Spaces w ->
    skipn i chars = t ++ w ++ [41%N] ++ rest -> EndsAt chars top i (i + length t) w.
  Proof.
    intros HW HT Hr Hn Hw E.
    assert (Hfr : Fresh (t ++ w ++ [41%N] ++ rest)) by exact (rtext_fresh Inner r t _ Hr).
    assert (N : exists mk name w1 gs u w2, NestName mk name /\ Spaces w1 /\ Inner gs u /\ Spaces w2 /\ t = name ++ w1 ++ u ++ w2 ++ [41%N]).
    { destruct Hr as [ |n u H|n u H|n u H|w1 k w2 a u w3 H1 Hk H2 Ha H3|r' u H|mk name w1 a b u w2 H H1 Ht H2 Ra Rb|w1 q v w2 H1 Hq Hv H2|w1 v w2 H1 Hv H2|mk name w1 gs u w2 H H1 H2 H3]; try discriminate.
      - cbn [In plain_pseudos] in H. repeat (destruct H as [H | H]; [injection H as <- <-; discriminate|]). destruct H.
      - destruct H; discriminate.
      - exists mk, name, w1, gs, u, w2. repeat split; assumption. }
    destruct N as (mk & name & w1 & gs & u & w2 & Hname & H1 & Hu & H2 & Et).
    destruct (HT gs u Hu) as [Hne Hws].
    assert (Hh : heads is_ascii_ws (u ++ w2 ++ [41%N] ++ w ++ [41%N] ++ rest) = false) by (rewrite heads_app by exact Hne; exact (ws_heads u Hws)).
    destruct (tok_nested wide_digit mk name w1 _ Hname H1 Hh) as (k & Ef & _).
    assert (Et' : t ++ w ++ [41%N] ++ rest = name ++ w1 ++ u ++ w2 ++ [41%N] ++ w ++ [41%N] ++ rest) by (subst t; rewrite <- !app_assoc; reflexivity).
    set (inner := u ++ w2 ++ [41%N] ++ w ++ [41%N] ++ rest) in *.
    assert (Es : skipn (i + length (name ++ w1)) chars = inner) by (apply (skipn_more i chars (name ++ w1)); rewrite E, Et', <- app_assoc; reflexivity).
    destruct (HW gs u w2 (w ++ [41%N] ++ rest) inner false 0 Hu H2 eq_refl) as (k0 & ms0 & _ & G0). cbn [Nat.add] in G0.
    assert (El : i + length (name ++ w1) + (length u + length w2 + 1) = i + length t) by (subst t; rewrite !app_length; cbn; lia).
    exists 0, [plain w; plain [41%N]]. split; [left; reflexivity|]. intros f Hf. destruct f as [|f]; [lia|]. cbn [Parse.parse_until].
    destruct Hfr as (F0 & F1 & F2). rewrite E in *. rewrite (split_none _ F1 F2).
    destruct (t ++ w ++ [41%N] ++ rest) as [|x v] eqn:Ex; [congruence|]. cbn [rbind]. rewrite Et', Ef. cbn [rbind].
    change (Nat.eqb 2 (length (q_nested name))) with false. cbn iota. rewrite Es.
    change (skipn 3 (q_nested name)) with until.
    rewrite G0.
    2: { cbn [skipn]. rewrite Et' in Hf. rewrite !app_length in Hf. fold inner in Hf. destruct Hname; cbn in Hf; lia. }
    cbn [rbind]. rewrite El. cbn [nonempty]. rewrite (skipn_more i chars t (w ++ [41%N] ++ rest)) by congruence.
    rewrite (until_exec w rest Hw). cbn [rbind length Nat.eqb negb]. rewrite Nat.add_0_r. rewrite Nat.add_assoc. destruct top; reflexivity.
  Qed.

  Lemma flat_walk Inner rs t : Walks Inner -> Tight Inner -> Flat Inner rs t -> forallb (fun r => negb (is_nested r)) (removelast rs) = true ->
    forall (w rest chars : str) top i, Spaces w -> skipn i chars = t ++ w ++ [41%N] ++ rest -> EndsAt chars top i (i + length t) w.
  Proof.
    intros HW HT H. induction H as [|r t rs u Hr Hf Hfl IH|v rs u Hv Hu Hfl IH]; intros Hn w rest chars top i Hw E.
    - rewrite Nat.add_0_r. exact (ends_paren chars top i w rest E Hw).
    - assert (Fw : Follow (w ++ [41%N] ++ rest)).
      { apply heads_blank_app; [exact ws_not_id | exact (spaces_blank w Hw) | reflexivity]. }
      destruct (is_nested r) eqn:Er.
      + assert (rs = []) by (destruct rs as [|r' rs]; [reflexivity|]; cbn [removelast forallb] in Hn; rewrite Er in Hn; discriminate). subst rs.
        assert (u = []).
        { clear - Hfl. remember [] as rs eqn:Ers in Hfl. induction Hfl as [|r t rs u _ _ _ _|v rs u _ Hu _ IH]; [reflexivity | discriminate|].
          destruct Hu as (Hu & _). elim Hu. exact (IH Ers). }
        subst u. rewrite app_nil_r in *. exact (ends_nested Inner r t w rest chars top i HW HT Hr Er Hw E).
      + rewrite <- app_assoc in E.
        assert (Hn' : forallb (fun r => negb (is_nested r)) (removelast rs) = true).
        { destruct rs as [|r' rs]; [reflexivity|]. cbn [removelast forallb] in Hn. apply andb_true_iff in Hn. apply Hn. }
        pose proof (IH Hn' w rest chars top (i + length t) Hw (skipn_more i chars t _ E)) as (k & ms & Hk & G).
        exists k, ms. split; [exact Hk|]. rewrite app_length, Nat.add_assoc.
        apply (pu_rule chars top i r t (u ++ w ++ [41%N] ++ rest)); [exact E | exact (rtext_fresh Inner r t _ Hr) | | exact G].
        exact (rtext_complete Inner r t _ Hr Er (follow_app u _ Hf Fw)).
    - rewrite <- app_assoc in E.
      pose proof (IH Hn w rest chars top (i + length v) Hw (skipn_more i chars v _ E)) as (k & ms & Hk & G).
      exists k, ms. split; [exact Hk|]. rewrite app_length, Nat.add_assoc. destruct (fresh_app u (w ++ [41%N] ++ rest) Hu) as (_ & U1 & U2).
      exact (pu_split chars top i v (u ++ w ++ [41%N] ++ rest) _ E Hv U1 U2 G).
  Qed.
  Lemma inner_tight n : Tight (inner n).
  Proof. destruct n as [|n]; [intros gs t [] |]. intros gs t H. destruct (inside_flat (inner n) gs t H) as (_ & _ & H1 & H2). split; assumption. Qed.
  Lemma inner_walks n : Walks (inner n).
  Proof.
    induction n as [|n IH]; [intros gs t w rest chars top i [] |]. intros gs t w rest chars top i H Hw E.
    destruct (inside_flat (inner n) gs t H) as (F & Hn & _ & _). exact (flat_walk (inner n) _ t IH (inner_tight n) F Hn w rest chars top i Hw E).
  Qed.

  (** * The main loop *)
  Definition Goes (s : str) (G : ast) (cb : comb) (prev last : prev_in) (X : res (option ast)) : Prop :=
    forall f, length s < f -> from_loop f s G cb prev last = X.
  Definition next_comb (prev : prev_in) (cb : comb) : comb := if prev_eqb prev PSelector then Chain else cb.
  Definition Parsed (gs : ast) (t : str) : Prop := Goes t [[]] ChildrenAll PBegin PBegin (Ok (Some gs)).

  Lemma goes_complete r t rest G cb prev last X : Fresh (t ++ rest) -> t <> [] -> Complete wide_digit r t rest ->
    Goes rest (add_group_item G (r, next_comb prev cb) (negb (prev_eqb prev PSelector))) (next_comb prev cb) PSelector PSelector X ->
    Goes (t ++ rest) G cb prev last X.
  Proof.
    intros (Hn & H1 & H2) Ht (k & qs & ms & Ef & Hm) HG f Hf. destruct f as [|f]; [lia|]. cbn [Parse.from_loop]. rewrite (split_none _ H1 H2), Ef.
    assert (L : length rest < f) by (rewrite app_length in Hf; destruct t; [congruence | cbn in Hf; slia]).
    assert (S : skipn (length t) (t ++ rest) = rest) by apply skipn_pre.
    destruct (t ++ rest) as [|x v]; [congruence|]. cbn [rbind]. rewrite Nat.eqb_refl, Hm. cbn [rbind]. rewrite S.
    specialize (HG f L). unfold next_comb in HG. destruct (prev_eqb prev PSelector); exact HG.
  Qed.
  Lemma goes_nested mk name w1 u w2 rest n gs G cb prev last X : NestName mk name -> Spaces w1 -> inner (S n) gs u -> Spaces w2 ->
    (forall w, Blank w -> Parsed gs (u ++ w)) ->
    Goes rest (add_group_item G (mk (NSel gs), next_comb prev cb) (negb (prev_eqb prev PSelector))) (next_comb prev cb) PSelector PSelector X ->
    Goes ((name ++ w1 ++ u ++ w2 ++ [41%N]) ++ rest) G cb prev last X.
  Proof.
    intros Hname H1 Hu H2 HP HG f Hf. destruct f as [|f]; [lia|].
    destruct (inner_tight (S n) gs u Hu) as [Hne Hws].
    set (own := u ++ w2 ++ [41%N] ++ rest).
    assert (Et : (name ++ w1 ++ u ++ w2 ++ [41%N]) ++ rest = name ++ w1 ++ own) by (unfold own; rewrite <- !app_assoc; reflexivity).
    assert (Hh : heads is_ascii_ws own = false) by (unfold own; rewrite heads_app by exact Hne; exact (ws_heads u Hws)).
    destruct (tok_nested wide_digit mk name w1 own Hname H1 Hh) as (k & Ef & Hm).
    destruct (inner_walks (S n) gs u w2 rest own true 0 Hu H2 eq_refl) as (k0 & ms0 & Hk & G0). cbn [Nat.add] in G0.
    assert (Ho : exists w, Blank w /\ length w <= length w2 /\ firstn (length u + k0) own = u ++ w).
    { destruct Hk as [-> | ->].
      - exists []. split; [constructor|]. split; [cbn; lia|]. unfold own. rewrite Nat.add_0_r, app_nil_r, firstn_app, firstn_all, Nat.sub_diag. apply app_nil_r.
      - exists w2. split; [exact (spaces_blank w2 H2)|]. split; [lia|]. unfold own. rewrite app_assoc, <- app_length, firstn_app, firstn_all, Nat.sub_diag. apply app_nil_r. }
    destruct Ho as (w & Hw & Lw & Eo). rewrite Eo in G0.
    rewrite Et in *. cbn [Parse.from_loop].
    assert (Hs : exec_queues splitter (name ++ w1 ++ own) = Ok None) by (apply split_none; destruct Hname; reflexivity). rewrite Hs, Ef.
    assert (S : skipn (length (name ++ w1)) (name ++ w1 ++ own) = own) by (rewrite app_assoc; apply skipn_pre).
    assert (L : length own + 5 <= f) by (rewrite !app_length in Hf; destruct Hname; cbn in Hf; lia).
    assert (Hx : name ++ w1 ++ own <> []) by (destruct Hname; discriminate).
    destruct (name ++ w1 ++ own) as [|x v]; [congruence|]. cbn [rbind].
    change (Nat.eqb 2 (length (q_nested name))) with false. cbn iota. change (nth_error (q_nested name) 2) with (Some PNested). cbn iota. rewrite S.
    change (skipn 3 (q_nested name)) with until. rewrite G0 by (cbn [skipn]; lia). cbn [rbind]. rewrite Hm.
    assert (Lo : length (u ++ w) < f) by (unfold own in L; rewrite !app_length in *; cbn in L; slia).
    destruct (u ++ w) as [|y z] eqn:Euw; [destruct u; [congruence | discriminate]|]. rewrite <- Euw in *.
    rewrite (HP w Hw f Lo). cbn [rbind].
    replace (skipn (length u + length w2 + 1) own) with rest.
    2: { unfold own. rewrite <- Nat.add_assoc. rewrite (app_assoc w2), (app_assoc u). symmetry.
         replace (length u + (length w2 + 1)) with (length (u ++ w2 ++ [41%N])) by (rewrite !app_length; reflexivity). apply skipn_pre. }
    assert (Lr : length rest < f) by (unfold own in L; rewrite !app_length in L; slia).
    specialize (HG f Lr). unfold next_comb in HG. destruct (prev_eqb prev PSelector); exact HG.
  Qed.

  (** One level: the texts one level down are parsed. *)
  Section Level.
    Variable n : nat.
    Hypothesis below : forall gs u w, inner n gs u -> Blank w -> Parsed gs (u ++ w).
    Notation RText := (RText (inner n)).

    Lemma goes_rule r t rest G cb prev last X : RText r t -> Follow rest ->
      Goes rest (add_group_item G (r, next_comb prev cb) (negb (prev_eqb prev PSelector))) (next_comb prev cb) PSelector PSelector X ->
      Goes (t ++ rest) G cb prev last X.
    Proof.
      intros Hr Hf HG. destruct (is_nested r) eqn:Er.
      - destruct Hr as [ |m u H|m u H|m u H|w1 k w2 a u w3 H1 Hk H2 Ha H3|r' u H|mk name w1 a b u w2 H H1 Ht H2 Ra Rb|w1 q v w2 H1 Hq Hv H2|w1 v w2 H1 Hv H2|mk name w1 gs u w2 H H1 H2 H3]; try discriminate.
        + cbn [In plain_pseudos] in H. exfalso. repeat (destruct H as [H | H]; [injection H as <- <-; discriminate|]). destruct H.
        + destruct H; discriminate.
        + destruct n as [|m]; [destruct H2|]. apply (goes_nested mk name w1 u w2 rest m gs); [assumption.. | | exact HG]. intros w Hw. exact (below gs u w H2 Hw).
      - apply (goes_complete r); [exact (rtext_fresh _ r t rest Hr) | exact (rtext_nonempty _ r t Hr) | exact (rtext_complete _ r t rest Hr Er Hf) | exact HG].
    Qed.

    Lemma on_last_snoc {A} (f : A -> A) l x : on_last f (l ++ [x]) = l ++ [f x].
    Proof. unfold on_last. rewrite rev_app_distr. cbn. rewrite rev_involutive. reflexivity. Qed.
    Lemma add_chain gs g cp it : add_group_item (gs ++ [g ++ [cp]]) it false = gs ++ [g ++ [cp ++ [it]]].
    Proof. unfold add_group_item. rewrite on_last_snoc, on_last_snoc. reflexivity. Qed.
    Lemma add_new gs g it : add_group_item (gs ++ [g]) it true = gs ++ [g ++ [[it]]].
    Proof. unfold add_group_item. rewrite on_last_snoc. reflexivity. Qed.

    Definition Then (s : str) (G : ast) (X : res (option ast)) : Prop := forall cb, Goes s G cb PSelector PSelector X.
    Lemma goes_chained rs u rest gs g cp X : Chained (inner n) rs u -> Follow rest ->
      Then rest (gs ++ [g ++ [cp ++ rs]]) X -> Then (u ++ rest) (gs ++ [g ++ [cp]]) X.
    Proof.
      intros H. revert cp. induction H as [|r t rs u Hr Hh Hc IH]; intros cp Hf HG.
      - rewrite app_nil_r in HG. exact HG.
      - intros cb. rewrite <- app_assoc. destruct (chained_flat _ rs u Hc) as [_ Fu]. apply (goes_rule r); [exact Hr | exact (follow_app u rest Fu Hf)|].
        cbn [prev_eqb negb next_comb]. rewrite add_chain. apply IH; [exact Hf|]. rewrite <- app_assoc. exact HG.
    Qed.
    Lemma goes_compound c cp t rest gs g prev last X : Compound (inner n) c cp t -> prev <> PSelector -> Follow rest ->
      Then rest (gs ++ [g ++ [cp]]) X -> Goes (t ++ rest) (gs ++ [g]) c prev last X.
    Proof.
      intros [r u rs v Hr Hc] Hp Hf HG. rewrite <- app_assoc. destruct (chained_flat _ rs v Hc) as [_ Fv].
      apply (goes_rule r); [exact Hr | exact (follow_app v rest Fv Hf)|].
      assert (Ep : prev_eqb prev PSelector = false) by (destruct prev; [reflexivity.. | congruence]).
      unfold next_comb. rewrite Ep. cbn [negb]. rewrite add_new. apply (goes_chained rs v); [exact Hc | exact Hf | exact HG].
    Qed.

    (** Splitters. *)
    Lemma trim_blank w : Blank w -> trim w = [].
    Proof. intros H. unfold trim. assert (E : drop_ws w = []) by (induction H as [|c w Hc _ IH]; [reflexivity | cbn; rewrite Hc; exact IH]). rewrite E. reflexivity. Qed.
    Lemma drop_blank w c r : Blank w -> is_unicode_ws c = false -> drop_ws (w ++ c :: r) = c :: r.
    Proof. intros H Hc. induction H as [|d w Hd _ IH]; cbn [app drop_ws]; [rewrite Hc; reflexivity | rewrite Hd; exact IH]. Qed.
    Lemma trim_sign w1 c w2 : Blank w1 -> is_unicode_ws c = false -> Blank w2 -> trim (w1 ++ c :: w2) = [c].
    Proof.
      intros H1 Hc H2. unfold trim. rewrite (drop_blank w1 c w2 H1 Hc). cbn [rev].
      rewrite (drop_blank (rev w2) c []); [reflexivity | apply Forall_rev, H2 | exact Hc].
    Qed.
    Lemma goes_split w rest G cb prev last X : Splits w -> prev <> PSplitter -> Fresh rest ->
      (if str_eqb (trim w) [44%N] then prev = PSelector /\ Goes rest (add_group G) ChildrenAll PSplitter PSplitter X
       else exists c, comb_from (trim w) = Ok c /\ Goes rest G c PSplitter (if nonempty (trim w) then PSplitter else prev) X) ->
      Goes (w ++ rest) G cb prev last X.
    Proof.
      intros Hw Hp (Hn & H1 & H2) HG f Hf. destruct f as [|f]; [lia|]. destruct (splits_some w rest Hw H1 H2) as (c & Es).
      cbn [Parse.from_loop]. rewrite Es.
      assert (Hwn : w <> []) by (destruct Hw as [w' _ Hn' | w1 o w2 _ _ _]; [exact Hn' | destruct w1; discriminate]).
      assert (L : length rest < f) by (rewrite app_length in Hf; destruct w; [congruence | cbn in Hf; slia]).
      assert (S : skipn (length w) (w ++ rest) = rest) by apply skipn_pre.
      assert (Hx : w ++ rest <> []) by (destruct w; [congruence | discriminate]).
      destruct (w ++ rest) as [|x v]; [congruence|]. cbn [rbind rnth nth_error m_chars]. rewrite S.
      assert (Ep : prev_eqb prev PSplitter = false) by (destruct prev; [reflexivity | congruence | reflexivity]). rewrite Ep.
      destruct (str_eqb (trim w) [44%N]).
      - destruct HG as [-> HG]. cbn [prev_eqb negb]. exact (HG f L).
      - destruct HG as (c' & Ec & HG). rewrite Ec. cbn [rbind]. exact (HG f L).
    Qed.
    Lemma goes_comb c w rest G cb prev last X : CombText c w -> prev <> PSplitter -> Fresh rest ->
      (forall l, Goes rest G c PSplitter l X) -> Goes (w ++ rest) G cb prev last X.
    Proof.
      intros Hc Hp Hr HG. apply goes_split; [exact (comb_splits c w Hc) | exact Hp | exact Hr |].
      destruct Hc as [w' Hw Hn | c' s w1 w2 Hs H1 H2].
      - rewrite (trim_blank w' Hw). cbn. exists ChildrenAll. split; [reflexivity | apply HG].
      - rewrite (trim_sign w1 s w2 H1) by (destruct Hs; reflexivity || exact H2). destruct Hs; (eexists; split; [reflexivity | apply HG]).
    Qed.
    Lemma goes_comma w rest G cb last X : CommaText w -> Fresh rest -> Goes rest (add_group G) ChildrenAll PSplitter PSplitter X ->
      Goes (w ++ rest) G cb PSelector last X.
    Proof.
      intros Hw Hr HG. apply goes_split; [exact (comma_splits w Hw) | discriminate | exact Hr |]. destruct Hw as [w1 w2 H1 H2].
      pose proof (trim_sign w1 44%N w2 H1 eq_refl H2) as T. unfold str, char in *. rewrite T. cbn. split; [reflexivity | exact HG].
    Qed.
    Lemma goes_further fs u rest gs g cp X : Further (inner n) fs u -> Follow rest ->
      Then rest (gs ++ [(g ++ [cp]) ++ fs]) X -> Then (u ++ rest) (gs ++ [g ++ [cp]]) X.
    Proof.
      intros H. revert g cp. induction H as [|c w cp' t fs u Hw Hcp Hfu IH]; intros g cp Hf HG.
      - rewrite app_nil_r in HG. exact HG.
      - intros cb. rewrite <- !app_assoc. destruct (compound_flat _ c cp' t Hcp) as [_ Ft]. destruct (further_flat _ fs u Hfu) as [_ Fu].
        apply (goes_comb c); [exact Hw | discriminate | exact (fresh_app t _ Ft) |]. intros l.
        apply (goes_compound c cp' t); [exact Hcp | discriminate | exact (follow_app u rest Fu Hf) |].
        apply IH; [exact Hf|]. rewrite <- app_assoc. exact HG.
    Qed.
    Lemma goes_group c g t rest gs prev last X : Group (inner n) c g t -> prev <> PSelector -> Follow rest ->
      Then rest (gs ++ [g]) X -> Goes (t ++ rest) (gs ++ [[]]) c prev last X.
    Proof.
      intros [cp u fs v Hc Hfu] Hp Hf HG. rewrite <- app_assoc. destruct (further_flat _ fs v Hfu) as [_ Fv].
      apply (goes_compound c cp u); [exact Hc | exact Hp | exact (follow_app v rest Fv Hf) |].
      apply (goes_further fs v); [exact Hfu | exact Hf | exact HG].
    Qed.
    Lemma goes_more ms u rest gs X : More (inner n) ms u -> Follow rest -> Then rest (gs ++ ms) X -> Then (u ++ rest) gs X.
    Proof.
      intros H. revert gs. induction H as [|w g t ms u Hw Hg Hm IH]; intros gs Hf HG.
      - rewrite app_nil_r in HG. exact HG.
      - intros cb. rewrite <- !app_assoc. destruct (group_flat _ _ g t Hg) as [_ Fg]. destruct (more_flat _ ms u Hm) as [_ Fm].
        apply goes_comma; [exact Hw | exact (fresh_app t _ Fg) |]. unfold add_group.
        apply (goes_group ChildrenAll g t); [exact Hg | discriminate | exact (follow_app u rest Fm Hf) |].
        apply IH; [exact Hf|]. rewrite <- app_assoc. exact HG.
    Qed.
    Lemma goes_body c gs t rest prev last X : Body (inner n) c gs t -> prev <> PSelector -> Follow rest -> Then rest gs X ->
      Goes (t ++ rest) [[]] c prev last X.
    Proof.
      intros [g u ms v Hg Hm] Hp Hf HG. rewrite <- app_assoc. destruct (more_flat _ ms v Hm) as [_ Fm].
      apply (goes_group c g u (v ++ rest) []); [exact Hg | exact Hp | exact (follow_app v rest Fm Hf) |].
      apply (goes_more ms v rest [g]); [exact Hm | exact Hf | exact HG].
    Qed.
    Lemma goes_end w G : Blank w -> Then w G (Ok (Some G)).
    Proof.
      intros Hw cb f Hf. destruct w as [|x w]; [destruct f as [|f]; [lia | reflexivity]|].
      destruct f as [|f]; [lia|]. destruct (splits_some (x :: w) [] (SP_blank _ Hw ltac:(discriminate)) eq_refl eq_refl) as (c & Es). rewrite app_nil_r in Es.
      cbn [Parse.from_loop]. rewrite Es. cbn [rbind rnth nth_error m_chars prev_eqb]. rewrite (trim_blank _ Hw). cbn [str_eqb nonempty comb_from rbind].
      rewrite skipn_all. destruct f as [|f]; [cbn in Hf; lia|]. reflexivity.
    Qed.
    Lemma goes_whole gs t : Whole (inner n) gs t -> Parsed gs t.
    Proof.
      intros [c l gs' u w Hl Hb Hw].
      assert (Fw : Follow w) by (destruct Hw as [|x w Hx]; [reflexivity | exact (ws_not_id x Hx)]).
      destruct (body_flat _ c gs' u Hb) as [_ Fb].
      assert (HB : forall prev last, prev <> PSelector -> Goes (u ++ w) [[]] c prev last (Ok (Some gs'))).
      { intros prev last Hp. apply (goes_body c gs' u); [exact Hb | exact Hp | exact Fw | exact (goes_end w gs' Hw)]. }
      destruct Hl as [v Hv | c s w1 w2 Hs H1 H2].
      - destruct v as [|x v]; [apply HB; discriminate|].
        apply (goes_comb ChildrenAll (x :: v)); [constructor; [exact Hv | discriminate] | discriminate | exact (fresh_app u w Fb) |]. intros l. apply HB. discriminate.
      - apply (goes_comb c); [constructor; assumption | discriminate | exact (fresh_app u w Fb) |]. intros l. apply HB. discriminate.
    Qed.
  End Level.

  Lemma reads_parsed n gs t : Reads n gs t -> Parsed gs t.
  Proof.
    revert gs t. induction n as [|n IH]; intros gs t H.
    - apply (goes_whole 0); [|exact H]. intros gs' u w [].
    - apply (goes_whole (S n)); [|exact H]. intros gs' u w Hu Hw. apply IH. exact (inside_whole _ gs' u w Hu Hw).
  Qed.
  Theorem from_str_reads n gs t : Reads n gs t -> from_str wide_digit t = Ok (Some gs).
  Proof.
    intros H. pose proof (reads_parsed n gs t H (S (length t)) (Nat.lt_succ_diag_r _)) as E. unfold from_str. destruct t as [|c t]; [|exact E].
    cbn in E. discriminate.
  Qed.
End Proofs.
