(** Texts that can be run: what the parser makes of a text is [Runnable] but for formulas and nested panics. *)
From Verif Require Import Base Utils Nth NthSpec Dom DomSpec Order OrderSpec Sets Engine Rules Regex RegexProofs Parse PatProofs NthText TokenProofs ParseSpec ParseProofs ParseTotal ParsePanic
  SelSpec FindSpec TotalSpec SelBool Total.

Definition harmless (rl : rule) : Prop :=
  match rl with RNthChild _ _ | RNthOfType _ _ | RNot _ | RHas _ => False | _ => True end.

Section Text.
  Variable h : heap.
  Variable r : id.

  Lemma wf_groups (gs : ast) : forallb group_wf gs = true -> forallb (forallb comp_wf) gs = true.
  Proof.
    intros H. rewrite forallb_forall in *. intros g Hg. specialize (H g Hg). unfold group_wf in H. apply andb_true_iff in H. exact (proj2 H).
  Qed.
  Lemma alias_runs a : In a [alias_header; alias_input; alias_submit] -> Runnable h r a.
  Proof. intros [<- | [<- | [<- | []]]]; (split; [reflexivity | cbn; tauto]). Qed.
  Definition fits (rl : rule) : Prop :=
    match rl with RNthChild _ f | RNthOfType _ f => NthOk h r f | RNot NPanic | RHas NPanic => False | _ => True end.
  Lemma shape_runs : forall rl, RuleShape rl -> fits rl -> (forall rl', Occurs rl' (match rl with RNot (NSel gs) | RHas (NSel gs) => gs | _ => [] end) -> fits rl') -> Runnable h r rl.
  Proof.
    apply (rule_sub_ind (fun rl => RuleShape rl -> fits rl -> (forall rl', Occurs rl' (match rl with RNot (NSel gs) | RHas (NSel gs) => gs | _ => [] end) -> fits rl') -> Runnable h r rl)).
    intros rl IH HS HF HO.
    assert (HN : forall gs, (rl = RNot (NSel gs) \/ rl = RHas (NSel gs)) -> NestedShape (NSel gs) -> forallb (forallb comp_wf) gs = true /\
      fold_right and True (map (fun g => fold_right and True (map (fun cp => fold_right and True (map (fun e : rule * comb => let '(r', _) := e in Runnable h r r') cp)) g)) gs)).
    { intros gs Hrl Hn. inversion Hn as [gs' Hw Hr | |]; subst gs'. split; [exact (wf_groups gs (proj1 Hw))|].
      apply fold_and_in. intros g Hg. apply fold_and_in. intros cp Hc. apply fold_and_in. intros [rl' c] Hi.
      assert (Ho : forall x, Occurs x gs -> fits x) by (intros x Hx; apply HO; destruct Hrl as [-> | ->]; exact Hx).
      apply IH; [destruct Hrl as [-> | ->]; exists g, cp, c; auto | exact (Hr g cp rl' c Hg Hc Hi) | apply Ho; exact (Oc_here rl' gs g cp c Hg Hc Hi)|].
      intros x Hx. apply Ho. destruct rl' as [| | | | | | | | | | | | |[sub| |]| |[sub| |]| |]; try (inversion Hx; contradiction).
      - exact (Oc_nested x gs g cp c _ sub Hg Hc Hi (or_introl eq_refl) Hx).
      - exact (Oc_nested x gs g cp c _ sub Hg Hc Hi (or_intror eq_refl) Hx). }
    destruct HS as [r0 Hp | a Ha | asc f Hf | asc f Hf | n Hn | n Hn].
    - destruct r0; try contradiction; exact I.
    - exact (alias_runs a Ha).
    - exact HF.
    - exact HF.
    - destruct n as [gs| |]; [exact (HN gs (or_introl eq_refl) Hn) | exact I | exact HF].
    - destruct n as [gs| |]; [exact (HN gs (or_intror eq_refl) Hn) | exact I | exact HF].
  Qed.
  Lemma parsed_runs gs : ast_shape gs -> rules_shape gs -> Applies h r gs -> CanRun h r gs.
  Proof.
    intros HA HR HF. split; [exact (wf_groups gs (proj1 HA))|]. intros g Hg cp rl c Hc Hi. apply shape_runs; [exact (HR g cp rl c Hg Hc Hi) | exact (HF rl (Oc_here rl gs g cp c Hg Hc Hi))|].
    intros x Hx. apply HF. destruct rl as [| | | | | | | | | | | | |[sub| |]| |[sub| |]| |]; try (inversion Hx; contradiction).
    - exact (Oc_nested x gs g cp c _ sub Hg Hc Hi (or_introl eq_refl) Hx).
    - exact (Oc_nested x gs g cp c _ sub Hg Hc Hi (or_intror eq_refl) Hx).
  Qed.

  (** A text without an opening parenthesis has none of those rules. *)
  Definition harmless_all (gs : ast) : Prop := forall g cp rl c, In g gs -> In cp g -> In (rl, c) cp -> harmless rl.
  Lemma harmless_item groups rl c is_new : harmless_all groups -> harmless rl -> harmless_all (add_group_item groups (rl, c) is_new).
  Proof.
    intros H Hr g cp r' c' Hg Hcp Hin. unfold add_group_item in Hg. apply in_last_snoc in Hg. destruct Hg as [Hg | (g0 & Hg0 & ->)]; [exact (H g cp r' c' Hg Hcp Hin)|].
    destruct is_new.
    - apply in_app_iff in Hcp. destruct Hcp as [Hcp | [<- | []]]; [exact (H g0 cp r' c' Hg0 Hcp Hin)|]. destruct Hin as [E | []]. injection E as <- <-. exact Hr.
    - apply in_last_snoc in Hcp. destruct Hcp as [Hcp | (cp0 & Hcp0 & ->)]; [exact (H g0 cp r' c' Hg0 Hcp Hin)|].
      apply in_app_iff in Hin. destruct Hin as [Hin | [E | []]]; [exact (H g0 cp0 r' c' Hg0 Hcp0 Hin)|]. injection E as <- <-. exact Hr.
  Qed.
  Lemma harmless_group groups : harmless_all groups -> harmless_all (add_group groups).
  Proof. intros H g cp rl c Hg Hcp Hin. apply in_app_iff in Hg. destruct Hg as [Hg | [<- | []]]; [exact (H g cp rl c Hg Hcp Hin) | destruct Hcp]. Qed.
  Section Parens.
    Variable wide_digit : char -> bool.
    Definition paren_kind (k : kind) : Prop := match k with KNthChild _ | KNthOfType _ | KNot | KHas => True | _ => False end.
    Lemma paren_opens k qs s t : paren_kind k -> first_rule wide_digit rules s = Ok (Some (k, qs, t)) -> In 40%N s.
    Proof.
      intros Hk H. destruct t as [[ms l] n]. destruct (first_hit _ _ _ _ _ _ H) as [Hin Hq]. destruct (queues_hit _ _ _ _ _ _ Hq) as [He Hl].
      assert (N : exists name qs', In 40%N name /\ qs = PVec name :: qs').
      { unfold rules in Hin. cbn [In] in Hin.
        repeat (destruct Hin as [E | Hin]; [injection E as <- <-; first [exact (False_ind _ Hk) | eexists; eexists; split; [|reflexivity]; cbn; tauto]|]). destruct Hin. }
      destruct N as (name & qs' & HN & ->). cbn [Parse.exec Parse.pat_matched] in He. destruct (starts_with s name) eqn:Es; cbn [rbind] in He.
      - destruct (starts_with_prefix _ _ Es) as (u & ->). apply in_app_iff. left. exact HN.
      - injection He as _ <- _. lia.
    Qed.
    Lemma make_harmless parse k data rl : ~ paren_kind k -> make parse k data = Ok rl -> harmless rl.
    Proof.
      intros Hk E. destruct k; cbn [make paren_kind] in *; try tauto;
        try (injection E as <-; exact I);
        try (destruct (rnth data 1); cbn [rbind] in E; [injection E as <-; exact I | discriminate..]);
        try (destruct (rnth data 0); cbn [rbind] in E; [injection E as <-; exact I | discriminate..]).
      - unfold make_attr in E. destruct (rnth data 2); cbn [rbind] in E; [|discriminate..]. destruct (rnth data 4); cbn [rbind] in E; [|discriminate..]. injection E as <-. exact I.
      - destruct (rnth data 2) as [m| |]; cbn [rbind] in E; [|discriminate..]. unfold make_contains in E. destruct (m_chars m) as [|c cs]; [injection E as <-; exact I|].
        destruct (char_eqb c 34%N || char_eqb c 39%N); [destruct (removelast (c :: cs)); [discriminate|]|]; injection E as <-; exact I.
    Qed.
    Lemma not_in_skipn n (s : str) : ~ In 40%N s -> ~ In 40%N (skipn n s).
    Proof. intros H Hi. apply H. rewrite <- (firstn_skipn n s). apply in_app_iff. right. exact Hi. Qed.
    Lemma loop_harmless f : forall s groups cb prev last gs, ~ In 40%N s -> from_loop wide_digit f s groups cb prev last = Ok (Some gs) -> harmless_all groups -> harmless_all gs.
    Proof.
      induction f as [|f IH]; intros s groups cb prev last gs Hp H HR; [discriminate|]. rewrite loop_eq in H.
      destruct s as [|x s]; [destruct (prev_eqb last PSelector); [injection H as <-; exact HR | discriminate]|]. set (t := x :: s) in *. unfold loop_step in H.
      destruct (exec_queues wide_digit splitter t) as [[[[ms l] n]|]| |]; cbn [rbind] in H; try discriminate.
      - destruct (rnth ms 0) as [m| |]; cbn [rbind] in H; try discriminate. destruct (prev_eqb prev PSplitter); [discriminate|]. destruct (str_eqb (trim (m_chars m)) [44%N]).
        + destruct (negb (prev_eqb prev PSelector)); [discriminate|]. exact (IH _ _ _ _ _ _ (not_in_skipn _ _ Hp) H (harmless_group _ HR)).
        + destruct (comb_from (trim (m_chars m))); cbn [rbind] in H; try discriminate. exact (IH _ _ _ _ _ _ (not_in_skipn _ _ Hp) H HR).
      - destruct (first_rule wide_digit rules t) as [[[[k qs] [[ms l] n]]|]| |] eqn:E2; cbn [rbind] in H; try discriminate.
        assert (Hk : ~ paren_kind k) by (intros Hk; exact (Hp (paren_opens _ _ _ _ Hk E2))).
        destruct (Nat.eqb n (length qs)).
        + destruct (make (parse_with wide_digit f) k ms) as [rl| |] eqn:Em; cbn [rbind] in H; try discriminate.
          exact (IH _ _ _ _ _ _ (not_in_skipn _ _ Hp) H (harmless_item _ _ _ _ HR (make_harmless _ _ _ _ Hk Em))).
        + destruct (nth_error qs n) as [[]|]; try discriminate.
          match type of H with context [parse_until ?w ?a ?b ?c ?d ?e] => destruct (parse_until w a b c d e) as [[[m nested]|]| |] end; cbn [rbind] in H; try discriminate.
          destruct (make (parse_with wide_digit f) k (ms ++ nested)) as [rl| |] eqn:Em; cbn [rbind] in H; try discriminate.
          exact (IH _ _ _ _ _ _ (not_in_skipn _ _ (not_in_skipn _ _ Hp)) H (harmless_item _ _ _ _ HR (make_harmless _ _ _ _ Hk Em))).
    Qed.
    Lemma plain_applies s gs : ~ In 40%N s -> from_str wide_digit s = Ok (Some gs) -> Applies h r gs.
    Proof.
      intros Hp H. assert (HA : harmless_all gs).
      { unfold from_str in H. destruct s as [|c s]; [injection H as <-; intros g cp rl c []|]. refine (loop_harmless _ _ _ _ _ _ _ Hp H _). intros g cp rl c' [<- | []] []. }
      intros rl Ho. destruct Ho as [gs g cp c Hg Hc Hi | gs g cp c rl' sub Hg Hc Hi Hr Ho].
      - specialize (HA g cp rl c Hg Hc Hi). destruct rl; try contradiction; exact I.
      - specialize (HA g cp rl' c Hg Hc Hi). destruct Hr as [-> | ->]; contradiction.
    Qed.
  End Parens.
End Text.
