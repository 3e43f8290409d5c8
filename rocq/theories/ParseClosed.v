(** The parser on texts with [:not(] and [:has(]: when every parenthesis opened there is closed, the search for its end
    stops in front of the end of the text. *)
From Verif Require Import Base CharSpec CharProofs UtilsSpec Utils UtilsProofs Nth NthSpec NthProofs Engine Rules Regex RegexProofs Parse PatProofs NthText TokenProofs SelSpec ParseSpec ParseProofs ParseTotal ParsePanic.

Ltac aa := do 4 (rewrite <- ?app_assoc; cbn [app]); reflexivity.

Section Closed.
  Variable wide_digit : char -> bool.
  Notation pat_matched := (pat_matched wide_digit).
  Notation exec := (exec wide_digit).
  Notation exec_queues := (exec_queues wide_digit).
  Notation first_rule := (first_rule wide_digit).
  Notation parse_until := (parse_until wide_digit).
  Notation from_loop := (from_loop wide_digit).
  Variable rest : str.

  (** * Positions *)
  (** A quote comes before any parenthesis or bracket: nothing goes on behind it. *)
  Definition Dead (u : str) : Prop := exists x q z, Forall Ordinary x /\ Quote q /\ u = x ++ q :: z.
  Definition Good (k : nat) (u : str) : Prop := (exists j, k <= j /\ Closes rest (S j) u) \/ Dead u.
  Lemma good_less k u : Good (S k) u -> Good k u.
  Proof. intros [(j & Hj & H) | H]; [left; exists j; split; [lia | exact H] | right; exact H]. Qed.
  Lemma ordinary_ws c : is_unicode_ws c = true -> Ordinary c.
  Proof. intros H Hin. cbn in Hin. repeat (destruct Hin as [<- | Hin]; [vm_compute in H; discriminate|]). destruct Hin. Qed.
  Lemma ordinary_spaces w : Spaces w -> Forall Ordinary w.
  Proof. intros H. eapply Forall_impl; [|exact H]. intros c Hc. exact (ordinary_ws c (ascii_unicode_ws c Hc)). Qed.
  Lemma closes_text k x u : Forall Ordinary x -> Closes rest (S k) u -> Closes rest (S k) (x ++ u).
  Proof. intros H Hu. induction H; [exact Hu | apply CL_char; assumption]. Qed.
  Lemma ordinary_bracket : Ordinary 93%N.
  Proof. intros H. cbn in H. repeat destruct H as [H | H]; try discriminate; exact H. Qed.
  Lemma good_nonempty k u : Good k u -> u <> [].
  Proof.
    intros [(j & _ & H) | (x & q & z & _ & _ & ->)]; [|destruct x; discriminate]. inversion H; discriminate.
  Qed.
  Lemma good_quote k c u : Quote c -> Good k (c :: u) -> Dead (c :: u).
  Proof. intros Hq H. exists [], c, u. split; [constructor | split; [exact Hq | reflexivity]]. Qed.

  Definition Edible (c : char) : Prop := c <> 41%N /\ ~ Quote c.
  Lemma eat1 k c u : Good k (c :: u) -> Edible c -> Good k u.
  Proof.
    intros [(j & Hj & H) | (x & q & z & Hx & Hq & E)] [H1 H2].
    - inversion H; subst.
      + elim H1. reflexivity.
      + left. exists (S j). split; [lia | assumption].
      + left. exists j. split; assumption.
      + left. exists j. split; assumption.
      + right. exists w1, q, ((v ++ [q]) ++ w2 ++ 41%N :: u0). split; [apply ordinary_spaces; assumption|]. split; [assumption | reflexivity].
      + left. exists j. split; [exact Hj|]. assert (K : Forall Ordinary x) by (match goal with K : KeyFirst x |- _ => exact (proj1 K) end). apply closes_text; [exact K|]. apply CL_char; [exact ordinary_bracket | assumption].
      + right. assert (K : Forall Ordinary x) by (match goal with K : KeyFirst x |- _ => exact (proj1 K) end). exists x, q, ((v ++ [q]) ++ w ++ 93%N :: u0). split; [exact K|]. split; [assumption | reflexivity].
    - right. destruct x as [|y x]; injection E as -> ->; [contradiction|]. inversion Hx; subst. exists x, q, z. split; [assumption | split; [exact Hq | reflexivity]].
  Qed.
  Lemma eat k a b : Forall Edible a -> Good k (a ++ b) -> Good k b.
  Proof. intros Ha. induction Ha as [|c a Hc _ IH]; cbn [app]; intros H; [exact H|]. apply IH. exact (eat1 k c _ H Hc). Qed.
  Lemma eat_open k b : Good k (40%N :: b) -> Good (S k) b.
  Proof.
    intros [(j & Hj & H) | (x & q & z & Hx & Hq & E)].
    - inversion H; subst.
      + left. exists (S j). split; [lia | assumption].
      + match goal with K : Ordinary _ |- _ => elim K end. cbn. tauto.
      + right. exists w1, q, ((v ++ [q]) ++ w2 ++ 41%N :: u). split; [apply ordinary_spaces; assumption|]. split; [assumption | reflexivity].
    - destruct x as [|y x]; injection E as <- ->; [destruct Hq; discriminate|]. inversion Hx as [|? ? Hy _]; subst. elim Hy. cbn. tauto.
  Qed.
  Lemma eat_close k b : Good k (41%N :: b) -> exists j, k <= j /\ Closes rest j b.
  Proof.
    intros [(j & Hj & H) | (x & q & z & Hx & Hq & E)].
    - inversion H; subst.
      + exists j. split; assumption.
      + match goal with K : Ordinary _ |- _ => elim K end. cbn. tauto.
    - destruct x as [|y x]; injection E as <- ->; [destruct Hq; discriminate|]. inversion Hx as [|? ? Hy _]; subst. elim Hy. cbn. tauto.
  Qed.
  Lemma eat_close_good k b : Good (S k) (41%N :: b) -> Good k b.
  Proof. intros H. destruct (eat_close _ _ H) as (j & Hj & C). left. destruct j as [|j]; [lia|]. exists j. split; [lia | exact C]. Qed.
  Lemma eat_escape k c u : Good k (92%N :: c :: u) -> Good k (c :: u) /\ Ordinary c.
  Proof.
    intros [(j & Hj & H) | (x & q & z & Hx & Hq & E)].
    - inversion H; subst.
      + match goal with K : Ordinary 92%N |- _ => elim K end. cbn. tauto.
      + split; [left; exists j; split; assumption | assumption].
    - destruct x as [|y x]; injection E as <- E; [destruct Hq; discriminate|]. inversion Hx as [|? ? Hy _]; subst. elim Hy. cbn. tauto.
  Qed.
  Lemma escape_end k : ~ Good k [92%N].
  Proof.
    intros [(j & Hj & H) | (x & q & z & Hx & Hq & E)].
    - inversion H; subst. match goal with K : Ordinary 92%N |- _ => elim K end. cbn. tauto.
    - destruct x as [|y x]; injection E as <- E; [destruct Hq; discriminate|]. inversion Hx as [|? ? Hy _]; subst. elim Hy. cbn. tauto.
  Qed.

  (** * One match *)
  Lemma edible_spaces w : Spaces w -> Forall Edible w.
  Proof. intros H. eapply Forall_impl; [|exact H]. intros c Hc. split; [intros -> | intros [-> | ->]]; vm_compute in Hc; discriminate. Qed.
  Lemma edible_free a : free 41%N a -> free 39%N a -> free 34%N a -> Forall Edible a.
  Proof.
    intros H1 H2 H3. apply Forall_forall. intros c Hc. split; [intros ->; exact (H1 Hc) | intros [-> | ->]; [exact (H2 Hc) | exact (H3 Hc)]].
  Qed.
  Lemma exec_inv q qs s ms l n : exec (q :: qs) s = Ok (ms, l, n) ->
    pat_matched q s = Ok None /\ l = 0 /\ n = 0 \/
    exists m ms' l' n', pat_matched q s = Ok (Some m) /\ exec qs (skipn (length (m_chars m) + m_ignore m) s) = Ok (ms', l', n') /\ l = length (m_chars m) + m_ignore m + l' /\ n = S n'.
  Proof.
    cbn [Parse.exec]. destruct (pat_matched q s) as [[m|]| |]; cbn [rbind]; [| |discriminate..].
    - destruct (exec qs (skipn (length (m_chars m) + m_ignore m) s)) as [[[ms' l'] n']| |] eqn:Ex; cbn [rbind]; [|discriminate..]. intros H. injection H as _ <- <-. right. exists m, ms', l', n'. repeat split. exact Ex.
    - intros H. injection H as _ <- <-. left. repeat split.
  Qed.
  Lemma skipn_plus {A} a b (s : list A) : skipn (a + b) s = skipn b (skipn a s).
  Proof. revert s. induction a as [|a IH]; intros s; [reflexivity|]. destruct s; [rewrite !skipn_nil; reflexivity | exact (IH s)]. Qed.
  Lemma got_vec v s m : pat_matched (PVec v) s = Ok (Some m) -> exists r, s = v ++ r /\ skipn (length (m_chars m) + m_ignore m) s = r.
  Proof.
    cbn. destruct (starts_with s v) eqn:E; [|discriminate]. intros H. injection H as <-. destruct (starts_with_prefix _ _ E) as (r & ->). exists r. split; [reflexivity|].
    cbn [m_chars m_ignore plain]. rewrite Nat.add_0_r. apply skipn_pre.
  Qed.
  Lemma got_spaces s : exists w r, s = w ++ r /\ Spaces w /\ heads is_ascii_ws r = false /\ pat_matched PSpaces s = Ok (Some (plain w)) /\ skipn (length (m_chars (plain w)) + m_ignore (plain w)) s = r.
  Proof.
    destruct (split_while is_ascii_ws s) as (w & r & -> & Hw & Hr). exists w, r. split; [reflexivity|]. split; [exact Hw|]. split; [exact Hr|]. split; [apply pm_spaces; assumption|].
    cbn [m_chars m_ignore plain]. rewrite Nat.add_0_r. apply skipn_pre.
  Qed.
  Lemma spaces_unique w1 r1 w2 r2 : Spaces w1 -> heads is_ascii_ws r1 = false -> Spaces w2 -> heads is_ascii_ws r2 = false -> w1 ++ r1 = w2 ++ r2 -> w1 = w2 /\ r1 = r2.
  Proof.
    intros H1 R1 H2 R2 E. pose proof (take_while_app is_ascii_ws w1 r1 H1 R1) as T1. rewrite E in T1. rewrite (take_while_app is_ascii_ws w2 r2 H2 R2) in T1. subst w2.
    split; [reflexivity | exact (app_inv_head _ _ _ E)].
  Qed.
  Lemma exec_spaces qs s ms l n : exec (PSpaces :: qs) s = Ok (ms, l, n) -> exists w r ms' l' n', s = w ++ r /\ Spaces w /\ heads is_ascii_ws r = false /\ exec qs r = Ok (ms', l', n') /\ n = S n' /\ skipn l s = skipn l' r.
  Proof.
    intros H. destruct (got_spaces s) as (w & r & E1 & Hw & Hr & E2 & E3). destruct (exec_inv _ _ _ _ _ _ H) as [(E & _) | (m & ms' & l' & n' & Em & Ex & -> & ->)]; [congruence|].
    rewrite E2 in Em. injection Em as <-. rewrite E3 in Ex. exists w, r, ms', l', n'. repeat split; trivial. rewrite skipn_plus, E3. reflexivity.
  Qed.
  Lemma exec_char c s ms l n : exec [PChar c] s = Ok (ms, l, n) -> l = 0 /\ n = 0 \/ exists r, s = c :: r /\ n = 1 /\ skipn l s = r.
  Proof.
    intros H. destruct (exec_inv _ _ _ _ _ _ H) as [(_ & H1 & H2) | (m & ms' & l' & n' & Em & Ex & -> & ->)]; [left; split; assumption|].
    right. cbn in Em. destruct s as [|x s]; [discriminate|]. destruct (char_eqb c x) eqn:E; [|discriminate]. apply N.eqb_eq in E. subst x. injection Em as <-.
    injection Ex as _ <- <-. exists s. repeat split.
  Qed.

  Lemma identity_good k s : forall esc r n, identity_loop s esc = (r, n) -> Good k s -> (esc = true -> match s with c :: _ => Ordinary c | [] => True end) -> Good k (skipn (length r + n) s).
  Proof.
    induction s as [|c s IH]; intros esc r n E H Hesc; [rewrite skipn_nil; exact H|]. cbn [identity_loop] in E.
    assert (Step : forall e r' n', identity_loop s e = (r', n') -> Good k s -> (e = true -> match s with c :: _ => Ordinary c | [] => True end) -> Good k (skipn (S (length r' + n')) (c :: s))) by (intros e r' n' E' H' He; exact (IH e r' n' E' H' He)).
    destruct esc.
    - destruct (identity_loop s false) as [r' n'] eqn:E'. injection E as <- <-. cbn [length]. apply (Step false r' n' E'); [|discriminate].
      specialize (Hesc eq_refl). apply (eat1 k c s H). split; [intros -> | intros [-> | ->]]; apply Hesc; cbn; tauto.
    - destruct (is_ascii_alnum c || char_eqb c 45%N || char_eqb c 95%N) eqn:Ec.
      + destruct (identity_loop s false) as [r' n'] eqn:E'. injection E as <- <-. cbn [length]. apply (Step false r' n' E'); [|discriminate].
        apply (eat1 k c s H). split; [intros -> | intros [-> | ->]]; vm_compute in Ec; discriminate.
      + destruct (char_eqb c 92%N) eqn:E2.
        * apply N.eqb_eq in E2. subst c. destruct (identity_loop s true) as [r' n'] eqn:E'. injection E as <- <-. rewrite Nat.add_succ_r. apply (Step true r' n' E').
          -- destruct s as [|d s]; [elim (escape_end k H) | exact (proj1 (eat_escape k d s H))].
          -- intros _. destruct s as [|d s]; [exact I | exact (proj2 (eat_escape k d s H))].
        * injection E as <- <-. exact H.
  Qed.
  Lemma exec_identity k s ms l n : exec [PIdentity] s = Ok (ms, l, n) -> Good k s -> Good k (skipn l s) /\ (n = 0 \/ n = 1).
  Proof.
    intros H HG. destruct (exec_inv _ _ _ _ _ _ H) as [(_ & -> & ->) | (m & ms' & l' & n' & Em & Ex & -> & ->)]; [split; [exact HG | left; reflexivity]|].
    injection Ex as _ <- <-. split; [|right; reflexivity]. rewrite Nat.add_0_r. cbn in Em. destruct s as [|x s]; [discriminate|]. destruct (is_ascii_upper x || is_ascii_lower x || char_eqb x 95%N); [|discriminate].
    destruct (identity_loop (x :: s) false) as [r j] eqn:E. injection Em as <-. cbn [m_chars m_ignore]. exact (identity_good k (x :: s) false r j E HG ltac:(discriminate)).
  Qed.
  Lemma lit_edible v : forallb (fun c => negb (existsb (char_eqb c) [41; 39; 34]%N)) v = true -> Forall Edible v.
  Proof.
    intros H. apply Forall_forall. intros c Hc. rewrite forallb_forall in H. specialize (H c Hc). split; [intros -> | intros [-> | ->]]; discriminate.
  Qed.

  (** * The rules *)
  Definition Moves (k : nat) (qs : list pat) (s : str) (l n : nat) : Prop :=
    n = length qs /\ Good k (skipn l s) \/
    n <> length qs /\ (skipn (S n) qs = [] /\ Good k (skipn l s) \/ skipn (S n) qs = [PSpaces; rparen] /\ Good (S k) (skipn l s)).
  Lemma moves_vec k v s ms l n : exec [PVec v] s = Ok (ms, l, n) -> 0 < l -> Forall Edible v -> Good k s -> Moves k [PVec v] s l n.
  Proof.
    intros H Hl Hv HG. destruct (exec_inv _ _ _ _ _ _ H) as [(_ & -> & _) | (m & ms' & l' & n' & Em & Ex & -> & ->)]; [lia|]. injection Ex as _ <- <-.
    destruct (got_vec _ _ _ Em) as (r & -> & Er). left. split; [reflexivity|]. rewrite Nat.add_0_r, Er. exact (eat k v r Hv HG).
  Qed.
  Lemma moves_named k v s ms l n : exec [PVec v; PIdentity] s = Ok (ms, l, n) -> 0 < l -> Forall Edible v -> Good k s -> Moves k [PVec v; PIdentity] s l n.
  Proof.
    intros H Hl Hv HG. destruct (exec_inv _ _ _ _ _ _ H) as [(_ & -> & _) | (m & ms' & l' & n' & Em & Ex & -> & ->)]; [lia|].
    destruct (got_vec _ _ _ Em) as (r & -> & Er). rewrite Er in Ex. destruct (exec_identity k r _ _ _ Ex (eat k v r Hv HG)) as [G Hn].
    rewrite <- Er in G. unfold Moves. rewrite skipn_plus. destruct Hn as [-> | ->]; [right; split; [discriminate|]; left; split; [reflexivity | exact G] | left; split; [reflexivity | exact G]].
  Qed.
  Lemma eat_name k v b : Forall Edible v -> Good k ((v ++ [40%N]) ++ b) -> Good (S k) b.
  Proof. intros Hv H. rewrite <- app_assoc in H. exact (eat_open k b (eat k v _ Hv H)). Qed.
  Lemma nth_edible s m : nth_matched wide_digit s = Some m -> exists u, s = m_chars m ++ u /\ m_ignore m = 0 /\ Forall Edible (m_chars m).
  Proof.
    unfold nth_matched. destruct (re_exec (re_nth wide_digit) s) as [[cs data]|] eqn:E.
    - destruct (re_exec_lang _ _ _ _ E) as [L (u & ->)]. assert (F : Forall Edible cs) by (apply edible_free; apply (avoids_spec wide_digit _ _ _ _ _ L); reflexivity).
      intros H. exists u. destruct (cap data 6); injection H as <-; (split; [reflexivity | split; [reflexivity | exact F]]).
    - destruct (starts_with s (lit "even")) eqn:E1; [|destruct (starts_with s (lit "odd")) eqn:E2; [|discriminate]]; intros H; injection H as <-.
      + destruct (starts_with_prefix _ _ E1) as (u & ->). exists u. split; [reflexivity|]. split; [reflexivity | apply lit_edible; reflexivity].
      + destruct (starts_with_prefix _ _ E2) as (u & ->). exists u. split; [reflexivity|]. split; [reflexivity | apply lit_edible; reflexivity].
  Qed.
  (** Behind the argument: white space and the parenthesis. *)
  Lemma moves_end k s ms l n : exec [PSpaces; rparen] s = Ok (ms, l, n) -> Good (S k) s -> n = 1 /\ Good (S k) (skipn l s) \/ n = 2 /\ Good k (skipn l s).
  Proof.
    intros H HG. destruct (exec_spaces _ _ _ _ _ H) as (w & r & ms' & l' & n' & -> & Hw & _ & Ex & -> & ->). pose proof (eat _ w r (edible_spaces w Hw) HG) as G.
    destruct (exec_char _ _ _ _ _ Ex) as [[-> ->] | (r' & -> & -> & ->)]; [left; split; [reflexivity | exact G] | right; split; [reflexivity | exact (eat_close_good k r' G)]].
  Qed.
  Lemma moves_nth k v s ms l n : exec (q_nth (v ++ [40%N])) s = Ok (ms, l, n) -> 0 < l -> Forall Edible v -> Good k s -> Moves k (q_nth (v ++ [40%N])) s l n.
  Proof.
    intros H Hl Hv HG. unfold q_nth in H. destruct (exec_inv _ _ _ _ _ _ H) as [(_ & -> & _) | (m & ms' & l' & n' & Em & Ex & -> & ->)]; [lia|]. unfold Moves. rewrite skipn_plus.
    destruct (got_vec _ _ _ Em) as (r & -> & Er). rewrite Er in *. pose proof (eat_name k v r Hv HG) as G1. clear Er Em H Hl HG.
    destruct (exec_spaces _ _ _ _ _ Ex) as (w & r1 & ms1 & l1 & n1 & -> & Hw & _ & Ex1 & -> & ->). pose proof (eat _ w r1 (edible_spaces w Hw) G1) as G2.
    destruct (exec_inv _ _ _ _ _ _ Ex1) as [(_ & -> & ->) | (m2 & ms2 & l2 & n2 & Em2 & Ex2 & -> & ->)]; [right; split; [discriminate|]; right; split; [reflexivity | exact G2]|].
    cbn in Em2. injection Em2 as Em2. destruct (nth_edible r1 m2 Em2) as (r2 & E1 & E2 & Fm). rewrite skipn_plus. rewrite E2, Nat.add_0_r in *. assert (Es : skipn (length (m_chars m2)) r1 = r2) by (rewrite E1; apply skipn_pre).
    rewrite Es in *. rewrite E1 in G2. pose proof (eat _ _ r2 Fm G2) as G3. destruct (moves_end k r2 _ _ _ Ex2 G3) as [[-> G4] | [-> G4]].
    - right. split; [discriminate|]. left. split; [reflexivity | apply good_less, G4].
    - left. split; [reflexivity | exact G4].
  Qed.
  Lemma moves_nested k v s ms l n : exec (q_nested (v ++ [40%N])) s = Ok (ms, l, n) -> 0 < l -> Forall Edible v -> Good k s -> Moves k (q_nested (v ++ [40%N])) s l n.
  Proof.
    intros H Hl Hv HG. unfold q_nested in H. destruct (exec_inv _ _ _ _ _ _ H) as [(_ & -> & _) | (m & ms' & l' & n' & Em & Ex & -> & ->)]; [lia|]. unfold Moves. rewrite skipn_plus.
    destruct (got_vec _ _ _ Em) as (r & -> & Er). rewrite Er in *. pose proof (eat_name k v r Hv HG) as G1. clear Er Em H Hl HG.
    destruct (exec_spaces _ _ _ _ _ Ex) as (w & r1 & ms1 & l1 & n1 & -> & Hw & _ & Ex1 & -> & ->). pose proof (eat _ w r1 (edible_spaces w Hw) G1) as G2.
    destruct (exec_inv _ _ _ _ _ _ Ex1) as [(_ & -> & ->) | (m2 & ms2 & l2 & n2 & Em2 & _)]; [|discriminate]. right. split; [discriminate|]. right. split; [reflexivity | exact G2].
  Qed.
  (** [:contains(]: the argument is a quoted text of its own, or is read up to a quote or a parenthesis. *)
  Lemma contains_start k v b : Forall Ordinary v -> Good k ((v ++ [40%N]) ++ b) ->
    (exists j, S k <= j /\ Closes rest (S j) b) \/ exists w1 q t w2 u, Spaces w1 /\ Quote q /\ Quoted q t /\ Spaces w2 /\ Good k u /\ b = w1 ++ (q :: t ++ [q]) ++ w2 ++ 41%N :: u.
  Proof.
    rewrite <- app_assoc. intros Hv. induction Hv as [|c v Hc _ IH]; cbn [app].
    - intros [(j & Hj & H) | (x & q & z & Hx & Hq & E)].
      + inversion H; subst.
        * left. exists (S j). split; [lia | assumption].
        * match goal with K : Ordinary _ |- _ => elim K end. cbn. tauto.
        * right. exists w1, q, v, w2, u. repeat split; trivial. left. exists j. split; assumption.
      + destruct x as [|y x]; injection E as <- ->; [destruct Hq; discriminate|]. inversion Hx as [|? ? Hy _]; subst. elim Hy. cbn. tauto.
    - intros H. apply IH. apply (eat1 k c _ H). split; [intros -> | intros [-> | ->]]; apply Hc; cbn; tauto.
  Qed.
  Lemma closes_spaces k w b : Spaces w -> Closes rest (S k) (w ++ b) -> Closes rest (S k) b.
  Proof.
    intros Hw. induction Hw as [|c w Hc _ IH]; cbn [app]; intros H; [exact H|]. apply IH. inversion H; subst; try (vm_compute in Hc; discriminate). assumption.
  Qed.
  Lemma closes_no_quote k q b : Quote q -> ~ Closes rest (S k) (q :: b).
  Proof. intros Hq H. inversion H; subst; try (destruct Hq; discriminate). match goal with K : Ordinary _ |- _ => apply K end. destruct Hq as [-> | ->]; cbn; tauto. Qed.
  Lemma moves_contains k v s ms l n : exec [PVec (v ++ [40%N]); PSpaces; PRegex re_contains; PSpaces; rparen] s = Ok (ms, l, n) -> 0 < l -> Forall Ordinary v -> Good k s ->
    Moves k [PVec (v ++ [40%N]); PSpaces; PRegex re_contains; PSpaces; rparen] s l n.
  Proof.
    intros H Hl Hv HG. destruct (exec_inv _ _ _ _ _ _ H) as [(_ & -> & _) | (m & ms' & l' & n' & Em & Ex & -> & ->)]; [lia|]. unfold Moves. rewrite skipn_plus.
    destruct (got_vec _ _ _ Em) as (r & -> & Er). rewrite Er in *. clear Er Em H Hl.
    destruct (exec_spaces _ _ _ _ _ Ex) as (w & r1 & ms1 & l1 & n1 & -> & Hw & Hr1 & Ex1 & -> & ->).
    destruct (contains_start k v _ Hv HG) as [(j & Hj & C) | (w1 & q & t & w2 & u & Hw1 & Hq & Ht & Hw2 & Gu & E)].
    - pose proof (closes_spaces j w r1 Hw C) as C1. assert (G2 : Good (S k) r1) by (left; exists j; split; assumption).
      destruct (exec_inv _ _ _ _ _ _ Ex1) as [(_ & -> & ->) | (m2 & ms2 & l2 & n2 & Em2 & Ex2 & -> & ->)]; [right; split; [discriminate|]; right; split; [reflexivity | exact G2]|].
      cbn [Parse.pat_matched] in Em2. destruct (re_exec re_contains r1) as [[t c]|] eqn:Ec; [|discriminate]. injection Em2 as <-. cbn [m_chars m_ignore] in *.
      destruct (re_exec_lang _ _ _ _ Ec) as [L (r2 & ->)]. rewrite skipn_plus. rewrite Nat.add_0_r, skipn_pre in *.
      destruct (contains_lang wide_digit t _ _ L) as [(q & t' & -> & Hq) | (F1 & F2 & F3)]; [exfalso; exact (closes_no_quote j q _ Hq C1)|].
      pose proof (eat _ t r2 (edible_free t F1 F3 F2) G2) as G3. destruct (moves_end k r2 _ _ _ Ex2 G3) as [[-> G4] | [-> G4]].
      + right. split; [discriminate|]. left. split; [reflexivity | apply good_less, G4].
      + left. split; [reflexivity | exact G4].
    - assert (Ew : w = w1 /\ r1 = (q :: t ++ [q]) ++ w2 ++ 41%N :: u).
      { assert (Hq' : is_ascii_ws q = false) by (destruct Hq as [-> | ->]; reflexivity). exact (spaces_unique w r1 w1 ((q :: t ++ [q]) ++ w2 ++ 41%N :: u) Hw Hr1 Hw1 Hq' E). }
      destruct Ew as [-> ->]. destruct (contains_quoted_match q t (w2 ++ 41%N :: u) Hq Ht) as (c & Ec).
      destruct (exec_inv _ _ _ _ _ _ Ex1) as [(Em2 & _) | (m2 & ms2 & l2 & n2 & Em2 & Ex2 & -> & ->)].
      { cbn [Parse.pat_matched] in Em2. unfold str, char in *. rewrite Ec in Em2. discriminate. }
      cbn [Parse.pat_matched] in Em2. unfold str, char in *. rewrite Ec in Em2. injection Em2 as <-. cbn [m_chars m_ignore] in *. rewrite skipn_plus. rewrite Nat.add_0_r, skipn_pre in *.
      destruct (exec_spaces _ _ _ _ _ Ex2) as (w3 & r3 & ms3 & l3 & n3 & E3 & Hw3 & Hr3 & Ex3 & -> & E5). unfold str, char in *. rewrite E5.
      assert (Ew : w3 = w2 /\ r3 = 41%N :: u) by (exact (spaces_unique w3 r3 w2 (41%N :: u) Hw3 Hr3 Hw2 eq_refl (eq_sym E3))).
      destruct Ew as [-> ->]. destruct (exec_char _ _ _ _ _ Ex3) as [[-> ->] | (r4 & E4 & -> & E6)].
      + cbn in Ex3. discriminate.
      + injection E4 as <-. left. split; [reflexivity|]. unfold str, char in *. rewrite E6. exact Gu.
  Qed.

  (** * Brackets *)
  (** What is left of a bracket: ordinary characters, perhaps a quoted text, and the end. *)
  Definition Tail (k : nat) (t : str) : Prop := exists x y u, Forall Ordinary x /\ free 93%N x /\ (exists j, k <= j /\ Closes rest (S j) u) /\
    (y = [] \/ exists q v w, Quote q /\ Quoted q v /\ Spaces w /\ y = (q :: v ++ [q]) ++ w) /\ t = x ++ y ++ 93%N :: u.
  Lemma tail_good k t : Tail k t -> Good k t.
  Proof.
    intros (x & y & u & Hx & _ & (j & Hj & C) & [-> | (q & v & w & Hq & _ & _ & ->)] & ->).
    - left. exists j. split; [exact Hj|]. apply closes_text; [exact Hx|]. apply CL_char; [exact ordinary_bracket | exact C].
    - right. exists x, q, ((v ++ [q]) ++ w ++ 93%N :: u). split; [exact Hx|]. split; [exact Hq|]. aa.
  Qed.
  Lemma split_free (c : char) a : forall x z b, free c a -> x ++ c :: z = a ++ b -> exists x', x = a ++ x' /\ b = x' ++ c :: z.
  Proof.
    induction a as [|d a IH]; intros x z b Ha E; [exists x; split; [reflexivity | symmetry; exact E]|]. destruct x as [|e x]; injection E as <- E.
    - elim Ha. left. reflexivity.
    - destruct (IH x z b) as (x' & -> & ->); [intros H; apply Ha; right; exact H | exact E |]. exists x'. split; reflexivity.
  Qed.
  Lemma tail_split k t : Tail k t -> exists x c z, (c = 93%N \/ Quote c) /\ t = x ++ c :: z /\ forall x', (exists a, x = a ++ x') -> Tail k (x' ++ c :: z).
  Proof.
    intros (x & y & u & Hx & Hf & C & Hy & ->).
    assert (P : forall x', (exists a, x = a ++ x') -> Forall Ordinary x' /\ free 93%N x').
    { intros x' (a & ->). split; [apply Forall_app in Hx; exact (proj2 Hx)|]. intros H. apply Hf. apply in_or_app. right. exact H. }
    destruct Hy as [-> | (q & v & w & Hq & Hv & Hw & ->)].
    - exists x, 93%N, u. split; [left; reflexivity|]. split; [reflexivity|]. intros x' H. destruct (P x' H) as [P1 P2]. exists x', [], u. repeat split; trivial. left. reflexivity.
    - exists x, q, ((v ++ [q]) ++ w ++ 93%N :: u). split; [right; exact Hq|]. split; [aa|]. intros x' H. destruct (P x' H) as [P1 P2].
      exists x', ((q :: v ++ [q]) ++ w), u. repeat split; trivial; [|aa]. right. exists q, v, w. repeat split; trivial.
  Qed.
  Lemma tail_eat k a b : free 93%N a -> free 39%N a -> free 34%N a -> Tail k (a ++ b) -> Tail k b.
  Proof.
    intros F1 F2 F3 H. destruct (tail_split k _ H) as (x & c & z & Hc & E & P). symmetry in E. destruct (split_free c a x z b) as (x' & -> & ->); [|exact E|].
    - destruct Hc as [-> | [-> | ->]]; assumption.
    - apply P. exists a. reflexivity.
  Qed.
  Lemma tail_spaces k a b : Spaces a -> Tail k (a ++ b) -> Tail k b.
  Proof. intros Ha. apply tail_eat; refine (spaces_free _ _ Ha _); reflexivity. Qed.
  (** The end of the bracket, if it is reached. *)
  Lemma tail_end k r : Tail k r -> (exists z, r = 93%N :: z /\ Good k z) \/ heads (char_eqb 93%N) r = false.
  Proof.
    intros (x & y & u & Hx & Hf & (j & Hj & C) & Hy & ->). destruct x as [|e x].
    - destruct Hy as [-> | (q & v & w & Hq & _ & _ & ->)]; [left; exists u; split; [reflexivity | left; exists j; split; assumption]|].
      right. destruct Hq as [-> | ->]; reflexivity.
    - right. apply (proj2 (N.eqb_neq 93%N e)). intros E. apply Hf. left. symmetry. exact E.
  Qed.
  Lemma attr_parts u c c' : Lang re_attr u c c' -> (free 93%N u /\ free 39%N u /\ free 34%N u) \/
    exists m op w q v, u = (op ++ [61%N] ++ w) ++ q :: v ++ [q] /\ ModeText m op /\ Blank w /\ Quote q /\ free 93%N (op ++ [61%N] ++ w) /\ free 39%N (op ++ [61%N] ++ w) /\ free 34%N (op ++ [61%N] ++ w).
  Proof.
    unfold re_attr, ROpt. intros H. apply lang_alt in H. destruct H as [H | H]; [|apply lang_eps in H; destruct H as [-> _]; left; repeat split; intros []].
    change (Lang (RSeq (RGrp 1 (ROpt (one_of (lit "*^$~|!")))) (RSeq (chr 61%N) (RSeq (RStar true re_s) attr_values))) u c c') in H.
    apply lang_seq in H. destruct H as (a1 & u1 & c1 & -> & H1 & H). apply lang_seq in H. destruct H as (a2 & u2 & c2 & -> & H2 & H). apply lang_seq in H. destruct H as (a3 & u3 & c3 & -> & H3 & H).
    assert (Fr : forall x, avoids x (RGrp 1 (ROpt (one_of (lit "*^$~|!")))) = true -> avoids x (chr 61%N) = true -> avoids x (RStar true re_s) = true -> free x (a1 ++ a2 ++ a3)).
    { intros x X1 X2 X3. apply (free_app wide_digit); [exact (avoids_spec wide_digit _ _ _ _ _ H1 X1)|]. apply (free_app wide_digit); [exact (avoids_spec wide_digit _ _ _ _ _ H2 X2) | exact (avoids_spec wide_digit _ _ _ _ _ H3 X3)]. }
    assert (F1 : free 93%N (a1 ++ a2 ++ a3)) by (apply Fr; reflexivity). assert (F2 : free 39%N (a1 ++ a2 ++ a3)) by (apply Fr; reflexivity). assert (F3 : free 34%N (a1 ++ a2 ++ a3)) by (apply Fr; reflexivity).
    assert (HM : exists m, ModeText m a1).
    { apply lang_grp in H1. destruct H1 as (c4 & H1 & _). unfold ROpt in H1. apply lang_alt in H1. destruct H1 as [H1 | H1].
      - apply lang_chr in H1. destruct H1 as (x & -> & Hx & _). apply existsb_char in Hx. cbn in Hx.
        repeat (destruct Hx as [<- | Hx]; [eexists; constructor|]). destruct Hx.
      - apply lang_eps in H1. destruct H1 as [-> _]. eexists; constructor. }
    assert (H61 : a2 = [61%N]) by (apply lang_chr in H2; destruct H2 as (x & -> & Hx & _); apply N.eqb_eq in Hx; subst x; reflexivity).
    assert (HB : Blank a3) by (apply lang_star_chr in H3; exact (proj1 H3)). destruct HM as (m & HM). subst a2.
    unfold attr_values in H. cbn [ralts] in H. apply lang_alt in H. destruct H as [H | H]; [|apply lang_alt in H; destruct H as [H | H]].
    - right. destruct (lang_quoted _ _ _ _ _ H) as (v & ->). exists m, a1, a3, 39%N, v. split; [aa|]. repeat split; trivial. left; reflexivity.
    - left. assert (G : forall x, free x (a1 ++ [61%N] ++ a3) -> free x u3 -> free x (a1 ++ [61%N] ++ a3 ++ u3)).
      { intros x X1 X2 X. apply in_app_or in X. destruct X as [X | X]; [apply X1, in_or_app; left; exact X|]. rewrite app_assoc in X. apply in_app_or in X. destruct X as [X | X]; [apply X1, in_or_app; right; exact X | exact (X2 X)]. }
      split; [|split]; (apply G; [assumption|]); refine (avoids_spec wide_digit _ _ _ _ _ H _); reflexivity.
    - right. destruct (lang_quoted _ _ _ _ _ H) as (v & ->). exists m, a1, a3, 34%N, v. split; [aa|]. repeat split; trivial. right; reflexivity.
  Qed.
  Lemma tail_regex k t m c r : Tail k t -> re_exec re_attr t = Some (m, c) -> t = m ++ r -> Tail k r \/ exists w z, Spaces w /\ r = w ++ 93%N :: z /\ Good k z.
  Proof.
    intros HT He ->. destruct (re_exec_lang _ _ _ _ He) as [L _]. destruct (attr_parts m _ _ L) as [(F1 & F2 & F3) | (md & op & w & q & v & -> & HM & HB & Hq & F1 & F2 & F3)].
    - left. exact (tail_eat k m r F1 F2 F3 HT).
    - right. set (a := op ++ [61%N] ++ w) in *. rewrite <- app_assoc in HT. pose proof (tail_eat k a _ F1 F2 F3 HT) as HT'.
      destruct HT' as (x & y & u & Hx & Hf & (j & Hj & C) & Hy & E). destruct x as [|e x].
      + destruct Hy as [-> | (q' & v' & w' & Hq' & Hv' & Hw' & ->)]; [injection E as E _; destruct Hq as [-> | ->]; discriminate|].
        assert (q = q') by (injection E as -> _; reflexivity). subst q'.
        assert (HS : heads (bare_char attr_stop) (w' ++ 93%N :: u) = false).
        { destruct Hw' as [|z w' Hz]; [reflexivity|]. cbn. unfold bare_char. rewrite (ascii_unicode_ws z Hz). reflexivity. }
        destruct (attr_test_match md op w v' (q :: v' ++ [q]) (w' ++ 93%N :: u) HM HB (VT_quoted q v' Hq Hv') HS) as (c' & E' & _).
        assert (E2 : (op ++ [61%N] ++ w ++ (q :: v' ++ [q])) ++ w' ++ 93%N :: u = (a ++ q :: v ++ [q]) ++ r).
        { unfold a. cbn [app] in E. do 4 (rewrite <- ?app_assoc; cbn [app]). do 4 (rewrite <- ?app_assoc in E; cbn [app] in E). rewrite E. reflexivity. }
        unfold str, char in *. rewrite E2 in E'. rewrite He in E'. injection E' as E' _.
        assert (E3 : op ++ [61%N] ++ w ++ (q :: v' ++ [q]) = a ++ q :: v ++ [q]) by (symmetry; exact E').
        exists w', u. split; [exact Hw'|]. split; [|left; exists j; split; assumption]. rewrite E3 in E2. apply app_inv_head in E2. symmetry. exact E2.
      + exfalso. injection E as -> _. inversion Hx as [|? ? He' _]; subst. apply He'. destruct Hq as [-> | ->]; cbn; tauto.
  Qed.
  Lemma re_attr_total s : re_exec re_attr s <> None.
  Proof. unfold re_exec, re_attr, ROpt at 1. rewrite rmatch_alt. destruct (rmatch (rseqs _) s [] _) as [[r c]|]; [discriminate|]. rewrite rmatch_eps. discriminate. Qed.

  Lemma bracket_start k b : Good k (91%N :: b) -> Tail k b /\ exists w c z, Spaces w /\ KeyChar c /\ b = w ++ c :: z.
  Proof.
    intros [(j & Hj & H) | (x & q & z & Hx & Hq & E)].
    - inversion H as [| | |k0 c u0 Ho| | |k0 x u0 (K1 & K2 & w & c & y & Hw & Hc & Ex) C|k0 x q v w' u0 (K1 & K2 & w & c & y & Hw & Hc & Ex) Hq Hv Hw' C]; subst.
      + elim Ho. cbn. tauto.
      + split; [|exists w, c, (y ++ 93%N :: u0); split; [exact Hw|]; split; [exact Hc | aa]]. exists (w ++ c :: y), [], u0. repeat split; trivial; [exists j; split; assumption | left; reflexivity].
      + split; [|exists w, c, (y ++ (q :: v ++ [q]) ++ w' ++ 93%N :: u0); split; [exact Hw|]; split; [exact Hc | aa]]. exists (w ++ c :: y), ((q :: v ++ [q]) ++ w'), u0.
        repeat split; trivial; [exists j; split; assumption | right; exists q, v, w'; repeat split; trivial | aa].
    - destruct x as [|y x]; injection E as <- ->; [destruct Hq; discriminate|]. inversion Hx as [|? ? Hy _]; subst. elim Hy. cbn. tauto.
  Qed.
  Lemma key_not_ws c : KeyChar c -> is_ascii_ws c = false.
  Proof. intros H. destruct (is_ascii_ws c) eqn:E; [|reflexivity]. apply key_char_ok in H. rewrite (ascii_ws_not_key c E) in H. discriminate. Qed.
  Lemma exec_key qs s ms l n : exec (PAttrKey :: qs) s = Ok (ms, l, n) -> heads is_char_available_in_key s = false \/
    exists kt r ms' l' n', s = kt ++ r /\ Forall (fun c => is_char_available_in_key c = true) kt /\ exec qs r = Ok (ms', l', n') /\ n = S n' /\ skipn l s = skipn l' r.
  Proof.
    intros H. destruct (exec_inv _ _ _ _ _ _ H) as [(E & _) | (m & ms' & l' & n' & Em & Ex & -> & ->)].
    - left. cbn [Parse.pat_matched] in E. destruct s as [|c s]; [reflexivity|]. cbn [take_while] in E. cbn. destruct (is_char_available_in_key c); [discriminate | reflexivity].
    - right. cbn [Parse.pat_matched] in Em. destruct (nonempty (take_while is_char_available_in_key s)); [|discriminate]. injection Em as <-.
      destruct (take_while_split is_char_available_in_key s) as (r & E & F). remember (take_while is_char_available_in_key s) as kt eqn:Ek. clear Ek. cbn [m_chars m_ignore plain] in *.
      rewrite skipn_plus. rewrite Nat.add_0_r in *. rewrite E, skipn_pre in Ex. rewrite E, skipn_pre. exists kt, r, ms', l', n'. repeat split; trivial.
  Qed.
  Lemma moves_attr k s ms l n : exec [PVec (lit "["); PSpaces; PAttrKey; PSpaces; PRegex re_attr; PSpaces; PChar 93%N] s = Ok (ms, l, n) -> 0 < l -> Good k s ->
    Moves k [PVec (lit "["); PSpaces; PAttrKey; PSpaces; PRegex re_attr; PSpaces; PChar 93%N] s l n.
  Proof.
    intros H Hl HG. destruct (exec_inv _ _ _ _ _ _ H) as [(_ & -> & _) | (m & ms' & l' & n' & Em & Ex & -> & ->)]; [lia|]. unfold Moves. rewrite skipn_plus.
    destruct (got_vec _ _ _ Em) as (b & -> & Er). rewrite Er in *. clear Er Em H Hl. destruct (bracket_start k b HG) as (T & w0 & c0 & z0 & Hw0 & Hc0 & E0).
    destruct (exec_spaces _ _ _ _ _ Ex) as (w & r1 & ms1 & l1 & n1 & E1 & Hw & Hr1 & Ex1 & -> & ->).
    assert (Ew : w = w0 /\ r1 = c0 :: z0) by (apply (spaces_unique w r1 w0 (c0 :: z0) Hw Hr1 Hw0 (key_not_ws c0 Hc0)); rewrite <- E1; exact E0). destruct Ew as [-> ->].
    rewrite E1 in T. apply tail_spaces in T; [|exact Hw]. clear E0 E1 Ex HG.
    (* the key *)
    destruct (exec_key _ _ _ _ _ Ex1) as [Em | (kt & r2 & ms2 & l2 & n2 & E2 & F & Ex2 & -> & Es2)].
    { cbn in Em. rewrite (proj2 (key_char_ok c0) Hc0) in Em. discriminate. }
    rewrite Es2. rewrite E2 in T. apply tail_eat in T; [|refine (free_forall _ _ _ F _); reflexivity..].
    destruct (exec_spaces _ _ _ _ _ Ex2) as (w & r3 & ms3 & l3 & n3 & -> & Hw3 & Hr3 & Ex3 & -> & ->). apply tail_spaces in T; [|exact Hw3]. clear Ex2 Ex1.
    (* the test *)
    destruct (exec_inv _ _ _ _ _ _ Ex3) as [(Em & _) | (m4 & ms4 & l4 & n4 & Em & Ex4 & -> & ->)].
    { cbn [Parse.pat_matched] in Em. pose proof (re_attr_total r3) as Tt. destruct (re_exec re_attr r3) as [[? ?]|]; [discriminate | congruence]. }
    cbn [Parse.pat_matched] in Em. destruct (re_exec re_attr r3) as [[t c]|] eqn:Ea; [|discriminate]. injection Em as <-. cbn [m_chars m_ignore] in *. rewrite Nat.add_0_r in *.
    destruct (re_exec_lang _ _ _ _ Ea) as [_ (r4 & E4)]. rewrite skipn_plus. assert (Es : skipn (length t) r3 = r4) by (rewrite E4; apply skipn_pre). rewrite Es in *.
    pose proof (tail_regex k r3 t c r4 T Ea E4) as T4. destruct (exec_spaces _ _ _ _ _ Ex4) as (w5 & r5 & ms5 & l5 & n5 & -> & Hw5 & Hr5 & Ex5 & -> & ->). clear Ea E4 Es Ex3 Ex4 T.
    destruct T4 as [T4 | (w6 & z & Hw6 & E6 & Gz)].
    - apply tail_spaces in T4; [|exact Hw5]. destruct (exec_char _ _ _ _ _ Ex5) as [[-> ->] | (r6 & -> & -> & ->)].
      + right. split; [discriminate|]. left. split; [reflexivity | exact (tail_good k r5 T4)].
      + left. split; [reflexivity|]. destruct (tail_end k _ T4) as [(z & E & Gz) | E]; [injection E as ->; exact Gz | discriminate].
    - destruct (spaces_unique w5 r5 w6 (93%N :: z) Hw5 Hr5 Hw6 eq_refl E6) as [-> ->]. destruct (exec_char _ _ _ _ _ Ex5) as [[-> ->] | (r6 & E & -> & E7)].
      + cbn in Ex5. discriminate.
      + injection E as <-. left. split; [reflexivity|]. rewrite E7. exact Gz.
  Qed.
  Lemma rule_moves k kd qs s ms l n : In (kd, qs) rules -> exec qs s = Ok (ms, l, n) -> 0 < l -> Good k s -> Moves k qs s l n.
  Proof.
    intros Hin H Hl HG. unfold rules in Hin. cbn [In] in Hin.
    repeat (destruct Hin as [E | Hin]; [injection E as <- <-; first
      [ refine (moves_named k _ s ms l n H Hl _ HG); apply lit_edible; reflexivity
      | refine (moves_vec k _ s ms l n H Hl _ HG); apply lit_edible; reflexivity
      | exact (moves_attr k s ms l n H Hl HG)
      | match type of H with exec (q_nth ?v) _ = _ => refine (moves_nth k (removelast v) s ms l n H Hl _ HG); apply lit_edible; reflexivity end
      | match type of H with exec (q_nested ?v) _ = _ => refine (moves_nested k (removelast v) s ms l n H Hl _ HG); apply lit_edible; reflexivity end
      | refine (moves_contains k (lit ":contains") s ms l n H Hl _ HG); repeat constructor; intros X; cbn in X; repeat (destruct X as [X | X]; [discriminate|]); exact X
      | idtac ]|]).
    - destruct (exec_inv _ _ _ _ _ _ H) as [(_ & -> & _) | (m & ms' & l' & n' & Em & Ex & -> & ->)]; [lia|]. injection Ex as _ <- <-. left. split; [reflexivity | exact (proj1 (exec_identity k s _ _ _ H HG))].
    - destruct (exec_char _ _ _ _ _ H) as [[-> ->] | (r & -> & -> & E)]; [lia|]. left. split; [reflexivity|]. rewrite E. apply (eat1 k 42%N r HG). split; [discriminate | intros [X | X]; discriminate].
    - destruct Hin.
  Qed.
  Lemma split_edible w : SplitText w -> Forall Edible w.
  Proof.
    assert (B : forall w, Blank w -> Forall Edible w).
    { intros w' H. eapply Forall_impl; [|exact H]. intros c Hc. split; [intros -> | intros [-> | ->]]; vm_compute in Hc; discriminate. }
    intros [w' H _ | w1 o w2 H1 Ho H2]; [exact (B _ H)|]. apply Forall_app. split; [exact (B _ H1)|]. constructor; [|exact (B _ H2)].
    cbn in Ho. repeat (destruct Ho as [<- | Ho]; [split; [discriminate | intros [X | X]; discriminate]|]). destruct Ho.
  Qed.

  (** * The end of the nested text *)
  Definition Ends (until : list pat) (top : bool) (k : nat) (chars : str) (r : res (option (nat * list matched))) : Prop :=
    match r with
    | Panic => False
    | OutOfFuel | Ok None => True
    | Ok (Some (n, ms)) => (until = [] -> Good k (skipn n chars)) /\ (until = [PSpaces; rparen] -> exists j, k <= j /\ Closes rest j (skipn n chars)) /\ (top = true -> ms <> [])
    end.
  Lemma until_good f : forall chars until top i k, (forall u, Suffix u chars -> ~ CutOff u) -> until = [] \/ until = [PSpaces; rparen] -> Good k (skipn i chars) ->
    Ends until top k chars (parse_until f chars until top i).
  Proof.
    induction f as [|f IH]; intros chars until top i k HC Hu HG; [exact I|]. cbn [Parse.parse_until].
    destruct (skipn i chars) as [|x rs] eqn:Es; [elim (good_nonempty k [] HG); reflexivity|]. rewrite <- Es in *. assert (Hne : skipn i chars <> []) by (rewrite Es; discriminate). clear Es x rs.
    assert (Stop : forall i', Good k (skipn i' chars) -> Ends until top k chars
      (let own := if top : bool then [plain (firstn i' chars)] else [] in
       if nonempty until then do t <- exec until (skipn i' chars); let '(ms, count, num) := t in if negb (Nat.eqb num (length until)) then Ok None else Ok (Some (i' + count, if top then own ++ ms else []))
       else Ok (Some (i', own)))).
    { intros i' G. cbv zeta. destruct Hu as [-> | ->].
      - cbn. split; [intros _; exact G|]. split; [discriminate|]. intros ->. discriminate.
      - cbn [nonempty]. destruct (exec [PSpaces; rparen] (skipn i' chars)) as [[[ms l] n]| |] eqn:Ex; cbn [rbind]; [| |exact I].
        + destruct (Nat.eqb_spec n (length [PSpaces; rparen])) as [En | En]; cbn [negb]; [|exact I]. split; [discriminate|]. split; [|intros ->; destruct ms; discriminate].
          intros _. destruct (exec_spaces _ _ _ _ _ Ex) as (w & r & ms' & l' & n' & E & Hw & _ & Ex' & -> & El). rewrite skipn_plus, El. rewrite E in G. pose proof (eat k w r (edible_spaces w Hw) G) as G'.
          destruct (exec_char _ _ _ _ _ Ex') as [[_ ->] | (r' & -> & _ & ->)]; [discriminate | exact (eat_close k r' G')].
        + apply panic_spaces in Ex. destruct Ex as (w & u & E & Hw & Ex). apply panic_char in Ex. subst u. rewrite E in G. exact (good_nonempty k [] (eat k w [] (edible_spaces w Hw) G) eq_refl). }
    pose proof (splitter_total wide_digit (skipn i chars)) as Q. destruct (exec_queues splitter (skipn i chars)) as [[[[ms l] n]|]| |] eqn:E1; cbn [rbind]; [| |congruence|exact I].
    - destruct (splitter_cases _ _ _ _ _ E1) as (m & u & -> & E & -> & St). apply IH; [exact HC | exact Hu |]. rewrite skipn_plus, E, skipn_pre. rewrite E in HG. exact (eat k _ u (split_edible _ St) HG).
    - destruct (first_rule rules (skipn i chars)) as [[[[kd qs] [[ms l] n]]|]| |] eqn:E2; cbn [rbind]; [| | |exact I].
      + destruct (first_hit _ _ _ _ _ _ E2) as [Hin Hq]. destruct (queues_hit _ _ _ _ _ _ Hq) as [He Hl]. destruct (rule_moves k kd qs _ ms l n Hin He Hl HG) as [[-> G] | [Hn HM]].
        * rewrite Nat.eqb_refl. cbn [rbind]. apply IH; [exact HC | exact Hu |]. rewrite skipn_plus. exact G.
        * destruct (Nat.eqb_spec n (length qs)) as [En | _]; [congruence|].
          assert (HC' : forall u, Suffix u (skipn (i + l) chars) -> ~ CutOff u) by (intros u X; apply HC; exact (suffix_trans _ _ _ X (suffix_skipn _ _))).
          destruct HM as [[Eu G] | [Eu G]]; rewrite Eu; rewrite <- skipn_plus in G.
          -- pose proof (IH (skipn (i + l) chars) [] false 0 k HC' (or_introl eq_refl) G) as HI. destruct (parse_until f (skipn (i + l) chars) [] false 0) as [[[n' ms']|]| |]; cbn [rbind]; [|exact I|exact HI|exact I].
             apply Stop. rewrite skipn_plus. exact (proj1 HI eq_refl).
          -- pose proof (IH (skipn (i + l) chars) [PSpaces; rparen] false 0 (S k) HC' (or_intror eq_refl) G) as HI. destruct (parse_until f (skipn (i + l) chars) [PSpaces; rparen] false 0) as [[[n' ms']|]| |]; cbn [rbind]; [|exact I|exact HI|exact I].
             apply Stop. rewrite skipn_plus. destruct (proj1 (proj2 HI) eq_refl) as (j & Hj & C). destruct j as [|j]; [lia|]. left. exists j. split; [lia | exact C].
      + cbn [rbind]. apply Stop, HG.
      + exact (HC _ (suffix_skipn i chars) (first_panic wide_digit rules _ (fun _ _ X => X) Hne E2)).
  Qed.
End Closed.

(** * The whole text *)
Section Whole.
  Variable wide_digit : char -> bool.
  Definition Bounded (s : str) : Prop := forall u, Suffix u s -> ~ CutOff u /\ ~ BigIndex u /\ ~ Unclosed u.
  Lemma bounded_skipn n s : Bounded s -> Bounded (skipn n s).
  Proof. intros H u Hu. apply H. exact (suffix_trans _ _ _ Hu (suffix_skipn n s)). Qed.
  Lemma nest_split k qs s ms l n : nest_kind k -> first_rule wide_digit rules s = Ok (Some (k, qs, (ms, l, n))) -> exists mk name v w r, NestName mk name /\ s = name ++ v /\ v = w ++ r /\ Spaces w /\
    skipn l s = r /\ skipn (S n) qs = [PSpaces; rparen] /\ n = 2.
  Proof.
    intros Hk H. destruct (first_hit _ _ _ _ _ _ H) as [Hin Hq]. destruct (queues_hit _ _ _ _ _ _ Hq) as [He Hl].
    assert (N : exists mk name, NestName mk name /\ qs = q_nested name).
    { unfold rules in Hin. cbn [In] in Hin.
      repeat (destruct Hin as [E | Hin]; [injection E as <- <-; first [destruct Hk; discriminate | eexists; eexists; split; [|reflexivity]; constructor]|]). destruct Hin. }
    destruct N as (mk & name & HN & ->). unfold q_nested in He. destruct (exec_inv _ _ _ _ _ _ _ He) as [(_ & -> & _) | (m & ms' & l' & n' & Em & Ex & -> & ->)]; [lia|].
    destruct (got_vec _ _ _ _ Em) as (v & -> & Er). rewrite Er in Ex. destruct (exec_spaces _ _ _ _ _ _ Ex) as (w & r & ms1 & l1 & n1 & -> & Hw & _ & Ex1 & -> & E1).
    destruct (exec_inv _ _ _ _ _ _ _ Ex1) as [(_ & -> & ->) | (m2 & ms2 & l2 & n2 & Em2 & _)]; [|discriminate].
    exists mk, name, (w ++ r), w, r. repeat split; trivial. rewrite skipn_plus, Er. exact E1.
  Qed.
  Lemma loop_bounded f : forall s groups cb prev last, Bounded s -> from_loop wide_digit f s groups cb prev last <> Panic.
  Proof.
    induction f as [|f IH]; intros s groups cb prev last HS; [discriminate|]. rewrite loop_eq. destruct s as [|x s]; [discriminate|]. set (t := x :: s) in *. unfold loop_step.
    destruct (HS t (suffix_refl t)) as (S1 & S2 & S3).
    pose proof (splitter_total wide_digit t) as Q. destruct (exec_queues wide_digit splitter t) as [[[[ms l] n]|]| |] eqn:E1; cbn [rbind]; try congruence.
    - destruct (splitter_cases _ _ _ _ _ E1) as (m & u & -> & _ & _ & St). cbn [rnth nth_error rbind]. destruct (prev_eqb prev PSplitter); [discriminate|].
      destruct (split_comb _ St) as [Ec | (Ec & c & Ec' & _)].
      + rewrite Ec. cbn. destruct (negb (prev_eqb prev PSelector)); [discriminate|]. apply IH, bounded_skipn, HS.
      + destruct (str_eqb (trim (m_chars m)) [44%N]) eqn:Es; [elim Ec; apply (proj1 (str_eqb_spec _ _) Es)|]. rewrite Ec'. cbn [rbind]. apply IH, bounded_skipn, HS.
    - destruct (first_rule wide_digit rules t) as [[[[k qs] [[ms l] n]]|]| |] eqn:E2; cbn [rbind]; try discriminate.
      + destruct (rule_cases _ _ _ _ _ _ _ E2) as (Hl & Hms & Hc). destruct (first_hit _ _ _ _ _ _ E2) as [Hin Hq]. destruct (queues_hit _ _ _ _ _ _ Hq) as [He _].
        destruct (Nat.eqb_spec n (length qs)) as [En | En].
        * destruct Hc as [[_ Hk] | [Hc _]]; [|congruence]. rewrite En in He. destruct (make (parse_with wide_digit f) k ms) as [rl| |] eqn:Em; cbn [rbind]; [apply IH, bounded_skipn, HS | | discriminate].
          destruct (make_panic _ _ _ _ _ _ _ Hin He Em); contradiction.
        * destruct Hc as [[Hc _] | [_ Hc]]; [congruence|]. destruct (nth_error qs n) as [[]|] eqn:Eq; try discriminate. destruct (Hc eq_refl) as (Hk & _). intros HP. apply S3.
          destruct (nest_split k qs t ms l n Hk E2) as (mk & name & v & w & r & HN & Et & Ev & Hw & Er & Eu & ->). exists mk, name, v. split; [exact HN|]. split; [exact Et|]. intros rest C.
          assert (G : Good rest 0 (skipn 0 (skipn l t))).
          { cbn [skipn]. rewrite Er. rewrite Ev in C. left. exists 0. split; [lia | exact (closes_spaces rest 0 w r Hw C)]. }
          pose proof (until_good wide_digit rest (S (length (skipn l t))) (skipn l t) [PSpaces; rparen] true 0 0
            (fun u X => proj1 (HS u (suffix_trans _ _ _ X (suffix_skipn l t)))) (or_intror eq_refl) G) as HE.
          rewrite Eu in HP. revert HP HE. match goal with |- context [parse_until ?a ?b ?c ?d ?e ?g] => generalize (parse_until a b c d e g) end.
          intros [[[n' nested]|]| |] HP HE; cbn [rbind] in HP; [|discriminate|exact HE|discriminate].
          destruct HE as (_ & _ & Hm). specialize (Hm eq_refl). destruct nested as [|m0 nested]; [congruence|].
          assert (M : make (parse_with wide_digit f) k (ms ++ m0 :: nested) <> Panic).
          { assert (R : rnth (ms ++ m0 :: nested) 2 = Ok m0) by (apply rnth_some; rewrite nth_error_app2 by lia; rewrite Hms; reflexivity).
            assert (PW : parse_with wide_digit f (m_chars m0) <> Panic).
            { unfold parse_with. destruct (m_chars m0); [discriminate|]. destruct (from_loop wide_digit f _ [[]] ChildrenAll PBegin PBegin) as [[gs|]| |]; discriminate. }
            destruct Hk as [-> | ->]; cbn [make]; rewrite R; cbn [rbind]; destruct (parse_with wide_digit f (m_chars m0)); cbn [rbind]; congruence. }
          destruct (make (parse_with wide_digit f) k (ms ++ m0 :: nested)) as [rl| |]; cbn [rbind] in HP; [|congruence|discriminate].
          revert HP. apply IH. apply bounded_skipn, bounded_skipn, HS.
      + elim S1. exact (first_panic wide_digit rules t (fun k qs H => H) ltac:(discriminate) E2).
  Qed.
  Theorem from_str_bounded s : Bounded s -> from_str wide_digit s <> Panic.
  Proof. intros H. unfold from_str. destruct s as [|c s]; [discriminate|]. apply loop_bounded, H. Qed.
End Whole.
