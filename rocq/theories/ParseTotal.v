(** The parser on any text: it never runs out of fuel, and what it accepts has the shape of a selector. *)
From Verif Require Import Base Utils Nth NthSpec NthProofs Engine Rules Regex RegexProofs Parse PatProofs NthText TokenProofs SelSpec ParseSpec ParseProofs.

(** * The shape of a parsed selector *)
Definition ast_shape (gs : ast) : Prop := forallb group_wf gs = true /\ forallb group_desc (tl gs) = true.
Inductive RuleShape : rule -> Prop :=
| RS_plain r : match r with RNthChild _ _ | RNthOfType _ _ | RNot _ | RHas _ | RAlias _ => False | _ => True end -> RuleShape r
| RS_alias r : In r [alias_header; alias_input; alias_submit] -> RuleShape r
| RS_nth_child asc f : (fst f = None -> Readable (snd f)) -> RuleShape (RNthChild asc f)
| RS_nth_type asc f : (fst f = None -> Readable (snd f)) -> RuleShape (RNthOfType asc f)
| RS_not n : NestedShape n -> RuleShape (RNot n)
| RS_has n : NestedShape n -> RuleShape (RHas n)
with NestedShape : nested -> Prop :=
| NS_sel gs : ast_shape gs -> (forall g cp r c, In g gs -> In cp g -> In (r, c) cp -> RuleShape r) -> NestedShape (NSel gs)
| NS_err : NestedShape NErr
| NS_panic : NestedShape NPanic.
Definition rules_shape (gs : ast) : Prop := forall g cp r c, In g gs -> In cp g -> In (r, c) cp -> RuleShape r.

Section Total.
  Variable wide_digit : char -> bool.
  Notation pat_matched := (pat_matched wide_digit).
  Notation exec := (exec wide_digit).
  Notation exec_queues := (exec_queues wide_digit).
  Notation first_rule := (first_rule wide_digit).
  Notation parse_until := (parse_until wide_digit).
  Notation from_loop := (from_loop wide_digit).

  (** * Matching never runs out of fuel *)
  Lemma pat_fuel q s : pat_matched q s <> OutOfFuel.
  Proof.
    destruct q; cbn [Parse.pat_matched]; try discriminate.
    - destruct s; discriminate.
    - destruct s as [|x s]; [discriminate|]. destruct (is_ascii_upper x || is_ascii_lower x || char_eqb x 95%N); [|discriminate].
      destruct (identity_loop (x :: s) false); discriminate.
  Qed.
  Lemma exec_fuel qs : forall s, exec qs s <> OutOfFuel.
  Proof.
    induction qs as [|q qs IH]; intros s; [discriminate|]. cbn [Parse.exec]. pose proof (pat_fuel q s). destruct (pat_matched q s) as [[m|]| |]; cbn [rbind]; try congruence.
    pose proof (IH (skipn (length (m_chars m) + m_ignore m) s)). destruct (exec qs (skipn (length (m_chars m) + m_ignore m) s)) as [[[ms l] n]| |]; cbn [rbind]; congruence.
  Qed.
  Lemma queues_fuel qs s : exec_queues qs s <> OutOfFuel.
  Proof. unfold Parse.exec_queues. pose proof (exec_fuel qs s). destruct (exec qs s) as [[[ms l] n]| |]; cbn [rbind]; congruence. Qed.
  Lemma first_fuel rs s : first_rule rs s <> OutOfFuel.
  Proof.
    induction rs as [|[k qs] rs IH]; [discriminate|]. cbn [Parse.first_rule]. pose proof (queues_fuel qs s). destruct (exec_queues qs s) as [[t|]| |]; cbn [rbind]; congruence.
  Qed.

  (** What a match says. *)
  Lemma exec_counts qs : forall s ms l n, exec qs s = Ok (ms, l, n) -> length ms = n /\ n <= length qs /\ forall q, nth_error qs n = Some q -> pat_matched q (skipn l s) = Ok None.
  Proof.
    induction qs as [|q qs IH]; intros s ms l n H; cbn [Parse.exec] in H.
    - injection H as <- <- <-. split; [reflexivity|]. split; [reflexivity | discriminate].
    - destruct (pat_matched q s) as [[m|]| |] eqn:E; cbn [rbind] in H; [| |discriminate..].
      + set (len := length (m_chars m) + m_ignore m) in *. destruct (exec qs (skipn len s)) as [[[ms' l'] n']| |] eqn:E'; cbn [rbind] in H; [|discriminate..].
        injection H as <- <- <-. destruct (IH _ _ _ _ E') as (H1 & H2 & H3). split; [cbn; lia|]. split; [cbn; lia|].
        intros q' Hq. cbn [nth_error] in Hq. rewrite <- (H3 q' Hq). f_equal. clear. revert s. induction len as [|k IHk]; intros s; [reflexivity|]. destruct s; [rewrite !skipn_nil; reflexivity|]. exact (IHk s).
      + injection H as <- <- <-. split; [reflexivity|]. split; [lia|]. intros q' Hq. cbn in Hq. injection Hq as <-. exact E.
  Qed.
  Lemma queues_hit qs s ms l n : exec_queues qs s = Ok (Some (ms, l, n)) -> exec qs s = Ok (ms, l, n) /\ 0 < l.
  Proof.
    unfold Parse.exec_queues. destruct (exec qs s) as [[[ms' l'] n']| |]; cbn [rbind]; [|discriminate..]. destruct (0 <? l') eqn:E; [|discriminate].
    intros H. injection H as -> -> ->. split; [reflexivity | apply Nat.ltb_lt, E].
  Qed.
  Lemma first_hit rs s k qs t : first_rule rs s = Ok (Some (k, qs, t)) -> In (k, qs) rs /\ exec_queues qs s = Ok (Some t).
  Proof.
    induction rs as [|[k' qs'] rs IH]; cbn [Parse.first_rule]; [discriminate|]. destruct (exec_queues qs' s) as [[t'|]| |] eqn:E; cbn [rbind]; intros H; [| |discriminate..].
    - injection H as <- <- <-. split; [left; reflexivity | exact E].
    - destruct (IH H) as [H1 H2]. split; [right; exact H1 | exact H2].
  Qed.

  (** The rules with a nested text: a match stops in front of it. *)
  Definition nest_kind (k : kind) : Prop := k = KNot \/ k = KHas.
  Lemma rules_nested k qs : In (k, qs) rules -> nest_kind k -> exists name, qs = q_nested name /\ 0 < length name.
  Proof.
    intros H Hk. unfold rules in H. cbn [In] in H.
    repeat (destruct H as [H | H]; [injection H as <- <-; first [destruct Hk; discriminate | eexists; split; [reflexivity | apply Nat.ltb_lt; reflexivity]]|]). destruct H.
  Qed.
  Lemma rules_plain k qs : In (k, qs) rules -> ~ nest_kind k -> ~ In PNested qs.
  Proof.
    intros H Hk. unfold rules in H. cbn [In] in H.
    repeat (destruct H as [H | H]; [injection H as <- <-; try (exfalso; apply Hk; unfold nest_kind; tauto); cbn; intuition discriminate|]). destruct H.
  Qed.
  Lemma nested_stop name s ms l n : exec (q_nested name) s = Ok (ms, l, n) -> n <= 2.
  Proof.
    unfold q_nested. intros H. cbn [Parse.exec Parse.pat_matched] in H. destruct (starts_with s name); cbn [rbind m_chars m_ignore plain] in H; injection H as <- <- <-; lia.
  Qed.
  Lemma rule_cases s k qs ms l n : first_rule rules s = Ok (Some (k, qs, (ms, l, n))) ->
    0 < l /\ length ms = n /\
    (n = length qs /\ ~ nest_kind k \/ n <> length qs /\ (nth_error qs n = Some PNested -> nest_kind k /\ n = 2 /\ qs = q_nested (match qs with PVec v :: _ => v | _ => [] end))).
  Proof.
    intros H. destruct (first_hit _ _ _ _ _ H) as [Hin Hq]. destruct (queues_hit _ _ _ _ _ Hq) as [He Hl]. destruct (exec_counts _ _ _ _ _ He) as (H1 & H2 & H3).
    split; [exact Hl|]. split; [exact H1|].
    assert (Hd : nest_kind k \/ ~ nest_kind k) by (unfold nest_kind; destruct k; try (right; intros [X | X]; discriminate); left; tauto).
    destruct Hd as [Hk | Hk].
    - destruct (rules_nested k qs Hin Hk) as (name & -> & _). pose proof (nested_stop name s ms l n He) as Hn. right. split; [cbn; lia|]. intros Hx. split; [exact Hk|].
      split; [|reflexivity]. destruct n as [|[|[|n]]]; [discriminate | discriminate | reflexivity | lia].
    - pose proof (rules_plain k qs Hin Hk) as Hp. destruct (Nat.eq_dec n (length qs)) as [En | En]; [left; split; assumption|]. right. split; [exact En|].
      intros Hx. elim Hp. exact (nth_error_In _ _ Hx).
  Qed.

  (** * Fuel *)
  Lemma skipn_len {A} n (l : list A) : length (skipn n l) = length l - n.
  Proof. apply skipn_length. Qed.
  Lemma until_fuel f : forall chars until top i, length (skipn i chars) < f -> parse_until f chars until top i <> OutOfFuel.
  Proof.
    induction f as [|f IH]; intros chars until top i Hf; [lia|]. cbn [Parse.parse_until].
    destruct (skipn i chars) as [|x rest] eqn:Es; [discriminate|]. rewrite <- Es in *.
    assert (Lp : 0 < length (skipn i chars)) by (rewrite Es; cbn; lia).
    pose proof (queues_fuel splitter (skipn i chars)) as Q. destruct (exec_queues splitter (skipn i chars)) as [[[[ms l] n]|]| |] eqn:E1; cbn [rbind]; try congruence.
    - apply IH. destruct (queues_hit _ _ _ _ _ E1) as [_ Hl]. rewrite skipn_len in *. slia.
    - pose proof (first_fuel rules (skipn i chars)) as R. destruct (first_rule rules (skipn i chars)) as [[[[k qs] [[ms l] n]]|]| |] eqn:E2; cbn [rbind]; try congruence.
      + destruct (rule_cases _ _ _ _ _ _ E2) as (Hl & _ & _). destruct (Nat.eqb n (length qs)); cbn [rbind].
        * apply IH. rewrite skipn_len in *. slia.
        * assert (L : length (skipn 0 (skipn (i + l) chars)) < f) by (cbn [skipn]; rewrite skipn_len in *; slia).
          pose proof (IH (skipn (i + l) chars) (skipn (S n) qs) false 0 L) as R'.
          destruct (parse_until f (skipn (i + l) chars) (skipn (S n) qs) false 0) as [[[m ms']|]| |]; cbn [rbind]; try congruence.
          destruct (nonempty until); [|congruence]. pose proof (exec_fuel until (skipn (i + l + m) chars)) as Q'.
          destruct (exec until (skipn (i + l + m) chars)) as [[[ms2 c2] n2]| |]; cbn [rbind]; try congruence. destruct (negb (n2 =? length until)); congruence.
      + destruct (nonempty until); [|congruence]. pose proof (exec_fuel until (skipn i chars)) as Q'.
        destruct (exec until (skipn i chars)) as [[[ms2 c2] n2]| |]; cbn [rbind]; try congruence. destruct (negb (n2 =? length until)); congruence.
  Qed.
  (** The text of a nested pseudo class is part of what is left. *)
  Lemma until_own f : forall chars until i n ms, parse_until f chars until true i = Ok (Some (n, ms)) -> ms <> [] ->
    exists own ms', ms = plain own :: ms' /\ length own <= length chars.
  Proof.
    induction f as [|f IH]; intros chars until i n ms H Hm; [discriminate|]. cbn [Parse.parse_until] in H.
    destruct (skipn i chars) as [|x rest] eqn:Es; [injection H as <- <-; congruence|]. rewrite <- Es in *.
    destruct (exec_queues splitter (skipn i chars)) as [[[[ms1 l1] n1]|]| |]; cbn [rbind] in H; try discriminate; [exact (IH _ _ _ _ _ H Hm)|].
    assert (F : forall idx, (if nonempty until then do t <- exec until (skipn idx chars); let '(ms, count, num) := t in
                      if negb (Nat.eqb num (length until)) then Ok None else Ok (Some (idx + count, [plain (firstn idx chars)] ++ ms))
                    else Ok (Some (idx, [plain (firstn idx chars)]))) = Ok (Some (n, ms)) -> exists own ms', ms = plain own :: ms' /\ length own <= length chars).
    { intros idx G. exists (firstn idx chars). assert (L : length (firstn idx chars) <= length chars) by (rewrite firstn_length; lia). destruct (nonempty until).
      - destruct (exec until (skipn idx chars)) as [[[ms2 c2] n2]| |]; cbn [rbind] in G; [|discriminate..]. destruct (negb (n2 =? length until)); [discriminate|].
        injection G as <- <-. exists ms2. split; [reflexivity | exact L].
      - injection G as <- <-. exists []. split; [reflexivity | exact L]. }
    destruct (first_rule rules (skipn i chars)) as [[[[k qs] [[ms1 l] n1]]|]| |]; cbn [rbind] in H; try discriminate; [|exact (F i H)].
    destruct (Nat.eqb n1 (length qs)); cbn [rbind] in H; [exact (IH _ _ _ _ _ H Hm)|].
    destruct (parse_until f (skipn (i + l) chars) (skipn (S n1) qs) false 0) as [[[m ms']|]| |]; cbn [rbind] in H; try discriminate. exact (F _ H).
  Qed.
  Lemma make_fuel parse k data : (nest_kind k -> forall m, nth_error data 2 = Some m -> parse (m_chars m) <> OutOfFuel) -> make parse k data <> OutOfFuel.
  Proof.
    intros H.
    assert (R : forall i, rnth data i = match nth_error data i with Some m => Ok m | None => Panic end) by (intros i; unfold rnth; destruct (nth_error data i); reflexivity).
    assert (FF : forall m, make_formula m <> OutOfFuel).
    { intros m. unfold make_formula, chk. destruct (m_n m); destruct (m_index m); try discriminate. destruct ((isize_min <=? parse_isize s) && (parse_isize s <=? isize_max))%Z; discriminate. }
    destruct k; cbn [make]; try discriminate.
    - rewrite R. destruct (nth_error data 1); discriminate.
    - rewrite R. destruct (nth_error data 1); discriminate.
    - rewrite R. destruct (nth_error data 0); discriminate.
    - unfold make_attr. rewrite !R. destruct (nth_error data 2); [|discriminate]. destruct (nth_error data 4); discriminate.
    - rewrite R. destruct (nth_error data 2) as [m|]; [|discriminate]. cbn [rbind]. pose proof (FF m). destruct (make_formula m); cbn; congruence.
    - rewrite R. destruct (nth_error data 2) as [m|]; [|discriminate]. cbn [rbind]. pose proof (FF m). destruct (make_formula m); cbn; congruence.
    - rewrite R. destruct (nth_error data 2) as [m|]; [|discriminate]. cbn [rbind]. pose proof (H (or_introl eq_refl) m eq_refl). destruct (parse (m_chars m)); cbn; congruence.
    - rewrite R. destruct (nth_error data 2) as [m|]; [|discriminate]. cbn [rbind]. unfold make_contains. destruct (m_chars m) as [|c cs]; [discriminate|].
      destruct (char_eqb c 34%N || char_eqb c 39%N); [|discriminate]. destruct (removelast (c :: cs)); discriminate.
    - rewrite R. destruct (nth_error data 2) as [m|]; [|discriminate]. cbn [rbind]. pose proof (H (or_intror eq_refl) m eq_refl). destruct (parse (m_chars m)); cbn; congruence.
  Qed.
  Lemma comb_fuel op : comb_from op <> OutOfFuel.
  Proof. unfold comb_from. repeat match goal with |- context [match ?x with _ => _ end] => destruct x; try discriminate end. Qed.

  Definition parse_with (f : nat) (t : str) : res nested :=
    match t with
    | [] => Ok (NSel [])
    | _ :: _ =>
        match from_loop f t [[]] ChildrenAll PBegin PBegin with
        | Ok (Some gs) => Ok (NSel gs)
        | Ok None => Ok NErr
        | Panic => Ok NPanic
        | OutOfFuel => OutOfFuel
        end
    end.
  (** One round of the loop. *)
  Definition loop_step (f : nat) (s : str) (groups : ast) (cb : comb) (prev last : prev_in) : res (option ast) :=
    do sp <- exec_queues splitter s;
    match sp with
    | Some (ms, len, _) =>
        do m <- rnth ms 0;
        let op := trim (m_chars m) in
        if prev_eqb prev PSplitter then Ok None
        else if str_eqb op [44%N] then
          if negb (prev_eqb prev PSelector) then Ok None
          else from_loop f (skipn len s) (add_group groups) ChildrenAll PSplitter PSplitter
        else
          do cb' <- comb_from op;
          from_loop f (skipn len s) groups cb' PSplitter (if nonempty op then PSplitter else prev)
    | None =>
        let is_new := negb (prev_eqb prev PSelector) in
        let cb := if is_new then cb else Chain in
        do r <- first_rule rules s;
        match r with
        | None => Ok None
        | Some (k, qs, (ms, len, num)) =>
            if Nat.eqb num (length qs) then
              do rl <- make (parse_with f) k ms;
              from_loop f (skipn len s) (add_group_item groups (rl, cb) is_new) cb PSelector PSelector
            else
              match nth_error qs num with
              | Some PNested =>
                  do inner <- parse_until (S (length (skipn len s))) (skipn len s) (skipn (S num) qs) true 0;
                  match inner with
                  | None => Ok None
                  | Some (n, nested) =>
                      do rl <- make (parse_with f) k (ms ++ nested);
                      from_loop f (skipn n (skipn len s)) (add_group_item groups (rl, cb) is_new) cb PSelector PSelector
                  end
              | _ => Ok None
              end
        end
    end.
  Lemma loop_eq f s groups cb prev last : from_loop (S f) s groups cb prev last =
    match s with [] => Ok (if prev_eqb last PSelector then Some groups else None) | _ :: _ => loop_step f s groups cb prev last end.
  Proof. reflexivity. Qed.

  Lemma loop_fuel f : forall s groups cb prev last, length s < f -> from_loop f s groups cb prev last <> OutOfFuel.
  Proof.
    induction f as [|f IH]; intros s groups cb prev last Hf; [lia|]. rewrite loop_eq.
    assert (PW : forall t, length t < f -> parse_with f t <> OutOfFuel).
    { intros t Ht. unfold parse_with. destruct t as [|x t]; [discriminate|]. pose proof (IH (x :: t) [[]] ChildrenAll PBegin PBegin Ht) as N.
      destruct (from_loop f (x :: t) [[]] ChildrenAll PBegin PBegin) as [[gs|]| |]; congruence. }
    destruct s as [|x s]; [discriminate|]. set (t := x :: s) in *. assert (Lp : 0 < length t) by (cbn; lia). unfold loop_step.
    pose proof (queues_fuel splitter t) as Q. destruct (exec_queues splitter t) as [[[[ms l] n]|]| |] eqn:E1; cbn [rbind]; try congruence.
    - destruct (queues_hit _ _ _ _ _ E1) as [_ Hl]. assert (L : length (skipn l t) < f) by (rewrite skipn_len; lia).
      assert (R : rnth ms 0 <> OutOfFuel) by (unfold rnth; destruct (nth_error ms 0); discriminate). destruct (rnth ms 0) as [m| |]; cbn [rbind]; try congruence.
      destruct (prev_eqb prev PSplitter); [congruence|]. destruct (str_eqb (trim (m_chars m)) [44%N]).
      + destruct (negb (prev_eqb prev PSelector)); [congruence|]. exact (IH _ _ _ _ _ L).
      + pose proof (comb_fuel (trim (m_chars m))). destruct (comb_from (trim (m_chars m))); cbn [rbind]; try congruence. exact (IH _ _ _ _ _ L).
    - pose proof (first_fuel rules t) as R. destruct (first_rule rules t) as [[[[k qs] [[ms l] n]]|]| |] eqn:E2; cbn [rbind]; try congruence.
      destruct (rule_cases _ _ _ _ _ _ E2) as (Hl & Hms & Hc). assert (L : length (skipn l t) < f) by (rewrite skipn_len; lia).
      destruct (Nat.eqb_spec n (length qs)) as [En | En].
      + destruct Hc as [[_ Hk] | [Hc _]]; [|congruence]. assert (M : make (parse_with f) k ms <> OutOfFuel) by (apply make_fuel; intros H; contradiction).
        destruct (make (parse_with f) k ms); cbn [rbind]; try congruence. exact (IH _ _ _ _ _ L).
      + destruct Hc as [[Hc _] | [_ Hc]]; [congruence|]. destruct (nth_error qs n) as [[]|] eqn:Eq; try congruence. destruct (Hc eq_refl) as (Hk & Hn & _).
        assert (L0 : length (skipn 0 (skipn l t)) < S (length (skipn l t))) by (cbn [skipn]; lia).
        pose proof (until_fuel _ (skipn l t) (skipn (S n) qs) true 0 L0) as U.
        destruct (parse_until (S (length (skipn l t))) (skipn l t) (skipn (S n) qs) true 0) as [[[m nested]|]| |] eqn:E3; cbn [rbind]; try congruence.
        assert (M : make (parse_with f) k (ms ++ nested) <> OutOfFuel).
        { apply make_fuel. intros _ m' Hm'. rewrite nth_error_app2 in Hm' by lia. rewrite Hms, Hn in Hm'. cbn in Hm'.
          destruct nested as [|n0 nested]; [discriminate|]. injection Hm' as <-. destruct (until_own _ _ _ _ _ _ E3 ltac:(discriminate)) as (own & ms' & E4 & L4).
          injection E4 as -> ->. cbn [m_chars plain]. apply PW. slia. }
        destruct (make (parse_with f) k (ms ++ nested)); cbn [rbind]; try congruence. apply IH. rewrite skipn_len. slia.
  Qed.
  Theorem from_str_fuel s : from_str wide_digit s <> OutOfFuel.
  Proof. unfold from_str. destruct s; [discriminate|]. apply loop_fuel. lia. Qed.

  (** * Splitters *)
  Inductive SplitText : str -> Prop :=
  | ST_blank w : Blank w -> w <> [] -> SplitText w
  | ST_sign w1 o w2 : Blank w1 -> In o (lit ">,~+") -> Blank w2 -> SplitText (w1 ++ o :: w2).
  Lemma existsb_char c l : existsb (char_eqb c) l = true -> In c l.
  Proof. intros H. apply existsb_exists in H. destruct H as (d & Hd & E). apply N.eqb_eq in E. subst d. exact Hd. Qed.
  Lemma splitter_cases s ms l n : exec_queues splitter s = Ok (Some (ms, l, n)) ->
    exists m u, ms = [m] /\ s = m_chars m ++ u /\ l = length (m_chars m) /\ SplitText (m_chars m).
  Proof.
    intros H. destruct (queues_hit _ _ _ _ _ H) as [E _]. unfold splitter in E. cbn [Parse.exec Parse.pat_matched] in E.
    destruct (re_exec re_splitter s) as [[w c]|] eqn:R; cbn [rbind m_chars m_ignore] in E.
    - injection E as <- <- <-. destruct (re_exec_lang _ _ _ _ R) as [L (u & ->)]. exists (mkMatched w 0 c None None), u. cbn [m_chars].
      split; [reflexivity|]. split; [reflexivity|]. split; [lia|]. unfold re_splitter in L. apply lang_grp in L. destruct L as (c1 & L & _). apply lang_alt in L. destruct L as [L | L].
      + cbn [rseqs] in L. apply lang_seq in L. destruct L as (w1 & v & c2 & -> & L1 & L). apply lang_seq in L. destruct L as (o & w2 & c3 & -> & Lo & L2).
        apply lang_chr in Lo. destruct Lo as (x & -> & Hx & _). apply ST_sign; [exact (proj1 (lang_star_chr _ _ _ _ _ L1)) | exact (existsb_char x _ Hx) | exact (proj1 (lang_star_chr _ _ _ _ _ L2))].
      + apply lang_seq in L. destruct L as (w1 & v & c2 & -> & L1 & L). apply lang_chr in L1. destruct L1 as (x & -> & Hx & _).
        apply ST_blank; [constructor; [exact Hx | exact (proj1 (lang_star_chr _ _ _ _ _ L))] | discriminate].
    - injection E as <- <- <-. unfold Parse.exec_queues in H. cbn [Parse.exec splitter Parse.pat_matched] in H. rewrite R in H. discriminate.
  Qed.
  Lemma op_not_ws o : In o (lit ">,~+") -> is_unicode_ws o = false.
  Proof. cbn. intros H. repeat (destruct H as [<- | H]; [reflexivity|]). destruct H. Qed.
  Lemma split_comb w : SplitText w -> trim w = [44%N] \/ trim w <> [44%N] /\ exists c, comb_from (trim w) = Ok c /\ fwd c = true /\ (trim w = [] -> c = ChildrenAll) /\
    (trim w <> [] -> exists w1 o v, w = w1 ++ o :: v /\ Blank w1 /\ is_op o = true).
  Proof.
    intros [w' Hw Hn | w1 o w2 H1 Ho H2].
    - right. rewrite (trim_blank w' Hw). split; [discriminate|]. exists ChildrenAll. repeat split; congruence.
    - pose proof (trim_sign w1 o w2 H1 (op_not_ws o Ho) H2) as T. unfold str, char in *. rewrite T.
      cbn in Ho. destruct Ho as [<- | [<- | [<- | [<- | []]]]]; [| left; reflexivity | |]; right; (split; [discriminate|]); eexists; (split; [reflexivity|]);
        (split; [reflexivity|]); (split; [discriminate|]); intros _; eexists; eexists; eexists; (split; [reflexivity | split; [exact H1 | reflexivity]]).
  Qed.

  (** * Shape *)
  Definition shape_of (d : bool) (gs : ast) : Prop := Forall (fun g : list (list (rule * comb)) => group_wf g = true) gs /\ Forall (fun g : list (list (rule * comb)) => group_desc g = true) (if d then gs else tl gs).
  Lemma shape_ast gs d : shape_of d gs -> ast_shape gs.
  Proof.
    intros [H1 H2]. split; apply forallb_forall; apply Forall_forall; [exact H1|]. destruct d; [|exact H2]. destruct gs as [|g gs]; [constructor|]. inversion H2; assumption.
  Qed.
  Lemma shape_sel gs : shape_of true gs -> sel_wf gs = true.
  Proof.
    intros [H1 H2]. apply forallb_forall. intros g Hg. rewrite Forall_forall in H1, H2. rewrite (H1 g Hg), (H2 g Hg). reflexivity.
  Qed.
  (** Changing the last group keeps the shape if the group keeps it. *)
  Lemma tl_snoc {A} (l : list A) x : tl (l ++ [x]) = match l with [] => [] | _ => tl l ++ [x] end.
  Proof. destruct l; reflexivity. Qed.
  Lemma shape_snoc d gs g : shape_of d (gs ++ [g]) <-> shape_of d gs /\ group_wf g = true /\ (gs <> [] \/ d = true -> group_desc g = true).
  Proof.
    unfold shape_of. rewrite Forall_app, tl_snoc.
    assert (F1 : forall (P : list (list (rule * comb)) -> Prop) x, Forall P [x] <-> P x) by (intros P x; split; [intros H; inversion H; assumption | intros H; constructor; [exact H | constructor]]).
    rewrite F1. destruct d.
    - rewrite Forall_app, F1. split; [intros ((H1 & H2) & H3 & H4); repeat split; trivial | intros ((H1 & H2) & H3 & H4); repeat split; trivial; apply H4; right; reflexivity].
    - destruct gs as [|g0 gs].
      + split; [intros ((H1 & H2) & H3); repeat split; trivial; intros [H | H]; congruence | intros ((H1 & H2) & H3 & H4); repeat split; trivial].
      + cbn [tl]. rewrite Forall_app, F1. split; [intros ((H1 & H2) & H3 & H4); repeat split; trivial | intros ((H1 & H2) & H3 & H4); repeat split; trivial; apply H4; left; discriminate].
  Qed.
  Lemma wf_chain (g : list (list (rule * comb))) cp r : group_wf (g ++ [cp]) = true -> group_wf (g ++ [cp ++ [(r, Chain)]]) = true /\ (group_desc (g ++ [cp]) = true -> group_desc (g ++ [cp ++ [(r, Chain)]]) = true).
  Proof.
    unfold group_wf. rewrite !andb_true_iff, !forallb_app. cbn [forallb]. rewrite !andb_true_iff. intros (_ & H1 & H2 & _).
    assert (Hc : comp_wf (cp ++ [(r, Chain)]) = true).
    { destruct cp as [|[r0 c0] cp]; [discriminate|]. cbn [comp_wf app] in *. apply andb_true_iff in H2. destruct H2 as [H2 H3]. rewrite H2, forallb_app, H3. reflexivity. }
    split; [split; [destruct g; reflexivity | split; [exact H1 | split; [exact Hc | reflexivity]]]|]. destruct g as [|cp0 g]; [|trivial]. cbn [app group_desc]. destruct cp as [|[r0 c0] cp]; [discriminate | trivial].
  Qed.
  Lemma wf_new (g : list (list (rule * comb))) c r : (g = [] \/ group_wf g = true) -> fwd c = true -> group_wf (g ++ [[(r, c)]]) = true.
  Proof.
    intros H Hc. unfold group_wf. rewrite forallb_app. cbn [forallb comp_wf]. rewrite Hc. cbn. rewrite andb_true_r, andb_true_iff.
    split; [destruct g; reflexivity|]. destruct H as [-> | H]; [reflexivity|]. unfold group_wf in H. apply andb_true_iff in H. apply H.
  Qed.

  Definition Inv (d : bool) (groups : ast) (cb : comb) (prev last : prev_in) : Prop :=
    match prev with
    | PBegin => groups = [[]] /\ cb = ChildrenAll /\ last = PBegin
    | PSelector => shape_of d groups /\ groups <> [] /\ last = PSelector
    | PSplitter => fwd cb = true /\
        (shape_of d groups /\ groups <> [] \/ exists gs, groups = gs ++ [[]] /\ shape_of d gs /\ (gs <> [] \/ d = true -> cb = ChildrenAll) /\ last <> PSelector)
    end.
  Lemma snoc_cases {A} (l : list A) : l <> [] -> exists l' x, l = l' ++ [x].
  Proof. intros H. destruct (exists_last H) as (l' & x & E). exists l', x. exact E. Qed.
  Lemma group_snoc (g : list (list (rule * comb))) : group_wf g = true -> exists g' cp, g = g' ++ [cp].
  Proof. intros H. apply snoc_cases. intros ->. discriminate. Qed.
  Lemma inv_item d groups cb prev last r : Inv d groups cb prev last ->
    shape_of d (add_group_item groups (r, if negb (prev_eqb prev PSelector) then cb else Chain) (negb (prev_eqb prev PSelector))) /\
    add_group_item groups (r, if negb (prev_eqb prev PSelector) then cb else Chain) (negb (prev_eqb prev PSelector)) <> [].
  Proof.
    destruct prev; cbn [Inv prev_eqb negb].
    - intros (-> & -> & _). split; [|discriminate]. cbn. destruct d; (split; repeat constructor).
    - intros (Hf & [[Hs Hn] | (gs & -> & Hs & Hc & _)]).
      + destruct (snoc_cases groups Hn) as (gs & g & ->). rewrite add_new. split; [|destruct gs; discriminate]. apply shape_snoc in Hs. destruct Hs as (H1 & H2 & H3).
        apply shape_snoc. split; [exact H1|]. split; [apply wf_new; [right; exact H2 | exact Hf]|]. intros H. specialize (H3 H). destruct g as [|cp g]; [discriminate | exact H3].
      + rewrite add_new. split; [|destruct gs; discriminate]. apply shape_snoc. split; [exact Hs|]. split; [apply wf_new; [left; reflexivity | exact Hf]|].
        intros H. rewrite (Hc H). reflexivity.
    - intros (Hs & Hn & _). destruct (snoc_cases groups Hn) as (gs & g & ->). apply shape_snoc in Hs. destruct Hs as (H1 & H2 & H3).
      destruct (group_snoc g H2) as (g' & cp & ->). rewrite add_chain. split; [|destruct gs; discriminate]. destruct (wf_chain g' cp r H2) as [W1 W2]. apply shape_snoc.
      split; [exact H1|]. split; [exact W1 | intros H; exact (W2 (H3 H))].
  Qed.

  Lemma in_last_snoc {A} (f : A -> A) (l : list A) x : In x (on_last f l) -> In x l \/ exists y, In y l /\ x = f y.
  Proof.
    intros H. destruct l as [|a l]; [destruct H|]. destruct (snoc_cases (a :: l) ltac:(discriminate)) as (l' & z & E). rewrite E in *. rewrite on_last_snoc in H.
    apply in_app_iff in H. destruct H as [H | [<- | []]]; [left; apply in_app_iff; left; exact H | right; exists z; split; [apply in_app_iff; right; left; reflexivity | reflexivity]].
  Qed.
  Lemma rules_item groups r c is_new : rules_shape groups -> RuleShape r -> rules_shape (add_group_item groups (r, c) is_new).
  Proof.
    intros H Hr g cp r' c' Hg Hcp Hin. unfold add_group_item in Hg. apply in_last_snoc in Hg. destruct Hg as [Hg | (g0 & Hg0 & ->)]; [exact (H g cp r' c' Hg Hcp Hin)|].
    destruct is_new.
    - apply in_app_iff in Hcp. destruct Hcp as [Hcp | [<- | []]]; [exact (H g0 cp r' c' Hg0 Hcp Hin)|]. destruct Hin as [E | []]. injection E as <- <-. exact Hr.
    - apply in_last_snoc in Hcp. destruct Hcp as [Hcp | (cp0 & Hcp0 & ->)]; [exact (H g0 cp r' c' Hg0 Hcp Hin)|].
      apply in_app_iff in Hin. destruct Hin as [Hin | [E | []]]; [exact (H g0 cp0 r' c' Hg0 Hcp0 Hin)|]. injection E as <- <-. exact Hr.
  Qed.
  Lemma rules_group groups : rules_shape groups -> rules_shape (add_group groups).
  Proof. intros H g cp r c Hg Hcp Hin. apply in_app_iff in Hg. destruct Hg as [Hg | [<- | []]]; [exact (H g cp r c Hg Hcp Hin) | destruct Hcp]. Qed.
  Lemma make_shape parse k data r : (forall t n, parse t = Ok n -> NestedShape n) -> make parse k data = Ok r -> RuleShape r.
  Proof.
    intros H E.
    assert (FF : forall m f, make_formula m = Ok f -> fst f = None -> Readable (snd f)).
    { intros m f Em Ef. unfold make_formula in Em. destruct (m_n m); destruct (m_index m) as [i|]; try discriminate; [injection Em as <-; discriminate | injection Em as <-; discriminate|].
      unfold chk in Em. destruct ((isize_min <=? parse_isize i) && (parse_isize i <=? isize_max))%Z eqn:Ez; [|discriminate]. cbn [rbind] in Em. injection Em as <-. cbn [snd].
      apply andb_true_iff in Ez. rewrite !Z.leb_le in Ez. unfold Readable, isize_min, isize_max in *. lia. }
    destruct k; cbn [make] in E;
      try (injection E as <-; apply RS_plain; exact I);
      try (injection E as <-; apply RS_alias; first [left; reflexivity | right; left; reflexivity | right; right; left; reflexivity]);
      try (destruct (rnth data 1); cbn [rbind] in E; [injection E as <-; apply RS_plain; exact I | discriminate..]);
      try (destruct (rnth data 0); cbn [rbind] in E; [injection E as <-; apply RS_plain; exact I | discriminate..]).
    - unfold make_attr in E. destruct (rnth data 2); cbn [rbind] in E; [|discriminate..]. destruct (rnth data 4); cbn [rbind] in E; [|discriminate..]. injection E as <-. apply RS_plain; exact I.
    - destruct (rnth data 2) as [m| |]; cbn [rbind] in E; [|discriminate..]. destruct (make_formula m) as [f| |] eqn:Em; cbn [rbind] in E; [|discriminate..]. injection E as <-. apply RS_nth_child. exact (FF m f Em).
    - destruct (rnth data 2) as [m| |]; cbn [rbind] in E; [|discriminate..]. destruct (make_formula m) as [f| |] eqn:Em; cbn [rbind] in E; [|discriminate..]. injection E as <-. apply RS_nth_type. exact (FF m f Em).
    - destruct (rnth data 2) as [m| |]; cbn [rbind] in E; [|discriminate..]. destruct (parse (m_chars m)) as [n| |] eqn:En; cbn [rbind] in E; [|discriminate..]. injection E as <-. apply RS_not. exact (H _ _ En).
    - destruct (rnth data 2) as [m| |]; cbn [rbind] in E; [|discriminate..]. unfold make_contains in E. destruct (m_chars m) as [|c cs]; [injection E as <-; apply RS_plain; exact I|].
      destruct (char_eqb c 34%N || char_eqb c 39%N); [destruct (removelast (c :: cs)); [discriminate|]|]; injection E as <-; apply RS_plain; exact I.
    - destruct (rnth data 2) as [m| |]; cbn [rbind] in E; [|discriminate..]. destruct (parse (m_chars m)) as [n| |] eqn:En; cbn [rbind] in E; [|discriminate..]. injection E as <-. apply RS_has. exact (H _ _ En).
  Qed.

  (** With [d], the text does not start with a combinator sign. *)
  Definition Lead0 (d : bool) (s : str) (prev : prev_in) : Prop := prev = PBegin -> d = true -> heads is_op (drop_ws s) = false.
  Lemma loop_shape f : forall d s groups cb prev last gs, from_loop f s groups cb prev last = Ok (Some gs) -> Lead0 d s prev -> Inv d groups cb prev last -> rules_shape groups ->
    shape_of d gs /\ gs <> [] /\ rules_shape gs.
  Proof.
    induction f as [|f IH]; intros d s groups cb prev last gs H HL HI HR; [discriminate|]. rewrite loop_eq in H.
    destruct s as [|x s].
    { destruct (prev_eqb last PSelector) eqn:El; [|discriminate]. injection H as <-. destruct prev; cbn [Inv] in HI.
      - destruct HI as (_ & _ & ->). discriminate.
      - destruct HI as (_ & [[H1 H2] | (gs & _ & _ & _ & H4)]); [repeat split; [apply H1 | apply H1 | exact H2 | exact HR]|]. destruct last; try discriminate. congruence.
      - destruct HI as (H1 & H2 & _). split; [exact H1|]. split; [exact H2 | exact HR]. }
    set (t := x :: s) in *. unfold loop_step in H.
    assert (PW : forall u n, parse_with f u = Ok n -> NestedShape n).
    { intros u n Hu. unfold parse_with in Hu. destruct u as [|y u]; [injection Hu as <-; constructor; [split; reflexivity | intros g cp r c []]|].
      destruct (from_loop f (y :: u) [[]] ChildrenAll PBegin PBegin) as [[gs'|]| |] eqn:E; [|injection Hu as <-; constructor | injection Hu as <-; constructor | discriminate].
      injection Hu as <-. destruct (IH false _ _ _ _ _ _ E) as (S1 & _ & S3); [intros _ H0; discriminate | repeat split | intros g cp r c [<- | []] [] |].
      constructor; [exact (shape_ast gs' false S1) | exact S3]. }
    assert (NB : forall s' d, Lead0 d s' PSelector /\ Lead0 d s' PSplitter) by (intros s' d'; split; intros H0; discriminate).
    destruct (exec_queues splitter t) as [[[[ms l] n]|]| |] eqn:E1; cbn [rbind] in H; try discriminate.
    - destruct (splitter_cases _ _ _ _ E1) as (m & u & -> & Et & -> & St). cbn [rnth nth_error rbind] in H.
      destruct (prev_eqb prev PSplitter) eqn:Ep; [discriminate|].
      destruct (split_comb _ St) as [Ec | (Ec & c & Ec' & Hc & Hb & Ho)].
      + rewrite Ec in H. cbn [str_eqb] in H. change (if str_eqb [44%N] [44%N] then true else false) with true in H. cbn in H.
        destruct prev; cbn [prev_eqb negb] in H; try discriminate. cbn [Inv] in HI. destruct HI as (S1 & S2 & _).
        refine (IH d _ _ _ _ _ _ H _ _ (rules_group groups HR)); [apply NB|]. split; [reflexivity|]. right. exists groups. split; [reflexivity|]. split; [exact S1|]. split; [reflexivity | discriminate].
      + destruct (str_eqb (trim (m_chars m)) [44%N]) eqn:Es; [elim Ec; apply (proj1 (str_eqb_spec _ _) Es)|]. rewrite Ec' in H. cbn [rbind] in H.
        refine (IH d _ _ _ _ _ _ H _ _ HR); [apply NB|]. split; [exact Hc|]. destruct prev; cbn [prev_eqb Inv] in *; [| discriminate |].
        * destruct HI as (-> & -> & ->). right. exists []. split; [reflexivity|]. split; [split; [constructor | destruct d; constructor]|]. split; [|destruct (nonempty (trim (m_chars m))); discriminate].
          intros [Hd | Hd]; [congruence|]. destruct (trim (m_chars m)) as [|o tr] eqn:Etr; [exact (Hb eq_refl)|]. destruct (Ho ltac:(discriminate)) as (w1 & o' & v & Ew & Hw & Hop).
          specialize (HL eq_refl Hd). rewrite Et, Ew in HL. rewrite <- app_assoc in HL. cbn [app] in HL.
          assert (Hws : is_unicode_ws o' = false) by (destruct (is_unicode_ws o') eqn:Eo; [rewrite (ws_not_op o' Eo) in Hop; discriminate | reflexivity]).
          pose proof (drop_blank w1 o' (v ++ u) Hw Hws) as DB. unfold str, char in *. rewrite DB in HL. change (is_op o' = false) in HL. congruence.
        * destruct HI as (S1 & S2 & _). left. split; assumption.
    - destruct (first_rule rules t) as [[[[k qs] [[ms l] n]]|]| |] eqn:E2; cbn [rbind] in H; try discriminate.
      destruct (Nat.eqb n (length qs)).
      + destruct (make (parse_with f) k ms) as [rl| |] eqn:Em; cbn [rbind] in H; try discriminate. destruct (inv_item d groups cb prev last rl HI) as [I1 I2].
        refine (IH d _ _ _ _ _ _ H _ _ (rules_item _ _ _ _ HR (make_shape _ _ _ _ PW Em))); [apply NB|]. split; [exact I1 | split; [exact I2 | reflexivity]].
      + destruct (nth_error qs n) as [[]|]; try discriminate.
        destruct (parse_until (S (length (skipn l t))) (skipn l t) (skipn (S n) qs) true 0) as [[[m nested]|]| |]; cbn [rbind] in H; try discriminate.
        destruct (make (parse_with f) k (ms ++ nested)) as [rl| |] eqn:Em; cbn [rbind] in H; try discriminate. destruct (inv_item d groups cb prev last rl HI) as [I1 I2].
        refine (IH d _ _ _ _ _ _ H _ _ (rules_item _ _ _ _ HR (make_shape _ _ _ _ PW Em))); [apply NB|]. split; [exact I1 | split; [exact I2 | reflexivity]].
  Qed.
  Theorem from_str_shape s gs : from_str wide_digit s = Ok (Some gs) -> ast_shape gs /\ rules_shape gs.
  Proof.
    unfold from_str. destruct s as [|c s]; [intros H; injection H as <-; split; [split; reflexivity | intros g cp r c []]|].
    intros H. destruct (loop_shape _ false _ _ _ _ _ _ H) as (S1 & _ & S3); [intros _ H0; discriminate | repeat split | intros g cp r c' [<- | []] [] |]. split; [exact (shape_ast gs false S1) | exact S3].
  Qed.
  (** A text that does not start with a combinator sign gives groups that start with the descendant combinator. *)
  Theorem from_str_wf s gs : from_str wide_digit s = Ok (Some gs) -> heads is_op (drop_ws s) = false -> sel_wf gs = true.
  Proof.
    unfold from_str. destruct s as [|c s]; [intros H; injection H as <-; reflexivity|].
    intros H Hs. destruct (loop_shape _ true _ _ _ _ _ _ H) as (S1 & _ & _); [intros _ _; exact Hs | repeat split | intros g cp r c' [<- | []] [] |]. exact (shape_sel gs S1).
  Qed.
End Total.
