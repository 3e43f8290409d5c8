(** The texts that are accepted are those of the loose grammar. *)
From Verif Require Import Base CharSpec Utils CharProofs Nth NthSpec NthProofs Engine Rules Regex RegexProofs Parse ParseSpec PatProofs NthText TokenProofs ParseProofs ParseTotal ParsePanic NthSound LooseSpec TokenSound.

Section Only.
  Variable wide_digit : char -> bool.
  Notation exec_queues := (exec_queues wide_digit).
  Notation first_rule := (first_rule wide_digit).
  Notation parse_until := (parse_until wide_digit).
  Notation from_loop := (from_loop wide_digit).
  Notation from_str := (from_str wide_digit).
  Notation loop_step := (loop_step wide_digit).
  Notation parse_with := (parse_with wide_digit).

  (** * What is accepted is in the grammar *)
  Lemma split_text w : SplitText w -> CommaText w /\ trim w = [44%N] \/
    trim w <> [44%N] /\ exists c, comb_from (trim w) = Ok c /\ CombText c w /\ Lead c w /\ (nonempty (trim w) = false -> Blank w /\ c = ChildrenAll).
  Proof.
    intros [w' Hw Hn | w1 o w2 H1 Ho H2].
    - right. rewrite (trim_blank w' Hw). split; [discriminate|]. exists ChildrenAll. split; [reflexivity|]. split; [apply CT_desc; assumption|]. split; [apply LE_blank, Hw | intros _; split; [exact Hw | reflexivity]].
    - pose proof (trim_sign w1 o w2 H1 (op_not_ws o Ho) H2) as T. unfold str, char in *. rewrite T. cbn in Ho. destruct Ho as [<- | [<- | [<- | [<- | []]]]].
      2: { left. split; [constructor; assumption | reflexivity]. }
      all: right; (split; [discriminate|]); eexists; (split; [reflexivity|]); (split; [apply CT_sign; [constructor | assumption | assumption]|]); (split; [apply LE_sign; [constructor | assumption | assumption] | discriminate]).
  Qed.

  (** What follows a part; what follows a combinator or comma. *)
  Definition LRest (p : rule) (rs : list (rule * comb)) (fs : list (list (rule * comb))) (ms : ast) (s : str) : Prop :=
    exists u1 u2 u3 w, s = u1 ++ u2 ++ u3 ++ w /\ LChain LPart p rs u1 /\ LFurther LPart fs u2 /\ LMore LPart ms u3 /\ Blank w.
  Definition LStart (c : comb) (cp : list (rule * comb)) (fs : list (list (rule * comb))) (ms : ast) (s : str) : Prop :=
    exists u1 u2 u3 w, s = u1 ++ u2 ++ u3 ++ w /\ LCompound LPart c cp u1 /\ LFurther LPart fs u2 /\ LMore LPart ms u3 /\ Blank w.
  Lemma start_of r t c rs fs ms s : LPart r t -> LRest r rs fs ms s -> LStart c ((r, c) :: rs) fs ms (t ++ s).
  Proof.
    intros Hr (u1 & u2 & u3 & w & -> & H1 & H2 & H3 & H4). exists (t ++ u1), u2, u3, w. split; [rewrite <- app_assoc; reflexivity|]. split; [constructor; assumption|]. repeat split; assumption.
  Qed.

  Definition Nests (f : nat) : Prop := forall t gs, t <> [] -> Escapes t -> from_loop f t [[]] ChildrenAll PBegin PBegin = Ok (Some gs) -> LWhole LPart gs t.
  Lemma nested_hit f k name s ms' n nested r rest : (k = KNot /\ name = lit ":not(" \/ k = KHas /\ name = lit ":has(") -> Nests f -> Escapes rest -> length ms' = 2 ->
    parse_until (S (length rest)) rest [PSpaces; rparen] true 0 = Ok (Some (n, nested)) -> make (parse_with f) k (ms' ++ nested) = Ok r -> Spaces s ->
    exists t u, rest = t ++ u /\ n = length t /\ LPart r (name ++ s ++ t) /\ ident r = false.
  Proof.
    intros Hk HN He Hl Hu Hm Hs.
    assert (Hm' : exists mk, NestName mk name /\ make (parse_with f) k (ms' ++ nested) = (do m <- rnth (ms' ++ nested) 2; do x <- parse_with f (m_chars m); Ok (mk x)) /\ forall x, ident (mk x) = false).
    { destruct Hk as [[-> ->] | [-> ->]]; [exists RNot | exists RHas]; (split; [constructor | split; reflexivity]). }
    destruct Hm' as (mk & Hn & Em & Hi). rewrite Em in Hm. unfold rnth in Hm. rewrite nth_error_app2 in Hm by lia. rewrite Hl in Hm. cbn [Nat.sub] in Hm.
    destruct nested as [|m0 nested]; [discriminate|]. destruct (until_closed wide_digit _ _ _ _ _ Hu ltac:(discriminate)) as (own & w & u & ms2 & -> & Hw & E0 & ->). injection E0 as -> ->.
    cbn [nth_error rbind m_chars plain] in Hm. destruct (parse_with f own) as [x| |] eqn:Ep; cbn [rbind] in Hm; [|discriminate..]. injection Hm as <-.
    exists (own ++ w ++ [41%N]), u. split; [rewrite <- !app_assoc; reflexivity|]. split; [reflexivity|]. split; [|apply Hi].
    assert (Ho : Escapes own).
    { destruct Hw as [|d w Hd _]; [apply (escapes_cut own 41%N u); [right; reflexivity | exact He] | apply (escapes_cut own d (w ++ 41%N :: u)); [left; exact Hd | exact He]]. }
    unfold ParseTotal.parse_with in Ep. destruct own as [|d own]; [injection Ep as <-; cbn [app]; rewrite (app_assoc s w); apply LP_void; [exact Hn | apply Forall_app; split; assumption]|].
    destruct (from_loop f (d :: own) [[]] ChildrenAll PBegin PBegin) as [[gs|]| |] eqn:El; [| | |discriminate]; injection Ep as <-.
    - apply LP_nested; [exact Hn | exact Hs | | exact Hw]. apply HN; [discriminate | exact Ho | exact El].
    - apply LP_broken; [exact Hn | exact Hs | left; reflexivity | discriminate | exact Hw].
    - apply LP_broken; [exact Hn | exact Hs | right; reflexivity | discriminate | exact Hw].
  Qed.
  Lemma nest_kinds k qs : In (k, qs) rules -> nest_kind k -> exists name, qs = q_nested name /\ (k = KNot /\ name = lit ":not(" \/ k = KHas /\ name = lit ":has(").
  Proof.
    intros Hin Hk. unfold rules in Hin. cbn [In] in Hin.
    repeat (destruct Hin as [Hin | Hin]; [injection Hin as <- <-; first [exfalso; destruct Hk; discriminate | eexists; split; [reflexivity | tauto]]|]). destruct Hin.
  Qed.
  Lemma part_step f s G cb prev last gs : Nests f -> s <> [] -> Escapes s -> exec_queues splitter s = Ok None -> from_loop (S f) s G cb prev last = Ok (Some gs) ->
    exists r t u, s = t ++ u /\ LPart r t /\ (ident r = true -> Follow u) /\ from_loop f u (add_group_item G (r, next_comb prev cb) (negb (prev_eqb prev PSelector))) (next_comb prev cb) PSelector PSelector = Ok (Some gs).
  Proof.
    intros HN Hs He Hsp H. rewrite loop_eq in H. destruct s as [|x0 s0]; [congruence|]. remember (x0 :: s0) as s eqn:Es. clear Es x0 s0 Hs. unfold ParseTotal.loop_step in H. rewrite Hsp in H. cbn [rbind] in H.
    assert (Nc : (if negb (prev_eqb prev PSelector) then cb else Chain) = next_comb prev cb) by (unfold next_comb; destruct (prev_eqb prev PSelector); reflexivity). rewrite Nc in H.
    destruct (first_rule rules s) as [[[[k qs] [[ms l] n]]|]| |] eqn:E2; cbn [rbind] in H; try discriminate. destruct (rule_cases wide_digit _ _ _ _ _ _ E2) as (Hl & Hms & Hc).
    destruct (Nat.eqb_spec n (length qs)) as [-> | En].
    - destruct (make (parse_with f) k ms) as [r| |] eqn:Em; cbn [rbind] in H; try discriminate. destruct (rule_sound wide_digit _ _ _ _ _ _ _ E2 He Em) as (t & u & -> & -> & Hn & Hp & Hi).
      rewrite skipn_pre in H. exists r, t, u. split; [reflexivity|]. split; [exact Hp|]. split; [exact Hi | exact H].
    - destruct Hc as [[Hc _] | [_ Hc]]; [congruence|]. destruct (nth_error qs n) as [[]|] eqn:Eq; try discriminate. destruct (Hc eq_refl) as (Hk & -> & _).
      destruct (first_hit _ _ _ _ _ _ E2) as [Hin Hq]. destruct (queues_hit _ _ _ _ _ _ Hq) as [Ex _]. destruct (nest_kinds k qs Hin Hk) as (name & -> & Hkn).
      (* the name and the spaces *)
      assert (X : exists w u, s = name ++ w ++ u /\ Spaces w /\ l = length (name ++ w)).
      { unfold q_nested in Ex. cbn [Parse.exec Parse.pat_matched] in Ex. destruct (starts_with s name) eqn:St; [|discriminate]. destruct (starts_with_prefix _ _ St) as (u0 & ->). cbn [rbind m_chars m_ignore plain] in Ex.
        rewrite Nat.add_0_r, skipn_pre in Ex. destruct (take_heads is_ascii_ws u0) as (u & Eu & F & _). remember (take_while is_ascii_ws u0) as w eqn:Ew. clear Ew. subst u0.
        exists w, u. split; [reflexivity|]. split; [exact F|]. injection Ex as _ <-. rewrite app_length. slia. }
      destruct X as (w & rest & -> & Hw & ->). cbn [skipn q_nested] in H. assert (Sk : skipn (length (name ++ w)) (name ++ w ++ rest) = rest) by (rewrite app_assoc; apply skipn_pre).
      unfold str, char in *. rewrite Sk in H.
      destruct (parse_until (S (length rest)) rest [PSpaces; rparen] true 0) as [[[m nested]|]| |] eqn:Eu; cbn [rbind] in H; try discriminate.
      destruct (make (parse_with f) k (ms ++ nested)) as [r| |] eqn:Em; cbn [rbind] in H; try discriminate.
      assert (He' : Escapes rest) by (apply (escapes_tail (name ++ w)); rewrite <- app_assoc; exact He).
      destruct (nested_hit f k name w ms m nested r rest Hkn HN He' Hms Eu Em Hw) as (t & u & -> & -> & Hp & Hi). rewrite skipn_pre in H.
      exists r, (name ++ w ++ t), u. split; [rewrite <- !app_assoc; reflexivity|]. split; [exact Hp|]. split; [congruence | exact H].
  Qed.

  Lemma name_follow r t u : LPart r t -> Follow (t ++ u) -> is_name r = false.
  Proof.
    intros H Hf. destruct r; try reflexivity. exfalso. inversion H as [r1 t' HP | mk nm w1 gs t' w2 Hn | mk nm w Hn | mk nm w1 n1 t' w2 Hn | mk nm w1 a b t' w2 Hn]; subst; try (destruct Hn; discriminate).
    inversion HP as [ |n1 t' Ht| | | |r1 t' Hin|mk nm w1 a b t' w2 Hn| | |mk nm w1 gs t' w2 Hn]; subst; try (destruct Hn; discriminate).
    - destruct Ht as [c n' t' Hc _]. unfold Follow in Hf. cbn [app heads] in Hf. unfold id_more, is_ascii_alnum in Hf. rewrite !orb_false_iff in Hf. destruct Hc as [Hc | [Hc | ->]]; [intuition congruence | intuition congruence|]. destruct Hf as [[_ Hf] _]. discriminate.
    - cbn [In plain_pseudos] in Hin. repeat (destruct Hin as [Hin | Hin]; [discriminate|]). destruct Hin.
  Qed.
  Lemma loop_only f :
    (forall s cb gs p gs0 g cp, Escapes s -> (ident p = true -> Follow s) -> from_loop f s (gs0 ++ [g ++ [cp]]) cb PSelector PSelector = Ok (Some gs) ->
      exists rs fs ms, gs = gs0 ++ (g ++ (cp ++ rs) :: fs) :: ms /\ LRest p rs fs ms s) /\
    (forall s cb last gs gs0 g, Escapes s -> from_loop f s (gs0 ++ [g]) cb PSplitter last = Ok (Some gs) ->
      (s = [] /\ last = PSelector /\ gs = gs0 ++ [g]) \/ exists cp fs ms, gs = gs0 ++ (g ++ cp :: fs) :: ms /\ LStart cb cp fs ms s) /\
    Nests f.
  Proof.
    induction f as [|f (IH1 & IH2 & IH3)]; [split; [|split]; [intros; discriminate | intros; discriminate | intros t gs _ _ H; discriminate]|].
    assert (PS : forall s G cb prev last gs gs0 g, s <> [] -> Escapes s -> exec_queues splitter s = Ok None -> prev <> PSelector -> G = gs0 ++ [g] -> from_loop (S f) s G cb prev last = Ok (Some gs) ->
      exists cp fs ms, gs = gs0 ++ (g ++ cp :: fs) :: ms /\ LStart cb cp fs ms s).
    { intros s G cb prev last gs gs0 g Hs He Hsp Hp -> H. destruct (part_step f s _ cb prev last gs IH3 Hs He Hsp H) as (r & t & u & -> & Hr & Hi & H').
      assert (Ep : prev_eqb prev PSelector = false) by (destruct prev; [reflexivity.. | congruence]). unfold next_comb in H'. rewrite Ep in H'. cbn [negb] in H'. rewrite add_new in H'.
      destruct (IH1 u cb gs r gs0 g [(r, cb)] (escapes_tail t u He) Hi H') as (rs & fs & ms & -> & HR). exists ((r, cb) :: rs), fs, ms. split; [reflexivity | exact (start_of r t cb rs fs ms u Hr HR)]. }
    split; [|split].
    - intros s cb gs p gs0 g cp He Hf H. destruct s as [|x0 s0].
      { rewrite loop_eq in H. injection H as <-. exists [], [], []. split; [rewrite app_nil_r; reflexivity|]. exists [], [], [], []. split; [reflexivity|]. repeat split; constructor. }
      remember (x0 :: s0) as s eqn:Es. assert (Hs : s <> []) by (rewrite Es; discriminate). clear Es x0 s0.
      pose proof (queues_fuel wide_digit splitter s) as QF. destruct (exec_queues splitter s) as [[[[ms l] n]|]| |] eqn:E1; [| | |congruence].
      + rewrite loop_eq in H. destruct s as [|x0 s0]; [congruence|]. remember (x0 :: s0) as s eqn:Es. clear Es x0 s0. unfold ParseTotal.loop_step in H. rewrite E1 in H. cbn [rbind] in H.
        destruct (splitter_cases _ _ _ _ _ E1) as (m & u & -> & -> & -> & St). cbn [rnth nth_error rbind prev_eqb] in H. rewrite skipn_pre in H. set (w := m_chars m) in *.
        destruct (split_text w St) as [[Hc Ec] | (Ec & c & Ec' & Hc & _ & Hb)].
        * unfold str, char in *. rewrite Ec in H. change (str_eqb [44%N] [44%N]) with true in H. cbn [negb] in H. unfold add_group in H.
          destruct (IH2 u ChildrenAll PSplitter gs (gs0 ++ [g ++ [cp]]) [] (escapes_tail w u He) H) as [(_ & X & _) | (cp' & fs & ms & -> & (u1 & u2 & u3 & b & -> & H1 & H2 & H3 & H4))]; [discriminate|].
          exists [], [], ((cp' :: fs) :: ms). split; [rewrite app_nil_r, <- app_assoc; reflexivity|].
          exists [], [], (w ++ (u1 ++ u2) ++ u3), b. split; [cbn [app]; rewrite <- !app_assoc; reflexivity|]. split; [constructor|]. split; [constructor|]. split; [|exact H4].
          apply LM_cons; [exact Hc | constructor; assumption | exact H3].
        * destruct (str_eqb (trim w) [44%N]) eqn:Es; [elim Ec; apply (proj1 (str_eqb_spec _ _) Es)|]. rewrite Ec' in H. cbn [rbind] in H.
          destruct (IH2 u c _ gs gs0 (g ++ [cp]) (escapes_tail w u He) H) as [(-> & X & ->) | (cp' & fs & ms & -> & (u1 & u2 & u3 & b & -> & H1 & H2 & H3 & H4))].
          -- destruct (nonempty (trim w)) eqn:Ne; [discriminate|]. destruct (Hb eq_refl) as [Hw _]. exists [], [], []. split; [rewrite app_nil_r; reflexivity|].
             exists [], [], [], (w ++ []). split; [reflexivity|]. split; [constructor|]. split; [constructor|]. split; [constructor | rewrite app_nil_r; exact Hw].
          -- exists [], (cp' :: fs), ms. split; [rewrite app_nil_r, <- app_assoc; reflexivity|]. exists [], (w ++ u1 ++ u2), u3, b. split; [cbn [app]; rewrite <- !app_assoc; reflexivity|].
             split; [constructor|]. split; [apply (LF_cons _ c); assumption|]. split; assumption.
      + destruct (part_step f s _ cb PSelector PSelector gs IH3 Hs He E1 H) as (r & t & u & -> & Hr & Hi & H'). cbn [prev_eqb negb next_comb] in H'. rewrite add_chain in H'.
        destruct (IH1 u _ gs r gs0 g (cp ++ [(r, Chain)]) (escapes_tail t u He) Hi H') as (rs & fs & ms & -> & (u1 & u2 & u3 & b & -> & H1 & H2 & H3 & H4)).
        exists ((r, Chain) :: rs), fs, ms. split; [rewrite <- app_assoc; reflexivity|]. exists (t ++ u1), u2, u3, b. split; [rewrite <- app_assoc; reflexivity|]. split; [|repeat split; assumption].
        apply LC_cons; [exact Hr | | exact H1]. intros Hp. exact (name_follow r t _ Hr (Hf Hp)).
      + rewrite loop_eq in H. destruct s; [congruence|]. unfold ParseTotal.loop_step in H. rewrite E1 in H. discriminate.
    - intros s cb last gs gs0 g He H. destruct s as [|x0 s0].
      { rewrite loop_eq in H. left. destruct last; try discriminate. injection H as <-. repeat split. }
      right. remember (x0 :: s0) as s eqn:Es. assert (Hs : s <> []) by (rewrite Es; discriminate). clear Es x0 s0.
      pose proof (queues_fuel wide_digit splitter s) as QF. destruct (exec_queues splitter s) as [[[[ms l] n]|]| |] eqn:E1; [| | |congruence].
      + exfalso. rewrite loop_eq in H. destruct s as [|x0 s0]; [congruence|]. unfold ParseTotal.loop_step in H. rewrite E1 in H. cbn [rbind] in H. destruct (rnth ms 0); discriminate.
      + apply (PS s (gs0 ++ [g]) cb PSplitter last gs gs0 g Hs He E1); [discriminate | reflexivity | exact H].
      + rewrite loop_eq in H. destruct s; [congruence|]. unfold ParseTotal.loop_step in H. rewrite E1 in H. discriminate.
    - intros s gs Hs He H.
      assert (W : forall c l u, Lead c l -> s = l ++ u -> (exists cp fs ms, gs = [] ++ ([] ++ cp :: fs) :: ms /\ LStart c cp fs ms u) -> LWhole LPart gs (l ++ u)).
      { intros c l u Hl _ (cp & fs & ms & -> & (u1 & u2 & u3 & b & -> & H1 & H2 & H3 & H4)). cbn [app].
        replace (u1 ++ u2 ++ u3 ++ b) with (((u1 ++ u2) ++ u3) ++ b) by (rewrite <- !app_assoc; reflexivity). apply (LW _ c); [exact Hl | | exact H4]. constructor; [constructor; assumption | exact H3]. }
      pose proof (queues_fuel wide_digit splitter s) as QF. destruct (exec_queues splitter s) as [[[[ms l] n]|]| |] eqn:E1; [| | |congruence].
      + rewrite loop_eq in H. destruct s as [|x0 s0]; [congruence|]. remember (x0 :: s0) as s eqn:Es. clear Es x0 s0. unfold ParseTotal.loop_step in H. rewrite E1 in H. cbn [rbind] in H.
        destruct (splitter_cases _ _ _ _ _ E1) as (m & u & -> & -> & -> & St). cbn [rnth nth_error rbind prev_eqb] in H. rewrite skipn_pre in H. set (w := m_chars m) in *.
        destruct (split_text w St) as [[Hc Ec] | (Ec & c & Ec' & Hc & Hl & Hb)].
        * unfold str, char in *. rewrite Ec in H. change (str_eqb [44%N] [44%N]) with true in H. cbn [negb] in H. discriminate.
        * destruct (str_eqb (trim w) [44%N]) eqn:Es; [elim Ec; apply (proj1 (str_eqb_spec _ _) Es)|]. rewrite Ec' in H. cbn [rbind] in H. apply (W c w u Hl eq_refl).
          destruct (IH2 u c _ gs [] [] (escapes_tail w u He) H) as [(_ & X & _) | X]; [destruct (nonempty (trim w)); discriminate | exact X].
      + pose proof (W ChildrenAll [] s (LE_blank _ (Forall_nil _)) eq_refl) as W'. cbn [app] in W'. apply W'. apply (PS s [[]] ChildrenAll PBegin PBegin gs [] [] Hs He E1); [discriminate | reflexivity | exact H].
      + rewrite loop_eq in H. destruct s; [congruence|]. unfold ParseTotal.loop_step in H. rewrite E1 in H. discriminate.
  Qed.
  Lemma from_str_only s gs : Escapes s -> s <> [] -> from_str s = Ok (Some gs) -> LWhole LPart gs s.
  Proof. intros He Hs H. unfold Parse.from_str in H. destruct s as [|c s]; [congruence|]. exact (proj2 (proj2 (loop_only _)) (c :: s) gs Hs He H). Qed.

  (** * What is in the grammar is accepted *)
  Section Back.
    Variable n : nat.
    Notation Part := (RText (inner n)).
    Lemma inner_below gs u w : inner n gs u -> Blank w -> Parsed wide_digit gs (u ++ w).
    Proof. destruct n as [|m]; [intros []|]. intros Hu Hw. apply (reads_parsed wide_digit m). exact (inside_whole _ gs u w Hu Hw). Qed.
    Lemma part_complete r t rest : Part r t -> is_nested r = false -> (ident r = true -> Follow rest) -> Complete wide_digit r t rest.
    Proof.
      intros [ |x u H|x u H|x u H|w1 k w2 a u w3 H1 Hk H2 Ha H3|r' u H|mk name w1 a b u w2 Hn H1 Ht H2 Ra Rb|w1 q v w2 H1 Hq Hv H2|w1 v w2 H1 Hv H2|mk name w1 gs u w2 H _ _ _] Hi Hf.
      - apply tok_all.
      - apply tok_name; [exact H | exact (Hf eq_refl)].
      - apply tok_class; [exact H | exact (Hf eq_refl)].
      - apply tok_id; [exact H | exact (Hf eq_refl)].
      - apply tok_attr; assumption.
      - apply tok_pseudo; assumption.
      - apply tok_nth; assumption.
      - apply tok_contains_quoted; assumption.
      - apply tok_contains_bare; assumption.
      - destruct H; discriminate.
    Qed.
    Lemma goes_part r t rest G cb prev last X : Part r t -> (ident r = true -> Follow rest) ->
      Goes wide_digit rest (add_group_item G (r, next_comb prev cb) (negb (prev_eqb prev PSelector))) (next_comb prev cb) PSelector PSelector X ->
      Goes wide_digit (t ++ rest) G cb prev last X.
    Proof.
      intros Hr Hf HG. destruct (is_nested r) eqn:Er.
      - assert (Hr' := Hr). destruct Hr as [ |m u H|m u H|m u H|w1 k w2 a u w3 H1 Hk H2 Ha H3|r' u H|mk name w1 a b u w2 H H1 Ht H2 Ra Rb|w1 q v w2 H1 Hq Hv H2|w1 v w2 H1 Hv H2|mk name w1 gs u w2 H H1 H2 H3]; try discriminate.
        + cbn [In plain_pseudos] in H. exfalso. repeat (destruct H as [H | H]; [injection H as <- <-; discriminate|]). destruct H.
        + destruct H; discriminate.
        + assert (B : forall w, Blank w -> Parsed wide_digit gs (u ++ w)) by (intros w Hw; exact (inner_below gs u w H2 Hw)).
          destruct n as [|m]; [destruct H2|]. apply (goes_nested wide_digit mk name w1 u w2 rest m gs); assumption.
      - apply (goes_complete wide_digit r); [exact (rtext_fresh _ r t rest Hr) | exact (rtext_nonempty _ r t Hr) | exact (part_complete r t rest Hr Er Hf) | exact HG].
    Qed.
    Lemma part_follow r t u : Part r t -> is_name r = false -> Follow (t ++ u).
    Proof. intros Hr Hn. destruct (head_only r) eqn:Eh; [|exact (rtext_follow _ r t u Hr Eh)]. destruct r; try discriminate. inversion Hr as [ | | | | |r' t' H|mk name w1 a b t' w2 H| | |mk name w1 gs t' w2 H]; subst; [reflexivity | | destruct H; discriminate..].
      cbn [In plain_pseudos] in H. repeat (destruct H as [H | H]; [discriminate|]). destruct H. Qed.
    Lemma chain_follow p rs u rest : LChain Part p rs u -> (u <> [] \/ Follow rest) -> ident p = true -> Follow rest -> Follow (u ++ rest).
    Proof. intros [q | q r t rs' v Hr Hn _] _ Hp Hf; [exact Hf|]. rewrite <- app_assoc. exact (part_follow r t _ Hr (Hn Hp)). Qed.
    Lemma loose_chain p rs u rest gs g cp X : LChain Part p rs u -> Follow rest -> Then wide_digit rest (gs ++ [g ++ [cp ++ rs]]) X -> Then wide_digit (u ++ rest) (gs ++ [g ++ [cp]]) X.
    Proof.
      intros H. revert cp. induction H as [q|q r t rs u Hr Hn Hc IH]; intros cp Hf HG.
      - rewrite app_nil_r in HG. exact HG.
      - intros cb. rewrite <- app_assoc. apply (goes_part r); [exact Hr | intros Hi; exact (chain_follow r rs u rest Hc (or_intror Hf) Hi Hf)|].
        cbn [prev_eqb negb next_comb]. rewrite add_chain. apply IH; [exact Hf|]. rewrite <- app_assoc. exact HG.
    Qed.
    Lemma loose_compound c cp t rest gs g prev last X : LCompound Part c cp t -> prev <> PSelector -> Follow rest ->
      Then wide_digit rest (gs ++ [g ++ [cp]]) X -> Goes wide_digit (t ++ rest) (gs ++ [g]) c prev last X.
    Proof.
      intros [r u rs v Hr Hc] Hp Hf HG. rewrite <- app_assoc. apply (goes_part r); [exact Hr | intros Hi; exact (chain_follow r rs v rest Hc (or_intror Hf) Hi Hf)|].
      assert (Ep : prev_eqb prev PSelector = false) by (destruct prev; [reflexivity.. | congruence]).
      unfold next_comb. rewrite Ep. cbn [negb]. rewrite add_new. apply (loose_chain r rs v); [exact Hc | exact Hf | exact HG].
    Qed.
    Lemma compound_fresh c cp t u : LCompound Part c cp t -> Fresh (t ++ u).
    Proof. intros [r v rs x Hr _]. rewrite <- app_assoc. exact (rtext_fresh _ r v _ Hr). Qed.
    Lemma loose_further_follow fs u rest : LFurther Part fs u -> Follow rest -> Follow (u ++ rest).
    Proof. intros [|c w cp t g v Hw _ _] Hf; [exact Hf|]. rewrite <- app_assoc. exact (splits_follow w _ (comb_splits c w Hw)). Qed.
    Lemma loose_further fs u rest gs g cp X : LFurther Part fs u -> Follow rest -> Then wide_digit rest (gs ++ [(g ++ [cp]) ++ fs]) X -> Then wide_digit (u ++ rest) (gs ++ [g ++ [cp]]) X.
    Proof.
      intros H. revert g cp. induction H as [|c w cp' t fs u Hw Hcp Hfu IH]; intros g cp Hf HG.
      - rewrite app_nil_r in HG. exact HG.
      - intros cb. rewrite <- !app_assoc. apply (goes_comb wide_digit n inner_below c); [exact Hw | discriminate | exact (compound_fresh c cp' t _ Hcp) |]. intros l.
        apply (loose_compound c cp' t); [exact Hcp | discriminate | exact (loose_further_follow fs u rest Hfu Hf) |].
        apply IH; [exact Hf|]. rewrite <- app_assoc. exact HG.
    Qed.
    Lemma loose_group c g t rest gs prev last X : LGroup Part c g t -> prev <> PSelector -> Follow rest ->
      Then wide_digit rest (gs ++ [g]) X -> Goes wide_digit (t ++ rest) (gs ++ [[]]) c prev last X.
    Proof.
      intros [cp u fs v Hc Hfu] Hp Hf HG. rewrite <- app_assoc. apply (loose_compound c cp u); [exact Hc | exact Hp | exact (loose_further_follow fs v rest Hfu Hf) |].
      apply (loose_further fs v); [exact Hfu | exact Hf | exact HG].
    Qed.
    Lemma loose_more_follow ms u rest : LMore Part ms u -> Follow rest -> Follow (u ++ rest).
    Proof. intros [|w g t gs v Hw _ _] Hf; [exact Hf|]. rewrite <- app_assoc. exact (splits_follow w _ (comma_splits w Hw)). Qed.
    Lemma loose_more ms u rest gs X : LMore Part ms u -> Follow rest -> Then wide_digit rest (gs ++ ms) X -> Then wide_digit (u ++ rest) gs X.
    Proof.
      intros H. revert gs. induction H as [|w g t ms u Hw Hg Hm IH]; intros gs Hf HG.
      - rewrite app_nil_r in HG. exact HG.
      - intros cb. rewrite <- !app_assoc. apply (goes_comma wide_digit n inner_below); [exact Hw | |].
        { destruct Hg as [cp v fs x Hc _]. rewrite <- app_assoc. exact (compound_fresh _ cp v _ Hc). }
        unfold add_group. apply (loose_group ChildrenAll g t); [exact Hg | discriminate | exact (loose_more_follow ms u rest Hm Hf) |].
        apply IH; [exact Hf|]. rewrite <- app_assoc. exact HG.
    Qed.
    Lemma loose_whole gs t : LWhole Part gs t -> Parsed wide_digit gs t.
    Proof.
      intros [c l gs' u w Hl Hb Hw].
      assert (Fw : Follow w) by (destruct Hw as [|x w Hx]; [reflexivity | exact (ws_not_id x Hx)]).
      assert (Fb : Fresh (u ++ w)) by (destruct Hb as [g v ms x [cp y fs z Hc _] _]; rewrite <- !app_assoc; exact (compound_fresh _ cp y _ Hc)).
      assert (HB : forall prev last, prev <> PSelector -> Goes wide_digit (u ++ w) [[]] c prev last (Ok (Some gs'))).
      { intros prev last Hp. destruct Hb as [g v ms x Hg Hm]. rewrite <- app_assoc. apply (loose_group c g v (x ++ w) []); [exact Hg | exact Hp | exact (loose_more_follow ms x w Hm Fw) |].
        apply (loose_more ms x w [g]); [exact Hm | exact Fw | exact (goes_end wide_digit n inner_below w (g :: ms) Hw)]. }
      destruct Hl as [v Hv | c s w1 w2 Hs H1 H2].
      - destruct v as [|x v]; [apply HB; discriminate|].
        apply (goes_comb wide_digit n inner_below ChildrenAll (x :: v)); [constructor; [exact Hv | discriminate] | discriminate | exact Fb |]. intros l. apply HB. discriminate.
      - apply (goes_comb wide_digit n inner_below c); [constructor; assumption | discriminate | exact Fb |]. intros l. apply HB. discriminate.
    Qed.
  End Back.
  Lemma from_str_loose n gs t : LWhole (RText (inner n)) gs t -> from_str t = Ok (Some gs).
  Proof.
    intros H. pose proof (loose_whole n gs t H (S (length t)) (Nat.lt_succ_diag_r _)) as E. unfold Parse.from_str. destruct t as [|c t]; [|exact E].
    cbn in E. discriminate.
  Qed.
End Only.

(** * Other parts *)
Lemma forall_concat {A} (p : A -> Prop) (l : list (list A)) : Forall p (concat l) -> Forall (Forall p) l.
Proof. induction l as [|x l IH]; intros H; [constructor|]. cbn in H. apply Forall_app in H. destruct H as [H1 H2]. constructor; [exact H1 | exact (IH H2)]. Qed.
Section Change.
  Variables P Q : rule -> str -> Prop.
  Variable ok : rule -> Prop.
  Hypothesis change : forall r t, ok r -> P r t -> Q r t.
  Lemma chain_change p rs u : LChain P p rs u -> Forall (fun x => ok (fst x)) rs -> LChain Q p rs u.
  Proof. induction 1 as [p|p r t rs u Hr Hn _ IH]; intros H; [constructor|]. inversion H as [|? ? H1 H2]; subst. apply LC_cons; [exact (change r t H1 Hr) | exact Hn | exact (IH H2)]. Qed.
  Lemma compound_change c cp t : LCompound P c cp t -> Forall (fun x => ok (fst x)) cp -> LCompound Q c cp t.
  Proof. intros [r u rs v Hr Hc] H. inversion H as [|? ? H1 H2]; subst. apply LCP; [exact (change r u H1 Hr) | exact (chain_change r rs v Hc H2)]. Qed.
  Lemma further_change fs u : LFurther P fs u -> Forall (Forall (fun x => ok (fst x))) fs -> LFurther Q fs u.
  Proof. induction 1 as [|c w cp t fs u Hw Hc _ IH]; intros H; [constructor|]. inversion H as [|? ? H1 H2]; subst. apply (LF_cons Q c); [exact Hw | exact (compound_change c cp t Hc H1) | exact (IH H2)]. Qed.
  Lemma group_change c g t : LGroup P c g t -> Forall (Forall (fun x => ok (fst x))) g -> LGroup Q c g t.
  Proof. intros [cp u fs v Hc Hf] H. inversion H as [|? ? H1 H2]; subst. apply LG; [exact (compound_change c cp u Hc H1) | exact (further_change fs v Hf H2)]. Qed.
  Lemma more_change ms u : LMore P ms u -> Forall (Forall (Forall (fun x => ok (fst x)))) ms -> LMore Q ms u.
  Proof. induction 1 as [|w g t ms u Hw Hg _ IH]; intros H; [constructor|]. inversion H as [|? ? H1 H2]; subst. apply LM_cons; [exact Hw | exact (group_change _ g t Hg H1) | exact (IH H2)]. Qed.
  Lemma whole_change gs s : LWhole P gs s -> Forall ok (all_rules gs) -> LWhole Q gs s.
  Proof.
    intros [c l gs' t w Hl [g u ms v Hg Hm] Hw] H.
    assert (F : Forall (Forall (Forall (fun x => ok (fst x)))) (g :: ms)).
    { unfold all_rules in H. rewrite Forall_map in H. apply forall_concat, forall_concat, H. }
    inversion F as [|? ? F1 F2]; subst. apply (LW Q c); [exact Hl | | exact Hw]. apply LB; [exact (group_change c g u Hg F1) | exact (more_change ms v Hm F2)].
  Qed.
End Change.
Lemma simple_part r t : Simple r -> LPart r t -> PartText r t.
Proof.
  intros Hs H. revert Hs. destruct H as [r' t' H | mk name w1 gs t' w2 H _ _ _ | mk name w H _ | mk name w1 n t' w2 H _ _ _ _ | mk name w1 a b t' w2 H _ _ _ D]; intros Hs;
    [exact H | destruct H; cbn [Simple] in Hs; contradiction.. |]. elim D. destruct H; exact Hs.
Qed.
