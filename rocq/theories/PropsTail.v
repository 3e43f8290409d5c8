(** Property theorems: selector texts that are outside the grammar (C34, C64). *)
From Verif Require Import Base CharSpec Utils Nth NthSpec Engine Rules Regex RegexProofs Parse ParseSpec TokenProofs ParseProofs ParsePanic TailSpec ParseTail PropsParse.

Lemma starts_goes wide_digit n p t u X : Front n p t -> (forall G cb prev last, Goes wide_digit u G cb prev last X) /\ (exists c v, u = c :: v /\ In c (lit ".#[:")) ->
  from_str wide_digit (t ++ u) = X.
Proof.
  intros Hf (HG & c & v & -> & Hc). apply goes_str; [destruct t; discriminate|]. apply (front_goes wide_digit n p); [exact Hf | exact (fresh_char c v Hc) | intros _; exact (follow_char c v Hc) | exact HG].
Qed.

(** * C34 *)
(** Behind the front of any selector, a part whose closing bracket is missing at the end of the text, a sign without a
    name and an unclosed nested text make the parser panic ... *)
Theorem C34_cut_panics (wide_digit : char -> bool) n p t u : Front n p t -> CutPart n u -> from_str wide_digit (t ++ u) = Panic.
Proof. intros Hf Hu. apply (starts_goes wide_digit n p); [exact Hf | exact (cut_goes wide_digit n u Hu)]. Qed.
Print Assumptions C34_cut_panics.
(** ... and so does a bare nth number that is no [isize], whatever follows it. *)
Theorem C34_big_panics (wide_digit : char -> bool) n p t u : Front n p t -> BigPart u -> from_str wide_digit (t ++ u) = Panic.
Proof. intros Hf Hu. apply (starts_goes wide_digit n p); [exact Hf | exact (big_goes wide_digit u Hu)]. Qed.
Print Assumptions C34_big_panics.

Lemma ex_ul n : Body (inner n) ChildrenAll [[[(RName (lit "ul"), ChildrenAll)]]] (lit "ul").
Proof.
  change (lit "ul") with ((((lit "ul") ++ []) ++ []) ++ []) at 2. apply BO; [|constructor]. apply GR; [|constructor]. apply CP; [|constructor]. apply RT_name. apply id_text; [right; left; reflexivity|].
  repeat constructor; left; reflexivity.
Qed.
Lemma ex_sign n : Front n AfterSign (lit "ul > ").
Proof.
  change (lit "ul > ") with ([] ++ lit "ul" ++ lit " " ++ 62%N :: lit " "). eapply (FR_sign n ChildrenAll [] _ _ (lit " ") 62%N (lit " ")); [apply LE_blank; constructor | apply ex_ul | repeat constructor | cbn; tauto | repeat constructor].
Qed.
Lemma ex_part n : Front n AfterPart (lit "ul").
Proof. change (lit "ul") with ([] ++ lit "ul"). eapply (FR_part n ChildrenAll [] _ _); [apply LE_blank; constructor | apply ex_ul]. Qed.
Example C34_cut_ex : Front 1 AfterSign (lit "ul > ") /\ Front 1 AfterPart (lit "ul") /\ CutPart 1 (lit "[a = 'b]' ") /\ CutPart 1 (lit ":not( ul ") /\
  BigPart (lit ":nth-child( -9223372036854775809 ) b !") /\ parsed "ul > [a = 'b]' " = Panic /\ parsed "ul:not( ul " = Panic /\ parsed "ul > :nth-child( -9223372036854775809 ) b !" = Panic.
Proof.
  split; [apply ex_sign|]. split; [apply ex_part|]. split; [|split; [|split; [|repeat split; vm_compute; reflexivity]]].
  - apply (CP_bracket 1 (RAttr (lit "a") (Some (MEq, lit "b]")))); [|reflexivity]. cbn [closer].
    change (lit "[a = 'b]' " ++ [93%N]) with (91%N :: [] ++ lit "a" ++ lit " " ++ ([] ++ [61%N] ++ lit " " ++ (39%N :: lit "b]" ++ [39%N])) ++ lit " " ++ [93%N]).
    apply RT_attr; [constructor | | repeat constructor | | repeat constructor].
    + split; [discriminate|]. constructor; [apply CharProofs.key_char_ok; reflexivity | constructor].
    + apply AT_test; [constructor | repeat constructor | apply VT_quoted; [left; reflexivity | repeat constructor; discriminate]].
  - change (lit ":not( ul ") with (lit ":not(" ++ lit " " ++ lit "ul" ++ lit " "). apply (CP_nested 1 RNot _ _ [[[(RName (lit "ul"), ChildrenAll)]]]); [constructor | repeat constructor | | repeat constructor].
    apply IN_plain; [exact (ex_ul 0) | reflexivity].
  - change (lit ":nth-child( -9223372036854775809 ) b !") with (lit ":nth-child(" ++ lit " " ++ (lit "-" ++ lit "9223372036854775809") ++ lit " " ++ [41%N] ++ lit " b !").
    apply (BG (RNthChild true) _ _ (-1 * value_of (lit "9223372036854775809"))); [constructor | repeat constructor | | | repeat constructor].
    + apply NT_int; [apply OS_some; constructor | apply NU_many; [reflexivity | discriminate | discriminate | repeat constructor]].
    + unfold Readable. vm_compute. intros [H _]. apply H. reflexivity.
Qed.

(** * C64 *)
(** Behind the front of any selector, a text that starts with no part is rejected, whatever follows: a character that
    starts no part, a class or id sign without a name, a bracket without a key or with a foreign character behind it, an
    unknown pseudo class, an nth class without a formula. *)
Theorem C64_no_part (wide_digit : char -> bool) n p t u : Front n p t -> NoPart p u -> from_str wide_digit (t ++ u) = Ok None.
Proof.
  intros Hf Hu. destruct (nopart_goes wide_digit p u Hu) as (HG & F & Fo). apply goes_str; [destruct F as [F _]; destruct t; [exact F | discriminate]|].
  apply (front_goes wide_digit n p); [exact Hf | exact F | exact Fo | exact HG].
Qed.
Print Assumptions C64_no_part.
(** A text that ends with a sign is rejected, and so is a second sign. *)
Theorem C64_sign (wide_digit : char -> bool) n t : Front n AfterSign t ->
  from_str wide_digit t = Ok None /\ forall o s, In o op_chars -> from_str wide_digit (t ++ o :: s) = Ok None.
Proof.
  intros Hf. split.
  - apply goes_str.
    + intros ->. remember AfterSign as p eqn:Ep. remember [] as e eqn:Ee. destruct Hf as [w Hw|c s w1 w2 Hs H1 H2|c l gs u Hl Hb|c l gs u w Hl Hb Hw Hne|c l gs u w1 o w2 Hl Hb H1 Ho H2]; try discriminate Ep.
      * destruct w1; discriminate Ee.
      * apply app_eq_nil in Ee. destruct Ee as [_ Ee]. apply app_eq_nil in Ee. destruct Ee as [_ Ee]. destruct w1; discriminate Ee.
    + pose proof (front_sign_goes wide_digit n t [] (Ok None) Hf eq_refl) as G. rewrite app_nil_r in G. apply G. intros G' cb. apply goes_unfinished.
  - intros o s Ho. apply goes_str; [destruct t; discriminate|]. apply (front_sign_goes wide_digit n); [exact Hf | |].
    + cbn in Ho |- *. repeat (destruct Ho as [<- | Ho]; [reflexivity|]). destruct Ho.
    + intros G cb. apply goes_double. exact Ho.
Qed.
Print Assumptions C64_sign.
(** A comma at the start is rejected, and so is white space alone. *)
Theorem C64_start (wide_digit : char -> bool) w s : Blank w ->
  from_str wide_digit (w ++ 44%N :: s) = Ok None /\ (w <> [] -> from_str wide_digit w = Ok None).
Proof.
  intros Hw. split; [apply goes_str; [destruct w; discriminate | exact (goes_comma_first wide_digit w s Hw)]|].
  intros Hn. apply goes_str; [exact Hn|]. intros f Hf. destruct f as [|f]; [lia|].
  destruct (splits_some wide_digit w [] (SP_blank w Hw Hn) eq_refl eq_refl) as (c & E). rewrite app_nil_r in E. cbn [from_loop]. rewrite E.
  pose proof (skipn_all w) as Es. destruct w as [|x w]; [congruence|]. cbn [rbind rnth nth_error m_chars prev_eqb]. rewrite (trim_blank _ Hw). cbn [str_eqb nonempty comb_from rbind]. rewrite Es.
  destruct f as [|f]; [cbn in Hf; lia|]. reflexivity.
Qed.
Print Assumptions C64_start.
Example C64_ex : Front 1 AfterSign (lit "ul > ") /\ Front 1 AfterPart (lit "ul") /\ NoPart AfterSign (lit "5 b") /\ NoPart AfterPart (lit "!b") /\ NoPart AfterPart (lit ".5") /\
  NoPart AfterSign (lit "[ 'a']") /\ NoPart AfterPart (lit "[a b]") /\ NoPart AfterPart (lit "::before") /\ NoPart AfterSign (lit ":nth-child( x)") /\
  parsed "ul > 5 b" = Ok None /\ parsed "ul!b" = Ok None /\ parsed "ul.5" = Ok None /\ parsed "ul > [ 'a']" = Ok None /\ parsed "ul[a b]" = Ok None /\ parsed "ul::before" = Ok None /\
  parsed "ul > :nth-child( x)" = Ok None /\ parsed "ul > " = Ok None /\ parsed "ul > , b" = Ok None /\ parsed " , b" = Ok None /\ parsed "  " = Ok None.
Proof.
  assert (NS : forall c, is_ascii_upper c || is_ascii_lower c || char_eqb c 95%N = false -> ~ IdStart c).
  { intros c H [E | [E | E]]; [rewrite E in H | rewrite E, orb_true_r in H | subst c]; discriminate. }
  assert (NK : forall c, is_char_available_in_key c = false -> ~ KeyChar c) by (intros c H K; apply CharProofs.key_char_ok in K; congruence).
  assert (NI : forall (c : char) l, existsb (char_eqb c) l = false -> ~ In c l).
  { intros c l H Hin. assert (existsb (char_eqb c) l = true) by (apply existsb_exists; exists c; split; [exact Hin | apply N.eqb_refl]). congruence. }
  assert (NP : forall p s, starts_with s p = false -> ~ Prefix p s) by (intros p s H (u & ->); rewrite PatProofs.starts_with_app in H; discriminate).
  split; [apply ex_sign|]. split; [apply ex_part|].
  split; [apply NP_char; [apply NS; reflexivity | apply NI; reflexivity | reflexivity | apply NI; reflexivity | discriminate]|].
  split; [apply NP_char; [apply NS; reflexivity | apply NI; reflexivity | reflexivity | apply NI; reflexivity |]|].
  { intros _. split; [|discriminate]. intros [E | [E | E]]; discriminate. }
  split; [apply NP_sign; [cbn; tauto | apply NS; reflexivity]|].
  split; [apply (NP_bracket _ (lit " ")); [repeat constructor | split; [reflexivity | apply NK; reflexivity]]|].
  split.
  { apply (NP_attr _ [] (lit "a") (lit " ") 98%N (lit "]")); [constructor | split; [discriminate | constructor; [apply CharProofs.key_char_ok; reflexivity | constructor]] | repeat constructor | reflexivity | discriminate | apply NI; reflexivity]. }
  split; [apply NP_pseudo; intros name Hin; apply NP; revert name Hin; apply Forall_forall; repeat constructor|].
  split; [apply (NP_nth _ (RNthChild true) (lit ":nth-child(") (lit " ")); [constructor | repeat constructor | split; [reflexivity | split; [reflexivity | apply NI; reflexivity]] | apply NP; reflexivity | apply NP; reflexivity]|].
  repeat split; vm_compute; reflexivity.
Qed.
