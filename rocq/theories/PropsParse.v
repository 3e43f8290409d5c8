(** Property theorems: selector texts (C02, C34, C35). *)
From Verif Require Import Base CharProofs Utils Nth NthSpec NthProofs Engine Rules Regex RegexProofs Parse PatProofs NthText TokenProofs SelSpec ParseSpec ParseProofs ParseTotal ParsePanic ParseClosed NthSound.

(** The regular expressions of the code use [\d], which also stands for the digits of other scripts; which characters
    these are is a parameter of all theorems.  The examples take the ASCII digits. *)
Definition ascii_only : char -> bool := fun _ => false.
Definition parsed (s : Coq.Strings.String.string) : res (option ast) := from_str ascii_only (lit s).
Arguments parsed _%string_scope.

(** * C02 *)
(** Full claim: every text of the grammar, whatever its numbers.  Missing: numbers that are no [isize] (refuted below).
    A text of the grammar, with white space around it, is read as [a n + b]; from these the positions of C01 follow. *)
Theorem C02_nth_text_partial (wide_digit : char -> bool) mk name w1 a b t w2 :
  NthName mk name -> Spaces w1 -> NthText a b t -> Spaces w2 -> (forall z, a = Some z -> Readable z) -> Readable b ->
  from_str wide_digit (name ++ w1 ++ t ++ w2 ++ [41%N]) = Ok (Some [[[(mk (a, b), ChildrenAll)]]]) /\
  forall total, NthSmall (formula_step (a, b)) b (Z.of_nat total) -> NthSafe (formula_step (a, b)) b (Z.of_nat total) ->
    exists l, get_allowed_indexs (a, b) total = Ok l /\ ZIncr l /\ forall x, In x l <-> NthPos (match a with Some z => z | None => 0%Z end) b (Z.of_nat total) (x + 1).
Proof.
  intros Hn H1 Ht H2 Ra Rb. split.
  - apply (from_str_reads wide_digit 0). unfold Reads. rewrite <- (app_nil_l (name ++ _)), <- (app_nil_r (name ++ _)).
    apply (WH _ ChildrenAll [] _ _ []); [apply LE_blank; constructor | | constructor]. rewrite <- (app_nil_r (name ++ _)). apply BO; [|constructor].
    rewrite <- (app_nil_r (name ++ _)). apply GR; [|constructor]. rewrite <- (app_nil_r (name ++ _)). apply CP; [|constructor]. apply RT_nth; assumption.
  - intros total Hs Hf. exact (allowed_correct (a, b) total Hs Hf).
Qed.
Print Assumptions C02_nth_text_partial.
Example C02_ex1 : NthText (Some (-12)%Z) 305 (lit "-12n + 305") /\ Readable (-12) /\ Readable 305 /\
  parsed ":nth-last-of-type(  -12n + 305 )" = Ok (Some [[[(RNthOfType false (Some (-12)%Z, 305%Z), ChildrenAll)]]]).
Proof.
  split; [|split; [|split]]; [|unfold Readable; lia | unfold Readable; lia | vm_compute; reflexivity].
  change (-12)%Z with (-1 * value_of (lit "12"))%Z. change (lit "-12n + 305") with (lit "-" ++ lit "12" ++ lit "n" ++ (lit " " ++ lit "+" ++ lit " " ++ lit "305")). change 305%Z with (1 * value_of (lit "305"))%Z.
  apply NT_n; [apply OS_some; constructor | apply FA_some, NU_many; [reflexivity | discriminate | discriminate | repeat constructor]|].
  apply OF_some; [repeat constructor | constructor | repeat constructor | apply NU_many; [reflexivity | discriminate | discriminate | repeat constructor]].
Qed.

(** Nothing else is accepted: a text between the parentheses with another form is an error or a panic. *)
Theorem C02_nth_only (wide_digit : char -> bool) mk name v gs :
  NthName mk name -> ~ In 41%N v -> from_str wide_digit (name ++ v ++ [41%N]) = Ok (Some gs) ->
  exists a b w1 t w2, gs = [[[(mk (a, b), ChildrenAll)]]] /\ v = w1 ++ t ++ w2 /\ Spaces w1 /\ Spaces w2 /\
    ((forall z, a = Some z -> Readable z) -> Readable b -> NthText a b t).
Proof. exact (nth_only wide_digit mk name v gs). Qed.
Print Assumptions C02_nth_only.
Example C02_ex2 : NthName (RNthChild true) (lit ":nth-child(") /\ ~ In 41%N (lit " 2n-1 ") /\ parsed ":nth-child( 2n-1 )" = Ok (Some [[[(RNthChild true (Some 2%Z, (-1)%Z), ChildrenAll)]]]) /\
  parsed ":nth-child(2 n)" = Ok None /\ parsed ":nth-child(+ 3)" = Ok None /\ parsed ":nth-child(05)" = Ok None.
Proof. split; [constructor|]. split; [vm_compute; intros H; repeat destruct H as [H | H]; try discriminate; exact H|]. repeat split; vm_compute; reflexivity. Qed.

(** The full claim is false of the code: a number that is no [isize] makes the parser panic when it stands alone, and the
    application of the rule when it stands before or behind an [n]. *)
Theorem C02_nth_text_refuted : exists a b a' b' t t', NthText a b t /\ NthText a' b' t' /\
  (forall wide_digit, from_str wide_digit (lit ":nth-child(" ++ t ++ [41%N]) = Panic) /\
  (forall wide_digit, exists f, from_str wide_digit (lit ":nth-child(" ++ t' ++ [41%N]) = Ok (Some [[[(RNthChild true f, ChildrenAll)]]]) /\ get_allowed_indexs f 3 = Panic).
Proof.
  set (big := lit "9223372036854775808").
  assert (N : Numeral big) by (apply NU_many; [reflexivity | discriminate | discriminate | repeat constructor]).
  exists None, (1 * value_of big)%Z, (Some (1 * 1)%Z), (1 * value_of big)%Z, ([] ++ big), ([] ++ [] ++ lit "n" ++ [] ++ lit "+" ++ [] ++ big).
  split; [apply NT_int; [constructor | exact N]|]. split; [apply NT_n; [constructor | constructor | apply OF_some; [constructor | constructor | constructor | exact N]]|].
  split; [intros w; vm_compute; reflexivity|]. intros w. exists (Some 1%Z, (2 ^ 63)%Z). split; vm_compute; reflexivity.
Qed.
Print Assumptions C02_nth_text_refuted.

(** * C34 *)
(** Full claim: no text makes the parser panic.  Missing: texts with a part that is cut off at their end, with a bare
    nth number that is no [isize], and with a nested pseudo class whose parenthesis is not closed (refuted below);
    brackets and quotes inside the nested text have to be of the usual form. *)
Theorem C34_no_panic_partial (wide_digit : char -> bool) s :
  (forall u, Suffix u s -> ~ CutOff u /\ ~ BigIndex u /\ ~ Unclosed u) ->
  from_str wide_digit s = Ok None \/ exists gs, from_str wide_digit s = Ok (Some gs) /\ ast_shape gs /\ rules_shape gs.
Proof.
  intros H. pose proof (from_str_bounded wide_digit s H) as P. pose proof (from_str_fuel wide_digit s) as F.
  destruct (from_str wide_digit s) as [[gs|]| |] eqn:E; [|left; reflexivity | congruence | congruence]. right. exists gs. split; [reflexivity | exact (from_str_shape wide_digit s gs E)].
Qed.
Print Assumptions C34_no_panic_partial.

(** In particular every text without brackets and parentheses that does not end in [.] or [#]. *)
Theorem C34_no_panic_plain_partial (wide_digit : char -> bool) s :
  ~ In 91%N s -> ~ In 40%N s -> (forall u, s <> u ++ lit ".") -> (forall u, s <> u ++ lit "#") ->
  from_str wide_digit s = Ok None \/ exists gs, from_str wide_digit s = Ok (Some gs) /\ ast_shape gs /\ rules_shape gs.
Proof.
  intros H1 H2 H3 H4. apply C34_no_panic_partial. intros u (w & ->).
  assert (B : forall c, ~ In c (w ++ u) -> ~ In c u) by (intros c H H'; apply H; rewrite in_app_iff; tauto).
  apply B in H1. apply B in H2. clear B.
  assert (P : forall mk name v, NthName mk name -> u <> name ++ v) by (intros mk name v Hn ->; apply H2; destruct Hn; cbn; tauto).
  split; [|split].
  - intros H. inversion H; subst.
    + exact (H3 w eq_refl).
    + exact (H4 w eq_refl).
    + apply H1. left. reflexivity.
    + exact (P _ _ _ H0 eq_refl).
    + apply H2. cbn. tauto.
  - intros (mk & name & w1 & sg & z & ds & w2 & rest & Hn & H). exact (P _ _ _ Hn (proj2 (proj2 (proj2 (proj2 (proj2 (proj2 H))))))).
  - intros (mk & name & v & Hn & -> & _). apply H2. destruct Hn; cbn; tauto.
Qed.
Print Assumptions C34_no_panic_plain_partial.
Example C34_ex1 : ~ In 91%N (lit "ul > li.a#b:first-child, *") /\ ~ In 40%N (lit "ul > li.a#b:first-child, *") /\
  parsed "ul > li.a#b:first-child, *" =
    Ok (Some [[[(RName (lit "ul"), ChildrenAll)]; [(RName (lit "li"), Children); (RClass (lit "a"), Chain); (RId (lit "b"), Chain); (RFirstChild true, Chain)]]; [[(RAll, ChildrenAll)]]]) /\
  parsed "a >> b" = Ok None /\ parsed "a,,b" = Ok None /\ parsed "a:hover" = Ok None /\ parsed "a >" = Ok None.
Proof.
  split; [vm_compute; intros H; repeat destruct H as [H | H]; try discriminate; exact H|]. split; [vm_compute; intros H; repeat destruct H as [H | H]; try discriminate; exact H|].
  repeat split; vm_compute; reflexivity.
Qed.
(** Closed parts do no harm: [a\[b=c\]]. *)
Example C34_ex2 : forall u, Suffix u (lit "a[b=c]") -> ~ CutOff u /\ ~ BigIndex u /\ ~ Unclosed u.
Proof.
  assert (N : ~ In 58%N (lit "a[b=c]")) by (vm_compute; intros H; repeat destruct H as [H | H]; try discriminate; exact H).
  intros u (w & E). assert (Nu : ~ In 58%N u) by (intros H; apply N; rewrite E; apply in_app_iff; tauto).
  split; [|split].
  - intros H. destruct H as [ | | a b Ha Hb | mk name a Hn Ha | a b Ha Hb ].
    + apply (f_equal (@rev char)) in E. rewrite rev_app_distr in E. discriminate.
    + apply (f_equal (@rev char)) in E. rewrite rev_app_distr in E. discriminate.
    + destruct Hb as [-> | (q & v & w' & Hq & Hw & ->)].
      * rewrite app_nil_r in E. destruct w as [|x0 [|x1 w]]; [discriminate | |].
        -- injection E as _ E. apply Ha. rewrite <- E. cbn. tauto.
        -- injection E as _ _ E. assert (I : In 91%N (lit "b=c]")) by (change (In 91%N [98; 61; 99; 93]%N); rewrite E; apply in_app_iff; right; left; reflexivity).
           vm_compute in I; repeat destruct I as [I | I]; try discriminate; exact I.
      * assert (I : In q (lit "a[b=c]")) by (rewrite E; rewrite in_app_iff; right; right; rewrite in_app_iff; right; left; reflexivity). destruct Hq as [-> | ->]; vm_compute in I; repeat destruct I as [I | I]; try discriminate; exact I.
    + apply Nu. destruct Hn; left; reflexivity.
    + apply Nu. left. reflexivity.
  - intros (mk & name & w1 & sg & z & ds & w2 & rest & Hn & H). assert (Eu := proj2 (proj2 (proj2 (proj2 (proj2 (proj2 H)))))). rewrite Eu in Nu. apply Nu. destruct Hn; left; reflexivity.
  - intros (mk & name & v & Hn & -> & _). apply Nu. destruct Hn; left; reflexivity.
Qed.

(** A nested text that holds a closing parenthesis inside quotes, and further parentheses. *)
Fixpoint suffixes (s : str) : list str := s :: match s with [] => [] | _ :: t => suffixes t end.
Lemma suffixes_all u s : Suffix u s -> In u (suffixes s).
Proof.
  intros (w & ->). induction w as [|c w IH]; cbn [app]; [destruct u; left; reflexivity|]. right. exact IH.
Qed.
Example C34_ex3 : (forall u, Suffix u (lit "a:not([b='c)'], :has(.d))") -> ~ CutOff u /\ ~ BigIndex u /\ ~ Unclosed u) /\
  parsed "a:not([b='c)'], :has(.d))" = Ok (Some [[[(RName (lit "a"), ChildrenAll);
    (RNot (NSel [[[(RAttr (lit "b") (Some (MEq, lit "c)")), ChildrenAll)]]; [[(RHas (NSel [[[(RClass (lit "d"), ChildrenAll)]]]), ChildrenAll)]]]), Chain)]]]).
Proof.
  split; [|vm_compute; reflexivity]. intros u Hu.
  assert (O : forall c, existsb (char_eqb c) [40; 41; 91; 39; 34; 92]%N = false -> Ordinary c).
  { intros c H Hin. assert (existsb (char_eqb c) [40; 41; 91; 39; 34; 92]%N = true) by (apply existsb_exists; exists c; split; [exact Hin | apply N.eqb_refl]). congruence. }
  assert (L : u = [] \/ exists u', u = u' ++ [41%N]).
  { destruct u as [|c u] using rev_ind; [left; reflexivity|]. right. destruct Hu as (w & E). apply (f_equal (@rev char)) in E. rewrite !rev_app_distr in E. injection E as <- _. exists u. reflexivity. }
  assert (QE : forall a b, u = a ++ b -> QuoteEnd b -> b = []).
  { intros a b E [-> | (q & v & w & Hq & Hw & ->)]; [reflexivity|]. exfalso. destruct L as [-> | (u' & ->)]; [destruct a; discriminate|]. apply (f_equal (@rev char)) in E.
    replace (a ++ q :: v ++ q :: w) with ((a ++ q :: v) ++ q :: w) in E by (rewrite <- app_assoc; reflexivity). rewrite !rev_app_distr in E. cbn [rev app] in E.
    destruct w as [|x w] using rev_ind; [injection E as E; destruct Hq as [-> | ->]; discriminate|]. apply Forall_app in Hw. destruct Hw as [_ Hx]. apply Forall_inv in Hx. rewrite rev_app_distr in E. injection E as <- _. discriminate. }
  assert (I41 : u = [] \/ In 41%N u) by (destruct L as [-> | (u' & ->)]; [left; reflexivity | right; rewrite in_app_iff; right; left; reflexivity]).
  split; [|split].
  - intros H. destruct H as [ | | a b Ha Hb | mk name a Hn Ha | a b Ha Hb ].
    + destruct L as [L | (u' & E)]; [discriminate|]. destruct u' as [|? [|]]; discriminate.
    + destruct L as [L | (u' & E)]; [discriminate|]. destruct u' as [|? [|]]; discriminate.
    + pose proof (QE (91%N :: a) b eq_refl Hb) as ->. rewrite app_nil_r in Hu. apply suffixes_all in Hu. vm_compute in Hu.
      repeat (destruct Hu as [E | Hu]; [first [discriminate | injection E as <-; apply Ha; cbn; tauto]|]). destruct Hu.
    + destruct I41 as [I | I]; [destruct Hn; discriminate|]. apply in_app_or in I. destruct I as [I | I]; [|contradiction]. destruct Hn; vm_compute in I; repeat destruct I as [I | I]; try discriminate; exact I.
    + pose proof (QE (lit ":contains(" ++ a) b (app_assoc _ _ _) Hb) as ->. rewrite app_nil_r in I41. destruct I41 as [I | I]; [discriminate|]. apply in_app_or in I. destruct I as [I | I]; [|contradiction].
      vm_compute in I; repeat destruct I as [I | I]; try discriminate; exact I.
  - intros (mk & name & w1 & sg & z & ds & w2 & rest & Hn & H). assert (Eu := proj2 (proj2 (proj2 (proj2 (proj2 (proj2 H)))))). apply suffixes_all in Hu. rewrite Eu in Hu. clear - Hu Hn.
    vm_compute in Hu. destruct Hn; repeat (destruct Hu as [E | Hu]; [discriminate|]); destruct Hu.
  - intros (mk & name & v & Hn & E & H). apply suffixes_all in Hu. rewrite E in Hu. clear - Hu Hn H O.
    assert (C1 : Closes [41%N] 1 (lit ".d)" ++ [41%N])).
    { apply (CL_char _ 0 46%N); [apply O; reflexivity|]. apply (CL_char _ 0 100%N); [apply O; reflexivity|]. apply CL_close. constructor. }
    assert (C2 : Closes [] 2 (lit ".d))")).
    { apply (CL_char _ 1 46%N); [apply O; reflexivity|]. apply (CL_char _ 1 100%N); [apply O; reflexivity|]. apply CL_close, CL_close. constructor. }
    destruct Hn; cbn in Hu; repeat (destruct Hu as [E | Hu]; [try discriminate|]); try destruct Hu; injection E as <-.
    + apply (H []). apply (CL_bracket_quoted [] 0 (lit "b=") 39%N (lit "c)") [] (lit ", :has(.d))")).
      * split; [repeat constructor; apply O; reflexivity|]. split; [vm_compute; intros X; repeat destruct X as [X | X]; try discriminate; exact X|]. exists [], 98%N, (lit "="). split; [constructor|]. split; [apply key_char_ok; reflexivity | reflexivity].
      * left. reflexivity.
      * repeat constructor; discriminate.
      * constructor.
      * do 6 (apply CL_char; [apply O; reflexivity|]). apply CL_open. exact C2.
    + exact (H _ C1).
Qed.

(** The full claim is false of the code: a sign without a name, an open bracket or parenthesis at the end, a nested text
    that ends early, and a bare number that is no [isize] make [from_str] panic.  [:not(\[a)] is accepted, but its nested
    text panics when the rule is applied (C34_query_refuted). *)
Theorem C34_panics : (forall wide_digit s, In s [lit "#"; lit "a."; lit "[a"; lit "[a='b'"; lit ":nth-child(1"; lit ":not(a"; lit ":not("; lit ":contains("; lit ":nth-child(99999999999999999999)"] ->
    from_str wide_digit s = Panic) /\
  (forall wide_digit, from_str wide_digit (lit "a:not([b)") = Ok (Some [[[(RName (lit "a"), ChildrenAll); (RNot NPanic, Chain)]]])).
Proof.
  split.
  - intros wd s Hin. cbn [In] in Hin. repeat (destruct Hin as [<- | Hin]; [vm_compute; reflexivity|]). destruct Hin.
  - intros wd. vm_compute. reflexivity.
Qed.
Print Assumptions C34_panics.
Theorem C34_refuted : exists s, forall wide_digit, from_str wide_digit s = Panic.
Proof. exists (lit "[a"). intros w. apply (proj1 C34_panics). do 2 right. left. reflexivity. Qed.
Print Assumptions C34_refuted.

(** * C35 *)
(** Full claim: every selector of the usual grammar.  Missing: a name or [*] behind another part of its compound, a
    nested pseudo class that is not the last part inside another one (refuted below), and numbers that are no [isize]. *)
Theorem C35_faithful_partial (wide_digit : char -> bool) n gs t : Reads n gs t -> from_str wide_digit t = Ok (Some gs).
Proof. exact (from_str_reads wide_digit n gs t). Qed.
Print Assumptions C35_faithful_partial.
(** So the grammar gives a text at most one meaning, and white space around combinators and commas has no effect. *)
Theorem C35_unambiguous n gs m gs' t : Reads n gs t -> Reads m gs' t -> gs = gs'.
Proof. intros H1 H2. apply (from_str_reads ascii_only) in H1. apply (from_str_reads ascii_only) in H2. congruence. Qed.
Print Assumptions C35_unambiguous.
(** Whatever is accepted is a list of groups of non-empty compounds of the shape the engine expects. *)
Theorem C35_shape (wide_digit : char -> bool) s gs : from_str wide_digit s = Ok (Some gs) -> ast_shape gs /\ rules_shape gs.
Proof. exact (from_str_shape wide_digit s gs). Qed.
Print Assumptions C35_shape.

Lemma id_text c n : IdStart c -> Forall IdChar n -> IdText (c :: n) (c :: n).
Proof. intros Hc Hn. constructor; [exact Hc|]. induction Hn; [constructor | apply IT_plain; assumption]. Qed.
Example C35_ex1 : Reads 1 [[[(RName (lit "ul"), ChildrenAll)]; [(RName (lit "li"), Children); (RClass (lit "a"), Chain)]]; [[(RName (lit "p"), ChildrenAll); (RNot (NSel [[[(RClass (lit "b"), ChildrenAll)]]]), Chain)]]]
  (lit " ul >li.a, p:not( .b)").
Proof.
  assert (S : forall c, In c (lit "ulipab") -> IdStart c).
  { intros c Hc. right. left. cbn in Hc. repeat (destruct Hc as [<- | Hc]; [reflexivity|]). destruct Hc. }
  assert (I : forall c, In c (lit "ulipab") -> IdChar c).
  { intros c Hc. left. cbn in Hc. repeat (destruct Hc as [<- | Hc]; [reflexivity|]). destruct Hc. }
  assert (One : forall c, In c (lit "ulipab") -> IdText [c] [c]) by (intros c Hc; apply id_text; [apply S; exact Hc | constructor]).
  assert (Two : forall c d, In c (lit "ulipab") -> In d (lit "ulipab") -> IdText [c; d] [c; d]) by (intros c d Hc Hd; apply id_text; [apply S; exact Hc | constructor; [apply I; exact Hd | constructor]]).
  unfold Reads.
  change (lit " ul >li.a, p:not( .b)") with (lit " " ++ ((lit "ul" ++ (lit " " ++ 62%N :: []) ++ (lit "li" ++ (lit ".a" ++ [])) ++ []) ++ (([] ++ 44%N :: lit " ") ++ ((lit "p" ++ ((lit ":not(" ++ lit " " ++ (lit ".b") ++ [] ++ [41%N]) ++ [])) ++ []) ++ [])) ++ []).
  apply (WH _ ChildrenAll); [apply LE_blank; repeat constructor | | constructor].
  apply BO.
  - change (lit "ul") with (lit "ul" ++ []). apply GR; [apply CP; [apply RT_name; apply Two; cbn; tauto | constructor]|]. apply (FU_cons _ Children); [apply CT_sign; [constructor | repeat constructor | constructor] | | constructor].
    apply CP; [apply RT_name; apply Two; cbn; tauto|]. apply CH_cons; [|reflexivity | constructor]. change (lit ".a") with (46%N :: lit "a"). constructor. apply One. cbn. tauto.
  - apply MO_cons; [constructor; repeat constructor | | constructor]. apply GR; [|constructor]. apply CP; [constructor; apply One; cbn; tauto|].
    apply CH_cons; [|reflexivity | constructor]. apply RT_nested; [constructor | repeat constructor | | constructor].
    apply IN_plain; [|reflexivity]. change (lit ".b") with ((((46%N :: lit "b") ++ []) ++ []) ++ []). apply BO; [|constructor]. apply GR; [|constructor]. apply CP; [|constructor].
    constructor. apply One. cbn. tauto.
Qed.
(** The alias texts of constants.rs:24-27, read by the parser, are the groups the model gives the aliases. *)
Example C35_ex_alias : (forall w, from_str w (lit "h1,h2,h3,h4,h5,h6") = Ok (Some (map tag_group [lit "h1"; lit "h2"; lit "h3"; lit "h4"; lit "h5"; lit "h6"]))) /\
  (forall w, from_str w (lit "input,select,textarea,button") = Ok (Some (map tag_group [lit "input"; lit "select"; lit "textarea"; lit "button"]))) /\
  (forall w, from_str w (lit "input[type='submit'],button[type='submit']") = Ok (Some [submit_group (lit "input"); submit_group (lit "button")])).
Proof. repeat split; intros w; vm_compute; reflexivity. Qed.

(** The full claim is false of the code: inside [:not] and [:has] another [:not] or [:has] swallows all the text up to
    the outer parenthesis, so a selector that goes on behind it is an error (or has another meaning). *)
Theorem C35_refuted : exists t u gs, Reads 1 gs t /\ ~ In 44%N t /\ from_str ascii_only (lit ":not(" ++ t ++ [41%N]) = Ok (Some [[[(RNot (NSel gs), ChildrenAll)]]]) /\
  Reads 1 (map (fun g => g ++ [[(RName u, ChildrenAll)]]) gs) (t ++ lit " " ++ u) /\ from_str ascii_only (lit ":not(" ++ (t ++ lit " " ++ u) ++ [41%N]) <> Ok (Some [[[(RNot (NSel (map (fun g => g ++ [[(RName u, ChildrenAll)]]) gs)), ChildrenAll)]]]).
Proof.
  exists (lit ":not(a)"), (lit "b"), [[[(RNot (NSel [[[(RName (lit "a"), ChildrenAll)]]]), ChildrenAll)]]].
  assert (One : forall c, In c (lit "ab") -> IdText [c] [c]).
  { intros c Hc. apply id_text; [|constructor]. right. left. cbn in Hc. repeat (destruct Hc as [<- | Hc]; [reflexivity|]). destruct Hc. }
  assert (N : RText (inner 1) (RNot (NSel [[[(RName (lit "a"), ChildrenAll)]]])) (lit ":not(" ++ [] ++ lit "a" ++ [] ++ [41%N])).
  { apply RT_nested; [constructor | constructor | | constructor]. apply IN_plain; [|reflexivity]. change (lit "a") with (((lit "a" ++ []) ++ []) ++ []). apply BO; [|constructor]. apply GR; [|constructor]. apply CP; [|constructor].
    constructor. apply One. cbn. tauto. }
  split; [|split; [|split; [|split]]].
  - change (lit ":not(a)") with ([] ++ ((((lit ":not(" ++ [] ++ lit "a" ++ [] ++ [41%N]) ++ []) ++ []) ++ []) ++ []).
    apply (WH _ ChildrenAll); [apply LE_blank; constructor | | constructor]. apply BO; [|constructor]. apply GR; [|constructor]. apply CP; [exact N | constructor].
  - vm_compute. intros H. repeat destruct H as [H | H]; try discriminate; exact H.
  - vm_compute. reflexivity.
  - change (lit ":not(a)" ++ lit " " ++ lit "b") with ([] ++ ((((lit ":not(" ++ [] ++ lit "a" ++ [] ++ [41%N]) ++ []) ++ (lit " " ++ (lit "b" ++ []) ++ [])) ++ []) ++ []).
    apply (WH _ ChildrenAll); [apply LE_blank; constructor | | constructor]. apply BO; [|constructor]. apply GR; [apply CP; [exact N | constructor]|].
    apply (FU_cons _ ChildrenAll); [apply CT_desc; [repeat constructor | discriminate] | | constructor]. apply CP; [|constructor]. constructor. apply One. cbn. tauto.
  - vm_compute. discriminate.
Qed.
Print Assumptions C35_refuted.
