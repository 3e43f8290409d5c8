(** Property theorems: nested texts that are outside the grammar (C34, C64). *)
From Verif Require Import Base CharSpec Utils Nth NthSpec Engine Rules Regex RegexProofs Parse ParseSpec TokenProofs ParseProofs ParsePanic TailSpec ParseTail DeepSpec ParseDeep PropsParse PropsTail.

(** Behind the front of any selector, a nested text that has a foreign character between its parts, or anything but the
    closing parenthesis behind a nested pseudo class of its own, is rejected; so it is at any depth, whatever follows. *)
Theorem C64_nested (wide_digit : char -> bool) n p t mk name w v : Front n p t -> NestName mk name -> Spaces w -> First (fun c => is_ascii_ws c = false) v -> Rejected n v ->
  from_str wide_digit (t ++ name ++ w ++ v) = Ok None.
Proof.
  intros Hf Hname Hw Hv H. apply (starts_goes wide_digit n p t (name ++ w ++ v) _ Hf). split.
  - intros G cb prev last. exact (rejected_goes wide_digit n mk name w v G cb prev last Hname Hw Hv H).
  - destruct (nest_colon mk name (w ++ v) Hname) as (x & ->). exists 58%N, x. split; [reflexivity | cbn; tauto].
Qed.
Print Assumptions C64_nested.
(** A nested text that ends inside a part or without its closing parenthesis makes the parser panic, at any depth. *)
Theorem C34_nested_panics (wide_digit : char -> bool) n p t mk name w v : Front n p t -> NestName mk name -> Spaces w -> First (fun c => is_ascii_ws c = false) v -> Broken n v ->
  from_str wide_digit (t ++ name ++ w ++ v) = Panic.
Proof.
  intros Hf Hname Hw Hv H. apply (starts_goes wide_digit n p t (name ++ w ++ v) _ Hf). split.
  - intros G cb prev last. exact (broken_goes wide_digit n mk name w v G cb prev last Hname Hw Hv H).
  - destruct (nest_colon mk name (w ++ v) Hname) as (x & ->). exists 58%N, x. split; [reflexivity | cbn; tauto].
Qed.
Print Assumptions C34_nested_panics.

Lemma ex_b n p t : Run n p t -> p <> AfterPart -> Run n AfterPart (t ++ lit "b").
Proof.
  intros H Hp. apply (RN_part n p t (RName (lit "b")) (lit "b") H); [|reflexivity | intros E; contradiction]. apply RT_name. apply id_text; [right; left; reflexivity | constructor].
Qed.
Lemma ex_run n : Run n AfterSign (lit "b , ").
Proof.
  change (lit "b , ") with (([] ++ lit "b") ++ (lit " " ++ 44%N :: lit " ")). apply (RN_mark n AfterPart); [apply (ex_b n AtStart); [constructor | discriminate] | discriminate|].
  apply MK_sign; [repeat constructor | cbn; tauto | repeat constructor].
Qed.
Example C64_nested_ex : Front 1 AfterPart (lit "ul") /\ Rejected 1 (lit "b , !c) d") /\ Rejected 1 (lit "b , :has(b) c) d") /\ Rejected 1 (lit "b , :has( b , !c)) d") /\
  Broken 1 (lit "b , ") /\ Broken 1 (lit "b , :has(b) ") /\ Broken 1 (lit "b , :has( b , .") /\
  parsed "ul:not(b , !c) d" = Ok None /\ parsed "ul:not(b , :has(b) c) d" = Ok None /\ parsed "ul:not( b , :has( b , !c)) d" = Ok None /\
  parsed "ul:not(b , " = Panic /\ parsed "ul:not(b , :has(b) " = Panic /\ parsed "ul:not( b , :has( b , ." = Panic.
Proof.
  assert (NS : forall c, is_ascii_upper c || is_ascii_lower c || char_eqb c 95%N = false -> ~ IdStart c).
  { intros c H [E | [E | E]]; [rewrite E in H | rewrite E, orb_true_r in H | subst c]; discriminate. }
  assert (NI : forall (c : char) l, existsb (char_eqb c) l = false -> ~ In c l).
  { intros c l H Hin. assert (existsb (char_eqb c) l = true) by (apply existsb_exists; exists c; split; [exact Hin | apply N.eqb_refl]). congruence. }
  assert (FC : forall s, Rejected 1 (lit "b , !" ++ s)).
  { intros s. change (lit "b , !" ++ s) with (lit "b , " ++ 33%N :: s). apply (RJ_foreign 1 AfterSign); [apply ex_run|].
    apply FO_char; [apply NS; reflexivity | apply NI; reflexivity | reflexivity | apply NI; reflexivity | discriminate]. }
  assert (HB : RText (inner 1) (RHas (NSel [[[(RName (lit "b"), ChildrenAll)]]])) (lit ":has(b)")).
  { change (lit ":has(b)") with (lit ":has(" ++ [] ++ lit "b" ++ [] ++ [41%N]). apply RT_nested; [constructor | constructor | | constructor]. apply IN_plain; [|reflexivity].
    change (lit "b") with ((((lit "b") ++ []) ++ []) ++ []) at 2. apply BO; [|constructor]. apply GR; [|constructor]. apply CP; [|constructor]. apply RT_name. apply id_text; [right; left; reflexivity | constructor]. }
  split; [apply ex_part|]. split; [apply (FC (lit "c) d"))|].
  split.
  { change (lit "b , :has(b) c) d") with (lit "b , " ++ lit ":has(b)" ++ lit " " ++ 99%N :: lit ") d"). apply (RJ_behind 1 AfterSign _ _ _ _ _ _ (ex_run 1) HB); [reflexivity | repeat constructor | reflexivity | discriminate]. }
  split.
  { change (lit "b , :has( b , !c)) d") with (lit "b , " ++ lit ":has(" ++ lit " " ++ (lit "b , !" ++ lit "c)) d")). apply (RJ_deep 1 AfterSign _ RHas); [apply ex_run | constructor | repeat constructor | reflexivity | apply FC]. }
  split.
  { change (lit "b , ") with (lit "b , " ++ []). apply (BK_open 1 AfterSign); [apply ex_run | constructor | reflexivity]. }
  split.
  { change (lit "b , :has(b) ") with (lit "b , " ++ lit ":has(b)" ++ lit " "). apply (BK_behind 1 AfterSign _ _ _ _ (ex_run 1) HB); [reflexivity | repeat constructor]. }
  split.
  { change (lit "b , :has( b , .") with (lit "b , " ++ lit ":has(" ++ lit " " ++ (lit "b , " ++ [46%N])). apply (BK_deep 1 AfterSign _ RHas); [apply ex_run | constructor | repeat constructor | reflexivity |].
    apply (BK_sign 1 AfterSign); [apply ex_run | cbn; tauto]. }
  repeat split; vm_compute; reflexivity.
Qed.
