(** Texts outside the grammar: the front of a selector, and what may go wrong behind it. *)
From Verif Require Import Base CharSpec Utils Nth NthSpec Engine Rules ParseSpec.

(** The first character, if there is one, satisfies [P]. *)
Definition First (P : char -> Prop) (s : str) : Prop := match s with [] => True | c :: _ => P c end.
Definition op_chars : str := lit ">,~+".

(** * The front of a selector *)
(** Where the front ends: a compound may start, after a sign ([>], [~], [+] or a comma), after a part. *)
Inductive place := AtStart | AfterSign | AfterPart.
Inductive Front (n : nat) : place -> str -> Prop :=
| FR_blank w : Blank w -> Front n AtStart w
| FR_lead c s w1 w2 : CombSign c s -> Blank w1 -> Blank w2 -> Front n AfterSign (w1 ++ s :: w2)
| FR_part c l gs t : Lead c l -> Body (inner n) c gs t -> Front n AfterPart (l ++ t)
| FR_desc c l gs t w : Lead c l -> Body (inner n) c gs t -> Blank w -> w <> [] -> Front n AtStart (l ++ t ++ w)
| FR_sign c l gs t w1 o w2 : Lead c l -> Body (inner n) c gs t -> Blank w1 -> In o op_chars -> Blank w2 -> Front n AfterSign (l ++ t ++ w1 ++ o :: w2).

(** * Parts that are cut off *)
(** The parts with a bracket or a parenthesis, and the character that closes them. *)
Definition bracketed (r : rule) : bool := match r with RAttr _ _ | RNthChild _ _ | RNthOfType _ _ | RContains _ => true | _ => false end.
Definition closer (r : rule) : char := match r with RAttr _ _ => 93%N | _ => 41%N end.
(** A part of the grammar without its closing character; a sign without a name; a nested text that is not closed. *)
Inductive CutPart (n : nat) : str -> Prop :=
| CP_bracket r t : RText (inner n) r (t ++ [closer r]) -> bracketed r = true -> CutPart n t
| CP_class : CutPart n (lit ".")
| CP_id : CutPart n (lit "#")
| CP_nested mk name w1 gs u w2 : NestName mk name -> Spaces w1 -> inner n gs u -> Spaces w2 -> CutPart n (name ++ w1 ++ u ++ w2)
| CP_nothing mk name w1 : NestName mk name -> Spaces w1 -> CutPart n (name ++ w1).
(** A bare nth number that is no [isize], and anything behind it. *)
Inductive BigPart : str -> Prop :=
| BG mk name w1 b t w2 rest : NthName mk name -> Spaces w1 -> NthText None b t -> ~ Readable b -> Spaces w2 -> BigPart (name ++ w1 ++ t ++ w2 ++ [41%N] ++ rest).

(** * Texts that start with no part *)
Definition Prefix (p s : str) : Prop := exists u, s = p ++ u.
Definition pseudo_names : list str :=
  map snd plain_pseudos ++ 
    [lit ":nth-child("; lit ":nth-last-child("; lit ":nth-of-type("; lit ":nth-last-of-type("; lit ":not("; lit ":has("; lit ":contains("].
Inductive NoPart : place -> str -> Prop :=
| NP_char p c s : ~ IdStart c -> ~ In c (lit ".#[:*") -> is_unicode_ws c = false -> ~ In c op_chars ->
    (p = AfterPart -> ~ IdChar c /\ c <> 92%N) -> NoPart p (c :: s)
| NP_sign p c d s : In c (lit ".#") -> ~ IdStart d -> NoPart p (c :: d :: s)
| NP_bracket p w s : Spaces w -> First (fun c => is_ascii_ws c = false /\ ~ KeyChar c) s -> NoPart p (91%N :: w ++ s)
| NP_attr p w1 k w2 c s : Spaces w1 -> KeyText k -> Spaces w2 -> is_ascii_ws c = false -> (w2 = [] -> ~ KeyChar c) -> ~ In c (lit "]=*^$~|!") ->
    NoPart p (91%N :: w1 ++ k ++ w2 ++ c :: s)
| NP_pseudo p s : (forall name, In name pseudo_names -> ~ Prefix name (58%N :: s)) -> NoPart p (58%N :: s)
| NP_nth p mk name w s : NthName mk name -> Spaces w ->
    First (fun c => is_ascii_ws c = false /\ is_ascii_digit c = false /\ ~ In c (lit "+-n")) s -> ~ Prefix (lit "even") s -> ~ Prefix (lit "odd") s ->
    NoPart p (name ++ w ++ s).
