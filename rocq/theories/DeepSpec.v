(** Nested texts outside the grammar: what may go wrong between the parentheses of [:not(..)] and [:has(..)]. *)
From Verif Require Import Base CharSpec Utils Nth NthSpec Engine Rules ParseSpec TailSpec.

(** White space or one sign with white space around it. *)
Inductive Mark : str -> Prop :=
| MK_blank w : Blank w -> w <> [] -> Mark w
| MK_sign w1 o w2 : Blank w1 -> In o op_chars -> Blank w2 -> Mark (w1 ++ o :: w2).
(** The start of a nested text: parts and marks in any order, no nested pseudo class among the parts. *)
Inductive Run (n : nat) : place -> str -> Prop :=
| RN_start : Run n AtStart []
| RN_part p t r u : Run n p t -> RText (inner n) r u -> is_nested r = false -> (p = AfterPart -> head_only r = false) -> Run n AfterPart (t ++ u)
| RN_mark p t w : Run n p t -> p <> AfterSign -> Mark w -> Run n AfterSign (t ++ w).

(** A character other than the closing parenthesis that starts no part, or an unknown pseudo class. *)
Inductive Foreign : place -> str -> Prop :=
| FO_char p c s : ~ IdStart c -> ~ In c (lit ".#[:*)") -> is_unicode_ws c = false -> ~ In c op_chars ->
    (p = AfterPart -> ~ IdChar c /\ c <> 92%N) -> Foreign p (c :: s)
| FO_pseudo p s : (forall name, In name pseudo_names -> ~ Prefix name (58%N :: s)) -> Foreign p (58%N :: s).

(** Nested texts (from behind the opening parenthesis to the end of the whole text) that are rejected: a foreign
    character, or anything but the closing parenthesis behind a nested pseudo class; the same further down. *)
Inductive Rejected (n : nat) : str -> Prop :=
| RJ_foreign p t u : Run n p t -> Foreign p u -> Rejected n (t ++ u)
| RJ_behind p t r u w c s : Run n p t -> RText (inner n) r u -> is_nested r = true -> Spaces w -> is_ascii_ws c = false -> c <> 41%N -> Rejected n (t ++ u ++ w ++ c :: s)
| RJ_deep p t mk name w v : Run n p t -> NestName mk name -> Spaces w -> First (fun c => is_ascii_ws c = false) v -> Rejected n v -> Rejected n (t ++ name ++ w ++ v).
(** Nested texts that end too early: a part that is cut off, no closing parenthesis, none behind a nested pseudo class;
    the same further down. *)
Inductive Broken (n : nat) : str -> Prop :=
| BK_sign p t c : Run n p t -> In c (lit ".#") -> Broken n (t ++ [c])
| BK_bracket p t r u : Run n p t -> RText (inner n) r (u ++ [closer r]) -> bracketed r = true -> Broken n (t ++ u)
| BK_open p t w : Run n p t -> Spaces w -> (p = AfterSign -> w = []) -> Broken n (t ++ w)
| BK_behind p t r u w : Run n p t -> RText (inner n) r u -> is_nested r = true -> Spaces w -> Broken n (t ++ u ++ w)
| BK_deep p t mk name w v : Run n p t -> NestName mk name -> Spaces w -> First (fun c => is_ascii_ws c = false) v -> Broken n v -> Broken n (t ++ name ++ w ++ v).
