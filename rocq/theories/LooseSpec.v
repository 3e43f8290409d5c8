(** The texts the parser accepts: the grammar of ParseSpec.v with looser compounds.  A part may be any part directly
    behind another one, also a name or [*]; only a name cannot stand directly behind the identifier of a name, class or
    id, since it would continue it. *)
From Verif Require Import Base CharSpec Utils Nth NthSpec Engine Rules ParseSpec.

(** The parts that end in an identifier. *)
Definition ident (r : rule) : bool := match r with RName _ | RClass _ | RId _ => true | _ => false end.
Definition is_name (r : rule) : bool := match r with RName _ => true | _ => false end.

Section Loose.
  (** The texts of the parts. *)
  Variable Part : rule -> str -> Prop.
  (** The parts behind the part [p]. *)
  Inductive LChain : rule -> list (rule * comb) -> str -> Prop :=
  | LC_nil p : LChain p [] []
  | LC_cons p r t rs u : Part r t -> (ident p = true -> is_name r = false) -> LChain r rs u -> LChain p ((r, Chain) :: rs) (t ++ u).
  Inductive LCompound (c : comb) : list (rule * comb) -> str -> Prop :=
  | LCP r t rs u : Part r t -> LChain r rs u -> LCompound c ((r, c) :: rs) (t ++ u).
  Inductive LFurther : list (list (rule * comb)) -> str -> Prop :=
  | LF_nil : LFurther [] []
  | LF_cons c w cp t g u : CombText c w -> LCompound c cp t -> LFurther g u -> LFurther (cp :: g) (w ++ t ++ u).
  Inductive LGroup (c : comb) : list (list (rule * comb)) -> str -> Prop :=
  | LG cp t g u : LCompound c cp t -> LFurther g u -> LGroup c (cp :: g) (t ++ u).
  Inductive LMore : ast -> str -> Prop :=
  | LM_nil : LMore [] []
  | LM_cons w g t gs u : CommaText w -> LGroup ChildrenAll g t -> LMore gs u -> LMore (g :: gs) (w ++ t ++ u).
  Inductive LBody (c : comb) : ast -> str -> Prop :=
  | LB g t gs u : LGroup c g t -> LMore gs u -> LBody c (g :: gs) (t ++ u).
  Inductive LWhole : ast -> str -> Prop :=
  | LW c l gs t w : Lead c l -> LBody c gs t -> Blank w -> LWhole gs (l ++ t ++ w).
End Loose.

(** The parts without a nested text. *)
Definition PartText : rule -> str -> Prop := RText (fun _ _ => False).
(** All parts.  The argument of [:not] and [:has] may be empty, a text of the grammar, or a text that does not parse,
    kept as an error value.  The number in front of [n] may be one that no [isize] holds. *)
Inductive LPart : rule -> str -> Prop :=
| LP_rule r t : PartText r t -> LPart r t
| LP_nested mk name w1 gs t w2 : NestName mk name -> Spaces w1 -> LWhole LPart gs t -> Spaces w2 -> LPart (mk (NSel gs)) (name ++ w1 ++ t ++ w2 ++ [41%N])
| LP_void mk name w : NestName mk name -> Spaces w -> LPart (mk (NSel [])) (name ++ w ++ [41%N])
| LP_broken mk name w1 n t w2 : NestName mk name -> Spaces w1 -> n = NErr \/ n = NPanic -> t <> [] -> Spaces w2 -> LPart (mk n) (name ++ w1 ++ t ++ w2 ++ [41%N])
| LP_big mk name w1 a b t w2 : NthName mk name -> Spaces w1 -> ~ In 41%N t -> Spaces w2 -> ~ ((forall z, a = Some z -> Readable z) /\ Readable b) ->
    LPart (mk (a, b)) (name ++ w1 ++ t ++ w2 ++ [41%N]).

(** Every backslash stands in front of a character that is no quote, closing parenthesis or ASCII white space. *)
Definition Escapes (s : str) : Prop := forall u v, s = u ++ 92%N :: v -> exists c v', v = c :: v' /\ ~ In c (39 :: 34 :: [41])%N /\ is_ascii_ws c = false.
(** A part that [PartText] can denote. *)
Definition Simple (r : rule) : Prop :=
  match r with
  | RNot _ | RHas _ => False
  | RNthChild _ f | RNthOfType _ f => (forall z, fst f = Some z -> Readable z) /\ Readable (snd f)
  | _ => True
  end.
