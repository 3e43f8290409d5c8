(** What a selector text is: a grammar, independent of the parser.  [Reads n gs t]: the text [t], with pseudo classes
    nested at most [n] deep, denotes the groups [gs]. *)
From Verif Require Import Base CharSpec Utils Nth NthSpec Engine Rules.

(** White space: between compounds any Unicode white space, inside brackets only ASCII white space. *)
Definition Blank (w : str) : Prop := Forall (fun c => is_unicode_ws c = true) w.
Definition Spaces (w : str) : Prop := Forall (fun c => is_ascii_ws c = true) w.

(** Identifiers: a letter or [_], then letters, digits, [-], [_] and escaped characters. *)
Definition IdStart (c : char) : Prop := is_ascii_upper c = true \/ is_ascii_lower c = true \/ c = 95%N.
Definition IdChar (c : char) : Prop := is_ascii_alnum c = true \/ c = 45%N \/ c = 95%N.
Inductive IdTail : str -> str -> Prop :=
| IT_nil : IdTail [] []
| IT_plain c n t : IdChar c -> IdTail n t -> IdTail (c :: n) (c :: t)
| IT_escape c n t : IdTail n t -> IdTail (c :: n) (92%N :: c :: t).
Inductive IdText : str -> str -> Prop :=
| IX c n t : IdStart c -> IdTail n t -> IdText (c :: n) (c :: t).

(** The text between two quotes [q]: one line, every [q] directly behind a backslash, no backslash at the end. *)
Inductive Quoted (q : char) : str -> Prop :=
| Q_nil : Quoted q []
| Q_plain c v : c <> q -> c <> 10%N -> c <> 92%N -> Quoted q v -> Quoted q (c :: v)
| Q_escape k c v : c <> 10%N -> c <> 92%N -> Quoted q v -> Quoted q (repeat 92%N (S k) ++ c :: v).
Definition Quote (q : char) : Prop := q = 39%N \/ q = 34%N.
(** An unquoted value. *)
Definition Bare (stop : str) (v : str) : Prop := Forall (fun c => is_unicode_ws c = false /\ ~ In c stop) v.

(** [\[key\]], [\[key op value\]]. *)
Inductive ModeText : amode -> str -> Prop :=
| MT_eq : ModeText MEq []
| MT_prefix : ModeText MPrefix (lit "^")
| MT_suffix : ModeText MSuffix (lit "$")
| MT_sub : ModeText MSub (lit "*")
| MT_dash : ModeText MDash (lit "|")
| MT_word : ModeText MWord (lit "~")
| MT_not : ModeText MNot (lit "!").
Inductive ValueText : str -> str -> Prop :=
| VT_bare v : v <> [] -> Bare (lit "]'""<>/=`") v -> ValueText v v
| VT_quoted q v : Quote q -> Quoted q v -> ValueText v (q :: v ++ [q]).
Definition KeyText (k : str) : Prop := k <> [] /\ Forall KeyChar k.
Inductive AttrText : option (amode * str) -> str -> Prop :=
| AT_has : AttrText None []
| AT_test m op w v x : ModeText m op -> Blank w -> ValueText v x -> AttrText (Some (m, v)) (op ++ [61%N] ++ w ++ x).

(** Numerals without leading zeros, and the formulas of nth. *)
Definition digit_value (c : char) : Z := (Z.of_N c - 48)%Z.
Definition value_of (ds : str) : Z := fold_left (fun a c => a * 10 + digit_value c)%Z ds 0%Z.
Inductive Numeral : str -> Prop :=
| NU_one d : is_ascii_digit d = true -> Numeral [d]
| NU_many d ds : is_ascii_digit d = true -> d <> 48%N -> ds <> [] -> Forall (fun c => is_ascii_digit c = true) ds -> Numeral (d :: ds).
Inductive Sign : str -> Z -> Prop :=
| SG_plus : Sign (lit "+") 1
| SG_minus : Sign (lit "-") (-1).
Inductive OptSign : str -> Z -> Prop :=
| OS_none : OptSign [] 1
| OS_some t z : Sign t z -> OptSign t z.
(** The factor in front of [n]. *)
Inductive Factor : str -> Z -> Prop :=
| FA_none : Factor [] 1
| FA_some ds : Numeral ds -> Factor ds (value_of ds).
Inductive Offset : str -> Z -> Prop :=
| OF_none : Offset [] 0
| OF_some w1 s z w2 ds : Blank w1 -> Sign s z -> Blank w2 -> Numeral ds -> Offset (w1 ++ s ++ w2 ++ ds) (z * value_of ds).
(** [NthText a b t]: the text denotes [a n + b]; [a = None] for a bare number. *)
Inductive NthText : option Z -> Z -> str -> Prop :=
| NT_even : NthText (Some 2%Z) 0 (lit "even")
| NT_odd : NthText (Some 2%Z) 1 (lit "odd")
| NT_int s z ds : OptSign s z -> Numeral ds -> NthText None (z * value_of ds) (s ++ ds)
| NT_n s z fs a os b : OptSign s z -> Factor fs a -> Offset os b -> NthText (Some (z * a)%Z) b (s ++ fs ++ lit "n" ++ os).

(** The pseudo classes without argument. *)
Definition plain_pseudos : list (rule * str) := [
  (RRoot, lit ":root"); (REmpty, lit ":empty"); (RFirstChild true, lit ":first-child"); (RFirstChild false, lit ":last-child");
  (ROnlyChild, lit ":only-child"); (RFirstOfType true, lit ":first-of-type"); (RFirstOfType false, lit ":last-of-type");
  (ROnlyOfType, lit ":only-of-type"); (RChecked, lit ":checked"); (alias_header, lit ":header"); (alias_input, lit ":input");
  (alias_submit, lit ":submit")].
Inductive NthName : (nth_formula -> rule) -> str -> Prop :=
| NN_child : NthName (RNthChild true) (lit ":nth-child(")
| NN_last_child : NthName (RNthChild false) (lit ":nth-last-child(")
| NN_type : NthName (RNthOfType true) (lit ":nth-of-type(")
| NN_last_type : NthName (RNthOfType false) (lit ":nth-last-of-type(").
Inductive NestName : (nested -> rule) -> str -> Prop :=
| NE_not : NestName RNot (lit ":not(")
| NE_has : NestName RHas (lit ":has(").

(** Combinators: white space alone, or a sign with white space around it. *)
Inductive CombSign : comb -> char -> Prop :=
| CS_child : CombSign Children 62%N
| CS_later : CombSign NextAll 126%N
| CS_next : CombSign Next 43%N.
Inductive CombText : comb -> str -> Prop :=
| CT_desc w : Blank w -> w <> [] -> CombText ChildrenAll w
| CT_sign c s w1 w2 : CombSign c s -> Blank w1 -> Blank w2 -> CombText c (w1 ++ s :: w2).
Inductive CommaText : str -> Prop :=
| CO w1 w2 : Blank w1 -> Blank w2 -> CommaText (w1 ++ 44%N :: w2).

(** A name or [*] stands in front of the other parts of a compound. *)
Definition head_only (r : rule) : bool := match r with RAll | RName _ => true | _ => false end.
Definition is_nested (r : rule) : bool := match r with RNot _ | RHas _ => true | _ => false end.
Definition all_rules (gs : ast) : list rule := map fst (concat (concat gs)).
(** At most the very last part is [:not] or [:has]. *)
Definition nested_last (gs : ast) : bool := forallb (fun r => negb (is_nested r)) (removelast (all_rules gs)).

Section Grammar.
  (** The texts allowed inside [:not(..)] and [:has(..)]. *)
  Variable Inner : ast -> str -> Prop.

  Inductive RText : rule -> str -> Prop :=
  | RT_all : RText RAll (lit "*")
  | RT_name n t : IdText n t -> RText (RName n) t
  | RT_class n t : IdText n t -> RText (RClass n) (46%N :: t)
  | RT_id n t : IdText n t -> RText (RId n) (35%N :: t)
  | RT_attr w1 k w2 a t w3 : Spaces w1 -> KeyText k -> Spaces w2 -> AttrText a t -> Spaces w3 ->
      RText (RAttr k a) (91%N :: w1 ++ k ++ w2 ++ t ++ w3 ++ [93%N])
  | RT_pseudo r t : In (r, t) plain_pseudos -> RText r t
  | RT_nth mk name w1 a b t w2 : NthName mk name -> Spaces w1 -> NthText a b t -> Spaces w2 ->
      (forall z, a = Some z -> Readable z) -> Readable b ->
      RText (mk (a, b)) (name ++ w1 ++ t ++ w2 ++ [41%N])
  | RT_contains_quoted w1 q v w2 : Spaces w1 -> Quote q -> Quoted q v -> Spaces w2 ->
      RText (RContains v) (lit ":contains(" ++ w1 ++ (q :: v ++ [q]) ++ w2 ++ [41%N])
  | RT_contains_bare w1 v w2 : Spaces w1 -> Bare (lit ")'""<>/=`") v -> Spaces w2 ->
      RText (RContains v) (lit ":contains(" ++ w1 ++ v ++ w2 ++ [41%N])
  | RT_nested mk name w1 gs t w2 : NestName mk name -> Spaces w1 -> Inner gs t -> Spaces w2 ->
      RText (mk (NSel gs)) (name ++ w1 ++ t ++ w2 ++ [41%N]).

  Inductive Chained : list (rule * comb) -> str -> Prop :=
  | CH_nil : Chained [] []
  | CH_cons r t rs u : RText r t -> head_only r = false -> Chained rs u -> Chained ((r, Chain) :: rs) (t ++ u).
  Inductive Compound (c : comb) : list (rule * comb) -> str -> Prop :=
  | CP r t rs u : RText r t -> Chained rs u -> Compound c ((r, c) :: rs) (t ++ u).
  Inductive Further : list (list (rule * comb)) -> str -> Prop :=
  | FU_nil : Further [] []
  | FU_cons c w cp t g u : CombText c w -> Compound c cp t -> Further g u -> Further (cp :: g) (w ++ t ++ u).
  Inductive Group (c : comb) : list (list (rule * comb)) -> str -> Prop :=
  | GR cp t g u : Compound c cp t -> Further g u -> Group c (cp :: g) (t ++ u).
  Inductive More : ast -> str -> Prop :=
  | MO_nil : More [] []
  | MO_cons w g t gs u : CommaText w -> Group ChildrenAll g t -> More gs u -> More (g :: gs) (w ++ t ++ u).
  (** The groups, the first one entered by the combinator [c]. *)
  Inductive Body (c : comb) : ast -> str -> Prop :=
  | BO g t gs u : Group c g t -> More gs u -> Body c (g :: gs) (t ++ u).
  (** What may stand in front: nothing, white space, or a combinator for the first group. *)
  Inductive Lead : comb -> str -> Prop :=
  | LE_blank w : Blank w -> Lead ChildrenAll w
  | LE_sign c s w1 w2 : CombSign c s -> Blank w1 -> Blank w2 -> Lead c (w1 ++ s :: w2).
  Inductive Whole : ast -> str -> Prop :=
  | WH c l gs t w : Lead c l -> Body c gs t -> Blank w -> Whole gs (l ++ t ++ w).
  (** The text inside a nested pseudo class, without the white space around it. *)
  Inductive Inside : ast -> str -> Prop :=
  | IN_plain gs t : Body ChildrenAll gs t -> nested_last gs = true -> Inside gs t
  | IN_sign c s w gs t : CombSign c s -> Blank w -> Body c gs t -> nested_last gs = true -> Inside gs (s :: w ++ t).
End Grammar.

Fixpoint inner (n : nat) : ast -> str -> Prop :=
  match n with
  | 0 => fun _ _ => False
  | S n => Inside (inner n)
  end.
Definition Reads (n : nat) : ast -> str -> Prop := Whole (inner n).

(** * Texts outside the grammar on which the parser breaks off *)
(** The text ends inside a part: a sign without a name, a bracket or a parenthesis that is not closed (up to a quoted
    text).  The white space behind the quoted text is allowed. *)
Definition QuoteEnd (b : str) : Prop := b = [] \/ exists q v w, Quote q /\ Spaces w /\ b = q :: v ++ q :: w.
Inductive CutOff : str -> Prop :=
| CU_class : CutOff (lit ".")
| CU_id : CutOff (lit "#")
| CU_attr a b : ~ In 93%N a -> QuoteEnd b -> CutOff (91%N :: a ++ b)
| CU_nth mk name a : NthName mk name -> ~ In 41%N a -> CutOff (name ++ a)
| CU_contains a b : ~ In 41%N a -> QuoteEnd b -> CutOff (lit ":contains(" ++ a ++ b).
(** A bare number that is no [isize]. *)
Definition BigIndex (u : str) : Prop := exists mk name w1 s z ds w2 rest, NthName mk name /\ Spaces w1 /\ OptSign s z /\ ds <> [] /\
  Forall (fun c => is_ascii_digit c = true \/ (128 <= c)%N) ds /\ ~ (Forall (fun c => is_ascii_digit c = true) ds /\ Readable (z * value_of ds)) /\ Spaces w2 /\
  u = name ++ w1 ++ s ++ ds ++ w2 ++ [41%N] ++ rest.

(** * Parentheses that are closed *)
(** [Closes rest k u]: [k] parentheses are open in front of [u]; [u] closes them, and [rest] is what follows.  Brackets
    start with a key; a quoted text stands at the end of a bracket or alone between parentheses. *)
Definition Ordinary (c : char) : Prop := ~ In c [40; 41; 91; 39; 34; 92]%N.
Definition KeyFirst (x : str) : Prop := Forall Ordinary x /\ ~ In 93%N x /\ exists w c y, Spaces w /\ KeyChar c /\ x = w ++ c :: y.
Inductive Closes (rest : str) : nat -> str -> Prop :=
| CL_end : Closes rest 0 rest
| CL_close k u : Closes rest k u -> Closes rest (S k) (41%N :: u)
| CL_open k u : Closes rest (S (S k)) u -> Closes rest (S k) (40%N :: u)
| CL_char k c u : Ordinary c -> Closes rest (S k) u -> Closes rest (S k) (c :: u)
| CL_escape k c u : Ordinary c -> Closes rest (S k) (c :: u) -> Closes rest (S k) (92%N :: c :: u)
| CL_quoted k w1 q v w2 u : Spaces w1 -> Quote q -> Quoted q v -> Spaces w2 -> Closes rest (S k) u ->
    Closes rest (S k) (40%N :: w1 ++ (q :: v ++ [q]) ++ w2 ++ 41%N :: u)
| CL_bracket k x u : KeyFirst x -> Closes rest (S k) u -> Closes rest (S k) (91%N :: x ++ 93%N :: u)
| CL_bracket_quoted k x q v w u : KeyFirst x -> Quote q -> Quoted q v -> Spaces w -> Closes rest (S k) u ->
    Closes rest (S k) (91%N :: x ++ (q :: v ++ [q]) ++ w ++ 93%N :: u).
(** A nested pseudo class whose parenthesis is not closed in this sense. *)
Definition Unclosed (u : str) : Prop := exists mk name v, NestName mk name /\ u = name ++ v /\ forall rest, ~ Closes rest 1 v.
