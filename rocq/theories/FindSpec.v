(** Which selectors [find] evaluates the way CSS reads them: the set a step starts from has a shape, and not
    every step is sound from every shape. *)
From Verif Require Import Base Nth Dom DomSpec OrderSpec Engine Rules SelSpec.

(** The nodes all stand at one depth, in document order; in document order; in any order. *)
Inductive shape := SLevel | SOrdered | SAny.

(** The rule of a compound that is run first: the leftmost with the greatest priority
    (#id before .class before names before everything else before [*]). *)
Fixpoint head_rule (cp : list (rule * comb)) : rule :=
  match cp with
  | [] => RAll
  | [(rl, _)] => rl
  | (rl, _) :: rest => let rl' := head_rule rest in if (prio_of rl' <=? prio_of rl)%N then rl else rl'
  end.

(** Rules that count from the last child: they panic on a node without child nodes. *)
Definition last_number (rl : rule) : bool :=
  match rl with
  | RFirstChild false | RFirstOfType false => true
  | RNthChild false (None, b) | RNthOfType false (None, b) => (0 <? b)%Z
  | _ => false
  end.
(** Rules whose formula allows no position among no siblings; the others panic on a node without element children. *)
Definition nth_at0 (rl : rule) : bool :=
  match rl with
  | RNthChild _ f | RNthOfType _ f =>
      match get_allowed_indexs f 0 with Ok [] => true | _ => false end
  | _ => true
  end.
Definition is_id (rl : rule) : bool := match rl with RId _ => true | _ => false end.
Definition head_fine (c : comb) (rl : rule) : bool :=
  match c with
  | ChildrenAll => negb (last_number rl)
  | Children => negb (is_id rl) && negb (last_number rl) && nth_at0 rl
  | _ => true
  end.

(** Rules that work on sets in any order: no [:not], [:header], ... made of several groups. *)
Fixpoint any_order (rl : rule) : bool :=
  let ok gs := forallb (fun g => forallb (fun cp => forallb (fun e : rule * comb => let '(r', _) := e in any_order r') cp) g) gs in
  match rl with
  | RNot n => match n with NSel gs => (length gs <=? 1) && ok gs | _ => true end
  | RAlias gs => (length gs <=? 1) && ok gs
  | _ => true
  end.
Definition comp_any_order (cp : list (rule * comb)) : bool := forallb (fun e : rule * comb => let '(r', _) := e in any_order r') cp.

Definition step_shape (s : shape) (cp : list (rule * comb)) : option shape :=
  if head_fine (comp_comb cp) (head_rule cp) then
    match comp_comb cp, s with
    | ChildrenAll, SAny => None
    | ChildrenAll, _ => Some SOrdered
    | _, SLevel => Some SLevel
    | _, _ => if comp_any_order cp then Some SAny else None
    end
  else None.
Fixpoint steps_shape (s : shape) (g : list (list (rule * comb))) : option shape :=
  match g with
  | [] => Some s
  | cp :: g' => match step_shape s cp with Some s' => steps_shape s' g' | None => None end
  end.

(** The first compound of the greatest total priority. *)
Definition comp_prio (cp : list (rule * comb)) : N := fold_right (fun e acc => (prio_of (fst e) + acc)%N) 0%N cp.
Fixpoint pivot_from (g : list (list (rule * comb))) (i : nat) (best : nat * N) : nat * N :=
  match g with
  | [] => best
  | cp :: g' => pivot_from g' (S i) (if (snd best <? comp_prio cp)%N then (i, comp_prio cp) else best)
  end.
Definition pivot (g : list (list (rule * comb))) : nat := fst (pivot_from g 0 (0, 0%N)).
Definition childish (c : comb) : bool := match c with Children | ChildrenAll => true | _ => false end.
Definition looks_up (g : list (list (rule * comb))) : bool :=
  (0 <? pivot g) && match g with cp :: _ => childish (comp_comb cp) | [] => false end.

(** The shape of the result of [find], when it can be relied on.  With a look-up only the compounds from the
    pivot on are walked forwards. *)
Definition find_shape (s : shape) (g : list (list (rule * comb))) : option shape :=
  if looks_up g then
    match s, skipn (pivot g) g with
    | SAny, _ => None
    | _, cp :: rest => if head_fine ChildrenAll (head_rule cp) then steps_shape SOrdered rest else None
    | _, [] => None
    end
  else steps_shape s g.

(** * Sets of nodes *)
(** What [find] may start from: elements, or the document itself; in document order. *)
Definition Starts (h : heap) (r : id) (els : list id) : Prop :=
  Forall (fun x => InTree h r x /\ (is_element h x = true \/ x = r)) els /\ Ordered h els.
Definition SameDepth (h : heap) (r : id) (els : list id) : Prop :=
  exists n, forall x, In x els -> exists l, Path h r l x /\ length l = n.
(** The shape claimed for a set. *)
Definition Shaped (h : heap) (r : id) (s : shape) (els : list id) : Prop :=
  match s with SLevel => SameDepth h r els /\ Ordered h els | SOrdered => Ordered h els | SAny => True end.

(** * The same analysis on a document *)
Section OnDoc.
  Variable h : heap.
  Variable text_of : id -> str.

  (** None of the nodes is inside another. *)
  Definition NestFree (P : id -> Prop) : Prop := forall u v, P u -> P v -> ~ Anc h u v.
  (** None of them is inside a later sibling of another. *)
  Definition NoFollow (P : id -> Prop) : Prop := forall u v z, P u -> P v -> Following h u z -> ~ Anc h z v.
  (** When a step from the set [P] (in document order if [ord]) gives a set in document order. *)
  Definition OrdAfter (c : comb) (P : id -> Prop) (ord : Prop) : Prop :=
    match c with
    | ChildrenAll => True
    | Children | Next => ord /\ NestFree P
    | NextAll => ord /\ NestFree P /\ NoFollow P
    | _ => False
    end.
  (** The rule that is run first meets no node whose child list makes it panic, and is not an id looked for among children. *)
  Definition RuleSafe (c : comb) (rl : rule) (P : id -> Prop) : Prop :=
    match c with
    | ChildrenAll => last_number rl = true -> forall x, P x -> (forall y, P y -> ~ Anc h y x) -> kids h x <> []
    | Children => is_id rl = false /\ (last_number rl = true -> forall x, P x -> kids h x <> []) /\
        (nth_at0 rl = false -> forall x, P x -> children h x <> [])
    | _ => True
    end.
  Definition comp_preds (cp : list (rule * comb)) : pcompound :=
    map (fun e : rule * comb => let '(r', c) := e in (Holds h text_of r', c)) cp.
  (** Every step of the walk from [P] is sound. *)
  Fixpoint StepsOk (P : id -> Prop) (ord : Prop) (g : list (list (rule * comb))) : Prop :=
    match g with
    | [] => True
    | cp :: g' =>
        (comp_any_order cp = true \/ OrdAfter (comp_comb cp) P ord) /\
        (comp_comb cp = ChildrenAll -> ord) /\ RuleSafe (comp_comb cp) (head_rule cp) P /\
        StepsOk (Step h P (comp_preds cp)) (OrdAfter (comp_comb cp) P ord) g'
    end.
  (** ... and its end is in document order. *)
  Fixpoint StepsOrd (P : id -> Prop) (ord : Prop) (g : list (list (rule * comb))) : Prop :=
    match g with
    | [] => ord
    | cp :: g' => StepsOrd (Step h P (comp_preds cp)) (OrdAfter (comp_comb cp) P ord) g'
    end.
  Definition FindOk (els : list id) (g : list (list (rule * comb))) : Prop :=
    if looks_up g then
      match skipn (pivot g) g with
      | cp :: rest => RuleSafe ChildrenAll (head_rule cp) (fun x => In x els) /\
          StepsOk (Walk h (fun x => In x els) (preds h text_of (firstn (S (pivot g)) g))) True rest
      | [] => False
      end
    else StepsOk (fun x => In x els) True g.
  Definition FindOrd (els : list id) (g : list (list (rule * comb))) : Prop :=
    if looks_up g then StepsOrd (Walk h (fun x => In x els) (preds h text_of (firstn (S (pivot g)) g))) True (skipn (S (pivot g)) g)
    else StepsOrd (fun x => In x els) True g.

  (** Adding results to earlier ones drops and misplaces nothing (see C04). *)
  Definition AddFree (A B : id -> Prop) : Prop :=
    ~ Drops h A B /\
    forall a b, Ordered h a -> Ordered h b -> (forall x, In x a <-> A x) -> (forall x, In x b <-> B x) -> ~ Misplaces h a b.
  Fixpoint AddsFree (A : id -> Prop) (Bs : list (id -> Prop)) : Prop :=
    match Bs with
    | [] => True
    | B :: Bs' => AddFree A B /\ AddsFree (fun x => A x \/ B x) Bs'
    end.
  Definition UnionOk (Bs : list (id -> Prop)) : Prop := AddsFree (fun _ => False) Bs.
End OnDoc.

(** [l'] is [l] without the elements that fail [P]. *)
Inductive Kept {A} (P : A -> Prop) : list A -> list A -> Prop :=
| Kept_nil : Kept P [] []
| Kept_keep x l l' : P x -> Kept P l l' -> Kept P (x :: l) (x :: l')
| Kept_drop x l l' : ~ P x -> Kept P l l' -> Kept P (x :: l) l'.
