(** Selectors that can be run on every document and set without a crash: what the texts must not contain. *)
From Verif Require Import Base Nth Dom DomSpec OrderSpec Engine Rules SelSpec FindSpec.

Section Runs.
  Variable h : heap.
  Variable r : id.
  (** Position formulas outside the regimes of C01, nested texts that can be read.  Unlike [RuleOk] nothing is asked of
      ids, attribute values, options, or of the way the groups of a nested text overlap. *)
  Fixpoint Runnable (rl : rule) {struct rl} : Prop :=
    let all_ok gs := fold_right and True (map (fun g => fold_right and True (map (fun cp =>
      fold_right and True (map (fun e : rule * comb => let '(r', _) := e in Runnable r') cp)) g)) gs) in
    match rl with
    | RNthChild _ f | RNthOfType _ f => NthOk h r f
    | RNot n | RHas n => match n with NSel gs => forallb (forallb comp_wf) gs = true /\ all_ok gs | NErr => True | NPanic => False end
    | RAlias gs => forallb (forallb comp_wf) gs = true /\ all_ok gs
    | _ => True
    end.
  (** The id look-up of the document answers with elements of the document. *)
  Definition IdInside (by_id : id -> str -> option id) : Prop := forall s x, by_id r s = Some x -> ElIn h r x.
  Definition RunnableGroup (g : list (list (rule * comb))) : Prop :=
    forall cp rl c, In cp g -> In (rl, c) cp -> Runnable rl.
  (** A step that does not go to descendants (unless by an id), whose first rule panics on no list of children. *)
  Definition side_step (c : comb) (rl : rule) : bool :=
    match c with
    | ChildrenAll => is_id rl
    | Children => negb (last_number rl) && nth_at0 rl
    | _ => true
    end.
  Definition late (cp : list (rule * comb)) : bool := side_step (comp_comb cp) (head_rule cp).
  (** [find] from a set in document order: a first step, then steps of that kind; with a look-up the compounds before
      the pivot are only tested. *)
  Definition first_step (cp : list (rule * comb)) : bool :=
    match comp_comb cp with
    | ChildrenAll => negb (last_number (head_rule cp))
    | c => side_step c (head_rule cp)
    end.
  Definition loose (g : list (list (rule * comb))) : bool :=
    if looks_up g then
      match skipn (pivot g) g with
      | cp :: rest => negb (last_number (head_rule cp)) && forallb late rest
      | [] => false
      end
    else match g with cp :: rest => first_step cp && forallb late rest | [] => false end.
  (** The text of a filter for a traversal: only its first compound stands for the step itself. *)
  Definition calm_filter (c : comb) (g : list (list (rule * comb))) : bool :=
    match g with
    | [] => true
    | cp :: g' =>
        (if comb_eqb (comp_comb cp) ChildrenAll then side_step c (head_rule cp) else late cp) && forallb late g'
    end.
  (** A rule of a selector, at any depth of nested texts. *)
  Inductive Occurs (rl : rule) : list (list (list (rule * comb))) -> Prop :=
  | Oc_here gs g cp c : In g gs -> In cp g -> In (rl, c) cp -> Occurs rl gs
  | Oc_nested gs g cp c rl' sub : In g gs -> In cp g -> In (rl', c) cp -> rl' = RNot (NSel sub) \/ rl' = RHas (NSel sub) -> Occurs rl sub -> Occurs rl gs.
  (** What a parsed text may still do wrong: a formula in the regimes of C01, a nested text that panics. *)
  Definition Applies (gs : list (list (list (rule * comb)))) : Prop := forall rl, Occurs rl gs ->
    match rl with
    | RNthChild _ f | RNthOfType _ f => NthOk h r f
    | RNot NPanic | RHas NPanic => False
    | _ => True
    end.
  (** A filter text; a filter text of a traversal. *)
  Definition CanRun (gs : list (list (list (rule * comb)))) : Prop :=
    forallb (forallb comp_wf) gs = true /\ forall g, In g gs -> RunnableGroup g.
  Definition CanStep (c : comb) (gs : list (list (list (rule * comb)))) : Prop :=
    forall g, In g gs -> RunnableGroup g /\ group_wf g = true /\ calm_filter c g = true.
End Runs.
(** A call with a text that was read or not: a value with [P], and one report to the document if the text was not read. *)
Definition Answers {A} (r : id) (read : bool) (P : A -> Prop) (q : res (A * list id)) : Prop :=
  exists a, q = Ok (a, if read then [] else [r]) /\ P a.
