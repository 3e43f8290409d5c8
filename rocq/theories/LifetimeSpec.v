(** What is alive. *)
From Verif Require Import Base Dom DomSpec Engine Rules SelSpec FindSpec.

(** [x] is held, is the root of a held document, or is below such a node. *)
Definition Alive (h : heap) (held docs : list id) (x : id) : Prop :=
  exists y, (In y held \/ In y docs) /\ AncEq h y x.

(** The rules that ask an element only for itself and what is below it. *)
Definition own_rule (r : rule) : bool :=
  match r with
  | RAll | RName _ | RClass _ | RAttr _ _ | REmpty | RContains _ => true
  | _ => false
  end.
(** Rules about the place of an element among its siblings. *)
Definition place_rule (r : rule) : bool :=
  match r with
  | RFirstChild _ | ROnlyChild | RNthChild _ _ | RFirstOfType _ | RNthOfType _ _ | ROnlyOfType => true
  | _ => false
  end.

(** Both, [:checked], and nested texts whose groups are compounds of such rules. *)
Fixpoint seen_rule (r : rule) : bool :=
  match r with
  | RNot (NSel gs) | RHas (NSel gs) | RAlias gs =>
      forallb (fun g => match g with
                        | [cp] => comp_wf cp && forallb (fun e => let '(r', _) := e in seen_rule r') cp
                        | _ => false
                        end) gs
  | RNot _ | RHas _ | RChecked => true
  | _ => own_rule r || place_rule r
  end.
Definition comp_seen (cp : list (rule * comb)) : bool := forallb (fun e => let '(r, _) := e in seen_rule r) cp.
Definition one_each (cps : list (list (rule * comb))) : bool := forallb (fun cp => comp_seen cp && comp_wf cp) cps.
(** A group as [find] takes it: downwards first, then forwards, and searched from its first compound. *)
Definition group_forward (g : list (list (rule * comb))) : bool :=
  group_wf g && forallb comp_seen g && negb (looks_up g) && match g with cp :: _ => childish (comp_comb cp) | [] => false end.
(** The same, or searched from a later compound with only rules about the elements themselves before it. *)
Definition group_left (g : list (list (rule * comb))) : bool :=
  group_wf g && forallb comp_seen g && match g with cp :: _ => childish (comp_comb cp) | [] => false end &&
  (negb (looks_up g) || forallb (forallb (fun e : rule * comb => own_rule (fst e))) (firstn (pivot g) g)).
