(** What the traversals from one element have to return. *)
From Verif Require Import Base Dom DomSpec OrderSpec Engine Rules SelSpec FindSpec.

(** Every group of the filter is one compound: no combinators in the filter text. *)
Definition one_compound (gs : ast) : bool := forallb (fun g => match g with [_] => true | _ => false end) gs.
(** The compounds [closest] and the [_until] calls look at: with a look-up, those from the pivot on. *)
Definition tested (g : list (list (rule * comb))) : list (list (rule * comb)) :=
  if looks_up g then skipn (pivot g) g else g.
(** The groups read the way they are written. *)
Definition no_lookup (gs : ast) : bool := forallb (fun g => negb (looks_up g)) gs.
(** The repeated form of a step. *)
Definition all_of (c : comb) : comb := match c with Next => NextAll | Prev => PrevAll | Parent => ParentAll | c => c end.

Section TravSpec.
  Variable h : heap.
  Variable r : id.
  Variable text_of : id -> str.

  Definition meets (gs : ast) (y : id) : Prop := MatchesAny h (map (preds h text_of) gs) y.
  (** The filter argument; without one everything passes. *)
  Definition Passes (flt : option ast) (y : id) : Prop := match flt with None => True | Some gs => meets gs y end.
  (** What the calls test an element against: the compounds from the pivot on, the combinator before the first of them
      read as a statement about the place in the document ([rooted]). *)
  Definition Tested (gs : ast) (y : id) : Prop := MatchesAny h (map (fun g => rooted h (preds h text_of (tested g))) gs) y.
  Definition PassesT (flt : option ast) (y : id) : Prop := match flt with None => True | Some gs => Tested gs y end.
  (** No filter rule that cannot be run on the children of [x]. *)
  Definition FilterSafe (c : comb) (gs : ast) (x : id) : Prop :=
    forall g cp, In g gs -> In cp g -> RuleSafe h c (head_rule cp) (fun y => y = x).
  Definition FltOk (c : comb) (flt : option ast) (x : id) : Prop :=
    match flt with
    | None => True
    | Some gs => SelOk h r text_of gs /\ sel_wf gs = true /\ one_compound gs = true /\ FilterSafe c gs x /\
        UnionOk h (map (fun g y => Rel h c x y /\ Matches h (preds h text_of g) y) gs)
    end.
  (** Usable as a stop or filter text of the [_until] calls, or with [closest]. *)
  Definition TextOk (gs : ast) : Prop := SelOk h r text_of gs /\ sel_wf gs = true.
  Definition OptOk (flt : option ast) : Prop := match flt with None => True | Some gs => TextOk gs end.
  Definition opt_no_lookup (flt : option ast) : bool := match flt with None => true | Some gs => no_lookup gs end.

  (** The same without a condition on the combinators: groups may start with one. *)
  Definition AnyText (gs : ast) : Prop := SelOk h r text_of gs /\ forallb group_wf gs = true.
  Definition OptAny (flt : option ast) : Prop := match flt with None => True | Some gs => AnyText gs end.

  (** [y] is met from [x] before the walk stops. *)
  Definition Stretch (c : comb) (stop : id -> Prop) (contains : bool) (x y : id) : Prop :=
    Rel h (all_of c) x y /\ (forall z, Rel h (all_of c) x z -> Rel h (all_of c) z y -> ~ stop z) /\ (contains = true \/ ~ stop y).
  (** The nearest element from [x] upwards, [x] included. *)
  Definition Upwards (x y : id) : Prop := AncEq h y x /\ is_element h y = true.
  Definition Nearest (P : id -> Prop) (x y : id) : Prop :=
    Upwards x y /\ P y /\ forall z, Upwards x z -> Anc h y z -> ~ P z.
End TravSpec.
