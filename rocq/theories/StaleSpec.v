(** Specification of the mutations for every node, also one that was removed before and still points to its former
    parent. *)
From Verif Require Import Base Dom DomSpec Mutate MutateSpec.

(** The node that stands at the place [x] remembers: [x] itself when it is listed, one of its former siblings when it
    was removed before. *)
Definition occupant (h : heap) (x : id) : list id :=
  match parent h x with
  | Some p => match nth_error (kids h p) (index h x) with Some z => [z] | None => [] end
  | None => []
  end.
(** [x] remembers a place that the list of its former parent does not have any more. *)
Definition Dangling (h : heap) (x : id) : Prop :=
  exists p cs, parent h x = Some p /\ childs h p = Some cs /\ length cs <= index h x.

(** The nodes [d] are gone and [x] stands in the children of [p] between [l1] and [l2]. *)
Definition PutInto (h h' : heap) (d : list id) (p x : id) (l1 l2 : list id) : Prop :=
  SameNodes h h' /\
  kids h' p = l1 ++ x :: l2 /\ (forall q, q <> p -> kids h' q = without_all d (kids h q)) /\
  parent h' x = Some p /\ (forall y, y <> x -> parent h' y = parent h y).

(** Where [self] is counted from: its position in the list [cs], or, when it is not in the list, the one it remembers. *)
Definition Place (h : heap) (cs : list id) (self : id) (i : nat) : Prop :=
  nth_error cs i = Some self \/ (~ In self cs /\ i = index h self).

(** The precondition of a call that takes [x] to another place: it is a node, no document and no fragment, and
    neither [self] nor an ancestor of it. *)
Record Takes (h : heap) (self x : id) : Prop := mkTakes {
  tk_el : is_element h self = true;
  tk_lt : x < length h;
  tk_root : is_root h x = false;
  tk_ne : self <> x;
  tk_up : ~ Up h self x
}.

(** What a call must meet for the tree to stay consistent: the nodes may have been removed before. *)
Definition Sound (h : heap) (c : op) : Prop :=
  match c with
  | OInsert self pos x =>
      x < length h /\ is_root h x = false /\
      match pos with
      | AfterBegin | BeforeEnd => True
      | BeforeBegin | AfterEnd =>
          forall p i, self <> x -> parent h self = Some p -> childs h p <> None ->
            Place h (without_all (occupant h x) (kids h p)) self i ->
            (if match pos with AfterEnd => true | _ => false end then S i else i)
              <= length (without_all (occupant h x) (kids h p))
      end
  | OReplace x y => y < length h /\ is_root h y = false /\ ~ Up h x y
  | _ => True
  end.
Fixpoint SoundAll (o : oracles_dom) (h : heap) (l : list op) : Prop :=
  match l with
  | [] => True
  | c :: l' => Sound h c /\ forall h', run_op o h c = Ok h' -> SoundAll o h' l'
  end.
