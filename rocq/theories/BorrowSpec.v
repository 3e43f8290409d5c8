(** When a modifying call borrows a cell that is already borrowed. *)
From Verif Require Import Base Utils Attr Dom Sets Mutate Html Live Borrow DomSpec MutateSpec.

(** [y] is one of the nodes that come in with [x]: the children of a fragment, or [x] itself. *)
Definition Moves (h : heap) (x y : id) : Prop := if is_fragment h x then In y (kids h x) else y = x.

(** Replacing [x] by [y]: [x] has a parent with a child list, and [y] brings [x] or this parent in. *)
Definition BringsHolder (h : heap) (x y : id) : Prop :=
  exists p, parent h x = Some p /\ childs h p <> None /\ (Moves h y x \/ Moves h y p).
(** [y] can be taken from its place: the stored position lies inside the child list of the stored parent.  It need not
    when [y] was removed before; this is another panic, which comes first. *)
Definition Takable (h : heap) (y : id) : Prop :=
  is_fragment h y = true \/ forall p, parent h y = Some p -> childs h p <> None -> index h y < length (kids h p).

Definition Clashes (h : heap) (c : bcall) : Prop :=
  match c with
  | BTree (OReplace x y) => Takable h y /\ BringsHolder h x y
  | BTree (OAppendText x _) | BTree (OPrependText x _) => n_content (node_of h x) = None
  | _ => False
  end.

(** The same call without borrow checks. *)
Definition plain (c : bcall) : call :=
  match c with
  | BTree c => KTree c
  | BSetAttr x name value => KSetAttr [x] name value
  | BRemoveAttr x name => KRemoveAttr [x] name
  | BHtml x s => KHtml x s
  end.
(** Its outcome, where no panic is a clash. *)
Definition as_b {A} (r : res A) : bres A :=
  match r with Ok a => BOk a | Panic => BFault | OutOfFuel => BFuel end.
Definition silent (r : res heap) : bres (heap * unit) := as_b (do h <- r; Ok (h, tt)).
