(** Well-formed documents and the tree relations, stated on the stored nodes only. *)
From Verif Require Import Base Dom.

(** [c] is the child node number [i] of [p]. *)
Definition Listed (h : heap) (p : id) (i : nat) (c : id) : Prop := nth_error (kids h p) i = Some c.
Definition Child (h : heap) (p c : id) : Prop := exists i, Listed h p i c.

(** Proper ancestors along the child lists. *)
Inductive Anc (h : heap) : id -> id -> Prop :=
| Anc_child p c : Child h p c -> Anc h p c
| Anc_step p q c : Anc h p q -> Child h q c -> Anc h p c.
Definition AncEq (h : heap) (x y : id) : Prop := x = y \/ Anc h x y.

(** Proper ancestors along the stored parent pointers (these may be stale). *)
Inductive Up (h : heap) : id -> id -> Prop :=
| Up_parent x p : parent h x = Some p -> Up h x p
| Up_step x q p : Up h x q -> parent h q = Some p -> Up h x p.

Definition Container (h : heap) (p : id) : Prop := is_element h p = true \/ is_root h p = true.

(** Well-formed: every listed child knows its parent and its position; parents are elements or roots of the
    heap; nothing is its own ancestor; a root has no parent. *)
Record WF (h : heap) : Prop := mkWF {
  wf_listed : forall p i c, Listed h p i c -> c < length h /\ parent h c = Some p /\ index h c = i;
  wf_parent : forall x p, parent h x = Some p -> p < length h /\ Container h p;
  wf_acyclic : forall x, ~ Up h x x;
  wf_root : forall x, is_root h x = true -> parent h x = None
}.

(** A node that its parent lists. *)
Definition Attached (h : heap) (x : id) : Prop := exists p, Child h p x.

(** [x] is reached from [r] by going down to child number [i1], then [i2], ... *)
Inductive Path (h : heap) (r : id) : list nat -> id -> Prop :=
| Path_here : Path h r [] r
| Path_down l p i c : Path h r l p -> Listed h p i c -> Path h r (l ++ [i]) c.

(** [x] belongs to the tree with top node [r]. *)
Definition InTree (h : heap) (r x : id) : Prop := parent h r = None /\ exists l, Path h r l x.

(** Document order: an ancestor comes before its descendants; everything under an earlier child comes before
    everything under a later child. *)
Definition Before (h : heap) (x y : id) : Prop :=
  Anc h x y \/
  exists p i j a b, Listed h p i a /\ Listed h p j b /\ i < j /\ AncEq h a x /\ AncEq h b y.

(** A list of nodes in document order without repetition. *)
Fixpoint Ordered (h : heap) (l : list id) : Prop :=
  match l with
  | [] => True
  | x :: l' => Forall (Before h x) l' /\ Ordered h l'
  end.

(** Element-only relations used by CSS. *)
Definition ChildEl (h : heap) (p c : id) : Prop := Child h p c /\ is_element h c = true.
Definition DescEl (h : heap) (x y : id) : Prop := Anc h x y /\ is_element h y = true.
(** [y] is a later / earlier sibling element of [x]. *)
Definition Following (h : heap) (x y : id) : Prop :=
  exists p i j, Listed h p i x /\ Listed h p j y /\ i < j /\ is_element h y = true.
Definition Preceding (h : heap) (x y : id) : Prop :=
  exists p i j, Listed h p i y /\ Listed h p j x /\ i < j /\ is_element h y = true.
(** ... with no element between. *)
Definition NextEl (h : heap) (x y : id) : Prop :=
  exists p i j, Listed h p i x /\ Listed h p j y /\ i < j /\ is_element h y = true /\
    forall k z, i < k < j -> Listed h p k z -> is_element h z = false.
Definition PrevEl (h : heap) (x y : id) : Prop :=
  exists p i j, Listed h p i y /\ Listed h p j x /\ i < j /\ is_element h y = true /\
    forall k z, i < k < j -> Listed h p k z -> is_element h z = false.
