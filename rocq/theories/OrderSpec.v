(** Specification vocabulary for sets of nodes: everything in one tree, in document order. *)
From Verif Require Import Base Dom DomSpec.

(** All nodes belong to the tree with top [r]. *)
Notation AllIn h r l := (Forall (InTree h r) l).

(** A document-ordered set of nodes of one tree. *)
Definition DocSet (h : heap) (r : id) (l : list id) : Prop := AllIn h r l /\ Ordered h l.

Definition SameSet {A} (a b : list A) : Prop := forall x, In x a <-> In x b.

(** The two ways in which joining a set [a] with a set [b] goes wrong (C04).
    [Drops]: all of the first set is in the second one, which goes on after the last element of the first. *)
Definition Drops (h : heap) (A B : id -> Prop) : Prop :=
  (forall x, A x -> B x) /\ exists x y, A x /\ (forall z, A z -> ~ Before h x z) /\ B y /\ Before h x y.
(** [Misplaces]: the last element [x] of [a] is in [b] and is not the last one there; [a] is longer than [b], and
    the element [y] of [a] at the position given by the length of [b] comes after all that is new before [x]. *)
Definition Misplaces (h : heap) (a b : list id) : Prop :=
  exists a0 x b1 b2 y, a = a0 ++ [x] /\ b = b1 ++ x :: b2 /\ b2 <> [] /\ nth_error a (length b) = Some y /\
    (forall k, In k b1 -> ~ In k a -> Before h k y).
(** Joining [a] with [b] goes well. *)
Definition JoinOk (h : heap) (a b : list id) : Prop := ~ Drops h (fun x => In x a) (fun x => In x b) /\ ~ Misplaces h a b.
