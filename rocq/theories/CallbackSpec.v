(** What callbacks may do where nodes are being read. *)
From Verif Require Import Base Utils Attr Dom Sets Mutate Html Live Borrow BorrowSpec BorrowSets DomSpec.

(** The guards alive are those of nodes being read, not of tag data. *)
Definition NodesRead (rs : list cell) : Prop := forall x, ~ In (CMeta x) rs.
(** Attribute and class calls. *)
Definition AttrCall (c : scall) : Prop := match c with SOne _ => False | _ => True end.
(** The members for which a walk runs its callback: up to and including the first one at which it says to stop. *)
Inductive Reached {A} (go : A -> bool) : list A -> list A -> Prop :=
| R_end : Reached go [] []
| R_stop x l : go x = false -> Reached go (x :: l) [x]
| R_go x l r : go x = true -> Reached go l r -> Reached go (x :: l) (x :: r).
(** Taking [c] out of its place writes to its parent and renumbers the siblings behind it. *)
Definition Touched (h : heap) (c y : id) : Prop :=
  exists p i, Listed h p i c /\ (y = p \/ exists j, i < j /\ Listed h p j y).
(** The node [y] is the same up to its tag data. *)
Definition SameFields (h h' : heap) (y : id) : Prop :=
  ntype_of h' y = ntype_of h y /\ parent h' y = parent h y /\ index h' y = index h y /\ childs h' y = childs h y /\
  n_content (node_of h' y) = n_content (node_of h y) /\ n_root (node_of h' y) = n_root (node_of h y).
