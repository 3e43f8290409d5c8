(** Specification of mutations: what a user sees of the tree before and after. *)
From Verif Require Import Base Dom DomSpec Mutate.

(** A child list without [x]. *)
Definition without (x : id) (l : list id) : list id := filter (fun y => negb (Nat.eqb y x)) l.

(** Nothing but structure changed: same nodes, with their kind, content, name, attributes and document. *)
Definition SameNodes (h h' : heap) : Prop :=
  length h' = length h /\
  forall y, n_type (node_of h' y) = n_type (node_of h y) /\ n_content (node_of h' y) = n_content (node_of h y) /\
            n_meta (node_of h' y) = n_meta (node_of h y) /\ n_root (node_of h' y) = n_root (node_of h y).

(** A node that is where its parent pointer says, or that has no parent at all. *)
Definition Placed (h : heap) (x : id) : Prop := x < length h /\ (parent h x = None \/ Attached h x).

(** [x] was taken out of the tree, nothing else moved. *)
Definition TakenOut (h h' : heap) (x : id) : Prop :=
  SameNodes h h' /\ (forall q, kids h' q = without x (kids h q)) /\ (forall y, parent h' y = parent h y).

(** [x] now stands in the children of [p] between [l1] and [l2]; everything else is as before, and [x] is gone
    from where it was. *)
Definition MovedInto (h h' : heap) (p x : id) (l1 l2 : list id) : Prop :=
  SameNodes h h' /\
  without x (kids h p) = l1 ++ l2 /\ kids h' p = l1 ++ x :: l2 /\
  (forall q, q <> p -> kids h' q = without x (kids h q)) /\
  parent h' x = Some p /\ (forall y, y <> x -> parent h' y = parent h y).

(** [y] now stands where [x] stood among the children of [p]; [x] is not listed any more. *)
Definition ReplacedBy (h h' : heap) (p x y : id) (l1 l2 : list id) : Prop :=
  SameNodes h h' /\
  without y (kids h p) = l1 ++ x :: l2 /\ kids h' p = l1 ++ y :: l2 /\
  (forall q, q <> p -> kids h' q = without y (kids h q)) /\
  parent h' y = Some p /\ (forall z, z <> y -> parent h' z = parent h z).

(** A child list without the nodes of [d]. *)
Definition without_all (d : list id) (l : list id) : list id := filter (fun y => negb (existsb (Nat.eqb y) d)) l.

(** All of [d] were taken out, nothing else moved. *)
Definition TakenOutAll (h h' : heap) (d : list id) : Prop :=
  SameNodes h h' /\ (forall q, kids h' q = without_all d (kids h q)) /\ (forall y, parent h' y = parent h y).

(** The nodes [d] now stand, in this order, in the children of [p] between [l1] and [l2]. *)
Definition MovedAllInto (h h' : heap) (p : id) (l1 d l2 : list id) : Prop :=
  SameNodes h h' /\
  without_all d (kids h p) = l1 ++ l2 /\ kids h' p = l1 ++ d ++ l2 /\
  (forall q, q <> p -> kids h' q = without_all d (kids h q)) /\
  (forall y, In y d -> parent h' y = Some p) /\ (forall y, ~ In y d -> parent h' y = parent h y).

(** The heap [h'] is [h] with a different content at [x]. *)
Definition OnlyContent (h h' : heap) (x : id) (c : option str) : Prop :=
  length h' = length h /\ (forall y, y <> x -> node_of h' y = node_of h y) /\
  n_content (node_of h' x) = c /\ parent h' x = parent h x /\ index h' x = index h x /\ childs h' x = childs h x /\
  ntype_of h' x = ntype_of h x /\ n_meta (node_of h' x) = n_meta (node_of h x) /\ n_root (node_of h' x) = n_root (node_of h x).

(** All child nodes of [x] are gone; no other node changed. *)
Definition Emptied (h h' : heap) (x : id) : Prop :=
  SameNodes h h' /\ kids h' x = [] /\ (forall q, q <> x -> node_of h' q = node_of h q) /\
  parent h' x = parent h x /\ index h' x = index h x.

(** The only child of [x] is now the new text node [n] with content [c]; no other node changed. *)
Definition TextOnly (h h' : heap) (x n : id) (c : str) : Prop :=
  length h' = S (length h) /\ n = length h /\ kids h' x = [n] /\
  ntype_of h' n = NText /\ n_content (node_of h' n) = Some c /\ kids h' n = [] /\
  (forall q, q <> x -> q <> n -> node_of h' q = node_of h q) /\
  ntype_of h' x = ntype_of h x /\ n_meta (node_of h' x) = n_meta (node_of h x) /\
  n_content (node_of h' x) = n_content (node_of h x) /\
  parent h' x = parent h x /\ index h' x = index h x.

(** The calls covered by the history theorem: the nodes named are where their parent pointers say (this is what
    fails for a node that was removed before); a replacement is not the node itself nor one of its ancestors; text
    is appended to nodes that have text. *)
Definition Covered (h : heap) (c : op) : Prop :=
  match c with
  | OInsert self _ x => Placed h self /\ Placed h x /\ is_root h x = false
  | ORemove x | ORemoveText x => Placed h x
  | OReplace x y => Placed h x /\ Placed h y /\ is_root h y = false /\ x <> y /\ ~ Up h x y
  | OSetText _ _ => True
  | OAppendText x _ | OPrependText x _ => n_content (node_of h x) <> None
  end.
(** Every call of the program is covered in the state it is made in. *)
Fixpoint CoveredAll (o : oracles_dom) (h : heap) (l : list op) : Prop :=
  match l with
  | [] => True
  | c :: l' => Covered h c /\ forall h', run_op o h c = Ok h' -> CoveredAll o h' l'
  end.

(** [B] is a part of the heap that the rest does not point into. *)
Definition Sealed (B : id -> Prop) (h : heap) : Prop :=
  forall y, ~ B y -> (forall p, parent h y = Some p -> ~ B p) /\ (forall c, In c (kids h y) -> ~ B c).
(** The nodes named by a call. *)
Definition op_nodes (c : op) : list id :=
  match c with
  | OInsert self _ x => [self; x]
  | OReplace x y => [x; y]
  | ORemove x | OSetText x _ | ORemoveText x | OAppendText x _ | OPrependText x _ => [x]
  end.
