(** What [set_html] is expected to do: stated on the stored nodes and the parsed trees only. *)
From Verif Require Import Base Attr Dom DomSpec Mutate MutateSpec Html.

(** The nodes below [x] are a copy of the parsed tree. *)
Inductive CopyOf (h : heap) : id -> ptree -> Prop :=
| Copy_leaf x ty m c : x < length h -> ntype_of h x = ty -> n_meta (node_of h x) = m -> n_content (node_of h x) = c ->
    childs h x = None -> CopyOf h x (PT ty m c None)
| Copy_node x ty m c ids l : x < length h -> ntype_of h x = ty -> n_meta (node_of h x) = m -> n_content (node_of h x) = c ->
    childs h x = Some ids -> CopiesOf h ids l -> CopyOf h x (PT ty m c (Some l))
with CopiesOf (h : heap) : list id -> list ptree -> Prop :=
| Copy_nil : CopiesOf h [] []
| Copy_cons x ids t l : CopyOf h x t -> CopiesOf h ids l -> CopiesOf h (x :: ids) (t :: l).

(** What a parser produces: only elements hold nodes, and no root node stands below another node. *)
Inductive ParsedTree : ptree -> Prop :=
| Parsed_leaf ty m c : (forall d, ty <> NRoot d) -> ParsedTree (PT ty m c None)
| Parsed_empty ty m c : (forall d, ty <> NRoot d) -> ParsedTree (PT ty m c (Some []))
| Parsed_node m c l : ParsedTrees l -> ParsedTree (PT NTag m c (Some l))
with ParsedTrees : list ptree -> Prop :=
| Parsed_nil : ParsedTrees []
| Parsed_cons t l : ParsedTree t -> ParsedTrees l -> ParsedTrees (t :: l).
Definition kind_of (t : ptree) : ntype := match t with PT ty _ _ _ => ty end.
(** The parsed nodes that may stand in an element named [tag]. *)
Definition allowed_trees (o : oracles_dom) (tag : str) (ts : list ptree) : list ptree :=
  filter (fun t => od_allow_insert o tag (kind_of t)) ts.

(** [x] now holds exactly copies of [ts], made of new nodes; no old node but [x] changed, and [x] only in its
    children. *)
Definition HtmlIs (h h' : heap) (x : id) (ts : list ptree) : Prop :=
  (exists ns, kids h' x = ns /\ CopiesOf h' ns ts /\ Forall (fun y => length h <= y) ns) /\
  (forall q, q < length h -> q <> x -> node_of h' q = node_of h q) /\
  parent h' x = parent h x /\ index h' x = index h x /\ ntype_of h' x = ntype_of h x /\
  n_meta (node_of h' x) = n_meta (node_of h x) /\ n_content (node_of h' x) = n_content (node_of h x) /\
  n_root (node_of h' x) = n_root (node_of h x).

(** Among the children of [p] the node [x] was replaced by copies of [ts]; nothing else happened to old nodes. *)
Definition TextBecame (h h' : heap) (p x : id) (ts : list ptree) : Prop :=
  (exists l1 ns l2, kids h p = l1 ++ x :: l2 /\ kids h' p = l1 ++ ns ++ l2 /\ CopiesOf h' ns ts /\
     Forall (fun y => length h <= y) ns) /\
  (forall q, q < length h -> q <> p -> kids h' q = kids h q) /\
  (forall q, q < length h -> parent h' q = parent h q /\ n_type (node_of h' q) = n_type (node_of h q) /\
     n_content (node_of h' q) = n_content (node_of h q) /\ n_meta (node_of h' q) = n_meta (node_of h q) /\
     n_root (node_of h' q) = n_root (node_of h q)).
