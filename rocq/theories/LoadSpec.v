(** What loading a document is expected to do. *)
From Verif Require Import Base Attr AttrSpec Dom DomSpec Engine Rules SelSpec Html HtmlSpec Load.

(** The elements among the parsed nodes have tag data the attribute functions can read. *)
Inductive TaggedTree : ptree -> Prop :=
| Tagged_leaf ty m c : (ty = NTag -> exists m', m = Some m' /\ MetaOk m') -> TaggedTree (PT ty m c None)
| Tagged_node ty m c l : (ty = NTag -> exists m', m = Some m' /\ MetaOk m') -> TaggedTrees l -> TaggedTree (PT ty m c (Some l))
with TaggedTrees : list ptree -> Prop :=
| Tagged_nil : TaggedTrees []
| Tagged_cons t l : TaggedTree t -> TaggedTrees l -> TaggedTrees (t :: l).

Definition trees_of (cs : option (list ptree)) : list ptree := match cs with Some ts => ts | None => [] end.
(** What is assumed of the parser, for one text. *)
Definition GoodParse (parse : doc_parser) (html : str) : Prop :=
  forall d cs, parse html = Some (d, cs) -> ParsedTrees (trees_of cs) /\ TaggedTrees (trees_of cs).

(** [r] is a new document whose nodes are a copy of what was parsed; what was there before is as it was, and so are its
    documents. *)
Record Added (h h' : heap) (r : id) (d : bool) (ts : list ptree) : Prop := mkAdded {
  ad_new : length h <= r;
  ad_type : ntype_of h' r = NRoot d;
  ad_copy : CopiesOf h' (kids h' r) ts;
  ad_doc : DocOk h' r;
  ad_mine : forall x, length h <= x < length h' -> InTree h' r x;
  ad_old : forall x, x < length h -> node_of h' x = node_of h x;
  ad_len : length h <= length h';
  ad_docs : forall r0, DocOk h r0 -> DocOk h' r0 /\ r0 <> r /\ forall x, InTree h' r0 x <-> InTree h r0 x
}.

(** Every node is in exactly one of the documents of [l]. *)
Definition Library (h : heap) (l : list id) : Prop :=
  WF h /\ NoDup l /\ Forall (DocOk h) l /\
  (forall x, x < length h -> exists r, In r l /\ InTree h r x).
