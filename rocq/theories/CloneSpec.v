(** What copying a set is expected to do. *)
From Verif Require Import Base Attr Dom DomSpec Mutate MutateSpec Html HtmlSpec Live.

(** The nodes [els'] are copies of the nodes [els], one each and in order, made of new nodes only; each is the top of its own tree,
    all new nodes are part of these trees, and no old node changed. *)
Record Clones (h h' : heap) (els els' : list id) : Prop := mkClones {
  cl_same : Forall2 (fun x y => exists t, CopyOf h x t /\ CopyOf h' y t) els els';
  cl_old : forall y, y < length h -> node_of h' y = node_of h y;
  cl_len : length h <= length h';
  cl_new : Forall (fun y => length h <= y < length h' /\ parent h' y = None) els';
  cl_nodup : NoDup els';
  cl_all : forall z, length h <= z < length h' -> exists y, In y els' /\ AncEq h' y z
}.

(** The nodes named by a call of a program. *)
Definition call_nodes (c : call) : list id :=
  match c with
  | KTree c => op_nodes c
  | KSetAttr l _ _ | KRemoveAttr l _ | KAddClass l _ | KRemoveClass l _ | KToggleClass l _ => l
  | KHtml x _ => [x]
  end.
(** The parser gives trees in which only elements have children. *)
Definition ParserOk (parse : parser) : Prop := forall s ts, parse s = Some (Some ts) -> ParsedTrees ts.
