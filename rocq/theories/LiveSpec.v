(** Documents that keep changing: what is assumed of the calls and what stays true. *)
From Verif Require Import Base Attr AttrSpec Dom DomSpec Mutate MutateSpec Html HtmlSpec Live.

(** All elements of the heap, attached or not, belong to the document [r]. *)
Record OneDoc (h : heap) (r : id) : Prop := mkOneDoc {
  od_wf : WF h;
  od_root : is_root h r = true;
  od_self : owner_document h r = Some r;
  od_owner : forall x, is_element h x = true -> owner_document h x = Some r;
  od_meta : forall x, is_element h x = true -> exists m, n_meta (node_of h x) = Some m /\ MetaOk m
}.

(** The calls in question; attributes and classes are those of elements.  For [set_html]: the parser accepts the text and gives trees in which only elements have
    children, a text node is where its parent pointer says, and the element holding the text node has tag data (it is
    not the document root). *)
Definition CallOk (parse : parser) (h : heap) (c : call) : Prop :=
  match c with
  | KTree c => Covered h c
  | KHtml x s =>
      (is_text h x = true -> Placed h x) /\
      (forall p, html_target h x = Some p -> n_meta (node_of h (snd p)) <> None) /\
      match parse s with None => False | Some None => True | Some (Some ts) => ParsedTrees ts end
  | KSetAttr l _ _ | KRemoveAttr l _ | KAddClass l _ | KRemoveClass l _ | KToggleClass l _ => Forall (fun x => is_element h x = true) l
  end.
Fixpoint CallsOk (o : oracles_dom) (oa : oracles_attr) (parse : parser) (h : heap) (l : list call) : Prop :=
  match l with
  | [] => True
  | c :: l' => CallOk parse h c /\ forall h', run_call o oa parse h c = Ok h' -> CallsOk o oa parse h' l'
  end.
Definition no_html (c : call) : Prop := match c with KHtml _ _ => False | _ => True end.
(** Calls that read the class list with the index bookkeeping of [retain_by_index], which can panic. *)
Definition no_class_removal (c : call) : Prop := match c with KRemoveClass _ _ | KToggleClass _ _ => False | _ => True end.

(** The heap [h'] is [h] with other tag data at some of the nodes [l], all still readable; names of tags are kept. *)
Definition OnlyMeta (h h' : heap) (l : list id) : Prop :=
  length h' = length h /\
  (forall y, ~ In y l -> node_of h' y = node_of h y) /\
  (forall y, parent h' y = parent h y /\ index h' y = index h y /\ childs h' y = childs h y /\ ntype_of h' y = ntype_of h y /\
     n_content (node_of h' y) = n_content (node_of h y) /\ n_root (node_of h' y) = n_root (node_of h y)) /\
  (forall y m, n_meta (node_of h y) = Some m -> MetaOk m -> exists m', n_meta (node_of h' y) = Some m' /\ MetaOk m' /\ m_name m' = m_name m) /\
  (forall y, n_meta (node_of h y) = None -> n_meta (node_of h' y) = None).

(** Each of the nodes [l] holds exactly copies of the parsed trees that may stand in it, made of new nodes; no other old
    node changed, and these only in their children. *)
Definition HtmlEach (o : oracles_dom) (h h' : heap) (l : list id) (ts : list ptree) : Prop :=
  length h <= length h' /\
  (forall x m, In x l -> n_meta (node_of h x) = Some m ->
     exists ns, kids h' x = ns /\ CopiesOf h' ns (allowed_trees o (m_name m) ts) /\ Forall (fun y => length h <= y) ns) /\
  (forall q, q < length h -> ~ In q l -> node_of h' q = node_of h q) /\
  (forall q, q < length h -> parent h' q = parent h q /\ index h' q = index h q /\ ntype_of h' q = ntype_of h q /\
     n_meta (node_of h' q) = n_meta (node_of h q) /\ n_content (node_of h' q) = n_content (node_of h q) /\ n_root (node_of h' q) = n_root (node_of h q)).

(** The attributes of the whole heap, as a map of maps; one attribute call on a set in terms of it. *)
Definition AttrState (h : heap) (F : id -> attr_map) : Prop :=
  forall x m, n_meta (node_of h x) = Some m -> MetaOk m /\ Shows m (F x).
Definition set_step (F : id -> attr_map) (c : list id * attr_op) : id -> attr_map :=
  fun x => if in_dec Nat.eq_dec x (fst c) then spec_step (F x) (snd c) else F x.
Definition attr_call (c : list id * attr_op) : call :=
  match snd c with
  | OpSet n v => KSetAttr (fst c) n v
  | OpRemove n => KRemoveAttr (fst c) n
  end.

(** The heap [h'] is [h] with the tag data of exactly the nodes [l] changed, at each of them as [P] says. *)
Definition EachMeta (h h' : heap) (l : list id) (P : id -> meta -> Prop) : Prop :=
  length h' = length h /\
  (forall y, ~ In y l -> node_of h' y = node_of h y) /\
  (forall y, parent h' y = parent h y /\ index h' y = index h y /\ childs h' y = childs h y /\ ntype_of h' y = ntype_of h y /\
     n_content (node_of h' y) = n_content (node_of h y) /\ n_root (node_of h' y) = n_root (node_of h y)) /\
  (forall x, In x l -> exists m', n_meta (node_of h' x) = Some m' /\ P x m').
