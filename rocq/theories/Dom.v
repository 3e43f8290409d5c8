(** Model of the document: nodes, and the navigation functions of a node
    (src/lib.rs:145-610, src/mesdoc/interface/element.rs:94-300, node.rs).

    A heap is the list of all nodes ever created; a node id is its position.  [Rc::ptr_eq] ([is], lib.rs:1084)
    is equality of ids.  [Weak::upgrade] of a parent / root pointer is taken to succeed (the caller keeps the
    document alive).  An id outside the heap does not occur in Rust; here such an id reads as an empty node. *)
From Verif Require Import Base Attr.

Definition id := nat.

(** rphtml [NodeType]; for the root node we also record [is_document()] (lib.rs:181-199). *)
Inductive ntype :=
| NRoot (is_document : bool)
| NTag
| NText
| NSpaces
| NComment
| NCData
| NDoctype
| NOther.

(** rphtml [Node], the fields used by the code. *)
Record node := mkNode {
  n_type : ntype;
  n_parent : option id;
  n_index : nat;
  n_childs : option (list id);
  n_content : option str;
  n_meta : option meta;
  n_root : option id
}.
Definition empty_node : node := mkNode NOther None 0 None None None None.

Definition heap := list node.

Definition node_of (h : heap) (x : id) : node := nth x h empty_node.
Definition ntype_of (h : heap) (x : id) : ntype := n_type (node_of h x).
Definition parent (h : heap) (x : id) : option id := n_parent (node_of h x).
Definition index (h : heap) (x : id) : nat := n_index (node_of h x).
Definition childs (h : heap) (x : id) : option (list id) := n_childs (node_of h x).

(** The child node list, empty when there is no list (lib.rs:556-569, element.rs:270-281). *)
Definition kids (h : heap) (x : id) : list id :=
  match childs h x with Some l => l | None => [] end.

(** lib.rs:181-199 [node_type() == INodeType::Element]. *)
Definition is_element (h : heap) (x : id) : bool :=
  match ntype_of h x with NTag => true | _ => false end.
(** [node_type() == INodeType::Text]. *)
Definition is_text (h : heap) (x : id) : bool :=
  match ntype_of h x with NText | NSpaces => true | _ => false end.
(** [node_type() == INodeType::Comment]. *)
Definition is_comment (h : heap) (x : id) : bool :=
  match ntype_of h x with NComment => true | _ => false end.
(** lib.rs:1093-1095 [is_root_element]. *)
Definition is_root (h : heap) (x : id) : bool :=
  match ntype_of h x with NRoot _ => true | _ => false end.
(** [node_type() == INodeType::Document]. *)
Definition is_document (h : heap) (x : id) : bool :=
  match ntype_of h x with NRoot d => d | _ => false end.

(** lib.rs:212-225 [owner_document]: the document is represented by its root node. *)
Definition owner_document (h : heap) (x : id) : option id := n_root (node_of h x).

(** lib.rs:439-460 [tag_names] (the error reported for other node types is not modelled). *)
Definition tag_names (h : heap) (x : id) : str :=
  if is_element h x then
    match n_meta (node_of h x) with
    | Some m => str_lower (m_name m)
    | None => []
    end
  else [].
(** element.rs:258-264 [tag_name]: upper case. *)
Definition tag_name (h : heap) (x : id) : str := map to_upper (tag_names h x).

(** lib.rs:611-633 on a node: [expect] on the meta data when absent. *)
Definition node_attribute (h : heap) (x : id) (name : str) : res (option attr_value) :=
  match n_meta (node_of h x) with
  | Some m => get_attribute m name
  | None => Panic
  end.
Definition node_has_attribute (h : heap) (x : id) (name : str) : res bool :=
  do a <- node_attribute h x name;
  Ok (match a with Some _ => true | None => false end).

(** lib.rs:556-569 *)
Definition child_nodes_length (h : heap) (x : id) : nat := length (kids h x).

(** lib.rs:570-599 [child_nodes_item_since_by]: the element children visited, in visiting order (the handles
    passed by the code never stop early).  Slicing panics when out of range. *)
Definition since_by (h : heap) (x : id) (node_index : nat) (reverse : bool) : res (list id) :=
  match childs h x with
  | None => Ok []
  | Some cs =>
      if reverse then
        if node_index <? length cs
        then Ok (filter (is_element h) (rev (firstn (S node_index) cs)))
        else Panic
      else
        if node_index <=? length cs
        then Ok (filter (is_element h) (skipn node_index cs))
        else Panic
  end.

(** element.rs:283-296 [children], lib.rs:601-609 [children_by]: iteration over the vector. *)
Definition children (h : heap) (x : id) : list id := filter (is_element h) (kids h x).

(** element.rs:113-135 [next_element_sibling]. *)
Definition next_element_sibling (h : heap) (x : id) : option id :=
  match parent h x with
  | Some p => hd_error (filter (is_element h) (skipn (S (index h x)) (kids h p)))
  | None => None
  end.
(** element.rs:137-161 [next_element_siblings]; [total - start_index] (a capacity) underflows when the stored
    index is not inside the list. *)
Definition next_element_siblings (h : heap) (x : id) : res (list id) :=
  match parent h x with
  | Some p =>
      do _ <- rsub (length (kids h p)) (S (index h x));
      Ok (filter (is_element h) (skipn (S (index h x)) (kids h p)))
  | None => Ok []
  end.
(** element.rs:164-187 [previous_element_sibling]; [expect] fails when the stored index is past the list. *)
Definition previous_element_sibling (h : heap) (x : id) : res (option id) :=
  match parent h x with
  | Some p =>
      if index h x <=? length (kids h p)
      then Ok (hd_error (filter (is_element h) (rev (firstn (index h x) (kids h p)))))
      else Panic
  | None => Ok None
  end.
(** element.rs:189-213 [previous_element_siblings]. *)
Definition previous_element_siblings (h : heap) (x : id) : res (list id) :=
  match parent h x with
  | Some p =>
      if index h x <=? length (kids h p)
      then Ok (filter (is_element h) (firstn (index h x) (kids h p)))
      else Panic
  | None => Ok []
  end.
(** element.rs:216-256 [siblings]. *)
Definition siblings (h : heap) (x : id) : res (list id) :=
  match parent h x with
  | Some p =>
      if Nat.eqb (index h x) 0 then next_element_siblings h x
      else
        do last <- rsub (length (kids h p)) 1;
        if Nat.eqb (index h x) last then previous_element_siblings h x
        else if index h x <=? length (kids h p)
        then Ok (filter (is_element h) (firstn (index h x) (kids h p)) ++
                 filter (is_element h) (skipn (S (index h x)) (kids h p)))
        else Panic
  | None => Ok []
  end.
