(** Model of what is left of the documents when values of the caller are dropped.

    rphtml's [Node] owns its child nodes ([childs: Option<Vec<Rc<RefCell<Node>>>>]); [parent], [root] and [document] are
    weak pointers (src/lib.rs:204, 213-216, 267, 305, 357, 402, 858-890, 962-973).  [Doc], behind [Document] (lib.rs:1097-1099),
    owns its root node (lib.rs:1108, 1129).  An [Elements] owns its nodes; only the one that [load] returns also owns the
    document (elements.rs:98-103, 146-160, lib.rs:1107-1110). *)
From Verif Require Import Base Dom Sets.

(** A node and all nodes it owns. *)
Fixpoint owned_by (fuel : nat) (h : heap) (x : id) : list id :=
  match fuel with
  | 0 => [x]
  | S f => x :: flat_map (owned_by f h) (kids h x)
  end.
(** The nodes alive when the caller holds the nodes [held] and the documents [docs] (named by their root nodes). *)
Definition alive (h : heap) (held docs : list id) : list id := flat_map (owned_by (length h) h) (held ++ docs).

(** [Weak::upgrade] *)
Definition upgrade (live : list id) (p : option id) : option id :=
  match p with
  | Some x => if includes live x then Some x else None
  | None => None
  end.
(** A node as it can be read afterwards: its parent when it is alive (lib.rs:202-209), its document when that is held
    (lib.rs:212-225).  Nothing can be read of a node that is freed. *)
Definition survivor (live docs : list id) (n : node) : node :=
  mkNode (n_type n) (upgrade live (n_parent n)) (n_index n) (n_childs n) (n_content n) (n_meta n) (upgrade docs (n_root n)).
Fixpoint sweep (live docs : list id) (x : id) (h : heap) : heap :=
  match h with
  | [] => []
  | n :: h' => (if includes live x then survivor live docs n else empty_node) :: sweep live docs (S x) h'
  end.
(** The heap after everything but [held] and [docs] was dropped. *)
Definition drop (h : heap) (held docs : list id) : heap := sweep (alive h held docs) docs 0 h.
