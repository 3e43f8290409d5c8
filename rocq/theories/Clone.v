(** Model of [Elements::clone] (src/mesdoc/interface/elements.rs:3571-3577), [copied] (src/mesdoc/interface/element.rs:107-111)
    and [copy_node] (src/lib.rs:164-167).

    The copy of one node is made by rphtml's [Node::clone_node].  It is modelled by what that function is for: a node without
    parent with the same kind, tag data, content and copies of the child nodes.  What the copies know as their document is left
    open ([owner]). *)
From Verif Require Import Base Utils Attr Dom Sets Mutate Html Load.

(** The tree below a node, as a parse tree.  The fuel stands for rphtml's recursion over the child nodes. *)
Fixpoint tree_at (fuel : nat) (h : heap) (x : id) : res ptree :=
  match fuel with
  | 0 => OutOfFuel
  | S f =>
      let n := node_of h x in
      match n_childs n with
      | None => Ok (PT (n_type n) (n_meta n) (n_content n) None)
      | Some l => do ts <- rmapl (tree_at f h) l; Ok (PT (n_type n) (n_meta n) (n_content n) (Some ts))
      end
  end.

Definition own (owner : option id) (n : node) : node :=
  match owner with Some r => owned r n | None => n end.
(** element.rs:107-111: the copy must be an element again ([into_element().unwrap()]; the root counts as one, lib.rs:169-178). *)
Definition copied (owner : option id) (h : heap) (x : id) : res (heap * id) :=
  if is_element h x || is_root h x then
    do t <- tree_at (S (length h)) h x;
    Ok (h ++ map (own owner) (lay None 0 (length h) t), length h)
  else Panic.
(** elements.rs:3571-3577: the copies, in the order of the set. *)
Definition clone_step (owner : option id) (s : heap * list id) (x : id) : res (heap * list id) :=
  do c <- copied owner (fst s) x; Ok (fst c, snd s ++ [snd c]).
Definition clone (owner : option id) (h : heap) (els : list id) : res (heap * list id) :=
  rfold (clone_step owner) els (h, []).
