(** Callbacks that modify the tree they are called from, with the run-time borrow checks of [Borrow].
    A callback is any program [B]; it gets what it needs to change a node from the [Rc] behind the element passed to it
    ([cloned]: element.rs:103-106, [parent]: lib.rs:202-209), so it runs under the guards alive where it is called. *)
From Verif Require Import Base Utils Attr Dom Sets Mutate Html Live Borrow BorrowSpec BorrowSets.

(** lib.rs:601-609 [children_by]: the node is borrowed ([if let] on [&self.borrow().childs]) during the whole walk; the
    list cannot change meanwhile, so it is read once. *)
Definition b_children_by (x : id) (k : id -> B unit) : B unit :=
  holding_ref (CNode x) (
    let! cs := see x n_childs in
    match cs with
    | Some cs => each cs (fun c => let! t := b_node_type c in match t with NTag => k c | _ => ret tt end)
    | None => ret tt
    end).

(** lib.rs:579-596: the loop over a part of the child list; the callback says whether to go on. *)
Fixpoint b_walk (cs : list id) (k : id -> B bool) : B unit :=
  match cs with
  | [] => ret tt
  | c :: cs' =>
      let! t := b_node_type c in
      match t with
      | NTag => let! go := k c in if go : bool then b_walk cs' k else ret tt
      | _ => b_walk cs' k
      end
  end.
(** lib.rs:572-599 [child_nodes_item_since_by]; [childs\[0..=i\]] and [childs\[i..\]] panic outside the list. *)
Definition b_since_by (x : id) (i : nat) (reverse : bool) (k : id -> B bool) : B unit :=
  holding_ref (CNode x) (
    let! cs := see x n_childs in
    match cs with
    | Some cs =>
        if reverse then (if S i <=? length cs then b_walk (rev (firstn (S i) cs)) k else fault)
        else (if i <=? length cs then b_walk (skipn i cs) k else fault)
    | None => ret tt
    end).

(** elements.rs:222-240 [for_each], [each]: no node is borrowed while the callback runs. *)
Fixpoint b_for_each_from (i : nat) (l : list id) (k : nat -> id -> B bool) : B unit :=
  match l with
  | [] => ret tt
  | x :: l' => let! go := k i x in if go : bool then b_for_each_from (S i) l' k else ret tt
  end.
Definition b_for_each (l : list id) (k : nat -> id -> B bool) : B unit := b_for_each_from 0 l k.
