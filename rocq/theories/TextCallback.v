(** [texts_by_rec] with handles that may modify the tree: lib.rs:998-1069, with the run-time borrow checks of [Borrow].
    The child nodes are copied before the loop (lib.rs:1021, element.rs:270-281), so no node is borrowed while a handle
    runs; a handle sees, and may have changed, everything the walk has not read yet. *)
From Verif Require Import Base Utils Attr Dom Mutate Html Live Borrow TextNodes.

(** The loop at lib.rs:1025-1053; the results are pushed one after the other. *)
Fixpoint gather (l : list id) (k : id -> B (list id)) : B (list id) :=
  match l with
  | [] => ret []
  | x :: l' => let! a := k x in let! r := gather l' k in ret (a ++ r)
  end.
(** lib.rs:1034-1040, 1042-1044 and 1056-1061: a text offered to the handle. *)
Definition b_offer (handle : nat -> id -> B bool) (depth : nat) (x : id) : B (list id) :=
  let! b := handle depth x in ret (if b : bool then [x] else []).
(** element.rs:270-281 [child_nodes]: the reads of lib.rs:557-571 follow each other with nothing in between. *)
Definition b_child_nodes (x : id) : B (list id) :=
  read x (fun n => match n_childs n with Some l => l | None => [] end).
(** lib.rs:1012-1063 [loop_handle]; [limit] as in [texts_loop].  The second look at the tag in [into_text] (lib.rs:1072-1081)
    and at the type in [typed] (lib.rs:170-178) come right after the first one. *)
Fixpoint b_texts_loop (fuel : nat) (o : oracles_dom) (limit : option nat) (handle : nat -> id -> B bool) (rec : id -> B bool)
    (depth : nat) (x : id) : B (list id) :=
  match fuel with
  | 0 => fun _ _ => BFuel
  | S f =>
      let! cs := b_child_nodes x in
      match cs with
      | [] => let! tag := b_tag_names x in if od_content_tag o tag then b_offer handle depth x else ret []
      | _ :: _ =>
          gather cs (fun c =>
            let! t := b_node_type c in
            match t with
            | NText | NSpaces => b_offer handle depth c
            | NTag =>
                let! tag := b_tag_names c in
                if od_content_tag o tag then b_offer handle depth c
                else if deeper limit (S depth) then
                  let! go := rec c in
                  if go : bool then b_texts_loop f o limit handle rec (S depth) c else ret []
                else ret []
            | _ => ret []
            end)
      end
  end.
(** lib.rs:998-1011, 1064-1069 ([None] for "no text" is the empty list, as in [texts_by_rec]). *)
Definition b_texts_by_rec (fuel : nat) (o : oracles_dom) (x : id) (limit : nat) (handle : nat -> id -> B bool) (rec : id -> B bool) : B (list id) :=
  b_texts_loop fuel o (match limit with 0 => None | n => Some n end) handle rec 0 x.
