(** Model of the value types and of the functions going over a set: src/mesdoc/interface/element.rs:11-75, 306-310,
    elements.rs:140-190, 222-240, 266-276, 296-298, 320-322, 2978-3011, 3080-3113, 3845-3852, texts.rs:13-50, 79-85. *)
From Verif Require Import Base Utils Attr Dom Form.

(** * Attribute values *)
(** element.rs:19-21 [is_true] *)
Definition value_is_true (v : attr_value) : bool := match v with ATrue => true | AV _ _ => false end.
(** element.rs:23-28 [is_str] *)
Definition value_is_str (v : attr_value) (s : str) : bool :=
  match v with AV t _ => str_eqb t s | ATrue => match s with [] => true | _ => false end end.
(** [str::split_ascii_whitespace] of the Rust standard library: the pieces between white space that are not empty. *)
Fixpoint split_ws (s : str) : list str :=
  match s with
  | [] => [[]]
  | c :: s' =>
      if is_ascii_ws c then [] :: split_ws s'
      else match split_ws s' with w :: l => (c :: w) :: l | [] => [[c]] end
  end.
Definition split_ascii_whitespace (s : str) : list str := filter (fun w => match w with [] => false | _ => true end) (split_ws s).
(** element.rs:30-35 [to_list] *)
Definition value_to_list (v : attr_value) : list str := match v with AV t _ => split_ascii_whitespace (trim t) | ATrue => [] end.
(** element.rs:39-46 [to_string] *)
Definition value_to_string (v : attr_value) : str := match v with AV t _ => t | ATrue => [] end.

(** * Form values *)
(** element.rs:55-62 [to_string]; [join(",")] *)
Fixpoint join_comma (l : list str) : str :=
  match l with
  | [] => []
  | [w] => w
  | w :: l' => w ++ 44%N :: join_comma l'
  end.
Definition form_to_string (v : form_value) : str := match v with Single s => s | Multiple l => join_comma l end.
(** element.rs:65-74 [into_iter] *)
Definition form_items (v : form_value) : list str := match v with Multiple l => l | Single _ => [] end.

(** * Going over a set *)
(** elements.rs:170-172 [get], 296-298 [length], 320-322 [is_empty]; texts.rs:13-19.  [into_iter] (elements.rs:3848-3852,
    texts.rs:79-85) gives the nodes of the set, as they are. *)
Definition set_get (els : list id) (i : nat) : option id := nth_error els i.
Definition set_length (els : list id) : nat := length els.
Definition set_is_empty (els : list id) : bool := set_length els =? 0.
(** elements.rs:222-232 [for_each], 235-240 [each], texts.rs:29-48.  The handle may change anything: it takes the state of the
    program and gives a new one. *)
Fixpoint for_each_from {S} (handle : nat -> id -> S -> res (bool * S)) (i : nat) (els : list id) (st : S) : res S :=
  match els with
  | [] => Ok st
  | x :: els' => do p <- handle i x st; if fst p then for_each_from handle (i + 1) els' (snd p) else Ok (snd p)
  end.
Definition for_each {S} (handle : nat -> id -> S -> res (bool * S)) (els : list id) (st : S) : res S := for_each_from handle 0 els st.
(** elements.rs:266-276 [map], with a handle that may change the state as well. *)
Fixpoint map_from {S T} (handle : nat -> id -> S -> res (T * S)) (i : nat) (els : list id) (acc : list T) (st : S) : res (list T * S) :=
  match els with
  | [] => Ok (acc, st)
  | x :: els' => do p <- handle i x st; map_from handle (i + 1) els' (acc ++ [fst p]) (snd p)
  end.
Definition map_set {S T} (handle : nat -> id -> S -> res (T * S)) (els : list id) (st : S) : res (list T * S) := map_from handle 0 els [] st.

(** * Markup.  The markup of one element is rphtml's: [inner] and [outer] (lib.rs:753-781). *)
(** elements.rs:2978-2983 [html], 3080-3085 [outer_html] *)
Definition set_markup (markup : id -> str) (els : list id) : str := match set_get els 0 with Some x => markup x | None => [] end.
(** elements.rs:3009-3011 [htmls], 3111-3113 [outer_htmls]; [join("")] *)
Definition set_markups (markup : id -> str) (els : list id) : res str :=
  do p <- map_set (fun _ x (_ : unit) => Ok (markup x, tt)) els tt; Ok (concat (fst p)).
