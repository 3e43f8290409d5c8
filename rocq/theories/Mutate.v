(** Model of the mutations: src/lib.rs:75-139, 251-296, 396-433, 786-992 and
    src/mesdoc/interface/elements.rs:2940-2945, 3614-3843. *)
From Verif Require Import Base Utils Attr Dom Sets.

(** rphtml functions used here: oracles. *)
Record oracles_dom := mkOD {
  od_allow_insert : str -> ntype -> bool;   (* rphtml::parser::allow_insert(tag_name, node_type) *)
  od_content_tag : str -> bool;             (* rphtml::config / is_content_tag(name, lower case) *)
  od_encode : str -> str                    (* htmlentity encode(.., NamedOrDecimal, Html) *)
}.

(** * Field updates *)
Definition set_par (p : option id) (n : node) : node :=
  mkNode (n_type n) p (n_index n) (n_childs n) (n_content n) (n_meta n) (n_root n).
Definition set_idx (i : nat) (n : node) : node :=
  mkNode (n_type n) (n_parent n) i (n_childs n) (n_content n) (n_meta n) (n_root n).
Definition set_ch (cs : option (list id)) (n : node) : node :=
  mkNode (n_type n) (n_parent n) (n_index n) cs (n_content n) (n_meta n) (n_root n).
Definition set_con (c : option str) (n : node) : node :=
  mkNode (n_type n) (n_parent n) (n_index n) (n_childs n) c (n_meta n) (n_root n).
Fixpoint upd (h : heap) (x : id) (f : node -> node) : heap :=
  match h, x with
  | [], _ => []
  | n :: h', 0 => f n :: h'
  | n :: h', S x' => n :: upd h' x' f
  end.

(** Errors delivered: the documents whose error handler was called (lib.rs:66-73 [halt]: nothing when the node
    has no owner document). *)
Definition errors := list id.
Definition halt (h : heap) (dom : id) : errors :=
  match owner_document h dom with Some r => [r] | None => [] end.

(** lib.rs:120-124 [reset_next_siblings_index]. *)
Fixpoint reset_index (h : heap) (start : nat) (nodes : list id) : heap :=
  match nodes with
  | [] => h
  | x :: rest => reset_index (upd h x (set_idx start)) (S start) rest
  end.
(** [for node in &nodes { node.borrow_mut().parent = Some(..) }] *)
Definition set_parents (h : heap) (p : id) (nodes : list id) : heap :=
  fold_left (fun h x => upd h x (set_par (Some p))) nodes h.

(** lib.rs:77-116 [validate_dom_change]: is the change allowed?  The walk over parents is bounded. *)
Fixpoint parent_chain_has (fuel : nat) (h : heap) (x node : id) : res bool :=
  match fuel with
  | 0 => OutOfFuel
  | S f =>
      match parent h x with
      | Some p => if Nat.eqb p node then Ok true else parent_chain_has f h p node
      | None => Ok false
      end
  end.
Definition validate_dom_change (h : heap) (dom node : id) : res bool :=
  if negb (is_element h dom) then Ok false
  else if is_document h node then Ok false
  else if Nat.eqb dom node then Ok false
  else do b <- parent_chain_has (S (length h)) h dom node; Ok (negb b).

(** lib.rs:126-139 [remove_not_allowed_nodes] (the nodes; the returned flag is used by [set_html] only). *)
Fixpoint not_allowed_from (o : oracles_dom) (h : heap) (tag : str) (i : nat) (nodes : list id) : list nat :=
  match nodes with
  | [] => []
  | x :: rest =>
      if od_allow_insert o tag (ntype_of h x) then not_allowed_from o h tag (S i) rest
      else i :: not_allowed_from o h tag (S i) rest
  end.
Definition remove_not_allowed (o : oracles_dom) (h : heap) (tag : str) (nodes : list id) : res (list id) :=
  match not_allowed_from o h tag 0 nodes with
  | [] => Ok nodes
  | idx => retain_by_index nodes idx
  end.

(** [Vec::remove] *)
Definition remove_at {A} (l : list A) (i : nat) : res (list A) :=
  if i <? length l then Ok (firstn i l ++ skipn (S i) l) else Panic.

(** lib.rs:786-801 [remove_child]. *)
Definition remove_child (h : heap) (self ele : id) : res heap :=
  match parent h ele with
  | Some p =>
      if Nat.eqb self p then
        match childs h self with
        | Some cs =>
            let i := index h ele in
            do last <- rsub (length cs) 1;
            do h1 <- (if Nat.eqb i last then Ok h
                      else if S i <=? length cs then Ok (reset_index h i (skipn (S i) cs)) else Panic);
            do cs' <- remove_at cs i;
            Ok (upd h1 self (set_ch (Some cs')))
        | None => Ok h
        end
      else Ok h
  | None => Ok h
  end.

Inductive position_ := BeforeBegin | AfterEnd | AfterBegin | BeforeEnd.

(** lib.rs:818-835 and 935-951: the nodes to insert; a plain node is first taken from its parent. *)
Definition is_fragment (h : heap) (x : id) : bool :=
  match ntype_of h x with NRoot d => negb d | _ => false end.
Definition nodes_to_insert (h : heap) (node : id) : res (heap * list id) :=
  if is_fragment h node then Ok (h, kids h node)
  else
    do h1 <- (match parent h node with
              | Some p => remove_child h p node
              | None => Ok h
              end);
    Ok (h1, [node]).

(** lib.rs:851-889: insertion beside [self].  While [self] and its parent are borrowed, borrowing them again
    as one of the nodes panics. *)
Definition insert_beside (h : heap) (self : id) (after : bool) (nodes : list id) : res heap :=
  let index_ := if after then S (index h self) else index h self in
  let h1 := reset_index h index_ nodes in
  match parent h1 self with
  | Some p =>
      match childs h1 p with
      | Some cs =>
          if includes nodes self || includes nodes p then Panic
          else
            let nexts := if index_ <? length cs then skipn index_ cs else [] in
            let prevs := if index_ <? length cs then firstn index_ cs else cs in
            let h2 := set_parents h1 p nodes in
            let h3 := upd h2 p (set_ch (Some (prevs ++ nodes))) in
            match nexts with
            | [] => Ok h3
            | _ =>
                let h4 := reset_index h3 (index_ + length nodes) nexts in
                Ok (upd h4 p (set_ch (Some (prevs ++ nodes ++ nexts))))
            end
      | None => Ok h1
      end
  | None => Ok h1
  end.
(** lib.rs:890-917: insertion as first or last children. *)
Definition insert_inside (h : heap) (self : id) (at_end : bool) (nodes : list id) : res heap :=
  let h1 := set_parents h self nodes in
  match childs h1 self with
  | Some cs =>
      if includes nodes self then Panic
      else if at_end then
        Ok (upd (reset_index h1 (length cs) nodes) self (set_ch (Some (cs ++ nodes))))
      else
        Ok (upd (reset_index (reset_index h1 0 nodes) (length nodes) cs) self (set_ch (Some (nodes ++ cs))))
  | None => Ok (upd (reset_index h1 0 nodes) self (set_ch (Some nodes)))
  end.

(** lib.rs:806-925 [insert_adjacent] (the branch for foreign implementations of the trait is left out). *)
Definition insert_adjacent (o : oracles_dom) (h : heap) (self : id) (pos : position_) (node : id)
  : res (heap * errors) :=
  do ok <- validate_dom_change h self node;
  if negb ok then Ok (h, halt h self)
  else
    do hn <- nodes_to_insert h node;
    let h1 := fst hn in
    do nodes <- (match pos with
                 | AfterBegin | BeforeEnd => remove_not_allowed o h1 (tag_names h1 self) (snd hn)
                 | _ => Ok (snd hn)
                 end);
    match nodes with
    | [] => Ok (h1, [])
    | _ =>
        do h2 <- (match pos with
                  | BeforeBegin => insert_beside h1 self false nodes
                  | AfterEnd => insert_beside h1 self true nodes
                  | AfterBegin => insert_inside h1 self false nodes
                  | BeforeEnd => insert_inside h1 self true nodes
                  end);
        Ok (h2, [])
    end.

(** lib.rs:927-992 [replace_with]; also returns the node that [self] denotes afterwards. *)
Definition replace_with (h : heap) (self node : id) : res (heap * id) :=
  do hn <- nodes_to_insert h node;
  let h1 := fst hn in
  let nodes := snd hn in
  let new_self :=
    if is_fragment h node then match nodes with [x] => x | _ => self end else node in
  match nodes with
  | [] => Ok (h1, self)
  | _ =>
      let i := index h1 self in
      do h2 <- (match parent h1 self with
                | Some p =>
                    match childs h1 p with
                    | Some cs =>
                        if includes nodes self || includes nodes p then Panic
                        else
                          let h2 := reset_index h1 i nodes in
                          let h3 := if i <? length cs then reset_index h2 (i + length nodes) (skipn (S i) cs) else h2 in
                          let h4 := set_parents h3 p nodes in
                          if S i <=? length cs
                          then Ok (upd h4 p (set_ch (Some (firstn i cs ++ nodes ++ skipn (S i) cs))))
                          else Panic
                    | None => Ok h1
                    end
                | None => Ok h1
                end);
      Ok (h2, new_self)
  end.

(** lib.rs:251-296 [set_text].  A new text node has no root ([Node::create_text_node]). *)
Definition new_text (self : id) (content : str) : node :=
  mkNode NText (Some self) 0 None (Some content) None None.
Definition set_text (o : oracles_dom) (h : heap) (self : id) (content : str) : heap * errors :=
  match ntype_of h self with
  | NTag =>
      let plain := negb (od_content_tag o (tag_names h self)) in
      match content with
      | _ :: _ =>
          if plain
          then (upd h self (set_ch (Some [length h])) ++ [new_text self (od_encode o content)], [])
          else (upd h self (set_con (Some content)), [])
      | [] =>
          if plain then (upd h self (set_ch None), []) else (upd h self (set_con None), [])
      end
  | NText | NSpaces | NComment =>
      match content with
      | [] => (h, halt h self)
      | _ => (upd h self (set_con (Some content)), [])
      end
  | _ => (h, [])
  end.

(** lib.rs:399-411 [ITextTrait::remove].  The text node itself stays borrowed while indexes are reset. *)
Definition text_remove (h : heap) (self : id) : res heap :=
  match parent h self with
  | Some p =>
      match childs h p with
      | Some cs =>
          let i := index h self in
          do cs' <- remove_at cs i;
          if includes (skipn i cs') self then Panic
          else Ok (reset_index (upd h p (set_ch (Some cs'))) i (skipn i cs'))
      | None => Ok h
      end
  | None => Ok h
  end.
(** lib.rs:414-432 [append_text], [prepend_text]: the [else] branch borrows a second time. *)
Definition append_text (h : heap) (self : id) (t : str) : res heap :=
  match n_content (node_of h self) with
  | Some c => Ok (upd h self (set_con (Some (c ++ t))))
  | None => Panic
  end.
Definition prepend_text (h : heap) (self : id) (t : str) : res heap :=
  match n_content (node_of h self) with
  | Some c => Ok (upd h self (set_con (Some (t ++ c))))
  | None => Panic
  end.

(** * On element sets *)
(** elements.rs:3614-3620 [remove]. *)
Definition remove_one (h : heap) (x : id) : res heap :=
  match parent h x with
  | Some p => remove_child h p x
  | None => Ok h
  end.
Definition remove_all (h : heap) (l : list id) : res heap := rfold remove_one l h.
(** elements.rs:2940-2945 [set_text], 3654-3657 [empty]. *)
Definition set_text_all (o : oracles_dom) (h : heap) (l : list id) (content : str) : heap * errors :=
  fold_left (fun s x => let '(h', e) := set_text o (fst s) x content in (h', snd s ++ e)) l (h, []).
Definition empty_all (o : oracles_dom) (h : heap) (l : list id) : heap * errors := set_text_all o h l [].
(** elements.rs:3663-3669 [insert]: for every target, the inserted elements in reverse. *)
Definition insert_step (o : oracles_dom) (pos : position_) (ele : id) (s : heap * errors) (x : id) : res (heap * errors) :=
  do r <- insert_adjacent o (fst s) ele pos x; Ok (fst r, snd s ++ snd r).
Definition insert_all (o : oracles_dom) (pos : position_) (h : heap) (l dest : list id) : res (heap * errors) :=
  rfold (fun s ele => rfold (insert_step o pos ele) (rev dest) s) l (h, []).
(** elements.rs:3717-3830: [append], [prepend], [before], [after] and the mirrored forms. *)
Definition append (o : oracles_dom) := insert_all o BeforeEnd.
Definition prepend (o : oracles_dom) := insert_all o AfterBegin.
Definition before (o : oracles_dom) := insert_all o BeforeBegin.
Definition after (o : oracles_dom) := insert_all o AfterEnd.
Definition append_to (o : oracles_dom) (h : heap) (l elements : list id) := append o h elements l.
Definition prepend_to (o : oracles_dom) (h : heap) (l elements : list id) := prepend o h elements l.
Definition insert_before (o : oracles_dom) (h : heap) (l elements : list id) := before o h elements l.
Definition insert_after (o : oracles_dom) (h : heap) (l elements : list id) := after o h elements l.
(** elements.rs:3671-3677 [replace]: the entry itself becomes the replacement. *)
Definition replace_step (s : heap * id) (x : id) : res (heap * id) := replace_with (fst s) (snd s) x.
Definition replace_all (h : heap) (l dest : list id) : res heap :=
  rfold (fun h ele => do s <- rfold replace_step (rev dest) (h, ele); Ok (fst s)) l h.

(** * Programs of mutations *)
(** One call; the selection of the node(s) is left to the caller. *)
Inductive op :=
| OInsert (self : id) (pos : position_) (x : id)
| ORemove (x : id)
| OReplace (x y : id)
| OSetText (x : id) (s : str)
| ORemoveText (x : id)
| OAppendText (x : id) (s : str)
| OPrependText (x : id) (s : str).
Definition run_op (o : oracles_dom) (h : heap) (c : op) : res heap :=
  match c with
  | OInsert self pos x => do r <- insert_adjacent o h self pos x; Ok (fst r)
  | ORemove x => remove_one h x
  | OReplace x y => do r <- replace_with h x y; Ok (fst r)
  | OSetText x s => Ok (fst (set_text o h x s))
  | ORemoveText x => text_remove h x
  | OAppendText x s => append_text h x s
  | OPrependText x s => prepend_text h x s
  end.
Definition run_ops (o : oracles_dom) (h : heap) (l : list op) : res heap := rfold (run_op o) l h.
