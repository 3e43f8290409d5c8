(** Model of [set_html]: src/lib.rs:298-393 and src/mesdoc/interface/elements.rs:3044-3049. *)
From Verif Require Import Base Utils Attr Dom Sets Mutate.

(** What rphtml's parser ([Doc::parse], lib.rs:330-340) builds below the root: kind, tag data, content, children of
    every node. *)
Inductive ptree := PT (ty : ntype) (m : option meta) (c : option str) (cs : option (list ptree)).
(** The parser as an oracle: [None] is an error; otherwise the child list of the root, if it has one. *)
Definition parser := str -> option (option (list ptree)).

Fixpoint psize (t : ptree) : nat :=
  match t with
  | PT _ _ _ cs =>
      S (match cs with
         | None => 0
         | Some l => (fix go l := match l with [] => 0 | t :: l' => psize t + go l' end) l
         end)
  end.
Fixpoint psizes (l : list ptree) : nat := match l with [] => 0 | t :: l' => psize t + psizes l' end.

(** The parsed nodes as new nodes of the heap, numbered from [b] on, parents before children.  rphtml gives each
    node its parent and its position.  Their root pointer is weak and leads to the root of [doc_holder], which is
    dropped at the end of [set_html]; so is the parent pointer of the topmost nodes until it is set. *)
Fixpoint roots_from (b : id) (l : list ptree) : list id :=
  match l with
  | [] => []
  | t :: l' => b :: roots_from (b + psize t) l'
  end.
Fixpoint lay (par : option id) (i : nat) (b : id) (t : ptree) : list node :=
  match t with
  | PT ty m c cs =>
      mkNode ty par i (option_map (roots_from (S b)) cs) c m None ::
      match cs with
      | None => []
      | Some l =>
          (fix go i b' l :=
             match l with
             | [] => []
             | t :: l' => lay (Some b) i b' t ++ go (S i) (b' + psize t) l'
             end) 0 (S b) l
      end
  end.
Fixpoint lay_list (par : option id) (i : nat) (b : id) (l : list ptree) : list node :=
  match l with
  | [] => []
  | t :: l' => lay par i b t ++ lay_list par (S i) (b + psize t) l'
  end.

(** lib.rs:300-315: the node whose content is set (itself, or the parent of a text node). *)
Definition html_target (h : heap) (self : id) : option (bool * id) :=
  match ntype_of h self with
  | NTag => Some (true, self)
  | NText | NSpaces => option_map (fun p => (false, p)) (parent h self)
  | _ => None
  end.

(** lib.rs:298-393.  The names compared are the raw ones ([meta.name]), not lower-cased as in [tag_names]. *)
Definition set_html (o : oracles_dom) (parse : parser) (h : heap) (self : id) (content : str) : res heap :=
  match html_target h self with
  | None => Ok h
  | Some (is_element, target) =>
      match n_meta (node_of h target) with
      | None => Panic
      | Some m =>
          if od_content_tag o (m_name m) then Ok (upd h target (set_con (Some content)))
          else
            match parse content with
            | None => Panic
            | Some None => Ok (upd h target (set_ch None))
            | Some (Some trees) =>
                let all := roots_from (length h) trees in
                let h1 := h ++ lay_list None 0 (length h) trees in
                do nodes <- remove_not_allowed o h1 (m_name m) all;
                let has_nodes := 0 <? length nodes in
                let has_not_allowed := (length nodes <? length all) && has_nodes in
                let h2 := set_parents h1 target nodes in
                if is_element then
                  let h3 := if has_not_allowed then reset_index h2 0 nodes else h2 in
                  Ok (upd h3 target (set_ch (if has_nodes then Some nodes else None)))
                else
                  match childs h2 target with
                  | Some cs =>
                      let i := index h2 self in
                      do last <- rsub (length cs) 1;
                      let h3 := if i <? last then reset_index h2 (i + length nodes) (skipn (S i) cs) else h2 in
                      if has_nodes then
                        if S i <=? length cs
                        then Ok (upd (reset_index h3 i nodes) target (set_ch (Some (firstn i cs ++ nodes ++ skipn (S i) cs))))
                        else Panic
                      else do cs' <- remove_at cs i; Ok (upd h3 target (set_ch (Some cs')))
                  | None => Ok h2
                  end
            end
      end
  end.
(** elements.rs:3044-3049 *)
Definition set_html_all (o : oracles_dom) (parse : parser) (h : heap) (l : list id) (content : str) : res heap :=
  rfold (fun h x => set_html o parse h x content) l h.
