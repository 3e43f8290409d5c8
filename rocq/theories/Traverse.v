(** The traversals on parsed filter texts; [None] is the empty text. *)
From Verif Require Import Base Dom Order Sets Engine Rules.

Section Traverse.
  Variable h : heap.
  Variable text_of : id -> str.
  Variable by_id : id -> str -> option id.

  (** elements.rs:110-124 [trigger_method] parses with [use_lookup = false]. *)
  Definition plain_text (flt : option ast) : option selector := option_map (compile_selector h text_of by_id false) flt.
  (** elements.rs:523, 530, 1528, 1726: [parse] (selector/mod.rs:391-396) parses with [use_lookup = true]. *)
  Definition looked_text (flt : option ast) : option selector := option_map (compile_selector h text_of by_id true) flt.

  (** elements.rs:1261, 1294, 1329, 1408, 1442, 1515, 1598, 1635: the public traversal with each combinator; there is
      none for [ChildrenAll] and [Chain]. *)
  Definition step_ast (c : comb) (els : list id) (flt : option ast) : res (list id) :=
    match c with
    | Children => el_children h els (plain_text flt)
    | Prev => el_prev h els (plain_text flt)
    | PrevAll => el_prev_all h els (plain_text flt)
    | Next => el_next h els (plain_text flt)
    | NextAll => el_next_all h els (plain_text flt)
    | Siblings => el_siblings h els (looked_text flt)
    | Parent => el_parent h els (plain_text flt)
    | ParentAll => el_parents h els (plain_text flt)
    | ChildrenAll | Chain => Ok []
    end.
  (** elements.rs:1367, 1479, 1673 *)
  Definition until_ast (c : comb) (els : list id) (stop : ast) (flt : option ast) (contains : bool) : res (list id) :=
    match c with
    | Next => el_next_until h els (compile_selector h text_of by_id true stop) (looked_text flt) contains
    | Prev => el_prev_until h els (compile_selector h text_of by_id true stop) (looked_text flt) contains
    | Parent => el_parents_until h els (compile_selector h text_of by_id true stop) (looked_text flt) contains
    | _ => Ok []
    end.
  (** elements.rs:1719-1774 on a parsed selector; the empty text (1721-1723) is in Query.v. *)
  Definition closest_ast (els : list id) (gs : ast) : res (list id) := el_closest h els (compile_selector h text_of by_id true gs).
End Traverse.
