(** The queries on selector texts: the parser, the error handler and the engine together.  Every call gives its value
    and the documents whose error handler it called.  Errors of the texts nested in [:not] and [:has], which are
    parsed when the rule is applied, are not in this list;
    Reports.v has them as well. *)
From Verif Require Import Base Dom Order Sets Mutate Engine Rules Regex Parse Traverse.

Section Query.
  Variable wide_digit : char -> bool.
  Variable h : heap.
  Variable text_of : id -> str.
  Variable by_id : id -> str -> option id.

  (** elements.rs:126-137 [trigger_method_throw_error], document.rs:52-56 *)
  Definition throw_error (els : list id) : res errors :=
    match els with
    | [] => Panic
    | x :: _ => Ok (halt h x)
    end.
  (** A text is parsed, the call goes on with the parsed text or ends with the value [dflt]. *)
  Definition parsed_or {A} (dflt : A) (els : list id) (s : str) (run : ast -> res A) : res (A * errors) :=
    do p <- from_str wide_digit s;
    match p with
    | Some gs => do a <- run gs; Ok (a, [])
    | None => do e <- throw_error els; Ok (dflt, e)
    end.
  (** elements.rs:110-124 [trigger_method] *)
  Definition trigger_method {A} (dflt : A) (els : list id) (s : str) (run : ast -> res A) : res (A * errors) :=
    match els with
    | [] => Ok (dflt, [])
    | _ => parsed_or dflt els s run
    end.

  (** elements.rs:1097-1104 *)
  Definition find_text (els : list id) (s : str) : res (list id * errors) := parsed_or [] els s (find_ast h text_of by_id els).
  (** elements.rs:1136-1141, 1987-1992, 2109-2114, 2234-2239, 2347-2367 *)
  Definition filter_text (els : list id) (s : str) : res (list id * errors) := trigger_method [] els s (filter_ast h text_of by_id els).
  Definition is_text (els : list id) (s : str) : res (bool * errors) := trigger_method false els s (is_ast h text_of by_id els).
  Definition is_all_text (els : list id) (s : str) : res (bool * errors) := trigger_method false els s (is_all_ast h text_of by_id els).
  Definition not_text (els : list id) (s : str) : res (list id * errors) := trigger_method [] els s (not_ast h text_of by_id els).
  Definition has_text (els : list id) (s : str) : res (list id * errors) := trigger_method [] els s (has_ast h text_of by_id els).
  (** elements.rs:1719-1774 *)
  Definition closest_text (els : list id) (s : str) : res (list id * errors) :=
    match s with
    | [] => Ok ([], [])
    | _ => parsed_or [] els s (fun gs => closest_ast h text_of by_id els gs)
    end.

  (** The set a traversal starts from: elements.rs:1330, 1368, 1444, 1481, 1600, 1637, 1675. *)
  Definition uniques (c : comb) (els : list id) : res (list id) :=
    match c with
    | PrevAll => unique_sibling_last h els
    | NextAll | Parent | ParentAll => unique_sibling_first h els
    | _ => Ok els
    end.
  (** elements.rs:1639 *)
  Definition finish (c : comb) (l : list id) : res (list id) :=
    match c with ParentAll => sort_and_unique h l | _ => Ok l end.
  (** elements.rs:502-513 *)
  Definition select_text (us : list id) (s : str) (c : comb) : res (list id * errors) :=
    match s with
    | [] => do l <- select_with_comb h us None c; Ok (l, [])
    | _ => trigger_method [] us s (fun gs => select_with_comb h us (plain_text h text_of by_id (Some gs)) c)
    end.
  (** elements.rs:1515-1566 *)
  Definition siblings_text (els : list id) (s : str) : res (list id * errors) :=
    do _ <- unique_all_siblings h els;
    match trim s with
    | [] => do l <- step_ast h text_of by_id Siblings els None; Ok (l, [])
    | t => parsed_or [] els t (fun gs => step_ast h text_of by_id Siblings els (Some gs))
    end.
  (** elements.rs:1261, 1294, 1329, 1408, 1442, 1515, 1598, 1635 *)
  Definition step_text (c : comb) (els : list id) (s : str) : res (list id * errors) :=
    match c with
    | Siblings => siblings_text els s
    | _ =>
        do us <- uniques c els;
        do r <- select_text us s c;
        do l <- finish c (fst r);
        Ok (l, snd r)
    end.

  (** elements.rs:1368, 1481, 1675 *)
  Definition until_uniques (c : comb) (els : list id) : res (list id) :=
    match c with Prev => unique_sibling_last h els | _ => unique_sibling_first h els end.
  (** elements.rs:1371-1376, 1684-1686 *)
  Definition until_finish (c : comb) (l : list id) : res (list id) :=
    match c with Prev => Ok (rev l) | Parent => sort_and_unique h l | _ => Ok l end.
  (** elements.rs:515-584 on texts, then the calls 1367-1377, 1479-1482, 1673-1688 with [c] one of [Next], [Prev], [Parent]. *)
  Definition until_text (c : comb) (els : list id) (stop flt : str) (contains : bool) : res (list id * errors) :=
    do us <- until_uniques c els;
    do p <- from_str wide_digit stop;
    do r <- match p with
            | None => do e <- throw_error us; Ok ([], e)
            | Some gs =>
                let run f := select_until h us (compile_selector h text_of by_id true gs) (looked_text h text_of by_id f) contains c in
                match flt with
                | [] => do l <- run None; Ok (l, [])
                | _ => parsed_or [] us flt (fun f => run (Some f))
                end
            end;
    do l <- until_finish c (fst r);
    Ok (l, snd r).
End Query.
