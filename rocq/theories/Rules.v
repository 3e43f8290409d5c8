(** Model of the selector rules: src/mesdoc/rules/*.rs.  A parsed rule is compiled to a matcher. *)
From Verif Require Import Base Utils Nth Attr Dom Order Sets Engine.

(** The match mode of an attribute rule: rules/attr.rs:22, 29-79. *)
Inductive amode := MEq | MPrefix | MSuffix | MSub | MDash | MWord | MNot.

(** A parsed rule.  The text inside [:not(..)] / [:has(..)] is parsed each time the rule is applied; the parse
    result is part of the rule: [NSel] groups, [NErr] a parse error, [NPanic] a panic of the parser. *)
Inductive rule :=
| RAll
| RName (name : str)
| RClass (name : str)
| RId (name : str)
| RAttr (key : str) (test : option (amode * str))
| RRoot
| REmpty
| RFirstChild (asc : bool)                    (* :first-child / :last-child *)
| ROnlyChild
| RNthChild (asc : bool) (f : nth_formula)     (* :nth-child / :nth-last-child *)
| RFirstOfType (asc : bool)
| RNthOfType (asc : bool) (f : nth_formula)
| ROnlyOfType
| RNot (n : nested)
| RContains (search : str)
| RHas (n : nested)
| RChecked
| RAlias (gs : list (list (list (rule * comb))))   (* :header, :input, :submit *)
with nested :=
| NSel (gs : list (list (list (rule * comb))))
| NErr
| NPanic.

(** constants.rs:11-16 and rules/*.rs *)
Definition prio_of (r : rule) : N :=
  match r with
  | RAll => 0
  | RName _ => 100
  | RClass _ => 1000
  | RId _ => 10000
  | _ => 10
  end%N.

(** [str::starts_with], [ends_with], [contains] of the standard library. *)
Fixpoint starts_with (s p : str) : bool :=
  match p, s with
  | [], _ => true
  | c :: p', d :: s' => char_eqb c d && starts_with s' p'
  | _ :: _, [] => false
  end.
Definition ends_with (s p : str) : bool := starts_with (rev s) (rev p).
Fixpoint str_contains (s p : str) : bool :=
  starts_with s p || match s with [] => false | _ :: s' => str_contains s' p end.

(** rules/attr.rs:23-84.  [str::split_ascii_whitespace] (line 59) splits as [get_class_list] does. *)
Definition attr_test (test : option (amode * str)) (val : option attr_value) : bool :=
  match test with
  | None => match val with Some _ => true | None => false end
  | Some (mode, w) =>
      if negb (nonempty w) && negb (match mode with MEq | MNot | MDash => true | _ => false end) then false
      else
        match mode, val with
        | MPrefix, Some (AV v _) => starts_with v w
        | MSuffix, Some (AV v _) => ends_with v w
        | MSub, Some (AV v _) => str_contains v w
        | MDash, Some (AV v _) => str_eqb v w || starts_with v (w ++ [45%N])
        | MDash, _ => negb (nonempty w)
        | MWord, Some (AV v _) => existsb (fun u => str_eqb u w) (get_class_list v)
        | MNot, Some (AV v _) => negb (str_eqb w v)
        | MNot, _ => nonempty w
        | MEq, Some (AV v _) => str_eqb v w
        | MEq, _ => negb (nonempty w)
        | _, _ => false
        end
  end.

Section Rules.
  Variable h : heap.
  (** [text_contents]: rphtml's renderer. *)
  Variable text_of : id -> str.
  (** [doc.get_element_by_id]: rphtml's id cache. *)
  Variable by_id : id -> str -> option id.

  (** * Groups of siblings: pseudo.rs:102-150 *)
  (** A group is (range start, range end, parent). *)
  Definition sgroup := (nat * nat * id)%type.
  Fixpoint sib_groups (els : list id) (i : nat) (cur : option sgroup) : list sgroup :=
    match els with
    | [] => opt_list cur
    | x :: els' =>
        match parent h x with
        | None => sib_groups els' (S i) cur
        | Some p =>
            match cur with
            | Some (s, e, q) =>
                if Nat.eqb p q then sib_groups els' (S i) (Some (s, S i, q))
                else (s, e, q) :: sib_groups els' (S i) (Some (i, S i, p))
            | None => sib_groups els' (S i) (Some (i, S i, p))
            end
        end
    end.
  Definition group_siblings (els : list id) : list sgroup := sib_groups els 0 None.
  Definition range {A} (l : list A) (s e : nat) : list A := firstn (e - s) (skipn s l).

  (** * nth-child: pseudo.rs:152-379 *)
  (** [childs\[index\]] with a [usize] index kept as [Z]. *)
  Definition zget (l : list id) (z : Z) : res id :=
    if ((0 <=? z) && (z <? Z.of_nat (length l)))%Z then rnth l (Z.to_nat z) else Panic.
  (** pseudo.rs:246-263: the allowed indexes against one index: (found, the indexes left, leave the outer loop). *)
  Fixpoint allow_scan (allow : list Z) (actual : nat) : bool * list Z * bool :=
    match allow with
    | [] => (false, [], false)
    | a :: rest =>
        match Z.compare a (Z.of_nat actual) with
        | Eq => (true, rest, false)
        | Lt => match rest with [] => (false, [], true) | _ => allow_scan rest actual end
        | Gt => (false, allow, false)
        end
    end.
  (** pseudo.rs:242-268. *)
  Fixpoint asc_walk (sibs childs_left : list id) (start : nat) (allow : list Z) : list id :=
    match sibs with
    | [] => []
    | x :: sibs' =>
        match pos_from childs_left x 0 with
        | None => asc_walk sibs' childs_left start allow
        | Some i =>
            let '(hit, allow', stop) := allow_scan allow (start + i) in
            (if hit then [x] else []) ++
            (if stop : bool then [] else asc_walk sibs' (skipn (S i) childs_left) (S (start + i)) allow')
        end
    end.
  (** pseudo.rs:219-272 (ascending). *)
  Definition nth_asc (els : list id) (s e : nat) (allow : list Z) (cs : list id) : res (list id) :=
    if Nat.eqb (e - s) (length cs) then rmapl (zget cs) allow
    else Ok (asc_walk (range els s e) cs 0 allow).
  (** [binary_search(..)] on the (sorted) allowed indexes: membership. *)
  Definition allowed (allow : list Z) (i : nat) : bool := existsb (Z.eqb (Z.of_nat i)) allow.
  (** pseudo.rs:291-308; [sibs_rev] are the siblings before [cur_end], last first; the result is reversed. *)
  Fixpoint desc_walk (childs_rev : list id) (i : nat) (sibs_rev : list id) (allow : list Z) : list id :=
    match childs_rev with
    | [] => []
    | c :: childs' =>
        if allowed allow i then
          match pos_from sibs_rev c 0 with
          | Some k => let left_ := skipn (S k) sibs_rev in
                      c :: (if nonempty left_ then desc_walk childs' (S i) left_ allow else [])
          | None => if nonempty sibs_rev then desc_walk childs' (S i) sibs_rev allow else []
          end
        else desc_walk childs' (S i) sibs_rev allow
    end.
  (** pseudo.rs:274-313 (descending). *)
  Definition nth_desc (els : list id) (s e : nat) (allow : list Z) (cs : list id) : res (list id) :=
    if Nat.eqb (e - s) (length cs) then
      rmapl (fun z => zget cs (Z.of_nat (length cs) - z - 1)) (rev allow)
    else Ok (rev (desc_walk (rev cs) 0 (rev (range els s e)) allow)).
  Definition nth_handle (asc : bool) := if asc then nth_asc else nth_desc.
  (** pseudo.rs:318-335 [handle_nth_child]. *)
  Definition handle_nth_child (asc : bool) (els : list id) (g : sgroup) (allow : list Z) : res (list id) :=
    let '(s, e, p) := g in
    match allow with
    | [] => Ok []
    | _ => nth_handle asc els s e allow (children h p)
    end.
  (** pseudo.rs:355-373. *)
  Definition nth_child_all (asc : bool) (f : nth_formula) (els : list id) (is_all : option bool) : res (list id) :=
    match is_all with
    | None =>
        rflat (fun g : sgroup =>
                 do allow <- get_allowed_indexs f (length (children h (snd g)));
                 handle_nth_child asc els g allow) (group_siblings els)
    | Some _ =>
        do allow <- get_allowed_indexs f (length els);
        nth_handle asc els 0 (length els) allow els
    end.
  (** pseudo.rs:403-420. *)
  Definition first_child_all (asc : bool) (els : list id) : res (list id) :=
    rflat (fun g => handle_nth_child asc els g [0%Z]) (group_siblings els).
  (** pseudo.rs:154-206, [index] begins at 1. *)
  Fixpoint mark_index (l : list id) (i : nat) (index : Z) : list bool :=
    match l with
    | [] => []
    | _ :: l' => Z.eqb (Z.of_nat i) index :: mark_index l' (S i) index
    end.
  Definition nth_child_spec (asc : bool) (index : Z) (x : id) : res (list (id * bool * bool)) :=
    if (0 <? index)%Z then
      do cs <- since_by h x 0 false;
      do marks <- (if asc then Ok (mark_index cs 0 (index - 1))
                   else do last <- rsub (child_nodes_length h x) 1;
                        do ds <- since_by h x last true;
                        Ok (rev (mark_index ds 0 (index - 1))));
      rmapl (fun p => do b <- rnth marks (fst p); Ok (snd p, b, true)) (combine (seq 0 (length cs)) cs)
    else Ok [].

  (** * nth-of-type: pseudo.rs:441-708 *)
  (** The [HashMap<String, usize>] of counters. *)
  Definition counters := list (str * nat).
  Fixpoint count_get (m : counters) (k : str) : option nat :=
    match m with
    | [] => None
    | (k', v) :: m' => if str_eqb k' k then Some v else count_get m' k
    end.
  Definition count_set (m : counters) (k : str) (v : nat) : counters := (k, v) :: m.
  (** pseudo.rs:444-469 [get_allowed_name_ele]: (new counters, allowed). *)
  Definition allowed_name (m : counters) (allow : list Z) (x : id) : res (counters * bool) :=
    let name := tag_name h x in
    match count_get m name with
    | Some i => Ok (count_set m name (S i), allowed allow (S i))
    | None =>
        match allow with
        | [] => Panic
        | a :: _ => Ok (count_set m name 0, Z.eqb a 0)
        end
    end.
  Fixpoint names_walk (m : counters) (allow : list Z) (l : list id) : res (list bool) :=
    match l with
    | [] => Ok []
    | x :: l' => do r <- allowed_name m allow x; do rest <- names_walk (fst r) allow l'; Ok (snd r :: rest)
    end.
  (** The node indexes of the marked elements. *)
  Definition marked_indexs (l : list id) (marks : list bool) : list nat :=
    map (fun p => index h (fst p)) (filter snd (combine l marks)).
  (** pseudo.rs:485-500: looking for one node index among the siblings left. *)
  Fixpoint avail_scan (at_ : nat) (sibs : list id) : list id * list id :=
    match sibs with
    | [] => ([], [])
    | x :: sibs' =>
        match Nat.compare (index h x) at_ with
        | Eq => ([x], sibs')
        | Gt => ([], sibs)
        | Lt => avail_scan at_ sibs'
        end
    end.
  (** pseudo.rs:472-503 [collect_avail_name_eles]. *)
  Fixpoint collect_avail (indexs : list nat) (sibs : list id) : list id :=
    match indexs with
    | [] => []
    | i :: indexs' =>
        match sibs with
        | [] => []
        | _ => let '(found, left_) := avail_scan i sibs in found ++ collect_avail indexs' left_
        end
    end.
  (** pseudo.rs:564-596 [handle_nth_of_type]; the parent may be absent (line 636). *)
  Definition handle_nth_of_type (asc : bool) (els : list id) (s e : nat) (p : option id) (allow : list Z) : res (list id) :=
    match allow with
    | [] => Ok []
    | _ =>
        match p with
        | None => Panic
        | Some p =>
            let cs := children h p in
            do indexs <- (if asc then do marks <- names_walk [] allow cs; Ok (marked_indexs cs marks)
                          else do marks <- names_walk [] allow (rev cs); Ok (rev (marked_indexs (rev cs) marks)));
            Ok (collect_avail indexs (range els s e))
        end
    end.
  (** pseudo.rs:617-644. *)
  Definition nth_of_type_all (asc : bool) (f : nth_formula) (els : list id) (is_all : option bool) : res (list id) :=
    match is_all with
    | None =>
        rflat (fun g : sgroup =>
                 let '(s, e, p) := g in
                 do allow <- get_allowed_indexs f (length (children h p));
                 handle_nth_of_type asc els s e (Some p) allow) (group_siblings els)
    | Some _ =>
        do allow <- get_allowed_indexs f (length els);
        let p := match els with x :: _ => parent h x | [] => None end in
        handle_nth_of_type asc els 0 (length els) p allow
    end.
  (** pseudo.rs:677-702. *)
  Definition first_of_type_all (asc : bool) (els : list id) : res (list id) :=
    rflat (fun g => let '(s, e, p) := g in handle_nth_of_type asc els s e (Some p) [0%Z]) (group_siblings els).
  (** pseudo.rs:506-561. *)
  Definition nth_of_type_spec (asc : bool) (index : Z) (x : id) : res (list (id * bool * bool)) :=
    if (0 <? index)%Z then
      do cs <- since_by h x 0 false;
      do marks <- (if asc then names_walk [] [(index - 1)%Z] cs
                   else do last <- rsub (child_nodes_length h x) 1;
                        do ds <- since_by h x last true;
                        do marks <- names_walk [] [(index - 1)%Z] ds;
                        Ok (rev marks));
      rmapl (fun p => do b <- rnth marks (fst p); Ok (snd p, b, true)) (combine (seq 0 (length cs)) cs)
    else Ok [].

  (** * only-child: pseudo.rs:732-759 *)
  Fixpoint only_child_all (els : list id) (prev : option id) : list id :=
    match els with
    | [] => []
    | x :: els' =>
        match parent h x with
        | None => only_child_all els' prev
        | Some p =>
            if match prev with Some q => Nat.eqb q p | None => false end then only_child_all els' prev
            else (if Nat.eqb (length (children h p)) 1 then [x] else []) ++ only_child_all els' (Some p)
        end
    end.

  (** * only-of-type: pseudo.rs:775-828 *)
  (** Lines 789-804: (names seen once with their position, names seen more often). *)
  Fixpoint only_names (cs : list id) (i : nat) (onces : list (str * nat)) (repeated : list str) : list (str * nat) :=
    match cs with
    | [] => onces
    | c :: cs' =>
        let name := tag_name h c in
        if existsb (str_eqb name) repeated then only_names cs' (S i) onces repeated
        else if existsb (fun e => str_eqb (fst e) name) onces
        then only_names cs' (S i) (filter (fun e => negb (str_eqb (fst e) name)) onces) (repeated ++ [name])
        else only_names cs' (S i) (onces ++ [(name, i)]) repeated
    end.
  Fixpoint name_scan (name : str) (sibs : list id) : option (id * list id) :=
    match sibs with
    | [] => None
    | x :: sibs' => if str_eqb (tag_name h x) name then Some (x, sibs') else name_scan name sibs'
    end.
  (** Lines 813-823. *)
  Fixpoint only_walk (names : list (str * nat)) (sibs : list id) : list id :=
    match names with
    | [] => []
    | (name, _) :: names' =>
        match name_scan name sibs with
        | Some (x, left_) => x :: only_walk names' left_
        | None => only_walk names' sibs
        end
    end.
  Definition only_of_type_all (els : list id) : res (list id) :=
    rflat (fun g : sgroup =>
             let '(s, e, p) := g in
             let cs := children h p in
             let sibs := range els s e in
             let names := only_names cs 0 [] [] in
             if Nat.eqb (length sibs) (length cs) then rmapl (fun n => rnth sibs (snd n)) names
             else Ok (only_walk names sibs)) (group_siblings els).

  (** * The rules on one element *)
  (** rules/class.rs:18-24 *)
  Definition class_one (name : str) (x : id) : res bool :=
    do a <- node_attribute h x (lit "class");
    Ok (match a with
        | Some (AV v _) => existsb (str_eqb name) (get_class_list v)
        | _ => false
        end).
  (** rules/attr.rs:86-89 *)
  Definition attr_one (key : str) (test : option (amode * str)) (x : id) : res bool :=
    do a <- node_attribute h x key; Ok (attr_test test a).
  (** rules/name.rs:14-16 *)
  Definition name_one (name : str) (x : id) : res bool := Ok (is_equal_chars_ignore_case (tag_names h x) name).
  (** pseudo.rs:54-61 *)
  Definition root_one (x : id) : res bool :=
    Ok (str_eqb (tag_name h x) (lit "HTML") &&
        match parent h x with Some p => is_document h p | None => false end).
  (** pseudo.rs:35-53: the specified handle of [:root]. *)
  Definition root_spec (x : id) : res (list (id * bool * bool)) :=
    Ok (if is_root h x
        then map (fun c => (c, true, false)) (filter (fun c => str_eqb (tag_name h c) (lit "HTML")) (children h x))
        else []).
  (** pseudo.rs:78-94 *)
  Definition empty_one (x : id) : res bool := Ok (forallb (is_comment h) (kids h x)).
  (** pseudo.rs:855-889 *)
  Definition contains_one (search : str) (x : id) : res bool := Ok (contains_chars (text_of x) search).

  (** * :checked: pseudo.rs:926-1008 *)
  Definition is_tag (x : id) (name : str) : bool := is_equal_chars (tag_names h x) name.
  (** lines 958-964: an earlier sibling [option]. *)
  Fixpoint option_before (fuel : nat) (x : id) : res bool :=
    match fuel with
    | 0 => OutOfFuel
    | S f =>
        do p <- previous_element_sibling h x;
        match p with
        | None => Ok false
        | Some y => if is_tag y (lit "option") then Ok true else option_before f y
        end
    end.
  (** lines 966-988 [check_selected_option] *)
  Fixpoint selected_in (fuel : nat) (x : id) : res bool :=
    match fuel with
    | 0 => OutOfFuel
    | S f =>
        if is_tag x (lit "option") then node_has_attribute h x (lit "selected")
        else rexists (selected_in f) (children h x)
    end.
  (** lines 990-996 *)
  Fixpoint selected_after (fuel : nat) (x : id) : res bool :=
    match fuel with
    | 0 => OutOfFuel
    | S f =>
        match next_element_sibling h x with
        | None => Ok false
        | Some y => do b <- selected_in (S (length h)) y; if b : bool then Ok true else selected_after f y
        end
    end.
  Definition checked_one (x : id) : res bool :=
    if is_tag x (lit "input") then
      do t <- node_attribute h x (lit "type");
      match t with
      | Some (AV v _) =>
          let v := str_lower v in
          if str_eqb v (lit "checkbox") || str_eqb v (lit "radio") then node_has_attribute h x (lit "checked")
          else Ok false
      | _ => Ok false
      end
    else if is_tag x (lit "option") then
      do sel <- node_has_attribute h x (lit "selected");
      if sel : bool then Ok true
      else match parent h x with
           | Some p =>
               if is_tag p (lit "select") then
                 do multi <- node_has_attribute h p (lit "multiple");
                 if multi : bool then Ok false
                 else
                   do before <- option_before (S (length h)) x;
                   if before : bool then Ok false
                   else do after <- selected_after (S (length h)) x; Ok (negb after)
               else Ok false
           | None => Ok false
           end
    else Ok false.

  (** rules/id.rs:18-44; note line 19: [Some(false)] counts as "use the cache". *)
  Definition id_all (name : str) (els : list id) (use_cache : option bool) : res (list id) :=
    match els with
    | [] => Ok []
    | x :: _ =>
        match owner_document h x with
        | None => Ok []
        | Some d =>
            match by_id d name with
            | None => Ok []
            | Some e =>
                match use_cache with
                | Some _ => Ok [e]
                | None => Ok (if includes els e then [e] else [])
                end
            end
        end
    end.

  (** elements.rs:2234-2238, 2347-2367 through [trigger_method] (110-124). *)
  Definition nested_apply (run : list id -> selector -> res (list id)) (n : res (option selector)) (els : list id) : res (list id) :=
    if nonempty els then
      do s <- n;
      match s with
      | Some s => run els s
      | None => Ok []
      end
    else Ok [].

  Definition one (r : rule) (g : id -> res bool) : matcher := mkMatcher None (Some g) None (prio_of r) false.
  Definition all (r : rule) (g : list id -> option bool -> res (list id)) (sp : option (id -> res (list (id * bool * bool)))) : matcher :=
    mkMatcher (Some g) None sp (prio_of r) false.
  (** Compiling a rule; nested texts are parsed with [use_lookup = false] (elements.rs:115-117). *)
  Fixpoint compile (r : rule) : matcher :=
    match r with
    | RAll => all_matcher
    | RName n => one r (name_one n)
    | RClass n => one r (class_one n)
    | RId n => mkMatcher (Some (id_all n)) None None (prio_of r) true
    | RAttr k t => one r (attr_one k t)
    | RRoot => mkMatcher None (Some root_one) (Some root_spec) (prio_of r) false
    | REmpty => one r empty_one
    | RFirstChild asc => all r (fun els _ => first_child_all asc els) (Some (nth_child_spec asc 1))
    | ROnlyChild => all r (fun els _ => Ok (only_child_all els None)) None
    | RNthChild asc f =>
        all r (nth_child_all asc f) (match fst f with None => Some (nth_child_spec asc (snd f)) | Some _ => None end)
    | RFirstOfType asc => all r (fun els _ => first_of_type_all asc els) (Some (nth_of_type_spec asc 1))
    | RNthOfType asc f =>
        all r (nth_of_type_all asc f) (match fst f with None => Some (nth_of_type_spec asc (snd f)) | Some _ => None end)
    | ROnlyOfType => all r (fun els _ => only_of_type_all els) None
    | RNot n =>
        let s := match n with
                 | NSel gs => Ok (Some (optimize false (map (map (map (fun e => let '(r', c) := e in (compile r', c)))) gs)))
                 | NErr => Ok None
                 | NPanic => Panic
                 end in
        all r (fun els _ => nested_apply (not_sel h) s els) None
    | RContains t => one r (contains_one t)
    | RHas n =>
        let s := match n with
                 | NSel gs => Ok (Some (optimize false (map (map (map (fun e => let '(r', c) := e in (compile r', c)))) gs)))
                 | NErr => Ok None
                 | NPanic => Panic
                 end in
        all r (fun els _ => nested_apply (has_sel h) s els) None
    | RChecked => one r checked_one
    | RAlias gs =>
        let s := optimize false (map (map (map (fun e => let '(r', c) := e in (compile r', c)))) gs) in
        all r (fun els _ => filter_sel h els s) None
    end.

  (** A parsed selector list compiled. *)
  Definition ast := list (list (list (rule * comb))).
  Definition compile_groups (gs : ast) : list cgroup :=
    map (map (map (fun e => let '(r', c) := e in (compile r', c)))) gs.
  Definition compile_selector (use_lookup : bool) (gs : ast) : selector := optimize use_lookup (compile_groups gs).

  (** elements.rs:1097-1104 [find] on a parsed selector. *)
  Definition find_ast (els : list id) (gs : ast) : res (list id) := find_selector h els (compile_selector true gs).
  (** elements.rs:1136-1140, 2234-2238, 1987-1991, 2109-2113, 2347-2367: [filter], [not], [is], [is_all], [has] on a
      parsed selector; [trigger_method] (116-117) parses with [use_lookup = false]. *)
  Definition filter_ast (els : list id) (gs : ast) : res (list id) := filter_sel h els (compile_selector false gs).
  Definition not_ast (els : list id) (gs : ast) : res (list id) := not_sel h els (compile_selector false gs).
  Definition is_ast (els : list id) (gs : ast) : res bool := is_sel h els (compile_selector false gs).
  Definition is_all_ast (els : list id) (gs : ast) : res bool := is_all_sel h els (compile_selector false gs).
  Definition has_ast (els : list id) (gs : ast) : res (list id) := has_sel h els (compile_selector false gs).
End Rules.

(** constants.rs:24-28: the alias texts, parsed. *)
Definition tag_group (n : str) : list (list (rule * comb)) := [[(RName n, ChildrenAll)]].
Definition alias_header : rule :=
  RAlias (map tag_group [lit "h1"; lit "h2"; lit "h3"; lit "h4"; lit "h5"; lit "h6"]).
Definition alias_input : rule :=
  RAlias (map tag_group [lit "input"; lit "select"; lit "textarea"; lit "button"]).
Definition submit_group (n : str) : list (list (rule * comb)) :=
  [[(RName n, ChildrenAll); (RAttr (lit "type") (Some (MEq, lit "submit")), Chain)]].
Definition alias_submit : rule := RAlias [submit_group (lit "input"); submit_group (lit "button")].
