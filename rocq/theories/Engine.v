(** Model of the selector engine: how a compiled selector is run on a set of elements
    (src/mesdoc/interface/elements.rs:500-1002, 1515-1566, 1598-1774, 1776-1955, 2347-2416;
    src/mesdoc/selector/mod.rs:20-84, 220-314; src/mesdoc/selector/rule.rs:22-64).

    A matcher is the triple of closures the code builds.  A closure that calls back
    ([MatchSpecifiedHandle]) is modelled by the list of its callback calls: the callbacks of the engine only
    push to a result vector, so the calls do not depend on what the callback does. *)
From Verif Require Import Base Attr Dom Order Sets.

(** selector/mod.rs:20-41 *)
Inductive comb := ChildrenAll | Children | Parent | ParentAll | NextAll | Next | PrevAll | Prev | Siblings | Chain.

(** selector/mod.rs:58-68 [reverse]. *)
Definition comb_reverse (c : comb) : res comb :=
  match c with
  | ChildrenAll => Ok ParentAll
  | Children => Ok Parent
  | NextAll => Ok PrevAll
  | Next => Ok Prev
  | Chain => Ok Chain
  | _ => Panic
  end.

Definition comb_eqb (a b : comb) : bool :=
  match a, b with
  | ChildrenAll, ChildrenAll | Children, Children | Parent, Parent | ParentAll, ParentAll | NextAll, NextAll
  | Next, Next | PrevAll, PrevAll | Prev, Prev | Siblings, Siblings | Chain, Chain => true
  | _, _ => false
  end.

(** selector/rule.rs:22-28 [Matcher]; a call of the specified handle's callback is (child, is_matched, loop_child). *)
Record matcher := mkMatcher {
  mt_all : option (list id -> option bool -> res (list id));
  mt_one : option (id -> res bool);
  mt_spec : option (id -> res (list (id * bool * bool)));
  mt_prio : N;
  mt_cache : bool
}.

(** selector/mod.rs:71-84 *)
Definition segment := (matcher * comb)%type.
Definition compound := list segment.
Definition cgroup := list compound.
Record process := mkProcess { should_in : option cgroup; query : cgroup }.
Definition selector := list process.

Fixpoint rflat {A B} (f : A -> res (list B)) (l : list A) : res (list B) :=
  match l with
  | [] => Ok []
  | x :: l' => do a <- f x; do b <- rflat f l'; Ok (a ++ b)
  end.
Definition nonempty {A} (l : list A) : bool := match l with [] => false | _ => true end.

(** rule.rs:46-58 [apply]. *)
Definition apply (m : matcher) (els : list id) (use_cache : option bool) : res (list id) :=
  match mt_all m with
  | Some handle => handle els use_cache
  | None =>
      match mt_one m with
      | Some handle => rfilter handle els
      | None => Panic
      end
  end.
(** rule.rs:61-63 [get_all_handle]. *)
Definition get_all_handle (m : matcher) : res (list id -> option bool -> res (list id)) :=
  match mt_all m with Some handle => Ok handle | None => Panic end.

Section Engine.
  Variable h : heap.

  (** * Depth-first searches, elements.rs:597-709.  Recursion is bounded by the number of nodes. *)
  (** elements.rs:603-616 *)
  Fixpoint dfs_one (fuel : nat) (g : id -> res bool) (x : id) : res (list id) :=
    match fuel with
    | 0 => OutOfFuel
    | S f =>
        rflat (fun c =>
                 do b <- g c;
                 do sub <- (if 0 <? child_nodes_length h c then dfs_one f g c else Ok []);
                 Ok ((if b then [c] else []) ++ sub)) (children h x)
    end.
  (** elements.rs:634-650 *)
  Fixpoint dfs_spec (fuel : nat) (g : id -> res (list (id * bool * bool))) (x : id) : res (list id) :=
    match fuel with
    | 0 => OutOfFuel
    | S f =>
        do calls <- g x;
        rflat (fun e =>
                 let '(c, is_matched, loop_child) := e in
                 do sub <- (if loop_child && (0 <? child_nodes_length h c) then dfs_spec f g c else Ok []);
                 Ok ((if is_matched : bool then [c] else []) ++ sub)) calls
    end.
  (** elements.rs:669-692: [matched] are the matched children not yet passed. *)
  Fixpoint dfs_all (fuel : nat) (g : list id -> option bool -> res (list id)) (x : id) : res (list id) :=
    match fuel with
    | 0 => OutOfFuel
    | S f =>
        let cs := children h x in
        if nonempty cs then
          do matched <- g cs (Some false);
          (fix walk (cs matched : list id) : res (list id) :=
             match cs with
             | [] => Ok []
             | c :: cs' =>
                 let hit := match matched with m :: _ => Nat.eqb c m | [] => false end in
                 do sub <- (if 0 <? child_nodes_length h c then dfs_all f g c else Ok []);
                 do rest <- walk cs' (if hit then tl matched else matched);
                 Ok ((if hit then [c] else []) ++ sub ++ rest)
             end) cs matched
        else Ok []
    end.
  Definition dfs_fuel : nat := S (length h).
  Definition dfs (m : matcher) (x : id) : res (list id) :=
    match mt_one m with
    | Some g => dfs_one dfs_fuel g x
    | None =>
        match mt_spec m with
        | Some g => dfs_spec dfs_fuel g x
        | None => do g <- get_all_handle m; dfs_all dfs_fuel g x
        end
    end.

  (** elements.rs:619-628, 653-664, 695-706 *)
  Definition search_starts (els : list id) : res (list id) :=
    if 1 <? length els then unique_parents h els else Ok els.

  (** elements.rs:775-789, 799-808: the ancestors below the root, outermost first. *)
  Fixpoint ancestors (fuel : nat) (x : id) : res (list id) :=
    match fuel with
    | 0 => OutOfFuel
    | S f =>
        match parent h x with
        | Some p => if is_root h p then Ok [] else do l <- ancestors f p; Ok (l ++ [p])
        | None => Ok []
        end
    end.
  (** elements.rs:749-755, 758-764: the parent unless it is the root. *)
  Definition parent_el (x : id) : list id :=
    match parent h x with
    | Some p => if is_root h p then [] else [p]
    | None => []
    end.
  Definition opt_list {A} (o : option A) : list A := match o with Some x => [x] | None => [] end.

  (** elements.rs:587-910 [select_by_rule] with its combinator resolved (line 593). *)
  Definition select_by_rule (els : list id) (m : matcher) (c : comb) : res (list id) :=
    match c with
    | ChildrenAll =>
        do starts <- search_starts els;
        rflat (dfs m) starts
    | Children =>
        match mt_one m with
        | Some g => rflat (fun x => rfilter g (children h x)) els
        | None =>
            match mt_spec m with
            | Some g =>
                rflat (fun x =>
                         do calls <- g x;
                         Ok (flat_map (fun e => let '(c, b, _) := e in if b : bool then [c] else []) calls)) els
            | None =>
                do g <- get_all_handle m;
                rflat (fun x => g (children h x) (Some false)) els
            end
        end
    | Parent =>
        do us <- unique_sibling_first h els;
        let ps := flat_map parent_el us in
        match mt_one m with
        | Some g => rfilter g ps
        | None => do g <- get_all_handle m; g ps None
        end
    | ParentAll =>
        match mt_one m with
        | Some g =>
            do l <- rflat (fun x => do a <- ancestors dfs_fuel x; rfilter g a) els;
            sort_and_unique h l
        | None =>
            do l <- rflat (ancestors dfs_fuel) els;
            do l' <- sort_and_unique h l;
            do g <- get_all_handle m;
            g l' None
        end
    | NextAll =>
        do us <- unique_sibling_first h els;
        rflat (fun x => do ns <- next_element_siblings h x; apply m ns None) us
    | Next =>
        let ns := flat_map (fun x => opt_list (next_element_sibling h x)) els in
        match mt_one m with
        | Some g => rfilter g ns
        | None => apply m ns None
        end
    | PrevAll =>
        do us <- unique_sibling_last h els;
        rflat (fun x => do ps <- previous_element_siblings h x; apply m ps None) us
    | Prev =>
        do ps <- rflat (fun x => do p <- previous_element_sibling h x; Ok (opt_list p)) els;
        match mt_one m with
        | Some g => rfilter g ps
        | None => apply m ps None
        end
    | Siblings =>
        do us <- unique_all_siblings h els;
        rflat (fun e => let '(x, is_parent) := e in
                        do sibs <- (if is_parent : bool then Ok (children h x) else siblings h x);
                        apply m sibs None) us
    | Chain => apply m els None
    end.

  (** elements.rs:940-947, 1847-1854: the remaining rules of a compound, stopping when nothing is left. *)
  Fixpoint chain_rest (els : list id) (rules : list segment) : res (list id) :=
    match rules with
    | [] => Ok els
    | (m, c) :: rules' =>
        if nonempty els then do els' <- select_by_rule els m c; chain_rest els' rules' else Ok els
    end.

  (** elements.rs:1905-1923: [has_ele] with [ParentAll]: is the parent, grandparent, ... in the set. *)
  Fixpoint has_above (fuel : nat) (set : list id) (x : id) : res bool :=
    match fuel with
    | 0 => OutOfFuel
    | S f =>
        match parent h x with
        | Some p =>
            if includes set p then Ok true
            else match parent h p with
                 | Some a => if includes set a then Ok true else has_above f set a
                 | None => Ok false
                 end
        | None => Ok false
        end
    end.
  (** elements.rs:1895-1952: the last step of [has_ele]. *)
  Definition has_final (set els : list id) (c : comb) : res bool :=
    match c with
    | Parent => Ok (existsb (fun x => match parent h x with Some p => includes set p | None => false end) els)
    | ParentAll => rexists (has_above dfs_fuel set) els
    | Prev => rexists (fun x => do p <- previous_element_sibling h x; Ok (existsb (includes set) (opt_list p))) els
    | PrevAll => rexists (fun x => do ps <- previous_element_siblings h x; Ok (existsb (includes set) ps)) els
    | Chain => Ok (existsb (includes set) els)
    | _ => Panic
    end.
  (** [has_ele] without lookup. *)
  Definition has_plain (set : list id) (x : id) (c : comb) : res bool :=
    do rc <- comb_reverse c; has_final set [x] rc.

  (** elements.rs:1820-1856 [select] with its combinator resolved. *)
  Definition select (els : list id) (rules : compound) (c : option comb) : res (list id) :=
    do first <- rnth rules 0;
    let '(m, c1) := first in
    let c := match c with Some c => c | None => c1 end in
    do l <- (if mt_cache m && comb_eqb c ChildrenAll then
               do cached <- apply m els (Some true);
               if nonempty cached then
                 do kept <- rfilter (fun x => has_plain els x c) cached;
                 sort_and_unique h kept
               else Ok []
             else select_by_rule els m c);
    chain_rest l (tl rules).

  (** elements.rs:1876-1955 [has_ele] with a lookup. *)
  Fixpoint has_lookup (els : list id) (c : comb) (lookup_rev : cgroup) : res (option (list id * comb)) :=
    match lookup_rev with
    | [] => Ok (Some (els, c))
    | rules :: rest =>
        do finded <- select els rules (Some c);
        if nonempty finded then
          do first <- rnth rules 0;
          do c' <- comb_reverse (snd first);
          has_lookup finded c' rest
        else Ok None
    end.
  Definition has_ele (set : list id) (x : id) (c : comb) (lookup : cgroup) : res bool :=
    do rc <- comb_reverse c;
    do r <- has_lookup [x] rc (rev lookup);
    match r with
    | None => Ok false
    | Some (els, rc') => has_final set els rc'
    end.

  (** elements.rs:1801-1809: the remaining compounds; [None] when some step found nothing. *)
  Fixpoint query_rest (group : list id) (q : cgroup) : res (option (list id)) :=
    match q with
    | [] => Ok (Some group)
    | rules :: q' =>
        do g <- select group rules None;
        if nonempty g then query_rest g q' else Ok None
    end.
  (** elements.rs:1780-1798: one process up to its first compound. *)
  Definition find_first (els : list id) (p : process) : res (list id) :=
    do first_query <- rnth (query p) 0;
    match should_in p with
    | Some lookup =>
        do finded <- select els first_query (Some ChildrenAll);
        if nonempty finded then
          do first <- rnth first_query 0;
          rfilter (fun x => has_ele els x (snd first) lookup) finded
        else Ok []
    | None => select els first_query None
    end.
  (** elements.rs:1779-1815: what one process contributes. *)
  Definition find_process (els : list id) (p : process) : res (list id) :=
    do group <- find_first els p;
    if nonempty group then
      do r <- query_rest group (tl (query p));
      Ok (match r with Some l => l | None => [] end)
    else Ok [].
  (** elements.rs:1776-1817 [find_selector]. *)
  Definition find_selector (els : list id) (s : selector) : res (list id) :=
    if nonempty els then
      rfold (fun result p =>
               do group <- find_process els p;
               if nonempty group then add h result group else Ok result) s []
    else Ok [].

  (** * filter, is, is_all, not: elements.rs:919-1004 [filter_type_handle] *)
  Inductive filter_type := FFilter | FNot | FIs | FIsAll.

  (** elements.rs:930-969, the loop body; [root] is the root chosen by an earlier process (lines 950-956). *)
  Definition filter_process (els : list id) (root : option id) (p : process) : res (list id * option id) :=
    let q := query p in
    match rev q with
    | [] => Ok ([], root)
    | last_query :: before_rev =>
        do first <- rnth last_query 0;
        do f0 <- select_by_rule els (fst first) Chain;
        do filtered <- chain_rest f0 (tl last_query);
        match filtered, before_rev with
        | x :: _, _ :: _ =>
            let rt := match root with
                      | Some r => r
                      | None => match owner_document h x with Some d => d | None => x end
                      end in
            do lasts <- rfilter (fun y => has_ele [rt] y (snd first) (rev before_rev)) filtered;
            Ok (lasts, Some rt)
        | _, _ => Ok (filtered, root)
        end
    end.
  Fixpoint filter_loop (els : list id) (is_mode : bool) (root : option id) (result : list id) (s : selector) :
    res (list id * bool) :=
    match s with
    | [] => Ok (result, false)
    | p :: s' =>
        do r <- filter_process els root p;
        let '(filtered, root') := r in
        if nonempty filtered then
          if is_mode then Ok (result, true)
          else do result' <- add h result filtered; filter_loop els is_mode root' result' s'
        else filter_loop els is_mode root' result s'
    end.
  Definition filter_type_handle (els : list id) (s : selector) (t : filter_type) : res (list id * bool) :=
    do r <- filter_loop els (match t with FIs => true | _ => false end) None [] s;
    let '(result, matched) := r in
    Ok (match t with
        | FIsAll => (result, Nat.eqb (length result) (length els))
        | FNot => (if nonempty result then not_in els result else els, matched)
        | _ => (result, matched)
        end).

  (** elements.rs:1136-1140, 1987-1991, 2109-2113, 2234-2238 on a parsed selector (trigger_method, 110-124: an
      empty set gives the default value without looking at the selector). *)
  Definition filter_sel (els : list id) (s : selector) : res (list id) :=
    if nonempty els then do r <- filter_type_handle els s FFilter; Ok (fst r) else Ok [].
  Definition is_sel (els : list id) (s : selector) : res bool :=
    if nonempty els then do r <- filter_type_handle els s FIs; Ok (snd r) else Ok false.
  Definition is_all_sel (els : list id) (s : selector) : res bool :=
    if nonempty els then do r <- filter_type_handle els s FIsAll; Ok (snd r) else Ok false.
  Definition not_sel (els : list id) (s : selector) : res (list id) :=
    if nonempty els then do r <- filter_type_handle els s FNot; Ok (fst r) else Ok [].

  (** elements.rs:2349-2363 [has]: some descendant matches. *)
  Fixpoint has_loop (fuel : nat) (s : selector) (x : id) : res bool :=
    match fuel with
    | 0 => OutOfFuel
    | S f =>
        let cs := children h x in
        if nonempty cs then
          do r <- filter_type_handle cs s FIs;
          if snd r then Ok true else rexists (has_loop f s) cs
        else Ok false
    end.
  Definition has_sel (els : list id) (s : selector) : res (list id) := rfilter (has_loop dfs_fuel s) els.
  (** elements.rs:2400-2416 [has_in]; [filter_in_handle] with [Is] (1017-1024) tests the intersection. *)
  Fixpoint has_in_loop (fuel : nat) (search : list id) (x : id) : res bool :=
    match fuel with
    | 0 => OutOfFuel
    | S f =>
        let cs := children h x in
        if nonempty cs then
          if is_in cs search then Ok true else rexists (has_in_loop f search) cs
        else Ok false
    end.
  Definition has_in (els search : list id) : res (list id) := rfilter (has_in_loop dfs_fuel search) els.

  (** * Compiled selectors with a given first combinator *)
  (** rules/all.rs:5-17: [*]. *)
  Definition all_matcher : matcher := mkMatcher (Some (fun els _ => Ok els)) None None 0%N false.
  (** mod.rs:290-304, 306-314 *)
  Definition make_comb_all (c : comb) : segment := (all_matcher, c).
  Definition from_segment (s : segment) : selector := [mkProcess None [[s]]].
  (** mod.rs:270-288 [head_combinator] on a group. *)
  Definition head_group (c : comb) (g : cgroup) : cgroup :=
    match g with
    | [] => []
    | [] :: _ => g    (* rule[0] panics; compounds are never empty *)
    | ((m, c0) :: rules) :: rest =>
        if comb_eqb c0 ChildrenAll then ((m, c) :: rules) :: rest else [make_comb_all c] :: g
    end.
  Definition head_combinator (c : comb) (s : selector) : selector :=
    map (fun p => match should_in p with
                  | Some g => mkProcess (Some (head_group c g)) (query p)
                  | None => mkProcess None (head_group c (query p))
                  end) s.

  (** elements.rs:502-513 [select_with_comb]; [None] is the empty selector text. *)
  Definition select_with_comb (els : list id) (s : option selector) (c : comb) : res (list id) :=
    match s with
    | None => find_selector els (from_segment (make_comb_all c))
    | Some s => if nonempty els then find_selector els (head_combinator c s) else Ok []
    end.
  (** elements.rs:1261, 1294, 1408 *)
  Definition el_children els s := select_with_comb els s Children.
  Definition el_prev els s := select_with_comb els s Prev.
  Definition el_next els s := select_with_comb els s Next.
  (** elements.rs:1329-1332, 1442-1446 *)
  Definition el_prev_all els s := do us <- unique_sibling_last h els; select_with_comb us s PrevAll.
  Definition el_next_all els s := do us <- unique_sibling_first h els; select_with_comb us s NextAll.
  (** elements.rs:1598-1602 *)
  Definition el_parent els s := do us <- unique_sibling_first h els; select_with_comb us s Parent.
  (** elements.rs:1635-1641 *)
  Definition el_parents els s :=
    do us <- unique_sibling_first h els;
    do l <- select_with_comb us s ParentAll;
    sort_and_unique h l.

  (** elements.rs:1515-1566 [siblings] on a parsed selector (the parser runs on the same text twice). *)
  Definition el_siblings (els : list id) (s : option selector) : res (list id) :=
    do us <- unique_all_siblings h els;
    let sib := match s with Some s => head_combinator Siblings s | None => from_segment (make_comb_all Siblings) end in
    let chi := match s with Some s => head_combinator Children s | None => from_segment (make_comb_all Children) end in
    do l <- rflat (fun e => let '(x, is_parent) := e in
                            find_selector [x] (if is_parent : bool then chi else sib)) us;
    sort h l.

  (** elements.rs:1719-1774 [closest] on a parsed selector. *)
  Fixpoint closest_loop (fuel : nat) (s : selector) (x : id) : res (list id) :=
    match fuel with
    | 0 => OutOfFuel
    | S f =>
        do r <- filter_type_handle [x] s FIs;
        if snd r then Ok [x]
        else match parent h x with
             | Some p => if is_root h p then Ok [] else closest_loop f s p
             | None => Ok []
             end
    end.
  Definition el_closest (els : list id) (s : selector) : res (list id) :=
    do selfs <- rfilter (fun x => do r <- filter_type_handle [x] s FIs; Ok (snd r)) els;
    do others <- rfilter (fun x => do r <- filter_type_handle [x] s FIs; Ok (negb (snd r))) els;
    if nonempty others then
      do us <- unique_sibling_first h others;
      do ups <- rflat (closest_loop dfs_fuel s) us;
      sort_and_unique h (selfs ++ ups)
    else Ok selfs.

  (** elements.rs:515-584 [select_with_comb_until]: the walk from one element; [step] is the single-step search
      with the combinator (lines 526-527, 546). *)
  Fixpoint until_loop (fuel : nat) (c : comb) (s : selector) (flt : option selector) (contains : bool) (cur : list id) :
    res (list id) :=
    match fuel with
    | 0 => OutOfFuel
    | S f =>
        do next <- find_selector cur (from_segment (make_comb_all c));
        match next with
        | [] => Ok []
        | y :: _ =>
            do m <- filter_type_handle next s FIs;
            let meet := snd m in
            if meet && negb contains then Ok []
            else
              do add_it <- (match flt with
                            | Some fs => do r <- filter_type_handle next fs FIs; Ok (snd r)
                            | None => Ok true
                            end);
              do rest <- (if meet then Ok [] else until_loop f c s flt contains next);
              Ok ((if add_it : bool then [y] else []) ++ rest)
        end
    end.
  Definition select_until (els : list id) (s : selector) (flt : option selector) (contains : bool) (c : comb) :
    res (list id) :=
    rflat (fun x => until_loop dfs_fuel c s flt contains [x]) els.
  (** elements.rs:1479-1481 *)
  Definition el_next_until els s flt contains :=
    do us <- unique_sibling_first h els; select_until us s flt contains Next.
  (** elements.rs:1367-1377 *)
  Definition el_prev_until els s flt contains :=
    do us <- unique_sibling_last h els;
    do l <- select_until us s flt contains Prev;
    Ok (rev l).
  (** elements.rs:1673-1687 *)
  Definition el_parents_until els s flt contains :=
    do us <- unique_sibling_first h els;
    do l <- select_until us s flt contains Parent;
    sort_and_unique h l.
End Engine.

(** * Compiling a parsed group: selector/mod.rs:220-268 [optimize]. *)
(** line 230: stable sort by descending priority. *)
Fixpoint insert_prio (s : segment) (l : compound) : compound :=
  match l with
  | [] => [s]
  | s' :: l' => if (mt_prio (fst s') <=? mt_prio (fst s))%N then s :: l else s' :: insert_prio s l'
  end.
Definition sort_prio (l : compound) : compound := fold_right insert_prio [] l.
(** lines 228-240; after the sort the compound's combinator is on its first rule, the others are [Chain]. *)
Definition optimize_compound (r : compound) : compound :=
  match r with
  | (_, chain_comb) :: _ :: _ =>
      match sort_prio r with
      | [] => []
      | (m, c) :: rest =>
          if comb_eqb c chain_comb then (m, c) :: rest
          else (m, chain_comb) :: map (fun s => (fst s, Chain)) rest
      end
  | _ => r
  end.
(** line 242 *)
Definition total_prio (r : compound) : N := fold_right (fun s acc => (mt_prio (fst s) + acc)%N) 0%N r.
(** lines 241-247: the first index with the greatest total, when greater than 0. *)
Fixpoint max_index_from (g : cgroup) (i : nat) (best : nat * N) : nat * N :=
  match g with
  | [] => best
  | r :: g' => max_index_from g' (S i) (if (snd best <? total_prio r)%N then (i, total_prio r) else best)
  end.
Definition optimize_group (use_lookup : bool) (g : cgroup) : process :=
  let g := map optimize_compound g in
  let mi := fst (max_index_from g 0 (0, 0%N)) in
  let is_child := match g with
                  | ((_, Children) :: _) :: _ | ((_, ChildrenAll) :: _) :: _ => true
                  | _ => false
                  end in
  if use_lookup && (0 <? mi) && is_child
  then mkProcess (Some (firstn mi g)) (skipn mi g)
  else mkProcess None g.
Definition optimize (use_lookup : bool) (gs : list cgroup) : selector := map (optimize_group use_lookup) gs.
