(** The engine once more, now with the reports of texts nested in [:not] and [:has].  Such a text is parsed each time its
    rule is applied (rules/pseudo.rs:835-853, 898-916: [eles.not(&selector)], [eles.has(&selector)]), through
    [trigger_method] (elements.rs:110-137): a text that is no selector is reported to the document of the first element
    the rule is applied to.  The handlers do not influence the search, so the definitions follow Engine.v, Rules.v,
    Traverse.v and Query.v line by line (the same lines of the source are modelled) and collect the reports in the order in
    which they are made.  A panic ends the call; reports made before it are not kept. *)
From Verif Require Import Base Attr Dom Order Sets Mutate Engine Rules Regex Parse Traverse Query.

(** A value and the documents whose handler was called on the way. *)
Definition wres (A : Type) : Type := res (A * errors).
Definition silent {A} (r : res A) : wres A := do a <- r; Ok (a, []).
Definition wbind {A B} (x : wres A) (f : A -> wres B) : wres B :=
  do p <- x; do q <- f (fst p); Ok (fst q, snd p ++ snd q).
Notation "'say' x <- e ; f" := (wbind e (fun x => f))
  (at level 200, x pattern, e at level 100, f at level 200, right associativity) : res_scope.
(** The loops of Base.v and Engine.v. *)
Fixpoint wflat {A B} (f : A -> wres (list B)) (l : list A) : wres (list B) :=
  match l with
  | [] => Ok ([], [])
  | x :: l' => say a <- f x; say b <- wflat f l'; Ok (a ++ b, [])
  end.
Fixpoint wfilter {A} (f : A -> wres bool) (l : list A) : wres (list A) :=
  match l with
  | [] => Ok ([], [])
  | x :: l' => say b <- f x; say ys <- wfilter f l'; Ok (if b : bool then x :: ys else ys, [])
  end.
Fixpoint wexists {A} (f : A -> wres bool) (l : list A) : wres bool :=
  match l with
  | [] => Ok (false, [])
  | x :: l' => say b <- f x; if b : bool then Ok (true, []) else wexists f l'
  end.
Fixpoint wfold {A B} (f : B -> A -> wres B) (l : list A) (acc : B) : wres B :=
  match l with
  | [] => Ok (acc, [])
  | x :: l' => say acc' <- f acc x; wfold f l' acc'
  end.

(** A matcher (selector/rule.rs:22-28) and the reports made by one call of its handle for a whole set; the handles for
    one element never report. *)
Definition rmatcher := (matcher * (list id -> option bool -> errors))%type.
Definition rsegment := (rmatcher * comb)%type.
Definition rcompound := list rsegment.
Definition rgroup := list rcompound.
Record rprocess := mkRProcess { r_in : option rgroup; r_query : rgroup }.
Definition rselector := list rprocess.
(** A call of the handle for a whole set. *)
Definition with_reports (m : rmatcher) (g : list id -> option bool -> res (list id)) (els : list id) (use_cache : option bool) : wres (list id) :=
  do l <- g els use_cache; Ok (l, snd m els use_cache).
(** rule.rs:46-58 *)
Definition wapply (m : rmatcher) (els : list id) (use_cache : option bool) : wres (list id) :=
  do l <- apply (fst m) els use_cache; Ok (l, snd m els use_cache).

Section Engine.
  Variable h : heap.

  (** elements.rs:669-692 *)
  Fixpoint wdfs_all (fuel : nat) (g : list id -> option bool -> wres (list id)) (x : id) : wres (list id) :=
    match fuel with
    | 0 => OutOfFuel
    | S f =>
        let cs := children h x in
        if nonempty cs then
          say matched <- g cs (Some false);
          (fix walk (cs matched : list id) : wres (list id) :=
             match cs with
             | [] => Ok ([], [])
             | c :: cs' =>
                 let hit := match matched with m :: _ => Nat.eqb c m | [] => false end in
                 say sub <- (if 0 <? child_nodes_length h c then wdfs_all f g c else Ok ([], []));
                 say rest <- walk cs' (if hit then tl matched else matched);
                 Ok ((if hit then [c] else []) ++ sub ++ rest, [])
             end) cs matched
        else Ok ([], [])
    end.
  (** elements.rs:597-709 *)
  Definition wdfs (m : rmatcher) (x : id) : wres (list id) :=
    match mt_one (fst m) with
    | Some g => silent (dfs_one h (dfs_fuel h) g x)
    | None =>
        match mt_spec (fst m) with
        | Some g => silent (dfs_spec h (dfs_fuel h) g x)
        | None => do g <- get_all_handle (fst m); wdfs_all (dfs_fuel h) (with_reports m g) x
        end
    end.

  (** elements.rs:587-910 *)
  Definition wselect_by_rule (els : list id) (m : rmatcher) (c : comb) : wres (list id) :=
    match c with
    | ChildrenAll =>
        do starts <- search_starts h els;
        wflat (wdfs m) starts
    | Children =>
        match mt_one (fst m) with
        | Some g => silent (rflat (fun x => rfilter g (children h x)) els)
        | None =>
            match mt_spec (fst m) with
            | Some g =>
                silent (rflat (fun x =>
                         do calls <- g x;
                         Ok (flat_map (fun e => let '(c, b, _) := e in if b : bool then [c] else []) calls)) els)
            | None =>
                do g <- get_all_handle (fst m);
                wflat (fun x => with_reports m g (children h x) (Some false)) els
            end
        end
    | Parent =>
        do us <- unique_sibling_first h els;
        let ps := flat_map (parent_el h) us in
        match mt_one (fst m) with
        | Some g => silent (rfilter g ps)
        | None => do g <- get_all_handle (fst m); with_reports m g ps None
        end
    | ParentAll =>
        match mt_one (fst m) with
        | Some g =>
            silent (do l <- rflat (fun x => do a <- ancestors h (dfs_fuel h) x; rfilter g a) els;
                    sort_and_unique h l)
        | None =>
            do l <- rflat (ancestors h (dfs_fuel h)) els;
            do l' <- sort_and_unique h l;
            do g <- get_all_handle (fst m);
            with_reports m g l' None
        end
    | NextAll =>
        do us <- unique_sibling_first h els;
        wflat (fun x => do ns <- next_element_siblings h x; wapply m ns None) us
    | Next =>
        let ns := flat_map (fun x => opt_list (next_element_sibling h x)) els in
        match mt_one (fst m) with
        | Some g => silent (rfilter g ns)
        | None => wapply m ns None
        end
    | PrevAll =>
        do us <- unique_sibling_last h els;
        wflat (fun x => do ps <- previous_element_siblings h x; wapply m ps None) us
    | Prev =>
        do ps <- rflat (fun x => do p <- previous_element_sibling h x; Ok (opt_list p)) els;
        match mt_one (fst m) with
        | Some g => silent (rfilter g ps)
        | None => wapply m ps None
        end
    | Siblings =>
        do us <- unique_all_siblings h els;
        wflat (fun e => let '(x, is_parent) := e in
                        do sibs <- (if is_parent : bool then Ok (children h x) else siblings h x);
                        wapply m sibs None) us
    | Chain => wapply m els None
    end.

  (** elements.rs:940-947, 1847-1854 *)
  Fixpoint wchain_rest (els : list id) (rules : list rsegment) : wres (list id) :=
    match rules with
    | [] => Ok (els, [])
    | (m, c) :: rules' =>
        if nonempty els then say els' <- wselect_by_rule els m c; wchain_rest els' rules' else Ok (els, [])
    end.

  (** elements.rs:1820-1856 *)
  Definition wselect (els : list id) (rules : rcompound) (c : option comb) : wres (list id) :=
    do first <- rnth rules 0;
    let '(m, c1) := first in
    let c := match c with Some c => c | None => c1 end in
    say l <- (if mt_cache (fst m) && comb_eqb c ChildrenAll then
                say cached <- wapply m els (Some true);
                if nonempty cached then
                  silent (do kept <- rfilter (fun x => has_plain h els x c) cached;
                          sort_and_unique h kept)
                else Ok ([], [])
              else wselect_by_rule els m c);
    wchain_rest l (tl rules).

  (** elements.rs:1876-1955 *)
  Fixpoint whas_lookup (els : list id) (c : comb) (lookup_rev : rgroup) : wres (option (list id * comb)) :=
    match lookup_rev with
    | [] => Ok (Some (els, c), [])
    | rules :: rest =>
        say finded <- wselect els rules (Some c);
        if nonempty finded then
          do first <- rnth rules 0;
          do c' <- comb_reverse (snd first);
          whas_lookup finded c' rest
        else Ok (None, [])
    end.
  Definition whas_ele (set : list id) (x : id) (c : comb) (lookup : rgroup) : wres bool :=
    do rc <- comb_reverse c;
    say r <- whas_lookup [x] rc (rev lookup);
    match r with
    | None => Ok (false, [])
    | Some (els, rc') => silent (has_final h set els rc')
    end.

  (** elements.rs:1801-1809 *)
  Fixpoint wquery_rest (group : list id) (q : rgroup) : wres (option (list id)) :=
    match q with
    | [] => Ok (Some group, [])
    | rules :: q' =>
        say g <- wselect group rules None;
        if nonempty g then wquery_rest g q' else Ok (None, [])
    end.
  (** elements.rs:1780-1798 *)
  Definition wfind_first (els : list id) (p : rprocess) : wres (list id) :=
    do first_query <- rnth (r_query p) 0;
    match r_in p with
    | Some lookup =>
        say finded <- wselect els first_query (Some ChildrenAll);
        if nonempty finded then
          do first <- rnth first_query 0;
          wfilter (fun x => whas_ele els x (snd first) lookup) finded
        else Ok ([], [])
    | None => wselect els first_query None
    end.
  (** elements.rs:1779-1815 *)
  Definition wfind_process (els : list id) (p : rprocess) : wres (list id) :=
    say group <- wfind_first els p;
    if nonempty group then
      say r <- wquery_rest group (tl (r_query p));
      Ok (match r with Some l => l | None => [] end, [])
    else Ok ([], []).
  (** elements.rs:1776-1817 *)
  Definition wfind_selector (els : list id) (s : rselector) : wres (list id) :=
    if nonempty els then
      wfold (fun result p =>
               say group <- wfind_process els p;
               silent (if nonempty group then add h result group else Ok result)) s []
    else Ok ([], []).

  (** elements.rs:930-969 *)
  Definition wfilter_process (els : list id) (root : option id) (p : rprocess) : wres (list id * option id) :=
    let q := r_query p in
    match rev q with
    | [] => Ok (([], root), [])
    | last_query :: before_rev =>
        do first <- rnth last_query 0;
        say f0 <- wselect_by_rule els (fst first) Chain;
        say filtered <- wchain_rest f0 (tl last_query);
        match filtered, before_rev with
        | x :: _, _ :: _ =>
            let rt := match root with
                      | Some r => r
                      | None => match owner_document h x with Some d => d | None => x end
                      end in
            say lasts <- wfilter (fun y => whas_ele [rt] y (snd first) (rev before_rev)) filtered;
            Ok ((lasts, Some rt), [])
        | _, _ => Ok ((filtered, root), [])
        end
    end.
  Fixpoint wfilter_loop (els : list id) (is_mode : bool) (root : option id) (result : list id) (s : rselector) :
    wres (list id * bool) :=
    match s with
    | [] => Ok ((result, false), [])
    | p :: s' =>
        say r <- wfilter_process els root p;
        let '(filtered, root') := r in
        if nonempty filtered then
          if is_mode then Ok ((result, true), [])
          else do result' <- add h result filtered; wfilter_loop els is_mode root' result' s'
        else wfilter_loop els is_mode root' result s'
    end.
  (** elements.rs:919-1004 *)
  Definition wfilter_type_handle (els : list id) (s : rselector) (t : filter_type) : wres (list id * bool) :=
    say r <- wfilter_loop els (match t with FIs => true | _ => false end) None [] s;
    let '(result, matched) := r in
    Ok (match t with
        | FIsAll => (result, Nat.eqb (length result) (length els))
        | FNot => (if nonempty result then not_in els result else els, matched)
        | _ => (result, matched)
        end, []).

  (** elements.rs:1136-1140, 1987-1991, 2109-2113, 2234-2238 on a parsed selector *)
  Definition wfilter_sel (els : list id) (s : rselector) : wres (list id) :=
    if nonempty els then say r <- wfilter_type_handle els s FFilter; Ok (fst r, []) else Ok ([], []).
  Definition wis_sel (els : list id) (s : rselector) : wres bool :=
    if nonempty els then say r <- wfilter_type_handle els s FIs; Ok (snd r, []) else Ok (false, []).
  Definition wis_all_sel (els : list id) (s : rselector) : wres bool :=
    if nonempty els then say r <- wfilter_type_handle els s FIsAll; Ok (snd r, []) else Ok (false, []).
  Definition wnot_sel (els : list id) (s : rselector) : wres (list id) :=
    if nonempty els then say r <- wfilter_type_handle els s FNot; Ok (fst r, []) else Ok ([], []).

  (** elements.rs:2349-2363 *)
  Fixpoint whas_loop (fuel : nat) (s : rselector) (x : id) : wres bool :=
    match fuel with
    | 0 => OutOfFuel
    | S f =>
        let cs := children h x in
        if nonempty cs then
          say r <- wfilter_type_handle cs s FIs;
          if snd r then Ok (true, []) else wexists (whas_loop f s) cs
        else Ok (false, [])
    end.
  Definition whas_sel (els : list id) (s : rselector) : wres (list id) := wfilter (whas_loop (dfs_fuel h) s) els.

  (** rules/all.rs:5-17, mod.rs:290-304, 306-314, 270-288 *)
  Definition rall : rmatcher := (all_matcher, fun _ _ => []).
  Definition rmake_comb_all (c : comb) : rsegment := (rall, c).
  Definition rfrom_segment (s : rsegment) : rselector := [mkRProcess None [[s]]].
  Definition rhead_group (c : comb) (g : rgroup) : rgroup :=
    match g with
    | [] => []
    | [] :: _ => g
    | ((m, c0) :: rules) :: rest =>
        if comb_eqb c0 ChildrenAll then ((m, c) :: rules) :: rest else [rmake_comb_all c] :: g
    end.
  Definition rhead_combinator (c : comb) (s : rselector) : rselector :=
    map (fun p => match r_in p with
                  | Some g => mkRProcess (Some (rhead_group c g)) (r_query p)
                  | None => mkRProcess None (rhead_group c (r_query p))
                  end) s.

  (** elements.rs:502-513 *)
  Definition wselect_with_comb (els : list id) (s : option rselector) (c : comb) : wres (list id) :=
    match s with
    | None => wfind_selector els (rfrom_segment (rmake_comb_all c))
    | Some s => if nonempty els then wfind_selector els (rhead_combinator c s) else Ok ([], [])
    end.
  (** elements.rs:1515-1566 *)
  Definition wsiblings (els : list id) (s : option rselector) : wres (list id) :=
    do us <- unique_all_siblings h els;
    let sib := match s with Some s => rhead_combinator Siblings s | None => rfrom_segment (rmake_comb_all Siblings) end in
    let chi := match s with Some s => rhead_combinator Children s | None => rfrom_segment (rmake_comb_all Children) end in
    say l <- wflat (fun e => let '(x, is_parent) := e in
                             wfind_selector [x] (if is_parent : bool then chi else sib)) us;
    silent (sort h l).

  (** elements.rs:1729-1741: the elements that match and the others, each asked once. *)
  Fixpoint wclosest_split (s : rselector) (els : list id) : wres (list id * list id) :=
    match els with
    | [] => Ok (([], []), [])
    | x :: els' =>
        say r <- wfilter_type_handle [x] s FIs;
        say rest <- wclosest_split s els';
        Ok (if snd r then (x :: fst rest, snd rest) else (fst rest, x :: snd rest), [])
    end.
  (** elements.rs:1745-1764 *)
  Fixpoint wclosest_loop (fuel : nat) (s : rselector) (x : id) : wres (list id) :=
    match fuel with
    | 0 => OutOfFuel
    | S f =>
        say r <- wfilter_type_handle [x] s FIs;
        if snd r then Ok ([x], [])
        else match parent h x with
             | Some p => if is_root h p then Ok ([], []) else wclosest_loop f s p
             | None => Ok ([], [])
             end
    end.
  Definition wclosest (els : list id) (s : rselector) : wres (list id) :=
    say both <- wclosest_split s els;
    if nonempty (snd both) then
      do us <- unique_sibling_first h (snd both);
      say ups <- wflat (wclosest_loop (dfs_fuel h) s) us;
      silent (sort_and_unique h (fst both ++ ups))
    else Ok (fst both, []).

  (** elements.rs:515-584 *)
  Fixpoint wuntil_loop (fuel : nat) (c : comb) (s : rselector) (flt : option rselector) (contains : bool) (cur : list id) :
    wres (list id) :=
    match fuel with
    | 0 => OutOfFuel
    | S f =>
        say next <- wfind_selector cur (rfrom_segment (rmake_comb_all c));
        match next with
        | [] => Ok ([], [])
        | y :: _ =>
            say m <- wfilter_type_handle next s FIs;
            let meet := snd m in
            if meet && negb contains then Ok ([], [])
            else
              say add_it <- (match flt with
                             | Some fs => say r <- wfilter_type_handle next fs FIs; Ok (snd r, [])
                             | None => Ok (true, [])
                             end);
              say rest <- (if meet then Ok ([], []) else wuntil_loop f c s flt contains next);
              Ok ((if add_it : bool then [y] else []) ++ rest, [])
        end
    end.
  Definition wselect_until (els : list id) (s : rselector) (flt : option rselector) (contains : bool) (c : comb) : wres (list id) :=
    wflat (fun x => wuntil_loop (dfs_fuel h) c s flt contains [x]) els.
End Engine.

(** selector/mod.rs:220-268 [optimize] *)
Definition rprio (s : rsegment) : N := mt_prio (fst (fst s)).
Fixpoint rinsert_prio (s : rsegment) (l : rcompound) : rcompound :=
  match l with
  | [] => [s]
  | s' :: l' => if (rprio s' <=? rprio s)%N then s :: l else s' :: rinsert_prio s l'
  end.
Definition rsort_prio (l : rcompound) : rcompound := fold_right rinsert_prio [] l.
Definition roptimize_compound (r : rcompound) : rcompound :=
  match r with
  | (_, chain_comb) :: _ :: _ =>
      match rsort_prio r with
      | [] => []
      | (m, c) :: rest =>
          if comb_eqb c chain_comb then (m, c) :: rest
          else (m, chain_comb) :: map (fun s => (fst s, Chain)) rest
      end
  | _ => r
  end.
Definition rtotal_prio (r : rcompound) : N := fold_right (fun s acc => (rprio s + acc)%N) 0%N r.
Fixpoint rmax_index_from (g : rgroup) (i : nat) (best : nat * N) : nat * N :=
  match g with
  | [] => best
  | r :: g' => rmax_index_from g' (S i) (if (snd best <? rtotal_prio r)%N then (i, rtotal_prio r) else best)
  end.
Definition roptimize_group (use_lookup : bool) (g : rgroup) : rprocess :=
  let g := map roptimize_compound g in
  let mi := fst (rmax_index_from g 0 (0, 0%N)) in
  let is_child := match g with
                  | ((_, Children) :: _) :: _ | ((_, ChildrenAll) :: _) :: _ => true
                  | _ => false
                  end in
  if use_lookup && (0 <? mi) && is_child
  then mkRProcess (Some (firstn mi g)) (skipn mi g)
  else mkRProcess None g.
Definition roptimize (use_lookup : bool) (gs : list rgroup) : rselector := map (roptimize_group use_lookup) gs.

Definition said {A} (x : wres A) : errors := match x with Ok p => snd p | _ => [] end.

Section Rules.
  Variable h : heap.
  Variable text_of : id -> str.
  Variable by_id : id -> str -> option id.

  (** The reports of one application of a rule: rules/pseudo.rs:846, 909; the aliases (rule.rs:300-310) are texts of the
      library. *)
  Fixpoint reports (r : rule) : list id -> option bool -> errors :=
    let nested gs := roptimize false (map (map (map (fun e : rule * comb => let '(r', c) := e in ((compile h text_of by_id r', reports r'), c)))) gs) in
    match r with
    | RNot n =>
        fun els _ =>
          match els with
          | [] => []
          | x :: _ => match n with NSel gs => said (wnot_sel h els (nested gs)) | NErr => halt h x | NPanic => [] end
          end
    | RHas n =>
        fun els _ =>
          match els with
          | [] => []
          | x :: _ => match n with NSel gs => said (whas_sel h els (nested gs)) | NErr => halt h x | NPanic => [] end
          end
    | RAlias gs => fun els _ => said (wfilter_sel h els (nested gs))
    | _ => fun _ _ => []
    end.
  Definition rcompile (r : rule) : rmatcher := (compile h text_of by_id r, reports r).
  Definition rcompile_groups (gs : ast) : list rgroup := map (map (map (fun e : rule * comb => let '(r', c) := e in (rcompile r', c)))) gs.
  Definition rcompile_selector (use_lookup : bool) (gs : ast) : rselector := roptimize use_lookup (rcompile_groups gs).

  Definition wfind_ast (els : list id) (gs : ast) : wres (list id) := wfind_selector h els (rcompile_selector true gs).
  Definition wfilter_ast (els : list id) (gs : ast) : wres (list id) := wfilter_sel h els (rcompile_selector false gs).
  Definition wnot_ast (els : list id) (gs : ast) : wres (list id) := wnot_sel h els (rcompile_selector false gs).
  Definition wis_ast (els : list id) (gs : ast) : wres bool := wis_sel h els (rcompile_selector false gs).
  Definition wis_all_ast (els : list id) (gs : ast) : wres bool := wis_all_sel h els (rcompile_selector false gs).
  Definition whas_ast (els : list id) (gs : ast) : wres (list id) := whas_sel h els (rcompile_selector false gs).
  Definition wclosest_ast (els : list id) (gs : ast) : wres (list id) := wclosest h els (rcompile_selector true gs).

  (** * On texts, as in Query.v *)
  Variable wide_digit : char -> bool.
  Definition wparsed_or {A} (dflt : A) (els : list id) (s : str) (run : ast -> wres A) : wres A :=
    do p <- from_str wide_digit s;
    match p with
    | Some gs => run gs
    | None => do e <- throw_error h els; Ok (dflt, e)
    end.
  Definition wtrigger_method {A} (dflt : A) (els : list id) (s : str) (run : ast -> wres A) : wres A :=
    match els with
    | [] => Ok (dflt, [])
    | _ => wparsed_or dflt els s run
    end.
  Definition wfind_text (els : list id) (s : str) : wres (list id) := wparsed_or [] els s (wfind_ast els).
  Definition wfilter_text (els : list id) (s : str) : wres (list id) := wtrigger_method [] els s (wfilter_ast els).
  Definition wis_text (els : list id) (s : str) : wres bool := wtrigger_method false els s (wis_ast els).
  Definition wis_all_text (els : list id) (s : str) : wres bool := wtrigger_method false els s (wis_all_ast els).
  Definition wnot_text (els : list id) (s : str) : wres (list id) := wtrigger_method [] els s (wnot_ast els).
  Definition whas_text (els : list id) (s : str) : wres (list id) := wtrigger_method [] els s (whas_ast els).
  Definition wclosest_text (els : list id) (s : str) : wres (list id) :=
    match s with
    | [] => Ok ([], [])
    | _ => wparsed_or [] els s (wclosest_ast els)
    end.
  Definition wselect_text (us : list id) (s : str) (c : comb) : wres (list id) :=
    match s with
    | [] => wselect_with_comb h us None c
    | _ => wtrigger_method [] us s (fun gs => wselect_with_comb h us (Some (rcompile_selector false gs)) c)
    end.
  Definition wsiblings_text (els : list id) (s : str) : wres (list id) :=
    do _ <- unique_all_siblings h els;
    match trim s with
    | [] => wsiblings h els None
    | t => wparsed_or [] els t (fun gs => wsiblings h els (Some (rcompile_selector true gs)))
    end.
  Definition wstep_text (c : comb) (els : list id) (s : str) : wres (list id) :=
    match c with
    | Siblings => wsiblings_text els s
    | _ =>
        do us <- uniques h c els;
        say r <- wselect_text us s c;
        silent (finish h c r)
    end.
  Definition wuntil_text (c : comb) (els : list id) (stop flt : str) (contains : bool) : wres (list id) :=
    do us <- until_uniques h c els;
    do p <- from_str wide_digit stop;
    say l <- match p with
             | None => do e <- throw_error h us; Ok ([], e)
             | Some gs =>
                 let run f := wselect_until h us (rcompile_selector true gs) (option_map (rcompile_selector true) f) contains c in
                 match flt with
                 | [] => run None
                 | _ => wparsed_or [] us flt (fun f => run (Some f))
                 end
             end;
    silent (until_finish h c l).
End Rules.

(** * The queries as data *)
(** The calls that take selector texts: elements.rs:1097-1104 (find), 1136-1141 (filter), 1987-1992 (is), 2109-2114 (is_all),
    2234-2239 (not), 2347-2367 (has), 1719-1774 (closest), 1261-1640 (the steps, named by their combinator), 1367-1688 (the
    walks until a stop). *)
Inductive tquery :=
| QFind (s : str) | QFilter (s : str) | QIs (s : str) | QIsAll (s : str) | QNot (s : str) | QHas (s : str) | QClosest (s : str)
| QStep (c : comb) (s : str) | QUntil (c : comb) (stop flt : str) (contains : bool).
Inductive answer := ASet (l : list id) | ABool (b : bool).
Definition answered {A} (f : A -> answer) (e : wres A) : wres answer := do p <- e; Ok (f (fst p), snd p).
(** With all reports. *)
Definition wrun (h : heap) (text_of : id -> str) (by_id : id -> str -> option id) (wide_digit : char -> bool) (els : list id) (q : tquery) : wres answer :=
  match q with
  | QFind s => answered ASet (wfind_text h text_of by_id wide_digit els s)
  | QFilter s => answered ASet (wfilter_text h text_of by_id wide_digit els s)
  | QIs s => answered ABool (wis_text h text_of by_id wide_digit els s)
  | QIsAll s => answered ABool (wis_all_text h text_of by_id wide_digit els s)
  | QNot s => answered ASet (wnot_text h text_of by_id wide_digit els s)
  | QHas s => answered ASet (whas_text h text_of by_id wide_digit els s)
  | QClosest s => answered ASet (wclosest_text h text_of by_id wide_digit els s)
  | QStep c s => answered ASet (wstep_text h text_of by_id wide_digit c els s)
  | QUntil c stop flt contains => answered ASet (wuntil_text h text_of by_id wide_digit c els stop flt contains)
  end.
(** As in Query.v, with the report of the text itself only. *)
Definition prun (h : heap) (text_of : id -> str) (by_id : id -> str -> option id) (wide_digit : char -> bool) (els : list id) (q : tquery) : wres answer :=
  match q with
  | QFind s => answered ASet (find_text wide_digit h text_of by_id els s)
  | QFilter s => answered ASet (filter_text wide_digit h text_of by_id els s)
  | QIs s => answered ABool (Query.is_text wide_digit h text_of by_id els s)
  | QIsAll s => answered ABool (is_all_text wide_digit h text_of by_id els s)
  | QNot s => answered ASet (not_text wide_digit h text_of by_id els s)
  | QHas s => answered ASet (has_text wide_digit h text_of by_id els s)
  | QClosest s => answered ASet (closest_text wide_digit h text_of by_id els s)
  | QStep c s => answered ASet (step_text wide_digit h text_of by_id c els s)
  | QUntil c stop flt contains => answered ASet (until_text wide_digit h text_of by_id c els stop flt contains)
  end.
