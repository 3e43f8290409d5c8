(** Model of the selector parser: src/mesdoc/selector/mod.rs:91-205, 316-382, selector/pattern.rs, the pattern texts of
    src/mesdoc/rules/*.rs.  The texts of the error values are left out: [Ok None] stands for [Err(..)]. *)
From Verif Require Import Base Utils Nth Attr Dom Order Sets Engine Rules Regex.

(** pattern.rs:44-247, 346-384, 404-420: the patterns. *)
Inductive pat :=
| PChar (c : char)
| PVec (s : str)
| PIdentity
| PAttrKey
| PSpaces
| PNth
| PRegex (r : re)
| PNested.

(** pattern.rs:22-28.  [m_caps]: the data of a regular expression; [m_n], [m_index]: the data of [Nth]. *)
Record matched := mkMatched {
  m_chars : str;
  m_ignore : nat;
  m_caps : caps;
  m_n : option str;
  m_index : option str
}.
Definition plain (s : str) : matched := mkMatched s 0 [] None None.

Section Parse.
  (** [\d] of the regex crate beyond ASCII: Unicode decimal digits. *)
  Variable wide_digit : char -> bool.
  Definition is_d (c : char) : bool := if (c <? 128)%N then is_ascii_digit c else wide_digit c.

  (** pattern.rs:93-130: the loop of [Identity]: the characters and the number of backslashes. *)
  Fixpoint identity_loop (s : str) (esc : bool) : str * nat :=
    match s with
    | [] => ([], 0)
    | c :: s' =>
        if esc then let '(r, n) := identity_loop s' false in (c :: r, n)
        else if is_ascii_alnum c || char_eqb c 45%N || char_eqb c 95%N then let '(r, n) := identity_loop s' false in (c :: r, n)
        else if char_eqb c 92%N then let '(r, n) := identity_loop s' true in (r, S n)
        else ([], 0)
    end.
  Fixpoint take_while (p : char -> bool) (s : str) : str :=
    match s with
    | c :: s' => if p c then c :: take_while p s' else []
    | [] => []
    end.

  (** pattern.rs:198: [[1-9]\d+|[0-9]]. *)
  Definition re_num : re :=
    RAlt (RSeq (RChr (fun c => (49 <=? c) && (c <=? 57))%N) (RPlus (RChr is_d))) (RChr is_ascii_digit).
  Definition re_sign : re := one_of [43; 45]%N.
  (** pattern.rs:198 *)
  Definition re_nth : re :=
    RAlt
      (rseqs [ROpt (RGrp 1 re_sign); ROpt (RGrp 2 re_num); chr 110%N;
              ROpt (rseqs [RStar true re_s; RGrp 3 re_sign; RStar true re_s; RGrp 4 re_num])])
      (RSeq (ROpt (RGrp 5 re_sign)) (RGrp 6 re_num)).

  (** pattern.rs:249-262 [Nth::get_number]. *)
  Definition get_number (data : caps) (key op : nat) (def : option str) : option str :=
    match (match cap data key with Some x => Some x | None => def end) with
    | None => None
    | Some idx =>
        match cap data op with
        | Some o => if str_eqb o [45%N] then Some (o ++ idx) else Some idx
        | None => Some idx
        end
    end.

  (** pattern.rs:194-242 [Nth::matched]. *)
  Definition nth_matched (s : str) : option matched :=
    match re_exec re_nth s with
    | Some (cs, data) =>
        match cap data 6 with
        | Some _ => Some (mkMatched cs 0 [] None (get_number data 6 5 None))
        | None => Some (mkMatched cs 0 [] (get_number data 2 1 (Some (lit "1"))) (get_number data 4 3 None))
        end
    | None =>
        if starts_with s (lit "even") then Some (mkMatched (lit "even") 0 [] (Some (lit "2")) (Some (lit "0")))
        else if starts_with s (lit "odd") then Some (mkMatched (lit "odd") 0 [] (Some (lit "2")) (Some (lit "1")))
        else None
    end.

  (** pattern.rs: [Pattern::matched].  [char] (46) and [Identity] (93) read [chars\[0\]]. *)
  Definition pat_matched (p : pat) (s : str) : res (option matched) :=
    match p with
    | PChar c =>
        match s with
        | [] => Panic
        | x :: _ => Ok (if char_eqb c x then Some (plain [x]) else None)
        end
    | PVec v => Ok (if starts_with s v then Some (plain v) else None)
    | PIdentity =>
        match s with
        | [] => Panic
        | x :: _ =>
            if is_ascii_upper x || is_ascii_lower x || char_eqb x 95%N then
              let '(r, n) := identity_loop s false in Ok (Some (mkMatched r n [] None None))
            else Ok None
        end
    | PAttrKey =>
        let r := take_while is_char_available_in_key s in
        Ok (if nonempty r then Some (plain r) else None)
    | PSpaces => Ok (Some (plain (take_while is_ascii_ws s)))
    | PNth => Ok (nth_matched s)
    | PRegex r =>
        Ok (match re_exec r s with
            | Some (cs, data) => Some (mkMatched cs 0 data None None)
            | None => None
            end)
    | PNested => Ok None
    end.

  (** pattern.rs:449-463 [exec]: (the matches, the length consumed, the number of patterns matched). *)
  Fixpoint exec (qs : list pat) (s : str) : res (list matched * nat * nat) :=
    match qs with
    | [] => Ok ([], 0, 0)
    | q :: qs' =>
        do r <- pat_matched q s;
        match r with
        | None => Ok ([], 0, 0)
        | Some m =>
            let len := length (m_chars m) + m_ignore m in
            do t <- exec qs' (skipn len s);
            let '(ms, l, n) := t in Ok (m :: ms, len + l, S n)
        end
    end.
  (** rule.rs:279-289 [Rule::exec_queues]. *)
  Definition exec_queues (qs : list pat) (s : str) : res (option (list matched * nat * nat)) :=
    do t <- exec qs s;
    let '(ms, l, n) := t in Ok (if 0 <? l then Some (ms, l, n) else None).

  (** selector/mod.rs:15-17 *)
  Definition re_splitter : re :=
    RGrp 1 (RAlt (rseqs [RStar true re_s; one_of (lit ">,~+"); RStar true re_s]) (RPlus re_s)).
  Definition splitter : list pat := [PRegex re_splitter].

  (** The quoted text [(?:\\?+.)*?] of rules/attr.rs:11 and pseudo.rs:857. *)
  Definition re_quoted : re := RStar false (RSeq (RPlus (ROpt (chr 92%N))) re_dot).
  (** rules/attr.rs:11 *)
  Definition re_attr : re :=
    ROpt (rseqs [RGrp 1 (ROpt (one_of (lit "*^$~|!"))); chr 61%N; RStar true re_s;
                 ralts [rseqs [chr 39%N; RGrp 2 re_quoted; chr 39%N];
                        RGrp 3 (RPlus (none_of (93 :: 39 :: 34 :: lit "<>/=`")%N));
                        rseqs [chr 34%N; RGrp 4 re_quoted; chr 34%N]]]).
  (** pseudo.rs:857 *)
  Definition re_contains : re :=
    ralts [rseqs [chr 39%N; RGrp 1 re_quoted; chr 39%N];
           rseqs [chr 34%N; RGrp 2 re_quoted; chr 34%N];
           RGrp 3 (RStar true (none_of (41 :: 39 :: 34 :: lit "<>/=`")%N))].

  (** rules/mod.rs:9-21, pseudo.rs:1048-1088: the rules in the order in which they are tried. *)
  Inductive kind :=
  | KClass | KId | KName | KAttr | KRoot | KEmpty | KFirstChild (asc : bool) | KOnlyChild | KNthChild (asc : bool)
  | KFirstOfType (asc : bool) | KNthOfType (asc : bool) | KOnlyOfType | KNot | KContains | KHas | KChecked
  | KHeader | KInput | KSubmit | KAll.
  Definition rparen : pat := PChar 41%N.
  Definition q_nth (name : str) : list pat := [PVec name; PSpaces; PNth; PSpaces; rparen].
  Definition q_nested (name : str) : list pat := [PVec name; PSpaces; PNested; PSpaces; rparen].
  Definition rules : list (kind * list pat) := [
    (KClass, [PVec (lit "."); PIdentity]);
    (KId, [PVec (lit "#"); PIdentity]);
    (KName, [PIdentity]);
    (KAttr, [PVec (lit "["); PSpaces; PAttrKey; PSpaces; PRegex re_attr; PSpaces; PChar 93%N]);
    (KRoot, [PVec (lit ":root")]);
    (KEmpty, [PVec (lit ":empty")]);
    (KFirstChild true, [PVec (lit ":first-child")]);
    (KFirstChild false, [PVec (lit ":last-child")]);
    (KOnlyChild, [PVec (lit ":only-child")]);
    (KNthChild true, q_nth (lit ":nth-child("));
    (KNthChild false, q_nth (lit ":nth-last-child("));
    (KFirstOfType true, [PVec (lit ":first-of-type")]);
    (KFirstOfType false, [PVec (lit ":last-of-type")]);
    (KNthOfType true, q_nth (lit ":nth-of-type("));
    (KNthOfType false, q_nth (lit ":nth-last-of-type("));
    (KOnlyOfType, [PVec (lit ":only-of-type")]);
    (KNot, q_nested (lit ":not("));
    (KContains, [PVec (lit ":contains("); PSpaces; PRegex re_contains; PSpaces; rparen]);
    (KHas, q_nested (lit ":has("));
    (KChecked, [PVec (lit ":checked")]);
    (KHeader, [PVec (lit ":header")]);
    (KInput, [PVec (lit ":input")]);
    (KSubmit, [PVec (lit ":submit")]);
    (KAll, [PChar 42%N])].

  (** selector/mod.rs:153-154, 337-338: the first rule that consumes something. *)
  Fixpoint first_rule (rs : list (kind * list pat)) (s : str) : res (option (kind * list pat * (list matched * nat * nat))) :=
    match rs with
    | [] => Ok None
    | (k, qs) :: rs' =>
        do r <- exec_queues qs s;
        match r with
        | Some t => Ok (Some (k, qs, t))
        | None => first_rule rs' s
        end
    end.

  (** [str::parse::<isize>] of the standard library; a text it rejects is given the number 2^63, which no [isize] holds. *)
  Fixpoint digits_value (s : str) (acc : Z) : option Z :=
    match s with
    | [] => Some acc
    | c :: s' => if is_ascii_digit c then digits_value s' (acc * 10 + (Z.of_N c - 48))%Z else None
    end.
  Definition sign_split (s : str) : bool * str :=
    match s with
    | [] => (false, s)
    | c :: t => if char_eqb c 45%N then (true, t) else if char_eqb c 43%N then (false, t) else (false, s)
    end.
  Definition parse_isize (s : str) : Z :=
    let '(neg, ds) := sign_split s in
    match ds, digits_value ds 0 with
    | _ :: _, Some v =>
        let z := if neg : bool then (- v)%Z else v in
        if ((isize_min <=? z) && (z <=? isize_max))%Z then z else (2 ^ 63)%Z
    | _, _ => (2 ^ 63)%Z
    end.
  (** pseudo.rs:333-345, 607-615 (with [nth_index_to_number], 18-24): with no [n] the index is read at once; otherwise
      when the rule is applied.  A missing index counts as 0 (pattern.rs:272-275). *)
  Definition make_formula (m : matched) : res nth_formula :=
    match m_n m, m_index m with
    | None, None => Panic
    | None, Some i => do z <- chk (parse_isize i); Ok (None, z)
    | Some n, Some i => Ok (Some (parse_isize n), parse_isize i)
    | Some n, None => Ok (Some (parse_isize n), 0%Z)
    end.

  (** rules/attr.rs:22, 29-79 *)
  Definition mode_of (s : str) : amode :=
    if str_eqb s (lit "^") then MPrefix
    else if str_eqb s (lit "$") then MSuffix
    else if str_eqb s (lit "*") then MSub
    else if str_eqb s (lit "|") then MDash
    else if str_eqb s (lit "~") then MWord
    else if str_eqb s (lit "!") then MNot
    else MEq.
  (** rules/attr.rs:14-22 *)
  Definition make_attr (data : list matched) : res rule :=
    do key <- rnth data 2;
    do val <- rnth data 4;
    let get := cap (m_caps val) in
    let value := match get 2 with Some v => Some v | None => match get 3 with Some v => Some v | None => get 4 end end in
    let mode := match get 1 with Some m => m | None => [] end in
    Ok (RAttr (m_chars key) (match value with Some v => Some (mode_of mode, v) | None => None end)).
  (** pseudo.rs:863-889 *)
  Definition make_contains (cs : str) : res rule :=
    match cs with
    | [] => Ok (RContains [])
    | c :: _ =>
        if char_eqb c 34%N || char_eqb c 39%N then
          match removelast cs with
          | [] => Panic
          | _ :: t => Ok (RContains t)
          end
        else Ok (RContains cs)
    end.
  (** The factories of the rules.  [parse]: the parser applied to a nested text when the rule is used. *)
  Definition make (parse : str -> res nested) (k : kind) (data : list matched) : res rule :=
    match k with
    | KClass => do m <- rnth data 1; Ok (RClass (m_chars m))
    | KId => do m <- rnth data 1; Ok (RId (m_chars m))
    | KName => do m <- rnth data 0; Ok (RName (m_chars m))
    | KAttr => make_attr data
    | KRoot => Ok RRoot
    | KEmpty => Ok REmpty
    | KFirstChild asc => Ok (RFirstChild asc)
    | KOnlyChild => Ok ROnlyChild
    | KNthChild asc => do m <- rnth data 2; do f <- make_formula m; Ok (RNthChild asc f)
    | KFirstOfType asc => Ok (RFirstOfType asc)
    | KNthOfType asc => do m <- rnth data 2; do f <- make_formula m; Ok (RNthOfType asc f)
    | KOnlyOfType => Ok ROnlyOfType
    | KNot => do m <- rnth data 2; do n <- parse (m_chars m); Ok (RNot n)
    | KContains => do m <- rnth data 2; make_contains (m_chars m)
    | KHas => do m <- rnth data 2; do n <- parse (m_chars m); Ok (RHas n)
    | KChecked => Ok RChecked
    | KHeader => Ok alias_header
    | KInput => Ok alias_input
    | KSubmit => Ok alias_submit
    | KAll => Ok RAll
    end.

  (** selector/mod.rs:316-382 [parse_until]; [index] counts from the start of [chars], [rest] is [chars\[index..\]].
      The result is (index, matched), [None] is the error value. *)
  Fixpoint parse_until (fuel : nat) (chars : str) (until : list pat) (top : bool) (index : nat) : res (option (nat * list matched)) :=
    match fuel with
    | 0 => OutOfFuel
    | S f =>
        let rest := skipn index chars in
        match rest with
        | [] => Ok (Some (index, []))
        | _ :: _ =>
            do sp <- exec_queues splitter rest;
            match sp with
            | Some (_, len, _) => parse_until f chars until top (index + len)
            | None =>
                do r <- first_rule rules rest;
                (* (the new index, found), or the error of the inner call *)
                do nx <- match r with
                         | None => Ok (Some (index, false))
                         | Some (_, qs, (_, len, num)) =>
                             if Nat.eqb num (length qs) then Ok (Some (index + len, true))
                             else
                               do inner <- parse_until f (skipn (index + len) chars) (skipn (S num) qs) false 0;
                               Ok (match inner with Some (n, _) => Some (index + len + n, false) | None => None end)
                         end;
                match nx with
                | None => Ok None
                | Some (index, true) => parse_until f chars until top index
                | Some (index, false) =>
                    let own := if top : bool then [plain (firstn index chars)] else [] in
                    if nonempty until then
                      do t <- exec until (skipn index chars);
                      let '(ms, count, num) := t in
                      if negb (Nat.eqb num (length until)) then Ok None
                      else Ok (Some (index + count, if top then own ++ ms else []))
                    else Ok (Some (index, own))
                end
            end
        end
    end.

  (** selector/mod.rs:386-391 *)
  Inductive prev_in := PBegin | PSplitter | PSelector.
  Definition prev_eqb (a b : prev_in) : bool :=
    match a, b with PBegin, PBegin | PSplitter, PSplitter | PSelector, PSelector => true | _, _ => false end.
  (** selector/mod.rs:206-219: [add_group], [add_group_item]. *)
  Definition add_group (gs : ast) : ast := gs ++ [[]].
  Definition on_last {A} (f : A -> A) (l : list A) : list A :=
    match rev l with
    | [] => l
    | x :: r => rev (f x :: r)
    end.
  Definition add_group_item (gs : ast) (item : rule * comb) (is_new : bool) : ast :=
    on_last (fun g => if is_new then g ++ [[item]] else on_last (fun cp => cp ++ [item]) g) gs.
  (** selector/mod.rs:44-55 *)
  Definition comb_from (op : str) : res comb :=
    match op with
    | [] => Ok ChildrenAll
    | [62%N] => Ok Children
    | [126%N] => Ok NextAll
    | [43%N] => Ok Next
    | _ => Panic
    end.

  (** selector/mod.rs:104-198: the loop; [s] is [chars\[index..\]]. *)
  Fixpoint from_loop (fuel : nat) (s : str) (groups : ast) (cb : comb) (prev last : prev_in) : res (option ast) :=
    match fuel with
    | 0 => OutOfFuel
    | S f =>
        match s with
        | [] => Ok (if prev_eqb last PSelector then Some groups else None)
        | _ :: _ =>
            do sp <- exec_queues splitter s;
            match sp with
            | Some (ms, len, _) =>
                do m <- rnth ms 0;
                let op := trim (m_chars m) in
                if prev_eqb prev PSplitter then Ok None
                else if str_eqb op [44%N] then
                  if negb (prev_eqb prev PSelector) then Ok None
                  else from_loop f (skipn len s) (add_group groups) ChildrenAll PSplitter PSplitter
                else
                  do cb' <- comb_from op;
                  from_loop f (skipn len s) groups cb' PSplitter (if nonempty op then PSplitter else prev)
            | None =>
                let is_new := negb (prev_eqb prev PSelector) in
                let cb := if is_new then cb else Chain in
                do r <- first_rule rules s;
                match r with
                | None => Ok None
                | Some (k, qs, (ms, len, num)) =>
                    let parse t :=
                      match t with
                      | [] => Ok (NSel [])
                      | _ :: _ =>
                          match from_loop f t [[]] ChildrenAll PBegin PBegin with
                          | Ok (Some gs) => Ok (NSel gs)
                          | Ok None => Ok NErr
                          | Panic => Ok NPanic
                          | OutOfFuel => OutOfFuel
                          end
                      end in
                    if Nat.eqb num (length qs) then
                      do rl <- make parse k ms;
                      from_loop f (skipn len s) (add_group_item groups (rl, cb) is_new) cb PSelector PSelector
                    else
                      match nth_error qs num with
                      | Some PNested =>
                          let rest := skipn len s in
                          do inner <- parse_until (S (length rest)) rest (skipn (S num) qs) true 0;
                          match inner with
                          | None => Ok None
                          | Some (n, nested) =>
                              do rl <- make parse k (ms ++ nested);
                              from_loop f (skipn n rest) (add_group_item groups (rl, cb) is_new) cb PSelector PSelector
                          end
                      | _ => Ok None
                      end
                end
            end
        end
    end.

  (** selector/mod.rs:91-205 [Selector::from_str] before [optimize]: [Ok (Some gs)] the groups, [Ok None] an error. *)
  Definition from_str (s : str) : res (option ast) :=
    match s with
    | [] => Ok (Some [])
    | _ :: _ => from_loop (S (length s)) s [[]] ChildrenAll PBegin PBegin
    end.
End Parse.
