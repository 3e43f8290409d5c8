(** Model of the rule templates: src/mesdoc/selector/rule.rs:66-112, 130-273 and pattern.rs:346-384, 404-447, 465-479.
    The registry of patterns is fixed to those of [pattern::init] (pattern.rs:431-439); [add_pattern] by a user is left out.  A queue is kept with the raw text of a
    regular expression, as the code does ([RegExp.context]). *)
From Verif Require Import Base Utils Engine.

(** pattern.rs:431-439 *)
Inductive pname := PnIdentity | PnSpaces | PnAttrKey | PnNth | PnRegexp | PnSelector.
Definition find_pattern (name : str) : option pname :=
  if str_eqb name (lit "identity") then Some PnIdentity
  else if str_eqb name (lit "spaces") then Some PnSpaces
  else if str_eqb name (lit "attr_key") then Some PnAttrKey
  else if str_eqb name (lit "nth") then Some PnNth
  else if str_eqb name (lit "regexp") then Some PnRegexp
  else if str_eqb name (lit "selector") then Some PnSelector
  else None.
(** One pattern of a queue: a character, a text, a named pattern (with the text of a regular expression). *)
Inductive qitem := QChar (c : char) | QVec (s : str) | QNamed (n : pname) (raw : str).

(** pattern.rs:441-447 [to_pattern], the [from_params] functions (377-383, 413-415), 465-479 [check_params_return]; the error
    value makes [get_queues] panic (rule.rs:248-251), as does an unknown name ([no_implemented]). *)
Definition to_pattern (name s p : str) : res qitem :=
  match find_pattern name with
  | None => Panic
  | Some PnRegexp => match s with [] => Ok (QNamed PnRegexp p) | _ :: _ => Panic end
  | Some n => match s, p with [], [] => Ok (QNamed n []) | _, _ => Panic end
  end.

Definition LBRACE : char := 123%N.
Definition RBRACE : char := 125%N.
Definition HASH : char := 35%N.
(** rule.rs:81-88 [MatchedStore] and the variables of lines 134-138: [prev_char], [is_matched_finish], the store, [raw_chars],
    [queues]. *)
Record tstate := mkT {
  t_prev : char;
  t_fin : bool;
  t_hashs : nat;
  t_wait : bool;
  t_in : bool;
  t_raw : str;
  t_suf : str;
  t_names : str;
  t_chars : str;
  t_queues : list qitem
}.
Definition t_start : tstate := mkT 0%N false 0 false false [] [] [] [] [].
(** lines 247-253 with [MatchedStore::next] (103-111) *)
Definition t_finish (s : tstate) (ch : char) : res tstate :=
  do q <- to_pattern (t_names s) (t_suf s) (t_raw s);
  Ok (mkT ch true 0 false false [] [] [] (t_chars s) (t_queues s ++ [q])).
(** lines 183, 193 *)
Definition t_push (s : tstate) (ch : char) : tstate :=
  mkT ch false (t_hashs s) (t_wait s) (t_in s) (t_raw s) (t_suf s) (t_names s) (t_chars s ++ [ch]) (t_queues s).
Definition count_hash (s : str) : nat := length (filter (char_eqb HASH) s).
(** [usize] subtraction; without overflow checks the slice of line 206 panics instead. *)
Definition usub (a b : nat) : res nat := if b <=? a then Ok (a - b) else Panic.
(** lines 195-221: a character inside the raw parameter *)
Definition t_in_raw (s : tstate) (ch : char) : res tstate :=
  let more (r : str) := mkT ch false (t_hashs s) false true r (t_suf s) (t_names s) (t_chars s) (t_queues s) in
  let stop (r : str) := mkT ch false (t_hashs s) true true r (t_suf s) (t_names s) (t_chars s) (t_queues s) in
  if char_eqb ch HASH then
    do leave <- usub (t_hashs s) 1;
    if leave =? 0 then Ok (stop (t_raw s))
    else
      do last_index <- usub (length (t_raw s)) leave;
      if (0 <? last_index) && (count_hash (skipn last_index (t_raw s)) =? leave) then Ok (stop (firstn last_index (t_raw s)))
      else Ok (more (t_raw s ++ [ch]))
  else Ok (more (t_raw s ++ [ch])).
(** lines 222-246: a character of the name or of the suffix parameter *)
Definition t_in_name (s : tstate) (ch : char) : res tstate :=
  if char_eqb ch RBRACE then if 0 <? t_hashs s then Panic else t_finish s ch
  else if char_eqb ch HASH then
    Ok (mkT ch false (S (t_hashs s)) (t_wait s) (t_in s) (t_raw s) (t_suf s) (t_names s) (t_chars s) (t_queues s))
  else if char_eqb (t_prev s) HASH then
    Ok (mkT ch false (t_hashs s) (t_wait s) (t_in s) (t_raw s ++ [ch]) (t_suf s) (t_names s) (t_chars s) (t_queues s))
  else if nonempty (t_suf s) || negb (is_ascii_alnum ch || char_eqb ch 95%N) then
    Ok (mkT ch false (t_hashs s) (t_wait s) (t_in s) (t_raw s) (t_suf s ++ [ch]) (t_names s) (t_chars s) (t_queues s))
  else Ok (mkT ch false (t_hashs s) (t_wait s) (t_in s) (t_raw s) (t_suf s) (t_names s ++ [ch]) (t_chars s) (t_queues s)).
(** lines 140-254: the body of the loop *)
Definition t_step (s : tstate) (ch : char) : res tstate :=
  if t_wait s then
    if is_ascii_ws ch then Ok (mkT (t_prev s) false (t_hashs s) (t_wait s) (t_in s) (t_raw s) (t_suf s) (t_names s) (t_chars s) (t_queues s))
    else if char_eqb ch RBRACE then t_finish s ch
    else Panic
  else if negb (t_in s) then
    if char_eqb (t_prev s) LBRACE then
      if char_eqb ch LBRACE then
        Ok (mkT 0%N false (t_hashs s) (t_wait s) (t_in s) (t_raw s) (t_suf s) (t_names s) (t_chars s) (t_queues s))
      else
        let chars := removelast (t_chars s) in
        Ok (mkT ch false (t_hashs s) (t_wait s) true (t_raw s) (t_suf s) (t_names s ++ [ch]) []
              (t_queues s ++ (if nonempty chars then [QVec chars] else [])))
    else if char_eqb (t_prev s) RBRACE then
      if t_fin s then Ok (t_push s ch)
      else if char_eqb ch RBRACE then
        Ok (mkT 0%N false (t_hashs s) (t_wait s) (t_in s) (t_raw s) (t_suf s) (t_names s) (t_chars s) (t_queues s))
      else Panic
    else Ok (t_push s ch)
  else if nonempty (t_raw s) then t_in_raw s ch
  else t_in_name s ch.
(** lines 255-272: after the loop *)
Definition t_end (s : tstate) : res (list qitem) :=
  if t_wait s || t_in s then Panic
  else if char_eqb (t_prev s) LBRACE || char_eqb (t_prev s) RBRACE && negb (t_fin s) then Panic
  else Ok (t_queues s ++ match t_chars s with [] => [] | [c] => [QChar c] | cs => [QVec cs] end).
(** lines 130-273 [Rule::get_queues] *)
Definition get_queues (content : str) : res (list qitem) := do s <- rfold t_step content t_start; t_end s.
