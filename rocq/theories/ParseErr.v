(** The errors of the selector parser (selector/mod.rs:91-205, 316-382; error.rs:5-6): the parser of [Parse] once more, with
    the fields of [Error::InvalidSelector] in place of the bare error value.

    A value of [perr] stands for the pair (context, reason); the texts around the values in [reason] are left out.  The
    context is the text given to [from_str], except in [ENested], which has its own. *)
From Verif Require Import Base Engine Rules Regex Parse.

Inductive perr :=
| EComb (op : str) (index : nat)          (* mod.rs:110-119: Wrong combinator '{op}' at index {index} *)
| EEmpty (index : nat)                    (* mod.rs:124-130: Wrong empty selector before ',' at index  {index} *)
| EUnknown (text : str) (index : nat)     (* mod.rs:182-192: Unrecognized selector '{text}' at index {index} *)
| ELast                                   (* mod.rs:194-199: Wrong selector rule at last *)
| ENested (context : str) (index : nat).  (* mod.rs:363-370: Nested selector parse error at index {index} *)

Section ParseErr.
  Variable wide_digit : char -> bool.
  Notation exec_queues := (exec_queues wide_digit).
  Notation exec := (exec wide_digit).
  Notation first_rule := (first_rule wide_digit).

  (** selector/mod.rs:316-382 [parse_until]; the error carries [chars\[index..\]] and [index]. *)
  Fixpoint until_err (fuel : nat) (chars : str) (until : list pat) (top : bool) (index : nat) : res ((nat * list matched) + (str * nat)) :=
    match fuel with
    | 0 => OutOfFuel
    | S f =>
        let rest := skipn index chars in
        match rest with
        | [] => Ok (inl (index, []))
        | _ :: _ =>
            do sp <- exec_queues splitter rest;
            match sp with
            | Some (_, len, _) => until_err f chars until top (index + len)
            | None =>
                do r <- first_rule rules rest;
                do nx <- match r with
                         | None => Ok (inl (index, false))
                         | Some (_, qs, (_, len, num)) =>
                             if Nat.eqb num (length qs) then Ok (inl (index + len, true))
                             else
                               do inner <- until_err f (skipn (index + len) chars) (skipn (S num) qs) false 0;
                               Ok (match inner with inl (n, _) => inl (index + len + n, false) | inr e => inr e end)
                         end;
                match nx with
                | inr e => Ok (inr e)
                | inl (index, true) => until_err f chars until top index
                | inl (index, false) =>
                    let own := if top : bool then [plain (firstn index chars)] else [] in
                    if nonempty until then
                      do t <- exec until (skipn index chars);
                      let '(ms, count, num) := t in
                      if negb (Nat.eqb num (length until)) then Ok (inr (skipn index chars, index))
                      else Ok (inl (index + count, if top then own ++ ms else []))
                    else Ok (inl (index, own))
                end
            end
        end
    end.

  (** selector/mod.rs:104-199: the loop; [s] is [chars\[index..\]].  Nested texts are parsed when their rule is used, with
      an error report of their own: for them [from_loop] of [Parse] is used. *)
  Fixpoint loop_err (fuel : nat) (s : str) (index : nat) (groups : ast) (cb : comb) (prev last : prev_in) : res (ast + perr) :=
    match fuel with
    | 0 => OutOfFuel
    | S f =>
        match s with
        | [] => Ok (if prev_eqb last PSelector then inl groups else inr ELast)
        | _ :: _ =>
            do sp <- exec_queues splitter s;
            match sp with
            | Some (ms, len, _) =>
                do m <- rnth ms 0;
                let op := trim (m_chars m) in
                if prev_eqb prev PSplitter then Ok (inr (EComb (m_chars m) index))
                else if str_eqb op [44%N] then
                  if negb (prev_eqb prev PSelector) then Ok (inr (EEmpty (index + len)))
                  else loop_err f (skipn len s) (index + len) (add_group groups) ChildrenAll PSplitter PSplitter
                else
                  do cb' <- comb_from op;
                  loop_err f (skipn len s) (index + len) groups cb' PSplitter (if nonempty op then PSplitter else prev)
            | None =>
                let is_new := negb (prev_eqb prev PSelector) in
                let cb := if is_new then cb else Chain in
                do r <- first_rule rules s;
                match r with
                | None => Ok (inr (EUnknown s index))
                | Some (k, qs, (ms, len, num)) =>
                    let parse t :=
                      match t with
                      | [] => Ok (NSel [])
                      | _ :: _ =>
                          match from_loop wide_digit f t [[]] ChildrenAll PBegin PBegin with
                          | Ok (Some gs) => Ok (NSel gs)
                          | Ok None => Ok NErr
                          | Panic => Ok NPanic
                          | OutOfFuel => OutOfFuel
                          end
                      end in
                    if Nat.eqb num (length qs) then
                      do rl <- make parse k ms;
                      loop_err f (skipn len s) (index + len) (add_group_item groups (rl, cb) is_new) cb PSelector PSelector
                    else
                      match nth_error qs num with
                      | Some PNested =>
                          let rest := skipn len s in
                          do inner <- until_err (S (length rest)) rest (skipn (S num) qs) true 0;
                          match inner with
                          | inr (context, i) => Ok (inr (ENested context i))
                          | inl (n, nested) =>
                              do rl <- make parse k (ms ++ nested);
                              loop_err f (skipn n rest) (index + len + n) (add_group_item groups (rl, cb) is_new) cb PSelector PSelector
                          end
                      | _ => Ok (inr (EUnknown s (index + len)))
                      end
                end
            end
        end
    end.
  (** selector/mod.rs:91-205 *)
  Definition from_err (s : str) : res (ast + perr) :=
    match s with
    | [] => Ok (inl [])
    | _ :: _ => loop_err (S (length s)) s 0 [[]] ChildrenAll PBegin PBegin
    end.
End ParseErr.
