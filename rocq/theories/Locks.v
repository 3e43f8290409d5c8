(** Model of the process-wide tables behind the selector parser: [SPLITTER], [RULES] and [ALL_RULE]
    (src/mesdoc/selector/mod.rs:14-18, src/mesdoc/selector/rule.rs:10-12) are mutexes, and a mutex whose holder panicked
    stays poisoned: every later [lock().unwrap()] panics.

    Simplification: calls come one after the other, from any thread that survives or catches the panic of a call.
    [PATTERNS] and [REGEXS] (selector/pattern.rs:9-12) are left out: once the library is set up nothing panics while it
    holds them (the regular expressions compiled are fixed). *)
From Verif Require Import Base Engine Rules Parse.

(** The table entry for [*], filled by the first step without a filter text. *)
Inductive cell := CellEmpty | CellFilled | CellPoisoned.
Record locks := mkLocks {
  l_rules : bool;   (* [SPLITTER] and [RULES] are poisoned; they are always taken together, mod.rs:101-102 *)
  l_all : cell      (* [ALL_RULE] *)
}.
Definition locks_new : locks := mkLocks false CellEmpty.

Section Locks.
  Variable wide_digit : char -> bool.

  (** mod.rs:91-205 [Selector::from_str] with its locks: the empty text takes none (line 95), any other one holds both until
      it returns. *)
  Definition locked_from_str (st : locks) (s : str) : locks * res (option ast) :=
    match s with
    | [] => (st, from_str wide_digit s)
    | _ =>
        if l_rules st then (st, Panic)
        else match from_str wide_digit s with
             | Panic => (mkLocks true (l_all st), Panic)
             | r => (st, r)
             end
    end.
  (** mod.rs:290-304 [make_comb_all]: [ALL_RULE] is held while the rules are looked up the first time. *)
  Definition locked_comb_all (st : locks) : locks * res unit :=
    match l_all st with
    | CellPoisoned => (st, Panic)
    | CellFilled => (st, Ok tt)
    | CellEmpty => if l_rules st then (mkLocks true CellPoisoned, Panic) else (mkLocks false CellFilled, Ok tt)
    end.

  (** What queries and traversals do with the tables: read a text (also one nested in [:not] or [:has], which is read when the
      rule is applied), or make the selector [*] (a step without a filter text, or one whose text begins with a combinator). *)
  Inductive act := AText (s : str) | AStar.
  Inductive outcome := OText (r : res (option ast)) | OStar (r : res unit).
  Definition act_step (st : locks) (a : act) : locks * outcome :=
    match a with
    | AText s => let p := locked_from_str st s in (fst p, OText (snd p))
    | AStar => let p := locked_comb_all st in (fst p, OStar (snd p))
    end.
  Definition locks_after (acts : list act) : locks := fold_left (fun st a => fst (act_step st a)) acts locks_new.
  (** The outcome of [a] in a process that made the calls [before]. *)
  Definition outcome_after (before : list act) (a : act) : outcome := snd (act_step (locks_after before) a).
End Locks.
