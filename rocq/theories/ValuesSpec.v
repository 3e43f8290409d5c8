(** What going over a set is expected to do. *)
From Verif Require Import Base Dom.

(** The first [n] of the nodes were visited, in order, each with its position; [states] are the states before and after
    each visit, [answers] what the handle answered. *)
Record Visited {S T} (handle : nat -> id -> S -> res (T * S)) (els : list id) (n : nat) (states : list S) (answers : list T) : Prop := mkVisited {
  vi_len : n <= length els;
  vi_states : length states = n + 1;
  vi_answers : length answers = n;
  vi_visit : forall j x st st' a, j < n -> nth_error els j = Some x -> nth_error states j = Some st -> nth_error states (j + 1) = Some st' -> nth_error answers j = Some a ->
             handle j x st = Ok (a, st')
}.
(** The visits begin in [st] and end in [st']. *)
Definition From {S} (states : list S) (st st' : S) : Prop := nth_error states 0 = Some st /\ exists l, states = l ++ [st'].

(** The texts [l] one after the other, with one comma between any two. *)
Inductive Commas : list str -> str -> Prop :=
| Commas_nil : Commas [] []
| Commas_one w : Commas [w] w
| Commas_cons w l s : l <> [] -> Commas l s -> Commas (w :: l) (w ++ [44%N] ++ s).
