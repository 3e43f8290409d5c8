(** Property theorems: nth arithmetic (C01). *)
From Verif Require Import Base Nth NthSpec NthProofs.
Open Scope Z_scope.

(** C01, for every formula and number of siblings outside the regimes the code rounds wrongly. *)
Theorem C01_nth_positions_partial (f : nth_formula) (total : nat) :
  NthSmall (formula_step f) (snd f) (Z.of_nat total) ->
  NthSafe (formula_step f) (snd f) (Z.of_nat total) ->
  exists l, get_allowed_indexs f total = Ok l /\ ZIncr l /\
            forall x, In x l <-> NthPos (formula_step f) (snd f) (Z.of_nat total) (x + 1).
Proof. exact (allowed_correct f total). Qed.
Print Assumptions C01_nth_positions_partial.

(** The hypotheses are met by, for instance, 3n+1 among 7 siblings (positions 1, 4, 7) and -n+3. *)
Example C01_ex1 : NthSmall 3 1 7 /\ NthSafe 3 1 7 /\ get_allowed_indexs (Some 3, 1) 7 = Ok [0; 3; 6].
Proof. unfold NthSmall, NthSafe. repeat split; lia. Qed.
Example C01_ex2 : NthSmall (-1) 3 7 /\ NthSafe (-1) 3 7 /\ get_allowed_indexs (Some (-1), 3) 7 = Ok [0; 1; 2].
Proof. unfold NthSmall, NthSafe. repeat split; lia. Qed.

(** Outside these regimes the produced list always holds an index past the last sibling: the condition
    [NthSafe] of the positive theorem can not be weakened. *)
Theorem C01_nth_unsafe_out_of_range (a b total : Z) :
  NthSmall a b total -> ~ NthSafe a b total ->
  exists l x, allowed_with_n a b total = Ok l /\ In x l /\ total <= x.
Proof. exact (allowed_unsafe a b total). Qed.
Print Assumptions C01_nth_unsafe_out_of_range.

Example C01_ex3 : NthSmall 3 (-1) 5 /\ ~ NthSafe 3 (-1) 5.
Proof. unfold NthSmall, NthSafe. split; [lia|]. intros (H & _). apply H. lia. Qed.

(** The full claim of C01 is false of the code: 3n-1, 3n+2 with one sibling, -2n+6 with five. *)
Theorem C01_nth_positions_refuted :
  exists (f : nth_formula) (total : nat) l x,
    NthSmall (formula_step f) (snd f) (Z.of_nat total) /\
    get_allowed_indexs f total = Ok l /\ In x l /\ Z.of_nat total <= x.
Proof.
  exists (Some 3, 2), 1%nat. eexists. exists 1. unfold NthSmall. cbn [formula_step fst snd].
  split; [lia|]. split; [vm_compute; reflexivity|]. split; [left; reflexivity | lia].
Qed.
Print Assumptions C01_nth_positions_refuted.

Example C01_refuted_3n_minus_1 : get_allowed_indexs (Some 3, -1) 5 = Ok [18446744073709551614; 1; 4].
Proof. vm_compute. reflexivity. Qed.
Example C01_refuted_minus_2n_6 : get_allowed_indexs (Some (-2), 6) 5 = Ok [1; 3; 5].
Proof. vm_compute. reflexivity. Qed.
