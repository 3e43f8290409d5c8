(** Model of the nth arithmetic: src/mesdoc/selector/pattern.rs, [Nth::get_allowed_indexs]. *)
From Verif Require Import Base Utils.
Open Scope Z_scope.

Definition isize_min : Z := - 2 ^ 63.
Definition isize_max : Z := 2 ^ 63 - 1.

(** An [isize] operation: the exact result, or a panic when it does not fit (debug build). *)
Definition chk (z : Z) : res Z :=
  if (isize_min <=? z) && (z <=? isize_max) then Ok z else Panic.

(** [x as usize] on an [isize]: two's complement reinterpretation. *)
Definition as_usize (z : Z) : Z := z mod 2 ^ 64.

(** [start..=end]. *)
Definition zrange (s e : Z) : list Z :=
  map (fun k => s + Z.of_nat k) (seq 0 (Z.to_nat (e - s + 1))).

(** pattern.rs:318-328: the loop over [i in start..=end]; [cur_index < 1] is skipped,
    the pushed value is [cur_index - 1] (a [usize], kept as [Z] because it can be huge). *)
Definition nth_loop (n index : Z) (is : list Z) : res (list Z) :=
  rfold (fun acc i =>
           do p <- chk (i * n);
           do q <- chk (p + index);
           let cur_index := as_usize q in
           Ok (if cur_index <? 1 then acc else acc ++ [cur_index - 1])) is [].

(** pattern.rs:270-333 (the case with an [n] part), after the numerals have been parsed.
    [total] is the [usize] number of siblings. *)
Definition allowed_with_n (n index total : Z) : res (list Z) :=
  if n =? 0 then
    if 0 <? index then
      if index <=? total then Ok [index - 1] else Ok []
    else Ok []
  else
    let finish start_loop end_loop :=
      let start_loop := if start_loop <? 0 then 0 else start_loop in
      if end_loop <? start_loop then Ok []
      else
        do l <- nth_loop n index (zrange start_loop end_loop);
        Ok (if n <? 0 then rev l else l) in
    if n <? 0 then
      if index <=? 0 then Ok []
      else
        do m <- chk (- n);
        if index <=? m then
          if index <=? total then Ok [index - 1] else Ok []
        else
          do d1 <- chk (index - total);
          do d2 <- chk (index - 1);
          finish (divide_isize d1 m Ceil) (divide_isize d2 m Floor)
    else
      do d1 <- chk (1 - index);
      do d2 <- chk (total - index);
      finish (divide_isize d1 n Ceil) (divide_isize d2 n Floor).

(** pattern.rs:334-343 (only an index). *)
Definition allowed_only_index (index total : Z) : res (list Z) :=
  if (index <=? 0) || (total <? index) then Ok [] else Ok [index - 1].

(** A parsed formula: [(Some a, b)] for [an+b] ([b] absent is 0), [(None, b)] for a bare integer. *)
Definition nth_formula := (option Z * Z)%type.

(** pattern.rs:264-343 [get_allowed_indexs].  The numerals are stored as texts and read by
    [parse::<isize>().unwrap()] / [expect] here (pattern.rs:272-276, 335-340): [chk].  The formula holds the numbers
    the texts stand for. *)
Definition get_allowed_indexs (f : nth_formula) (total : nat) : res (list Z) :=
  match fst f with
  | Some n => do n <- chk n; do index <- chk (snd f); allowed_with_n n index (Z.of_nat total)
  | None => do index <- chk (snd f); allowed_only_index index (Z.of_nat total)
  end.
Close Scope Z_scope.
