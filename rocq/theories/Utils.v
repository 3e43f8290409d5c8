(** Model of src/mesdoc/utils.rs. *)
From Verif Require Import Base.

(** utils.rs:11-51 [is_non_character]. *)
Definition is_non_character (c : char) : bool :=
  ((64976 <=? c) && (c <=? 65007))%N                      (* FDD0..FDEF *)
  || ((65534 <=? c) && (c <=? 1114111) && (65534 <=? c mod 65536))%N.  (* xFFFE, xFFFF, planes 0..16 *)

(** utils.rs:58-71 [is_char_available_in_key]. *)
Definition is_char_available_in_key (c : char) : bool :=
  if is_ascii_alnum c || (c =? 95)%N || (c =? 45)%N || (c =? 46)%N || (c =? 58)%N then true
  else negb (is_ascii_ws c || is_ascii_control c || is_non_character c || is_ascii_punct c || (c =? 0)%N).

(** utils.rs:73-77. *)
Inductive round_type := Floor | Ceil | Round.

(** utils.rs:78-111 [divide_isize].  Rust [/] and [%] truncate toward zero: [Z.quot]/[Z.rem].
    Simplification: values are unbounded integers; the callers' range checks are modelled
    where the callers are (Nth.v). *)
Definition divide_isize (a b : Z) (r : round_type) : Z :=
  let res := Z.quot a b in
  let remainder := Z.rem a b in
  match r with
  | Floor => if (res <? 0)%Z && negb (remainder =? 0)%Z then (res - 1)%Z else res
  | Ceil => if (0 <? res)%Z && negb (remainder =? 0)%Z then (res + 1)%Z else res
  | Round =>
      if negb (res =? 0)%Z && negb (remainder =? 0)%Z then
        let symbol := if (res <? 0)%Z then (-1)%Z else 1%Z in
        let total := (remainder * 2 - symbol * b)%Z in
        if ((0 <=? total)%Z && (0 <? a)%Z) || ((total <=? 0)%Z && (a <? 0)%Z)
        then (res + symbol)%Z else res
      else res
  end.

(** [Vec::remove(i)]: panics when [i >= len]. *)
Fixpoint vec_remove {A} (l : list A) (i : nat) : res (list A) :=
  match l, i with
  | [], _ => Panic
  | _ :: l', O => Ok l'
  | x :: l', S i' => do r <- vec_remove l' i'; Ok (x :: r)
  end.

(** utils.rs:113-116 [retain_by_index]: [for (i, index) in indexs.iter().enumerate() { v.remove(index - i) }]. *)
Fixpoint retain_loop {A} (v : list A) (indexs : list nat) (i : nat) : res (list A) :=
  match indexs with
  | [] => Ok v
  | index :: rest =>
      do k <- rsub index i;
      do v' <- vec_remove v k;
      retain_loop v' rest (S i)
  end.
Definition retain_by_index {A} (v : list A) (indexs : list nat) : res (list A) :=
  retain_loop v indexs 0.

(** utils.rs:128-152 [get_class_list]; the loop state is (class_list, class_name, prev_is_whitespace). *)
Fixpoint class_loop (s : str) (acc : list str) (name : str) (prev_ws : bool) : list str :=
  match s with
  | [] => if prev_ws then acc else acc ++ [name]
  | c :: s' =>
      if is_ascii_ws c then
        if prev_ws then class_loop s' acc name prev_ws
        else class_loop s' (acc ++ [name]) [] true
      else class_loop s' acc (name ++ [c]) false
  end.
Definition get_class_list (s : str) : list str := class_loop s [] [] true.

(** utils.rs:155-171 [class_list_to_string]: names joined by one space. *)
Fixpoint class_list_to_string (l : list str) : str :=
  match l with
  | [] => []
  | [x] => x
  | x :: l' => x ++ 32%N :: class_list_to_string l'
  end.

(** utils.rs:173-200 [is_equal_chars_ignore_case] ([c] is a char of [cmp]). *)
Fixpoint eq_ic_loop (target cmp : str) : bool :=
  match target, cmp with
  | ch :: t', c :: c' =>
      if char_eqb c ch then eq_ic_loop t' c'
      else if is_ascii_lower c then
             (if negb (char_eqb (to_upper c) ch) then false else eq_ic_loop t' c')
      else if is_ascii_upper c then
             (if negb (char_eqb (to_lower c) ch) then false else eq_ic_loop t' c')
      else false
  | _, _ => true
  end.
Definition is_equal_chars_ignore_case (target cmp : str) : bool :=
  if negb (length target =? length cmp) then false else eq_ic_loop target cmp.

(** utils.rs:202-214 [is_equal_chars]. *)
Fixpoint eq_loop (target cmp : str) : bool :=
  match target, cmp with
  | ch :: t', c :: c' => if negb (char_eqb ch c) then false else eq_loop t' c'
  | _, _ => true
  end.
Definition is_equal_chars (target cmp : str) : bool :=
  if length target =? length cmp then eq_loop target cmp else false.

(** utils.rs:222-227: the inner [for] sets [move_one] when some character differs. *)
Fixpoint window_differs (window search : str) : bool :=
  match window, search with
  | ch :: w', s :: s' => if char_eqb ch s then window_differs w' s' else true
  | _, _ => false
  end.

(** utils.rs:220-232: the [while start_index <= max_start_index] loop, [n] iterations left. *)
Fixpoint contains_loop (target search : str) (start n : nat) : bool :=
  match n with
  | O => false
  | S n' =>
      let window := firstn (length search) (skipn start target) in
      if negb (window_differs window search) then true
      else contains_loop target search (S start) n'
  end.

(** utils.rs:236-243 [contains_chars]. *)
Definition contains_chars (target search : str) : bool :=
  if length target <? length search then false
  else contains_loop target search 0 (S (length target - length search)).
