(** Common ground of the model: results, characters, strings.

    Everything here is representation only; no code of /repo is modelled in this file
    except where a line is cited. *)
From Coq Require Export List Arith NArith ZArith Lia Bool.
Export ListNotations.

(** Outcome of a piece of Rust code.  [Panic]: the code panics (index out of range, [unwrap] on
    [None], [unreachable!], arithmetic overflow under debug checks).  [OutOfFuel]: the model ran
    out of the recursion budget that stands for unbounded recursion / loops. *)
Inductive res (A : Type) : Type :=
| Ok (a : A)
| Panic
| OutOfFuel.
Arguments Ok {A} a.
Arguments Panic {A}.
Arguments OutOfFuel {A}.

Definition rbind {A B} (x : res A) (f : A -> res B) : res B :=
  match x with
  | Ok a => f a
  | Panic => Panic
  | OutOfFuel => OutOfFuel
  end.

Definition rmap {A B} (f : A -> B) (x : res A) : res B :=
  rbind x (fun a => Ok (f a)).

Declare Scope res_scope.
Delimit Scope res_scope with res.
Notation "'do' x <- e ; f" := (rbind e (fun x => f))
  (at level 200, x pattern, e at level 100, f at level 200, right associativity) : res_scope.
Open Scope res_scope.

(** A [for] loop whose body may panic: the accumulator is threaded through. *)
Fixpoint rfold {A B} (f : B -> A -> res B) (l : list A) (acc : B) : res B :=
  match l with
  | [] => Ok acc
  | x :: l' => do acc' <- f acc x; rfold f l' acc'
  end.

(** Mapping a fallible function over a list, left to right. *)
Fixpoint rmapl {A B} (f : A -> res B) (l : list A) : res (list B) :=
  match l with
  | [] => Ok []
  | x :: l' => do y <- f x; do ys <- rmapl f l'; Ok (y :: ys)
  end.

(** Filtering by a fallible test, left to right. *)
Fixpoint rfilter {A} (f : A -> res bool) (l : list A) : res (list A) :=
  match l with
  | [] => Ok []
  | x :: l' => do b <- f x; do ys <- rfilter f l'; Ok (if b then x :: ys else ys)
  end.

(** [Iterator::any] with a fallible test: stops at the first success. *)
Fixpoint rexists {A} (f : A -> res bool) (l : list A) : res bool :=
  match l with
  | [] => Ok false
  | x :: l' => do b <- f x; if b then Ok true else rexists f l'
  end.

(** [v\[i\]]: panics when out of range. *)
Definition rnth {A} (l : list A) (i : nat) : res A :=
  match nth_error l i with
  | Some x => Ok x
  | None => Panic
  end.

(** [a - b] on [usize]: panics on underflow (debug build). *)
Definition rsub (a b : nat) : res nat :=
  if b <=? a then Ok (a - b) else Panic.

(** Lemmas for driving proofs over [res]. *)
Lemma rbind_ok {A B} (x : res A) (f : A -> res B) b :
  rbind x f = Ok b <-> exists a, x = Ok a /\ f a = Ok b.
Proof.
  destruct x as [a| |]; cbn; split; intros H.
  - exists a; split; [reflexivity | exact H].
  - destruct H as (a' & E & H). injection E as ->. exact H.
  - discriminate.
  - destruct H as (a' & E & _). discriminate.
  - discriminate.
  - destruct H as (a' & E & _). discriminate.
Qed.

Lemma rfilter_ok {A} (f : A -> res bool) (p : A -> bool) (l : list A) :
  (forall x, In x l -> f x = Ok (p x)) -> rfilter f l = Ok (filter p l).
Proof.
  induction l as [|x l IH]; intros H; cbn; [reflexivity|].
  rewrite (H x (or_introl eq_refl)); cbn.
  rewrite IH by (intros y Hy; apply H; right; exact Hy); cbn.
  destruct (p x); reflexivity.
Qed.

Lemma rexists_ok {A} (f : A -> res bool) (p : A -> bool) (l : list A) :
  (forall x, In x l -> f x = Ok (p x)) -> rexists f l = Ok (existsb p l).
Proof.
  induction l as [|x l IH]; intros H; cbn; [reflexivity|].
  rewrite (H x (or_introl eq_refl)); cbn.
  destruct (p x); cbn; [reflexivity|].
  apply IH. intros y Hy; apply H; right; exact Hy.
Qed.

Lemma rmapl_ok {A B} (f : A -> res B) (g : A -> B) (l : list A) :
  (forall x, In x l -> f x = Ok (g x)) -> rmapl f l = Ok (map g l).
Proof.
  induction l as [|x l IH]; intros H; cbn; [reflexivity|].
  rewrite (H x (or_introl eq_refl)); cbn.
  rewrite IH by (intros y Hy; apply H; right; exact Hy); reflexivity.
Qed.

(** Characters are Unicode code points, strings are lists of them. *)
Definition char := N.
Definition str := list char.

Definition char_eqb : char -> char -> bool := N.eqb.

Fixpoint str_eqb (a b : str) : bool :=
  match a, b with
  | [], [] => true
  | x :: a', y :: b' => char_eqb x y && str_eqb a' b'
  | _, _ => false
  end.

Lemma str_eqb_spec (a b : str) : str_eqb a b = true <-> a = b.
Proof.
  revert b; induction a as [|x a IH]; intros [|y b]; cbn; try (split; [discriminate | intros E; discriminate]).
  - split; reflexivity.
  - rewrite andb_true_iff, IH. unfold char_eqb. rewrite N.eqb_eq.
    split; [intros [-> ->]; reflexivity | intros E; injection E as -> ->; split; reflexivity].
Qed.

Lemma str_eqb_refl a : str_eqb a a = true.
Proof. apply str_eqb_spec; reflexivity. Qed.

Definition str_dec : forall a b : str, {a = b} + {a <> b} := list_eq_dec N.eq_dec.

(** ASCII classes of the Rust standard library (documented behaviour of
    [char::is_ascii_whitespace], [is_ascii_digit], [is_ascii_alphanumeric], ...). *)
Open Scope N_scope.
Definition is_ascii_ws (c : char) : bool :=
  (c =? 32) || (c =? 9) || (c =? 10) || (c =? 12) || (c =? 13).
Definition is_ascii_digit (c : char) : bool := (48 <=? c) && (c <=? 57).
Definition is_ascii_upper (c : char) : bool := (65 <=? c) && (c <=? 90).
Definition is_ascii_lower (c : char) : bool := (97 <=? c) && (c <=? 122).
Definition is_ascii_alnum (c : char) : bool :=
  is_ascii_digit c || is_ascii_upper c || is_ascii_lower c.
Definition is_ascii_control (c : char) : bool := (c <=? 31) || (c =? 127).
Definition is_ascii_punct (c : char) : bool :=
  ((33 <=? c) && (c <=? 47)) || ((58 <=? c) && (c <=? 64)) ||
  ((91 <=? c) && (c <=? 96)) || ((123 <=? c) && (c <=? 126)).
Definition to_lower (c : char) : char := if is_ascii_upper c then c + 32 else c.
Definition to_upper (c : char) : char := if is_ascii_lower c then c - 32 else c.
(** Unicode [White_Space], used by [str::trim] and by [\s] of the regex crate. *)
Definition is_unicode_ws (c : char) : bool :=
  ((9 <=? c) && (c <=? 13)) || (c =? 32) || (c =? 133) || (c =? 160) || (c =? 5760) ||
  ((8192 <=? c) && (c <=? 8202)) || (c =? 8232) || (c =? 8233) || (c =? 8239) || (c =? 8287) || (c =? 12288).
Close Scope N_scope.

(** [str::trim] (Rust standard library). *)
Fixpoint drop_ws (s : str) : str :=
  match s with
  | c :: s' => if is_unicode_ws c then drop_ws s' else s
  | [] => []
  end.
Definition trim (s : str) : str := rev (drop_ws (rev (drop_ws s))).

Definition str_lower (s : str) : str := map to_lower s.

(** ASCII literals, for constants and examples. *)
From Coq Require Ascii String.
Export String.StringSyntax.
Definition lit (s : String.string) : str := List.map Ascii.N_of_ascii (String.list_ascii_of_string s).
Arguments lit s%string_scope.
