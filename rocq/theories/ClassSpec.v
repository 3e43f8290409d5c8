(** What users mean by the classes of an element. *)
From Verif Require Import Base UtilsSpec Attr.

Definition CLASS : str := [99; 108; 97; 115; 115]%N.

(** The element has a class attribute with a value, naming exactly the classes [l], in this order. *)
Definition HasClassValue (m : meta) (l : list str) : Prop :=
  exists v q, get_attribute m CLASS = Ok (Some (AV v q)) /\ Words v l.

(** The element has no class attribute, or one without a value. *)
Definition NoClassValue (m : meta) : Prop :=
  get_attribute m CLASS = Ok None \/ get_attribute m CLASS = Ok (Some ATrue).

(** The classes of the element. *)
Definition HasClasses (m : meta) (l : list str) : Prop :=
  HasClassValue m l \/ (NoClassValue m /\ l = []).

(** The common names of an argument list and a class list are listed in the same order and once. *)
Definition SameOrder (old names : list str) : Prop :=
  filter (fun n => if in_dec str_dec n old then true else false) names =
  filter (fun c => if in_dec str_dec c names then true else false) old.

(** The quote characters do not mix over the two strings. *)
Definition NoMix (names old : list str) : Prop :=
  ~ (In 34%N (concat names ++ concat old) /\ In 39%N (concat names ++ concat old)).

(** Other attributes read as before. *)
Definition SameOthers (m m' : meta) : Prop :=
  forall name, str_lower name <> CLASS ->
  exists a a', get_attribute m name = Ok a /\ get_attribute m' name = Ok a' /\
    match a, a' with
    | None, None => True
    | Some (AV v _), Some (AV v' _) => v = v'
    | Some ATrue, Some ATrue => True
    | _, _ => False
    end.
