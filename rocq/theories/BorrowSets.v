(** The attribute and class calls on sets (src/mesdoc/interface/elements.rs) once more with the run-time borrow checks of
    [Borrow]: every read of an element is a call of lib.rs:611-633 and every change one of lib.rs:666-750, so the checks are
    those of [b_get_attribute], [b_set_attribute] and [b_remove_attribute].  Between them only owned strings are kept. *)
From Verif Require Import Base Utils Attr ClassOps Dom Sets Mutate Html Live Borrow BorrowSpec.

(** elements.rs:3260-3265 [set_attr] and 3296-3301 [remove_attr]. *)
Definition b_set_attr_all (o : oracles_attr) (l : list id) (name : str) (value : option str) : B unit :=
  each l (fun x => b_set_attribute o x name value).
Definition b_remove_attr_all (l : list id) (name : str) : B unit := each l (fun x => b_remove_attribute x name).

(** elements.rs:3381-3403 [add_class]. *)
Definition b_add_class_all (o : oracles_attr) (l : list id) (cls : str) : B unit :=
  let names := get_class_list cls in
  if no_names names then ret tt else
  each l (fun x =>
    let! cv := b_get_attribute x ATTR_CLASS in
    match cv with
    | Some (AV c _) => b_set_attribute o x ATTR_CLASS (Some (class_list_to_string (push_new (get_class_list c) names)))
    | _ => b_set_attribute o x ATTR_CLASS (Some cls)
    end).

(** elements.rs:3432-3457 [remove_class]. *)
Definition b_remove_class_all (o : oracles_attr) (l : list id) (cls : str) : B unit :=
  let cls := trim cls in
  if no_names cls then ret tt else
  let names := get_class_list cls in
  each l (fun x =>
    let! cv := b_get_attribute x ATTR_CLASS in
    match cv with
    | Some (AV c _) =>
        let orig := get_class_list c in
        let removed := removed_positions orig names in
        if no_names removed then ret tt else
        let! kept := pure (retain_by_index orig removed) in
        b_set_attribute o x ATTR_CLASS (Some (class_list_to_string kept))
    | _ => ret tt
    end).

(** elements.rs:3486-3525 [toggle_class]. *)
Definition b_toggle_class_all (o : oracles_attr) (l : list id) (cls : str) : B unit :=
  let cls := trim cls in
  if no_names cls then ret tt else
  let names := get_class_list cls in
  each l (fun x =>
    let! cv := b_get_attribute x ATTR_CLASS in
    match cv with
    | Some (AV c _) =>
        let orig := get_class_list c in
        let removed := removed_positions orig names in
        let added := filter (fun n => negb (match position n orig with Some _ => true | None => false end)) names in
        let! kept := (if no_names removed then ret orig else pure (retain_by_index orig removed)) in
        if no_names removed && no_names added then ret tt
        else b_set_attribute o x ATTR_CLASS (Some (class_list_to_string (kept ++ added)))
    | _ => b_set_attribute o x ATTR_CLASS (Some cls)
    end).

(** elements.rs:3328-3353 [has_class]: the loop stops at the first element with all the names. *)
Fixpoint b_any (l : list id) (k : id -> B bool) : B bool :=
  match l with
  | [] => ret false
  | x :: l' => let! b := k x in if b then ret true else b_any l' k
  end.
Definition b_has_class_any (l : list id) (cls : str) : B bool :=
  let cls := trim cls in
  if no_names cls then ret false else
  let names := get_class_list cls in
  b_any l (fun x =>
    let! cv := b_get_attribute x ATTR_CLASS in
    match cv with
    | Some (AV c _) => ret (forallb (list_contains (get_class_list c)) names)
    | _ => ret false
    end).

(** Programs of calls on one node and on sets. *)
Inductive scall :=
| SOne (c : bcall)
| SSetAttr (l : list id) (name : str) (value : option str)
| SRemoveAttr (l : list id) (name : str)
| SAddClass (l : list id) (cls : str)
| SRemoveClass (l : list id) (cls : str)
| SToggleClass (l : list id) (cls : str).
Definition s_call (o : oracles_dom) (oa : oracles_attr) (parse : parser) (c : scall) : B unit :=
  match c with
  | SOne c => b_call o oa parse c
  | SSetAttr l name value => b_set_attr_all oa l name value
  | SRemoveAttr l name => b_remove_attr_all l name
  | SAddClass l cls => b_add_class_all oa l cls
  | SRemoveClass l cls => b_remove_class_all oa l cls
  | SToggleClass l cls => b_toggle_class_all oa l cls
  end.
Fixpoint s_calls (o : oracles_dom) (oa : oracles_attr) (parse : parser) (l : list scall) : B unit :=
  match l with
  | [] => ret tt
  | c :: l' => s_call o oa parse c ;; s_calls o oa parse l'
  end.
(** The same call without borrow checks. *)
Definition plain_s (c : scall) : call :=
  match c with
  | SOne c => plain c
  | SSetAttr l name value => KSetAttr l name value
  | SRemoveAttr l name => KRemoveAttr l name
  | SAddClass l cls => KAddClass l cls
  | SRemoveClass l cls => KRemoveClass l cls
  | SToggleClass l cls => KToggleClass l cls
  end.
