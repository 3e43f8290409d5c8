(** Model of the class operations of [Elements], for one element of the set
    (src/mesdoc/interface/elements.rs:3328-3525; the outer loops run the same code on every element). *)
From Verif Require Import Base Utils Attr.

(** src/mesdoc/constants.rs [ATTR_CLASS]: "class". *)
Definition ATTR_CLASS : str := [99; 108; 97; 115; 115]%N.

Definition list_contains (l : list str) (x : str) : bool := existsb (str_eqb x) l.

(** [iter().position(|name| name == class_name)]. *)
Fixpoint position (x : str) (l : list str) : option nat :=
  match l with
  | [] => None
  | y :: l' => if str_eqb y x then Some 0
               else match position x l' with Some i => Some (S i) | None => None end
  end.

(** elements.rs:3328-3353 [has_class]. *)
Definition has_class (m : meta) (class_name : str) : res bool :=
  let class_name := trim class_name in
  match class_name with
  | [] => Ok false
  | _ =>
      let class_list := get_class_list class_name in
      do cv <- get_attribute m ATTR_CLASS;
      Ok (match cv with
          | Some (AV cls _) => forallb (list_contains (get_class_list cls)) class_list
          | _ => false
          end)
  end.

(** elements.rs:3387-3391: pushing the new names. *)
Definition push_new (orig : list str) (names : list str) : list str :=
  fold_left (fun l n => if list_contains l n then l else l ++ [n]) names orig.

(** elements.rs:3381-3403 [add_class]. *)
Definition add_class (o : oracles_attr) (m : meta) (class_name : str) : res meta :=
  let class_list := get_class_list class_name in
  match class_list with
  | [] => Ok m
  | _ =>
      do cv <- get_attribute m ATTR_CLASS;
      match cv with
      | Some (AV cls _) =>
          let l := push_new (get_class_list cls) class_list in
          set_attribute o m ATTR_CLASS (Some (class_list_to_string l))
      | _ => set_attribute o m ATTR_CLASS (Some class_name)
      end
  end.

(** elements.rs:3440-3445: the positions of the names, in the order of the names. *)
Fixpoint removed_positions (orig names : list str) : list nat :=
  match names with
  | [] => []
  | n :: names' =>
      match position n orig with
      | Some i => i :: removed_positions orig names'
      | None => removed_positions orig names'
      end
  end.

(** elements.rs:3432-3457 [remove_class]. *)
Definition remove_class (o : oracles_attr) (m : meta) (class_name : str) : res meta :=
  let class_name := trim class_name in
  match class_name with
  | [] => Ok m
  | _ =>
      let class_list := get_class_list class_name in
      do cv <- get_attribute m ATTR_CLASS;
      match cv with
      | Some (AV cls _) =>
          let orig := get_class_list cls in
          match removed_positions orig class_list with
          | [] => Ok m
          | removed =>
              do l <- retain_by_index orig removed;
              set_attribute o m ATTR_CLASS (Some (class_list_to_string l))
          end
      | _ => Ok m
      end
  end.

(** elements.rs:3486-3525 [toggle_class]. *)
Definition toggle_class (o : oracles_attr) (m : meta) (class_name : str) : res meta :=
  let class_name := trim class_name in
  match class_name with
  | [] => Ok m
  | _ =>
      let class_list := get_class_list class_name in
      do cv <- get_attribute m ATTR_CLASS;
      match cv with
      | Some (AV cls _) =>
          let orig := get_class_list cls in
          let removed := removed_positions orig class_list in
          let added := filter (fun n => negb (match position n orig with Some _ => true | None => false end)) class_list in
          do l <- match removed with [] => Ok orig | _ => retain_by_index orig removed end;
          let l' := l ++ added in
          match removed, added with
          | [], [] => Ok m
          | _, _ => set_attribute o m ATTR_CLASS (Some (class_list_to_string l'))
          end
      | _ => set_attribute o m ATTR_CLASS (Some class_name)
      end
  end.
