(** Model of the value of a form control: src/lib.rs:462-553 [value], src/mesdoc/interface/elements.rs:2857-2862
    [val]. *)
From Verif Require Import Base Attr Dom.

(** interface/element.rs [IFormValue]. *)
Inductive form_value :=
| Single (v : str)
| Multiple (vs : list str).

Definition tag_is (h : heap) (x : id) (name : str) : bool := str_eqb (tag_names h x) name.

(** lib.rs:470-474, 502-507: the value attribute when it has a value, else "". *)
Definition value_attr (h : heap) (x : id) : res str :=
  do a <- node_attribute h x (lit "value");
  Ok (match a with Some (AV v _) => v | _ => [] end).

(** lib.rs:486-532 [collect_option_values]; the state is (default_value, values).  [level] is a [u8]: adding one
    to 255 overflows (panic under debug checks). *)
Definition top_level : nat := 255.
Fixpoint collect_options (fuel : nat) (h : heap) (multiple : bool) (level : nat) (x : id)
    (st : option str * list str) : res (option str * list str) :=
  match fuel with
  | 0 => OutOfFuel
  | S f =>
      (fix loop (cs : list id) (st : option str * list str) : res (option str * list str) :=
         match cs with
         | [] => Ok st
         | c :: cs' =>
             if is_element h c then
               if tag_is h c (lit "option") then
                 do selected <- node_has_attribute h c (lit "selected");
                 if selected || (match fst st with None => true | Some _ => false end && (level =? 0)) then
                   do v <- value_attr h c;
                   if selected then
                     if multiple then loop cs' (fst st, snd st ++ [v]) else Ok (fst st, snd st ++ [v])
                   else loop cs' (Some v, snd st)
                 else loop cs' st
               else
                 if level =? top_level then Panic
                 else do st' <- collect_options f h multiple (S level) c st; loop cs' st'
             else loop cs' st
         end) (kids h x) st
  end.

(** lib.rs:462-553; [text_of] is rphtml's text of an element. *)
Definition value (text_of : id -> str) (h : heap) (x : id) : res form_value :=
  if tag_is h x (lit "input") || tag_is h x (lit "option") then
    do v <- value_attr h x; Ok (Single v)
  else if tag_is h x (lit "select") then
    do multiple <- node_has_attribute h x (lit "multiple");
    do st <- collect_options (S (length h)) h multiple 0 x (None, []);
    Ok (if multiple then Multiple (snd st)
        else match snd st with
             | v :: _ => Single v
             | [] => Single (match fst st with Some v => v | None => [] end)
             end)
  else if tag_is h x (lit "textarea") then Ok (Single (text_of x))
  else Ok (Single []).

(** elements.rs:2857-2862 *)
Definition val (text_of : id -> str) (h : heap) (els : list id) : res form_value :=
  match els with
  | x :: _ => value text_of h x
  | [] => Ok (Single [])
  end.
