(** Model of the text node functions: src/lib.rs:998-1081 ([texts_by_rec], [into_text]),
    src/mesdoc/interface/element.rs:322-341, elements.rs:2897-2903, 3115-3153, texts.rs:52-77. *)
From Verif Require Import Base Attr Dom Mutate.

(** A "text" of the interface is a text node or a content-tag element seen as text (lib.rs:1072-1081). *)
Definition content_el (o : oracles_dom) (h : heap) (x : id) : bool := od_content_tag o (tag_names h x).

(** lib.rs:1012-1061 [loop_handle].  [limit = None] stands for [usize::MAX] (lib.rs:1004-1008): no document is
    that deep.  The two handles are pure functions. *)
Definition deeper (limit : option nat) (d : nat) : bool :=
  match limit with Some n => d <? n | None => true end.
Fixpoint texts_loop (fuel : nat) (o : oracles_dom) (h : heap) (limit : option nat) (handle : nat -> id -> bool)
    (rec : id -> bool) (depth : nat) (x : id) : res (list id) :=
  match fuel with
  | 0 => OutOfFuel
  | S f =>
      match kids h x with
      | [] => Ok (if content_el o h x then if handle depth x then [x] else [] else [])
      | cs =>
          rfold (fun acc c =>
            if is_text h c then Ok (if handle depth c then acc ++ [c] else acc)
            else if is_element h c then
              if content_el o h c then Ok (if handle depth c then acc ++ [c] else acc)
              else if deeper limit (S depth) && rec c then
                do l <- texts_loop f o h limit handle rec (S depth) c; Ok (acc ++ l)
              else Ok acc
            else Ok acc) cs []
      end
  end.
(** lib.rs:998-1069 [texts_by_rec] ([None] for "no text" is the empty list here: elements.rs:3122, 3146 treat
    them alike). *)
Definition texts_by_rec (o : oracles_dom) (h : heap) (x : id) (limit : nat) (handle : nat -> id -> bool)
    (rec : id -> bool) : res (list id) :=
  texts_loop (S (length h)) o h (match limit with 0 => None | n => Some n end) handle rec 0 x.
(** element.rs:324-335 *)
Definition texts_by o h x limit handle := texts_by_rec o h x limit handle (fun _ => true).
Definition texts o h x limit := texts_by o h x limit (fun _ _ => true).

(** elements.rs:3118-3152 on a set: one element after the other. *)
Definition set_texts_by_rec o h (els : list id) limit handle rec : res (list id) :=
  rfold (fun acc x => do l <- texts_by_rec o h x limit handle rec; Ok (acc ++ l)) els [].
Definition set_texts_by o h els limit handle := set_texts_by_rec o h els limit handle (fun _ => true).
Definition set_texts o h els limit := set_texts_by o h els limit (fun _ _ => true).

(** elements.rs:2897-2903 [text]; the text of one element is rphtml's. *)
Definition set_text_of (text_of : id -> str) (els : list id) : str :=
  fold_left (fun acc x => acc ++ text_of x) els [].

(** texts.rs:52-70 [Texts::filter_by]: [typed().into_text()] gives [None] for an element (lib.rs:170-178,
    node.rs:35-40), and [expect] panics. *)
Fixpoint texts_filter_from (h : heap) (handle : nat -> id -> bool) (i : nat) (ts : list id) : res (list id) :=
  match ts with
  | [] => Ok []
  | t :: ts' =>
      if handle i t then
        if is_text h t then do l <- texts_filter_from h handle (S i) ts'; Ok (t :: l) else Panic
      else texts_filter_from h handle (S i) ts'
  end.
Definition texts_filter (h : heap) (handle : nat -> id -> bool) (ts : list id) : res (list id) :=
  texts_filter_from h handle 0 ts.

(** texts.rs:72-76 [Texts::remove]: one text after the other. *)
Definition texts_remove (h : heap) (ts : list id) : res heap := rfold text_remove ts h.
