(** Specification vocabulary for texts and form values, on the stored tree only. *)
From Verif Require Import Base Attr Dom DomSpec OrderSpec Mutate TextNodes Form.

(** A text node, spaces between tags included (lib.rs:193). *)
Definition IsText (h : heap) (t : id) : Prop := ntype_of h t = NText \/ ntype_of h t = NSpaces.
(** What counts as a text: a text node, or a content-tag element (script, style, ...). *)
Definition Textual (o : oracles_dom) (h : heap) (t : id) : Prop :=
  IsText h t \/ is_element h t = true /\ od_content_tag o (tag_names h t) = true.

(** [t] is a text [d] levels below the children of [x], every element in between being an ordinary one that the
    caller wants opened. *)
Definition TextBelow (o : oracles_dom) (h : heap) (open : id -> bool) (x : id) (d : nat) (t : id) : Prop :=
  (exists l, Path h x l t /\ length l = S d) /\ Textual o h t /\
  forall c, Anc h x c -> Anc h c t ->
    is_element h c = true /\ od_content_tag o (tag_names h c) = false /\ open c = true.

(** Limit 0 means no limit. *)
Definition Within (limit d : nat) : Prop := limit = 0 \/ d < limit.

(** * Options of a select *)
Definition IsOption (h : heap) (x : id) : Prop := is_element h x = true /\ tag_names h x = lit "option".
(** An option below [s], at any depth, not inside another option. *)
Definition OptionOf (h : heap) (s y : id) : Prop :=
  Anc h s y /\ IsOption h y /\ forall c, Anc h s c -> Anc h c y -> ~ IsOption h c.
Definition Selected (h : heap) (y : id) : Prop := node_has_attribute h y (lit "selected") = Ok true.
(** The value attribute; "" when it is missing or has no value. *)
Definition HasValue (h : heap) (y : id) (v : str) : Prop :=
  (exists q, node_attribute h y (lit "value") = Ok (Some (AV v q))) \/
  v = [] /\ (node_attribute h y (lit "value") = Ok None \/ node_attribute h y (lit "value") = Ok (Some ATrue)).

(** The first node in document order with a property. *)
Definition FirstIn (h : heap) (P : id -> Prop) (y : id) : Prop :=
  P y /\ forall z, P z -> z = y \/ Before h y z.

(** No element other than options more than 255 levels below the select. *)
Definition Shallow (h : heap) (s : id) : Prop :=
  forall l y, Path h s l y -> l <> [] -> is_element h y = true ->
    (forall c, Anc h s c -> AncEq h c y -> ~ IsOption h c) -> length l < 256.
(** Such an element. *)
Definition TooDeep (h : heap) (s : id) : Prop :=
  exists l y, Path h s l y /\ 256 <= length l /\ is_element h y = true /\
    forall c, Anc h s c -> AncEq h c y -> ~ IsOption h c.
