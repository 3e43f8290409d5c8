(** What users mean by the html, head and body element and the title of a document. *)
From Verif Require Import Base Dom DomSpec SelSpec.

(** [x] is the first element of that name in the document. *)
Definition FirstNamed (h : heap) (r : id) (name : str) (x : id) : Prop :=
  ElIn h r x /\ NameIs h x name /\ forall y, ElIn h r y -> NameIs h y name -> y = x \/ Before h x y.
Definition NoneNamed (h : heap) (r : id) (name : str) : Prop := forall y, ElIn h r y -> ~ NameIs h y name.
(** [l] lists the elements of that name inside [x], in document order. *)
Definition AllNamed (h : heap) (x : id) (name : str) (l : list id) : Prop :=
  Ordered h l /\ forall y, In y l <-> Anc h x y /\ NameIs h y name.
