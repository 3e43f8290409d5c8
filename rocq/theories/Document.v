(** The accessors of a document. *)
From Verif Require Import Base Dom Sets Query TextNodes.

Section Document.
  Variable wide_digit : char -> bool.
  Variable h : heap.
  Variable text_of : id -> str.
  Variable by_id : id -> str -> option id.

  (** elements.rs:351-358 [document] of a set: that of the first element which has one. *)
  Fixpoint set_document (els : list id) : option id :=
    match els with
    | [] => None
    | x :: els' => match owner_document h x with Some d => Some d | None => set_document els' end
    end.
  (** interface/node.rs:59-65 [root_element] of the root node [r] of the document (lib.rs:1128-1130); the root node is taken
      as an element by [typed] (lib.rs:170-179). *)
  Definition root_element (r : id) : option id := owner_document h r.
  (** interface/document.rs:14-20 [document_element], 33-39 [head], 41-47 [body]: [root.find(tag).get(0)]. *)
  Definition doc_first (r : id) (tag : str) : res (option id) :=
    match root_element r with
    | None => Ok None
    | Some d => do p <- find_text wide_digit h text_of by_id [d] tag; Ok (nth_error (fst p) 0)
    end.
  Definition document_element (r : id) : res (option id) := doc_first r (lit "html").
  Definition doc_head (r : id) : res (option id) := doc_first r (lit "head").
  Definition doc_body (r : id) : res (option id) := doc_first r (lit "body").
  (** interface/document.rs:22-31 [title]. *)
  Definition doc_title (r : id) : res (option str) :=
    match root_element r with
    | None => Ok None
    | Some d =>
        do p <- find_text wide_digit h text_of by_id [d] (lit "head");
        do q <- find_text wide_digit h text_of by_id (eq_ (fst p) 0) (lit "title");
        Ok (match fst q with [] => None | l => Some (set_text_of text_of l) end)
    end.
End Document.
