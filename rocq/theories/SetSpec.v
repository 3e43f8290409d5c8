(** Specification of the calls made on sets of several elements. *)
From Verif Require Import Base Dom DomSpec Order OrderSpec Engine Rules SelSpec FindSpec TravSpec.

Section SetSpec.
  Variable h : heap.
  (** The nodes at which the filter's first rule is run as a rule on children: the members themselves, or the parents
      that two members share. *)
  Definition KidsAt (c : comb) (els : list id) (y : id) : Prop :=
    match c with
    | Children => In y els
    | Siblings => exists a b, In a els /\ In b els /\ a <> b /\ parent h a = Some y /\ parent h b = Some y
    | _ => False
    end.
  (** The members from which the [_until] walks start: those with no earlier (for [Prev]: no later) sibling in the set. *)
  Definition Outer (c : comb) (els : list id) (x : id) : Prop :=
    In x els /\ forall e, In e els -> parent h e = parent h x ->
      match c with Next => index h x <= index h e | Prev => index h e <= index h x | _ => True end.
  (** No two members have the same parent. *)
  Definition Apart (els : list id) : Prop := forall x y, In x els -> In y els -> parent h x = parent h y -> x = y.
End SetSpec.
