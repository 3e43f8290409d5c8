(** What a step with a filter text returns: the text is walked from the element, its first combinator replaced by the step. *)
From Verif Require Import Base Dom DomSpec OrderSpec Engine Rules SelSpec FindSpec TravSpec.

(** The step in place of the first combinator; a text that starts with a combinator of its own is walked after the step. *)
Definition head_with {A} (all : A) (c : comb) (g : list (list (A * comb))) : list (list (A * comb)) :=
  match g with
  | ((p, ChildrenAll) :: cp) :: rest => ((p, c) :: cp) :: rest
  | _ => [(all, c)] :: g
  end.

Section StepSpec.
  Variable h : heap.
  Variable text_of : id -> str.

  Definition StepTo (c : comb) (x : id) (g : list (list (rule * comb))) : id -> Prop :=
    Walk h (fun s => s = x) (head_with (fun _ => True) c (preds h text_of g)).
  (** What is left to walk after the first step. *)
  Definition rest_of (g : list (list (rule * comb))) : list (list (rule * comb)) :=
    match g with cp :: rest => if comb_eqb (comp_comb cp) ChildrenAll then rest else g | [] => [] end.
  (** Where the first step leads. *)
  Definition FirstTo (c : comb) (x : id) (g : list (list (rule * comb))) (y : id) : Prop :=
    Rel h c x y /\ match g with cp :: _ => comp_comb cp = ChildrenAll -> CompHolds (comp_preds h text_of cp) y | [] => True end.
  (** Every step of the walk is sound. *)
  Definition StepOk (c : comb) (x : id) (g : list (list (rule * comb))) : Prop :=
    match g with
    | cp :: _ => comp_comb cp = ChildrenAll -> RuleSafe h c (head_rule cp) (fun y => y = x)
    | [] => True
    end /\ StepsOk h text_of (FirstTo c x g) True (rest_of g).
  Definition StepOrd (c : comb) (x : id) (g : list (list (rule * comb))) : Prop :=
    StepsOrd h text_of (FirstTo c x g) True (rest_of g).

  (** * The same from a set; [ord]: the step without the text gives a set in document order. *)
  Definition StepFrom (c : comb) (els : list id) (g : list (list (rule * comb))) : id -> Prop :=
    Walk h (fun s => In s els) (head_with (fun _ => True) c (preds h text_of g)).
  Definition FirstFrom (c : comb) (els : list id) (g : list (list (rule * comb))) (y : id) : Prop :=
    (exists x, In x els /\ Rel h c x y) /\ match g with cp :: _ => comp_comb cp = ChildrenAll -> CompHolds (comp_preds h text_of cp) y | [] => True end.
  Definition SetStepOk (c : comb) (els : list id) (ord : Prop) (g : list (list (rule * comb))) : Prop :=
    match g with
    | cp :: _ => comp_comb cp = ChildrenAll -> comp_any_order cp = true /\ RuleSafe h c (head_rule cp) (fun y => In y els)
    | [] => True
    end /\ StepsOk h text_of (FirstFrom c els g) ord (rest_of g).
  Definition SetStepOrd (c : comb) (els : list id) (ord : Prop) (g : list (list (rule * comb))) : Prop :=
    StepsOrd h text_of (FirstFrom c els g) ord (rest_of g).
End StepSpec.
