(** The meaning of selectors, on the stored tree: when an element satisfies a simple selector, a compound, a
    chain of compounds.  Nothing here refers to how the library evaluates them. *)
From Verif Require Import Base UtilsSpec Nth NthSpec Attr AttrSpec ClassSpec Dom DomSpec OrderSpec Engine Rules.
From Coq Require Import Lists.List.

(** A document: well-formed, with root [r]; the root and every element know the root (text nodes made by [set_text] do
    not); every element has readable attributes. *)
Record DocOk (h : heap) (r : id) : Prop := mkDocOk {
  do_wf : WF h;
  do_root : is_root h r = true;
  do_owner : forall x, InTree h r x -> Container h x -> owner_document h x = Some r;
  do_meta : forall x, InTree h r x -> is_element h x = true ->
            exists m, n_meta (node_of h x) = Some m /\ MetaOk m
}.

Section Spec.
  Variable h : heap.
  Variable r : id.
  Variable text_of : id -> str.

  Definition ElIn (x : id) : Prop := InTree h r x /\ is_element h x = true.

  (** What stands for [s] in relation to [x] under a combinator. *)
  Definition Rel (c : comb) (s x : id) : Prop :=
    match c with
    | ChildrenAll => DescEl h s x
    | Children => ChildEl h s x
    | Next => NextEl h s x
    | NextAll => Following h s x
    | Prev => PrevEl h s x
    | PrevAll => Preceding h s x
    | Parent => Child h x s /\ is_element h x = true
    | ParentAll => Anc h x s /\ is_element h x = true
    | Siblings => exists p i j, Listed h p i s /\ Listed h p j x /\ i <> j /\ is_element h x = true
    | Chain => s = x
    end.

  (** The attribute [key] of [x]: absent, without value, with value. *)
  Definition ReadsAs (x : id) (key : str) (v : option (option str)) : Prop :=
    exists a, node_attribute h x key = Ok a /\ seen a = v.
  (** An attribute without a value has the empty value. *)
  Definition css_value (v : option (option str)) : option str :=
    match v with Some (Some s) => Some s | Some None => Some [] | None => None end.
  Definition AttrRel (mode : amode) (w : str) (v : option str) : Prop :=
    match mode with
    | MEq => v = Some w
    | MPrefix => w <> [] /\ exists s, v = Some (w ++ s)
    | MSuffix => w <> [] /\ exists s, v = Some (s ++ w)
    | MSub => w <> [] /\ exists s, v = Some s /\ Substring w s
    | MDash => v = Some w \/ exists s, v = Some (w ++ 45%N :: s)
    | MWord => exists s l, v = Some s /\ Words s l /\ In w l
    | MNot => v <> Some w
    end.
  Definition AttrHolds (key : str) (test : option (amode * str)) (x : id) : Prop :=
    exists v, ReadsAs x key v /\
      match test with
      | None => v <> None
      | Some (mode, w) => AttrRel mode w (css_value v)
      end.
  Definition NameIs (x : id) (name : str) : Prop :=
    is_element h x = true /\ exists m, n_meta (node_of h x) = Some m /\ EqIgnoreCase (m_name m) name.
  Definition ClassIs (x : id) (name : str) : Prop :=
    exists m l, n_meta (node_of h x) = Some m /\ HasClassValue m l /\ In name l.
  Definition IdIs (x : id) (name : str) : Prop := ReadsAs x (lit "id") (Some (Some name)).
  Definition Has (x : id) (key : str) : Prop := exists v, ReadsAs x key (Some v).

  (** [x] is the element number [i] (from 0) of the [total] element children of its parent. *)
  Definition SibPos (x : id) (i total : nat) : Prop :=
    exists p, nth_error (children h p) i = Some x /\ length (children h p) = total.
  (** ... of those with the same name. *)
  Definition same_type (x y : id) : bool := str_eqb (tag_names h y) (tag_names h x).
  Definition TypePos (x : id) (i total : nat) : Prop :=
    exists p, nth_error (filter (same_type x) (children h p)) i = Some x /\
      length (filter (same_type x) (children h p)) = total.
  (** The position counted from 1, from the start or from the end. *)
  Definition place_of (asc : bool) (i total : nat) : Z := if asc then Z.of_nat i + 1 else Z.of_nat total - Z.of_nat i.

  (** * :checked *)
  (** [y] is an option of the select element [p] (not one inside another option). *)
  Definition OptionOf (p y : id) : Prop :=
    DescEl h p y /\ NameIs y (lit "option") /\
    forall z, Anc h p z -> Anc h z y -> ~ NameIs z (lit "option").
  Definition CheckedBox (x : id) : Prop :=
    NameIs x (lit "input") /\
    (exists v, ReadsAs x (lit "type") (Some (Some v)) /\
       (EqIgnoreCase v (lit "checkbox") \/ EqIgnoreCase v (lit "radio"))) /\
    Has x (lit "checked").
  (** The first option child of a single select none of whose options is selected. *)
  Definition DefaultOption (x : id) : Prop :=
    exists p, Child h p x /\ NameIs p (lit "select") /\ ~ Has p (lit "multiple") /\
      (forall y, Preceding h x y -> ~ NameIs y (lit "option")) /\
      (forall y, OptionOf p y -> ~ Has y (lit "selected")).
  Definition CheckedOption (x : id) : Prop :=
    NameIs x (lit "option") /\ (Has x (lit "selected") \/ DefaultOption x).

  (** * Compounds and chains over any kind of simple selector *)
  Definition pcompound := list ((id -> Prop) * comb).
  Definition pgroup := list pcompound.
  Definition comp_comb {A} (cp : list (A * comb)) : comb := match cp with (_, c) :: _ => c | [] => Chain end.
  Definition CompHolds (cp : pcompound) (x : id) : Prop := forall P c, In (P, c) cp -> P x.

  (** Matching an element against a chain, from its last compound backwards. *)
  Fixpoint MatchRev (g_rev : pgroup) (x : id) : Prop :=
    match g_rev with
    | [] => False
    | cp :: rest =>
        CompHolds cp x /\
        match rest with
        | [] => True
        | _ => exists y, is_element h y = true /\ Rel (comp_comb cp) y x /\ MatchRev rest y
        end
    end.
  Definition Matches (g : pgroup) (x : id) : Prop := MatchRev (rev g) x.
  Definition MatchesAny (gs : list pgroup) (x : id) : Prop := exists g, In g gs /\ Matches g x.

  (** A combinator before the first compound says where the element of that compound stands in the document.  It is
      not looked at when there is no other compound. *)
  Definition Top (c : comb) (x : id) : Prop :=
    match c with
    | ChildrenAll => True
    | Children => exists p, Child h p x /\ is_element h p = false
    | _ => False
    end.
  Definition rooted (g : pgroup) : pgroup :=
    match g with
    | ((P, c) :: ps) :: cp :: rest => ((P, ChildrenAll) :: (Top c, Chain) :: ps) :: cp :: rest
    | _ => g
    end.

  (** Walking a chain forwards from a set of starting nodes. *)
  Definition Step (S : id -> Prop) (cp : pcompound) (x : id) : Prop :=
    (exists s, S s /\ Rel (comp_comb cp) s x) /\ CompHolds cp x.
  Fixpoint Walk (S : id -> Prop) (g : pgroup) : id -> Prop :=
    match g with
    | [] => S
    | cp :: g' => Walk (Step S cp) g'
    end.

  (** * Simple selectors.  [:not] and [:has] of a text that is not a selector match nothing. *)
  Fixpoint Holds (rl : rule) (x : id) {struct rl} : Prop :=
    let sub gs := map (map (map (fun e : rule * comb => let '(r', c) := e in (Holds r', c)))) gs in
    match rl with
    | RAll => True
    | RName n => NameIs x n
    | RClass n => ClassIs x n
    | RId n => IdIs x n
    | RAttr k t => AttrHolds k t x
    | RRoot => NameIs x (lit "html") /\ exists p, Child h p x /\ is_document h p = true
    | REmpty => forall c, Child h x c -> n_type (node_of h c) = NComment
    | RFirstChild asc => exists i total, SibPos x i total /\ place_of asc i total = 1%Z
    | ROnlyChild => SibPos x 0 1
    | RNthChild asc f =>
        exists i total, SibPos x i total /\ NthPos (formula_step f) (snd f) (Z.of_nat total) (place_of asc i total)
    | RFirstOfType asc => exists i total, TypePos x i total /\ place_of asc i total = 1%Z
    | RNthOfType asc f =>
        exists i total, TypePos x i total /\ NthPos (formula_step f) (snd f) (Z.of_nat total) (place_of asc i total)
    | ROnlyOfType => TypePos x 0 1
    | RNot n => match n with NSel gs => ~ MatchesAny (sub gs) x | _ => False end
    | RContains t => Substring t (text_of x)
    | RHas n => match n with NSel gs => exists y, DescEl h x y /\ MatchesAny (sub gs) y | _ => False end
    | RChecked => CheckedBox x \/ CheckedOption x
    | RAlias gs => MatchesAny (sub gs) x
    end.
  Definition preds (g : list (list (rule * comb))) : pgroup :=
    map (map (fun e : rule * comb => let '(r', c) := e in (Holds r', c))) g.

  (** * Selectors in the shape the parser produces *)
  Definition fwd (c : comb) : bool := match c with ChildrenAll | Children | Next | NextAll => true | _ => false end.
  Definition comp_wf {A} (cp : list (A * comb)) : bool :=
    match cp with
    | (_, c) :: rest => fwd c && forallb (fun e => comb_eqb (snd e) Chain) rest
    | [] => false
    end.
  Definition group_wf {A} (g : list (list (A * comb))) : bool := nonempty g && forallb comp_wf g.
  (** ... starting with the descendant combinator, as texts given to filter, is, :not, ... do. *)
  Definition group_desc {A} (g : list (list (A * comb))) : bool :=
    match g with cp :: _ => comb_eqb (comp_comb cp) ChildrenAll | [] => false end.
  Definition sel_wf {A} (gs : list (list (list (A * comb)))) : bool :=
    forallb (fun g => group_wf g && group_desc g) gs.

  (** No element matches two of the groups. *)
  Definition Exclusive (gs : list pgroup) : Prop :=
    ForallOrdPairs (fun g g' => forall x, ElIn x -> Matches g x -> ~ Matches g' x) gs.

  (** The number of siblings never hits a regime the position arithmetic gets wrong (see C01). *)
  Definition NthOk (f : nth_formula) : Prop :=
    fst f = None /\ Readable (snd f) \/
    forall p, InTree h r p -> children h p <> [] ->
      NthSmall (formula_step f) (snd f) (Z.of_nat (length (children h p))) /\
      NthSafe (formula_step f) (snd f) (Z.of_nat (length (children h p))).
  (** No element before an option child of a select holds options of its own (an optgroup before an option). *)
  Definition OptionsFirst : Prop :=
    forall x y z, ElIn x -> NameIs x (lit "option") -> Preceding h x y -> ~ NameIs y (lit "option") ->
      Anc h y z -> ~ NameIs z (lit "option").

  (** No two elements have the id. *)
  Definition IdUnique (n : str) : Prop := forall x y, ElIn x -> ElIn y -> IdIs x n -> IdIs y n -> x = y.

  (** The selectors for which the library does what [Holds] says. *)
  Fixpoint RuleOk (rl : rule) {struct rl} : Prop :=
    let all_ok gs := fold_right and True (map (fun g => fold_right and True (map (fun cp =>
      fold_right and True (map (fun e : rule * comb => let '(r', _) := e in RuleOk r') cp)) g)) gs) in
    match rl with
    | RId n => IdUnique n
    | RAttr _ (Some (MEq, w)) | RAttr _ (Some (MDash, w)) | RAttr _ (Some (MNot, w)) => w <> []
    | RNthChild _ f | RNthOfType _ f => NthOk f
    | RNot n => match n with NSel gs => sel_wf gs = true /\ all_ok gs /\ Exclusive (map preds gs) | NErr => True | NPanic => False end
    | RHas n => match n with NSel gs => sel_wf gs = true /\ all_ok gs | NErr => True | NPanic => False end
    | RChecked => OptionsFirst
    | RAlias gs => sel_wf gs = true /\ all_ok gs /\ Exclusive (map preds gs)
    | _ => True
    end.
  Definition CompOk (cp : list (rule * comb)) : Prop := forall rl c, In (rl, c) cp -> RuleOk rl.
  Definition GroupOk (g : list (list (rule * comb))) : Prop := forall cp, In cp g -> CompOk cp.
  Definition SelOk (gs : ast) : Prop := forall g, In g gs -> GroupOk g.

  (** The id look-up of the document: an element with the id, when there is one. *)
  Definition IdCache (by_id : id -> str -> option id) : Prop :=
    forall s, match by_id r s with
              | Some x => ElIn x /\ IdIs x s
              | None => forall x, ElIn x -> ~ IdIs x s
              end.
End Spec.
