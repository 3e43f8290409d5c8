(** Property theorems: attribute and form values, going over a set, markup of a set (C55). *)
From Verif Require Import Base Utils UtilsSpec UtilsProofs Attr AttrSpec AttrProofs ClassOps ClassSpec ClassProofs Dom DomBuild Form Mutate Html Live SelBuild Values ValuesSpec ValuesProofs.

(** * C55: attribute values *)
(** [to_string] is what the attribute reads as, with "" for an attribute without value; [is_true] tells the two apart;
    [is_str] compares with [to_string]; [to_list] are the words of it, once the white space around it (in the sense of
    Unicode) is dropped. *)
Theorem C55_attr_value v :
  value_to_string v = match seen (Some v) with Some (Some t) => t | _ => [] end /\
  (value_is_true v = true <-> seen (Some v) = Some None) /\
  (forall s, value_is_str v s = true <-> value_to_string v = s) /\
  Words (trim (value_to_string v)) (value_to_list v).
Proof.
  destruct v as [t q|]; cbn [value_to_string value_is_true value_is_str value_to_list seen].
  - split; [reflexivity|]. split; [split; discriminate|]. split; [intros s; apply str_eqb_spec | apply split_words].
  - split; [reflexivity|]. split; [split; reflexivity|]. split; [|constructor; constructor]. intros [|c s]; split; (reflexivity || discriminate).
Qed.
Print Assumptions C55_attr_value.
(** [to_list] of the class attribute gives the classes.
    Full claim: for every class attribute.  Missing: values with white space that is not ASCII (C55_class_list_refuted). *)
Theorem C55_class_list_partial m v l : get_attribute m CLASS = Ok (Some v) -> HasClasses m l -> AsciiSpaced (value_to_string v) -> value_to_list v = l.
Proof.
  intros E H A. destruct v as [t q|]; cbn [value_to_list value_to_string] in *.
  - destruct H as [(v & q' & E' & Hw) | [[E' | E'] _]]; [|congruence|congruence]. rewrite E in E'. injection E' as <- <-.
    apply (words_functional (trim t)); [apply split_words | exact (words_trim t l A Hw)].
  - destruct H as [(v & q' & E' & Hw) | [_ ->]]; [congruence | reflexivity].
Qed.
Print Assumptions C55_class_list_partial.
(** A vertical tab before the name belongs to the class, but not to the word [to_list] gives. *)
Theorem C55_class_list_refuted : exists m v l, MetaOk m /\ get_attribute m CLASS = Ok (Some v) /\ HasClasses m l /\ value_to_list v <> l /\
  has_class m (lit "b") = Ok true /\ has_class m (lit "a") = Ok false /\ value_to_list v = [lit "a"; lit "b"].
Proof.
  exists (mk_meta (lit "p") [(lit "class", Some (11%N :: lit "a b"))]), (AV (11%N :: lit "a b") (Some 34%N)), [11%N :: lit "a"; lit "b"].
  split; [|split; [vm_compute; reflexivity|]].
  - apply meta_check_sound. vm_compute. reflexivity.
  - split; [left; eexists _, _; split; [vm_compute; reflexivity | apply get_class_list_spec]|]. split; [vm_compute; discriminate|]. repeat split; vm_compute; reflexivity.
Qed.
Print Assumptions C55_class_list_refuted.
Example C55_attr_value_ex : value_to_list (AV (lit " a  b") None) = [lit "a"; lit "b"] /\ value_is_str ATrue (lit "") = true /\ value_is_str (AV (lit "x") None) (lit "y") = false /\
  get_attribute (mk_meta (lit "p") [(lit "class", Some (lit "a b"))]) CLASS = Ok (Some (AV (lit "a b") (Some 34%N))) /\ AsciiSpaced (lit "a b") /\
  HasClasses (mk_meta (lit "p") [(lit "class", Some (lit "a b"))]) [lit "a"; lit "b"].
Proof.
  do 4 (split; [vm_compute; reflexivity|]). split.
  - intros c H. vm_compute in H. destruct H as [<- | [<- | [<- | []]]]; vm_compute; congruence.
  - left. eexists _, _. split; [vm_compute; reflexivity | apply get_class_list_spec].
Qed.

(** * C55: form values *)
(** The text of several values is these with commas between; it can be read back if no value has a comma. *)
Theorem C55_form_value v : match v with
  | Single s => form_to_string v = s
  | Multiple l => form_items v = l /\ (forall s, Commas l s <-> form_to_string v = s) /\
      forall l', l <> [] -> l' <> [] -> Forall (fun w : str => ~ In 44%N w) l -> Forall (fun w : str => ~ In 44%N w) l' -> form_to_string (Multiple l') = form_to_string v -> l' = l
  end.
Proof.
  destruct v as [s|l]; [reflexivity|]. split; [reflexivity|]. split.
  - intros s. split; [intros H; symmetry; exact (commas_fun l s H) | intros <-; apply join_commas].
  - intros l' N N' F F' E. apply join_injective; assumption.
Qed.
Print Assumptions C55_form_value.
(** Iterating over a form value gives its values: not for a single value, of which there is none; and different values may
    have the same text. *)
Theorem C55_form_items_refuted : (exists v, form_to_string v <> [] /\ form_items v = []) /\ (exists l l', l <> l' /\ form_to_string (Multiple l) = form_to_string (Multiple l')).
Proof. split; [exists (Single (lit "a")); split; [discriminate | reflexivity] | exists [lit "a,b"], [lit "a"; lit "b"]; split; [discriminate | reflexivity]]. Qed.
Print Assumptions C55_form_items_refuted.
Example C55_form_value_ex : form_to_string (Multiple [lit "a"; lit ""; lit "b"]) = lit "a,,b" /\ Forall (fun w : str => ~ In 44%N w) [lit "a"; lit ""; lit "b"].
Proof. split; [reflexivity|]. repeat constructor; vm_compute; intuition discriminate. Qed.

(** * C55: for_each, each, map *)
(** The handle is called on the nodes of the set, in order, with their positions, each call in the state the call before left,
    until it answers [false] for the first time or the set is at its end. *)
Theorem C55_for_each {S} (handle : nat -> id -> S -> res (bool * S)) els st st' : for_each handle els st = Ok st' ->
  exists n states answers, Visited handle els n states answers /\ From states st st' /\
    (forall j, j + 1 < n -> nth_error answers j = Some true) /\ (n = length els \/ exists j, n = j + 1 /\ nth_error answers j = Some false).
Proof. exact (for_each_ok handle els 0 st st'). Qed.
Print Assumptions C55_for_each.
(** It ends badly only if the handle does. *)
Theorem C55_for_each_panic {S} (handle : nat -> id -> S -> res (bool * S)) els st : (forall st', for_each handle els st <> Ok st') ->
  exists n states answers x st1, Visited handle els n states answers /\ From states st st1 /\ (forall j, j < n -> nth_error answers j = Some true) /\
    nth_error els n = Some x /\ (forall p, handle n x st1 <> Ok p).
Proof. exact (for_each_bad handle els 0 st). Qed.
Print Assumptions C55_for_each_panic.
(** [map] calls the handle on every node of the set and gives the answers in order. *)
Theorem C55_map {S T} (handle : nat -> id -> S -> res (T * S)) els st r st' : map_set handle els st = Ok (r, st') ->
  exists states, Visited handle els (length els) states r /\ From states st st'.
Proof.
  intros E. destruct (map_ok handle els 0 [] st r st' E) as (states & answers & -> & V & F). exists states. split; [exact V | exact F].
Qed.
Print Assumptions C55_map.
(** Sizes and positions. *)
Theorem C55_get els : (forall i, i < set_length els <-> exists x, set_get els i = Some x) /\ (set_is_empty els = true <-> els = []) /\
  (forall x, In x els <-> exists i, set_get els i = Some x).
Proof.
  unfold set_get, set_length, set_is_empty. split; [|split].
  - intros i. rewrite <- nth_error_Some. destruct (nth_error els i) as [x|]; split; [intros _; exists x; reflexivity | discriminate | congruence | intros (x & H); discriminate].
  - destruct els; split; (reflexivity || discriminate).
  - intros x. split; [apply In_nth_error | intros (i & H); exact (nth_error_In _ _ H)].
Qed.
Print Assumptions C55_get.
(** Setting an attribute with [for_each] is [set_attr] on the set. *)
Theorem C55_for_each_set_attr o h els name value :
  for_each (fun _ x h => do h' <- on_meta h x (fun m => set_attribute o m name value); Ok (true, h')) els h = set_attr_all o h els name value.
Proof.
  unfold for_each, set_attr_all. generalize 0 as i. revert h. induction els as [|x els IH]; intros h i; [reflexivity|].
  cbn [for_each_from rfold]. destruct (on_meta h x (fun m => set_attribute o m name value)) as [h'| |]; cbn [rbind fst snd]; [apply IH | reflexivity | reflexivity].
Qed.
Print Assumptions C55_for_each_set_attr.
Definition until_7 (i : nat) (x : id) (l : list (nat * id)) : res (bool * list (nat * id)) := Ok (negb (x =? 7), l ++ [(i, x)]).
Example C55_for_each_ex : for_each until_7 [3; 5; 7; 9] [] = Ok [(0, 3); (1, 5); (2, 7)] /\
  map_set (fun i x st => Ok (i + x, st + 1)) [3; 5; 7] 0 = Ok ([3; 6; 9], 3) /\
  (forall st', for_each (fun i x (st : nat) => if x =? 5 then Panic else Ok (true, st)) [3; 5] 0 <> Ok st').
Proof. split; [reflexivity|]. split; [reflexivity | discriminate]. Qed.

(** * C55: markup *)
(** [html] and [outer_html] are those of the first element, "" for the empty set; [htmls] and [outer_htmls] those of all, in
    order. *)
Theorem C55_markup markup els : match els with
  | [] => set_markup markup els = [] /\ set_markups markup els = Ok []
  | x :: els' => set_markup markup els = markup x /\ exists rest, set_markups markup els' = Ok rest /\ set_markups markup els = Ok (markup x ++ rest)
  end.
Proof.
  assert (G : forall l, set_markups markup l = Ok (concat (map markup l))) by (intros l; unfold set_markups, map_set; rewrite map_pure; reflexivity).
  destruct els as [|x els]; [split; reflexivity|]. split; [reflexivity|]. exists (concat (map markup els)). split; apply G.
Qed.
Print Assumptions C55_markup.
Example C55_markup_ex : set_markup (fun x => lit "a") [1; 2] = lit "a" /\ set_markups (fun x => if x =? 1 then lit "a" else lit "b") [1; 2] = Ok (lit "ab").
Proof. split; reflexivity. Qed.
