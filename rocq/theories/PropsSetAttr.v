(** Property theorems: attribute and class calls on sets of elements (C47). *)
From Verif Require Import Base Utils UtilsSpec UtilsProofs Attr AttrSpec AttrProofs AttrOrderProofs ClassOps ClassSpec ClassProofs Dom DomSpec DomProofs
  DomBuild DomBuildProofs Mutate MutateSpec MutateProofs InsertProofs HistoryProofs Html HtmlSpec Live LiveSpec LiveProofs SelBuild PropsAttr PropsMutate PropsFilter.

Lemma rexists_any {A} (f : A -> res bool) (P : A -> Prop) l : (forall x, In x l -> exists b, f x = Ok b /\ (b = true <-> P x)) ->
  exists b, rexists f l = Ok b /\ (b = true <-> exists x, In x l /\ P x).
Proof.
  induction l as [|x l IH]; intros H.
  - exists false. split; [reflexivity|]. split; [discriminate | intros (x & [] & _)].
  - destruct (H x (or_introl eq_refl)) as (b & E & Hb). cbn [rexists]. rewrite E. cbn [rbind]. destruct b.
    + exists true. split; [reflexivity|]. split; [intros _; exists x; split; [left; reflexivity | apply Hb; reflexivity] | reflexivity].
    + destruct IH as (b & E' & Hb'); [intros y Hy; apply H; right; exact Hy|]. exists b. split; [exact E'|]. rewrite Hb'. split.
      * intros (y & Hy & Py). exists y. split; [right; exact Hy | exact Py].
      * intros (y & [<- | Hy] & Py); [apply Hb in Py; discriminate | exists y; split; assumption].
Qed.

Lemma spec_step_twice op f k : spec_step (spec_step f op) op k = spec_step f op k.
Proof. destruct op; cbn; unfold spec_set, spec_remove; destruct (str_eqb _ _); reflexivity. Qed.

Lemma attr_all_state oa op l : op_plain op -> forall h F, AttrState h F ->
  exists h', on_all (fun m => attr_step oa m op) h l = Ok h' /\ AttrState h' (set_step F (l, op)).
Proof.
  intros Hop. induction l as [|x l IH]; intros h F HF.
  - exists h. split; [reflexivity|]. exact HF.
  - unfold on_all. cbn [rfold].
    assert (G : exists h1, on_meta h x (fun m => attr_step oa m op) = Ok h1 /\ AttrState h1 (set_step F ([x], op))).
    { unfold on_meta. destruct (n_meta (node_of h x)) as [m|] eqn:Em.
      - destruct (HF x m Em) as [Hm Hs]. destruct (attr_step_ok oa m op Hm Hop) as (m' & E & Hm' & _ & Ha). rewrite E. cbn [rbind]. eexists. split; [reflexivity|].
        intros y my Ey. unfold set_step. cbn [fst snd]. destruct (Nat.eq_dec y x) as [-> | Hy].
        + destruct (lt_dec x (length h)) as [Hl | Hl]; [|rewrite node_beyond in Em by lia; discriminate].
          rewrite node_upd_same in Ey by exact Hl. cbn in Ey. injection Ey as <-. split; [exact Hm'|].
          destruct (in_dec Nat.eq_dec x [x]) as [_ | N]; [|exfalso; apply N; left; reflexivity].
          intros name. destruct (shows_abs m' Hm' name) as (a & Ea & Sa). exists a. split; [exact Ea|]. rewrite Sa, Ha.
          assert (Hf : abs m (str_lower name) = F x (str_lower name)). { destruct (shows_abs m Hm name) as (b & Eb & Sb), (Hs name) as (b' & Eb' & Sb'). congruence. }
          destruct op as [n v|n]; cbn [spec_step]; unfold spec_set, spec_remove; destruct (str_eqb _ _); try reflexivity; exact Hf.
        + rewrite node_upd_other in Ey by exact Hy. destruct (in_dec Nat.eq_dec y [x]) as [[N | []] | _]; [congruence | exact (HF y my Ey)].
      - exists h. split; [reflexivity|]. intros y my Ey. unfold set_step. cbn [fst snd]. destruct (in_dec Nat.eq_dec y [x]) as [[<- | []] | _]; [congruence | exact (HF y my Ey)]. }
    destruct G as (h1 & E1 & H1). rewrite E1. cbn [rbind]. destruct (IH h1 _ H1) as (h' & E & H'). exists h'. split; [exact E|].
    intros y my Ey. destruct (H' y my Ey) as [Hm Hs]. split; [exact Hm|]. intros name. destruct (Hs name) as (a & Ea & Sa). exists a. split; [exact Ea|]. rewrite Sa.
    unfold set_step. cbn [fst snd]. destruct (in_dec Nat.eq_dec y l) as [Hi | Hi], (in_dec Nat.eq_dec y [x]) as [Hj | Hj], (in_dec Nat.eq_dec y (x :: l)) as [Hk | Hk]; cbn in *; try reflexivity; try apply spec_step_twice; exfalso; intuition.
Qed.

(** C47: over every program of attribute calls on sets (with plain arguments), whatever the sets share and however often
    a set lists an element, every element ends with the attributes a reader of the program expects; the tree does not change. *)
Theorem C47_attr_programs_partial od oa parse h F prog : AttrState h F -> Forall (fun c => op_plain (snd c)) prog ->
  exists h', run_calls od oa parse h (map attr_call prog) = Ok h' /\ AttrState h' (fold_left set_step prog F) /\
    OnlyMeta h h' (concat (map fst prog)).
Proof.
  intros HF Hp. revert h F HF. induction Hp as [|c prog Hc Hp IH]; intros h F HF.
  - exists h. split; [reflexivity|]. split; [exact HF|]. split; [reflexivity|]. split; [reflexivity|]. split; [intros y; repeat split|]. split; [intros y m E Hm; exists m; split; [exact E | split; [exact Hm | reflexivity]] | intros y E; exact E].
  - destruct c as [l op]. cbn [snd] in Hc. destruct (attr_all_state oa op l Hc h F HF) as (h1 & E1 & H1).
    destruct (IH h1 _ H1) as (h' & E & H' & HO). exists h'. unfold run_calls. cbn [map rfold].
    assert (E1' : run_call od oa parse h (attr_call (l, op)) = Ok h1) by (destruct op; exact E1). rewrite E1'. cbn [rbind]. split; [exact E|]. split; [exact H'|].
    assert (O1 : OnlyMeta h h1 l).
    { destruct op as [n v|n]; [exact (only_meta_all _ l (set_attribute_step oa n v) h h1 E1) | exact (only_meta_all _ l (remove_attribute_step n) h h1 E1)]. }
    destruct O1 as (L1 & A1 & B1 & C1 & D1), HO as (L2 & A2 & B2 & C2 & D2). cbn [map concat fst]. split; [congruence|]. split; [|split; [|split]].
    + intros y Hy. rewrite A2 by (intros N; apply Hy, in_or_app; right; exact N). apply A1. intros N. apply Hy, in_or_app. left. exact N.
    + intros y. destruct (B1 y) as (P1 & P2 & P3 & P4 & P5 & P6), (B2 y) as (Q1 & Q2 & Q3 & Q4 & Q5 & Q6). repeat split; congruence.
    + intros y m Em Hm. destruct (C1 y m Em Hm) as (m1 & Em1 & Hm1 & N1). destruct (C2 y m1 Em1 Hm1) as (m2 & Em2 & Hm2 & N2). exists m2. split; [exact Em2|]. split; [exact Hm2 | congruence].
    + intros y Ey. apply D2, D1, Ey.
Qed.
Print Assumptions C47_attr_programs_partial.

(** Reading: [attr] reads the first element, [has_attr] asks whether any element has the attribute. *)
Theorem C47_attr_reads h F l name : AttrState h F -> Forall (fun x => n_meta (node_of h x) <> None) l ->
  (exists a, attr_first h l name = Ok a /\ seen a = match l with [] => None | x :: _ => F x (str_lower name) end) /\
  (exists b, has_attr_any h l name = Ok b /\ (b = true <-> exists x, In x l /\ F x (str_lower name) <> None)).
Proof.
  intros HF Hl. split.
  - destruct l as [|x l]; [exists None; split; reflexivity|]. inversion Hl as [|? ? Hx _]; subst. unfold attr_first, node_attribute.
    destruct (n_meta (node_of h x)) as [m|] eqn:Em; [|congruence]. exact (proj2 (HF x m Em) name).
  - apply rexists_any. intros x Hx. rewrite Forall_forall in Hl. specialize (Hl x Hx). unfold node_has_attribute, node_attribute.
    destruct (n_meta (node_of h x)) as [m|] eqn:Em; [|congruence]. destruct (proj2 (HF x m Em) name) as (a & Ea & Sa). rewrite Ea. cbn [rbind]. eexists. split; [reflexivity|].
    rewrite <- Sa. destruct a as [[? ?|]|]; cbn; split; congruence.
Qed.
Print Assumptions C47_attr_reads.

Lemma each_meta f h l (P : id -> meta -> Prop) : NoDup l -> MetaStep f ->
  (forall x, In x l -> exists m m', n_meta (node_of h x) = Some m /\ f m = Ok m' /\ P x m') ->
  exists h', on_all f h l = Ok h' /\ EachMeta h h' l P.
Proof.
  intros ND HS H. destruct (on_all_each f l (fun _ _ => True) ND h) as (h' & E & Ho & Hi).
  { intros x Hx. destruct (H x Hx) as (m & m' & Em & Ef & _). exists m, m'. repeat split; assumption. }
  exists h'. split; [exact E|]. destruct (only_meta_all f l HS h h' E) as (L & A & B & _). split; [exact L|]. split; [exact A|]. split; [exact B|].
  intros x Hx. destruct (Hi x Hx) as (m & m' & Em & Ef & _ & En). destruct (H x Hx) as (n & n' & Em2 & Ef2 & HP).
  assert (n = m) by congruence. subst n. assert (n' = m') by congruence. subst n'. exists m'. split; [rewrite En; reflexivity | exact HP].
Qed.

Lemma each_class idle f h l (P : id -> meta -> Prop) : NoDup l -> MetaStep f ->
  (forall x, In x l -> exists m m', n_meta (node_of h x) = Some m /\ f m = Ok m' /\ P x m') ->
  exists h', class_all idle f h l = Ok h' /\ EachMeta h h' l P.
Proof.
  intros ND HS H. rewrite class_all_eq; [exact (each_meta f h l P ND HS H)|]. intros x Hx. destruct (H x Hx) as (m & _ & -> & _). discriminate.
Qed.

(** Classes of a set: every element gets the classes it lacks, and nothing else changes. *)
Theorem C47_add_class oa h l (old : id -> list str) arg names : NoDup l -> Words arg names ->
  (forall x, In x l -> exists m, n_meta (node_of h x) = Some m /\ MetaOk m /\ HasClasses m (old x) /\ NoMix names (old x)) ->
  exists h', add_class_all oa h l arg = Ok h' /\
    EachMeta h h' l (fun x m' => exists m added, n_meta (node_of h x) = Some m /\ MetaOk m' /\ SameOthers m m' /\ HasClasses m' (old x ++ added) /\
      incl added names /\ (forall c, In c names -> In c (old x ++ added)) /\ (forall c, In c added -> ~ In c (old x)) /\ (HasClassValue m (old x) -> NoDup added)).
Proof.
  intros ND Hw H. apply (each_class _ (fun m => add_class oa m arg) h l _ ND (add_class_step oa arg)). intros x Hx. destruct (H x Hx) as (m & Em & Hm & Hc & Hq).
  destruct (add_class_ok oa m arg names (old x) Hm Hw Hc Hq) as (m' & added & E & H'). exists m, m'. split; [exact Em|]. split; [exact E|]. exists m, added. split; [exact Em | exact H'].
Qed.
Print Assumptions C47_add_class.
Theorem C47_remove_class_partial oa h l (old : id -> list str) arg names : NoDup l -> AsciiSpaced arg -> Words arg names ->
  (forall x, In x l -> exists m, n_meta (node_of h x) = Some m /\ MetaOk m /\ HasClasses m (old x) /\ NoDup (old x) /\ SameOrder (old x) names /\ NoMix [] (old x)) ->
  exists h', remove_class_all oa h l arg = Ok h' /\
    EachMeta h h' l (fun x m' => exists m, n_meta (node_of h x) = Some m /\ MetaOk m' /\ SameOthers m m' /\
      HasClasses m' (filter (fun c => if in_dec str_dec c names then false else true) (old x))).
Proof.
  intros ND Ha Hw H. apply (each_class _ (fun m => remove_class oa m arg) h l _ ND (remove_class_step oa arg)). intros x Hx. destruct (H x Hx) as (m & Em & Hm & Hc & Hd & Hs & Hq).
  destruct (remove_class_ok oa m arg names (old x) Hm Ha Hw Hc Hd Hs Hq) as (m' & E & H'). exists m, m'. split; [exact Em|]. split; [exact E|]. exists m. split; [exact Em | exact H'].
Qed.
Print Assumptions C47_remove_class_partial.
Theorem C47_toggle_class_partial oa h l (old : id -> list str) arg names : NoDup l -> AsciiSpaced arg -> Words arg names ->
  (forall x, In x l -> exists m, n_meta (node_of h x) = Some m /\ MetaOk m /\ HasClasses m (old x) /\ NoDup (old x) /\ SameOrder (old x) names /\ NoMix names (old x)) ->
  exists h', toggle_class_all oa h l arg = Ok h' /\
    EachMeta h h' l (fun x m' => exists m, n_meta (node_of h x) = Some m /\ MetaOk m' /\ SameOthers m m' /\
      HasClasses m' (filter (fun c => if in_dec str_dec c names then false else true) (old x) ++ filter (fun c => if in_dec str_dec c (old x) then false else true) names)).
Proof.
  intros ND Ha Hw H. apply (each_class _ (fun m => toggle_class oa m arg) h l _ ND (toggle_class_step oa arg)). intros x Hx. destruct (H x Hx) as (m & Em & Hm & Hc & Hd & Hs & Hq).
  destruct (toggle_class_ok oa m arg names (old x) Hm Ha Hw Hc Hd Hs Hq) as (m' & E & H'). exists m, m'. split; [exact Em|]. split; [exact E|]. exists m. split; [exact Em | exact H'].
Qed.
Print Assumptions C47_toggle_class_partial.
(** Where a set holds a node without tag data (the document root, say), every class call naming a class panics, while
    setting and removing an attribute leave that node alone. *)
Lemma set_attribute_fuel oa m n v : set_attribute oa m n v <> OutOfFuel.
Proof.
  unfold set_attribute, rset, rnth. cbv zeta. destruct (amap_get _ _) as [i|]; [|discriminate]. destruct (nth_error _ _); cbn [rbind]; [|discriminate].
  destruct (list_set _ _ _); cbn [rbind]; discriminate.
Qed.
Lemma get_attribute_fuel m n : get_attribute m n <> OutOfFuel.
Proof. unfold get_attribute, rnth. repeat match goal with |- context [match ?x with _ => _ end] => destruct x; cbn [rbind]; try discriminate end. Qed.
Lemma retain_fuel {A} (v : list A) l : retain_by_index v l <> OutOfFuel.
Proof.
  unfold retain_by_index. generalize 0. revert v. induction l as [|i l IH]; intros v k; [discriminate|]. cbn [retain_loop]. unfold rsub.
  destruct (k <=? i); cbn [rbind]; [|discriminate]. assert (H : forall (w : list A) j, vec_remove w j <> OutOfFuel).
  { induction w as [|a w IW]; intros j; [destruct j; discriminate|]. destruct j; cbn [vec_remove]; [discriminate|]. specialize (IW j). destruct (vec_remove w j); cbn [rbind]; congruence. }
  specialize (H v (i - k)). destruct (vec_remove v (i - k)); cbn [rbind]; [apply IH | discriminate | congruence].
Qed.
Theorem C47_class_no_tag oa h l x arg : In x l -> n_meta (node_of h x) = None ->
  (get_class_list arg <> [] -> add_class_all oa h l arg = Panic) /\
  (trim arg <> [] -> remove_class_all oa h l arg = Panic /\ toggle_class_all oa h l arg = Panic) /\
  (forall n v h', set_attr_all oa h l n v = Ok h' -> node_of h' x = node_of h x) /\
  (forall n h', remove_attr_all h l n = Ok h' -> node_of h' x = node_of h x).
Proof.
  intros Hx Em.
  assert (G : forall f, (forall m, f m <> OutOfFuel) -> class_all false f h l = Panic).
  { intros f Hf. destruct (class_all false f h l) as [h'| |] eqn:E; [|reflexivity|].
    - destruct (class_all_stops f l x Hx h h' Em E).
    - destruct (class_no_fuel f l Hf false h E). }
  assert (K : forall f l h h', n_meta (node_of h x) = None -> on_all f h l = Ok h' -> node_of h' x = node_of h x).
  { clear. intros f l. induction l as [|y l IH]; intros h h' Em E; [injection E as <-; reflexivity|]. unfold on_all in E. cbn [rfold] in E. apply rbind_ok in E. destruct E as (h1 & E1 & E).
    assert (E2 : node_of h1 x = node_of h x).
    { unfold on_meta in E1. destruct (n_meta (node_of h y)) as [m|] eqn:Ey; [|injection E1 as <-; reflexivity]. apply rbind_ok in E1. destruct E1 as (m' & _ & E1). injection E1 as <-.
      apply node_upd_other. congruence. }
    rewrite (IH h1 h'); [exact E2 | congruence | exact E]. }
  split; [|split; [|split]].
  - intros Hn. unfold add_class_all. destruct (get_class_list arg) as [|c cl] eqn:El; [congruence|]. cbn [no_names]. apply (G (fun m => add_class oa m arg)).
    intros m. unfold add_class. rewrite El. pose proof (get_attribute_fuel m ATTR_CLASS) as Hg. destruct (get_attribute m ATTR_CLASS) as [cv| |]; cbn [rbind]; [|discriminate | congruence].
    destruct cv as [[v q|]|]; apply set_attribute_fuel.
  - intros Hn. unfold remove_class_all, toggle_class_all. destruct (trim arg) as [|c cl] eqn:El; [congruence|]. cbn [no_names].
    split; [apply (G (fun m => remove_class oa m arg)) | apply (G (fun m => toggle_class oa m arg))]; intros m; [unfold remove_class | unfold toggle_class]; rewrite El; cbv zeta;
      pose proof (get_attribute_fuel m ATTR_CLASS) as Hg; destruct (get_attribute m ATTR_CLASS) as [cv| |]; cbn [rbind]; try discriminate; try congruence.
    + destruct cv as [[v q|]|]; try discriminate. destruct (removed_positions _ _) as [|i is] eqn:Er; [discriminate|].
      pose proof (retain_fuel (get_class_list v) (i :: is)) as Hr. destruct (retain_by_index _ _); cbn [rbind]; [apply set_attribute_fuel | discriminate | congruence].
    + destruct cv as [[v q|]|]; try apply set_attribute_fuel. destruct (removed_positions _ _) as [|i is] eqn:Er.
      * cbn [rbind]. destruct (filter _ _); [discriminate | apply set_attribute_fuel].
      * pose proof (retain_fuel (get_class_list v) (i :: is)) as Hr. destruct (retain_by_index _ _); cbn [rbind]; [apply set_attribute_fuel | discriminate | congruence].
  - intros n v h' E. exact (K _ l h h' Em E).
  - intros n h' E. exact (K _ l h h' Em E).
Qed.
Print Assumptions C47_class_no_tag.
(** In [sdoc]: the root stands in the set, before or after a paragraph. *)
Example C47_class_no_tag_ex : n_meta (node_of sdoc 0) = None /\ is_root sdoc 0 = true /\
  add_class_all ex_oracle sdoc [2; 0] (lit "k") = Panic /\ add_class_all ex_oracle sdoc [2; 0] (lit " ") = Ok sdoc /\
  (exists h', add_class_all ex_oracle sdoc [2] (lit "k") = Ok h') /\ exists h', set_attr_all ex_oracle sdoc [0; 2] (lit "k") None = Ok h' /\ has_attr_any h' [2] (lit "k") = Ok true.
Proof. repeat split; try (vm_compute; reflexivity); eexists; [vm_compute; reflexivity | split; vm_compute; reflexivity]. Qed.
(** [has_class] on a set: some element has all of the classes, and there is at least one class in the text. *)
Theorem C47_has_class h l (old : id -> list str) arg names : AsciiSpaced arg -> Words arg names ->
  (forall x, In x l -> exists m, n_meta (node_of h x) = Some m /\ HasClasses m (old x)) ->
  exists b, has_class_any h l arg = Ok b /\ (b = true <-> names <> [] /\ exists x, In x l /\ incl names (old x)).
Proof.
  intros Ha Hw H. unfold has_class_any.
  destruct (rexists_any (fun x => match n_meta (node_of h x) with Some m => has_class m arg | None => Panic end) (fun x => names <> [] /\ incl names (old x)) l) as (b & E & Hb).
  { intros x Hx. destruct (H x Hx) as (m & Em & Hc). rewrite Em. exact (has_class_ok m arg names (old x) Ha Hw Hc). }
  destruct (trim arg) as [|c s] eqn:Et.
  - exists false. split; [reflexivity|]. split; [discriminate|]. intros [Hn _]. exfalso. apply Hn. exact (trim_empty_words _ _ Ha Hw Et).
  - exists b. split; [exact E|]. rewrite Hb. split; [intros (x & Hx & Hn & Hi); split; [exact Hn | exists x; split; assumption] | intros (Hn & x & Hx & Hi); exists x; repeat split; assumption].
Qed.
Print Assumptions C47_has_class.

(** The paragraphs of [sdoc] (2 with classes a and b, 5 with class b), the inner div 4, the span 10. *)
Definition shown (h : heap) (x : id) : attr_map := match n_meta (node_of h x) with Some m => abs m | None => fun _ => None end.
Lemma state_check h : forallb (fun x => match n_meta (node_of h x) with Some m => meta_check m | None => true end) (seq 0 (length h)) = true -> AttrState h (shown h).
Proof.
  intros H x m Em. destruct (lt_dec x (length h)) as [Hl | Hl]; [|rewrite node_beyond in Em by lia; discriminate].
  rewrite forallb_forall in H. specialize (H x). rewrite Em in H. assert (Hm : MetaOk m) by (apply meta_check_sound, H, in_seq; lia).
  split; [exact Hm|]. unfold shown. rewrite Em. exact (shows_abs m Hm).
Qed.
Definition set_prog : list (list id * attr_op) :=
  [([2; 5; 2], OpSet (lit "Title") (Some (lit "it's"))); ([5; 4], OpRemove (lit "class")); ([10; 5], OpSet (lit "TITLE") None)].
Example C47_ex : AttrState sdoc (shown sdoc) /\ Forall (fun c => op_plain (snd c)) set_prog /\
  exists h', run_calls ex_od ex_oracle (fun _ => None) sdoc (map attr_call set_prog) = Ok h' /\
    attr_first h' [2; 5] (lit "title") = Ok (Some (AV (lit "it's") (Some DQ))) /\ attr_first h' [5] (lit "title") = Ok (Some ATrue) /\
    has_attr_any h' [5; 4] (lit "class") = Ok false /\ has_attr_any h' [5; 2] (lit "CLASS") = Ok true.
Proof.
  split; [apply state_check; vm_compute; reflexivity|]. split; [repeat constructor; unfold op_plain, MixedQuotes; vm_compute; intuition discriminate|].
  eexists. split; [vm_compute; reflexivity|]. repeat split; vm_compute; reflexivity.
Qed.
Definition old_classes (x : id) : list str := if Nat.eqb x 2 then [lit "a"; lit "b"] else [lit "b"].
Example C47_class_ex : NoDup [2; 5] /\ AsciiSpaced (lit " b c ") /\ Words (lit " b c ") [lit "b"; lit "c"] /\
  (forall x, In x [2; 5] -> exists m, n_meta (node_of sdoc x) = Some m /\ MetaOk m /\ HasClasses m (old_classes x) /\ NoDup (old_classes x) /\
     SameOrder (old_classes x) [lit "b"; lit "c"] /\ NoMix [lit "b"; lit "c"] (old_classes x)) /\
  (exists h', toggle_class_all ex_oracle sdoc [2; 5] (lit " b c ") = Ok h' /\
    attr_first h' [2] (lit "class") = Ok (Some (AV (lit "a c") (Some DQ))) /\ attr_first h' [5] (lit "class") = Ok (Some (AV (lit "c") (Some DQ)))) /\
  has_class_any sdoc [2; 5] (lit "b a") = Ok true /\ has_class_any sdoc [2; 5] (lit "b c") = Ok false.
Proof.
  split; [repeat constructor; cbn; intuition discriminate|].
  split; [intros c Hc; repeat (destruct Hc as [<-|Hc]; [vm_compute; tauto|]); destruct Hc|].
  split; [apply C17_class_text_words; vm_compute; reflexivity|]. split; [|split; [|split; vm_compute; reflexivity]].
  - intros x [<- | [<- | []]]; (eexists; split; [reflexivity|]; split; [apply meta_check_sound; vm_compute; reflexivity|]; split;
      [left; eexists _, _; split; [vm_compute; reflexivity | apply C17_class_text_words; vm_compute; reflexivity]|];
      split; [repeat constructor; cbn; intuition discriminate|]; split; [vm_compute; reflexivity | unfold NoMix; vm_compute; intuition discriminate]).
  - eexists. split; [vm_compute; reflexivity|]. split; vm_compute; reflexivity.
Qed.
