(** Proofs about documents that keep changing. *)
From Verif Require Import Base Utils UtilsSpec UtilsProofs Attr AttrSpec AttrProofs ClassOps ClassSpec ClassProofs Dom DomSpec Order
  DomProofs Sets SetsProofs Mutate MutateSpec MutateProofs InsertProofs HistoryProofs FrameProofs Engine Rules SelSpec Html HtmlSpec HtmlProofs Live LiveSpec.

(** * Tag data *)
Lemma remove_attribute_any m name : MetaOk m -> exists m', remove_attribute m name = Ok m' /\ MetaOk m' /\ m_name m' = m_name m.
Proof.
  intros [H1 H2]. unfold remove_attribute.
  replace (match m_lc m with [] => None | _ :: _ => amap_get (m_lc m) (str_lower name) end)
    with (amap_get (m_lc m) (str_lower name)) by (destruct (m_lc m); reflexivity).
  destruct (amap_get (m_lc m) (str_lower name)) as [i|] eqn:E; [|exists m; split; [reflexivity|]; split; [split; assumption | reflexivity]].
  destruct (H1 _ _ E) as [_ Hi]. unfold rset. destruct (list_set_spec (m_attrs m) i attr_default Hi) as (r & Er & Hl & Hnth). rewrite Er. cbn [rbind].
  eexists; split; [reflexivity|]. split; [|reflexivity]. split; cbn [m_lc m_attrs].
  - intros k j Hk. rewrite Hl. rewrite amap_get_remove in Hk. destruct (str_eqb k name); [discriminate | exact (H1 _ _ Hk)].
  - intros k k' j Hk Hk'. rewrite amap_get_remove in Hk, Hk'. destruct (str_eqb k name), (str_eqb k' name); try discriminate. exact (H2 _ _ _ Hk Hk').
Qed.

Definition MetaStep (f : meta -> res meta) : Prop := forall m m', MetaOk m -> f m = Ok m' -> MetaOk m' /\ m_name m' = m_name m.
Definition MetaTotal (f : meta -> res meta) : Prop := forall m, MetaOk m -> exists m', f m = Ok m'.
Lemma set_attribute_step o name value : MetaStep (fun m => set_attribute o m name value).
Proof.
  intros m m' Hm E. destruct (set_attribute_ok o m name value Hm) as (m1 & E1 & H1 & H2 & _). rewrite E1 in E. injection E as <-. split; assumption.
Qed.
Lemma set_attribute_total o name value : MetaTotal (fun m => set_attribute o m name value).
Proof. intros m Hm. destruct (set_attribute_ok o m name value Hm) as (m1 & E1 & _). exists m1. exact E1. Qed.
Lemma remove_attribute_step name : MetaStep (fun m => remove_attribute m name).
Proof. intros m m' Hm E. destruct (remove_attribute_any m name Hm) as (m1 & E1 & H1 & H2). rewrite E1 in E. injection E as <-. split; assumption. Qed.
Lemma remove_attribute_total name : MetaTotal (fun m => remove_attribute m name).
Proof. intros m Hm. destruct (remove_attribute_any m name Hm) as (m1 & E1 & _). exists m1. exact E1. Qed.
Lemma get_attribute_total m name : MetaOk m -> exists v, get_attribute m name = Ok v.
Proof.
  intros [H1 _]. unfold get_attribute. destruct (m_lc m) as [|e l] eqn:El; [eexists; reflexivity|]. rewrite <- El in *.
  destruct (amap_get (m_lc m) (str_lower name)) as [i|] eqn:E; [|eexists; reflexivity].
  destruct (H1 _ _ E) as [_ Hi]. unfold rnth. destruct (nth_error (m_attrs m) i) as [a|] eqn:Ea; [eexists; reflexivity|]. apply nth_error_None in Ea. lia.
Qed.
Lemma add_class_step o cls : MetaStep (fun m => add_class o m cls).
Proof.
  intros m m' Hm E. unfold add_class in E. destruct (get_class_list cls); [injection E as <-; split; [exact Hm | reflexivity]|].
  apply rbind_ok in E. destruct E as (cv & _ & E). destruct cv as [[v q|]|]; exact (set_attribute_step o _ _ m m' Hm E).
Qed.
Lemma add_class_total o cls : MetaTotal (fun m => add_class o m cls).
Proof.
  intros m Hm. unfold add_class. destruct (get_class_list cls); [eexists; reflexivity|]. destruct (get_attribute_total m ATTR_CLASS Hm) as (cv & ->). cbn [rbind].
  destruct cv as [[v q|]|]; exact (set_attribute_total o _ _ m Hm).
Qed.
Lemma remove_class_step o cls : MetaStep (fun m => remove_class o m cls).
Proof.
  intros m m' Hm E. unfold remove_class in E. cbv zeta in E. destruct (trim cls); [injection E as <-; split; [exact Hm | reflexivity]|].
  apply rbind_ok in E. destruct E as (cv & _ & E). destruct cv as [[v q|]|]; try (injection E as <-; split; [exact Hm | reflexivity]).
  destruct (removed_positions _ _); [injection E as <-; split; [exact Hm | reflexivity]|]. apply rbind_ok in E. destruct E as (l' & _ & E).
  exact (set_attribute_step o _ _ m m' Hm E).
Qed.
Lemma toggle_class_step o cls : MetaStep (fun m => toggle_class o m cls).
Proof.
  intros m m' Hm E. unfold toggle_class in E. cbv zeta in E. destruct (trim cls); [injection E as <-; split; [exact Hm | reflexivity]|].
  apply rbind_ok in E. destruct E as (cv & _ & E). destruct cv as [[v q|]|]; try exact (set_attribute_step o _ _ m m' Hm E).
  apply rbind_ok in E. destruct E as (l' & _ & E). destruct (removed_positions _ _), (filter _ _); try exact (set_attribute_step o _ _ m m' Hm E).
  injection E as <-. split; [exact Hm | reflexivity].
Qed.

(** * On sets *)
Definition on_all (f : meta -> res meta) (h : heap) (l : list id) : res heap := rfold (fun h x => on_meta h x f) l h.
Lemma meta_lt h x m : n_meta (node_of h x) = Some m -> x < length h.
Proof. intros E. destruct (lt_dec x (length h)) as [H | H]; [exact H|]. rewrite node_beyond in E by lia. discriminate. Qed.
Lemma only_meta_refl h : OnlyMeta h h [].
Proof. split; [reflexivity|]. split; [reflexivity|]. split; [repeat split|]. split; [intros y m E Hm; exists m; split; [exact E|]; split; [exact Hm | reflexivity] | tauto]. Qed.
Lemma only_meta_one f h x h' : MetaStep f -> on_meta h x f = Ok h' -> OnlyMeta h h' [x].
Proof.
  intros Hf E. unfold on_meta in E. destruct (n_meta (node_of h x)) as [m|] eqn:Em.
  - apply rbind_ok in E. destruct E as (m' & E1 & E). injection E as <-. pose proof (meta_lt h x m Em) as Hx.
    split; [apply upd_length|]. split; [intros y Hy; apply node_upd_other; intros ->; apply Hy; left; reflexivity|]. split; [|split].
    + intros y. unfold parent, index, childs, ntype_of. destruct (Nat.eq_dec y x) as [-> | Hn]; [rewrite node_upd_same by exact Hx | rewrite node_upd_other by exact Hn]; repeat split.
    + intros y my Ey Hy. destruct (Nat.eq_dec y x) as [-> | Hn]; [rewrite node_upd_same by exact Hx | rewrite node_upd_other by exact Hn].
      * rewrite Em in Ey. injection Ey as <-. destruct (Hf m m' Hy E1) as [A B]. exists m'. split; [reflexivity|]. split; assumption.
      * exists my. split; [exact Ey|]. split; [exact Hy | reflexivity].
    + intros y Ey. destruct (Nat.eq_dec y x) as [-> | Hn]; [congruence | rewrite node_upd_other by exact Hn; exact Ey].
  - injection E as <-. destruct (only_meta_refl h) as (A & B & C & D & F). split; [exact A|]. split; [intros y _; apply B; intros []|]. split; [exact C|]. split; assumption.
Qed.
Lemma only_meta_trans h h1 h2 l1 l2 : OnlyMeta h h1 l1 -> OnlyMeta h1 h2 l2 -> OnlyMeta h h2 (l1 ++ l2).
Proof.
  intros (A1 & B1 & C1 & D1 & F1) (A2 & B2 & C2 & D2 & F2). split; [congruence|]. split; [|split; [|split]].
  - intros y Hy. rewrite B2, B1; [reflexivity | |]; intros H; apply Hy; apply in_or_app; tauto.
  - intros y. destruct (C1 y) as (P1 & P2 & P3 & P4 & P5 & P6), (C2 y) as (Q1 & Q2 & Q3 & Q4 & Q5 & Q6). repeat split; congruence.
  - intros y m E Hm. destruct (D1 y m E Hm) as (m1 & E1 & Hm1 & N1). destruct (D2 y m1 E1 Hm1) as (m2 & E2 & Hm2 & N2). exists m2. split; [exact E2|]. split; [exact Hm2 | congruence].
  - intros y E. apply F2, F1, E.
Qed.
Lemma only_meta_all f l : MetaStep f -> forall h h', on_all f h l = Ok h' -> OnlyMeta h h' l.
Proof.
  intros Hf. induction l as [|x l IH]; intros h h' E.
  - injection E as <-. apply only_meta_refl.
  - unfold on_all in E. cbn [rfold] in E. apply rbind_ok in E. destruct E as (h1 & E1 & E).
    exact (only_meta_trans h h1 h' [x] l (only_meta_one f h x h1 Hf E1) (IH h1 h' E)).
Qed.
Definition ElementsOk (h : heap) : Prop := forall x m, n_meta (node_of h x) = Some m -> MetaOk m.
Lemma on_all_total f l : MetaStep f -> MetaTotal f -> forall h, (forall x, In x l -> forall m, n_meta (node_of h x) = Some m -> MetaOk m) -> exists h', on_all f h l = Ok h'.
Proof.
  intros Hs Ht. induction l as [|x l IH]; intros h He; [exists h; reflexivity|]. unfold on_all. cbn [rfold].
  assert (G : exists h1, on_meta h x f = Ok h1).
  { unfold on_meta. destruct (n_meta (node_of h x)) as [m|] eqn:Em; [|exists h; reflexivity].
    destruct (Ht m (He x (or_introl eq_refl) m Em)) as (m' & ->). eexists. reflexivity. }
  destruct G as (h1 & E1). rewrite E1. cbn [rbind]. apply IH. intros y Hy m Em. destruct (only_meta_one f h x h1 Hs E1) as (_ & _ & _ & D & F).
  destruct (n_meta (node_of h y)) as [m0|] eqn:E0; [|rewrite (F y E0) in Em; discriminate].
  destruct (D y m0 E0 (He y (or_intror Hy) m0 E0)) as (m1 & E & Hm & _). rewrite E in Em. injection Em as <-. exact Hm.
Qed.
(** What [f] does to the tag data of one element happens to each element of the set. *)
Lemma on_all_each f l (P : meta -> meta -> Prop) : NoDup l -> forall h,
  (forall x, In x l -> exists m m', n_meta (node_of h x) = Some m /\ f m = Ok m' /\ P m m') ->
  exists h', on_all f h l = Ok h' /\ (forall y, ~ In y l -> node_of h' y = node_of h y) /\
    forall x, In x l -> exists m m', n_meta (node_of h x) = Some m /\ f m = Ok m' /\ P m m' /\ node_of h' x = set_meta (Some m') (node_of h x).
Proof.
  intros ND. induction ND as [|x l Hx ND IH]; intros h He.
  - exists h. split; [reflexivity|]. split; [reflexivity | intros y []].
  - destruct (He x (or_introl eq_refl)) as (m & m' & Em & Ef & HP). set (h1 := upd h x (set_meta (Some m'))).
    assert (Ho : forall y, y <> x -> node_of h1 y = node_of h y) by (intros y Hy; apply node_upd_other; exact Hy).
    destruct (IH h1) as (h' & E & H1 & H2).
    { intros y Hy. rewrite Ho by congruence. apply He. right. exact Hy. }
    exists h'. split; [|split].
    + unfold on_all. cbn [rfold]. unfold on_meta at 1. rewrite Em, Ef. exact E.
    + intros y Hy. rewrite H1 by (intros H; apply Hy; right; exact H). apply Ho. intros ->. apply Hy. left. reflexivity.
    + intros y [<- | Hy].
      * exists m, m'. repeat (split; [assumption|]). rewrite (H1 x Hx). apply node_upd_same. exact (meta_lt h x m Em).
      * destruct (H2 y Hy) as (n & n' & En & Ef' & HP' & Eq). rewrite Ho in En by congruence. exists n, n'. repeat (split; [assumption|]).
        rewrite Eq, Ho by congruence. reflexivity.
Qed.
(** The class calls are such calls, where every node of the set has tag data. *)
Definition class_all (idle : bool) (f : meta -> res meta) (h : heap) (l : list id) : res heap := rfold (fun h x => on_class h x idle f) l h.
Lemma class_all_on idle f l : forall h h', class_all idle f h l = Ok h' -> on_all f h l = Ok h'.
Proof.
  induction l as [|x l IH]; intros h h' E; [exact E|]. unfold class_all in E. cbn [rfold] in E. apply rbind_ok in E. destruct E as (h1 & E1 & E).
  unfold on_all. cbn [rfold]. assert (E2 : on_meta h x f = Ok h1).
  { unfold on_class in E1. unfold on_meta. destruct (n_meta (node_of h x)); [exact E1|]. destruct idle; [exact E1 | discriminate]. }
  rewrite E2. exact (IH h1 h' E).
Qed.
Lemma on_class_some h x idle f : n_meta (node_of h x) <> None -> on_class h x idle f = on_meta h x f.
Proof. intros H. unfold on_class, on_meta. destruct (n_meta (node_of h x)); [reflexivity | congruence]. Qed.
Lemma on_meta_some f h x h1 y : on_meta h x f = Ok h1 -> n_meta (node_of h y) <> None -> n_meta (node_of h1 y) <> None.
Proof.
  intros E H. unfold on_meta in E. destruct (n_meta (node_of h x)) as [m|] eqn:Em; [|injection E as <-; exact H].
  apply rbind_ok in E. destruct E as (m' & _ & E). injection E as <-. destruct (Nat.eq_dec y x) as [-> | Hn].
  - rewrite node_upd_same by exact (meta_lt h x m Em). discriminate.
  - rewrite node_upd_other by exact Hn. exact H.
Qed.
Lemma class_all_eq idle f l : forall h, (forall x, In x l -> n_meta (node_of h x) <> None) -> class_all idle f h l = on_all f h l.
Proof.
  induction l as [|x l IH]; intros h H; [reflexivity|]. unfold class_all, on_all. cbn [rfold]. rewrite (on_class_some h x idle f) by (apply H; left; reflexivity).
  destruct (on_meta h x f) as [h1| |] eqn:E; [|reflexivity | reflexivity]. cbn [rbind]. apply IH. intros y Hy. apply (on_meta_some f h x h1 y E). apply H. right. exact Hy.
Qed.
(** A node without tag data stops the call, once there is a name. *)
Lemma class_all_stops f l x : In x l -> forall h h', n_meta (node_of h x) = None -> class_all false f h l <> Ok h'.
Proof.
  intros Hi. induction l as [|y l IH]; intros h h' Hx E; [destruct Hi|]. unfold class_all in E. cbn [rfold] in E. apply rbind_ok in E. destruct E as (h1 & E1 & E).
  unfold on_class in E1. destruct (n_meta (node_of h y)) as [m|] eqn:Em; [|discriminate]. destruct Hi as [-> | Hi]; [congruence|].
  apply rbind_ok in E1. destruct E1 as (m' & _ & E1). injection E1 as <-. apply (IH Hi _ h' ) in E; [exact E|].
  rewrite node_upd_other; [exact Hx | congruence].
Qed.
Lemma class_no_fuel f l : (forall m, f m <> OutOfFuel) -> forall idle h, class_all idle f h l <> OutOfFuel.
Proof.
  intros Hf idle. induction l as [|x l IH]; intros h E; [discriminate|]. unfold class_all in E. cbn [rfold] in E.
  destruct (on_class h x idle f) as [h1| |] eqn:E1; cbn [rbind] in E; [exact (IH h1 E) | discriminate|].
  unfold on_class in E1. destruct (n_meta (node_of h x)) as [m|]; [|destruct idle; discriminate]. specialize (Hf m). destruct (f m); cbn [rbind] in E1; congruence.
Qed.
Lemma only_meta_wf h h' l : OnlyMeta h h' l -> WF h -> WF h'.
Proof.
  intros (A & _ & C & _) wf.
  assert (Ck : forall y, kids h' y = kids h y) by (intros y; unfold kids; destruct (C y) as (_ & _ & -> & _); reflexivity).
  assert (Ce : forall y, is_element h' y = is_element h y) by (intros y; unfold is_element; destruct (C y) as (_ & _ & _ & -> & _); reflexivity).
  assert (Cr : forall y, is_root h' y = is_root h y) by (intros y; unfold is_root; destruct (C y) as (_ & _ & _ & -> & _); reflexivity).
  assert (Cp : forall y, parent h' y = parent h y) by (intros y; apply (C y)).
  assert (Ci : forall y, index h' y = index h y) by (intros y; apply (C y)).
  split.
  - intros p i c Hl. unfold Listed in Hl. rewrite Ck in Hl. rewrite A, Cp, Ci. exact (wf_listed h wf p i c Hl).
  - intros x p E. rewrite Cp in E. rewrite A. unfold Container. rewrite Ce, Cr. exact (wf_parent h wf x p E).
  - intros x Hx. apply (wf_acyclic h wf x). assert (G : forall a b, Up h' a b -> Up h a b).
    { intros a b H. induction H as [y p E | y q p H IH E]; rewrite Cp in E; [apply Up_parent; exact E | exact (Up_step h y q p IH E)]. }
    exact (G x x Hx).
  - intros x Hx. rewrite Cr in Hx. rewrite Cp. exact (wf_root h wf x Hx).
Qed.

(** * Kinds, names and owners of nodes *)
Definition SameKinds (h h' : heap) : Prop :=
  length h <= length h' /\
  (forall y, y < length h -> n_type (node_of h' y) = n_type (node_of h y) /\ n_meta (node_of h' y) = n_meta (node_of h y) /\ n_root (node_of h' y) = n_root (node_of h y)) /\
  (forall y, length h <= y -> is_element h' y = false).
Lemma sk_refl h : SameKinds h h.
Proof. split; [lia|]. split; [repeat split|]. intros y Hy. unfold is_element, ntype_of. rewrite node_beyond by exact Hy. reflexivity. Qed.
Lemma sk_upd h h1 x f : (forall n, n_type (f n) = n_type n /\ n_meta (f n) = n_meta n /\ n_root (f n) = n_root n) -> SameKinds h h1 -> SameKinds h (upd h1 x f).
Proof.
  intros Hf (A & B & C). split; [rewrite upd_length; exact A|]. split.
  - intros y Hy. rewrite node_upd. destruct (_ && _); [|exact (B y Hy)]. destruct (Hf (node_of h1 y)) as (-> & -> & ->). exact (B y Hy).
  - intros y Hy. specialize (C y Hy). unfold is_element, ntype_of in *. rewrite node_upd. destruct (_ && _); [|exact C]. destruct (Hf (node_of h1 y)) as (-> & _). exact C.
Qed.
Lemma sk_ch h h1 x c : SameKinds h h1 -> SameKinds h (upd h1 x (set_ch c)).
Proof. apply sk_upd. repeat split. Qed.
Lemma sk_con h h1 x c : SameKinds h h1 -> SameKinds h (upd h1 x (set_con c)).
Proof. apply sk_upd. repeat split. Qed.
Lemma sk_idx h h1 x c : SameKinds h h1 -> SameKinds h (upd h1 x (set_idx c)).
Proof. apply sk_upd. repeat split. Qed.
Lemma sk_parent h h1 x c : SameKinds h h1 -> SameKinds h (upd h1 x (set_par c)).
Proof. apply sk_upd. repeat split. Qed.
Lemma sk_reset h l : forall h1 s, SameKinds h h1 -> SameKinds h (reset_index h1 s l).
Proof. induction l as [|x l IH]; intros h1 s H; cbn [reset_index]; [exact H|]. apply IH. apply sk_upd; [repeat split | exact H]. Qed.
Lemma sk_par h p l : forall h1, SameKinds h h1 -> SameKinds h (set_parents h1 p l).
Proof. unfold set_parents. induction l as [|x l IH]; intros h1 H; cbn [fold_left]; [exact H|]. apply IH. apply sk_upd; [repeat split | exact H]. Qed.
Ltac sk := repeat first [assumption | apply sk_ch | apply sk_con | apply sk_idx | apply sk_parent | apply sk_reset | apply sk_par].
Lemma sk_remove_child h0 h p x h' : SameKinds h0 h -> remove_child h p x = Ok h' -> SameKinds h0 h'.
Proof.
  intros Hs E. unfold remove_child in E. destruct (parent h x) as [q|]; [|injection E as <-; exact Hs].
  destruct (Nat.eqb p q); [|injection E as <-; exact Hs]. destruct (childs h p) as [cs|]; [|injection E as <-; exact Hs]. cbv zeta in E.
  apply rbind_ok in E. destruct E as (last & _ & E). apply rbind_ok in E. destruct E as (h1 & E1 & E). apply rbind_ok in E. destruct E as (cs' & _ & E). injection E as <-.
  apply sk_ch. destruct (Nat.eqb (index h x) last); [injection E1 as <-; exact Hs|]. destruct (S (index h x) <=? length cs); [|discriminate]. injection E1 as <-. sk.
Qed.
Lemma sk_nodes h x r : nodes_to_insert h x = Ok r -> SameKinds h (fst r).
Proof.
  intros E. unfold nodes_to_insert in E. destruct (is_fragment h x); [injection E as <-; exact (sk_refl h)|].
  apply rbind_ok in E. destruct E as (h1 & E1 & E). injection E as <-. cbn [fst].
  destruct (parent h x) as [p|]; [exact (sk_remove_child h h p x h1 (sk_refl h) E1) | injection E1 as <-; exact (sk_refl h)].
Qed.
Lemma sk_beside h0 h self b ns h' : SameKinds h0 h -> insert_beside h self b ns = Ok h' -> SameKinds h0 h'.
Proof.
  intros Hs E. unfold insert_beside in E. cbv zeta in E. destruct (parent _ self) as [p|]; [|injection E as <-; sk].
  destruct (childs _ p) as [cs|]; [|injection E as <-; sk]. destruct (includes ns self || includes ns p); [discriminate|].
  destruct (if (if b then _ else _) <? length cs then skipn _ cs else []); injection E as <-; sk.
Qed.
Lemma sk_inside h0 h self b ns h' : SameKinds h0 h -> insert_inside h self b ns = Ok h' -> SameKinds h0 h'.
Proof.
  intros Hs E. unfold insert_inside in E. cbv zeta in E. destruct (childs _ self) as [cs|]; [|injection E as <-; sk].
  destruct (includes ns self); [discriminate|]. destruct b; injection E as <-; sk.
Qed.
Lemma sk_insert o h self pos x h' e : insert_adjacent o h self pos x = Ok (h', e) -> SameKinds h h'.
Proof.
  intros E. unfold insert_adjacent in E. apply rbind_ok in E. destruct E as (ok & _ & E). destruct (negb ok); [injection E as <- <-; exact (sk_refl h)|].
  apply rbind_ok in E. destruct E as (hn & E1 & E). cbv zeta in E. pose proof (sk_nodes h x hn E1) as H1. apply rbind_ok in E. destruct E as (nodes & _ & E).
  destruct nodes as [|n ns]; [injection E as <- <-; exact H1|]. apply rbind_ok in E. destruct E as (h2 & E2 & E). injection E as <- <-.
  destruct pos; first [eapply sk_beside; eassumption | eapply sk_inside; eassumption].
Qed.
Lemma sk_replace h x y h' z : replace_with h x y = Ok (h', z) -> SameKinds h h'.
Proof.
  intros E. unfold replace_with in E. apply rbind_ok in E. destruct E as (hn & E1 & E). cbv zeta in E. pose proof (sk_nodes h y hn E1) as H1.
  destruct (snd hn) as [|n ns]; [injection E as <- <-; exact H1|]. apply rbind_ok in E. destruct E as (h2 & E2 & E). injection E as <- <-.
  destruct (parent (fst hn) x) as [p|]; [|injection E2 as <-; exact H1]. destruct (childs (fst hn) p) as [cs|]; [|injection E2 as <-; exact H1].
  destruct (includes (n :: ns) x || includes (n :: ns) p); [discriminate|]. destruct (S (index (fst hn) x) <=? length cs); [|discriminate]. injection E2 as <-.
  destruct (index (fst hn) x <? length cs); sk.
Qed.
Lemma sk_set_text o h x s : SameKinds h (fst (set_text o h x s)).
Proof.
  pose proof (sk_refl h) as Hs. unfold set_text. destruct (ntype_of h x); try exact Hs; cbv zeta.
  - destruct s as [|a s], (od_content_tag o (tag_names h x)); cbn [negb fst]; sk.
    assert (H1 : SameKinds h (upd h x (set_ch (Some [length h])))) by sk. destruct H1 as (A & B & C). set (h1 := upd h x _) in *.
    assert (L : length h1 = length h) by apply upd_length. split; [rewrite app_length; lia|]. split.
    + intros y Hy. rewrite node_app_old by lia. exact (B y Hy).
    + intros y Hy. unfold is_element, ntype_of. rewrite node_snoc. destruct (y <? length h1) eqn:E; [apply Nat.ltb_lt in E; lia|]. destruct (Nat.eqb y (length h1)); reflexivity.
  - destruct s as [|a s]; cbn [fst]; sk.
  - destruct s as [|a s]; cbn [fst]; sk.
  - destruct s as [|a s]; cbn [fst]; sk.
Qed.
Lemma sk_op o h c h' : run_op o h c = Ok h' -> SameKinds h h'.
Proof.
  intros E. pose proof (sk_refl h) as Hs. destruct c as [self pos x | x | x y | x s | x | x s | x s]; cbn [run_op] in E.
  - apply rbind_ok in E. destruct E as ((h1, e) & E1 & E). injection E as <-. exact (sk_insert o h self pos x h1 e E1).
  - unfold remove_one in E. destruct (parent h x) as [p|]; [exact (sk_remove_child h h p x h' Hs E) | injection E as <-; exact Hs].
  - apply rbind_ok in E. destruct E as ((h1, z) & E1 & E). injection E as <-. exact (sk_replace h x y h1 z E1).
  - injection E as <-. apply sk_set_text.
  - unfold text_remove in E. destruct (parent h x) as [p|]; [|injection E as <-; exact Hs]. destruct (childs h p) as [cs|]; [|injection E as <-; exact Hs]. cbv zeta in E.
    apply rbind_ok in E. destruct E as (cs' & _ & E). destruct (includes _ x); [discriminate|]. injection E as <-. sk.
  - unfold append_text in E. destruct (n_content (node_of h x)); [|discriminate]. injection E as <-. sk.
  - unfold prepend_text in E. destruct (n_content (node_of h x)); [|discriminate]. injection E as <-. sk.
Qed.

(** * One document *)
Lemma onedoc_docok h r : OneDoc h r -> DocOk h r.
Proof.
  intros [W R Sf O M]. split; [exact W | exact R | |].
  - intros x Hx [He | Hr]; [exact (O x He)|]. destruct (Nat.eq_dec x r) as [-> | Hn]; [exact Sf|].
    destruct (intree_attached h r x Hx Hn) as (p & i & Hl). destruct (wf_listed h W p i x Hl) as (_ & E & _). rewrite (wf_root h W x Hr) in E. discriminate.
  - intros x _ He. exact (M x He).
Qed.
Lemma onedoc_kinds h h' r : OneDoc h r -> WF h' -> SameKinds h h' -> OneDoc h' r.
Proof.
  intros [W R Sf O M] W' (A & B & C).
  assert (Hr : r < length h). { destruct (lt_dec r (length h)) as [H | H]; [exact H|]. unfold is_root, ntype_of in R. rewrite node_beyond in R by lia. discriminate. }
  assert (He : forall x, is_element h' x = true -> x < length h /\ is_element h x = true).
  { intros x Hx. destruct (lt_dec x (length h)) as [H | H]; [|rewrite (C x) in Hx by lia; discriminate]. split; [exact H|].
    unfold is_element, ntype_of in *. rewrite <- (proj1 (B x H)). exact Hx. }
  split; [exact W' | | | |].
  - unfold is_root, ntype_of in *. rewrite (proj1 (B r Hr)). exact R.
  - unfold owner_document in *. rewrite (proj2 (proj2 (B r Hr))). exact Sf.
  - intros x Hx. destruct (He x Hx) as [H1 H2]. unfold owner_document in *. rewrite (proj2 (proj2 (B x H1))). exact (O x H2).
  - intros x Hx. destruct (He x Hx) as [H1 H2]. rewrite (proj1 (proj2 (B x H1))). exact (M x H2).
Qed.
Lemma onedoc_meta h h' l r : OneDoc h r -> OnlyMeta h h' l -> OneDoc h' r.
Proof.
  intros [W R Sf O M] Hm. pose proof (only_meta_wf h h' l Hm W) as W'. destruct Hm as (A & B & C & D & F).
  assert (He : forall x, is_element h' x = is_element h x) by (intros x; unfold is_element; destruct (C x) as (_ & _ & _ & -> & _); reflexivity).
  assert (Ho : forall x, owner_document h' x = owner_document h x) by (intros x; apply (C x)).
  split; [exact W' | | | |].
  - unfold is_root in *. destruct (C r) as (_ & _ & _ & -> & _). exact R.
  - rewrite Ho. exact Sf.
  - intros x Hx. rewrite He in Hx. rewrite Ho. exact (O x Hx).
  - intros x Hx. rewrite He in Hx. destruct (M x Hx) as (m & Em & Hm). destruct (D x m Em Hm) as (m' & E & Hm' & _). exists m'. split; assumption.
Qed.

(** * Programs *)
Lemma call_meta o oa parse h c h' : run_call o oa parse h c = Ok h' ->
  match c with KTree _ | KHtml _ _ => True
  | KSetAttr l _ _ | KRemoveAttr l _ | KAddClass l _ | KRemoveClass l _ | KToggleClass l _ => OnlyMeta h h' l end.
Proof.
  destruct c as [c | l n v | l n | l s | l s | l s | x s]; cbn [run_call]; intros E; try exact I.
  - exact (only_meta_all _ l (set_attribute_step oa n v) h h' E).
  - exact (only_meta_all _ l (remove_attribute_step n) h h' E).
  - exact (only_meta_all _ l (add_class_step oa s) h h' (class_all_on _ _ l h h' E)).
  - exact (only_meta_all _ l (remove_class_step oa s) h h' (class_all_on _ _ l h h' E)).
  - exact (only_meta_all _ l (toggle_class_step oa s) h h' (class_all_on _ _ l h h' E)).
Qed.
Lemma html_wf o parse h x s h' : WF h -> CallOk parse h (KHtml x s) -> set_html o parse h x s = Ok h' -> WF h'.
Proof.
  intros wf (H1 & H2 & H3) E. unfold html_target in H2.
  destruct (is_element h x) eqn:He.
  - assert (Et : ntype_of h x = NTag) by (unfold is_element in He; destruct (ntype_of h x); try discriminate; reflexivity). rewrite Et in H2. specialize (H2 _ eq_refl). cbn [snd] in H2.
    destruct (n_meta (node_of h x)) as [m|] eqn:Em; [|congruence]. destruct (od_content_tag o (m_name m)) eqn:Eo.
    + destruct (set_html_content o parse h x m s He Em Eo) as [E' Ho]. rewrite E' in E. injection E as <-. exact (only_content_wf _ _ _ _ wf Ho).
    + destruct (parse s) as [[ts|]|] eqn:Ep; [| |contradiction].
      * destruct (set_html_element o parse h x m s ts wf He Em Eo Ep H3) as (h1 & E' & W & _). rewrite E' in E. injection E as <-. exact W.
      * destruct (set_html_none o parse h x m s He Em Eo Ep) as [E' _]. rewrite E' in E. injection E as <-. exact (emptied_wf _ _ _ wf (emptied_ok h x)).
  - destruct (is_text h x) eqn:Ht.
    + assert (Et : match ntype_of h x with NText | NSpaces => True | _ => False end) by (unfold is_text in Ht; destruct (ntype_of h x); try discriminate; exact I).
      destruct (H1 eq_refl) as [_ [Hno | (p & Hc)]].
      { unfold set_html, html_target in E. rewrite Hno in E. destruct (ntype_of h x); try contradiction; injection E as <-; exact wf. }
      pose proof (child_parent h wf p x Hc) as Epar.
      assert (Etg : html_target h x = Some (false, p)) by (unfold html_target; rewrite Epar; destruct (ntype_of h x); try contradiction; reflexivity).
      assert (Em : n_meta (node_of h p) <> None) by (rewrite Epar in H2; destruct (ntype_of h x); try contradiction; exact (H2 _ eq_refl)).
      destruct (n_meta (node_of h p)) as [m|] eqn:Emp; [|congruence]. destruct (od_content_tag o (m_name m)) eqn:Eo.
      * unfold set_html in E. rewrite Etg, Emp, Eo in E. injection E as <-. apply (only_content_wf h _ p (Some s) wf). apply set_con_only. exact (proj1 (wf_parent h wf _ _ Epar)).
      * destruct (parse s) as [[ts|]|] eqn:Ep; [| |contradiction].
        -- destruct (set_html_text o parse h p x m s ts wf Hc Ht Emp Eo Ep H3) as (h1 & E' & W & _). rewrite E' in E. injection E as <-. exact W.
        -- unfold set_html in E. rewrite Etg, Emp, Eo, Ep in E. injection E as <-. exact (emptied_wf _ _ _ wf (emptied_ok h p)).
    + unfold set_html, html_target in E. unfold is_element in He. unfold is_text in Ht. destruct (ntype_of h x); try discriminate; injection E as <-; exact wf.
Qed.
Lemma html_total o parse h x s : WF h -> CallOk parse h (KHtml x s) -> exists h', set_html o parse h x s = Ok h'.
Proof.
  intros wf (H1 & H2 & H3). unfold set_html. destruct (html_target h x) as [[b t]|] eqn:Et; [|eexists; reflexivity].
  specialize (H2 _ eq_refl). cbn [snd] in H2. destruct (n_meta (node_of h t)) as [m|] eqn:Em; [|congruence]. destruct (od_content_tag o (m_name m)) eqn:Eo; [eexists; reflexivity|].
  destruct (parse s) as [[ts|]|] eqn:Ep; [|eexists; reflexivity | contradiction].
  destruct b.
  - assert (He : is_element h x = true /\ t = x).
    { unfold html_target in Et. unfold is_element. destruct (ntype_of h x); try discriminate; [injection Et as <-; split; reflexivity| |]; destruct (parent h x); discriminate. }
    destruct He as [He ->]. destruct (set_html_element o parse h x m s ts wf He Em Eo Ep H3) as (h1 & E' & _). exists h1. unfold set_html in E'. rewrite Et, Em, Eo, Ep in E'. exact E'.
  - assert (Ht : is_text h x = true /\ parent h x = Some t).
    { unfold html_target in Et. unfold is_text. destruct (ntype_of h x); try discriminate; destruct (parent h x) as [p|]; try discriminate; injection Et as <-; split; reflexivity. }
    destruct Ht as [Ht Epar]. destruct (H1 Ht) as [_ [Hno | Hat]]; [congruence|].
    assert (Hc : Child h t x) by (exists (index h x); exact (attached_listed h wf x t Hat Epar)).
    destruct (set_html_text o parse h t x m s ts wf Hc Ht Em Eo Ep H3) as (h1 & E' & _). exists h1. unfold set_html in E'. rewrite Et, Em, Eo, Ep in E'. exact E'.
Qed.
Lemma call_wf o oa parse h c h' : WF h -> CallOk parse h c -> run_call o oa parse h c = Ok h' -> WF h'.
Proof.
  intros wf Hc E. destruct c as [c | l n v | l n | l s | l s | l s | x s].
  - destruct (run_op_ok o h c wf Hc) as (h1 & E1 & W). cbn [run_call] in E. rewrite E1 in E. injection E as <-. exact W.
  - exact (only_meta_wf _ _ _ (call_meta o oa parse h (KSetAttr l n v) h' E) wf).
  - exact (only_meta_wf _ _ _ (call_meta o oa parse h (KRemoveAttr l n) h' E) wf).
  - exact (only_meta_wf _ _ _ (call_meta o oa parse h (KAddClass l s) h' E) wf).
  - exact (only_meta_wf _ _ _ (call_meta o oa parse h (KRemoveClass l s) h' E) wf).
  - exact (only_meta_wf _ _ _ (call_meta o oa parse h (KToggleClass l s) h' E) wf).
  - exact (html_wf o parse h x s h' wf Hc E).
Qed.
Lemma calls_wf o oa parse l : forall h h', WF h -> CallsOk o oa parse h l -> run_calls o oa parse h l = Ok h' -> WF h'.
Proof.
  induction l as [|c l IH]; intros h h' wf Hc E; [injection E as <-; exact wf|]. unfold run_calls in E. cbn [rfold] in E. apply rbind_ok in E. destruct E as (h1 & E1 & E).
  destruct Hc as [Hc Hl]. exact (IH h1 h' (call_wf o oa parse h c h1 wf Hc E1) (Hl h1 E1) E).
Qed.
Lemma call_onedoc o oa parse h r c h' : OneDoc h r -> CallOk parse h c -> no_html c -> run_call o oa parse h c = Ok h' -> OneDoc h' r.
Proof.
  intros D Hc Hn E. destruct c as [c | l n v | l n | l s | l s | l s | x s]; [|..|destruct Hn].
  - pose proof (call_wf o oa parse h (KTree c) h' (od_wf h r D) Hc E) as W. exact (onedoc_kinds h h' r D W (sk_op o h c h' E)).
  - exact (onedoc_meta _ _ _ r D (call_meta o oa parse h (KSetAttr l n v) h' E)).
  - exact (onedoc_meta _ _ _ r D (call_meta o oa parse h (KRemoveAttr l n) h' E)).
  - exact (onedoc_meta _ _ _ r D (call_meta o oa parse h (KAddClass l s) h' E)).
  - exact (onedoc_meta _ _ _ r D (call_meta o oa parse h (KRemoveClass l s) h' E)).
  - exact (onedoc_meta _ _ _ r D (call_meta o oa parse h (KToggleClass l s) h' E)).
Qed.
Lemma calls_onedoc o oa parse r l : forall h h', OneDoc h r -> CallsOk o oa parse h l -> Forall no_html l -> run_calls o oa parse h l = Ok h' -> OneDoc h' r.
Proof.
  induction l as [|c l IH]; intros h h' D Hc Hn E; [injection E as <-; exact D|]. unfold run_calls in E. cbn [rfold] in E. apply rbind_ok in E. destruct E as (h1 & E1 & E).
  destruct Hc as [Hc Hl]. inversion Hn as [|? ? H1 H2]; subst. exact (IH h1 h' (call_onedoc o oa parse h r c h1 D Hc H1 E1) (Hl h1 E1) H2 E).
Qed.
(** Without class removals nothing panics. *)
Lemma call_total o oa parse h r c : OneDoc h r -> CallOk parse h c -> no_class_removal c -> exists h', run_call o oa parse h c = Ok h'.
Proof.
  intros D Hc Hn. pose proof (od_wf h r D) as wf.
  assert (G : forall l, Forall (fun x => is_element h x = true) l -> forall x, In x l -> forall m, n_meta (node_of h x) = Some m -> MetaOk m).
  { intros l Hl x Hx m Em. rewrite Forall_forall in Hl. destruct (od_meta h r D x (Hl x Hx)) as (m' & Em' & Hm). rewrite Em' in Em. injection Em as <-. exact Hm. }
  destruct c as [c | l n v | l n | l s | l s | l s | x s]; cbn [run_call]; try destruct Hn.
  - destruct (run_op_ok o h c wf Hc) as (h1 & E1 & _). exists h1. exact E1.
  - exact (on_all_total (fun m => set_attribute oa m n v) l (set_attribute_step oa n v) (set_attribute_total oa n v) h (G l Hc)).
  - exact (on_all_total (fun m => remove_attribute m n) l (remove_attribute_step n) (remove_attribute_total n) h (G l Hc)).
  - assert (Hn : forall x, In x l -> n_meta (node_of h x) <> None).
    { intros x Hx. cbn [CallOk] in Hc. rewrite Forall_forall in Hc. destruct (od_meta h r D x (Hc x Hx)) as (m & -> & _). discriminate. }
    change (exists h', class_all (no_names (get_class_list s)) (fun m => add_class oa m s) h l = Ok h'). rewrite (class_all_eq _ _ l h Hn).
    exact (on_all_total (fun m => add_class oa m s) l (add_class_step oa s) (add_class_total oa s) h (G l Hc)).
  - exact (html_total o parse h x s wf Hc).
Qed.
Lemma calls_total o oa parse r l : forall h, OneDoc h r -> CallsOk o oa parse h l -> Forall no_html l -> Forall no_class_removal l ->
  exists h', run_calls o oa parse h l = Ok h'.
Proof.
  induction l as [|c l IH]; intros h D Hc Hn Hr; [exists h; reflexivity|]. destruct Hc as [Hc Hl]. inversion Hn as [|? ? N1 N2]; subst. inversion Hr as [|? ? R1 R2]; subst.
  destruct (call_total o oa parse h r c D Hc R1) as (h1 & E1).
  destruct (IH h1 (call_onedoc o oa parse h r c h1 D Hc N1 E1) (Hl h1 E1) N2 R2) as (h' & E). exists h'. unfold run_calls. cbn [rfold]. rewrite E1. exact E.
Qed.

(** * [set_html] on a set *)
Lemma shows_keep h h' b : length h <= length h' -> (forall y, b <= y < length h -> node_of h' y = node_of h y) ->
  (forall y c, b <= y -> In c (kids h y) -> b <= c) ->
  (forall x t, CopyOf h x t -> b <= x -> CopyOf h' x t) /\ (forall ids l, CopiesOf h ids l -> Forall (fun y => b <= y) ids -> CopiesOf h' ids l).
Proof.
  intros Hl Hn Hk. apply shows_both.
  - intros x ty m c Hx E1 E2 E3 E4 Hb. unfold ntype_of, childs in *. pose proof (Hn x (conj Hb Hx)) as E. constructor; unfold ntype_of, childs; try rewrite E; try assumption. lia.
  - intros x ty m c ids l Hx E1 E2 E3 E4 H5 IH Hb. pose proof (Hn x (conj Hb Hx)) as E. apply Copy_node with (ids := ids); unfold ntype_of, childs in *; try rewrite E; try assumption; [lia|].
    apply IH. apply Forall_forall. intros y Hy. apply (Hk x y Hb). unfold kids, childs. rewrite E4. exact Hy.
  - intros _. constructor.
  - intros x ids t l H1 IH1 H2 IH2 Hf. inversion Hf; subst. constructor; [apply IH1; assumption | apply IH2; assumption].
Qed.
Lemma set_html_len o parse h x s h' : set_html o parse h x s = Ok h' -> length h <= length h'.
Proof.
  assert (Lr : forall l g k, length (reset_index g k l) = length g) by (induction l as [|y l IH]; intros g k; cbn [reset_index]; [reflexivity | rewrite IH; apply upd_length]).
  assert (Lp : forall l g p, length (set_parents g p l) = length g).
  { unfold set_parents. induction l as [|y l IH]; intros g p; cbn [fold_left]; [reflexivity | rewrite IH; apply upd_length]. }
  unfold set_html. destruct (html_target h x) as [[b t]|]; [|intros E; injection E as <-; lia]. destruct (n_meta (node_of h t)) as [m|]; [|discriminate].
  destruct (od_content_tag o (m_name m)); [intros E; injection E as <-; rewrite upd_length; lia|].
  destruct (parse s) as [[ts|]|]; [|intros E; injection E as <-; rewrite upd_length; lia | discriminate]. cbv zeta. intros E. apply rbind_ok in E. destruct E as (nodes & _ & E).
  assert (L1 : length h <= length (h ++ lay_list None 0 (length h) ts)) by (rewrite app_length; lia).
  set (h1 := h ++ lay_list None 0 (length h) ts) in *. clearbody h1. destruct b.
  - injection E as <-. rewrite upd_length. destruct (_ && _); [rewrite Lr|]; rewrite Lp; exact L1.
  - destruct (childs (set_parents h1 t nodes) t) as [cs|]; [|injection E as <-; rewrite Lp; exact L1].
    apply rbind_ok in E. destruct E as (last & _ & E).
    assert (L2 : length h <= length (if index (set_parents h1 t nodes) x <? last then reset_index (set_parents h1 t nodes) (index (set_parents h1 t nodes) x + length nodes) (skipn (S (index (set_parents h1 t nodes) x)) cs) else set_parents h1 t nodes)).
    { destruct (_ <? last); [rewrite Lr|]; rewrite Lp; exact L1. }
    destruct (0 <? length nodes).
    + destruct (S _ <=? length cs); [|discriminate]. injection E as <-. rewrite upd_length, Lr. exact L2.
    + apply rbind_ok in E. destruct E as (cs' & _ & E). injection E as <-. rewrite upd_length. exact L2.
Qed.
Lemma set_html_all_ok o parse s ts l : parse s = Some (Some ts) -> ParsedTrees ts -> forall h, WF h ->
  Forall (fun x => is_element h x = true /\ exists m, n_meta (node_of h x) = Some m /\ od_content_tag o (m_name m) = false) l ->
  exists h', set_html_all o parse h l s = Ok h' /\ WF h' /\ HtmlEach o h h' l ts.
Proof.
  intros Ep Hts. induction l as [|x l IH]; intros h wf Hl.
  - exists h. split; [reflexivity|]. split; [exact wf|]. split; [lia|]. split; [intros x m []|]. split; [reflexivity | repeat split].
  - inversion Hl as [|? ? Hx Hl']; subst. destruct Hx as (He & m & Em & Ho). pose proof (element_lt h x He) as Hlt.
    destruct (set_html_element o parse h x m s ts wf He Em Ho Ep Hts) as (h1 & E1 & wf1 & (ns & Kn & Cn & Fn) & N1 & P1 & I1 & T1 & M1 & C1 & R1).
    pose proof (set_html_len o parse h x s h1 E1) as L1.
    assert (S1 : forall q, q < length h -> parent h1 q = parent h q /\ index h1 q = index h q /\ ntype_of h1 q = ntype_of h q /\
      n_meta (node_of h1 q) = n_meta (node_of h q) /\ n_content (node_of h1 q) = n_content (node_of h q) /\ n_root (node_of h1 q) = n_root (node_of h q)).
    { intros q Hq. destruct (Nat.eq_dec q x) as [-> | Hn]; [repeat split; assumption|]. unfold parent, index, ntype_of. rewrite (N1 q Hq Hn). repeat split. }
    assert (Hlt' : Forall (fun y => y < length h) l) by (apply Forall_forall; intros y Hy; rewrite Forall_forall in Hl'; exact (element_lt h y (proj1 (Hl' y Hy)))).
    destruct (IH h1 wf1) as (h' & E & wf' & L2 & K2 & N2 & S2).
    { apply Forall_forall. intros y Hy. rewrite Forall_forall in Hl', Hlt'. destruct (Hl' y Hy) as (Hey & my & Emy & Hoy). destruct (S1 y (Hlt' y Hy)) as (_ & _ & A & B & _).
      split; [unfold is_element in *; rewrite A; exact Hey|]. exists my. split; [rewrite B; exact Emy | exact Hoy]. }
    exists h'. split; [unfold set_html_all; cbn [rfold]; rewrite E1; exact E|]. split; [exact wf'|]. split; [lia|]. split; [|split].
    + intros y my Hy Emy. destruct (in_dec Nat.eq_dec y l) as [Hin | Hnin].
      * rewrite Forall_forall in Hlt'. destruct (S1 y (Hlt' y Hin)) as (_ & _ & _ & B & _). destruct (K2 y my Hin ltac:(rewrite B; exact Emy)) as (ns' & A1 & A2 & A3).
        exists ns'. split; [exact A1|]. split; [exact A2|]. revert A3. apply Forall_impl. intros z Hz. lia.
      * destruct Hy as [<- | Hy]; [|contradiction]. rewrite Em in Emy. injection Emy as <-. exists ns. split; [|split; [|exact Fn]].
        -- rewrite <- Kn. unfold kids, childs. rewrite (N2 x) by (lia || exact Hnin). reflexivity.
        -- destruct (shows_keep h1 h' (length h) L2) as [_ G]; [| |exact (G _ _ Cn Fn)].
           ++ intros y [Hy1 Hy2]. apply N2; [exact Hy2|]. intros Hin. rewrite Forall_forall in Hlt'. pose proof (Hlt' y Hin). lia.
           ++ intros y c Hy Hc. apply child_in in Hc. pose proof (child_parent h1 wf1 _ _ Hc) as Epar. destruct (le_lt_dec (length h) c) as [H | H]; [exact H|].
              destruct (S1 c H) as (A & _). rewrite A in Epar. pose proof (proj1 (wf_parent h wf _ _ Epar)). lia.
    + intros q Hq Hn. rewrite N2; [apply N1; [exact Hq|] | lia |]; intros Hc; apply Hn; [left; congruence | right; exact Hc].
    + intros q Hq. destruct (S1 q Hq) as (A1 & A2 & A3 & A4 & A5 & A6), (S2 q ltac:(lia)) as (B1 & B2 & B3 & B4 & B5 & B6). repeat split; congruence.
Qed.
