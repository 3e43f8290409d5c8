(** The calls with borrow checks of [Borrow] against the ones without of [Mutate], [Html] and [Live]. *)
From Verif Require Import Base Utils UtilsSpec UtilsProofs Attr ClassOps ClassProofs Dom DomSpec Order DomProofs Sets SetsProofs
  Mutate MutateSpec MutateProofs InsertProofs Html HtmlProofs HistoryProofs Live LiveSpec LiveProofs Borrow BorrowSpec.

Definition held (g : guards) (c : cell) : bool := existsb (cell_eqb c) (g_mut g) || existsb (cell_eqb c) (g_ref g).
Definition held_mut (g : guards) (c : cell) : bool := existsb (cell_eqb c) (g_mut g).

Lemma bind_eq {A C} (m : B A) (k : A -> B C) g h :
  bind m k g h = match m g h with BOk (h', a) => k a g h' | BClash => BClash | BFault => BFault | BFuel => BFuel end.
Proof. reflexivity. Qed.
Lemma read_eq {A} x (f : node -> A) g h : read x f g h = if held_mut g (CNode x) then BClash else BOk (h, f (node_of h x)).
Proof. reflexivity. Qed.
Lemma write_eq x f g h : write x f g h = if held g (CNode x) then BClash else BOk (upd h x f, tt).
Proof. reflexivity. Qed.
Lemma parent_eq x h g : g_mut g = [] -> b_parent x g h = BOk (h, parent h x).
Proof. intros E. unfold b_parent. rewrite read_eq. unfold held_mut. rewrite E. reflexivity. Qed.
Lemma index_eq x h g : held_mut g (CNode x) = false -> b_index x g h = BOk (h, index h x).
Proof. intros E. unfold b_index. rewrite read_eq, E. reflexivity. Qed.
Lemma type_eq x h g : g_mut g = [] -> b_node_type x g h = BOk (h, ntype_of h x).
Proof.
  intros E. unfold b_node_type. rewrite bind_eq, read_eq. unfold held_mut. rewrite E. cbn [existsb]. unfold ntype_of.
  destruct (n_type (node_of h x)) eqn:Et; try reflexivity. rewrite read_eq. unfold held_mut. rewrite E, Et. reflexivity.
Qed.
Lemma halt_eq x h g : g_mut g = [] -> b_halt x g h = BOk (h, halt h x).
Proof.
  intros E. unfold b_halt, holding_ref. rewrite E. cbn [existsb]. rewrite bind_eq. cbn [see].
  unfold halt, owner_document. destruct (n_root (node_of h x)); reflexivity.
Qed.
Lemma tag_eq x h g : g_mut g = [] -> b_tag_names x g h = BOk (h, tag_names h x).
Proof.
  intros E. unfold b_tag_names. rewrite bind_eq, (type_eq x h g E). unfold tag_names, is_element.
  destruct (ntype_of h x); try reflexivity. unfold holding_ref. rewrite E. cbn [existsb]. rewrite bind_eq. cbn [see].
  destruct (n_meta (node_of h x)) eqn:Em; [|reflexivity]. unfold see. cbn [g_mut existsb]. rewrite ?Em. reflexivity.
Qed.

(** The loops: a clash as soon as one of the nodes is held. *)
Lemma reset_eq l : forall s g h,
  b_reset s l g h = if existsb (fun x => held g (CNode x)) l then BClash else BOk (reset_index h s l, tt).
Proof.
  induction l as [|x l IH]; intros s g h; cbn [b_reset existsb reset_index]; [reflexivity|].
  rewrite bind_eq, write_eq. destruct (held g (CNode x)); cbn [orb]; [reflexivity|]. apply IH.
Qed.
Lemma set_parents_eq p l : forall g h,
  b_set_parents p l g h = if existsb (fun x => held g (CNode x)) l then BClash else BOk (set_parents h p l, tt).
Proof.
  unfold b_set_parents, set_parents. induction l as [|x l IH]; intros g h; cbn [each existsb fold_left]; [reflexivity|].
  rewrite bind_eq, write_eq. destruct (held g (CNode x)); cbn [orb]; [reflexivity|]. apply IH.
Qed.
Lemma not_allowed_eq o tag l : forall i g h, g_mut g = [] ->
  b_not_allowed o tag i l g h = BOk (h, not_allowed_from o h tag i l).
Proof.
  induction l as [|x l IH]; intros i g h E; cbn [b_not_allowed not_allowed_from]; [reflexivity|].
  rewrite bind_eq, read_eq. unfold held_mut. rewrite E. cbn [existsb]. rewrite bind_eq, (IH (S i) g h E). cbn [ret].
  unfold ret, ntype_of. destruct (od_allow_insert o tag (n_type (node_of h x))); reflexivity.
Qed.
Lemma idx_len {A} (P : A -> bool) l : forall i, length (idx_of P i l) + length (filter (fun x => negb (P x)) l) = length l.
Proof.
  induction l as [|x l IH]; intros i; cbn [idx_of filter]; [reflexivity|].
  specialize (IH (S i)). destruct (P x); cbn [negb length]; lia.
Qed.
Lemma not_allowed_nodes_eq o tag l g h : g_mut g = [] ->
  b_remove_not_allowed o tag l g h =
  BOk (h, (filter (fun x => od_allow_insert o tag (ntype_of h x)) l,
           (length (filter (fun x => od_allow_insert o tag (ntype_of h x)) l) <? length l) &&
           (0 <? length (filter (fun x => od_allow_insert o tag (ntype_of h x)) l)))).
Proof.
  intros E. unfold b_remove_not_allowed. rewrite bind_eq, (not_allowed_eq o tag l 0 g h E), bind_eq.
  pose proof (remove_not_allowed_ok o h tag l) as R. unfold remove_not_allowed in R.
  pose proof (idx_len (fun x => negb (od_allow_insert o tag (ntype_of h x))) l 0) as Hl.
  rewrite <- not_allowed_idx in Hl. revert Hl.
  rewrite (filter_ext (fun x => negb (negb (od_allow_insert o tag (ntype_of h x)))) (fun x => od_allow_insert o tag (ntype_of h x)))
    by (intros; apply negb_involutive).
  set (F := filter (fun x => od_allow_insert o tag (ntype_of h x)) l) in *. intros Hl.
  assert (Hflag : forall idx : list nat, length idx + length F = length l ->
    (0 <? length idx) && negb (Nat.eqb (length idx) (length l)) = (length F <? length l) && (0 <? length F)).
  { intros idx Hi. destruct (0 <? length idx) eqn:E1, (Nat.eqb (length idx) (length l)) eqn:E2, (length F <? length l) eqn:E3, (0 <? length F) eqn:E4;
      try reflexivity; exfalso;
      rewrite ?Nat.ltb_lt, ?Nat.ltb_ge, ?Nat.eqb_eq, ?Nat.eqb_neq in *; lia. }
  destruct (not_allowed_from o h tag 0 l) as [|i idx] eqn:Ei.
  - injection R as R. unfold ret. rewrite <- (Hflag [] Hl). rewrite <- R. reflexivity.
  - unfold pure. rewrite R. unfold ret. rewrite (Hflag (i :: idx) Hl). reflexivity.
Qed.
Lemma chain_eq n : forall x node g h, g_mut g = [] ->
  b_chain_has n x node g h = match parent_chain_has n h x node with Ok b => BOk (h, b) | Panic => BFault | OutOfFuel => BFuel end.
Proof.
  induction n as [|n IH]; intros x node g h E; cbn [b_chain_has parent_chain_has]; [reflexivity|].
  rewrite bind_eq, (parent_eq x h g E). destruct (parent h x) as [p|]; [|reflexivity].
  destruct (Nat.eqb p node); [reflexivity|]. exact (IH p node g h E).
Qed.
Lemma validate_eq dom node g h : g_mut g = [] -> WF h -> exists b, validate_dom_change h dom node = Ok b /\
  b_validate (S (length h)) dom node g h = BOk (h, (b, if b then [] else halt h dom)).
Proof.
  intros E wf. unfold b_validate. rewrite bind_eq, read_eq. unfold held_mut. rewrite E. cbn [existsb].
  unfold validate_dom_change, is_element, is_document, ntype_of.
  assert (R : (let! e := b_halt dom in ret (false, e)) g h = BOk (h, (false, halt h dom))).
  { rewrite bind_eq, (halt_eq dom h g E). reflexivity. }
  destruct (n_type (node_of h dom)); cbn [negb]; try (exists false; split; [reflexivity | exact R]).
  rewrite bind_eq, (type_eq node h g E). unfold ntype_of.
  destruct (chain_has_ok h node wf (S (length h)) dom) as (b & Eb & _).
  { pose proof (ups_length h wf (S (length h)) dom). lia. }
  assert (K : exists b0, (do b <- parent_chain_has (S (length h)) h dom node; Ok (negb b)) = Ok b0 /\
    (let! b := b_chain_has (S (length h)) dom node in if b : bool then (let! e := b_halt dom in ret (false, e)) else ret (true, [])) g h
     = BOk (h, (b0, if b0 then [] else halt h dom))).
  { exists (negb b). rewrite Eb. split; [reflexivity|]. rewrite bind_eq, (chain_eq _ _ _ _ _ E), Eb.
    destruct b; [exact R | reflexivity]. }
  destruct (n_type (node_of h node)) as [[]| | | | | | |];
    try (destruct (Nat.eqb dom node); [exists false; split; [reflexivity | exact R] | exact K]).
  exists false. split; [reflexivity | exact R].
Qed.

(** * Taking a node out *)
Lemma not_own h x : WF h -> parent h x <> Some x.
Proof. intros wf E. apply (wf_acyclic h wf x). constructor. exact E. Qed.
Lemma not_own_kid h p : WF h -> ~ In p (kids h p).
Proof. intros wf H. apply child_in in H. exact (not_own h p wf (child_parent h wf p p H)). Qed.

(** Also when the node is not listed any more (a sibling is taken out instead). *)
Lemma remove_child_any h p x h' : WF h -> remove_child h p x = Ok h' ->
  WF h' /\ SameNodes h h' /\ (forall y, parent h' y = parent h y) /\ (forall q y, In y (kids h' q) -> In y (kids h q)).
Proof.
  intros wf E.
  assert (K : h' = h -> WF h' /\ SameNodes h h' /\ (forall y, parent h' y = parent h y) /\ (forall q y, In y (kids h' q) -> In y (kids h q))).
  { intros ->. split; [exact wf|]. split; [apply same_nodes_refl|]. split; [reflexivity | tauto]. }
  destruct (parent h x) as [q|] eqn:Ep; [|unfold remove_child in E; rewrite Ep in E; injection E as <-; exact (K eq_refl)].
  destruct (Nat.eqb p q) eqn:Eq; [|unfold remove_child in E; rewrite Ep, Eq in E; injection E as <-; exact (K eq_refl)].
  apply Nat.eqb_eq in Eq. subst q.
  destruct (childs h p) as [cs|] eqn:Ec; [|unfold remove_child in E; rewrite Ep, Nat.eqb_refl, Ec in E; injection E as <-; exact (K eq_refl)].
  destruct (nth_error cs (index h x)) as [z|] eqn:Ez.
  - assert (Hz : Listed h p (index h x) z) by (unfold Listed, kids; rewrite Ec; exact Ez).
    destruct (wf_listed h wf _ _ _ Hz) as (_ & Hp & Hi).
    assert (E' : remove_child h p x = remove_child h p z) by (unfold remove_child; rewrite Ep, Hp, Hi; reflexivity).
    destruct (remove_child_ok h p z wf (ex_intro (fun i => Listed h p i z) _ Hz)) as (h1 & E1 & T & I & _). rewrite E', E1 in E. injection E as <-.
    split; [exact (takenout_wf h h1 z wf T I)|]. destruct T as (T1 & T2 & T3). split; [exact T1|]. split; [exact T3|].
    intros q y Hy. rewrite T2 in Hy. apply without_in in Hy. tauto.
  - exfalso. apply nth_error_None in Ez. unfold remove_child in E. rewrite Ep, Nat.eqb_refl, Ec in E. cbv zeta in E.
    unfold rsub in E. destruct (1 <=? length cs); cbn [rbind] in E; [|discriminate].
    unfold remove_at in E. replace (index h x <? length cs) with false in E by (symmetry; apply Nat.ltb_ge; exact Ez).
    destruct (Nat.eqb (index h x) (length cs - 1)); cbn [rbind] in E; [discriminate|].
    destruct (S (index h x) <=? length cs); cbn [rbind] in E; discriminate.
Qed.

(** The guard on one node, or on two. *)
Lemma held_one g p x : g_ref g = [] -> g_mut g = [CNode p] -> held g (CNode x) = Nat.eqb x p.
Proof. intros E1 E2. unfold held. rewrite E1, E2. cbn. rewrite !orb_false_r. reflexivity. Qed.
Lemma none_held_one p l : ~ In p l -> existsb (fun x => held (mkGuards [CNode p] []) (CNode x)) l = false.
Proof.
  intros H. apply not_true_is_false. intros E. apply existsb_exists in E. destruct E as (x & Hx & E).
  rewrite (held_one (mkGuards [CNode p] []) p x eq_refl eq_refl) in E. apply Nat.eqb_eq in E. subst x. contradiction.
Qed.
Lemma held_two p q x : held (mkGuards [CNode q; CNode p] []) (CNode x) = Nat.eqb x q || Nat.eqb x p.
Proof. unfold held. cbn. rewrite !orb_false_r. reflexivity. Qed.
Lemma two_held p q l : existsb (fun x => held (mkGuards [CNode q; CNode p] []) (CNode x)) l = includes l p || includes l q.
Proof.
  apply eq_true_iff_eq. rewrite existsb_exists, orb_true_iff, !includes_spec. split.
  - intros (x & Hx & E). rewrite held_two in E. apply orb_true_iff in E. rewrite !Nat.eqb_eq in E. destruct E as [-> | ->]; tauto.
  - intros [H | H]; [exists p | exists q]; (split; [exact H|]; rewrite held_two, Nat.eqb_refl, ?orb_true_r; reflexivity).
Qed.
Lemma none_held g l : g_ref g = [] -> g_mut g = [] -> existsb (fun x => held g (CNode x)) l = false.
Proof. intros E1 E2. induction l as [|x l IH]; cbn [existsb]; [reflexivity|]. unfold held at 1. rewrite E1, E2. exact IH. Qed.

Lemma remove_child_eq h p x : WF h -> b_remove_child p x no_guards h = silent (remove_child h p x).
Proof.
  intros wf. unfold b_remove_child, remove_child. rewrite bind_eq, (parent_eq x h no_guards eq_refl).
  destruct (parent h x) as [q|] eqn:Ep; [|reflexivity].
  destruct (Nat.eqb p q) eqn:Eq; [|reflexivity]. apply Nat.eqb_eq in Eq. subst q.
  assert (Hx : x <> p) by (intros ->; exact (not_own h p wf Ep)).
  unfold holding_mut. cbn [no_guards g_mut g_ref existsb orb]. rewrite bind_eq. unfold see at 1.
  change (n_childs (node_of h p)) with (childs h p).
  destruct (childs h p) as [cs|] eqn:Ec; [|reflexivity].
  assert (Hcs : ~ In p cs) by (rewrite <- (kids_some h p cs Ec); apply not_own_kid; exact wf).
  rewrite bind_eq, index_eq; [|unfold held_mut; cbn; rewrite orb_false_r; apply Nat.eqb_neq; exact Hx].
  rewrite bind_eq. unfold silent. cbv zeta. unfold pure, rsub. destruct (1 <=? length cs); cbn [rbind]; [|reflexivity].
  rewrite bind_eq. destruct (Nat.eqb (index h x) (length cs - 1)).
  - unfold ret at 1. rewrite bind_eq. cbn [rbind]. destruct (remove_at cs (index h x)); reflexivity.
  - destruct (S (index h x) <=? length cs); [|reflexivity]. rewrite reset_eq, none_held_one.
    + rewrite bind_eq. cbn [rbind]. destruct (remove_at cs (index h x)); reflexivity.
    + intros H. apply Hcs. rewrite <- (firstn_skipn (S (index h x)) cs). apply in_or_app. right. exact H.
Qed.
Lemma remove_one_eq h x : WF h -> b_remove_one x no_guards h = silent (remove_one h x).
Proof.
  intros wf. unfold b_remove_one, remove_one. rewrite bind_eq, (parent_eq x h no_guards eq_refl).
  destruct (parent h x) as [p|]; [exact (remove_child_eq h p x wf) | reflexivity].
Qed.
Lemma nodes_eq h x : WF h -> b_nodes x no_guards h = as_b (nodes_to_insert h x).
Proof.
  intros wf. unfold b_nodes, nodes_to_insert. rewrite bind_eq, (type_eq x h no_guards eq_refl).
  assert (K : (let! p := b_parent x in (match p with Some p => b_remove_child p x | None => ret tt end) ;; ret [x]) no_guards h =
    as_b (do h1 <- match parent h x with Some p => remove_child h p x | None => Ok h end; Ok (h1, [x]))).
  { rewrite bind_eq, (parent_eq x h no_guards eq_refl), bind_eq. destruct (parent h x) as [p|]; [|reflexivity].
    rewrite (remove_child_eq h p x wf). unfold silent. destruct (remove_child h p x); reflexivity. }
  unfold is_fragment. destruct (ntype_of h x) as [[]| | | | | | |]; cbn [negb]; try exact K. reflexivity.
Qed.
Lemma nodes_ok h x h1 ns : WF h -> nodes_to_insert h x = Ok (h1, ns) ->
  WF h1 /\ SameNodes h h1 /\ (forall y, parent h1 y = parent h y) /\ (forall q y, In y (kids h1 q) -> In y (kids h q)) /\
  ((is_fragment h x = true /\ h1 = h /\ ns = kids h x) \/ (is_fragment h x = false /\ ns = [x])).
Proof.
  intros wf. unfold nodes_to_insert. destruct (is_fragment h x) eqn:Ef.
  - intros E. injection E as <- <-. split; [exact wf|]. split; [apply same_nodes_refl|]. split; [reflexivity|]. split; [tauto|].
    left. repeat split.
  - destruct (match parent h x with Some p => remove_child h p x | None => Ok h end) as [h2| |] eqn:E2; cbn [rbind]; try discriminate.
    intros E. injection E as <- <-. destruct (parent h x) as [p|].
    + destruct (remove_child_any h p x h2 wf E2) as (A & B & C & D). repeat (split; [assumption|]). right. split; reflexivity.
    + injection E2 as <-. split; [exact wf|]. split; [apply same_nodes_refl|]. split; [reflexivity|]. split; [tauto|]. right. split; reflexivity.
Qed.
Lemma one_held p l : existsb (fun x => held (mkGuards [CNode p] []) (CNode x)) l = includes l p.
Proof.
  apply eq_true_iff_eq. rewrite existsb_exists, includes_spec. split.
  - intros (x & Hx & E). rewrite (held_one (mkGuards [CNode p] []) p x eq_refl eq_refl) in E. apply Nat.eqb_eq in E. subst x. exact Hx.
  - intros H. exists p. split; [exact H|]. rewrite (held_one (mkGuards [CNode p] []) p p eq_refl eq_refl). apply Nat.eqb_refl.
Qed.
Lemma includes_not l x : includes l x = false <-> ~ In x l.
Proof. rewrite <- includes_spec. destruct (includes l x); split; congruence. Qed.

(** An outcome where every panic is a clash. *)
Definition or_clash (r : res heap) : bres (heap * unit) :=
  match r with Ok h => BOk (h, tt) | Panic => BClash | OutOfFuel => BFuel end.

(** * Insertion *)
Lemma second_guard {A} p self (k : B A) g h : g = mkGuards [CNode self] [] -> p <> self ->
  holding_mut (CNode p) k g h = k (mkGuards [CNode p; CNode self] []) h.
Proof.
  intros -> H. unfold holding_mut. cbn [no_guards g_mut g_ref existsb orb cell_eqb].
  replace (Nat.eqb p self) with false by (symmetry; apply Nat.eqb_neq; exact H). reflexivity.
Qed.
Lemma first_guard {A} p (k : B A) h : holding_mut (CNode p) k no_guards h = k (mkGuards [CNode p] []) h.
Proof. reflexivity. Qed.

Lemma beside_eq h self after_ ns : WF h ->
  b_beside self after_ ns no_guards h = or_clash (insert_beside h self after_ ns).
Proof.
  intros wf. unfold b_beside, insert_beside. rewrite bind_eq, index_eq; [|reflexivity]. cbv zeta.
  set (i := if after_ then S (index h self) else index h self).
  rewrite bind_eq, reset_eq, none_held; [|reflexivity|reflexivity].
  set (h1 := reset_index h i ns). rewrite bind_eq, first_guard, bind_eq. unfold see at 1.
  change (n_parent (node_of h1 self)) with (parent h1 self).
  destruct (parent h1 self) as [p|] eqn:Ep; [|reflexivity].
  assert (Ep0 : parent h self = Some p) by (unfold h1 in Ep; rewrite parent_reset in Ep; exact Ep).
  assert (Hp : p <> self) by (intros ->; exact (not_own h self wf Ep0)).
  rewrite (second_guard p self); [|reflexivity|exact Hp]. rewrite bind_eq. unfold see at 1.
  change (n_childs (node_of h1 p)) with (childs h1 p).
  destruct (childs h1 p) as [cs|] eqn:Ec; [|reflexivity].
  rewrite bind_eq, set_parents_eq, two_held.
  destruct (includes ns self || includes ns p) eqn:Ei; [reflexivity|].
  apply orb_false_iff in Ei. destruct Ei as [Ei1 Ei2]. rewrite includes_not in Ei1, Ei2.
  set (h2 := set_parents h1 p ns).
  set (prevs := if i <? length cs then firstn i cs else cs). set (nexts := if i <? length cs then skipn i cs else []).
  rewrite bind_eq. unfold put at 1. unfold ret at 1. set (h3 := upd h2 p (set_ch (Some (prevs ++ ns)))).
  destruct nexts as [|n nexts']; [reflexivity|]. set (nx := n :: nexts') in *.
  rewrite bind_eq, reset_eq, none_held; [|reflexivity|reflexivity].
  set (h4 := reset_index h3 (i + length ns) nx). rewrite first_guard, bind_eq. unfold see at 1.
  change (n_parent (node_of h4 self)) with (parent h4 self).
  assert (Hpl : p < length h2).
  { unfold h2, h1. rewrite length_set_parents, length_reset. exact (proj1 (wf_parent h wf _ _ Ep0)). }
  assert (E4 : parent h4 self = Some p).
  { unfold h4, h3, h2. rewrite parent_reset, parent_set_ch, parent_set_parents_other; [exact Ep | exact Ei1]. }
  rewrite E4, (second_guard p self); [|reflexivity|exact Hp]. rewrite bind_eq. unfold see at 1.
  change (n_childs (node_of h4 p)) with (childs h4 p).
  assert (E5 : childs h4 p = Some (prevs ++ ns)) by (unfold h4, h3; rewrite childs_reset, childs_set_ch; [reflexivity | exact Hpl]).
  rewrite E5. unfold put. rewrite <- app_assoc. reflexivity.
Qed.
Lemma inside_eq h self at_end ns : ~ In self (kids h self) ->
  b_inside self at_end ns no_guards h = or_clash (insert_inside h self at_end ns).
Proof.
  intros Hk. unfold b_inside, insert_inside. rewrite bind_eq, set_parents_eq, none_held; [|reflexivity|reflexivity].
  cbv zeta. set (h1 := set_parents h self ns). rewrite bind_eq, first_guard, bind_eq. unfold see at 1.
  change (n_childs (node_of h1 self)) with (childs h1 self).
  destruct (childs h1 self) as [cs|] eqn:Ec.
  - assert (Hc : ~ In self cs).
    { rewrite <- (kids_some h1 self cs Ec). unfold h1. rewrite kids_set_parents. exact Hk. }
    rewrite bind_eq. destruct at_end; rewrite bind_eq, reset_eq, one_held;
      (destruct (includes ns self); [reflexivity|]).
    + reflexivity.
    + rewrite bind_eq, reset_eq, one_held. rewrite (proj2 (includes_not cs self) Hc). reflexivity.
  - unfold ret at 1. rewrite bind_eq, reset_eq, none_held; reflexivity.
Qed.

(** The validated nodes are neither the target nor its parent. *)
Lemma validated_apart h self x h1 ns : WF h -> self <> x -> ~ Up h self x -> nodes_to_insert h x = Ok (h1, ns) ->
  ~ In self ns /\ (forall p, parent h1 self = Some p -> ~ In p ns).
Proof.
  intros wf Hne Hup E. destruct (nodes_ok h x h1 ns wf E) as (_ & _ & Hp & _ & [(_ & -> & ->) | (_ & ->)]).
  - split.
    + intros H. apply child_in in H. apply Hup. constructor. exact (child_parent h wf x self H).
    + intros p E1 H. apply child_in in H. apply Hup. apply (up_first _ _ _ _ E1). right. constructor. exact (child_parent h wf x p H).
  - split.
    + intros [H | []]. congruence.
    + intros p E1 [H | []]. subst p. apply Hup. constructor. rewrite <- Hp. exact E1.
Qed.
Lemma insert_adjacent_eq o h self pos x : WF h ->
  b_insert_adjacent o (S (length h)) self pos x no_guards h = as_b (insert_adjacent o h self pos x).
Proof.
  intros wf. unfold b_insert_adjacent, insert_adjacent.
  destruct (validate_eq self x no_guards h eq_refl wf) as (b & E1 & E2). rewrite bind_eq, E2, E1. cbn [rbind fst snd].
  destruct b; cbn [negb]; [|reflexivity].
  destruct (validate_ok h self x wf) as (b' & E1' & Hb). rewrite E1' in E1. injection E1 as ->.
  destruct (proj1 Hb eq_refl) as (_ & _ & Hne & Hup). clear E1' Hb E2.
  rewrite bind_eq, (nodes_eq h x wf). destruct (nodes_to_insert h x) as [[h1 ns0]| |] eqn:En; cbn [as_b rbind]; try reflexivity.
  destruct (nodes_ok h x h1 ns0 wf En) as (wf1 & _ & _ & _ & _).
  destruct (validated_apart h self x h1 ns0 wf Hne Hup En) as (Ha & Hb). cbn [fst snd].
  rewrite bind_eq, (tag_eq self h1 no_guards eq_refl), bind_eq.
  assert (Kin : forall at_end ns, ~ In self ns ->
    (b_inside self at_end ns ;; ret []) no_guards h1 = as_b (do h2 <- insert_inside h1 self at_end ns; Ok (h2, [] : errors))).
  { intros at_end ns Hns. rewrite bind_eq, (inside_eq h1 self at_end ns (not_own_kid h1 self wf1)).
    unfold insert_inside. rewrite (proj2 (includes_not ns self) Hns).
    destruct (childs (set_parents h1 self ns) self), at_end; reflexivity. }
  assert (Kbe : forall after_,
    (b_beside self after_ ns0 ;; ret []) no_guards h1 = as_b (do h2 <- insert_beside h1 self after_ ns0; Ok (h2, [] : errors))).
  { intros after_. rewrite bind_eq, (beside_eq h1 self after_ ns0 wf1). unfold insert_beside. rewrite parent_reset.
    destruct (parent h1 self) as [p|] eqn:Ep; [|reflexivity].
    rewrite (proj2 (includes_not ns0 self) Ha), (proj2 (includes_not ns0 p) (Hb p eq_refl)). cbn [orb].
    destruct (childs _ p) as [cs|]; [|reflexivity].
    destruct (if (if after_ then S (index h1 self) else index h1 self) <? length cs then _ else []); reflexivity. }
  assert (Kal : (let! r := b_remove_not_allowed o (tag_names h1 self) ns0 in ret (fst r)) no_guards h1 =
    BOk (h1, filter (fun y => od_allow_insert o (tag_names h1 self) (ntype_of h1 y)) ns0)).
  { rewrite bind_eq, (not_allowed_nodes_eq o _ ns0 no_guards h1 eq_refl). reflexivity. }
  destruct pos.
  - unfold ret at 1. cbn [rbind]. destruct ns0; [reflexivity | apply Kbe].
  - unfold ret at 1. cbn [rbind]. destruct ns0; [reflexivity | apply Kbe].
  - rewrite Kal, remove_not_allowed_ok. cbn [rbind].
    assert (Hf : ~ In self (filter (fun y => od_allow_insert o (tag_names h1 self) (ntype_of h1 y)) ns0)) by (rewrite filter_In; tauto).
    destruct (filter _ ns0); [reflexivity | apply Kin; exact Hf].
  - rewrite Kal, remove_not_allowed_ok. cbn [rbind].
    assert (Hf : ~ In self (filter (fun y => od_allow_insert o (tag_names h1 self) (ntype_of h1 y)) ns0)) by (rewrite filter_In; tauto).
    destruct (filter _ ns0); [reflexivity | apply Kin; exact Hf].
Qed.

(** * Replacement *)
Lemma moves_ns h x h1 ns y : WF h -> nodes_to_insert h x = Ok (h1, ns) -> (In y ns <-> Moves h x y).
Proof.
  intros wf E. destruct (nodes_ok h x h1 ns wf E) as (_ & _ & _ & _ & [(Ef & _ & ->) | (Ef & ->)]); unfold Moves; rewrite Ef;
    [tauto | cbn [In]; intuition congruence].
Qed.
Lemma remove_child_lists h q x h' p : remove_child h q x = Ok h' -> (childs h' p = None <-> childs h p = None).
Proof.
  unfold remove_child. destruct (parent h x) as [r|]; [|intros E; injection E as <-; tauto].
  destruct (Nat.eqb q r); [|intros E; injection E as <-; tauto].
  destruct (childs h q) as [cs|] eqn:Ec; [|intros E; injection E as <-; tauto]. cbv zeta.
  destruct (rsub (length cs) 1) as [l| |]; cbn [rbind]; try discriminate.
  destruct (if Nat.eqb (index h x) l then Ok h else _) as [h1| |] eqn:E1; cbn [rbind]; try discriminate.
  destruct (remove_at cs (index h x)) as [cs'| |]; cbn [rbind]; try discriminate. intros E. injection E as <-.
  assert (L : q < length h) by (apply childs_lt; rewrite Ec; discriminate).
  assert (E1' : length h1 = length h /\ childs h1 p = childs h p).
  { destruct (Nat.eqb (index h x) l); [injection E1 as <-; split; reflexivity|].
    destruct (S (index h x) <=? length cs); [|discriminate]. injection E1 as <-. split; [apply length_reset | apply childs_reset]. }
  destruct E1' as (L1 & C1). destruct (Nat.eq_dec p q) as [-> | Hn].
  - rewrite childs_set_ch by lia. rewrite Ec. split; discriminate.
  - rewrite childs_set_ch_other by exact Hn. rewrite C1. tauto.
Qed.
Lemma nodes_lists h x h1 ns p : nodes_to_insert h x = Ok (h1, ns) -> (childs h1 p = None <-> childs h p = None).
Proof.
  unfold nodes_to_insert. destruct (is_fragment h x); [intros E; injection E as <- <-; tauto|].
  destruct (parent h x) as [q|].
  - destruct (remove_child h q x) as [h2| |] eqn:E2; cbn [rbind]; try discriminate. intros E. injection E as <- <-.
    exact (remove_child_lists h q x h2 p E2).
  - cbn [rbind]. intros E. injection E as <- <-. tauto.
Qed.
Lemma nth_skipn {A} s : forall (l : list A) k, nth_error (skipn s l) k = nth_error l (s + k).
Proof. induction s as [|s IH]; intros l k; [reflexivity|]. destruct l; cbn [skipn Nat.add nth_error]; [destruct k; reflexivity | apply IH]. Qed.
Lemma later_apart h p x cs : WF h -> parent h x = Some p -> childs h p = Some cs ->
  ~ In x (skipn (S (index h x)) cs) /\ ~ In p (skipn (S (index h x)) cs).
Proof.
  intros wf Ep Ec. split.
  - intros H. apply In_nth_error in H. destruct H as (j & Hj). rewrite nth_skipn in Hj.
    assert (Hl : Listed h p (S (index h x) + j) x) by (unfold Listed, kids; rewrite Ec; exact Hj).
    pose proof (listed_index h wf _ _ _ Hl). lia.
  - intros H. apply (not_own_kid h p wf). rewrite (kids_some h p cs Ec), <- (firstn_skipn (S (index h x)) cs).
    apply in_or_app. right. exact H.
Qed.

(** A clash where the nodes that come in include the replaced node or its parent. *)
Definition clashing (h : heap) (self : id) (ns : list id) : bool :=
  match parent h self with
  | Some p => match childs h p with Some _ => includes ns self || includes ns p | None => false end
  | None => false
  end.
Lemma replace_with_eq h self x : WF h ->
  b_replace_with self x no_guards h =
  match nodes_to_insert h x with
  | Ok (h1, ns) => if clashing h1 self ns then BClash else as_b (replace_with h self x)
  | Panic => BFault
  | OutOfFuel => BFuel
  end.
Proof.
  intros wf. unfold b_replace_with, replace_with. rewrite bind_eq, (type_eq x h no_guards eq_refl), bind_eq, (nodes_eq h x wf).
  destruct (nodes_to_insert h x) as [[h1 ns]| |] eqn:En; cbn [as_b rbind fst snd]; try reflexivity.
  destruct (nodes_ok h x h1 ns wf En) as (wf1 & _).
  cbv zeta. set (nself := match ntype_of h x with NRoot false => match ns with [y] => y | _ => self end | _ => x end).
  replace (if is_fragment h x then match ns with [y] => y | _ => self end else x) with nself.
  2: { unfold nself, is_fragment. destruct (ntype_of h x) as [[]| | | | | | |]; reflexivity. }
  assert (K : ns = [] -> clashing h1 self ns = false).
  { intros ->. unfold clashing. destruct (parent h1 self) as [p|]; [|reflexivity]. destruct (childs h1 p); reflexivity. }
  destruct ns as [|n ns']; [rewrite (K eq_refl); reflexivity|]. clear K. set (ns := n :: ns') in *. clearbody nself ns.
  rewrite bind_eq, index_eq; [|reflexivity]. rewrite bind_eq, first_guard, bind_eq. unfold see at 1.
  change (n_parent (node_of h1 self)) with (parent h1 self). unfold clashing.
  destruct (parent h1 self) as [p|] eqn:Ep; [|reflexivity].
  assert (Hp : p <> self) by (intros ->; exact (not_own h1 self wf1 Ep)).
  rewrite (second_guard p self); [|reflexivity|exact Hp]. rewrite bind_eq. unfold see at 1.
  change (n_childs (node_of h1 p)) with (childs h1 p).
  destruct (childs h1 p) as [cs|] eqn:Ec; [|reflexivity].
  rewrite bind_eq, reset_eq, two_held. destruct (includes ns self || includes ns p) eqn:Ei; [reflexivity|].
  destruct (later_apart h1 p self cs wf1 Ep Ec) as (Hl1 & Hl2).
  set (i := index h1 self) in *. set (h2 := reset_index h1 i ns).
  assert (E3 : (if i <? length cs then b_reset (i + length ns) (skipn (S i) cs) else ret tt) (mkGuards [CNode p; CNode self] []) h2 =
    BOk (if i <? length cs then reset_index h2 (i + length ns) (skipn (S i) cs) else h2, tt)).
  { destruct (i <? length cs); [|reflexivity]. rewrite reset_eq, two_held.
    rewrite (proj2 (includes_not _ _) Hl1), (proj2 (includes_not _ _) Hl2). reflexivity. }
  rewrite bind_eq, E3, bind_eq, set_parents_eq, two_held, Ei.
  destruct (S i <=? length cs); reflexivity.
Qed.

(** * Texts *)
Lemma upd_app h ns x f : x < length h -> upd (h ++ ns) x f = upd h x f ++ ns.
Proof.
  revert x. induction h as [|n h IH]; intros x Hx; cbn [length] in Hx; [lia|].
  destruct x as [|x]; cbn [app upd]; [reflexivity|]. rewrite IH by lia. reflexivity.
Qed.
Lemma set_text_eq o h x s : b_set_text o x s no_guards h = BOk (set_text o h x s).
Proof.
  unfold b_set_text, set_text. rewrite bind_eq, (type_eq x h no_guards eq_refl).
  destruct (ntype_of h x) eqn:Et; try reflexivity; try (destruct s; [apply halt_eq; reflexivity | reflexivity]).
  assert (L : x < length h) by (apply element_lt; unfold is_element; rewrite Et; reflexivity).
  rewrite bind_eq, (tag_eq x h no_guards eq_refl). cbv zeta. rewrite first_guard, bind_eq.
  destruct s as [|c s], (negb (od_content_tag o (tag_names h x))); try reflexivity.
  rewrite bind_eq. unfold create, put, ret. rewrite upd_app by exact L. reflexivity.
Qed.
Lemma text_remove_eq_b h x : WF h -> b_text_remove x no_guards h = silent (text_remove h x).
Proof.
  intros wf. unfold b_text_remove, text_remove. rewrite bind_eq, index_eq; [|reflexivity]. rewrite first_guard, bind_eq. unfold see at 1.
  change (n_parent (node_of h x)) with (parent h x). destruct (parent h x) as [p|] eqn:Ep; [|reflexivity].
  assert (Hp : p <> x) by (intros ->; exact (not_own h x wf Ep)).
  rewrite (second_guard p x); [|reflexivity|exact Hp]. rewrite bind_eq. unfold see at 1.
  change (n_childs (node_of h p)) with (childs h p). destruct (childs h p) as [cs|] eqn:Ec; [|reflexivity].
  destruct (later_apart h p x cs wf Ep Ec) as (H1 & H2). cbv zeta. rewrite bind_eq. unfold pure, remove_at.
  destruct (index h x <? length cs) eqn:El; [|reflexivity]. apply Nat.ltb_lt in El.
  assert (Es : skipn (index h x) (firstn (index h x) cs ++ skipn (S (index h x)) cs) = skipn (S (index h x)) cs).
  { rewrite skipn_app, firstn_length, Nat.min_l by lia. rewrite Nat.sub_diag, skipn_all2 by (rewrite firstn_length; lia). reflexivity. }
  cbn [rbind]. rewrite bind_eq. unfold put. rewrite reset_eq, two_held, Es.
  rewrite (proj2 (includes_not _ _) H1), (proj2 (includes_not _ _) H2). reflexivity.
Qed.
Lemma append_text_eq h x s : b_append_text x s no_guards h = or_clash (append_text h x s).
Proof.
  unfold b_append_text, append_text. rewrite first_guard, bind_eq. unfold see at 1.
  destruct (n_content (node_of h x)); [reflexivity|]. rewrite write_eq, (held_one (mkGuards [CNode x] []) x x eq_refl eq_refl), Nat.eqb_refl. reflexivity.
Qed.
Lemma prepend_text_eq h x s : b_prepend_text x s no_guards h = or_clash (prepend_text h x s).
Proof.
  unfold b_prepend_text, prepend_text. rewrite first_guard, bind_eq. unfold see at 1.
  destruct (n_content (node_of h x)); [reflexivity|]. rewrite write_eq, (held_one (mkGuards [CNode x] []) x x eq_refl eq_refl), Nat.eqb_refl. reflexivity.
Qed.

(** * [set_html] *)
Lemma with_name_eq {A} x (k : str -> B A) h :
  with_name x k no_guards h =
  match n_meta (node_of h x) with Some m => k (m_name m) (mkGuards [] [CMeta x; CNode x]) h | None => BFault end.
Proof.
  unfold with_name, holding_ref. cbn [no_guards g_mut g_ref existsb]. rewrite bind_eq. unfold see at 1.
  destruct (n_meta (node_of h x)); reflexivity.
Qed.
Lemma set_html_eq o parse h x s : WF h -> b_set_html o parse x s no_guards h = silent (set_html o parse h x s).
Proof.
  intros wf. unfold b_set_html, set_html. rewrite bind_eq, (type_eq x h no_guards eq_refl), bind_eq.
  assert (Et : (match ntype_of h x with
                | NTag => ret (Some (true, x))
                | NText | NSpaces => holding_mut (CNode x) (see x (fun n => option_map (fun p => (false, p)) (n_parent n)))
                | _ => ret None
                end) no_guards h = BOk (h, html_target h x)).
  { unfold html_target. destruct (ntype_of h x); reflexivity. }
  rewrite Et. clear Et. destruct (html_target h x) as [[el t]|] eqn:Eh; [|reflexivity].
  assert (Hel : el = false -> parent h x = Some t).
  { unfold html_target in Eh. intros ->. destruct (ntype_of h x); try discriminate;
      (destruct (parent h x); [injection Eh as ->; reflexivity | discriminate]). }
  rewrite bind_eq, with_name_eq. destruct (n_meta (node_of h t)) as [m|] eqn:Em; [|reflexivity].
  pose proof (meta_lt h t m Em) as Lt. unfold ret at 1.
  destruct (od_content_tag o (m_name m)); [reflexivity|].
  destruct (parse s) as [[ts|]|]; try reflexivity.
  rewrite bind_eq. unfold create_all at 1. cbv zeta. set (h1 := h ++ lay_list None 0 (length h) ts). set (all := roots_from (length h) ts).
  rewrite bind_eq, with_name_eq.
  assert (En : node_of h1 t = node_of h t) by (apply node_app_old; exact Lt).
  rewrite En, Em, (not_allowed_nodes_eq o (m_name m) all (mkGuards [] [CMeta t; CNode t]) h1 eq_refl), remove_not_allowed_ok. cbn [rbind fst snd].
  set (ns := filter (fun y => od_allow_insert o (m_name m) (ntype_of h1 y)) all).
  assert (Hns : ~ In t ns).
  { unfold ns. rewrite filter_In. intros [H _]. apply roots_ge in H. lia. }
  rewrite bind_eq.
  assert (E2 : (if 0 <? length ns then b_set_parents t ns else ret tt) no_guards h1 = BOk (set_parents h1 t ns, tt)).
  { destruct ns as [|n ns']; [reflexivity|]. cbn [length Nat.ltb Nat.leb]. rewrite set_parents_eq, none_held; reflexivity. }
  rewrite E2. clear E2. set (h2 := set_parents h1 t ns). destruct el.
  - rewrite bind_eq. destruct ((length ns <? length all) && (0 <? length ns)); [|reflexivity].
    rewrite reset_eq, none_held; reflexivity.
  - specialize (Hel eq_refl). assert (Hx : x <> t) by (intros ->; exact (not_own h t wf Hel)).
    rewrite first_guard, bind_eq. unfold see at 1. change (n_childs (node_of h2 t)) with (childs h2 t).
    destruct (childs h2 t) as [cs|] eqn:Ec; [|reflexivity].
    assert (Hcs : ~ In t cs).
    { rewrite <- (kids_some h2 t cs Ec). unfold h2. rewrite kids_set_parents. unfold kids, childs. rewrite En. exact (not_own_kid h t wf). }
    rewrite bind_eq, index_eq; [|unfold held_mut; cbn; rewrite orb_false_r; apply Nat.eqb_neq; exact Hx].
    rewrite bind_eq. unfold silent. cbv zeta. unfold pure. destruct (rsub (length cs) 1) as [l| |]; cbn [rbind]; try reflexivity.
    set (i := index h2 x).
    assert (E3 : (if i <? l then b_reset (i + length ns) (skipn (S i) cs) else ret tt) (mkGuards [CNode t] []) h2 =
      BOk (if i <? l then reset_index h2 (i + length ns) (skipn (S i) cs) else h2, tt)).
    { destruct (i <? l); [|reflexivity]. rewrite reset_eq, none_held_one; [reflexivity|].
      intros H. apply Hcs. rewrite <- (firstn_skipn (S i) cs). apply in_or_app. right. exact H. }
    rewrite bind_eq, E3. destruct (0 <? length ns).
    + rewrite bind_eq, reset_eq, none_held_one by exact Hns. destruct (S i <=? length cs); reflexivity.
    + rewrite bind_eq. destruct (remove_at cs i); reflexivity.
Qed.

(** * Attributes *)
Lemma upd_upd h x f g : upd (upd h x f) x g = upd h x (fun n => g (f n)).
Proof.
  revert x. induction h as [|n h IH]; intros x; cbn [upd]; [reflexivity|].
  destruct x; cbn [upd]; [reflexivity|]. rewrite IH. reflexivity.
Qed.
Lemma upd_ext h x f g : f (node_of h x) = g (node_of h x) -> upd h x f = upd h x g.
Proof.
  revert x. induction h as [|n h IH]; intros x E; cbn [upd]; [reflexivity|].
  destruct x as [|x]; cbn [upd]; [cbn in E; rewrite E; reflexivity|]. rewrite (IH x E). reflexivity.
Qed.
Lemma set_attribute_eq o h x name value :
  b_set_attribute o x name value no_guards h = silent (on_meta h x (fun m => set_attribute o m name value)).
Proof.
  unfold b_set_attribute, on_meta, silent. unfold holding_ref at 1. cbn [no_guards g_mut g_ref existsb]. rewrite bind_eq. unfold see at 1.
  destruct (n_meta (node_of h x)) as [m|] eqn:Em; [|reflexivity]. cbv zeta. unfold set_attribute.
  set (st := option_map (quote_loop o) value).
  replace (match value with Some v => Some (quote_loop o v) | None => None end) with st by (destruct value; reflexivity).
  rewrite bind_eq. unfold holding_ref at 1, see_meta at 1, see at 1. cbn [g_mut existsb]. rewrite Em.
  destruct (amap_get (m_lc m) (str_lower name)) as [i|].
  - unfold holding_mut. cbn [no_guards g_mut g_ref existsb orb cell_eqb]. rewrite bind_eq. unfold see_meta, see at 1. rewrite Em.
    rewrite bind_eq. unfold pure at 1. destruct (rnth (m_attrs m) i) as [a| |]; cbn [rbind as_b]; try reflexivity.
    rewrite bind_eq. unfold pure. change (match st with Some s => Some (q_content s) | None => None end) with (option_map q_content st).
    destruct (rset (m_attrs m) i _) as [l| |]; cbn [rbind as_b]; try reflexivity.
    unfold put_meta, put. do 2 f_equal. apply upd_ext. rewrite Em. reflexivity.
  - rewrite bind_eq. unfold holding_ref at 1, see_meta at 1, see at 1. cbn [g_mut existsb]. rewrite Em.
    rewrite bind_eq. unfold holding_mut at 1. cbn [no_guards g_mut g_ref existsb orb cell_eqb]. unfold put_meta at 1, put at 1.
    unfold holding_mut. cbn [no_guards g_mut g_ref existsb orb cell_eqb]. unfold put_meta, put. rewrite upd_upd. cbn [rbind as_b].
    do 2 f_equal. apply upd_ext. unfold set_meta. cbn [n_type n_parent n_index n_childs n_content n_meta n_root]. rewrite Em. reflexivity.
Qed.
Lemma remove_attribute_eq h x name :
  b_remove_attribute x name no_guards h = silent (on_meta h x (fun m => remove_attribute m name)).
Proof.
  unfold b_remove_attribute, on_meta, silent. unfold holding_ref at 1. cbn [no_guards g_mut g_ref existsb]. rewrite bind_eq. unfold see at 1.
  destruct (n_meta (node_of h x)) as [m|] eqn:Em; [|reflexivity]. unfold remove_attribute.
  rewrite bind_eq. unfold holding_ref at 1, see_meta at 1, see at 1. cbn [g_mut existsb]. rewrite Em. rewrite bind_eq.
  assert (E : (if match m_lc m with [] => true | _ => false end then ret None
               else holding_ref (CMeta x) (see_meta x None (fun m => amap_get (m_lc m) (str_lower name)))) (mkGuards [] [CNode x]) h =
    BOk (h, match m_lc m with [] => None | _ => amap_get (m_lc m) (str_lower name) end)).
  { destruct (m_lc m) eqn:El; [reflexivity|]. unfold holding_ref, see_meta, see. cbn [g_mut existsb]. rewrite Em, El. reflexivity. }
  rewrite E. clear E. cbv zeta. destruct (match m_lc m with [] => None | _ => amap_get (m_lc m) (str_lower name) end) as [i|].
  - rewrite bind_eq. unfold holding_mut at 1. cbn [no_guards g_mut g_ref existsb orb cell_eqb]. rewrite bind_eq. unfold see_meta, see at 1. rewrite Em.
    rewrite bind_eq. unfold pure. destruct (rset (m_attrs m) i attr_default) as [l| |]; cbn [rbind as_b]; try reflexivity.
    unfold put_meta at 1, put at 1. unfold holding_mut. cbn [no_guards g_mut g_ref existsb orb cell_eqb]. unfold put_meta, put. rewrite upd_upd.
    do 2 f_equal. apply upd_ext. unfold set_meta. cbn [n_type n_parent n_index n_childs n_content n_meta n_root]. rewrite Em. reflexivity.
  - cbn [rbind as_b]. unfold ret. do 2 f_equal. rewrite (upd_ext h x _ (fun n => n)).
    + clear. revert x. induction h as [|n h IH]; intros x; [reflexivity|]. destruct x; cbn [upd]; [reflexivity | rewrite <- IH; reflexivity].
    + unfold set_meta. rewrite <- Em. destruct (node_of h x); reflexivity.
Qed.
Lemma get_attribute_eq h x name rs :
  b_get_attribute x name (mkGuards [] rs) h = as_b (do a <- node_attribute h x name; Ok (h, a)).
Proof.
  unfold b_get_attribute, node_attribute. unfold holding_ref at 1. cbn [no_guards g_mut g_ref existsb]. rewrite bind_eq. unfold see at 1.
  destruct (n_meta (node_of h x)) as [m|] eqn:Em; [|reflexivity]. unfold get_attribute.
  unfold holding_ref at 1. cbn [g_mut existsb]. rewrite bind_eq. unfold see_meta at 1, see at 1. rewrite Em.
  destruct (m_lc m) as [|e lc]; [reflexivity|]. destruct (amap_get (e :: lc) (str_lower name)) as [i|]; [|reflexivity].
  unfold holding_ref. cbn [g_mut existsb]. rewrite bind_eq. unfold see_meta, see. rewrite Em, bind_eq. unfold pure.
  destruct (rnth (m_attrs m) i); reflexivity.
Qed.

(** * Whole calls *)
Lemma as_b_not_clash {A} (r : res A) : as_b r <> BClash.
Proof. destruct r; discriminate. Qed.
Lemma silent_not_clash r : silent r <> BClash.
Proof. apply as_b_not_clash. Qed.
Lemma clashing_spec h self x h1 ns : WF h -> nodes_to_insert h x = Ok (h1, ns) ->
  (clashing h1 self ns = true <-> BringsHolder h self x).
Proof.
  intros wf En. destruct (nodes_ok h x h1 ns wf En) as (_ & _ & Hp & _). unfold clashing, BringsHolder. rewrite Hp.
  destruct (parent h self) as [p|]; [|split; [discriminate | intros (p & E & _); discriminate]].
  pose proof (nodes_lists h x h1 ns p En) as Hl.
  destruct (childs h1 p) as [cs|].
  - rewrite orb_true_iff, !includes_spec, (moves_ns h x h1 ns self wf En), (moves_ns h x h1 ns p wf En). split.
    + intros H. exists p. split; [reflexivity|]. split; [|exact H]. intros E. apply Hl in E. discriminate.
    + intros (q & E & _ & H). injection E as <-. exact H.
  - split; [discriminate|]. intros (q & E & Hc & _). injection E as <-. exfalso. apply Hc, Hl. reflexivity.
Qed.
Lemma on_one {A} f (h : A) (x : id) : rfold f [x] h = f h x.
Proof. cbn [rfold]. destruct (f h x); reflexivity. Qed.
Lemma unit_eq {A} (m : B A) (r : res (heap * A)) g h : m g h = as_b r -> (m ;; ret tt) g h = silent (do x <- r; Ok (fst x)).
Proof. intros E. rewrite bind_eq, E. destruct r as [[h' a]| |]; reflexivity. Qed.

Lemma takable_spec h y : Takable h y <-> exists h' ns, nodes_to_insert h y = Ok (h', ns).
Proof.
  unfold Takable, nodes_to_insert. destruct (is_fragment h y); [split; [intros _; eexists; eexists; reflexivity | intros _; left; reflexivity]|].
  destruct (parent h y) as [p|] eqn:Ep.
  2: { split; [intros _; eexists; eexists; reflexivity | intros _; right; intros p E; discriminate]. }
  unfold remove_child. rewrite Ep, Nat.eqb_refl. destruct (childs h p) as [cs|] eqn:Ec.
  2: { split; [intros _; eexists; eexists; reflexivity | intros _; right]. intros q E H. injection E as <-. congruence. }
  pose proof (kids_some h p cs Ec) as Ek. cbv zeta. unfold rsub, remove_at. split.
  - intros [H | H]; [discriminate|]. specialize (H p eq_refl). rewrite Ec, Ek in H.
    assert (Hi : index h y < length cs) by (apply H; discriminate).
    replace (1 <=? length cs) with true by (symmetry; apply Nat.leb_le; lia).
    replace (S (index h y) <=? length cs) with true by (symmetry; apply Nat.leb_le; lia).
    replace (index h y <? length cs) with true by (symmetry; apply Nat.ltb_lt; lia). cbn [rbind].
    destruct (Nat.eqb (index h y) (length cs - 1)); eexists; eexists; reflexivity.
  - intros (h' & ns & E). right. intros q Eq _. injection Eq as <-. rewrite Ek.
    destruct (index h y <? length cs) eqn:Ei; [apply Nat.ltb_lt; exact Ei|]. exfalso.
    destruct (1 <=? length cs); cbn [rbind] in E; [|discriminate].
    destruct (Nat.eqb (index h y) (length cs - 1)); cbn [rbind] in E; [discriminate|].
    destruct (S (index h y) <=? length cs); cbn [rbind] in E; discriminate.
Qed.
Lemma call_cases o oa parse h c : WF h ->
  (Clashes h c /\ b_call o oa parse c no_guards h = BClash) \/
  (~ Clashes h c /\ b_call o oa parse c no_guards h = silent (run_call o oa parse h (plain c))).
Proof.
  intros wf. destruct c as [[self pos x | x | x y | x s | x | x s | x s] | x name value | x name | x s]; cbn [b_call b_op plain run_call run_op Clashes].
  - right. split; [tauto|]. apply unit_eq. exact (insert_adjacent_eq o h self pos x wf).
  - right. split; [tauto|]. exact (remove_one_eq h x wf).
  - rewrite bind_eq, (replace_with_eq h x y wf). destruct (nodes_to_insert h y) as [[h1 ns]| |] eqn:En.
    + destruct (clashing h1 x ns) eqn:Ec.
      * left. split; [|reflexivity]. split; [apply takable_spec; exists h1, ns; exact En|]. exact (proj1 (clashing_spec h x y h1 ns wf En) Ec).
      * right. split.
        { intros (_ & H). apply (clashing_spec h x y h1 ns wf En) in H. congruence. }
        unfold silent. destruct (replace_with h x y) as [[h' z]| |]; reflexivity.
    + right. split; [intros (H & _); apply takable_spec in H; destruct H as (h1 & ns & E); congruence|]. unfold replace_with. rewrite En. reflexivity.
    + right. split; [intros (H & _); apply takable_spec in H; destruct H as (h1 & ns & E); congruence|]. unfold replace_with. rewrite En. reflexivity.
  - right. split; [tauto|]. rewrite bind_eq, set_text_eq. destruct (set_text o h x s); reflexivity.
  - right. split; [tauto|]. exact (text_remove_eq_b h x wf).
  - rewrite append_text_eq. unfold append_text. destruct (n_content (node_of h x)); [right | left]; (split; [congruence | reflexivity]).
  - rewrite prepend_text_eq. unfold prepend_text. destruct (n_content (node_of h x)); [right | left]; (split; [congruence | reflexivity]).
  - right. split; [tauto|]. rewrite set_attribute_eq. unfold set_attr_all. rewrite on_one. reflexivity.
  - right. split; [tauto|]. rewrite remove_attribute_eq. unfold remove_attr_all. rewrite on_one. reflexivity.
  - right. split; [tauto|]. exact (set_html_eq o parse h x s wf).
Qed.
Lemma covered_apart parse h c : WF h -> CallOk parse h (plain c) -> ~ Clashes h c.
Proof.
  intros wf. destruct c as [[]| | |]; cbn [plain CallOk Covered Clashes]; try tauto.
  intros (_ & _ & Hr & Hne & Hup) (_ & p & Ep & _ & Hm).
  assert (Hf : is_fragment h y = false).
  { unfold is_fragment. unfold is_root in Hr. destruct (ntype_of h y); [discriminate | reflexivity..]. }
  unfold Moves in Hm. rewrite Hf in Hm. destruct Hm as [-> | ->]; [congruence|]. apply Hup. constructor. exact Ep.
Qed.
Lemma calls_eq o oa parse l : forall h, WF h -> CallsOk o oa parse h (map plain l) ->
  b_calls o oa parse l no_guards h = silent (run_calls o oa parse h (map plain l)).
Proof.
  induction l as [|c l IH]; intros h wf H; cbn [b_calls map]; [reflexivity|]. cbn [map CallsOk] in H. destruct H as (Hc & Hl).
  rewrite bind_eq. destruct (call_cases o oa parse h c wf) as [(Hb & _) | (_ & E)]; [exfalso; exact (covered_apart parse h c wf Hc Hb)|].
  rewrite E. unfold run_calls. cbn [rfold]. unfold silent at 1.
  destruct (run_call o oa parse h (plain c)) as [h'| |] eqn:Er; cbn [rbind as_b]; try reflexivity.
  exact (IH h' (call_wf o oa parse h (plain c) h' wf Hc Er) (Hl h' eq_refl)).
Qed.
