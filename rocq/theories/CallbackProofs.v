(** Proofs about [Callback]. *)
From Verif Require Import Base Utils UtilsSpec UtilsProofs Attr ClassOps ClassProofs Dom DomSpec DomProofs Sets Mutate MutateSpec MutateProofs Html HtmlSpec Live LiveSpec LiveProofs
  Borrow BorrowSpec BorrowProofs BorrowSets BorrowSetsProofs Callback CallbackSpec.

(** * Guards of nodes being read do not matter *)
Definition Calm {A} (m : B A) : Prop := forall rs h, NodesRead rs -> m (mkGuards [] rs) h = m no_guards h.
Lemma calm_bind {A C} (m : B A) (k : A -> B C) : Calm m -> (forall a, Calm (k a)) -> Calm (bind m k).
Proof.
  intros Hm Hk rs h Hr. rewrite !bind_eq, (Hm rs h Hr). destruct (m no_guards h) as [[h' a]| | |]; try reflexivity. apply Hk. exact Hr.
Qed.
Lemma calm_ret {A} (a : A) : Calm (ret a).
Proof. intros rs h _. reflexivity. Qed.
Lemma calm_fault {A} : Calm (@fault A).
Proof. intros rs h _. reflexivity. Qed.
Lemma calm_pure {A} (r : res A) : Calm (pure r).
Proof. intros rs h _. reflexivity. Qed.
Lemma calm_see {A} x (f : node -> A) : Calm (see x f).
Proof. intros rs h _. reflexivity. Qed.
Lemma calm_each l k : (forall x, Calm (k x)) -> Calm (each l k).
Proof. intros Hk. induction l as [|x l IH]; cbn [each]; [apply calm_ret | apply calm_bind; [apply Hk | intros _; exact IH]]. Qed.
Lemma nodes_read_cons x rs : NodesRead rs -> NodesRead (CNode x :: rs).
Proof. intros H y [E | E]; [discriminate | exact (H y E)]. Qed.
Lemma nodes_read_nil : NodesRead [].
Proof. intros y []. Qed.
Lemma calm_holding {A} x (m : B A) rs h : Calm m -> NodesRead rs -> holding_ref (CNode x) m (mkGuards [] rs) h = m no_guards h.
Proof. intros Hm Hr. unfold holding_ref. cbn [g_mut g_ref existsb]. apply Hm, nodes_read_cons, Hr. Qed.
Lemma calm_holding_ref {A} x (m : B A) : Calm m -> Calm (holding_ref (CNode x) m).
Proof. intros Hm rs h Hr. rewrite (calm_holding x m rs h Hm Hr). symmetry. exact (calm_holding x m [] h Hm nodes_read_nil). Qed.
(** The tag data of a node, taken for one statement. *)
Lemma calm_meta_ref {A} x (f : node -> A) : Calm (holding_ref (CMeta x) (see x f)).
Proof. intros rs h _. reflexivity. Qed.
Lemma no_meta x rs : NodesRead rs -> existsb (cell_eqb (CMeta x)) rs = false.
Proof.
  intros H. apply not_true_is_false. intros E. apply existsb_exists in E. destruct E as ([y | y] & Hy & Ey); [discriminate|]. exact (H y Hy).
Qed.
Definition Plain {A} (m : B A) : Prop := forall g g' h, m g h = m g' h.
Lemma plain_bind {A C} (m : B A) (k : A -> B C) : Plain m -> (forall a, Plain (k a)) -> Plain (bind m k).
Proof.
  intros Hm Hk g g' h. rewrite !bind_eq, (Hm g g' h). destruct (m g' h) as [[h' a]| | |]; try reflexivity. apply Hk.
Qed.
Lemma calm_meta_mut {A} x (m : B A) : Plain m -> Calm (holding_mut (CMeta x) m).
Proof.
  intros Hm rs h Hr. unfold holding_mut. cbn [g_mut g_ref no_guards existsb orb]. rewrite (no_meta x rs Hr). apply Hm.
Qed.
Lemma calm_set_attribute o x name v : Calm (b_set_attribute o x name v).
Proof.
  unfold b_set_attribute. apply calm_holding_ref, calm_bind; [apply calm_see|]. intros [m|]; [|apply calm_ret]. cbv zeta.
  apply calm_bind; [apply calm_meta_ref|]. intros [i|].
  - apply calm_meta_mut. repeat (apply plain_bind; [intros g g' h; reflexivity | intros ?]). intros g g' h; reflexivity.
  - apply calm_bind; [apply calm_meta_ref|]. intros i.
    apply calm_bind; [apply calm_meta_mut; intros g g' h; reflexivity|]. intros _. apply calm_meta_mut. intros g g' h; reflexivity.
Qed.
Lemma calm_remove_attribute x name : Calm (b_remove_attribute x name).
Proof.
  unfold b_remove_attribute. apply calm_holding_ref, calm_bind; [apply calm_see|]. intros [m|]; [|apply calm_ret].
  apply calm_bind; [apply calm_meta_ref|]. intros none. apply calm_bind; [destruct none; [apply calm_ret | apply calm_meta_ref]|].
  intros [i|]; [|apply calm_ret]. apply calm_bind.
  - apply calm_meta_mut. repeat (apply plain_bind; [intros g g' h; reflexivity | intros ?]). intros g g' h; reflexivity.
  - intros _. apply calm_meta_mut. intros g g' h; reflexivity.
Qed.
Lemma calm_get_attribute x name : Calm (b_get_attribute x name).
Proof. intros rs h _. unfold no_guards. rewrite !get_attribute_eq. reflexivity. Qed.
Lemma calm_node_type x : Calm (b_node_type x).
Proof. intros rs h _. rewrite (type_eq x h (mkGuards [] rs) eq_refl), (type_eq x h no_guards eq_refl). reflexivity. Qed.
Lemma calm_scall o oa parse c : AttrCall c -> Calm (s_call o oa parse c).
Proof.
  intros Hc. destruct c as [c | l n v | l n | l s | l s | l s]; cbn [s_call]; [destruct Hc|..].
  - apply calm_each. intros x. apply calm_set_attribute.
  - apply calm_each. intros x. apply calm_remove_attribute.
  - unfold b_add_class_all. cbv zeta. destruct (no_names (get_class_list s)); [apply calm_ret|]. apply calm_each. intros x.
    apply calm_bind; [apply calm_get_attribute|]. intros [[c q |]|]; apply calm_set_attribute.
  - unfold b_remove_class_all. cbv zeta. destruct (no_names (trim s)); [apply calm_ret|]. apply calm_each. intros x.
    apply calm_bind; [apply calm_get_attribute|]. intros [[c q |]|]; [|apply calm_ret..].
    destruct (no_names (removed_positions _ _)); [apply calm_ret|]. apply calm_bind; [apply calm_pure | intros k; apply calm_set_attribute].
  - unfold b_toggle_class_all. cbv zeta. destruct (no_names (trim s)); [apply calm_ret|]. apply calm_each. intros x.
    apply calm_bind; [apply calm_get_attribute|]. intros [[c q |]|]; [|apply calm_set_attribute..].
    apply calm_bind; [destruct (no_names (removed_positions _ _)); [apply calm_ret | apply calm_pure]|]. intros k.
    destruct (_ && _); [apply calm_ret | apply calm_set_attribute].
Qed.
Lemma calm_scalls o oa parse l : Forall AttrCall l -> Calm (s_calls o oa parse l).
Proof.
  induction 1 as [|c l Hc _ IH]; cbn [s_calls]; [apply calm_ret | apply calm_bind; [apply calm_scall, Hc | intros _; exact IH]].
Qed.

(** * Attribute calls keep the tree *)
Definition SameTree (h h' : heap) : Prop := forall y, childs h' y = childs h y /\ ntype_of h' y = ntype_of h y.
Lemma same_tree_refl h : SameTree h h.
Proof. split; reflexivity. Qed.
Lemma same_tree_trans h h1 h2 : SameTree h h1 -> SameTree h1 h2 -> SameTree h h2.
Proof. intros A B y. destruct (A y), (B y). split; congruence. Qed.
Lemma attr_call_tree o oa parse h c h' : AttrCall c -> run_call o oa parse h (plain_s c) = Ok h' -> SameTree h h'.
Proof.
  intros Hc E. pose proof (call_meta o oa parse h (plain_s c) h' E) as H.
  destruct c as [c | l n v | l n | l s | l s | l s]; [destruct Hc|..]; cbn [plain_s] in H; destruct H as (_ & _ & H & _);
    intros y; destruct (H y) as (_ & _ & H1 & H2 & _); split; assumption.
Qed.
Lemma attr_calls_eq o oa parse l : Forall AttrCall l -> forall h,
  s_calls o oa parse l no_guards h = silent (run_calls o oa parse h (map plain_s l)) /\
  forall h', run_calls o oa parse h (map plain_s l) = Ok h' -> SameTree h h'.
Proof.
  induction 1 as [|c l Hc _ IH]; intros h; cbn [s_calls map].
  - split; [reflexivity|]. intros h' E. injection E as <-. apply same_tree_refl.
  - rewrite bind_eq, (scall_cases o oa parse h c) by (intros c' ->; exact Hc). unfold run_calls. cbn [rfold]. unfold silent at 1.
    destruct (run_call o oa parse h (plain_s c)) as [h1| |] eqn:E1; cbn [rbind as_b]; [|split; [reflexivity | discriminate]..].
    destruct (IH h1) as (E & T). split; [exact E|]. intros h' E'. exact (same_tree_trans _ _ _ (attr_call_tree o oa parse h c h1 Hc E1) (T h' E')).
Qed.

(** * Walks *)
Section Walk.
  Variables (o : oracles_dom) (oa : oracles_attr) (parse : parser).
  Variable k : id -> list scall.
  Hypothesis Hk : forall c, Forall AttrCall (k c).
  Let step (h : heap) (c : id) : res heap := run_calls o oa parse h (map plain_s (k c)).
  Lemma is_tag h c {A} (a b : A) : match ntype_of h c with NTag => a | _ => b end = if is_element h c then a else b.
  Proof. unfold is_element. destruct (ntype_of h c); reflexivity. Qed.
  Lemma children_each h0 cs : forall h, SameTree h0 h ->
    each cs (fun c => let! t := b_node_type c in match t with NTag => s_calls o oa parse (k c) | _ => ret tt end) no_guards h =
    silent (rfold step (filter (is_element h0) cs) h).
  Proof.
    induction cs as [|c cs IH]; intros h T; cbn [each filter]; [reflexivity|].
    rewrite bind_eq, bind_eq, (type_eq c h no_guards eq_refl). rewrite (is_tag h c (s_calls o oa parse (k c)) (ret tt)).
    replace (is_element h c) with (is_element h0 c) by (unfold is_element; destruct (T c) as (_ & ->); reflexivity).
    destruct (is_element h0 c); [|apply IH; exact T]. cbn [rfold]. unfold step at 1.
    destruct (attr_calls_eq o oa parse (k c) (Hk c) h) as (E & Tc). rewrite E. unfold silent at 1.
    destruct (run_calls o oa parse h (map plain_s (k c))) as [h1| |]; cbn [rbind as_b]; [|reflexivity..].
    apply IH. exact (same_tree_trans _ _ _ T (Tc h1 eq_refl)).
  Qed.
  Lemma children_by_eq x rs h : NodesRead rs ->
    b_children_by x (fun c => s_calls o oa parse (k c)) (mkGuards [] rs) h = silent (rfold step (children h x) h).
  Proof.
    intros Hr. unfold b_children_by. rewrite calm_holding; [|apply calm_bind; [apply calm_see|] | exact Hr].
    - rewrite bind_eq. unfold see, children, kids, childs. destruct (n_childs (node_of h x)) as [cs|]; [|reflexivity].
      apply children_each, same_tree_refl.
    - intros [cs|]; [|apply calm_ret]. apply calm_each. intros c. apply calm_bind; [apply calm_node_type|].
      intros t. destruct t; try apply calm_ret. apply calm_scalls, Hk.
  Qed.
  Variable go : id -> bool.
  Lemma calm_walk cs : Calm (b_walk cs (fun c => s_calls o oa parse (k c) ;; ret (go c))).
  Proof.
    induction cs as [|c cs IH]; cbn [b_walk]; [apply calm_ret|]. apply calm_bind; [apply calm_node_type|].
    intros t. destruct t; try exact IH. apply calm_bind; [apply calm_bind; [apply calm_scalls, Hk | intros _; apply calm_ret]|].
    intros []; [exact IH | apply calm_ret].
  Qed.
  Lemma walk_eq h0 cs : forall r, Reached go (filter (is_element h0) cs) r -> forall h, SameTree h0 h ->
    b_walk cs (fun c => s_calls o oa parse (k c) ;; ret (go c)) no_guards h = silent (rfold step r h).
  Proof.
    induction cs as [|c cs IH]; intros r Hr h T; cbn [filter b_walk] in *; [inversion Hr; subst; reflexivity|].
    rewrite bind_eq, (type_eq c h no_guards eq_refl).
    rewrite (is_tag h c (bind (s_calls o oa parse (k c) ;; ret (go c)) (fun g : bool => if g then b_walk cs (fun c => s_calls o oa parse (k c) ;; ret (go c)) else ret tt))
      (b_walk cs (fun c => s_calls o oa parse (k c) ;; ret (go c)))).
    replace (is_element h c) with (is_element h0 c) by (unfold is_element; destruct (T c) as (_ & ->); reflexivity).
    destruct (is_element h0 c); [|apply IH; assumption].
    destruct (attr_calls_eq o oa parse (k c) (Hk c) h) as (E & Tc). rewrite bind_eq, bind_eq, E.
    inversion Hr as [| ? ? Hg | ? ? r' Hg Hr']; subst; cbn [rfold]; unfold step at 1; unfold silent at 1;
      destruct (run_calls o oa parse h (map plain_s (k c))) as [h1| |]; cbn [rbind as_b]; try reflexivity; unfold ret at 1; rewrite Hg.
    - reflexivity.
    - apply IH; [exact Hr'|]. exact (same_tree_trans _ _ _ T (Tc h1 eq_refl)).
  Qed.
  Lemma since_by_eq x i (reverse : bool) rs h r : NodesRead rs ->
    (if reverse then S i <= length (kids h x) else i <= length (kids h x)) ->
    Reached go (filter (is_element h) (if reverse then rev (firstn (S i) (kids h x)) else skipn i (kids h x))) r ->
    b_since_by x i reverse (fun c => s_calls o oa parse (k c) ;; ret (go c)) (mkGuards [] rs) h = silent (rfold step r h).
  Proof.
    intros Hr Hi Hw. unfold b_since_by. rewrite calm_holding; [|apply calm_bind; [apply calm_see|] | exact Hr].
    - rewrite bind_eq. unfold see. unfold kids, childs in Hi, Hw. destruct (n_childs (node_of h x)) as [cs|].
      + destruct reverse.
        * replace (S i <=? length cs) with true by (symmetry; apply Nat.leb_le; exact Hi). exact (walk_eq h _ r Hw h (same_tree_refl h)).
        * replace (i <=? length cs) with true by (symmetry; apply Nat.leb_le; exact Hi). exact (walk_eq h _ r Hw h (same_tree_refl h)).
      + assert (r = []) as ->; [|reflexivity]. destruct reverse; [cbn in Hi; lia|]. destruct i; inversion Hw; reflexivity.
    - intros [cs|]; [|apply calm_ret]. destruct reverse; destruct (_ <=? _); try apply calm_fault; apply calm_walk.
  Qed.
End Walk.
Lemma reached_exists {A} (go : A -> bool) l : exists r, Reached go l r.
Proof.
  induction l as [|x l (r & Hr)]; [exists []; constructor|]. destruct (go x) eqn:E; [exists (x :: r); constructor; assumption | exists [x]; constructor; exact E].
Qed.

(** * Removing a node while nodes are being read *)
Lemma held_nodes rs p y : held (mkGuards [CNode p] rs) (CNode y) = Nat.eqb y p || existsb (cell_eqb (CNode y)) rs.
Proof. unfold held. cbn [g_mut g_ref existsb cell_eqb]. rewrite orb_false_r. reflexivity. Qed.
Lemma cell_in rs y : existsb (cell_eqb (CNode y)) rs = true <-> In (CNode y) rs.
Proof.
  rewrite existsb_exists. split.
  - intros ([z | z] & Hz & E); [|discriminate]. apply Nat.eqb_eq in E. subst z. exact Hz.
  - intros H. exists (CNode y). split; [exact H | apply Nat.eqb_refl].
Qed.
Lemma skipn_nth {A} (l : list A) n y : In y (skipn n l) <-> exists j, n <= j /\ nth_error l j = Some y.
Proof.
  revert l. induction n as [|n IH]; intros l; cbn [skipn].
  - split; [intros H; apply In_nth_error in H; destruct H as (j & E); exists j; split; [lia | exact E] | intros (j & _ & E); exact (nth_error_In _ _ E)].
  - destruct l as [|a l]; [split; [intros [] | intros ([|j] & _ & E); discriminate]|]. rewrite IH. split.
    + intros (j & Hj & E). exists (S j). split; [lia | exact E].
    + intros ([|j] & Hj & E); [lia|]. exists j. split; [lia | exact E].
Qed.
Lemma remove_under h c p i cs rs : WF h -> Listed h p i c -> childs h p = Some cs -> kids h p = cs ->
  b_remove_one c (mkGuards [] rs) h =
  if existsb (cell_eqb (CNode p)) rs then BClash else
  if existsb (fun y => existsb (cell_eqb (CNode y)) rs) (skipn (S i) cs) then BClash else
  match remove_at cs i with
  | Ok cs' => BOk (upd (if Nat.eqb i (length cs - 1) then h else reset_index h i (skipn (S i) cs)) p (set_ch (Some cs')), tt)
  | Panic => BFault
  | OutOfFuel => BFuel
  end.
Proof.
  intros wf Hl Ec Ek. destruct (wf_listed h wf _ _ _ Hl) as (_ & Hp & Hi).
  assert (Hx : c <> p) by (intros ->; exact (not_own h p wf Hp)).
  assert (Li : i < length cs) by (unfold Listed in Hl; rewrite Ek in Hl; apply nth_error_Some; congruence).
  assert (Hcs : ~ In p (skipn (S i) cs)).
  { intros H. apply (not_own_kid h p wf). rewrite Ek, <- (firstn_skipn (S i) cs). apply in_or_app. right. exact H. }
  unfold b_remove_one. rewrite bind_eq, (parent_eq c h (mkGuards [] rs) eq_refl), Hp.
  unfold b_remove_child. rewrite bind_eq, (parent_eq c h (mkGuards [] rs) eq_refl), Hp, Nat.eqb_refl.
  unfold holding_mut. cbn [g_mut g_ref existsb orb]. destruct (existsb (cell_eqb (CNode p)) rs); [reflexivity|].
  rewrite bind_eq. unfold see at 1. change (n_childs (node_of h p)) with (childs h p). rewrite Ec.
  rewrite bind_eq, index_eq by (unfold held_mut; cbn; rewrite orb_false_r; apply Nat.eqb_neq; exact Hx).
  rewrite bind_eq. unfold pure, rsub. replace (1 <=? length cs) with true by (symmetry; apply Nat.leb_le; lia). cbv beta iota.
  rewrite bind_eq, Hi. destruct (Nat.eqb i (length cs - 1)) eqn:El.
  - apply Nat.eqb_eq in El. rewrite (skipn_all2 cs) by lia. unfold ret, bind, put. cbn [existsb]. destruct (remove_at cs i); reflexivity.
  - replace (S i <=? length cs) with true by (symmetry; apply Nat.leb_le; lia). rewrite reset_eq.
    replace (existsb (fun x => held (mkGuards [CNode p] rs) (CNode x)) (skipn (S i) cs)) with (existsb (fun y => existsb (cell_eqb (CNode y)) rs) (skipn (S i) cs)).
    + destruct (existsb _ (skipn (S i) cs)); [reflexivity|]. unfold bind, put. destruct (remove_at cs i); reflexivity.
    + revert Hcs. generalize (skipn (S i) cs). induction l as [|y l IH]; intros Hn; cbn [existsb]; [reflexivity|].
      rewrite IH by (intros H; apply Hn; right; exact H). rewrite held_nodes. replace (Nat.eqb y p) with false; [reflexivity|].
      symmetry. apply Nat.eqb_neq. intros ->. apply Hn. left. reflexivity.
Qed.
Lemma remove_reading h c p i rs : WF h -> Listed h p i c ->
  (b_remove_one c (mkGuards [] rs) h = BClash /\ exists y, In (CNode y) rs /\ Touched h c y) \/
  (b_remove_one c (mkGuards [] rs) h = silent (remove_one h c) /\ forall y, In (CNode y) rs -> ~ Touched h c y).
Proof.
  intros wf Hl. destruct (wf_listed h wf _ _ _ Hl) as (_ & Hp & Hi).
  assert (Huniq : forall q j, Listed h q j c -> q = p /\ j = i).
  { intros q j Hq. destruct (wf_listed h wf _ _ _ Hq) as (_ & Hp' & Hi'). split; congruence. }
  assert (Hc : exists cs, childs h p = Some cs /\ kids h p = cs).
  { unfold Listed, kids in Hl. unfold kids. destruct (childs h p) as [cs|]; [exists cs; split; reflexivity | destruct i; discriminate]. }
  destruct Hc as (cs & Ec & Ek). rewrite <- (remove_one_eq h c wf). unfold no_guards.
  rewrite (remove_under h c p i cs rs wf Hl Ec Ek), (remove_under h c p i cs [] wf Hl Ec Ek).
  replace (existsb (fun y => existsb (cell_eqb (CNode y)) []) (skipn (S i) cs)) with false by (induction (skipn (S i) cs) as [|y l IH]; [reflexivity | exact IH]).
  cbn [existsb]. destruct (existsb (cell_eqb (CNode p)) rs) eqn:Eh.
  { left. split; [reflexivity|]. apply cell_in in Eh. exists p. split; [exact Eh|]. exists p, i. split; [exact Hl | left; reflexivity]. }
  destruct (existsb (fun y => existsb (cell_eqb (CNode y)) rs) (skipn (S i) cs)) eqn:Es.
  - left. split; [reflexivity|]. apply existsb_exists in Es. destruct Es as (y & Hy & Ey). apply cell_in in Ey.
    exists y. split; [exact Ey|]. exists p, i. split; [exact Hl|]. right. apply skipn_nth in Hy. destruct Hy as (j & Hj & Hy).
    exists j. split; [lia|]. unfold Listed. rewrite Ek. exact Hy.
  - right. split; [reflexivity|]. intros y Hy (q & j & Hq & Ht). apply cell_in in Hy. destruct (Huniq q j Hq) as (-> & ->).
    destruct Ht as [-> | (j' & Hj & Ht)]; [congruence|]. unfold Listed in Ht. rewrite Ek in Ht.
    assert (X : existsb (fun y => existsb (cell_eqb (CNode y)) rs) (skipn (S i) cs) = true); [|congruence].
    apply existsb_exists. exists y. split; [apply skipn_nth; exists j'; split; [lia | exact Ht] | exact Hy].
Qed.

(** * for_each *)
Lemma s_calls_app o oa parse l1 l2 g h : s_calls o oa parse (l1 ++ l2) g h = (s_calls o oa parse l1 ;; s_calls o oa parse l2) g h.
Proof.
  revert h. induction l1 as [|c l1 IH]; intros h; cbn [app s_calls]; [reflexivity|]. rewrite !bind_eq.
  destruct (s_call o oa parse c g h) as [[h1 u]| | |]; try reflexivity. apply IH.
Qed.
Lemma for_each_eq o oa parse (k : nat * id -> list scall) (go : nat * id -> bool) l : forall i r g h,
  Reached go (combine (seq i (length l)) l) r ->
  b_for_each_from i l (fun i x => s_calls o oa parse (k (i, x)) ;; ret (go (i, x))) g h = s_calls o oa parse (flat_map k r) g h.
Proof.
  induction l as [|x l IH]; intros i r g h Hr; cbn [length seq combine b_for_each_from] in *; [inversion Hr; subst; reflexivity|].
  rewrite !bind_eq. inversion Hr as [| ? ? Hg | ? ? r' Hg Hr']; subst; cbn [flat_map]; rewrite s_calls_app, bind_eq;
    destruct (s_calls o oa parse (k (i, x)) g h) as [[h1 u]| | |]; try reflexivity; unfold ret at 1; rewrite Hg.
  - destruct u. reflexivity.
  - apply IH. exact Hr'.
Qed.
(** Taking out the children of the node that is walked over. *)
Lemma children_remove x rs h : WF h ->
  b_children_by x b_remove_one (mkGuards [] rs) h = match children h x with [] => BOk (h, tt) | _ => BClash end.
Proof.
  intros wf. unfold b_children_by, holding_ref. cbn [g_mut g_ref existsb]. rewrite bind_eq. unfold see.
  unfold children. pose proof (fun c (H : In c (kids h x)) => In_nth_error _ _ H) as Hin. revert Hin.
  unfold kids at 1 3. change (n_childs (node_of h x)) with (childs h x). destruct (childs h x) as [cs|]; [|reflexivity].
  induction cs as [|c cs IH]; intros Hin; cbn [each filter]; [reflexivity|].
  rewrite bind_eq, bind_eq, (type_eq c h (mkGuards [] (CNode x :: rs)) eq_refl). unfold is_element at 1.
  destruct (ntype_of h c) eqn:Et; try (apply IH; intros d Hd; apply Hin; right; exact Hd).
  destruct (Hin c (or_introl eq_refl)) as (i & Hi).
  destruct (remove_reading h c x i (CNode x :: rs) wf Hi) as [(-> & _) | (_ & H)]; [reflexivity|].
  exfalso. apply (H x (or_introl eq_refl)). exists x, i. split; [exact Hi | left; reflexivity].
Qed.
