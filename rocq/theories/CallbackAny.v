(** Every call under guards of nodes being read: a clash, or the outcome without them; and these nodes stay as they are. *)
From Verif Require Import Base Utils UtilsSpec UtilsProofs Attr ClassOps ClassProofs Dom DomSpec DomProofs Sets Mutate MutateSpec MutateProofs Html HtmlSpec Live LiveSpec LiveProofs
  Borrow BorrowSpec BorrowProofs BorrowSets BorrowSetsProofs Callback CallbackSpec CallbackProofs.

Lemma cell_spec c l : existsb (cell_eqb c) l = true <-> In c l.
Proof.
  rewrite existsb_exists. split.
  - intros (d & Hd & E). destruct c as [x|x], d as [y|y]; cbn [cell_eqb] in E; try discriminate; apply Nat.eqb_eq in E; subst y; exact Hd.
  - intros H. exists c. split; [exact H|]. destruct c; cbn [cell_eqb]; apply Nat.eqb_refl.
Qed.
Lemma cell_not c l : existsb (cell_eqb c) l = false <-> ~ In c l.
Proof. rewrite <- cell_spec. destruct (existsb (cell_eqb c) l); split; congruence. Qed.

(** [X]: nodes that are borrowed mutably around [m]. *)
Definition Framed {A} (X : list id) (m : B A) : Prop := forall gm gr h,
  (forall x, In x X -> In (CNode x) gm) -> (forall c, In c gm -> ~ In c gr) ->
  (forall rs, m (mkGuards gm (gr ++ rs)) h = BClash \/ m (mkGuards gm (gr ++ rs)) h = m (mkGuards gm gr) h) /\
  (forall h' a, m (mkGuards gm gr) h = BOk (h', a) ->
     length h <= length h' /\ forall y, y < length h -> In (CNode y) gr -> SameFields h h' y).

Lemma same_fields_refl h y : SameFields h h y.
Proof. repeat split. Qed.
Lemma same_fields_trans h h1 h2 y : SameFields h h1 y -> SameFields h1 h2 y -> SameFields h h2 y.
Proof. intros (A1 & A2 & A3 & A4 & A5 & A6) (C1 & C2 & C3 & C4 & C5 & C6). repeat split; congruence. Qed.
Lemma fr_bind {A C} X (m : B A) (k : A -> B C) : Framed X m -> (forall a, Framed X (k a)) -> Framed X (bind m k).
Proof.
  intros Hm Hk gm gr h HX Hd. destruct (Hm gm gr h HX Hd) as (H1 & H2). split.
  - intros rs. rewrite !bind_eq. destruct (H1 rs) as [E | E]; rewrite E; [left; reflexivity|].
    destruct (m (mkGuards gm gr) h) as [[h1 a]| | |]; try (right; reflexivity). exact (proj1 (Hk a gm gr h1 HX Hd) rs).
  - intros h' c E. rewrite bind_eq in E. destruct (m (mkGuards gm gr) h) as [[h1 a]| | |] eqn:Em; try discriminate.
    destruct (H2 h1 a eq_refl) as (L1 & S1). destruct (proj2 (Hk a gm gr h1 HX Hd) h' c E) as (L2 & S2). split; [lia|].
    intros y Hy Hin. exact (same_fields_trans _ _ _ _ (S1 y Hy Hin) (S2 y ltac:(lia) Hin)).
Qed.
(** A step that looks at no guard and keeps the heap. *)
Lemma fr_still {A} X (m : B A) : (forall g g' h, m g h = m g' h) -> (forall g h h' a, m g h = BOk (h', a) -> h' = h) -> Framed X m.
Proof.
  intros H1 H2 gm gr h _ _. split; [intros rs; right; apply H1|]. intros h' a E. rewrite (H2 _ _ _ _ E).
  split; [lia | intros; apply same_fields_refl].
Qed.
Lemma fr_ret {A} X (a : A) : Framed X (ret a).
Proof. apply fr_still; [reflexivity|]. intros g h h' b E. injection E as <- _. reflexivity. Qed.
Lemma fr_fault {A} X : Framed X (@fault A).
Proof. apply fr_still; [reflexivity | discriminate]. Qed.
Lemma fr_fuel {A} X : Framed X (fun _ _ => @BFuel (heap * A)).
Proof. apply fr_still; [reflexivity | discriminate]. Qed.
Lemma fr_pure {A} X (r : res A) : Framed X (pure r).
Proof. apply fr_still; [reflexivity|]. intros g h h' b E. unfold pure in E. destruct r; try discriminate. injection E as <- _. reflexivity. Qed.
Lemma fr_see {A} X x (f : node -> A) : Framed X (see x f).
Proof. apply fr_still; [reflexivity|]. intros g h h' b E. injection E as <- _. reflexivity. Qed.
Lemma fr_put X x f : In x X -> Framed X (put x f).
Proof.
  intros Hx gm gr h HX Hd. split; [intros rs; right; reflexivity|]. intros h' a E. injection E as <- _. split; [rewrite upd_length; lia|].
  intros y Hy Hin. assert (Hn : y <> x) by (intros ->; exact (Hd _ (HX x Hx) Hin)).
  unfold SameFields, parent, index, childs, ntype_of. rewrite node_upd_other by exact Hn. repeat split.
Qed.
Lemma fr_put_meta X x f : Framed X (put_meta x f).
Proof.
  intros gm gr h HX Hd. split; [intros rs; right; reflexivity|]. intros h' a E. injection E as <- _. split; [rewrite upd_length; lia|].
  intros y Hy Hin. destruct (Nat.eq_dec y x) as [-> | Hn].
  - unfold SameFields, parent, index, childs, ntype_of. rewrite node_upd_same by exact Hy. repeat split.
  - unfold SameFields, parent, index, childs, ntype_of. rewrite node_upd_other by exact Hn. repeat split.
Qed.
Lemma fr_grow {A} X (f : heap -> list node) (a : heap -> A) : Framed X (fun _ h => BOk (h ++ f h, a h)).
Proof.
  intros gm gr h _ _. split; [intros rs; right; reflexivity|]. intros h' b E. injection E as <- _. split; [rewrite app_length; lia|].
  intros y Hy _. unfold SameFields, parent, index, childs, ntype_of, node_of. rewrite app_nth1 by exact Hy. repeat split.
Qed.
Lemma fr_ref {A} X c (m : B A) : Framed X m -> Framed X (holding_ref c m).
Proof.
  intros Hm gm gr h HX Hd. unfold holding_ref. cbn [g_mut g_ref]. destruct (existsb (cell_eqb c) gm) eqn:E.
  { split; [intros rs; left; reflexivity | discriminate]. }
  apply cell_not in E. assert (Hd' : forall d, In d gm -> ~ In d (c :: gr)) by (intros d H [<- | H']; [exact (E H) | exact (Hd d H H')]).
  destruct (Hm gm (c :: gr) h HX Hd') as (H1 & H2). split; [exact H1|]. intros h' a E'. destruct (H2 h' a E') as (L & S).
  split; [exact L|]. intros y Hy Hin. apply S; [exact Hy | right; exact Hin].
Qed.
Lemma fr_mut_aux {A} X X' c (m : B A) : (forall gm, (forall x, In x X -> In (CNode x) gm) -> forall x, In x X' -> In (CNode x) (c :: gm)) ->
  Framed X' m -> Framed X (holding_mut c m).
Proof.
  intros Hx Hm gm gr h HX Hd. unfold holding_mut. cbn [g_mut g_ref]. destruct (existsb (cell_eqb c) gm) eqn:E; cbn [orb].
  { split; [intros rs; left; reflexivity | discriminate]. }
  destruct (existsb (cell_eqb c) gr) eqn:E2.
  { split; [|discriminate]. intros rs. rewrite existsb_app, E2. left. reflexivity. }
  apply cell_not in E2. assert (Hd' : forall d, In d (c :: gm) -> ~ In d gr) by (intros d [<- | H]; [exact E2 | exact (Hd d H)]).
  destruct (Hm (c :: gm) gr h (Hx gm HX) Hd') as (H1 & H2). split; [|exact H2].
  intros rs. destruct (existsb (cell_eqb c) (gr ++ rs)); [left; reflexivity | exact (H1 rs)].
Qed.
Lemma fr_mut {A} X x (m : B A) : Framed (x :: X) m -> Framed X (holding_mut (CNode x) m).
Proof. apply fr_mut_aux. intros gm H y [<- | Hy]; [left; reflexivity | right; exact (H y Hy)]. Qed.
Lemma fr_mut_meta {A} X x (m : B A) : Framed X m -> Framed X (holding_mut (CMeta x) m).
Proof. apply fr_mut_aux. intros gm H y Hy. right. exact (H y Hy). Qed.
Lemma fr_read {A} X x (f : node -> A) : Framed X (read x f).
Proof. apply fr_ref, fr_see. Qed.
Lemma fr_write X x f : Framed X (write x f).
Proof. apply fr_mut, fr_put. left. reflexivity. Qed.
Lemma fr_each X l k : (forall x, Framed X (k x)) -> Framed X (each l k).
Proof. intros Hk. induction l as [|x l IH]; cbn [each]; [apply fr_ret | apply fr_bind; [apply Hk | intros _; exact IH]]. Qed.

Ltac fr_step :=
  match goal with
  | |- forall _, _ => intros ?
  | |- Framed _ (bind _ _) => apply fr_bind
  | |- Framed _ (ret _) => apply fr_ret
  | |- Framed _ fault => apply fr_fault
  | |- Framed _ (pure _) => apply fr_pure
  | |- Framed _ (see _ _) => apply fr_see
  | |- Framed _ (see_meta _ _ _) => apply fr_see
  | |- Framed _ (put_meta _ _) => apply fr_put_meta
  | |- Framed _ (put _ _) => apply fr_put; cbn [In]; tauto
  | |- Framed _ (read _ _) => apply fr_read
  | |- Framed _ (write _ _) => apply fr_write
  | |- Framed _ (holding_ref _ _) => apply fr_ref
  | |- Framed _ (holding_mut (CNode _) _) => apply fr_mut
  | |- Framed _ (holding_mut (CMeta _) _) => apply fr_mut_meta
  | |- Framed _ (each _ _) => apply fr_each
  | |- Framed _ (match ?x with _ => _ end) => destruct x
  end.
Ltac fr := cbv zeta; repeat (fr_step; cbv zeta).

Lemma fr_reset X l : forall i, Framed X (b_reset i l).
Proof. induction l as [|x l IH]; intros i; cbn [b_reset]; fr. apply IH. Qed.
Lemma fr_set_parents X p l : Framed X (b_set_parents p l).
Proof. unfold b_set_parents. fr. Qed.
Lemma fr_index X x : Framed X (b_index x).
Proof. apply fr_read. Qed.
Lemma fr_parent X x : Framed X (b_parent x).
Proof. apply fr_read. Qed.
Lemma fr_node_type X x : Framed X (b_node_type x).
Proof. unfold b_node_type. fr. Qed.
Lemma fr_halt X x : Framed X (b_halt x).
Proof. unfold b_halt. fr. Qed.
Lemma fr_tag_names X x : Framed X (b_tag_names x).
Proof. unfold b_tag_names. apply fr_bind; [apply fr_node_type|]. fr. Qed.
Lemma fr_not_allowed X o tag l : forall i, Framed X (b_not_allowed o tag i l).
Proof. induction l as [|x l IH]; intros i; cbn [b_not_allowed]; fr. apply IH. Qed.
Lemma fr_remove_not_allowed X o tag l : Framed X (b_remove_not_allowed o tag l).
Proof. unfold b_remove_not_allowed. apply fr_bind; [apply fr_not_allowed|]. fr. Qed.
Lemma fr_chain X fuel node : forall x, Framed X (b_chain_has fuel x node).
Proof. induction fuel as [|f IH]; intros x; cbn [b_chain_has]; [apply fr_fuel|]. apply fr_bind; [apply fr_parent|]. fr. apply IH. Qed.
Ltac fr_known :=
  match goal with
  | |- Framed _ (b_reset _ _) => apply fr_reset
  | |- Framed _ (b_set_parents _ _) => apply fr_set_parents
  | |- Framed _ (b_index _) => apply fr_index
  | |- Framed _ (b_parent _) => apply fr_parent
  | |- Framed _ (b_node_type _) => apply fr_node_type
  | |- Framed _ (b_halt _) => apply fr_halt
  | |- Framed _ (b_tag_names _) => apply fr_tag_names
  | |- Framed _ (b_remove_not_allowed _ _ _) => apply fr_remove_not_allowed
  | |- Framed _ (b_chain_has _ _ _) => apply fr_chain
  | |- Framed _ (create _) => apply (fr_grow _ (fun _ => [_]) (fun h => length h))
  | |- Framed _ (create_all ?ts) => apply (fr_grow _ (fun h => lay_list None 0 (length h) ts) (fun h => roots_from (length h) ts))
  end.
Ltac frs := cbv zeta; repeat (first [fr_known | fr_step]; cbv zeta).

Lemma fr_validate X fuel d n : Framed X (b_validate fuel d n).
Proof. unfold b_validate. frs. Qed.
Lemma fr_remove_child X p x : Framed X (b_remove_child p x).
Proof. unfold b_remove_child. frs. Qed.
Lemma fr_nodes X x : Framed X (b_nodes x).
Proof. unfold b_nodes. frs; apply fr_remove_child. Qed.
Lemma fr_beside X self a ns : Framed X (b_beside self a ns).
Proof. unfold b_beside. frs. Qed.
Lemma fr_inside X self a ns : Framed X (b_inside self a ns).
Proof. unfold b_inside. frs. Qed.
Lemma fr_insert X o fuel self pos x : Framed X (b_insert_adjacent o fuel self pos x).
Proof.
  unfold b_insert_adjacent. apply fr_bind; [apply fr_validate|]. intros v. destruct (negb (fst v)); [apply fr_ret|].
  apply fr_bind; [apply fr_nodes|]. intros ns. apply fr_bind; [apply fr_tag_names|]. intros tag.
  apply fr_bind; [destruct pos; frs|]. intros [|n l]; [apply fr_ret|]. apply fr_bind; [|intros; apply fr_ret].
  destruct pos; first [apply fr_beside | apply fr_inside].
Qed.
Lemma fr_replace X x y : Framed X (b_replace_with x y).
Proof. unfold b_replace_with. apply fr_bind; [apply fr_node_type|]. intros t. apply fr_bind; [apply fr_nodes|]. frs. Qed.
Lemma fr_set_text X o x s : Framed X (b_set_text o x s).
Proof. unfold b_set_text. frs. Qed.
Lemma fr_text_remove X x : Framed X (b_text_remove x).
Proof. unfold b_text_remove. frs. Qed.
Lemma fr_append_text X x s : Framed X (b_append_text x s).
Proof. unfold b_append_text. frs. Qed.
Lemma fr_prepend_text X x s : Framed X (b_prepend_text x s).
Proof. unfold b_prepend_text. frs. Qed.
Lemma fr_with_name {A} X x (k : str -> B A) : (forall n, Framed X (k n)) -> Framed X (with_name x k).
Proof. intros Hk. unfold with_name. frs. apply Hk. Qed.
Lemma fr_set_html X o parse x s : Framed X (b_set_html o parse x s).
Proof.
  unfold b_set_html. apply fr_bind; [apply fr_node_type|]. intros t. apply fr_bind; [frs|]. intros [[b p]|]; [|apply fr_ret].
  apply fr_bind; [apply fr_with_name; intros; apply fr_ret|]. intros ct. destruct ct; [apply fr_write|].
  destruct (parse s) as [[ts|]|]; [|apply fr_write | apply fr_fault].
  apply fr_bind; [frs|]. intros all. apply fr_bind; [apply fr_with_name; intros; apply fr_remove_not_allowed|]. frs.
Qed.
Lemma fr_set_attribute X o x n v : Framed X (b_set_attribute o x n v).
Proof. unfold b_set_attribute. frs. Qed.
Lemma fr_remove_attribute X x n : Framed X (b_remove_attribute x n).
Proof. unfold b_remove_attribute. frs. Qed.
Lemma fr_get_attribute X x n : Framed X (b_get_attribute x n).
Proof. unfold b_get_attribute. frs. Qed.
Lemma fr_at {A} X (m : heap -> B A) : (forall h, Framed X (m h)) -> Framed X (fun g h => m h g h).
Proof. intros H gm gr h. apply H. Qed.
Lemma fr_call X o oa parse c : Framed X (b_call o oa parse c).
Proof.
  destruct c as [c | x n v | x n | x s]; cbn [b_call].
  - apply (fr_at X (fun h => b_op o (S (length h)) c)). intros h.
    destruct c; cbn [b_op]; repeat (apply fr_bind; [|intros; apply fr_ret]);
      first [apply fr_insert | apply fr_replace | apply fr_set_text | apply fr_text_remove | apply fr_append_text | apply fr_prepend_text | idtac].
    unfold b_remove_one. apply fr_bind; [apply fr_parent|]. intros [p|]; [apply fr_remove_child | apply fr_ret].
  - apply fr_set_attribute.
  - apply fr_remove_attribute.
  - apply fr_set_html.
Qed.
Lemma fr_scall X o oa parse c : Framed X (s_call o oa parse c).
Proof.
  destruct c as [c | l n v | l n | l s | l s | l s]; cbn [s_call].
  - apply fr_call.
  - apply fr_each. intros x. apply fr_set_attribute.
  - apply fr_each. intros x. apply fr_remove_attribute.
  - unfold b_add_class_all. cbv zeta. destruct (no_names _); [apply fr_ret|]. apply fr_each. intros x.
    apply fr_bind; [apply fr_get_attribute|]. intros [[c q |]|]; apply fr_set_attribute.
  - unfold b_remove_class_all. cbv zeta. destruct (no_names _); [apply fr_ret|]. apply fr_each. intros x.
    apply fr_bind; [apply fr_get_attribute|]. intros [[c q |]|]; [|apply fr_ret..].
    destruct (no_names (removed_positions _ _)); [apply fr_ret|]. apply fr_bind; [apply fr_pure | intros k; apply fr_set_attribute].
  - unfold b_toggle_class_all. cbv zeta. destruct (no_names _); [apply fr_ret|]. apply fr_each. intros x.
    apply fr_bind; [apply fr_get_attribute|]. intros [[c q |]|]; [|apply fr_set_attribute..].
    apply fr_bind; [destruct (no_names (removed_positions _ _)); [apply fr_ret | apply fr_pure]|]. intros k.
    destruct (_ && _); [apply fr_ret | apply fr_set_attribute].
Qed.
Lemma fr_scalls X o oa parse l : Framed X (s_calls o oa parse l).
Proof. induction l as [|c l IH]; cbn [s_calls]; [apply fr_ret | apply fr_bind; [apply fr_scall | intros _; exact IH]]. Qed.
Lemma fr_children_by X x k : (forall c, Framed X (k c)) -> Framed X (b_children_by x k).
Proof. intros Hk. unfold b_children_by. frs. apply Hk. Qed.
