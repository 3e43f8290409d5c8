(** Proofs about dropped documents. *)
From Verif Require Import Base Attr Dom DomSpec Order OrderProofs DomProofs Sets TextProofs SelSpec Mutate TextNodes Form FormProofs Lifetime LifetimeSpec.

Lemma includes_in l x : includes l x = true <-> In x l.
Proof.
  unfold includes. rewrite existsb_exists. split; [intros (y & H & E); apply Nat.eqb_eq in E; subst; exact H|].
  intros H. exists x. split; [exact H | apply Nat.eqb_refl].
Qed.
Lemma sweep_nth live docs : forall h k x, nth x (sweep live docs k h) empty_node =
  if includes live (k + x) then survivor live docs (nth x h empty_node) else empty_node.
Proof.
  induction h as [|n h IH]; intros k x.
  - destruct x; cbn; (destruct (includes live _); reflexivity).
  - destruct x as [|x]; cbn [sweep nth]; [rewrite Nat.add_0_r; reflexivity|]. rewrite IH, Nat.add_succ_r. reflexivity.
Qed.
Lemma sweep_length live docs : forall h k, length (sweep live docs k h) = length h.
Proof. induction h as [|n h IH]; intros k; [reflexivity|]. cbn. rewrite IH. reflexivity. Qed.

Section Drop.
  Variable h : heap.
  Hypothesis wf : WF h.
  Variables held docs : list id.
  Let live := alive h held docs.
  Let h' := drop h held docs.

  Lemma owned_in : forall f x, S (length h) < length (key h x) + S f -> forall y, In y (owned_by f h x) <-> AncEq h x y.
  Proof.
    induction f as [|f IH]; intros x Hf y.
    - cbn. assert (HN : forall c, ~ Child h x c).
      { intros c (i & Hc). pose proof (key_listed h wf _ _ _ Hc) as K. pose proof (key_length h wf c) as L.
        rewrite K, app_length in L. cbn in L. lia. }
      split; [intros [-> | []]; left; reflexivity|]. intros [-> | H]; [left; reflexivity|].
      destruct (anc_first h _ _ H) as (c & Hc & _). destruct (HN c Hc).
    - cbn [owned_by In]. rewrite in_flat_map.
      assert (HC : forall c, Child h x c -> S (length h) < length (key h c) + S f).
      { intros c (i & Hc). rewrite (key_listed h wf _ _ _ Hc), app_length. cbn. lia. }
      split.
      + intros [-> | (c & Hc & Hy)]; [left; reflexivity|]. apply child_in in Hc. apply (IH c (HC c Hc)) in Hy.
        right. exact (anc_of_first h _ _ _ Hc Hy).
      + intros [-> | H]; [left; reflexivity|]. right. destruct (anc_first h _ _ H) as (c & Hc & Hy). exists c.
        split; [apply child_in; exact Hc | apply (IH c (HC c Hc)); exact Hy].
  Qed.
  Lemma alive_in x : In x live <-> Alive h held docs x.
  Proof.
    assert (HF : forall y, S (length h) < length (key h y) + S (length h)) by (intros y; pose proof (key_nonempty h wf y); destruct (key h y); [congruence | cbn; lia]).
    unfold live, alive, Alive. rewrite in_flat_map. split; intros (y & Hy & H); exists y; (split; [apply in_app_iff; exact Hy|]).
    - apply (owned_in _ y (HF y)). exact H.
    - apply (owned_in _ y (HF y)). exact H.
  Qed.
  Lemma alive_down x y : Alive h held docs x -> AncEq h x y -> Alive h held docs y.
  Proof. intros (z & Hz & H) Hy. exists z. split; [exact Hz | exact (anceq_trans h _ _ _ H Hy)]. Qed.

  Lemma drop_node x : node_of h' x = if includes live x then survivor live docs (node_of h x) else empty_node.
  Proof. unfold node_of, h', drop. rewrite sweep_nth. reflexivity. Qed.
  Lemma drop_alive x : Alive h held docs x -> node_of h' x = survivor live docs (node_of h x).
  Proof. intros H. rewrite drop_node. apply alive_in, includes_in in H. rewrite H. reflexivity. Qed.
  Lemma drop_dead x : ~ Alive h held docs x -> node_of h' x = empty_node.
  Proof. intros H. rewrite drop_node. destruct (includes live x) eqn:E; [|reflexivity]. apply includes_in, alive_in in E. contradiction. Qed.
  Lemma alive_dec x : Alive h held docs x \/ ~ Alive h held docs x.
  Proof.
    destruct (includes live x) eqn:E; [left; apply alive_in, includes_in; exact E|]. right. intros H.
    apply alive_in, includes_in in H. congruence.
  Qed.
  Lemma drop_length : length h' = length h.
  Proof. apply sweep_length. Qed.

  Lemma drop_type x : Alive h held docs x -> ntype_of h' x = ntype_of h x.
  Proof. intros H. unfold ntype_of. rewrite (drop_alive x H). reflexivity. Qed.
  Lemma drop_index x : Alive h held docs x -> index h' x = index h x.
  Proof. intros H. unfold index. rewrite (drop_alive x H). reflexivity. Qed.
  Lemma drop_childs x : Alive h held docs x -> childs h' x = childs h x.
  Proof. intros H. unfold childs. rewrite (drop_alive x H). reflexivity. Qed.
  Lemma drop_kids x : Alive h held docs x -> kids h' x = kids h x.
  Proof. intros H. unfold kids. rewrite (drop_childs x H). reflexivity. Qed.
  Lemma drop_is_element x : Alive h held docs x -> is_element h' x = is_element h x.
  Proof. intros H. unfold is_element. rewrite (drop_type x H). reflexivity. Qed.
  Lemma drop_is_root x : Alive h held docs x -> is_root h' x = is_root h x.
  Proof. intros H. unfold is_root. rewrite (drop_type x H). reflexivity. Qed.
  Lemma drop_container x : Alive h held docs x -> Container h' x <-> Container h x.
  Proof. intros H. unfold Container. rewrite (drop_is_element x H), (drop_is_root x H). reflexivity. Qed.
  Lemma upgrade_some l p x : upgrade l p = Some x <-> p = Some x /\ In x l.
  Proof.
    destruct p as [y|]; cbn; [|split; [discriminate | intros [H _]; discriminate]]. destruct (includes l y) eqn:E.
    - apply includes_in in E. split; [intros H; injection H as <-; split; [reflexivity | exact E] | intros [H _]; exact H].
    - split; [discriminate|]. intros [H Hi]. injection H as ->. apply includes_in in Hi. congruence.
  Qed.
  Lemma drop_parent x p : Alive h held docs x -> parent h' x = Some p <-> parent h x = Some p /\ Alive h held docs p.
  Proof. intros H. unfold parent at 1. rewrite (drop_alive x H). cbn. rewrite upgrade_some, alive_in. reflexivity. Qed.
  Lemma drop_owner x d : Alive h held docs x -> owner_document h' x = Some d <-> owner_document h x = Some d /\ In d docs.
  Proof. intros H. unfold owner_document. rewrite (drop_alive x H). cbn. apply upgrade_some. Qed.
  Lemma drop_listed p i c : Listed h' p i c <-> Alive h held docs p /\ Listed h p i c.
  Proof.
    unfold Listed. destruct (alive_dec p) as [H | H].
    - rewrite (drop_kids p H). tauto.
    - unfold kids, childs. rewrite (drop_dead p H). cbn. split; [intros E; destruct i; discriminate | tauto].
  Qed.
  Lemma drop_parent_some x p : parent h' x = Some p -> Alive h held docs x /\ parent h x = Some p /\ Alive h held docs p.
  Proof.
    intros H. destruct (alive_dec x) as [Hx | Hx]; [split; [exact Hx | apply drop_parent; assumption]|].
    unfold parent in H. rewrite (drop_dead x Hx) in H. discriminate.
  Qed.

  Lemma drop_wf : WF h'.
  Proof.
    constructor.
    - intros p i c H. apply drop_listed in H. destruct H as [Hp H]. destruct (wf_listed h wf p i c H) as (H1 & H2 & H3).
      assert (Hc : Alive h held docs c) by (apply (alive_down p); [exact Hp | right; apply Anc_child; exists i; exact H]).
      rewrite drop_length. split; [exact H1|]. split; [apply drop_parent; [exact Hc | split; assumption] | rewrite drop_index; assumption].
    - intros x p H. apply drop_parent_some in H. destruct H as (Hx & H & Hp). destruct (wf_parent h wf x p H) as [H1 H2].
      rewrite drop_length. split; [exact H1 | apply drop_container; assumption].
    - intros x H. apply (wf_acyclic h wf x). revert H. generalize x at 2 4. intros y H. induction H as [x p H | x q p H IH H2].
      + apply Up_parent. apply drop_parent_some in H. tauto.
      + apply (Up_step h x q); [exact IH|]. apply drop_parent_some in H2. tauto.
    - intros x H. destruct (parent h' x) as [p|] eqn:E; [|reflexivity]. apply drop_parent_some in E. destruct E as (Hx & E & _).
      rewrite (drop_is_root x Hx) in H. rewrite (wf_root h wf x H) in E. discriminate.
  Qed.

  Lemma drop_path y l x : Alive h held docs y -> Path h' y l x <-> Path h y l x.
  Proof.
    intros Hy. split; intros H.
    - induction H as [|l p i c H IH Hl]; [constructor|]. apply drop_listed in Hl. exact (Path_down h y l p i c IH (proj2 Hl)).
    - induction H as [|l p i c H IH Hl]; [constructor|]. apply (Path_down h' y l p i c IH). apply drop_listed. split; [|exact Hl].
      apply (alive_down y); [exact Hy | apply anceq_path; exists l; exact H].
  Qed.
  Lemma drop_anc y x : Anc h' y x <-> Alive h held docs y /\ Anc h y x.
  Proof.
    split; intros H.
    - assert (Hy : Alive h held docs y).
      { destruct (anc_first h' _ _ H) as (c & (i & Hc) & _). apply drop_listed in Hc. tauto. }
      split; [exact Hy|]. apply anc_path in H. destruct H as (l & Hl & H). apply anc_path. exists l. split; [exact Hl | apply drop_path; assumption].
    - destruct H as [Hy H]. apply anc_path in H. destruct H as (l & Hl & H). apply anc_path. exists l. split; [exact Hl | apply drop_path; assumption].
  Qed.
  Lemma drop_anceq y x : Alive h held docs y -> AncEq h' y x <-> AncEq h y x.
  Proof. intros Hy. unfold AncEq. rewrite drop_anc. tauto. Qed.
  Lemma drop_before y x : Alive h held docs x -> Alive h held docs y -> Before h' x y -> Before h x y.
  Proof.
    intros Hx Hy [H | (p & i & j & a & b & H1 & H2 & H3 & H4 & H5)]; [left; apply drop_anc in H; tauto|].
    right. apply drop_listed in H1. apply drop_listed in H2. exists p, i, j, a, b.
    assert (Ha : Alive h held docs a) by (apply (alive_down p); [tauto | right; apply Anc_child; exists i; tauto]).
    assert (Hb : Alive h held docs b) by (apply (alive_down p); [tauto | right; apply Anc_child; exists j; tauto]).
    apply (drop_anceq a x Ha) in H4. apply (drop_anceq b y Hb) in H5. tauto.
  Qed.

  (** The highest node alive above a node. *)
  Lemma drop_top r x : InTree h r x -> Alive h held docs x -> exists t, InTree h' t x /\ InTree h r t /\ Alive h held docs t.
  Proof.
    intros Hr Hx. revert x Hr Hx. apply (up_ind_wf h wf (fun x => InTree h r x -> Alive h held docs x -> exists t, InTree h' t x /\ InTree h r t /\ Alive h held docs t)).
    intros x IH Hr Hx. destruct (parent h' x) as [p|] eqn:E.
    - apply drop_parent_some in E. destruct E as (_ & E & Hp). destruct (intree_parent h wf r x p Hr E) as [Hrp Hl].
      destruct (IH p E Hrp Hp) as (t & [Ht1 (l & Ht2)] & Ht3). exists t. split; [|exact Ht3]. split; [exact Ht1|]. exists (l ++ [index h x]).
      apply (Path_down h' t l p); [exact Ht2 | apply drop_listed; split; assumption].
    - exists x. split; [|split; assumption]. split; [exact E | exists []; constructor].
  Qed.

  (** A document that is held keeps its tree. *)
  Section Kept.
    Variable r : id.
    Hypothesis Hr : In r docs.
    Lemma kept_alive x : InTree h r x -> Alive h held docs x.
    Proof. intros H. exists r. split; [right; exact Hr | exact (intree_top h r x H)]. Qed.
    Lemma kept_parent x : InTree h r x -> parent h' x = parent h x.
    Proof.
      intros H. pose proof (kept_alive x H) as Hx. destruct (parent h x) as [p|] eqn:E.
      - apply drop_parent; [exact Hx|]. split; [exact E|]. apply kept_alive. exact (proj1 (intree_parent h wf r x p H E)).
      - destruct (parent h' x) as [p|] eqn:E'; [|reflexivity]. apply drop_parent_some in E'. destruct E' as (_ & E' & _). congruence.
    Qed.
    Lemma kept_intree x : parent h r = None -> InTree h' r x <-> InTree h r x.
    Proof.
      intros Er. assert (Hr0 : InTree h r r) by (split; [exact Er | exists []; constructor]).
      unfold InTree. rewrite (kept_parent r Hr0). split; intros [H1 (l & H2)]; (split; [exact H1|]); exists l;
        (apply drop_path; [exact (kept_alive r Hr0) | exact H2]).
    Qed.
    Lemma kept_docok : DocOk h r -> DocOk h' r.
    Proof.
      intros D. pose proof (wf_root h wf r (do_root h r D)) as Er. assert (Hr0 : InTree h r r) by (split; [exact Er | exists []; constructor]).
      constructor.
      - exact drop_wf.
      - rewrite (drop_is_root r (kept_alive r Hr0)). exact (do_root h r D).
      - intros x Hx Hc. apply (kept_intree x Er) in Hx. pose proof (kept_alive x Hx) as Ha. apply drop_owner; [exact Ha|].
        apply (drop_container x Ha) in Hc. split; [exact (do_owner h r D x Hx Hc) | exact Hr].
      - intros x Hx He. apply (kept_intree x Er) in Hx. pose proof (kept_alive x Hx) as Ha. rewrite (drop_is_element x Ha) in He.
        rewrite (drop_alive x Ha). exact (do_meta h r D x Hx He).
    Qed.
  End Kept.
End Drop.

Lemma rfold_ext {A B} (f g : B -> A -> res B) l : (forall x, In x l -> forall b, f b x = g b x) -> forall b, rfold f l b = rfold g l b.
Proof.
  induction l as [|x l IH]; intros H b; [reflexivity|]. cbn. rewrite (H x (or_introl eq_refl)). destruct (g b x); cbn; [|reflexivity|reflexivity].
  apply IH. intros y Hy. apply H. right. exact Hy.
Qed.
Lemma filter_same {A} (f g : A -> bool) l : (forall x, In x l -> f x = g x) -> filter f l = filter g l.
Proof.
  induction l as [|x l IH]; intros H; [reflexivity|]. cbn. rewrite (H x (or_introl eq_refl)), IH; [reflexivity|].
  intros y Hy. apply H. right. exact Hy.
Qed.

Section Down.
  Variable h : heap.
  Hypothesis wf : WF h.
  Variables held docs : list id.
  Let h' := drop h held docs.
  Local Notation Live := (Alive h held docs).

  Lemma kid_alive x c : Live x -> In c (kids h x) -> Live c.
  Proof. intros H Hc. apply (alive_down h held docs x); [exact H|]. right. apply Anc_child, child_in. exact Hc. Qed.
  Lemma drop_meta x : Live x -> n_meta (node_of h' x) = n_meta (node_of h x).
  Proof. intros H. unfold h'. rewrite (drop_alive h wf held docs x H). reflexivity. Qed.
  Lemma drop_tag x : Live x -> tag_names h' x = tag_names h x.
  Proof. intros H. unfold tag_names. rewrite (drop_meta x H). unfold h'. rewrite (drop_is_element h wf held docs x H). reflexivity. Qed.
  Lemma drop_is_text x : Live x -> Dom.is_text h' x = Dom.is_text h x.
  Proof. intros H. unfold Dom.is_text. unfold h'. rewrite (drop_type h wf held docs x H). reflexivity. Qed.
  Lemma drop_attribute x k : Live x -> node_attribute h' x k = node_attribute h x k.
  Proof. intros H. unfold node_attribute. rewrite (drop_meta x H). reflexivity. Qed.
  Lemma drop_children x : Live x -> children h' x = children h x.
  Proof.
    intros H. unfold children. unfold h'. rewrite (drop_kids h wf held docs x H). apply filter_same. intros c Hc.
    apply (drop_is_element h wf). exact (kid_alive x c H Hc).
  Qed.

  Lemma drop_texts o limit handle rec : forall f depth x, Live x -> texts_loop f o h' limit handle rec depth x = texts_loop f o h limit handle rec depth x.
  Proof.
    induction f as [|f IH]; intros depth x H; [reflexivity|]. cbn [texts_loop].
    assert (E : kids h' x = kids h x) by exact (drop_kids h wf held docs x H). rewrite E.
    assert (EC : forall y, Live y -> content_el o h' y = content_el o h y) by (intros y Hy; unfold content_el; rewrite (drop_tag y Hy); reflexivity).
    rewrite (EC x H). destruct (kids h x) as [|c0 cs0] eqn:Ek; [reflexivity|]. rewrite <- Ek. apply rfold_ext. intros c Hc acc.
    pose proof (kid_alive x c H Hc) as Lc. rewrite (drop_is_text c Lc), (EC c Lc).
    unfold h' at 1. rewrite (drop_is_element h wf held docs c Lc). destruct (Dom.is_text h c); [reflexivity|].
    destruct (is_element h c); [|reflexivity]. destruct (content_el o h c); [reflexivity|]. rewrite (IH (S depth) c Lc). reflexivity.
  Qed.

  Lemma drop_value_attr x : Live x -> value_attr h' x = value_attr h x.
  Proof. intros H. unfold value_attr. rewrite (drop_attribute x _ H). reflexivity. Qed.
  Lemma drop_has x k : Live x -> node_has_attribute h' x k = node_has_attribute h x k.
  Proof. intros H. unfold node_has_attribute. rewrite (drop_attribute x _ H). reflexivity. Qed.
  Lemma walk_cons (k : heap) m f level c cs st : walk k m f level (c :: cs) st =
    if is_element k c then
      if str_eqb (tag_names k c) (lit "option") then
        do selected <- node_has_attribute k c (lit "selected");
        if selected || (match fst st with None => true | Some _ => false end && (level =? 0)) then
          do v <- value_attr k c;
          if selected then
            if m then walk k m f level cs (fst st, snd st ++ [v]) else Ok (fst st, snd st ++ [v])
          else walk k m f level cs (Some v, snd st)
        else walk k m f level cs st
      else
        if level =? top_level then Panic
        else do st' <- collect_options f k m (S level) c st; walk k m f level cs st'
    else walk k m f level cs st.
  Proof. reflexivity. Qed.
  Lemma drop_collect m : forall f level x st, Live x -> collect_options f h' m level x st = collect_options f h m level x st.
  Proof.
    induction f as [|f IH]; intros level x st H; [reflexivity|]. rewrite !collect_unfold.
    assert (E : kids h' x = kids h x) by exact (drop_kids h wf held docs x H). rewrite E.
    assert (HC : forall c, In c (kids h x) -> Live c) by (intros c; exact (kid_alive x c H)).
    clear E. revert st HC. induction (kids h x) as [|c cs IHc]; intros st HC; [reflexivity|].
    specialize (fun st => IHc st (fun k Hk => HC k (or_intror Hk))). pose proof (HC c (or_introl eq_refl)) as Lc.
    rewrite !walk_cons, (drop_tag c Lc), (drop_has c _ Lc), (drop_value_attr c Lc).
    assert (Ee : is_element h' c = is_element h c) by exact (drop_is_element h wf held docs c Lc). rewrite Ee.
    destruct (is_element h c); [|apply IHc]. destruct (str_eqb (tag_names h c) (lit "option")).
    - destruct (node_has_attribute h c (lit "selected")) as [sel| |]; cbn [rbind]; [|reflexivity|reflexivity].
      match goal with |- context [if ?b then _ else _] => destruct b end; [|apply IHc].
      destruct (value_attr h c) as [v| |]; cbn [rbind]; [|reflexivity|reflexivity]. destruct sel; [destruct m; [apply IHc | reflexivity] | apply IHc].
    - destruct (level =? top_level); [reflexivity|]. rewrite (IH (S level) c st Lc).
      destruct (collect_options f h m (S level) c st); cbn [rbind]; [apply IHc | reflexivity | reflexivity].
  Qed.
  Lemma drop_value text_of x : Live x -> value text_of h' x = value text_of h x.
  Proof.
    intros H. unfold value, tag_is. rewrite (drop_tag x H), (drop_value_attr x H), (drop_has x _ H).
    destruct (str_eqb (tag_names h x) (lit "input") || str_eqb (tag_names h x) (lit "option")); [reflexivity|].
    destruct (str_eqb (tag_names h x) (lit "select")); [|reflexivity].
    destruct (node_has_attribute h x (lit "multiple")) as [m| |]; cbn [rbind]; [|reflexivity|reflexivity].
    unfold h' at 1. rewrite (drop_length h held docs). rewrite (drop_collect m _ _ x _ H). reflexivity.
  Qed.

  (** Sideways: as before when the parent is alive, nothing when it is not. *)
  Lemma drop_kid_filter p l : Live p -> incl l (kids h p) -> filter (is_element h') l = filter (is_element h) l.
  Proof. intros Hp Hl. apply filter_same. intros c Hc. apply (drop_is_element h wf). exact (kid_alive p c Hp (Hl c Hc)). Qed.
  Lemma incl_skipn {A} n (l : list A) : incl (skipn n l) l.
  Proof. intros x H. rewrite <- (firstn_skipn n l). apply in_or_app. right. exact H. Qed.
  Lemma incl_firstn {A} n (l : list A) : incl (firstn n l) l.
  Proof. intros x H. rewrite <- (firstn_skipn n l). apply in_or_app. left. exact H. Qed.
  Lemma drop_sideways x p : Live x -> parent h x = Some p -> Live p ->
    next_element_sibling h' x = next_element_sibling h x /\ next_element_siblings h' x = next_element_siblings h x /\
    previous_element_sibling h' x = previous_element_sibling h x /\ previous_element_siblings h' x = previous_element_siblings h x /\
    siblings h' x = siblings h x.
  Proof.
    intros Hx Hp Lp. assert (Ep : parent h' x = Some p) by (apply (drop_parent h wf held docs x p Hx); split; assumption).
    assert (Ei : index h' x = index h x) by exact (drop_index h wf held docs x Hx).
    assert (Ek : kids h' p = kids h p) by exact (drop_kids h wf held docs p Lp).
    assert (EF : forall l, incl l (kids h p) -> filter (is_element h') l = filter (is_element h) l) by (intros l; exact (drop_kid_filter p l Lp)).
    assert (E1 : next_element_siblings h' x = next_element_siblings h x).
    { unfold next_element_siblings. rewrite Ep, Hp, Ei, Ek, EF; [reflexivity | apply incl_skipn]. }
    assert (E2 : previous_element_siblings h' x = previous_element_siblings h x).
    { unfold previous_element_siblings. rewrite Ep, Hp, Ei, Ek, EF; [reflexivity | apply incl_firstn]. }
    split; [|split; [exact E1|split; [|split; [exact E2|]]]].
    - unfold next_element_sibling. rewrite Ep, Hp, Ei, Ek, EF; [reflexivity | apply incl_skipn].
    - unfold previous_element_sibling. rewrite Ep, Hp, Ei, Ek, EF; [reflexivity|]. intros c Hc. apply in_rev in Hc. exact (incl_firstn _ _ c Hc).
    - unfold siblings. rewrite E1, E2, Ep, Hp, Ei, Ek, !EF; [reflexivity | apply incl_skipn | apply incl_firstn].
  Qed.
  Lemma drop_alone x : parent h' x = None ->
    next_element_sibling h' x = None /\ next_element_siblings h' x = Ok [] /\ previous_element_sibling h' x = Ok None /\
    previous_element_siblings h' x = Ok [] /\ siblings h' x = Ok [].
  Proof.
    intros E. unfold next_element_sibling, next_element_siblings, previous_element_sibling, previous_element_siblings, siblings.
    rewrite E. repeat split.
  Qed.
  Lemma drop_up r x y : InTree h r x -> Live x -> Up h' x y <-> Anc h y x /\ Live y.
  Proof.
    intros Hr Hx. split.
    - intros H. split.
      + apply (intree_up_anc h wf r x y Hr). clear Hr Hx. induction H as [x p H | x q p H IH H2].
        * apply Up_parent. apply (drop_parent_some h wf) in H. tauto.
        * apply (Up_step h x q); [exact IH|]. apply (drop_parent_some h wf) in H2. tauto.
      + clear Hr Hx. destruct H as [x p H | x q p _ H]; apply (drop_parent_some h wf) in H; tauto.
    - intros [H Hy]. apply anc_up; [exact (drop_wf h wf held docs)|]. apply (drop_anc h wf). split; assumption.
  Qed.
  (** Nothing is dropped: nothing changes. *)
  Lemma drop_nothing : (forall x, x < length h -> Live x) -> (forall x p, parent h x = Some p -> Live p) ->
    (forall x d, x < length h -> owner_document h x = Some d -> In d docs) -> h' = h.
  Proof.
    intros HA HP HO. apply (nth_ext _ _ empty_node empty_node); [apply drop_length|]. intros x Hx. unfold h' in Hx. rewrite drop_length in Hx.
    change (node_of h' x = node_of h x). unfold h'. rewrite (drop_alive h wf held docs x (HA x Hx)).
    specialize (HP x). specialize (HO x). unfold parent, owner_document in *. destruct (node_of h x) as [t p i cs c m d]. cbn in *. unfold survivor. cbn. f_equal.
    - destruct p as [p|]; [|reflexivity]. apply upgrade_some. split; [reflexivity|]. apply (alive_in h wf held docs). apply HP. reflexivity.
    - destruct d as [d|]; [|reflexivity]. apply upgrade_some. split; [reflexivity|]. apply HO; [exact Hx | reflexivity].
  Qed.
End Down.

Lemma upgrade_same l m p : (forall x, In x l <-> In x m) -> upgrade l p = upgrade m p.
Proof.
  intros H. destruct p as [x|]; [|reflexivity]. cbn. assert (E : includes l x = includes m x); [|rewrite E; reflexivity].
  destruct (includes m x) eqn:E; [apply includes_in, H, includes_in; exact E|]. destruct (includes l x) eqn:E'; [|reflexivity].
  apply includes_in, H, includes_in in E'. congruence.
Qed.
Lemma upgrade_twice l m p : incl l m -> upgrade l (upgrade m p) = upgrade l p.
Proof.
  intros H. destruct p as [x|]; [|reflexivity]. cbn. destruct (includes m x) eqn:E; [reflexivity|]. cbn. destruct (includes l x) eqn:E'; [|reflexivity].
  apply includes_in in E'. apply H, includes_in in E'. congruence.
Qed.
Lemma drop_twice h held docs held' docs' : WF h -> (forall x, In x held' -> Alive h held docs x) -> incl docs' docs ->
  drop (drop h held docs) held' docs' = drop h held' docs'.
Proof.
  intros wf H1 H2. pose proof (drop_wf h wf held docs) as wf'.
  assert (HL : forall x, In x held' \/ In x docs' -> Alive h held docs x).
  { intros x [H | H]; [exact (H1 x H)|]. exists x. split; [right; exact (H2 x H) | left; reflexivity]. }
  assert (HA : forall x, Alive (drop h held docs) held' docs' x <-> Alive h held' docs' x).
  { intros x. unfold Alive. split; intros (y & Hy & H); exists y; (split; [exact Hy|]); apply (drop_anceq h wf held docs y x (HL y Hy)); exact H. }
  assert (HM : forall x, Alive h held' docs' x -> Alive h held docs x) by (intros x (y & Hy & H); exact (alive_down h held docs y x (HL y Hy) H)).
  apply (nth_ext _ _ empty_node empty_node); [rewrite !drop_length; reflexivity|]. intros x _.
  change (node_of (drop (drop h held docs) held' docs') x = node_of (drop h held' docs') x). destruct (alive_dec h wf held' docs' x) as [Hx | Hx].
  - rewrite (drop_alive h wf held' docs' x Hx), (drop_alive _ wf' held' docs' x (proj2 (HA x) Hx)), (drop_alive h wf held docs x (HM x Hx)).
    unfold survivor. cbn. f_equal; [|apply upgrade_twice; exact H2]. rewrite (upgrade_same _ (alive h held' docs')).
    + apply upgrade_twice. intros y Hy. apply (alive_in h wf) in Hy. apply (alive_in h wf). exact (HM y Hy).
    + intros y. rewrite (alive_in _ wf'), (alive_in h wf). exact (HA y).
  - rewrite (drop_dead h wf held' docs' x Hx), (drop_dead _ wf' held' docs' x); [reflexivity|]. rewrite HA. exact Hx.
Qed.

(** Within one tree that is left, index paths only lost a common beginning. *)
Section OneTree.
  Variable h : heap.
  Hypothesis wf : WF h.
  Variables held docs : list id.
  Let h' := drop h held docs.
  Variable t : id.
  Hypothesis Ht : Alive h held docs t.
  Lemma drop_keys : exists pre, forall x, InTree h' t x -> key h x = pre ++ key h' x.
  Proof.
    pose proof (drop_wf h wf held docs) as wf'.
    assert (HT : exists pre, key h t = pre ++ [index h t]).
    { destruct (parent h t) as [p|] eqn:E; [exists (key h p); exact (key_down h wf t p E) | exists []; exact (key_top h wf t E)]. }
    destruct HT as (pre & HT). exists pre. intros x [Hn (l & Hl)]. unfold h' in *.
    rewrite (key_path _ wf' t l x Hl), (key_top _ wf' t Hn), (drop_index h wf held docs t Ht). apply (drop_path h wf held docs t l x Ht) in Hl.
    rewrite (key_path h wf t l x Hl), HT, <- app_assoc. reflexivity.
  Qed.
  Lemma rmapl_keys (k : heap) : WF k -> forall a, rmapl (get_tree_indexs k) a = Ok (map (key k) a).
  Proof. intros wk. induction a as [|x a IH]; [reflexivity|]. cbn [rmapl map]. rewrite (tree_indexs_key k wk x), IH. reflexivity. Qed.
  Lemma rnth_map {A B} (f : A -> B) l : forall n, rnth (map f l) n = do x <- rnth l n; Ok (f x).
  Proof. intros n. unfold rnth. rewrite nth_error_map. destruct (nth_error l n); reflexivity. Qed.
  Lemma add_search_pre pre ka k : forall f l r m, add_search f (map (app pre) ka) (pre ++ k) l r m = add_search f ka k l r m.
  Proof.
    induction f as [|f IH]; intros l r m; [reflexivity|]. cbn [add_search]. destruct (Nat.eqb m l); [reflexivity|]. rewrite rnth_map.
    destruct (rnth ka m) as [km| |]; cbn [rbind]; [|reflexivity|reflexivity]. rewrite compare_app, !IH. reflexivity.
  Qed.
  Lemma add_loop_pre pre ka kb fr sr : forall f fl sl mids, add_loop f (map (app pre) ka) (map (app pre) kb) fr sr fl sl mids = add_loop f ka kb fr sr fl sl mids.
  Proof.
    induction f as [|f IH]; intros fl sl mids; [reflexivity|]. cbn [add_loop]. destruct ((fl <=? fr) && (sl <=? sr)); [|reflexivity]. rewrite !rnth_map.
    destruct (rnth kb sl) as [k| |]; cbn [rbind]; [|reflexivity|reflexivity]. destruct (rnth ka fl) as [kl| |]; cbn [rbind]; [|reflexivity|reflexivity].
    rewrite compare_app. destruct (compare_indexs k kl); [apply IH | |].
    - destruct (rnth kb sr) as [kr| |]; cbn [rbind]; [|reflexivity|reflexivity]. rewrite compare_app. destruct (compare_indexs kr kl); try reflexivity. apply IH.
    - destruct (rnth ka fr) as [kr| |]; cbn [rbind]; [|reflexivity|reflexivity]. rewrite compare_app. destruct (compare_indexs k kr); try reflexivity.
      rewrite add_search_pre. destruct (add_search (S fr) ka k fl fr ((fl + fr) / 2)) as [m| |]; cbn [rbind]; [|reflexivity|reflexivity]. apply IH.
  Qed.
  Lemma drop_add a b : Forall (InTree h' t) a -> Forall (InTree h' t) b -> add h' a b = add h a b.
  Proof.
    intros Ha Hb. destruct drop_keys as (pre & HK). pose proof (drop_wf h wf held docs) as wf'. unfold add. destruct a as [|x a]; [reflexivity|]. destruct b as [|y b]; [reflexivity|].
    assert (HM : forall l, Forall (InTree h' t) l -> map (key h) l = map (app pre) (map (key h') l)).
    { intros l Hl. rewrite map_map. apply map_ext_in. intros z Hz. rewrite Forall_forall in Hl. exact (HK z (Hl z Hz)). }
    fold h' in wf'. rewrite !(rmapl_keys h wf), !(rmapl_keys h' wf'), (HM _ Ha), (HM _ Hb). cbn [rbind]. rewrite add_loop_pre. reflexivity.
  Qed.
End OneTree.
