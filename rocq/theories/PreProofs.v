(** The element descendants of a node in document order, and the depth-first searches of the engine. *)
From Verif Require Import Base Attr Dom DomSpec Order DomProofs OrderSpec OrderProofs Sets SetsProofs NavProofs
  Engine Rules SelSpec OneProofs.

Fixpoint pre (fuel : nat) (h : heap) (x : id) : list id :=
  match fuel with
  | 0 => []
  | S f => flat_map (fun c => c :: pre f h c) (children h x)
  end.
Definition descendants (h : heap) (x : id) : list id := pre (S (length h)) h x.

Lemma ordered_flat_map h {A} (f : A -> list id) l :
  (forall a, In a l -> Ordered h (f a)) ->
  (forall l1 a l2 b l3, l = l1 ++ a :: l2 ++ b :: l3 -> forall x y, In x (f a) -> In y (f b) -> Before h x y) ->
  Ordered h (flat_map f l).
Proof.
  induction l as [|a l IH]; intros H1 H2; [exact I|]. cbn. apply ordered_app. split; [apply H1; left; reflexivity|]. split.
  - apply IH; [intros b Hb; apply H1; right; exact Hb|]. intros l1 b l2 c l3 ->. exact (H2 (a :: l1) b l2 c l3 eq_refl).
  - intros x y Hx Hy. apply in_flat_map in Hy. destruct Hy as (b & Hb & Hy). apply in_split in Hb. destruct Hb as (l2 & l3 & ->).
    exact (H2 [] a l2 b l3 eq_refl x y Hx Hy).
Qed.
Lemma filter_flat_map {A B} (p : B -> bool) (f : A -> list B) l :
  filter p (flat_map f l) = flat_map (fun x => filter p (f x)) l.
Proof. induction l as [|a l IH]; [reflexivity|]. cbn. rewrite filter_app, IH. reflexivity. Qed.
Lemma rflat_ok {A B} (f : A -> res (list B)) (g : A -> list B) l :
  (forall x, In x l -> f x = Ok (g x)) -> rflat f l = Ok (flat_map g l).
Proof.
  induction l as [|x l IH]; intros H; [reflexivity|]. cbn. rewrite (H x (or_introl eq_refl)). cbn.
  rewrite IH by (intros y Hy; apply H; right; exact Hy). reflexivity.
Qed.
Lemma ordered_split h l1 a l2 b l3 : Ordered h (l1 ++ a :: l2 ++ b :: l3) -> Before h a b.
Proof.
  intros H. apply ordered_app in H. destruct H as (_ & [Hf _] & _). rewrite Forall_forall in Hf. apply Hf. apply in_elt.
Qed.

Section Pre.
  Variable h : heap.
  Variable r : id.
  Hypothesis D : DocOk h r.
  Let wf : WF h := do_wf h r D.

  Definition Deep (fuel : nat) (x : id) : Prop := S (length h) < length (key h x) + fuel.
  Lemma deep_pos f x : Deep f x -> exists g, f = S g.
  Proof. unfold Deep. pose proof (key_length h wf x). destruct f; [lia | exists f; reflexivity]. Qed.
  Lemma deep_child f x c : Deep (S f) x -> Child h x c -> Deep f c.
  Proof. unfold Deep. intros H (i & Hl). rewrite (key_listed h wf _ _ _ Hl), app_length. cbn [length]. lia. Qed.
  Lemma deep_full x : Deep (S (length h)) x.
  Proof. unfold Deep. pose proof (key_nonempty h wf x). destruct (key h x); [congruence | cbn; lia]. Qed.

  Lemma pre_in : forall fuel x, InTree h r x -> Deep fuel x -> forall y, In y (pre fuel h x) <-> DescEl h x y.
  Proof.
    induction fuel as [|f IH]; intros x Hx Hd y; [destruct (deep_pos _ _ Hd); discriminate|].
    cbn [pre]. rewrite in_flat_map. split.
    - intros (c & Hc & Hy). pose proof (el_child h r x c Hx Hc) as Hce.
      apply in_children in Hc. destruct Hc as [Hc He]. destruct Hy as [<- | Hy].
      + split; [apply Anc_child; exact Hc | exact He].
      + apply (IH c (proj1 Hce) (deep_child _ _ _ Hd Hc)) in Hy. destruct Hy as [Ha Hye]. split; [|exact Hye].
        exact (anc_trans h _ _ _ (Anc_child h _ _ Hc) Ha).
    - intros [Ha He]. destruct (desc_child_el h r D x y Hx Ha He) as (c & Hc & Hcy). exists c. split; [exact Hc|].
      pose proof (el_child h r x c Hx Hc) as Hce.
      apply in_children in Hc. destruct Hcy as [<- | Hcy]; [left; reflexivity|]. right.
      apply (IH c (proj1 Hce) (deep_child _ _ _ Hd (proj1 Hc))). split; assumption.
  Qed.
  Lemma descendants_in x y : InTree h r x -> (In y (descendants h x) <-> DescEl h x y).
  Proof. intros Hx. exact (pre_in _ x Hx (deep_full x) y). Qed.
  Lemma desc_el x y : InTree h r x -> DescEl h x y -> ElIn h r y.
  Proof. intros Hx [Ha He]. split; [|exact He]. apply (intree_down h r x y Hx). right. exact Ha. Qed.

  Lemma children_idx p l1 a l2 b l3 : children h p = l1 ++ a :: l2 ++ b :: l3 ->
    exists i j, Listed h p i a /\ Listed h p j b /\ i < j.
  Proof.
    intros E.
    assert (Ha : In a (children h p)) by (rewrite E; apply in_elt).
    assert (Hb : In b (children h p)) by (rewrite E; apply in_or_app; right; right; apply in_elt).
    apply in_children in Ha, Hb. destruct Ha as [(i & Hi) _], Hb as [(j & Hj) _]. exists i, j.
    split; [exact Hi|]. split; [exact Hj|].
    pose proof (children_ordered h p) as Ho. rewrite E in Ho. apply ordered_split in Ho.
    destruct (Nat.lt_trichotomy i j) as [H | [H | H]]; [exact H | |]; exfalso.
    - subst j. rewrite (listed_fun h _ _ _ _ Hi Hj) in E. pose proof (children_nodup h wf p) as Hn. rewrite E in Hn.
      apply NoDup_remove_2 in Hn. apply Hn. apply in_or_app. right. apply in_elt.
    - pose proof (listed_before h p j i b a Hj Hi H) as Hba.
      (* siblings: Before is determined by the index *)
      destruct Ho as [Ho | (q & i' & j' & a' & b' & H1 & H2 & Hlt & H3 & H4)].
      + apply anc_inv in Ho. destruct Ho as (q & Hq & Hqb). pose proof (child_parent h wf _ _ Hqb) as E1.
        rewrite (listed_parent h wf _ _ _ Hj) in E1. injection E1 as <-.
        destruct Hq as [-> | Hq].
        * exact (anc_irrefl h wf p (Anc_child h _ _ (ex_intro _ i Hi))).
        * exact (anc_asym h wf a p Hq (Anc_child h _ _ (ex_intro _ i Hi))).
      + assert (Hq : forall u v k, Listed h p k v -> Child h q u -> AncEq h u v -> u <> v -> Anc h q p /\ AncEq h u p).
        { intros u v k Hv Hu [-> | Huv] Hne; [congruence|]. apply anc_inv in Huv. destruct Huv as (w & Hw & Hwv).
          pose proof (child_parent h wf _ _ Hwv) as E1. rewrite (listed_parent h wf _ _ _ Hv) in E1. injection E1 as <-.
          split; [|exact Hw]. exact (anc_anceq h _ _ _ (Anc_child h _ _ Hu) Hw). }
        destruct (Nat.eq_dec a' a) as [-> | Hna].
        * destruct (listed_inj h wf _ _ _ _ _ H1 Hi) as [-> ->].
          destruct (Nat.eq_dec b' b) as [-> | Hnb].
          -- destruct (listed_inj h wf _ _ _ _ _ H2 Hj) as [_ ->]. lia.
          -- destruct (Hq b' b j Hj (ex_intro _ j' H2) H4 Hnb) as [Hc _]. exact (anc_irrefl h wf p Hc).
        * destruct (Hq a' a i Hi (ex_intro _ i' H1) H3 Hna) as [Hqp Hap].
          destruct (Nat.eq_dec b' b) as [-> | Hnb].
          -- destruct (listed_inj h wf _ _ _ _ _ H2 Hj) as [-> _]. exact (anc_irrefl h wf p Hqp).
          -- destruct (Hq b' b j Hj (ex_intro _ j' H2) H4 Hnb) as [_ Hbp].
             (* a' and b' are different children of q, both at or above p *)
             assert (Hab : a' <> b') by (intros ->; destruct (listed_inj h wf _ _ _ _ _ H1 H2); lia).
             assert (Hcmp : forall u v k l, Listed h q k u -> Listed h q l v -> u <> v -> AncEq h u p -> AncEq h v p -> False).
             { intros u v k l Hu Hv Huv Hup Hvp.
               apply anceq_path in Hup. destruct Hup as (m1 & Hm1). apply anceq_path in Hvp. destruct Hvp as (m2 & Hm2).
               pose proof (key_path h wf _ _ _ Hm1) as K1. pose proof (key_path h wf _ _ _ Hm2) as K2.
               rewrite (key_listed h wf _ _ _ Hu) in K1. rewrite (key_listed h wf _ _ _ Hv) in K2. rewrite K1 in K2.
               rewrite <- !app_assoc in K2. apply app_inv_head in K2. injection K2 as -> _.
               exact (Huv (listed_fun h _ _ _ _ Hu Hv)). }
             exact (Hcmp a' b' i' j' H1 H2 Hab Hap Hbp).
  Qed.

  Lemma subtree_before p i j a b x y : Listed h p i a -> Listed h p j b -> i < j -> AncEq h a x -> AncEq h b y -> Before h x y.
  Proof. intros H1 H2 H3 H4 H5. right. exists p, i, j, a, b. repeat split; assumption. Qed.
  Lemma pre_ordered : forall fuel x, InTree h r x -> Deep fuel x -> Ordered h (pre fuel h x).
  Proof.
    induction fuel as [|f IH]; intros x Hx Hd; [destruct (deep_pos _ _ Hd); discriminate|]. cbn [pre].
    assert (HC : forall c, In c (children h x) -> InTree h r c /\ Deep f c).
    { intros c Hc. split; [exact (proj1 (el_child h r x c Hx Hc))|]. apply in_children in Hc. exact (deep_child _ _ _ Hd (proj1 Hc)). }
    apply ordered_flat_map.
    - intros c Hc. destruct (HC c Hc) as [Hc1 Hc2]. split; [|apply IH; assumption]. apply Forall_forall. intros y Hy.
      apply pre_in in Hy; try assumption. left. exact (proj1 Hy).
    - intros l1 a l2 b l3 E u v Hu Hv. destruct (children_idx x l1 a l2 b l3 E) as (i & j & Hi & Hj & Hlt).
      assert (A : forall c, In c (children h x) -> forall z, In z (c :: pre f h c) -> AncEq h c z).
      { intros c Hc z [<- | Hz]; [left; reflexivity|]. destruct (HC c Hc). apply pre_in in Hz; try assumption. right. exact (proj1 Hz). }
      apply (subtree_before x i j a b u v Hi Hj Hlt); apply A; try assumption; rewrite E; [apply in_elt | apply in_or_app; right; right; apply in_elt].
  Qed.
  Lemma descendants_docset x : InTree h r x -> DocSet h r (descendants h x).
  Proof.
    intros Hx. split; [|exact (pre_ordered _ x Hx (deep_full x))]. apply Forall_forall. intros y Hy.
    apply descendants_in in Hy; [|exact Hx]. exact (proj1 (desc_el x y Hx Hy)).
  Qed.
  Lemma pre_leaf f x : child_nodes_length h x = 0 -> pre f h x = [].
  Proof.
    intros H. destruct f; [reflexivity|]. cbn [pre]. unfold child_nodes_length in H. unfold children.
    destruct (kids h x); [reflexivity | discriminate].
  Qed.

  (** * The searches *)
  Variable pb : id -> bool.
  Lemma dfs_one_ok g : (forall x, ElIn h r x -> g x = Ok (pb x)) -> forall fuel x, InTree h r x -> Deep fuel x ->
    dfs_one h fuel g x = Ok (filter pb (pre fuel h x)).
  Proof.
    intros Hg. induction fuel as [|f IH]; intros x Hx Hd; [destruct (deep_pos _ _ Hd); discriminate|].
    cbn [dfs_one pre]. rewrite filter_flat_map. apply rflat_ok. intros c Hc. pose proof (el_child h r x c Hx Hc) as Hce.
    rewrite (Hg c Hce). cbn [rbind]. apply in_children in Hc.
    assert (E : (if 0 <? child_nodes_length h c then dfs_one h f g c else Ok []) = Ok (filter pb (pre f h c))).
    { destruct (Nat.ltb_spec 0 (child_nodes_length h c)) as [Hl | Hl].
      - apply IH; [exact (proj1 Hce) | exact (deep_child _ _ _ Hd (proj1 Hc))].
      - rewrite pre_leaf by lia. reflexivity. }
    rewrite E. cbn. destruct (pb c); reflexivity.
  Qed.
  Lemma dfs_spec_ok g :
    (forall p, InTree h r p -> kids h p <> [] -> g p = Ok (map (fun c => (c, pb c, true)) (children h p))) ->
    forall fuel x, InTree h r x -> Deep fuel x -> (kids h x = [] -> g x = Ok []) ->
    dfs_spec h fuel g x = Ok (filter pb (pre fuel h x)).
  Proof.
    intros Hg. induction fuel as [|f IH]; intros x Hx Hd He; [destruct (deep_pos _ _ Hd); discriminate|].
    cbn [dfs_spec]. assert (Ek : kids h x = [] \/ kids h x <> []) by (destruct (kids h x); [left; reflexivity | right; discriminate]).
    destruct Ek as [Ek | Ek].
    { rewrite (He Ek). cbn. unfold children. rewrite Ek. reflexivity. }
    rewrite (Hg x Hx Ek). cbn [rbind pre]. rewrite filter_flat_map.
    assert (HC : forall c, In c (children h x) -> ElIn h r c /\ Deep f c).
    { intros c Hc. split; [exact (el_child h r x c Hx Hc)|]. apply in_children in Hc. exact (deep_child _ _ _ Hd (proj1 Hc)). }
    induction (children h x) as [|c cs IHc]; [reflexivity|]. cbn [map rflat flat_map].
    destruct (HC c (or_introl eq_refl)) as [Hce Hcd].
    assert (E : (if true && (0 <? child_nodes_length h c) then dfs_spec h f g c else Ok []) = Ok (filter pb (pre f h c))).
    { cbn [andb]. destruct (Nat.ltb_spec 0 (child_nodes_length h c)) as [Hl | Hl].
      - apply IH; [exact (proj1 Hce) | exact Hcd|]. intros Ekc. unfold child_nodes_length in Hl. rewrite Ekc in Hl. cbn in Hl. lia.
      - rewrite pre_leaf by lia. reflexivity. }
    rewrite E. cbn [rbind]. rewrite IHc by (intros d Hd'; apply HC; right; exact Hd'). cbn. destruct (pb c); reflexivity.
  Qed.
  Lemma dfs_all_ok g : (forall p, InTree h r p -> children h p <> [] -> g (children h p) (Some false) = Ok (filter pb (children h p))) ->
    forall fuel x, InTree h r x -> Deep fuel x ->
    dfs_all h fuel g x = Ok (filter pb (pre fuel h x)).
  Proof.
    intros Hg. induction fuel as [|f IH]; intros x Hx Hd; [destruct (deep_pos _ _ Hd); discriminate|].
    cbn [dfs_all pre]. destruct (nonempty (children h x)) eqn:En.
    2:{ apply nonempty_false in En. rewrite En. reflexivity. }
    assert (En' : children h x <> []) by (intros E; rewrite E in En; discriminate).
    rewrite (Hg x Hx En'). cbn [rbind]. rewrite filter_flat_map. clear En En'.
    assert (HC : forall c, In c (children h x) -> ElIn h r c /\ Deep f c).
    { intros c Hc. split; [exact (el_child h r x c Hx Hc)|]. apply in_children in Hc. exact (deep_child _ _ _ Hd (proj1 Hc)). }
    pose proof (children_nodup h wf x) as Hn.
    induction (children h x) as [|c cs IHc]; [reflexivity|].
    destruct (HC c (or_introl eq_refl)) as [Hce Hcd]. inversion Hn as [|c0 cs0 Hnc Hnd]; subst c0 cs0.
    assert (E : (if 0 <? child_nodes_length h c then dfs_all h f g c else Ok []) = Ok (filter pb (pre f h c))).
    { destruct (Nat.ltb_spec 0 (child_nodes_length h c)) as [Hl | Hl]; [exact (IH c (proj1 Hce) Hcd)|].
      rewrite pre_leaf by lia. reflexivity. }
    assert (IHc' := IHc (fun d Hd' => HC d (or_intror Hd')) Hnd). clear IHc.
    assert (Eh : match filter pb (c :: cs) with m :: _ => Nat.eqb c m | [] => false end = pb c).
    { cbn. destruct (pb c); [apply Nat.eqb_refl|]. destruct (filter pb cs) as [|m ms] eqn:Em; [reflexivity|].
      apply Nat.eqb_neq. intros <-. apply Hnc. apply (filter_In pb c cs). rewrite Em. left. reflexivity. }
    rewrite Eh, E. cbn [rbind flat_map filter].
    assert (Et : (if pb c then tl (if pb c then c :: filter pb cs else filter pb cs) else if pb c then c :: filter pb cs else filter pb cs)
      = filter pb cs) by (destruct (pb c); reflexivity).
    rewrite Et, IHc'. cbn [rbind]. destruct (pb c); reflexivity.
  Qed.
End Pre.
