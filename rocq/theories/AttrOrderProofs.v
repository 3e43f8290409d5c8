(** Order of the attributes in [get_attributes]. *)
From Verif Require Import Base Attr AttrSpec AttrProofs.

Definition MapOk (m : meta) : Prop := NoDup (map fst (m_lc m)).

Lemma amap_get_in m k i : amap_get m k = Some i -> In (k, i) m.
Proof.
  induction m as [|[k' v] m IH]; cbn; [discriminate|]. destruct (str_eqb k' k) eqn:E.
  - apply str_eqb_spec in E. subst. intros [= ->]. left. reflexivity.
  - intros H. right. apply IH, H.
Qed.
Lemma amap_in_get m k i : NoDup (map fst m) -> In (k, i) m -> amap_get m k = Some i.
Proof.
  induction m as [|[k' v] m IH]; cbn; intros Hnd Hin; [destruct Hin|].
  inversion Hnd as [|? ? Hni Hnd']; subst. destruct Hin as [[= -> ->]|Hin].
  - rewrite str_eqb_refl. reflexivity.
  - destruct (str_eqb k' k) eqn:E.
    + apply str_eqb_spec in E. subst. exfalso. apply Hni. apply in_map_iff. exists (k, i). split; [reflexivity | exact Hin].
    + apply IH; assumption.
Qed.

Lemma name_of_spec m k i : MetaOk m -> MapOk m ->
  (amap_name_of (m_lc m) i = Some k <-> amap_get (m_lc m) k = Some i).
Proof.
  intros [_ H2] Hnd. unfold amap_name_of. split.
  - destruct (find _ (m_lc m)) as [[k' v]|] eqn:E; [|discriminate]. intros [= ->].
    apply find_some in E as [Hin E]. cbn in E. apply Nat.eqb_eq in E. subst v. apply amap_in_get; assumption.
  - intros H. destruct (find _ (m_lc m)) as [[k' v]|] eqn:E.
    + apply find_some in E as [Hin E]. cbn in E. apply Nat.eqb_eq in E. subst v. f_equal.
      eapply H2; [apply amap_in_get; eassumption | exact H].
    + exfalso. apply amap_get_in in H. pose proof (find_none _ _ E _ H) as F. cbn in F.
      rewrite Nat.eqb_refl in F. discriminate.
Qed.

Lemma name_of_none m i : MetaOk m -> MapOk m ->
  (forall k, amap_get (m_lc m) k <> Some i) -> amap_name_of (m_lc m) i = None.
Proof.
  intros Hm Hk H. destruct (amap_name_of (m_lc m) i) as [k|] eqn:E; [|reflexivity].
  apply (name_of_spec m k i Hm Hk) in E. exfalso. apply (H _ E).
Qed.

Lemma amap_remove_nodup (m : amap) k : NoDup (map fst m) -> NoDup (map fst (amap_remove m k)) /\ ~ In k (map fst (amap_remove m k)).
Proof.
  intros H. split.
  - unfold amap_remove. induction m as [|[x v] m IH]; cbn; [constructor|]. inversion H; subst.
    destruct (str_eqb x k); cbn; [apply IH; assumption|]. constructor; [|apply IH; assumption].
    intros Hin. apply in_map_iff in Hin as ([y w] & E & Hin). cbn in E. subst y.
    apply filter_In in Hin as [Hin _]. apply H2. apply in_map_iff. exists (x, w). split; [reflexivity | exact Hin].
  - intros Hin. apply in_map_iff in Hin as ([y w] & E & Hin). cbn in E. subst y.
    apply filter_In in Hin as [_ Hin]. cbn in Hin. rewrite str_eqb_refl in Hin. discriminate.
Qed.

Lemma mapok_step o m op m' : MapOk m -> attr_step o m op = Ok m' -> MapOk m'.
Proof.
  intros H. unfold MapOk in *. destruct op as [n v|n]; cbn [attr_step].
  - unfold set_attribute. destruct (amap_get (m_lc m) (str_lower n)) as [i|].
    + destruct (rnth (m_attrs m) i); cbn; try discriminate.
      destruct (rset (m_attrs m) i _); cbn; try discriminate. intros [= <-]. exact H.
    + intros [= <-]. cbn. destruct (amap_remove_nodup (m_lc m) (str_lower n) H). constructor; assumption.
  - unfold remove_attribute. destruct (match m_lc m with [] => None | _ => _ end) as [i|].
    + destruct (rset _ _ _); cbn; try discriminate. intros [= <-]. cbn. apply amap_remove_nodup, H.
    + intros [= <-]. exact H.
Qed.

Lemma attrs_listing_remove m m' name idx l : MetaOk m -> MapOk m -> MetaOk m' -> MapOk m' ->
  amap_get (m_lc m) name = Some idx ->
  (forall k, amap_get (m_lc m') k = if str_eqb k name then None else amap_get (m_lc m) k) ->
  forall l' lo, length l' = length l ->
  (forall j, lo + j <> idx -> nth_error l' j = nth_error l j) ->
  attrs_listing (m_lc m') l' lo = filter (fun e => negb (str_eqb (fst e) name)) (attrs_listing (m_lc m) l lo).
Proof.
  intros Hm Hk Hm' Hk' Hidx Hget. induction l as [|a l IH]; intros [|a' l'] lo Hl Hn; cbn in Hl; try discriminate; [reflexivity|].
  cbn [attrs_listing].
  assert (IHx := IH l' (S lo) ltac:(lia) ltac:(intros j Hj; apply (Hn (S j)); lia)).
  destruct (amap_name_of (m_lc m) lo) as [k|] eqn:E.
  - pose proof (proj1 (name_of_spec m k lo Hm Hk) E) as G.
    cbn [filter fst]. destruct (str_eqb k name) eqn:Ek; cbn [negb].
    + apply str_eqb_spec in Ek. subst k.
      rewrite (name_of_none m' lo Hm' Hk'); [exact IHx|].
      intros k Hg. rewrite Hget in Hg. destruct (str_eqb k name) eqn:Ekn; [discriminate|].
      destruct Hm as [_ H2]. rewrite (H2 _ _ _ Hg G), str_eqb_refl in Ekn. discriminate.
    + assert (E' : amap_name_of (m_lc m') lo = Some k).
      { apply (name_of_spec m' k lo Hm' Hk'). rewrite Hget, Ek. exact G. }
      rewrite E', IHx. f_equal.
      assert (Hlo : lo + 0 <> idx).
      { intros F. rewrite Nat.add_0_r in F. subst idx. destruct Hm as [_ H2]. rewrite (H2 _ _ _ G Hidx), str_eqb_refl in Ek. discriminate. }
      specialize (Hn 0 Hlo). cbn in Hn. injection Hn as ->. reflexivity.
  - rewrite (name_of_none m' lo Hm' Hk'); [exact IHx|].
    intros k Hg. rewrite Hget in Hg. destruct (str_eqb k name); [discriminate|].
    apply (name_of_spec m k lo Hm Hk) in Hg. congruence.
Qed.

Lemma filter_none_id {A} (f : A -> bool) l : (forall x, In x l -> f x = true) -> filter f l = l.
Proof.
  induction l as [|x l IH]; intros H; cbn; [reflexivity|]. rewrite (H x (or_introl eq_refl)).
  f_equal. apply IH. intros y Hy. apply H. right. exact Hy.
Qed.

Lemma listing_names m l : forall lo e, MetaOk m -> MapOk m -> In e (attrs_listing (m_lc m) l lo) -> exists i, amap_get (m_lc m) (fst e) = Some i.
Proof.
  induction l as [|a l IH]; intros lo e Hm Hk Hin; cbn in Hin; [destruct Hin|].
  destruct (amap_name_of (m_lc m) lo) as [k|] eqn:E; [|eapply IH; eassumption].
  destruct Hin as [<-|Hin]; [|eapply IH; eassumption]. exists lo. apply name_of_spec; assumption.
Qed.

(** Removing an attribute removes exactly its entry from the listing. *)
Lemma remove_listing m name : MetaOk m -> MapOk m -> str_lower name = name ->
  exists m', remove_attribute m name = Ok m' /\ MetaOk m' /\ MapOk m' /\
    get_attributes m' = filter (fun e => negb (str_eqb (fst e) name)) (get_attributes m).
Proof.
  intros Hm Hk Hn. destruct (remove_attribute_ok m name Hm Hn) as (m' & E & Hm' & _ & Ha).
  exists m'. split; [exact E|]. split; [exact Hm'|].
  assert (Hk' : MapOk m') by (exact (mapok_step (mkOA (fun _ => None) (fun _ => false)) m (OpRemove name) m' Hk E)).
  split; [exact Hk'|].
  unfold remove_attribute in E.
  replace (match m_lc m with [] => None | _ :: _ => amap_get (m_lc m) (str_lower name) end)
    with (amap_get (m_lc m) name) in E by (rewrite Hn; destruct (m_lc m); reflexivity).
  destruct (amap_get (m_lc m) name) as [i|] eqn:Ei.
  - unfold rset in E. destruct (list_set_spec (m_attrs m) i attr_default (proj2 (proj1 Hm _ _ Ei))) as (r & Er & Hlen & Hnth).
    rewrite Er in E. cbn in E. injection E as <-. unfold get_attributes. cbn [m_attrs].
    apply (attrs_listing_remove m _ name i); cbn [m_lc]; try assumption.
    + intros k. apply amap_get_remove.
    + intros j Hj. rewrite Hnth. destruct (Nat.eqb_spec j i); [cbn in Hj; lia | reflexivity].
  - injection E as <-. symmetry. apply filter_none_id. intros e He.
    destruct (listing_names m _ _ _ Hm Hk He) as (j & Hj).
    destruct (str_eqb (fst e) name) eqn:Ee; [|reflexivity]. apply str_eqb_spec in Ee. rewrite Ee in Hj. congruence.
Qed.

(** Setting: an existing attribute keeps its place, a new one comes last. *)
Lemma attrs_listing_same m m' l : (forall i, amap_name_of (m_lc m') i = amap_name_of (m_lc m) i) ->
  forall l' lo, length l' = length l ->
  map fst (attrs_listing (m_lc m') l' lo) = map fst (attrs_listing (m_lc m) l lo).
Proof.
  intros Hn. induction l as [|a l IH]; intros [|a' l'] lo Hl; cbn in Hl; try discriminate; [reflexivity|].
  cbn. rewrite Hn. destruct (amap_name_of (m_lc m) lo); cbn; rewrite (IH l' (S lo)) by lia; reflexivity.
Qed.
Lemma attrs_listing_app mm l1 l2 : forall lo,
  attrs_listing mm (l1 ++ l2) lo = attrs_listing mm l1 lo ++ attrs_listing mm l2 (lo + length l1).
Proof.
  induction l1 as [|a l1 IH]; intros lo; cbn; [rewrite Nat.add_0_r; reflexivity|].
  rewrite IH. replace (S lo + length l1) with (lo + S (length l1)) by lia.
  destruct (amap_name_of mm lo); reflexivity.
Qed.
Lemma attrs_listing_names_ext mm mm' l : forall lo, (forall i, lo <= i < lo + length l -> amap_name_of mm' i = amap_name_of mm i) ->
  attrs_listing mm' l lo = attrs_listing mm l lo.
Proof.
  induction l as [|a l IH]; intros lo H; cbn; [reflexivity|].
  rewrite (H lo) by (cbn; lia). rewrite (IH (S lo)) by (intros i Hi; apply H; cbn; lia). reflexivity.
Qed.

Lemma set_listing o m name value : MetaOk m -> MapOk m ->
  exists m', set_attribute o m name value = Ok m' /\ MetaOk m' /\ MapOk m' /\
    map fst (get_attributes m') =
      (if existsb (str_eqb (str_lower name)) (map fst (get_attributes m))
       then map fst (get_attributes m)
       else map fst (get_attributes m) ++ [str_lower name]).
Proof.
  intros Hm Hk. destruct (set_attribute_ok o m name value Hm) as (m' & E & Hm' & _ & Ha).
  exists m'. split; [exact E|]. split; [exact Hm'|].
  assert (Hk' : MapOk m') by (exact (mapok_step o m (OpSet name value) m' Hk E)).
  split; [exact Hk'|]. unfold set_attribute in E.
  destruct (amap_get (m_lc m) (str_lower name)) as [i|] eqn:Ei.
  - destruct (rnth (m_attrs m) i) as [a| |] eqn:Ea; cbn in E; try discriminate.
    destruct (proj1 Hm _ _ Ei) as [_ Hi].
    unfold rset in E. edestruct (list_set_spec (m_attrs m) i) as (r & Er & Hlen & Hnth); [exact Hi|].
    rewrite Er in E. cbn in E. injection E as <-. unfold get_attributes. cbn [m_attrs].
    rewrite (attrs_listing_same m (mkMeta (m_name m) r (m_lc m)) (m_attrs m)) by (try exact Hlen; reflexivity).
    replace (existsb _ _) with true; [reflexivity|]. symmetry. apply existsb_exists.
    exists (str_lower name). split; [|apply str_eqb_refl].
    apply (name_of_spec m _ _ Hm Hk) in Ei. clear - Ei Hi.
    revert Ei Hi. unfold get_attributes. replace i with (0 + i) at 1 by reflexivity. generalize 0 as lo. revert i.
    induction (m_attrs m) as [|a l IH]; intros i lo Ei Hi; cbn in Hi; [lia|].
    cbn. destruct i as [|i].
    + rewrite Nat.add_0_r in Ei. rewrite Ei. left. reflexivity.
    + assert (In (str_lower name) (map fst (attrs_listing (m_lc m) l (S lo)))).
      { apply (IH i); [rewrite Nat.add_succ_l, <- Nat.add_succ_r; exact Ei | lia]. }
      destruct (amap_name_of (m_lc m) lo); [right; assumption | assumption].
  - injection E as <-. unfold get_attributes. cbn [m_attrs].
    rewrite attrs_listing_app, map_app. cbn [m_lc].
    assert (Hfr : forall k i, amap_get (m_lc m) k = Some i -> i <> length (m_attrs m)).
    { intros k i Hg. destruct (proj1 Hm _ _ Hg). lia. }
    replace (existsb _ _) with false.
    2:{ symmetry. apply not_true_iff_false. intros Hex. apply existsb_exists in Hex as (k & Hin & Ek).
        apply str_eqb_spec in Ek. subst k. apply in_map_iff in Hin as (e & Ee & Hin).
        destruct (listing_names m _ _ _ Hm Hk Hin) as (j & Hj). rewrite Ee in Hj. congruence. }
    f_equal.
    + f_equal. apply attrs_listing_names_ext. intros i Hi. cbn in Hi.
      destruct (amap_name_of (m_lc m) i) as [k|] eqn:En.
      * apply (name_of_spec m k i Hm Hk) in En.
        apply (name_of_spec _ k i Hm' Hk'). cbn [m_lc]. rewrite amap_get_insert.
        destruct (str_eqb k (str_lower name)) eqn:Ek; [|exact En].
        apply str_eqb_spec in Ek. subst k. congruence.
      * apply (name_of_none _ i Hm' Hk'). intros k. cbn [m_lc]. rewrite amap_get_insert.
        destruct (str_eqb k (str_lower name)); [intros [= F]; lia|].
        intros F. apply (name_of_spec m k i Hm Hk) in F. congruence.
    + cbn [plus]. cbn [attrs_listing].
      assert (En : amap_name_of (amap_insert (m_lc m) (str_lower name) (length (m_attrs m))) (length (m_attrs m)) = Some (str_lower name)).
      { unfold amap_name_of, amap_insert. cbn. rewrite Nat.eqb_refl. reflexivity. }
      rewrite En. reflexivity.
Qed.
