(** The attributes as they are written out. *)
From Verif Require Import Base Attr AttrSpec AttrProofs.

Lemma keys_meta m : KeysOk m -> MetaOk m.
Proof.
  intros [H1 H2]. split.
  - intros k i E. destruct (H2 k i E) as (a & key & Ea & _ & <-). split; [apply str_lower_idem|]. apply nth_error_Some. congruence.
  - intros k k' i E E'. destruct (H2 k i E) as (a & key & Ea & Ek & <-), (H2 k' i E') as (a' & key' & Ea' & Ek' & <-). congruence.
Qed.

Lemma list_set_split {A} (l : list A) i a x : nth_error l i = Some a -> exists p q, l = p ++ a :: q /\ length p = i /\ list_set l i x = Some (p ++ x :: q).
Proof.
  revert i. induction l as [|b l IH]; intros [|i] E; try discriminate.
  - injection E as ->. exists [], l. repeat split.
  - destruct (IH i E) as (p & q & -> & Hl & Hs). exists (b :: p), q. cbn. rewrite Hs, Hl. repeat split.
Qed.

Definition written (l : list attr) : list (str * option str) := flat_map (fun a => match a_key a with Some k => [(k, a_value a)] | None => [] end) l.
Lemma written_in l k v : In (k, v) (written l) -> exists i a, nth_error l i = Some a /\ a_key a = Some k.
Proof.
  intros H. apply in_flat_map in H. destruct H as (a & Ha & H). apply In_nth_error in Ha. destruct Ha as (i & Ei). exists i, a. split; [exact Ei|].
  destruct (a_key a) as [k'|]; [|destruct H]. destruct H as [H | []]. congruence.
Qed.
Lemma map_same {A} (f : A -> A) l : (forall x, In x l -> f x = x) -> map f l = l.
Proof. induction l as [|x l IH]; intros H; cbn; [reflexivity|]. rewrite H, IH; [reflexivity | intros y Hy; apply H; right; exact Hy | left; reflexivity]. Qed.
Lemma filter_same {A} (f : A -> bool) l : (forall x, In x l -> f x = true) -> filter f l = l.
Proof. induction l as [|x l IH]; intros H; cbn; [reflexivity|]. rewrite H, IH; [reflexivity | intros y Hy; apply H; right; exact Hy | left; reflexivity]. Qed.

(** Around the place of a name, no other attribute is written under it. *)
Lemma others_differ m n p a q : KeysOk m -> m_attrs m = p ++ a :: q -> amap_get (m_lc m) (str_lower n) = Some (length p) ->
  forall e, In e (written p) \/ In e (written q) -> same_name n (fst e) = false.
Proof.
  intros [H1 _] Em Hi [k v] He. cbn [fst]. destruct (same_name n k) eqn:E; [|reflexivity]. apply str_eqb_spec in E.
  assert (exists i b, nth_error (m_attrs m) i = Some b /\ a_key b = Some k /\ i <> length p) as (i & b & Eb & Ek & Hn).
  { destruct He as [He | He]; apply written_in in He; destruct He as (i & b & Eb & Ek).
    - assert (i < length p) by (apply nth_error_Some; congruence). exists i, b. rewrite Em, nth_error_app1 by assumption. repeat split; [exact Eb | exact Ek | lia].
    - exists (length p + S i), b. rewrite Em, nth_error_app2 by lia. replace (length p + S i - length p) with (S i) by lia. repeat split; [exact Eb | exact Ek | lia]. }
  pose proof (H1 i b k Eb Ek). rewrite E in H. congruence.
Qed.

Lemma name_there m n i : KeysOk m -> amap_get (m_lc m) (str_lower n) = Some i ->
  exists p a q k, m_attrs m = p ++ a :: q /\ length p = i /\ a_key a = Some k /\ str_lower k = str_lower n.
Proof.
  intros [_ H2] E. destruct (H2 _ _ E) as (a & k & Ea & Ek & El). destruct (list_set_split _ _ _ a Ea) as (p & q & Ep & Hl & _). exists p, a, q, k. repeat split; assumption.
Qed.
Lemma name_absent m n : KeysOk m -> amap_get (m_lc m) (str_lower n) = None -> forall e, In e (markup m) -> same_name n (fst e) = false.
Proof.
  intros [H1 _] E [k v] He. cbn [fst]. destruct (same_name n k) eqn:Es; [|reflexivity]. apply str_eqb_spec in Es.
  apply written_in in He. destruct He as (i & a & Ea & Ek). pose proof (H1 i a k Ea Ek). congruence.
Qed.

(** Replacing the attribute of a name by one with the same key. *)
Lemma replace_keys m n p a q k a' : KeysOk m -> m_attrs m = p ++ a :: q -> a_key a = Some k -> a_key a' = Some k ->
  amap_get (m_lc m) (str_lower n) = Some (length p) -> KeysOk (mkMeta (m_name m) (p ++ a' :: q) (m_lc m)).
Proof.
  intros [H1 H2] Em Ek Ek' Hi.
  assert (G : forall i b, nth_error (p ++ a' :: q) i = Some b -> exists b0, nth_error (m_attrs m) i = Some b0 /\ a_key b0 = a_key b).
  { intros i b Eb. rewrite Em. destruct (lt_eq_lt_dec i (length p)) as [[Hl | ->] | Hl].
    - rewrite nth_error_app1 in Eb |- * by exact Hl. exists b. split; [exact Eb | reflexivity].
    - rewrite nth_error_app2, Nat.sub_diag in Eb |- * by lia. injection Eb as <-. exists a. split; [reflexivity | congruence].
    - rewrite nth_error_app2 in Eb |- * by lia. destruct (i - length p) as [|j] eqn:Ej; [lia|]. exists b. split; [exact Eb | reflexivity]. }
  assert (G' : forall i b0, nth_error (m_attrs m) i = Some b0 -> exists b, nth_error (p ++ a' :: q) i = Some b /\ a_key b0 = a_key b).
  { intros i b Eb. rewrite Em in Eb. destruct (lt_eq_lt_dec i (length p)) as [[Hl | ->] | Hl].
    - rewrite nth_error_app1 in Eb |- * by exact Hl. exists b. split; [exact Eb | reflexivity].
    - rewrite nth_error_app2, Nat.sub_diag in Eb |- * by lia. injection Eb as <-. exists a'. split; [reflexivity | congruence].
    - rewrite nth_error_app2 in Eb |- * by lia. destruct (i - length p) as [|j] eqn:Ej; [lia|]. exists b. split; [exact Eb | reflexivity]. }
  split; cbn [m_attrs m_lc].
  - intros i b key Eb Ekey. destruct (G i b Eb) as (b0 & Eb0 & Ek0). apply (H1 i b0 key Eb0). congruence.
  - intros n' i Ei. destruct (H2 n' i Ei) as (b0 & key & Eb0 & Ekey & El). destruct (G' i b0 Eb0) as (b & Eb & Ek0). exists b, key. repeat split; [exact Eb | congruence | exact El].
Qed.

Lemma written_app l l' : written (l ++ l') = written l ++ written l'.
Proof. apply flat_map_app. Qed.

Lemma set_markup o m n v : KeysOk m -> exists m', set_attribute o m n v = Ok m' /\ KeysOk m' /\ markup m' = markup_step (markup m) (OpSet n (stored o v)).
Proof.
  intros Hm. unfold set_attribute, markup_step. change (markup m) with (written (m_attrs m)). destruct (amap_get (m_lc m) (str_lower n)) as [i|] eqn:Ei.
  - destruct (name_there m n i Hm Ei) as (p & a & q & k & Em & Hl & Ek & El). subst i.
    assert (Ea : nth_error (m_attrs m) (length p) = Some a) by (rewrite Em, nth_error_app2, Nat.sub_diag by lia; reflexivity).
    unfold rnth, rset. rewrite Ea. cbn [rbind]. set (a' := mkAttr _ _ _ _).
    destruct (list_set_split _ _ _ a' Ea) as (p' & q' & Ep & Hp & Es). rewrite Es. cbn [rbind].
    assert (p' = p /\ q' = q) as [-> ->]. { rewrite Em in Ep. revert Hp Ep. clear. revert p'. induction p as [|x p IH]; intros [|x' p'] Hl E; cbn in *; try discriminate; [injection E as ->; split; reflexivity|]. injection E as -> E. injection Hl as Hl. destruct (IH p' Hl E) as [-> ->]. split; reflexivity. }
    eexists. split; [reflexivity|]. split; [exact (replace_keys m n p a q k a' Hm Em Ek Ek Ei)|].
    pose proof (others_differ m n p a q Hm Em Ei) as Ho.
    assert (Ew : written (m_attrs m) = written p ++ (k, a_value a) :: written q).
    { rewrite Em, written_app. cbn. rewrite Ek. reflexivity. }
    rewrite Ew, existsb_app. cbn [existsb fst]. unfold same_name at 2. rewrite El, str_eqb_refl, orb_true_r.
    rewrite map_app. cbn [map fst]. unfold same_name at 2. rewrite El, str_eqb_refl.
    rewrite !map_same by (intros e He; rewrite Ho by tauto; reflexivity).
    change (written (p ++ a' :: q) = written p ++ (k, stored o v) :: written q).
    rewrite written_app. cbn. rewrite Ek. unfold stored. destruct v; reflexivity.
  - pose proof (name_absent m n Hm Ei) as Ha. change (markup m) with (written (m_attrs m)) in Ha.
    destruct (existsb (fun e => same_name n (fst e)) (written (m_attrs m))) eqn:Ex.
    + apply existsb_exists in Ex. destruct Ex as (e & He & Es). rewrite Ha in Es by exact He. discriminate.
    + eexists. split; [reflexivity|]. split.
      * destruct Hm as [H1 H2]. split; cbn [m_attrs m_lc].
        -- intros i a k Ea Ek. rewrite amap_get_insert. destruct (lt_dec i (length (m_attrs m))) as [Hl | Hl].
           ++ rewrite nth_error_app1 in Ea by exact Hl. pose proof (H1 i a k Ea Ek) as E. destruct (str_eqb (str_lower k) (str_lower n)) eqn:En; [apply str_eqb_spec in En; congruence | exact E].
           ++ rewrite nth_error_app2 in Ea by lia. destruct (i - length (m_attrs m)) as [|j] eqn:Ej; [|destruct j; discriminate]. injection Ea as <-. cbn in Ek. injection Ek as <-.
              rewrite str_eqb_refl. f_equal. lia.
        -- intros n' i E. rewrite amap_get_insert in E. destruct (str_eqb n' (str_lower n)) eqn:En.
           ++ apply str_eqb_spec in En. injection E as <-. rewrite nth_error_app2, Nat.sub_diag by lia. eexists _, n. split; [reflexivity|]. split; [reflexivity | congruence].
           ++ destruct (H2 n' i E) as (a & k & Ea & Ek & El). exists a, k. split; [|split; assumption]. rewrite nth_error_app1; [exact Ea | apply nth_error_Some; congruence].
      * change (written (m_attrs m ++ [mkAttr (Some n) (match match v with Some v0 => Some (quote_loop o v0) | None => None end with Some s => Some (q_content s) | None => None end) (match match v with Some v0 => Some (quote_loop o v0) | None => None end with Some s => Some (q_quote s) | None => None end) (match match v with Some v0 => Some (quote_loop o v0) | None => None end with Some s => q_need s | None => false end)]) = written (m_attrs m) ++ [(n, stored o v)]).
        rewrite written_app. cbn. unfold stored. destruct v; reflexivity.
Qed.

Lemma remove_markup m n : KeysOk m -> str_lower n = n -> exists m', remove_attribute m n = Ok m' /\ KeysOk m' /\ markup m' = markup_step (markup m) (OpRemove n).
Proof.
  intros Hm Hn. unfold remove_attribute.
  replace (match m_lc m with [] => None | _ :: _ => amap_get (m_lc m) (str_lower n) end) with (amap_get (m_lc m) (str_lower n)) by (destruct (m_lc m); reflexivity).
  unfold markup_step. change (markup m) with (written (m_attrs m)). destruct (amap_get (m_lc m) (str_lower n)) as [i|] eqn:Ei.
  - destruct (name_there m n i Hm Ei) as (p & a & q & k & Em & Hl & Ek & El). subst i.
    assert (Ea : nth_error (m_attrs m) (length p) = Some a) by (rewrite Em, nth_error_app2, Nat.sub_diag by lia; reflexivity).
    unfold rset. destruct (list_set_split _ _ _ attr_default Ea) as (p' & q' & Ep & Hp & Es). rewrite Es. cbn [rbind].
    assert (p' = p /\ q' = q) as [-> ->]. { rewrite Em in Ep. revert Hp Ep. clear. revert p'. induction p as [|x p IH]; intros [|x' p'] Hl E; cbn in *; try discriminate; [injection E as ->; split; reflexivity|]. injection E as -> E. injection Hl as Hl. destruct (IH p' Hl E) as [-> ->]. split; reflexivity. }
    eexists. split; [reflexivity|]. pose proof (others_differ m n p a q Hm Em Ei) as Ho. split.
    + destruct Hm as [H1 H2]. split; cbn [m_attrs m_lc].
      * intros i b key Eb Ekey. rewrite amap_get_remove.
        assert (Hb : nth_error (m_attrs m) i = Some b /\ i <> length p).
        { rewrite Em. destruct (lt_eq_lt_dec i (length p)) as [[Hl | ->] | Hl].
          - rewrite nth_error_app1 in Eb |- * by exact Hl. split; [exact Eb | lia].
          - rewrite nth_error_app2, Nat.sub_diag in Eb by lia. injection Eb as <-. discriminate.
          - rewrite nth_error_app2 in Eb |- * by lia. destruct (i - length p) as [|j] eqn:Ej; [lia|]. split; [exact Eb | lia]. }
        destruct Hb as [Hb Hne]. pose proof (H1 i b key Hb Ekey) as E. destruct (str_eqb (str_lower key) n) eqn:En; [|exact E]. apply str_eqb_spec in En. rewrite Hn in Ei. congruence.
      * intros n' i E. rewrite amap_get_remove in E. destruct (str_eqb n' n) eqn:En; [discriminate|]. destruct (H2 n' i E) as (b & key & Eb & Ekey & El'). exists b, key. split; [|split; assumption].
        rewrite Em in Eb. destruct (lt_eq_lt_dec i (length p)) as [[Hl | ->] | Hl].
        -- rewrite nth_error_app1 in Eb |- * by exact Hl. exact Eb.
        -- exfalso. rewrite nth_error_app2, Nat.sub_diag in Eb by lia. injection Eb as <-. assert (key = k) by congruence. subst key. rewrite El, Hn in El'. subst n'. rewrite str_eqb_refl in En. discriminate.
        -- rewrite nth_error_app2 in Eb |- * by lia. destruct (i - length p) as [|j] eqn:Ej; [lia|]. exact Eb.
    + assert (Ew : written (m_attrs m) = written p ++ (k, a_value a) :: written q) by (rewrite Em, written_app; cbn; rewrite Ek; reflexivity).
      rewrite Ew, filter_app. cbn [filter fst]. unfold same_name at 2. rewrite El, str_eqb_refl. cbn [negb].
      rewrite !filter_same by (intros e He; rewrite Ho by tauto; reflexivity).
      change (written (p ++ attr_default :: q) = written p ++ written q). rewrite written_app. reflexivity.
  - exists m. split; [reflexivity|]. split; [exact Hm|]. symmetry. apply filter_same. intros e He. rewrite (name_absent m n Hm Ei e He). reflexivity.
Qed.

Lemma step_markup o m op : KeysOk m -> op_plain op -> exists m', attr_step o m op = Ok m' /\ KeysOk m' /\ markup m' = markup_step (markup m) op.
Proof.
  intros Hm Hp. destruct op as [n v|n]; cbn [attr_step].
  - destruct (set_markup o m n v Hm) as (m' & E & Hm' & Ew). exists m'. split; [exact E|]. split; [exact Hm'|]. rewrite Ew. f_equal. f_equal. unfold stored. destruct v as [v|]; [|reflexivity]. cbn in Hp. rewrite quote_loop_plain by exact Hp. reflexivity.
  - exact (remove_markup m n Hm Hp).
Qed.
Lemma run_markup o ops : Forall op_plain ops -> forall m, KeysOk m -> exists m', attr_run o m ops = Ok m' /\ KeysOk m' /\ markup m' = fold_left markup_step ops (markup m).
Proof.
  induction 1 as [|op ops Hp _ IH]; intros m Hm; [exists m; repeat split; apply Hm|]. destruct (step_markup o m op Hm Hp) as (m1 & E1 & Hm1 & W1).
  destruct (IH m1 Hm1) as (m' & E & Hm' & W). exists m'. unfold attr_run. cbn [rfold]. rewrite E1. cbn [rbind]. split; [exact E|]. split; [exact Hm'|]. cbn [fold_left]. rewrite <- W1. exact W.
Qed.
