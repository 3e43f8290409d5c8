From Verif Require Import Base Attr AttrSpec.

(** ** The map *)
Lemma amap_get_remove m k k' :
  amap_get (amap_remove m k) k' = if str_eqb k' k then None else amap_get m k'.
Proof.
  unfold amap_remove. induction m as [|[x v] m IH]; cbn.
  - destruct (str_eqb k' k); reflexivity.
  - destruct (str_eqb x k) eqn:E1; cbn.
    + rewrite IH. apply str_eqb_spec in E1. subst x.
      destruct (str_eqb k' k) eqn:E2; [reflexivity|].
      destruct (str_eqb k k') eqn:E3; [|reflexivity].
      apply str_eqb_spec in E3. subst k'. rewrite str_eqb_refl in E2. discriminate.
    + destruct (str_eqb x k') eqn:E2; [|exact IH].
      apply str_eqb_spec in E2. subst x. rewrite E1. reflexivity.
Qed.

Lemma str_eqb_sym a b : str_eqb a b = str_eqb b a.
Proof.
  destruct (str_eqb a b) eqn:E1, (str_eqb b a) eqn:E2; try reflexivity.
  - apply str_eqb_spec in E1. subst. rewrite str_eqb_refl in E2. discriminate.
  - apply str_eqb_spec in E2. subst. rewrite str_eqb_refl in E1. discriminate.
Qed.

Lemma amap_get_insert m k v k' :
  amap_get (amap_insert m k v) k' = if str_eqb k' k then Some v else amap_get m k'.
Proof.
  unfold amap_insert. cbn. rewrite amap_get_remove, (str_eqb_sym k k').
  destruct (str_eqb k' k); reflexivity.
Qed.

(** ** Lists *)
Lemma list_set_spec {A} (l : list A) i x :
  i < length l -> exists r, list_set l i x = Some r /\ length r = length l /\
    forall j, nth_error r j = if Nat.eqb j i then Some x else nth_error l j.
Proof.
  revert i; induction l as [|y l IH]; intros i Hi; cbn in Hi; [lia|].
  destruct i as [|i]; cbn.
  - exists (x :: l). split; [reflexivity|]. split; [reflexivity|]. intros [|j]; reflexivity.
  - destruct (IH i) as (r & E & Hl & Hn); [lia|]. rewrite E.
    exists (y :: r). split; [reflexivity|]. split; [cbn; lia|].
    intros [|j]; cbn; [reflexivity | apply Hn].
Qed.

Lemma str_lower_idem s : str_lower (str_lower s) = str_lower s.
Proof.
  unfold str_lower. rewrite map_map. apply map_ext. intros c.
  unfold to_lower at 1. destruct (is_ascii_upper (to_lower c)) eqn:E; [|reflexivity].
  exfalso. revert E. unfold to_lower, is_ascii_upper.
  destruct (N.leb_spec 65 c), (N.leb_spec c 90); cbn [andb];
    destruct (N.leb_spec 65 c), (N.leb_spec c 90); cbn [andb]; try discriminate; try lia;
    destruct (N.leb_spec 65 (c + 32)), (N.leb_spec (c + 32) 90); cbn [andb]; try discriminate; lia.
Qed.

(** ** Reading *)
Lemma get_attribute_char m name :
  get_attribute m name =
  match amap_get (m_lc m) (str_lower name) with
  | Some i => do a <- rnth (m_attrs m) i; Ok (Some (attr_show a))
  | None => Ok None
  end.
Proof. unfold get_attribute. destruct (m_lc m); reflexivity. Qed.

Definition abs (m : meta) : attr_map := fun k =>
  match amap_get (m_lc m) k with
  | Some i => match nth_error (m_attrs m) i with Some a => Some (a_value a) | None => None end
  | None => None
  end.

Lemma shows_abs m : MetaOk m -> Shows m (abs m).
Proof.
  intros [H1 _] name. rewrite get_attribute_char. unfold abs.
  destruct (amap_get (m_lc m) (str_lower name)) as [i|] eqn:E.
  - destruct (H1 _ _ E) as [_ Hi]. unfold rnth.
    destruct (nth_error (m_attrs m) i) as [a|] eqn:Ea.
    + cbn. exists (Some (attr_show a)). split; [reflexivity|].
      unfold attr_show. destruct (a_value a); reflexivity.
    + apply nth_error_None in Ea. lia.
  - exists None. split; reflexivity.
Qed.

Lemma shows_unique m f g : Shows m f -> Shows m g -> forall k, f (str_lower k) = g (str_lower k).
Proof.
  intros Hf Hg k. destruct (Hf k) as (a & E1 & <-). destruct (Hg k) as (b & E2 & <-). congruence.
Qed.

Lemma shows_ext m f g : (forall k, f (str_lower k) = g (str_lower k)) -> Shows m f -> Shows m g.
Proof. intros H Hf k. destruct (Hf k) as (a & E & Ea). exists a. split; [exact E|]. rewrite Ea. apply H. Qed.

(** ** Writing *)

(** The content actually stored for a value. *)
Definition stored (o : oracles_attr) (value : option str) : option str :=
  match value with Some v => Some (q_content (quote_loop o v)) | None => None end.

Lemma set_attribute_ok o m name value :
  MetaOk m ->
  exists m', set_attribute o m name value = Ok m' /\ MetaOk m' /\ m_name m' = m_name m /\
    forall k, abs m' k = if str_eqb k (str_lower name) then Some (stored o value) else abs m k.
Proof.
  intros [H1 H2]. unfold set_attribute.
  destruct (amap_get (m_lc m) (str_lower name)) as [i|] eqn:E.
  - destruct (H1 _ _ E) as [_ Hi]. unfold rnth.
    destruct (nth_error (m_attrs m) i) as [a|] eqn:Ea; [|apply nth_error_None in Ea; lia].
    cbn [rbind]. unfold rset.
    set (a' := mkAttr _ _ _ _).
    destruct (list_set_spec (m_attrs m) i a' Hi) as (r & Er & Hl & Hn). rewrite Er. cbn [rbind].
    eexists; split; [reflexivity|]. split; [|split; [reflexivity|]].
    + split; cbn [m_lc m_attrs].
      * intros k j Hk. rewrite Hl. apply H1, Hk.
      * exact H2.
    + intros k. unfold abs. cbn [m_lc m_attrs].
      destruct (str_eqb k (str_lower name)) eqn:Ek.
      * apply str_eqb_spec in Ek. subst k. rewrite E, Hn, Nat.eqb_refl.
        subst a'. cbn [a_value]. unfold stored. destruct value; reflexivity.
      * destruct (amap_get (m_lc m) k) as [j|] eqn:Ej; [|reflexivity]. rewrite Hn.
        destruct (Nat.eqb_spec j i) as [->|Hne]; [|reflexivity].
        exfalso. rewrite (H2 _ _ _ Ej E), str_eqb_refl in Ek. discriminate.
  - eexists; split; [reflexivity|]. split; [|split; [reflexivity|]].
    + split; cbn [m_lc m_attrs].
      * intros k j Hk. rewrite amap_get_insert in Hk. rewrite app_length. cbn [length].
        destruct (str_eqb k (str_lower name)) eqn:Ek.
        -- apply str_eqb_spec in Ek. subst k. injection Hk as <-. split; [apply str_lower_idem | lia].
        -- destruct (H1 _ _ Hk). split; [assumption | lia].
      * intros k k' j Hk Hk'. rewrite amap_get_insert in Hk, Hk'.
        destruct (str_eqb k (str_lower name)) eqn:Ek, (str_eqb k' (str_lower name)) eqn:Ek'.
        -- apply str_eqb_spec in Ek, Ek'. congruence.
        -- injection Hk as <-. destruct (H1 _ _ Hk'). lia.
        -- injection Hk' as <-. destruct (H1 _ _ Hk). lia.
        -- eapply H2; eassumption.
    + intros k. unfold abs. cbn [m_lc m_attrs]. rewrite amap_get_insert.
      destruct (str_eqb k (str_lower name)) eqn:Ek.
      * rewrite nth_error_app2, Nat.sub_diag by lia. cbn. unfold stored. destruct value; reflexivity.
      * destruct (amap_get (m_lc m) k) as [j|] eqn:Ej; [|reflexivity].
        destruct (H1 _ _ Ej). rewrite nth_error_app1 by assumption. reflexivity.
Qed.

Lemma remove_attribute_ok m name :
  MetaOk m -> str_lower name = name ->
  exists m', remove_attribute m name = Ok m' /\ MetaOk m' /\ m_name m' = m_name m /\
    forall k, abs m' k = if str_eqb k name then None else abs m k.
Proof.
  intros [H1 H2] Hn. unfold remove_attribute.
  replace (match m_lc m with [] => None | _ :: _ => amap_get (m_lc m) (str_lower name) end)
    with (amap_get (m_lc m) (str_lower name)) by (destruct (m_lc m); reflexivity).
  rewrite Hn. destruct (amap_get (m_lc m) name) as [i|] eqn:E.
  - destruct (H1 _ _ E) as [_ Hi]. unfold rset.
    destruct (list_set_spec (m_attrs m) i attr_default Hi) as (r & Er & Hl & Hnth). rewrite Er. cbn [rbind].
    eexists; split; [reflexivity|]. split; [|split; [reflexivity|]].
    + split; cbn [m_lc m_attrs].
      * intros k j Hk. rewrite amap_get_remove in Hk. destruct (str_eqb k name); [discriminate|].
        rewrite Hl. apply H1, Hk.
      * intros k k' j Hk Hk'. rewrite amap_get_remove in Hk, Hk'.
        destruct (str_eqb k name); [discriminate|]. destruct (str_eqb k' name); [discriminate|].
        eapply H2; eassumption.
    + intros k. unfold abs. cbn [m_lc m_attrs]. rewrite amap_get_remove.
      destruct (str_eqb k name) eqn:Ek; [reflexivity|].
      destruct (amap_get (m_lc m) k) as [j|] eqn:Ej; [|reflexivity]. rewrite Hnth.
      destruct (Nat.eqb_spec j i) as [->|Hne]; [|reflexivity].
      exfalso. rewrite (H2 _ _ _ Ej E), str_eqb_refl in Ek. discriminate.
  - exists m. split; [reflexivity|]. split; [split; assumption|]. split; [reflexivity|].
    intros k. destruct (str_eqb k name) eqn:Ek; [|reflexivity].
    apply str_eqb_spec in Ek. subst k. unfold abs. rewrite E. reflexivity.
Qed.

(** ** Quoting *)

(** Running the loop over a value without a double quote leaves it as it is. *)
Lemma quote_loop_gen o v s :
  (~ In DQ v /\ q_quote s = DQ) \/
  (~ In SQ v /\ (q_quote s = SQ \/ (q_find s = false /\ q_quote s = DQ))) ->
  q_content (fold_left (quote_step o) v s) = q_content s ++ v.
Proof.
  revert s; induction v as [|c v IH]; intros s H; cbn [fold_left].
  - rewrite app_nil_r. reflexivity.
  - assert (Hstep : q_content (quote_step o s c) = q_content s ++ [c] /\
            ((~ In DQ v /\ q_quote (quote_step o s c) = DQ) \/
             (~ In SQ v /\ (q_quote (quote_step o s c) = SQ \/
                (q_find (quote_step o s c) = false /\ q_quote (quote_step o s c) = DQ))))).
    { unfold quote_step. destruct s as [ct fd qt nd]. cbn [q_content q_find q_quote q_need] in *.
      unfold char_eqb.
      destruct (N.eqb_spec c DQ) as [->|HD]; cbn [orb].
      - destruct H as [[H _]|[H1 H2]]; [exfalso; apply H; left; reflexivity|].
        destruct fd.
        + destruct H2 as [->|[? _]]; [|discriminate].
          destruct (N.eqb_spec SQ DQ) as [E|_]; [discriminate E|]. cbn.
          split; [reflexivity|]. right. split; [intros Hin; apply H1; right; exact Hin|]. left; reflexivity.
        + cbn. split; [reflexivity|]. right. split; [intros Hin; apply H1; right; exact Hin|]. left; reflexivity.
      - destruct (N.eqb_spec c SQ) as [->|HS]; cbn [orb].
        + destruct H as [[H1 H2]|[H1 _]]; [|exfalso; apply H1; left; reflexivity].
          subst qt. destruct fd.
          * destruct (N.eqb_spec DQ SQ) as [E|_]; [discriminate E|]. cbn.
            split; [reflexivity|]. left. split; [intros Hin; apply H1; right; exact Hin | reflexivity].
          * cbn. split; [reflexivity|]. left. split; [intros Hin; apply H1; right; exact Hin | reflexivity].
        + cbn. split; [reflexivity|].
          destruct H as [[H1 H2]|[H1 H2]]; [left|right];
            (split; [intros Hin; apply H1; right; exact Hin | assumption]). }
    destruct Hstep as [E1 E2]. rewrite (IH _ E2), E1, <- app_assoc. reflexivity.
Qed.

Lemma quote_loop_plain o v : ~ MixedQuotes v -> q_content (quote_loop o v) = v.
Proof.
  intros H. unfold quote_loop. rewrite quote_loop_gen; [reflexivity|]. cbn.
  destruct (in_dec N.eq_dec DQ v) as [HD|HD]; [|left; split; [exact HD | reflexivity]].
  right. split; [|right; split; reflexivity]. intros HS. apply H. split; assumption.
Qed.

(** The stored content never contains the chosen quote. *)
Lemma quote_loop_safe_gen o v s :
  EncoderOk o ->
  (if q_find s then (q_quote s = DQ \/ q_quote s = SQ) /\ ~ In (q_quote s) (q_content s)
   else q_quote s = DQ /\ ~ In DQ (q_content s) /\ ~ In SQ (q_content s)) ->
  let s' := fold_left (quote_step o) v s in
  ~ In (q_quote s') (q_content s').
Proof.
  intros Ho. revert s; induction v as [|c v IH]; intros s H; cbn [fold_left].
  - cbn. destruct (q_find s); [exact (proj2 H)|]. destruct H as (-> & H & _). exact H.
  - apply IH. unfold quote_step. destruct s as [ct fd qt nd]. cbn [q_content q_find q_quote q_need] in *.
    unfold char_eqb.
    destruct (N.eqb_spec c DQ) as [->|HD]; cbn [orb]; [|destruct (N.eqb_spec c SQ) as [->|HS]; cbn [orb]].
    + destruct fd.
      * destruct H as [Hq Hn]. destruct (N.eqb_spec qt DQ) as [->|Hne].
        -- destruct (Ho DQ (or_introl eq_refl)) as (e & -> & He & _). cbn. split; [exact Hq|].
           rewrite in_app_iff. tauto.
        -- cbn. split; [exact Hq|]. rewrite in_app_iff. cbn. intuition congruence.
      * destruct H as (-> & H1 & H2). cbn. split; [right; reflexivity|].
        rewrite in_app_iff. cbn. intros [?|[E|[]]]; [contradiction | discriminate E].
    + destruct fd.
      * destruct H as [Hq Hn]. destruct (N.eqb_spec qt SQ) as [->|Hne].
        -- destruct (Ho SQ (or_intror eq_refl)) as (e & -> & _ & He). cbn. split; [exact Hq|].
           rewrite in_app_iff. tauto.
        -- cbn. split; [exact Hq|]. rewrite in_app_iff. cbn. intuition congruence.
      * destruct H as (-> & H1 & H2). cbn. split; [left; reflexivity|].
        rewrite in_app_iff. cbn. intros [?|[E|[]]]; [contradiction | discriminate E].
    + cbn. destruct fd.
      * destruct H as [Hq Hn]. split; [exact Hq|]. rewrite in_app_iff. cbn.
        intros [?|[E|[]]]; [contradiction|]. subst c. destruct Hq; contradiction.
      * destruct H as (-> & H1 & H2). split; [reflexivity|]. rewrite !in_app_iff. cbn.
        split; (intros [?|[E|[]]]; [contradiction | subst c; contradiction]).
Qed.

Lemma set_new_attribute_safe o m name value :
  EncoderOk o -> amap_get (m_lc m) (str_lower name) = None ->
  exists m' a, set_attribute o m name value = Ok m' /\ m_attrs m' = m_attrs m ++ [a] /\ QuoteSafe a.
Proof.
  intros Ho E. unfold set_attribute. rewrite E.
  eexists. eexists. split; [reflexivity|]. split; [reflexivity|].
  unfold QuoteSafe. destruct value as [v|]; cbn; [|exact I].
  apply (quote_loop_safe_gen o v (mkQ [] false DQ false) Ho). cbn.
  split; [reflexivity|]. split; intros [].
Qed.

(** What is stored is the value, but for quotes of the chosen kind. *)
Lemma quote_loop_need o v s : q_need (fold_left (quote_step o) v s) = true <-> q_need s = true \/ exists ch, In ch v /\ oa_need_quote o ch = true.
Proof.
  revert s; induction v as [|c v IH]; intros s; cbn [fold_left].
  - split; [left; assumption | intros [H | (ch & [] & _)]; exact H].
  - rewrite IH. assert (E : q_need (quote_step o s c) = true <-> q_need s = true \/ oa_need_quote o c = true).
    { assert (En : q_need (quote_step o s c) = if q_need s then true else oa_need_quote o c).
      { unfold quote_step. destruct (char_eqb c DQ || char_eqb c SQ); [|reflexivity]. destruct (q_find s); [|reflexivity].
        destruct (char_eqb (q_quote s) c); [|reflexivity]. destruct (oa_encode o c); reflexivity. }
      rewrite En. destruct (q_need s); cbn; intuition discriminate. }
    rewrite E. split.
    + intros [[H | H] | (ch & H1 & H2)]; [left; exact H | right; exists c; split; [left; reflexivity | exact H] | right; exists ch; split; [right; exact H1 | exact H2]].
    + intros [H | (ch & [<- | H1] & H2)]; [left; left; exact H | left; right; exact H2 | right; exists ch; split; assumption].
Qed.
Lemma quote_loop_kept o v s : q_find s = true -> q_find (fold_left (quote_step o) v s) = true /\ q_quote (fold_left (quote_step o) v s) = q_quote s.
Proof.
  revert s; induction v as [|c v IH]; intros s H; cbn [fold_left]; [split; [exact H | reflexivity]|].
  assert (E : q_find (quote_step o s c) = true /\ q_quote (quote_step o s c) = q_quote s).
  { unfold quote_step. rewrite H. destruct (char_eqb c DQ || char_eqb c SQ); [|split; reflexivity].
    destruct (char_eqb (q_quote s) c); [|split; reflexivity]. destruct (oa_encode o c); split; reflexivity. }
  destruct (IH _ (proj1 E)) as [H1 H2]. split; [exact H1 | rewrite H2; exact (proj2 E)].
Qed.
Lemma quote_loop_escaped o v s : exists w, q_content (fold_left (quote_step o) v s) = q_content s ++ w /\ Escaped o (q_quote (fold_left (quote_step o) v s)) v w.
Proof.
  revert s; induction v as [|c v IH]; intros s; cbn [fold_left].
  - exists []. split; [symmetry; apply app_nil_r|]. exists []. split; [reflexivity | constructor].
  - destruct (IH (quote_step o s c)) as (w & Ew & ps & -> & HF).
    assert (E : exists p, q_content (quote_step o s c) = q_content s ++ p /\ (p = [c] \/ c = q_quote (fold_left (quote_step o) v (quote_step o s c)) /\ oa_encode o c = Some p)).
    { set (R := q_quote (fold_left (quote_step o) v (quote_step o s c))).
      assert (HR : q_find s = true -> R = q_quote s).
      { intros Hf. pose proof (proj2 (quote_loop_kept o (c :: v) s Hf)) as H. exact H. }
      clearbody R. unfold quote_step. destruct (char_eqb c DQ || char_eqb c SQ); [|exists [c]; split; [reflexivity | left; reflexivity]].
      destruct (q_find s); [|exists [c]; split; [reflexivity | left; reflexivity]].
      destruct (char_eqb (q_quote s) c) eqn:Eq; [|exists [c]; split; [reflexivity | left; reflexivity]].
      destruct (oa_encode o c) as [e|] eqn:Ee; [|exists [c]; split; [reflexivity | left; reflexivity]].
      exists e. split; [reflexivity|]. right. split; [|reflexivity]. rewrite (HR eq_refl). symmetry. apply N.eqb_eq. exact Eq. }
    destruct E as (p & Ep & Hp). exists (p ++ concat ps). split; [rewrite Ew, Ep, app_assoc; reflexivity|]. exists (p :: ps). split; [reflexivity | constructor; assumption].
Qed.
Lemma quote_loop_quote o v s : q_quote s = DQ \/ q_quote s = SQ -> q_quote (fold_left (quote_step o) v s) = DQ \/ q_quote (fold_left (quote_step o) v s) = SQ.
Proof.
  revert s; induction v as [|c v IH]; intros s H; cbn [fold_left]; [exact H|]. apply IH. unfold quote_step.
  destruct (char_eqb c DQ || char_eqb c SQ); [|exact H]. destruct (q_find s); [|cbn; destruct (char_eqb c DQ); [right; reflexivity | exact H]].
  destruct (char_eqb (q_quote s) c); [|exact H]. destruct (oa_encode o c); exact H.
Qed.
Lemma set_new_attribute_stored o m name value :
  EncoderOk o -> amap_get (m_lc m) (str_lower name) = None ->
  exists m' a, set_attribute o m name value = Ok m' /\ m_attrs m' = m_attrs m ++ [a] /\ a_key a = Some name /\ StoredAs o value a.
Proof.
  intros Ho E. unfold set_attribute. rewrite E.
  eexists. eexists. split; [reflexivity|]. split; [reflexivity|]. split; [reflexivity|].
  destruct value as [v|]; cbn; [|repeat split]. unfold quote_loop. set (s0 := mkQ [] false DQ false).
  destruct (quote_loop_escaped o v s0) as (w & Ew & Hw). exists w, (q_quote (fold_left (quote_step o) v s0)). split; [rewrite Ew; reflexivity|]. split; [reflexivity|].
  split; [apply quote_loop_quote; left; reflexivity|]. split.
  - pose proof (quote_loop_safe_gen o v s0 Ho ltac:(cbn; split; [reflexivity|]; split; intros [])) as H. cbn zeta in H. rewrite Ew in H. exact H.
  - split; [exact Hw|]. rewrite quote_loop_need. cbn. split; [intros [H | H]; [discriminate | exact H] | intros H; right; exact H].
Qed.

(** ** Histories *)

(** Operations for which the implementation keeps its promise: values without mixed quotes,
    and removals spelled in lower case. *)
Definition op_plain (op : attr_op) : Prop :=
  match op with
  | OpSet _ (Some v) => ~ MixedQuotes v
  | OpSet _ None => True
  | OpRemove n => str_lower n = n
  end.

Lemma attr_step_ok o m op :
  MetaOk m -> op_plain op ->
  exists m', attr_step o m op = Ok m' /\ MetaOk m' /\ m_name m' = m_name m /\
    forall k, abs m' k = spec_step (abs m) op k.
Proof.
  intros Hm Hop. destruct op as [n v|n]; cbn [attr_step spec_step].
  - destruct (set_attribute_ok o m n v Hm) as (m' & E & Hm' & Hnm & Ha).
    exists m'. repeat (split; [assumption|]). intros k. rewrite Ha. unfold spec_set.
    destruct (str_eqb k (str_lower n)); [|reflexivity].
    unfold stored. destruct v as [v|]; [|reflexivity]. cbn in Hop. rewrite quote_loop_plain by exact Hop. reflexivity.
  - cbn in Hop. destruct (remove_attribute_ok m n Hm Hop) as (m' & E & Hm' & Hnm & Ha).
    exists m'. repeat (split; [assumption|]). intros k. rewrite Ha. unfold spec_remove. rewrite Hop. reflexivity.
Qed.

Lemma spec_step_ext f g op : (forall k, f k = g k) -> forall k, spec_step f op k = spec_step g op k.
Proof.
  intros H k. destruct op; cbn; unfold spec_set, spec_remove; destruct (str_eqb _ _); try reflexivity; apply H.
Qed.
Lemma spec_run_ext ops : forall f g, (forall k, f k = g k) -> forall k, spec_run f ops k = spec_run g ops k.
Proof.
  unfold spec_run. induction ops as [|op ops IH]; intros f g H k; cbn; [apply H|].
  apply IH. apply spec_step_ext, H.
Qed.

Lemma attr_run_ok o ops : forall m,
  MetaOk m -> Forall op_plain ops ->
  exists m', attr_run o m ops = Ok m' /\ MetaOk m' /\
    forall k, abs m' k = spec_run (abs m) ops k.
Proof.
  unfold attr_run. induction ops as [|op ops IH]; intros m Hm Hops; cbn [rfold].
  - exists m. split; [reflexivity|]. split; [exact Hm | reflexivity].
  - inversion Hops as [|? ? Hop Hops']; subst.
    destruct (attr_step_ok o m op Hm Hop) as (m1 & E1 & Hm1 & _ & Ha1). rewrite E1. cbn [rbind].
    destruct (IH m1 Hm1 Hops') as (m' & E & Hm' & Ha). exists m'.
    split; [exact E|]. split; [exact Hm'|]. intros k. rewrite Ha. cbn [spec_run fold_left].
    apply spec_run_ext. exact Ha1.
Qed.

Lemma attr_history o m f ops :
  MetaOk m -> Shows m f -> Forall op_plain ops ->
  exists m', attr_run o m ops = Ok m' /\ MetaOk m' /\ Shows m' (spec_run f ops).
Proof.
  intros Hm Hf Hops. destruct (attr_run_ok o ops m Hm Hops) as (m' & E & Hm' & Ha).
  exists m'. split; [exact E|]. split; [exact Hm'|].
  eapply shows_ext; [|apply shows_abs, Hm'].
  intros k. rewrite Ha.
  pose proof (shows_unique _ _ _ (shows_abs m Hm) Hf) as Hu. clear - Hu.
  revert f k Hu. generalize (abs m) as g. induction ops as [|op ops IH]; intros g f k Hu; cbn.
  - apply Hu.
  - apply IH. intros k'. destruct op as [n v|n]; cbn; unfold spec_set, spec_remove;
      destruct (str_eqb _ _); try reflexivity; apply Hu.
Qed.
