(** Property theorems: attribute calls with any arguments (C18, C19, C20, C47): what exactly is read after every history, also when
    values contain both kinds of quotes or names are removed in another spelling. *)
From Verif Require Import Base Utils UtilsSpec UtilsProofs Attr AttrSpec AttrProofs Dom DomSpec DomProofs Mutate MutateSpec MutateProofs InsertProofs HistoryProofs Html HtmlSpec Live LiveSpec LiveProofs
  PropsAttr PropsSetAttr.

(** The value as it is kept: the quote that is not the first one to occur is written as an entity. *)
Fixpoint first_quote (v : str) : option char :=
  match v with
  | [] => None
  | c :: v' => if char_eqb c DQ || char_eqb c SQ then Some c else first_quote v'
  end.
Definition other_quote (c : char) : char := if char_eqb c DQ then SQ else DQ.
Definition write_char (o : oracles_attr) (q ch : char) : str :=
  if char_eqb ch q then match oa_encode o ch with Some e => e | None => [ch] end else [ch].
Definition kept_value (o : oracles_attr) (v : str) : str :=
  match first_quote v with
  | None => v
  | Some c => flat_map (write_char o (other_quote c)) v
  end.
(** One call on the map a reader sees.  A removal in another spelling leaves a present attribute without value. *)
Definition any_step (o : oracles_attr) (f : attr_map) (op : attr_op) : attr_map :=
  match op with
  | OpSet n v => spec_set f n (match v with Some v => Some (kept_value o v) | None => None end)
  | OpRemove n =>
      if str_eqb (str_lower n) n then spec_remove f n
      else fun k => if str_eqb k (str_lower n) then match f k with Some _ => Some None | None => None end else f k
  end.
Definition any_run (o : oracles_attr) (f : attr_map) (ops : list attr_op) : attr_map := fold_left (any_step o) ops f.

Lemma char_eqb_refl c : char_eqb c c = true.
Proof. apply N.eqb_refl. Qed.
Lemma quote_dec c : char_eqb c DQ || char_eqb c SQ = true -> c = DQ \/ c = SQ.
Proof. unfold char_eqb. intros H. apply Bool.orb_prop in H as [H|H]; apply N.eqb_eq in H; auto. Qed.
Lemma loop_found o v : forall s, q_find s = true -> q_quote s = DQ \/ q_quote s = SQ ->
  q_content (fold_left (quote_step o) v s) = q_content s ++ flat_map (write_char o (q_quote s)) v.
Proof.
  induction v as [|c v IH]; intros s Hf Hq; cbn [fold_left flat_map]; [rewrite app_nil_r; reflexivity|].
  assert (E : q_find (quote_step o s c) = true /\ q_quote (quote_step o s c) = q_quote s /\
    q_content (quote_step o s c) = q_content s ++ write_char o (q_quote s) c).
  { unfold quote_step, write_char. rewrite Hf. destruct (char_eqb c DQ || char_eqb c SQ) eqn:Ec.
    - destruct (char_eqb (q_quote s) c) eqn:Es.
      + apply N.eqb_eq in Es. rewrite <- Es, char_eqb_refl. destruct (oa_encode o (q_quote s)); repeat split.
      + replace (char_eqb c (q_quote s)) with false by (symmetry; unfold char_eqb in *; rewrite N.eqb_sym; exact Es). repeat split.
    - replace (char_eqb c (q_quote s)) with false; [repeat split; exact Hf|]. symmetry. apply N.eqb_neq. intros ->.
      destruct Hq as [Hq|Hq]; rewrite Hq in Ec; discriminate. }
  destruct E as (E1 & E2 & E3). rewrite IH by (rewrite ?E2; assumption). rewrite E2, E3, <- app_assoc. reflexivity.
Qed.
Lemma loop_kept o v : forall s, q_find s = false -> q_quote s = DQ ->
  q_content (fold_left (quote_step o) v s) = q_content s ++ kept_value o v.
Proof.
  induction v as [|c v IH]; intros s Hf Hq; cbn [fold_left]; [symmetry; apply app_nil_r|].
  unfold kept_value. cbn [first_quote flat_map]. destruct (char_eqb c DQ || char_eqb c SQ) eqn:Ec.
  - assert (E : q_find (quote_step o s c) = true /\ q_quote (quote_step o s c) = other_quote c /\ q_content (quote_step o s c) = q_content s ++ [c]).
    { unfold quote_step. rewrite Ec, Hf. cbn. rewrite Hq. unfold other_quote. destruct (char_eqb c DQ); repeat split. }
    destruct E as (E1 & E2 & E3). rewrite loop_found; [|exact E1 | rewrite E2; unfold other_quote; destruct (char_eqb c DQ); auto].
    rewrite E2, E3, <- app_assoc. f_equal. unfold write_char at 2. replace (char_eqb c (other_quote c)) with false; [reflexivity|].
    unfold other_quote. destruct (quote_dec c Ec) as [-> | ->]; reflexivity.
  - assert (E : q_find (quote_step o s c) = false /\ q_quote (quote_step o s c) = DQ /\ q_content (quote_step o s c) = q_content s ++ [c]).
    { unfold quote_step. rewrite Ec. repeat split; assumption. }
    destruct E as (E1 & E2 & E3). rewrite (IH _ E1 E2), E3, <- app_assoc. f_equal. unfold kept_value.
    destruct (first_quote v) as [q|] eqn:Eq; [|reflexivity]. cbn [app]. unfold write_char at 2.
    replace (char_eqb c (other_quote q)) with false; [reflexivity|]. symmetry. apply N.eqb_neq. intros ->. unfold other_quote in Ec.
    destruct (char_eqb q DQ); discriminate.
Qed.
Lemma stored_kept o v : stored o v = match v with Some v => Some (kept_value o v) | None => None end.
Proof. destruct v as [v|]; [|reflexivity]. cbn. unfold quote_loop. rewrite loop_kept; reflexivity. Qed.

Lemma remove_other m name : MetaOk m -> str_lower name <> name ->
  exists m', remove_attribute m name = Ok m' /\ MetaOk m' /\ m_name m' = m_name m /\
    forall k, abs m' k = if str_eqb k (str_lower name) then match abs m k with Some _ => Some None | None => None end else abs m k.
Proof.
  intros [H1 H2] Hn. unfold remove_attribute.
  replace (match m_lc m with [] => None | _ :: _ => amap_get (m_lc m) (str_lower name) end)
    with (amap_get (m_lc m) (str_lower name)) by (destruct (m_lc m); reflexivity).
  destruct (amap_get (m_lc m) (str_lower name)) as [i|] eqn:E.
  - destruct (H1 _ _ E) as [_ Hi]. unfold rset.
    destruct (list_set_spec (m_attrs m) i attr_default Hi) as (r & Er & Hl & Hnth). rewrite Er. cbn [rbind].
    assert (Hr : forall k, amap_get (amap_remove (m_lc m) name) k = amap_get (m_lc m) k).
    { intros k. rewrite amap_get_remove. destruct (str_eqb k name) eqn:Ek; [|reflexivity]. apply str_eqb_spec in Ek. subst k.
      destruct (amap_get (m_lc m) name) as [j|] eqn:Ej; [|reflexivity]. destruct (H1 _ _ Ej). contradiction. }
    eexists; split; [reflexivity|]. split; [|split; [reflexivity|]].
    + split; cbn [m_lc m_attrs].
      * intros k j Hk. rewrite Hr in Hk. rewrite Hl. apply H1, Hk.
      * intros k k' j Hk Hk'. rewrite Hr in Hk, Hk'. eapply H2; eassumption.
    + intros k. unfold abs. cbn [m_lc m_attrs]. rewrite Hr.
      destruct (str_eqb k (str_lower name)) eqn:Ek.
      * apply str_eqb_spec in Ek. subst k. rewrite E, Hnth, Nat.eqb_refl.
        destruct (nth_error (m_attrs m) i) eqn:En; [reflexivity|]. apply nth_error_None in En. lia.
      * destruct (amap_get (m_lc m) k) as [j|] eqn:Ej; [|reflexivity]. rewrite Hnth.
        destruct (Nat.eqb_spec j i) as [->|Hne]; [|reflexivity].
        exfalso. rewrite (H2 _ _ _ Ej E), str_eqb_refl in Ek. discriminate.
  - exists m. split; [reflexivity|]. split; [split; assumption|]. split; [reflexivity|].
    intros k. destruct (str_eqb k (str_lower name)) eqn:Ek; [|reflexivity].
    apply str_eqb_spec in Ek. subst k. unfold abs. rewrite E. reflexivity.
Qed.
Lemma any_step_ok o m op : MetaOk m ->
  exists m', attr_step o m op = Ok m' /\ MetaOk m' /\ m_name m' = m_name m /\ forall k, abs m' k = any_step o (abs m) op k.
Proof.
  intros Hm. destruct op as [n v|n]; cbn [attr_step any_step].
  - destruct (set_attribute_ok o m n v Hm) as (m' & E & Hm' & Hnm & Ha).
    exists m'. repeat (split; [assumption|]). intros k. rewrite Ha, stored_kept. reflexivity.
  - destruct (str_eqb (str_lower n) n) eqn:En.
    + apply str_eqb_spec in En. destruct (remove_attribute_ok m n Hm En) as (m' & E & Hm' & Hnm & Ha).
      exists m'. repeat (split; [assumption|]). intros k. rewrite Ha. unfold spec_remove. rewrite En. reflexivity.
    + apply remove_other; [exact Hm|]. intros Hc. rewrite Hc, str_eqb_refl in En. discriminate.
Qed.
Lemma any_step_lower o f g op : (forall k, f (str_lower k) = g (str_lower k)) ->
  forall k, any_step o f op (str_lower k) = any_step o g op (str_lower k).
Proof.
  intros H k. destruct op as [n v|n]; cbn [any_step]; [unfold spec_set; destruct (str_eqb _ _); [reflexivity | apply H]|].
  destruct (str_eqb (str_lower n) n); unfold spec_remove; destruct (str_eqb (str_lower k) (str_lower n)); rewrite ?H; reflexivity.
Qed.

(** C18/C19, any arguments: after every history of calls on an element, every name is read, under every spelling, with exactly
    the value this map gives; no call fails. *)
Theorem C18_attr_history_any (o : oracles_attr) (m : meta) (f : attr_map) (ops : list attr_op) :
  MetaOk m -> Shows m f ->
  exists m', attr_run o m ops = Ok m' /\ MetaOk m' /\ Shows m' (any_run o f ops).
Proof.
  unfold attr_run, any_run. revert m f. induction ops as [|op ops IH]; intros m f Hm Hf; cbn [rfold fold_left].
  - exists m. auto.
  - destruct (any_step_ok o m op Hm) as (m1 & E1 & Hm1 & _ & Ha). rewrite E1. cbn [rbind]. apply IH; [exact Hm1|].
    eapply shows_ext; [|apply shows_abs, Hm1]. intros k. rewrite Ha. apply any_step_lower.
    apply (shows_unique m); [apply shows_abs, Hm | exact Hf].
Qed.
Print Assumptions C18_attr_history_any.

Lemma first_quote_none v : first_quote v = None <-> ~ In DQ v /\ ~ In SQ v.
Proof.
  induction v as [|c v IH]; cbn [first_quote]; [cbn; tauto|].
  destruct (char_eqb c DQ || char_eqb c SQ) eqn:Ec.
  - split; [discriminate|]. intros [H1 H2]. destruct (quote_dec c Ec) as [-> | ->]; exfalso; [apply H1 | apply H2]; left; reflexivity.
  - rewrite IH. cbn [In]. assert (c <> DQ /\ c <> SQ) by (split; intros ->; discriminate). tauto.
Qed.
Lemma first_quote_some v c : first_quote v = Some c -> In c v /\ (c = DQ \/ c = SQ).
Proof.
  induction v as [|d v IH]; cbn [first_quote]; [discriminate|]. destruct (char_eqb d DQ || char_eqb d SQ) eqn:Ed.
  - intros [= ->]. split; [left; reflexivity | apply quote_dec, Ed].
  - intros H. destruct (IH H). split; [right; assumption | assumption].
Qed.
Lemma write_without o q : (exists e, oa_encode o q = Some e /\ ~ In q e) -> forall v, ~ In q (flat_map (write_char o q) v).
Proof.
  intros (e & Ee & He) v Hin. apply in_flat_map in Hin as (c & _ & Hc). unfold write_char in Hc.
  destruct (char_eqb c q) eqn:Ec.
  - apply N.eqb_eq in Ec. subst c. rewrite Ee in Hc. contradiction.
  - destruct Hc as [-> | []]. rewrite char_eqb_refl in Ec. discriminate.
Qed.
Lemma kept_value_plain o v : EncoderOk o -> (kept_value o v = v <-> ~ MixedQuotes v).
Proof.
  intros Ho. split.
  - intros E [HD HS]. unfold kept_value in E. destruct (first_quote v) as [c|] eqn:Ec.
    + destruct (first_quote_some _ _ Ec) as [_ Hc].
      assert (Hq : other_quote c = DQ \/ other_quote c = SQ) by (unfold other_quote; destruct (char_eqb c DQ); auto).
      destruct (Ho _ Hq) as (e & Ee & N1 & N2).
      apply (write_without o (other_quote c) ltac:(exists e; split; [exact Ee | destruct Hq as [-> | ->]; assumption]) v).
      rewrite E. destruct Hq as [-> | ->]; assumption.
    + apply first_quote_none in Ec. tauto.
  - intros H. pose proof (quote_loop_plain o v H) as E. unfold quote_loop in E. rewrite loop_kept in E by reflexivity. exact E.
Qed.

(** C18: a value is read back as written exactly when it does not contain both kinds of quotes. *)
Theorem C18_attr_write_read_iff (o : oracles_attr) (m : meta) (name v : str) : EncoderOk o -> MetaOk m ->
  exists m', set_attribute o m name (Some v) = Ok m' /\
    ((exists q, get_attribute m' name = Ok (Some (AV v q))) <-> ~ MixedQuotes v).
Proof.
  intros Ho Hm. destruct (set_attribute_ok o m name (Some v) Hm) as (m' & E & Hm' & _ & Ha). exists m'. split; [exact E|].
  rewrite <- (kept_value_plain o v Ho). destruct (shows_abs m' Hm' name) as (a & Ea & Sa).
  rewrite Ha, str_eqb_refl, stored_kept in Sa. rewrite Ea. destruct a as [[w q|]|]; cbn in Sa; try discriminate. injection Sa as ->. split.
  - intros (q' & [= H _]). exact H.
  - intros ->. exists q. reflexivity.
Qed.
Print Assumptions C18_attr_write_read_iff.

(** C19: after a removal the attribute is absent exactly when it was absent before or its name was given in lower case; other
    attributes are read as before. *)
Theorem C19_attr_removal_iff (m : meta) (name : str) : MetaOk m ->
  exists m', remove_attribute m name = Ok m' /\ MetaOk m' /\
    (get_attribute m' name = Ok None <-> get_attribute m name = Ok None \/ str_lower name = name) /\
    (forall k, str_lower k <> str_lower name ->
       exists a a', get_attribute m k = Ok a /\ get_attribute m' k = Ok a' /\ seen a' = seen a).
Proof.
  intros Hm. destruct (any_step_ok ex_oracle m (OpRemove name) Hm) as (m' & E & Hm' & _ & Ha). cbn [attr_step] in E.
  exists m'. split; [exact E|]. split; [exact Hm'|]. split.
  - destruct (shows_abs m Hm name) as (a & Ea & Sa), (shows_abs m' Hm' name) as (a' & Ea' & Sa'). rewrite Ea, Ea'.
    rewrite Ha in Sa'. cbn [any_step] in Sa'. destruct (str_eqb (str_lower name) name) eqn:En.
    + apply str_eqb_spec in En. unfold spec_remove in Sa'. rewrite str_eqb_refl in Sa'.
      destruct a' as [[? ?|]|]; try discriminate. split; [intros _; right; exact En | reflexivity].
    + rewrite str_eqb_refl, <- Sa in Sa'.
      assert (Hne : str_lower name <> name) by (intros Hc; rewrite Hc, str_eqb_refl in En; discriminate).
      destruct a as [[? ?|]|], a' as [[? ?|]|]; cbn in Sa'; try discriminate;
        (split; [intros H; try discriminate H; left; reflexivity | intros [H|H]; [try discriminate H; reflexivity | contradiction]]).
  - intros k Hk. destruct (shows_abs m Hm k) as (a & Ea & Sa), (shows_abs m' Hm' k) as (a' & Ea' & Sa'). exists a, a'.
    split; [exact Ea|]. split; [exact Ea'|]. rewrite Sa, Sa', Ha. cbn [any_step].
    assert (Ek : str_eqb (str_lower k) (str_lower name) = false).
    { destruct (str_eqb (str_lower k) (str_lower name)) eqn:Ek; [|reflexivity]. apply str_eqb_spec in Ek. contradiction. }
    destruct (str_eqb (str_lower name) name); unfold spec_remove; rewrite Ek; reflexivity.
Qed.
Print Assumptions C19_attr_removal_iff.

(** C20: overwriting an attribute keeps its quote character; it stays well quoted exactly when it was quoted and the value as
    kept does not contain that character.  (The attributes at other places are untouched.) *)
Theorem C20_overwrite_iff (o : oracles_attr) (m : meta) (name v : str) (i : nat) (a : attr) :
  amap_get (m_lc m) (str_lower name) = Some i -> nth_error (m_attrs m) i = Some a ->
  exists m' a', set_attribute o m name (Some v) = Ok m' /\ nth_error (m_attrs m') i = Some a' /\
    (forall j, j <> i -> nth_error (m_attrs m') j = nth_error (m_attrs m) j) /\
    (QuoteSafe a' <-> exists q, a_quote a = Some q /\ ~ In q (kept_value o v)).
Proof.
  intros Hi Ha. unfold set_attribute. rewrite Hi. unfold rnth. rewrite Ha. cbn [rbind]. unfold rset.
  assert (Hl : i < length (m_attrs m)) by (apply nth_error_Some; congruence).
  set (a' := mkAttr _ _ _ _). destruct (list_set_spec (m_attrs m) i a' Hl) as (r & Er & _ & Hn). rewrite Er. cbn [rbind].
  eexists. exists a'. split; [reflexivity|]. cbn [m_attrs]. split; [rewrite Hn, Nat.eqb_refl; reflexivity|]. split.
  - intros j Hj. rewrite Hn. destruct (Nat.eqb_spec j i); [contradiction | reflexivity].
  - unfold QuoteSafe, a'. cbn [a_value a_quote]. unfold quote_loop. rewrite loop_kept by reflexivity. cbn [q_content app].
    destruct (a_quote a) as [q|].
    + split; [intros H; exists q; auto | intros (q' & [= <-] & H); exact H].
    + split; [intros [] | intros (q & H & _); discriminate].
Qed.
Print Assumptions C20_overwrite_iff.

(** C47, any arguments: every program of attribute calls on sets. *)
Definition any_set_step (o : oracles_attr) (F : id -> attr_map) (c : list id * attr_op) : id -> attr_map :=
  fun x => if in_dec Nat.eq_dec x (fst c) then any_step o (F x) (snd c) else F x.
Lemma kept_twice o op f k : any_step o (any_step o f op) op k = any_step o f op k.
Proof.
  destruct op as [n v|n]; cbn [any_step]; [unfold spec_set; destruct (str_eqb _ _); reflexivity|].
  destruct (str_eqb (str_lower n) n); unfold spec_remove; destruct (str_eqb k (str_lower n)); try reflexivity.
  destruct (f k); reflexivity.
Qed.
Lemma any_all_state oa op l : forall h F, AttrState h F ->
  exists h', on_all (fun m => attr_step oa m op) h l = Ok h' /\ AttrState h' (any_set_step oa F (l, op)).
Proof.
  induction l as [|x l IH]; intros h F HF.
  - exists h. split; [reflexivity|]. exact HF.
  - unfold on_all. cbn [rfold].
    assert (G : exists h1, on_meta h x (fun m => attr_step oa m op) = Ok h1 /\ AttrState h1 (any_set_step oa F ([x], op))).
    { unfold on_meta. destruct (n_meta (node_of h x)) as [m|] eqn:Em.
      - destruct (HF x m Em) as [Hm Hs]. destruct (any_step_ok oa m op Hm) as (m' & E & Hm' & _ & Ha). rewrite E. cbn [rbind].
        eexists. split; [reflexivity|].
        intros y my Ey. unfold any_set_step. cbn [fst snd]. destruct (Nat.eq_dec y x) as [-> | Hy].
        + destruct (lt_dec x (length h)) as [Hl | Hl]; [|rewrite node_beyond in Em by lia; discriminate].
          rewrite node_upd_same in Ey by exact Hl. cbn in Ey. injection Ey as <-. split; [exact Hm'|].
          destruct (in_dec Nat.eq_dec x [x]) as [_ | N]; [|exfalso; apply N; left; reflexivity].
          eapply shows_ext; [|apply shows_abs, Hm']. intros name. rewrite Ha. apply any_step_lower.
          apply (shows_unique m); [apply shows_abs, Hm | exact Hs].
        + rewrite node_upd_other in Ey by exact Hy. destruct (in_dec Nat.eq_dec y [x]) as [[N | []] | _]; [congruence | exact (HF y my Ey)].
      - exists h. split; [reflexivity|]. intros y my Ey. unfold any_set_step. cbn [fst snd].
        destruct (in_dec Nat.eq_dec y [x]) as [[<- | []] | _]; [congruence | exact (HF y my Ey)]. }
    destruct G as (h1 & E1 & H1). rewrite E1. cbn [rbind]. destruct (IH h1 _ H1) as (h' & E & H'). exists h'. split; [exact E|].
    intros y my Ey. destruct (H' y my Ey) as [Hm Hs]. split; [exact Hm|]. intros name. destruct (Hs name) as (a & Ea & Sa). exists a.
    split; [exact Ea|]. rewrite Sa. unfold any_set_step. cbn [fst snd].
    destruct (in_dec Nat.eq_dec y l) as [Hi | Hi], (in_dec Nat.eq_dec y [x]) as [Hj | Hj], (in_dec Nat.eq_dec y (x :: l)) as [Hk | Hk];
      cbn in *; try reflexivity; try apply kept_twice; exfalso; intuition.
Qed.
Theorem C47_attr_programs_any od oa parse h F prog : AttrState h F ->
  exists h', run_calls od oa parse h (map attr_call prog) = Ok h' /\ AttrState h' (fold_left (any_set_step oa) prog F) /\
    OnlyMeta h h' (concat (map fst prog)).
Proof.
  revert h F. induction prog as [|c prog IH]; intros h F HF.
  - exists h. split; [reflexivity|]. split; [exact HF|]. split; [reflexivity|]. split; [reflexivity|]. split; [intros y; repeat split|].
    split; [intros y m E Hm; exists m; split; [exact E | split; [exact Hm | reflexivity]] | intros y E; exact E].
  - destruct c as [l op]. destruct (any_all_state oa op l h F HF) as (h1 & E1 & H1).
    destruct (IH h1 _ H1) as (h' & E & H' & HO). exists h'. unfold run_calls. cbn [map rfold].
    assert (E1' : run_call od oa parse h (attr_call (l, op)) = Ok h1) by (destruct op; exact E1). rewrite E1'. cbn [rbind].
    split; [exact E|]. split; [exact H'|].
    assert (O1 : OnlyMeta h h1 l).
    { destruct op as [n v|n]; [exact (only_meta_all _ l (set_attribute_step oa n v) h h1 E1) | exact (only_meta_all _ l (remove_attribute_step n) h h1 E1)]. }
    destruct O1 as (L1 & A1 & B1 & C1 & D1), HO as (L2 & A2 & B2 & C2 & D2). cbn [map concat fst]. split; [congruence|]. split; [|split; [|split]].
    + intros y Hy. rewrite A2 by (intros N; apply Hy, in_or_app; right; exact N). apply A1. intros N. apply Hy, in_or_app. left. exact N.
    + intros y. destruct (B1 y) as (P1 & P2 & P3 & P4 & P5 & P6), (B2 y) as (Q1 & Q2 & Q3 & Q4 & Q5 & Q6). repeat split; congruence.
    + intros y m Em Hm. destruct (C1 y m Em Hm) as (m1 & Em1 & Hm1 & N1). destruct (C2 y m1 Em1 Hm1) as (m2 & Em2 & Hm2 & N2). exists m2.
      split; [exact Em2|]. split; [exact Hm2 | congruence].
    + intros y Ey. apply D2, D1, Ey.
Qed.
Print Assumptions C47_attr_programs_any.

(** A value with both quotes (the second kind is kept as an entity), a removal spelled [ID] (the attribute stays, without value),
    one spelled [class]. *)
Definition ex_any : list attr_op :=
  [OpSet (lit "title") (Some [97; SQ; DQ; SQ]%N); OpRemove (lit "ID"); OpRemove (lit "class")].
Example C18_any_ex : MetaOk ex_meta /\ EncoderOk ex_oracle /\ Shows ex_meta (abs ex_meta) /\
  map (any_run ex_oracle (abs ex_meta) ex_any) [lit "title"; lit "id"; lit "class"] =
    [Some (Some (97 :: SQ :: lit "&quot;" ++ [SQ])%N); Some None; None] /\
  kept_value ex_oracle [DQ; SQ] = DQ :: lit "&apos;" /\
  exists m', attr_run ex_oracle ex_meta ex_any = Ok m' /\ get_attribute m' (lit "Id") = Ok (Some ATrue).
Proof.
  split; [apply ex_meta_ok|]. split; [apply ex_oracle_ok|]. split; [apply shows_abs, ex_meta_ok|].
  split; [vm_compute; reflexivity|]. split; [vm_compute; reflexivity|]. eexists. split; vm_compute; reflexivity.
Qed.
Example C20_overwrite_ex : amap_get (m_lc ex_meta) (str_lower (lit "ID")) = Some 0 /\
  (exists a, nth_error (m_attrs ex_meta) 0 = Some a /\ a_quote a = Some DQ) /\
  ~ In DQ (kept_value ex_oracle (lit "it's")) /\ In DQ (kept_value ex_oracle [DQ]).
Proof.
  split; [reflexivity|]. split; [eexists; split; reflexivity|]. split; [vm_compute; intuition discriminate | left; reflexivity].
Qed.

(** C19: what removal stores, whatever the spelling of the name: the entry is emptied in its place, flag of the quotes
    included, and no other entry moves. *)
Theorem C19_removed_entry (m : meta) (name : str) (i : nat) :
  MetaOk m -> amap_get (m_lc m) (str_lower name) = Some i ->
  exists m' p a q, remove_attribute m name = Ok m' /\ m_attrs m = p ++ a :: q /\ length p = i /\
    m_attrs m' = p ++ mkAttr None None None false :: q /\ m_name m' = m_name m.
Proof.
  intros [H1 _] E. destruct (H1 _ _ E) as [_ Hi]. unfold remove_attribute.
  replace (match m_lc m with [] => None | _ :: _ => amap_get (m_lc m) (str_lower name) end)
    with (amap_get (m_lc m) (str_lower name)) by (destruct (m_lc m); reflexivity).
  rewrite E. unfold rset. destruct (nth_error (m_attrs m) i) as [a|] eqn:Ea; [|apply nth_error_None in Ea; lia].
  destruct (AttrMarkup.list_set_split _ _ _ attr_default Ea) as (p & q & Ep & Hp & Es). rewrite Es. cbn [rbind].
  eexists. exists p, a, q. split; [reflexivity|]. split; [exact Ep|]. split; [exact Hp|]. split; reflexivity.
Qed.
Print Assumptions C19_removed_entry.
Example C19_removed_ex : MetaOk ex_meta /\ amap_get (m_lc ex_meta) (str_lower (lit "ID")) = Some 0 /\
  exists m', remove_attribute ex_meta (lit "ID") = Ok m' /\ m_attrs m' <> m_attrs ex_meta /\ length (m_attrs m') = length (m_attrs ex_meta).
Proof.
  split; [apply ex_meta_ok|]. split; [reflexivity|]. eexists. split; [vm_compute; reflexivity|]. split; [vm_compute; discriminate | reflexivity].
Qed.
