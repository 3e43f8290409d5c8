From Verif Require Import Base Utils UtilsSpec UtilsProofs Attr AttrSpec AttrProofs ClassOps ClassSpec.

(** ** White space *)
Lemma ascii_ws_unicode c : is_ascii_ws c = true -> is_unicode_ws c = true.
Proof.
  unfold is_ascii_ws, is_unicode_ws. intros H.
  repeat (apply orb_true_iff in H as [H|H]); apply N.eqb_eq in H; subst c; reflexivity.
Qed.

(** ** Membership *)
Lemma list_contains_spec l x : list_contains l x = true <-> In x l.
Proof.
  unfold list_contains. rewrite existsb_exists. split.
  - intros (y & Hy & E). apply str_eqb_spec in E. subst y. exact Hy.
  - intros H. exists x. split; [exact H | apply str_eqb_refl].
Qed.

Lemma list_contains_false l x : list_contains l x = false <-> ~ In x l.
Proof.
  rewrite <- list_contains_spec. destruct (list_contains l x); split; intros H; try discriminate; try reflexivity.
  exfalso; apply H; reflexivity.
Qed.

(** ** push_new *)
Lemma push_new_spec names : forall orig,
  exists added, push_new orig names = orig ++ added /\
    incl added names /\ (forall c, In c names -> In c (push_new orig names)) /\
    (forall c, In c added -> ~ In c orig) /\ NoDup added.
Proof.
  unfold push_new. induction names as [|n names IH]; intros orig; cbn [fold_left].
  - exists []. rewrite app_nil_r. repeat split; try (intros ? []); constructor.
  - destruct (list_contains orig n) eqn:E.
    + destruct (IH orig) as (added & E1 & H1 & H2 & H3 & H4). exists added.
      split; [exact E1|]. split; [intros c Hc; right; apply H1, Hc|].
      split; [|split; assumption]. intros c [<-|Hc]; [|apply H2, Hc].
      rewrite E1. apply in_or_app. left. apply list_contains_spec, E.
    + destruct (IH (orig ++ [n])) as (added & E1 & H1 & H2 & H3 & H4).
      apply list_contains_false in E. exists (n :: added). rewrite <- app_assoc in E1. cbn in E1.
      split; [exact E1|]. split; [intros c [<-|Hc]; [left; reflexivity | right; apply H1, Hc]|].
      split; [|split].
      * intros c [<-|Hc]; [|apply H2, Hc]. rewrite E1. apply in_or_app. right. left. reflexivity.
      * intros c [<-|Hc]; [exact E|]. intros Hin. apply (H3 c Hc). apply in_or_app. left. exact Hin.
      * constructor; [|exact H4]. intros Hin. apply (H3 n Hin). apply in_or_app. right. left. reflexivity.
Qed.

(** ** Positions *)
Lemma position_none x l : position x l = None <-> ~ In x l.
Proof.
  induction l as [|y l IH]; cbn; [tauto|].
  destruct (str_eqb y x) eqn:E.
  - apply str_eqb_spec in E. subst y. split; [discriminate | intros H; exfalso; apply H; left; reflexivity].
  - destruct (position x l) as [i|] eqn:Ep.
    + split; [discriminate|]. intros H. destruct IH as [_ IH].
      discriminate IH. intros Hin. apply H. right. exact Hin.
    + split; [|reflexivity]. intros _ [->|Hin]; [rewrite str_eqb_refl in E; discriminate|].
      apply IH in Hin; [exact Hin | reflexivity].
Qed.

Lemma position_app x pre suf : ~ In x pre ->
  position x (pre ++ suf) = match position x suf with Some i => Some (length pre + i) | None => None end.
Proof.
  induction pre as [|y pre IH]; intros H; cbn.
  - destruct (position x suf); reflexivity.
  - destruct (str_eqb y x) eqn:E.
    + apply str_eqb_spec in E. subst y. exfalso. apply H. left. reflexivity.
    + rewrite IH by (intros Hin; apply H; right; exact Hin).
      destruct (position x suf); reflexivity.
Qed.

(** Positions (from [lo]) of the elements satisfying [P]. *)
Fixpoint idx_of {A} (P : A -> bool) (lo : nat) (l : list A) : list nat :=
  match l with
  | [] => []
  | x :: l' => if P x then lo :: idx_of P (S lo) l' else idx_of P (S lo) l'
  end.

Lemma idx_of_bound {A} (P : A -> bool) l : forall lo, Forall (fun i => lo <= i < lo + length l) (idx_of P lo l).
Proof.
  induction l as [|x l IH]; intros lo; cbn; [constructor|].
  destruct (P x).
  - constructor; [lia|]. eapply Forall_impl; [|apply IH]. cbn. intros; lia.
  - eapply Forall_impl; [|apply IH]. cbn. intros; lia.
Qed.

Lemma idx_of_incr {A} (P : A -> bool) l : forall lo, StrictIncr (idx_of P lo l).
Proof.
  induction l as [|x l IH]; intros lo; cbn; [exact I|].
  destruct (P x); [|apply IH]. cbn. split; [|apply IH].
  pose proof (idx_of_bound P l (S lo)) as Hb.
  destruct (idx_of P (S lo) l); [exact I|]. inversion Hb; subst. lia.
Qed.

Lemma drop_positions_ext {A} (l : list A) : forall lo idx idx',
  (forall i, lo <= i < lo + length l -> In i idx <-> In i idx') ->
  drop_positions_from lo l idx = drop_positions_from lo l idx'.
Proof.
  induction l as [|x l IH]; intros lo idx idx' H; cbn; [reflexivity|].
  assert (E : existsb (Nat.eqb lo) idx = existsb (Nat.eqb lo) idx').
  { apply eq_true_iff_eq. rewrite !existsb_exists.
    assert (HH := H lo ltac:(cbn; lia)).
    split; intros (k & Hk & Ek); apply Nat.eqb_eq in Ek; subst k; exists lo;
      (split; [tauto | apply Nat.eqb_refl]). }
  rewrite E. rewrite (IH (S lo) idx idx'); [reflexivity|]. intros i Hi. apply H. cbn. lia.
Qed.

Lemma drop_idx_of {A} (P : A -> bool) l : forall lo,
  drop_positions_from lo l (idx_of P lo l) = filter (fun x => negb (P x)) l.
Proof.
  induction l as [|x l IH]; intros lo; [reflexivity|].
  cbn [drop_positions_from idx_of filter].
  destruct (P x) eqn:E; cbn [negb].
  - cbn [existsb]. rewrite Nat.eqb_refl. cbn [orb]. rewrite <- (IH (S lo)).
    apply drop_positions_ext. intros i Hi. cbn. split; [intros [->|H]; [lia | exact H] | intros H; right; exact H].
  - destruct (existsb (Nat.eqb lo) (idx_of P (S lo) l)) eqn:Ee.
    + apply existsb_exists in Ee as (k & Hk & Ek). apply Nat.eqb_eq in Ek. subst k.
      pose proof (idx_of_bound P l (S lo)) as Hb. rewrite Forall_forall in Hb. specialize (Hb _ Hk). lia.
    + rewrite IH. reflexivity.
Qed.

Lemma removed_positions_filter orig names :
  removed_positions orig names =
  removed_positions orig (filter (fun n => if in_dec str_dec n orig then true else false) names).
Proof.
  induction names as [|n names IH]; cbn; [reflexivity|].
  destruct (in_dec str_dec n orig) as [Hin|Hn]; cbn.
  - rewrite IH. reflexivity.
  - rewrite (proj2 (position_none n orig) Hn). exact IH.
Qed.

Lemma removed_positions_idx P suf : forall pre,
  NoDup (pre ++ suf) ->
  removed_positions (pre ++ suf) (filter P suf) = idx_of P (length pre) suf.
Proof.
  induction suf as [|x suf IH]; intros pre Hnd; cbn [filter idx_of]; [reflexivity|].
  assert (Hx : ~ In x pre).
  { intros Hin. apply NoDup_remove_2 in Hnd. apply Hnd. apply in_or_app. left. exact Hin. }
  assert (IHx : removed_positions (pre ++ x :: suf) (filter P suf) = idx_of P (S (length pre)) suf).
  { specialize (IH (pre ++ [x])). rewrite <- app_assoc in IH. cbn [app] in IH.
    rewrite app_length in IH. cbn [length] in IH. rewrite Nat.add_1_r in IH. apply IH, Hnd. }
  destruct (P x); [|exact IHx].
  cbn [removed_positions]. rewrite position_app by exact Hx. cbn. rewrite str_eqb_refl.
  rewrite Nat.add_0_r. rewrite IHx. reflexivity.
Qed.

Lemma remove_spec orig names :
  NoDup orig -> SameOrder orig names ->
  retain_by_index orig (removed_positions orig names) =
  Ok (filter (fun c => if in_dec str_dec c names then false else true) orig).
Proof.
  intros Hnd Hso. rewrite removed_positions_filter. unfold SameOrder in Hso. rewrite Hso.
  set (P := fun c => if in_dec str_dec c names then true else false).
  pose proof (removed_positions_idx P orig [] Hnd) as E. cbn [app length] in E. rewrite E.
  rewrite retain_by_index_spec.
  - unfold drop_positions. rewrite drop_idx_of. f_equal. apply filter_ext. intros c. unfold P.
    destruct (in_dec str_dec c names); reflexivity.
  - apply idx_of_incr.
  - eapply Forall_impl; [|apply idx_of_bound]. cbn. intros; lia.
Qed.

Lemma removed_nil orig names :
  removed_positions orig names = [] -> forall n, In n names -> ~ In n orig.
Proof.
  induction names as [|n names IH]; cbn; intros H x Hx; [destruct Hx|].
  destruct (position n orig) eqn:E; [discriminate|].
  destruct Hx as [<-|Hx]; [apply position_none, E | apply IH; assumption].
Qed.

(** ** trimming does not change the words *)
Lemma words_drop_ws s l : Words s l -> (forall c, In c s -> is_unicode_ws c = true -> is_ascii_ws c = true) ->
  Words (drop_ws s) l.
Proof.
  intros Hw Hs. rewrite <- (get_class_list_words _ _ Hw). clear Hw l.
  induction s as [|c s IH]; [apply get_class_list_spec|].
  cbn [drop_ws]. destruct (is_unicode_ws c) eqn:E.
  - unfold get_class_list. cbn. rewrite (Hs c (or_introl eq_refl) E). apply IH.
    intros d Hd. apply Hs. right. exact Hd.
  - apply get_class_list_spec.
Qed.

Lemma get_class_list_trailing s c : is_ascii_ws c = true -> get_class_list (s ++ [c]) = get_class_list s.
Proof.
  intros Hc. unfold get_class_list.
  assert (H : forall acc name pw, (pw = true -> name = []) ->
              class_loop (s ++ [c]) acc name pw = class_loop s acc name pw).
  { induction s as [|d s IH]; intros acc name pw Hp; cbn.
    - rewrite Hc. destruct pw; reflexivity.
    - destruct (is_ascii_ws d).
      + destruct pw; apply IH; [exact Hp | reflexivity].
      + apply IH. discriminate. }
  apply H. reflexivity.
Qed.

Lemma get_class_list_drop_tail s :
  (forall c, In c s -> is_unicode_ws c = true -> is_ascii_ws c = true) ->
  get_class_list (rev (drop_ws (rev s))) = get_class_list s.
Proof.
  induction s as [|c s IH] using rev_ind; intros H; [reflexivity|].
  rewrite rev_unit. cbn [drop_ws]. destruct (is_unicode_ws c) eqn:E.
  - rewrite get_class_list_trailing.
    + apply IH. intros d Hd. apply H. apply in_or_app. left. exact Hd.
    + apply H; [apply in_or_app; right; left; reflexivity | exact E].
  - rewrite <- rev_unit, rev_involutive. reflexivity.
Qed.

Lemma drop_ws_in c s : In c (drop_ws s) -> In c s.
Proof.
  induction s as [|d s IH]; cbn; [tauto|]. destruct (is_unicode_ws d); [intros H; right; apply IH, H | tauto].
Qed.

Definition AsciiSpaced (s : str) : Prop := forall c, In c s -> is_unicode_ws c = true -> is_ascii_ws c = true.

Lemma get_class_list_trim s : AsciiSpaced s -> get_class_list (trim s) = get_class_list s.
Proof.
  intros H. unfold trim. rewrite get_class_list_drop_tail.
  - apply get_class_list_words, words_drop_ws; [apply get_class_list_spec | exact H].
  - intros c Hc. apply H. apply drop_ws_in, Hc.
Qed.

(** Quotes in a class text come from the names. *)
Lemma in_words_concat s l c : Words s l -> is_ascii_ws c = false -> In c s -> In c (concat l).
Proof.
  intros Hw Hc. induction Hw as [s Hb|b w Hb Hw|b w d s l Hb Hw Hd Hs IH]; intros Hin.
  - unfold Blank in Hb. rewrite Forall_forall in Hb. rewrite (Hb _ Hin) in Hc. discriminate.
  - apply in_app_or in Hin as [Hin|Hin].
    + unfold Blank in Hb. rewrite Forall_forall in Hb. rewrite (Hb _ Hin) in Hc. discriminate.
    + cbn. rewrite app_nil_r. exact Hin.
  - apply in_app_or in Hin as [Hin|Hin].
    + unfold Blank in Hb. rewrite Forall_forall in Hb. rewrite (Hb _ Hin) in Hc. discriminate.
    + cbn. apply in_or_app. apply in_app_or in Hin as [Hin|[->|Hin]]; [left; exact Hin | congruence | right; apply IH, Hin].
Qed.

Lemma in_concat_sub {A} (l l' : list (list A)) c : incl l l' -> In c (concat l) -> In c (concat l').
Proof.
  intros H Hin. apply in_concat in Hin as (x & Hx & Hc). apply in_concat. exists x. split; [apply H, Hx | exact Hc].
Qed.

Lemma nomix_words s l names old :
  Words s l -> incl l (names ++ old) -> NoMix names old -> ~ MixedQuotes s.
Proof.
  intros Hw Hi Hn [H1 H2]. apply Hn.
  assert (Hc : forall c, In c (concat l) -> In c (concat names ++ concat old)).
  { intros c Hc. rewrite <- concat_app. eapply in_concat_sub; eassumption. }
  split; apply Hc; (eapply in_words_concat; [exact Hw | reflexivity | assumption]).
Qed.

(** ** Writing the class attribute *)
Lemma set_class o m s l :
  MetaOk m -> Words s l -> ~ MixedQuotes s ->
  exists m', set_attribute o m ATTR_CLASS (Some s) = Ok m' /\ MetaOk m' /\
             HasClassValue m' l /\ SameOthers m m'.
Proof.
  intros Hm Hw Hq. destruct (set_attribute_ok o m ATTR_CLASS (Some s) Hm) as (m' & E & Hm' & _ & Ha).
  exists m'. split; [exact E|]. split; [exact Hm'|].
  unfold stored in Ha. rewrite quote_loop_plain in Ha by exact Hq.
  pose proof (shows_abs m Hm) as Hs. pose proof (shows_abs m' Hm') as Hs'. split.
  - destruct (Hs' CLASS) as (a & Ea & Sa). change (str_lower CLASS) with CLASS in Sa.
    rewrite Ha in Sa. cbn in Sa. destruct a as [[v q|]|]; cbn in Sa; try discriminate.
    injection Sa as ->. exists s, q. split; assumption.
  - intros name Hne. destruct (Hs name) as (a & Ea & Sa). destruct (Hs' name) as (a' & Ea' & Sa').
    exists a, a'. split; [exact Ea|]. split; [exact Ea'|].
    rewrite Ha in Sa'. destruct (str_eqb (str_lower name) (str_lower ATTR_CLASS)) eqn:En.
    + apply str_eqb_spec in En. exfalso. apply Hne. exact En.
    + rewrite <- Sa' in Sa. destruct a as [[? ?|]|], a' as [[? ?|]|]; cbn in Sa; try discriminate; try exact I.
      injection Sa. intros ->. reflexivity.
Qed.

Lemma same_others_refl m : MetaOk m -> SameOthers m m.
Proof.
  intros Hm name _. destruct (shows_abs m Hm name) as (a & Ea & _). exists a, a.
  split; [exact Ea|]. split; [exact Ea|]. destruct a as [[? ?|]|]; reflexivity || exact I.
Qed.

Lemma class_cases m old :
  HasClasses m old ->
  (exists v q, get_attribute m ATTR_CLASS = Ok (Some (AV v q)) /\ get_class_list v = old) \/
  ((get_attribute m ATTR_CLASS = Ok None \/ get_attribute m ATTR_CLASS = Ok (Some ATrue)) /\ old = []).
Proof.
  intros [(v & q & E & Hw)|H]; [left|right; exact H].
  exists v, q. split; [exact E | apply get_class_list_words, Hw].
Qed.

Lemma add_class_ok o m arg names old :
  MetaOk m -> Words arg names -> HasClasses m old -> NoMix names old ->
  exists m' added, add_class o m arg = Ok m' /\ MetaOk m' /\ SameOthers m m' /\
    HasClasses m' (old ++ added) /\
    incl added names /\ (forall c, In c names -> In c (old ++ added)) /\
    (forall c, In c added -> ~ In c old) /\
    (HasClassValue m old -> NoDup added).
Proof.
  intros Hm Hw Hold Hmix. unfold add_class. rewrite (get_class_list_words _ _ Hw).
  destruct names as [|n names'] eqn:En.
  - exists m, []. rewrite app_nil_r. split; [reflexivity|]. split; [exact Hm|].
    split; [apply same_others_refl, Hm|]. split; [exact Hold|].
    split; [intros ? []|]. split; [intros ? []|]. split; [intros ? []|]. intros _. constructor.
  - rewrite <- En in *. clear n names' En.
    destruct (class_cases _ _ Hold) as [(v & q & E & Ev)|[E ->]].
    + rewrite E. cbn [rbind]. rewrite Ev.
      destruct (push_new_spec names old) as (added & Ep & H1 & H2 & H3 & H4). rewrite Ep in *.
      assert (Hall : Forall Word (old ++ added)).
      { apply Forall_app; split.
        - rewrite <- Ev. eapply words_forall, get_class_list_spec.
        - apply words_forall in Hw. rewrite Forall_forall in Hw |- *. intros c Hc. apply Hw, H1, Hc. }
      pose proof (class_list_to_string_words _ Hall) as Hws.
      destruct (set_class o m _ _ Hm Hws) as (m' & E' & Hm' & Hc' & Ho').
      { eapply nomix_words; [exact Hws | | exact Hmix].
        intros c Hc. apply in_or_app. apply in_app_or in Hc as [Hc|Hc]; [right; exact Hc | left; apply H1, Hc]. }
      exists m', added. split; [exact E'|]. split; [exact Hm'|]. split; [exact Ho'|].
      split; [left; exact Hc'|]. split; [exact H1|]. split; [exact H2|]. split; [exact H3|]. intros _. exact H4.
    + replace (do cv <- get_attribute m ATTR_CLASS; match cv with
               | Some (AV cls _) => set_attribute o m ATTR_CLASS (Some (class_list_to_string (push_new (get_class_list cls) names)))
               | _ => set_attribute o m ATTR_CLASS (Some arg) end)
        with (set_attribute o m ATTR_CLASS (Some arg)) by (destruct E as [-> | ->]; reflexivity).
      destruct (set_class o m _ _ Hm Hw) as (m' & E' & Hm' & Hc' & Ho').
      { eapply nomix_words; [exact Hw | | exact Hmix]. apply incl_appl, incl_refl. }
      assert (Hset : forall X : res meta, X = Ok m' -> exists m'0 added : _, X = Ok m'0 /\ MetaOk m'0 /\ SameOthers m m'0 /\
        HasClasses m'0 ([] ++ added) /\ incl added names /\ (forall c, In c names -> In c ([] ++ added)) /\
        (forall c, In c added -> ~ In c []) /\ (HasClassValue m [] -> NoDup added)).
      { intros X ->. exists m', names. split; [reflexivity|]. split; [exact Hm'|]. split; [exact Ho'|].
        split; [left; exact Hc'|]. split; [apply incl_refl|]. split; [intros c Hc; exact Hc|].
        split; [intros c _ []|]. intros (v & q & Ev & _). change CLASS with ATTR_CLASS in Ev.
        destruct E as [E|E]; rewrite E in Ev; discriminate. }
      apply Hset. destruct E as [E|E]; rewrite E'; destruct names; reflexivity.
Qed.

Lemma trim_empty_words s l : AsciiSpaced s -> Words s l -> trim s = [] -> l = [].
Proof.
  intros Ha Hw Ht. rewrite <- (get_class_list_words _ _ Hw), <- get_class_list_trim, Ht by exact Ha. reflexivity.
Qed.

Lemma words_trim s l : AsciiSpaced s -> Words s l -> Words (trim s) l.
Proof.
  intros Ha Hw. rewrite <- (get_class_list_words _ _ Hw), <- get_class_list_trim by exact Ha.
  apply get_class_list_spec.
Qed.

Lemma remove_class_ok o m arg names old :
  MetaOk m -> AsciiSpaced arg -> Words arg names -> HasClasses m old -> NoDup old -> SameOrder old names ->
  NoMix [] old ->
  exists m', remove_class o m arg = Ok m' /\ MetaOk m' /\ SameOthers m m' /\
    HasClasses m' (filter (fun c => if in_dec str_dec c names then false else true) old).
Proof.
  intros Hm Ha Hw Hold Hnd Hso Hmix. unfold remove_class.
  pose proof (words_trim _ _ Ha Hw) as Hwt.
  assert (Hkeep : (forall c, In c names -> ~ In c old) ->
                  filter (fun c => if in_dec str_dec c names then false else true) old = old).
  { intros Hdis. clear - Hdis. induction old as [|c old IH]; cbn; [reflexivity|].
    destruct (in_dec str_dec c names) as [Hin|_].
    - exfalso. apply (Hdis c Hin). left. reflexivity.
    - rewrite IH; [reflexivity|]. intros d Hd Hin. apply (Hdis d Hd). right. exact Hin. }
  destruct (trim arg) as [|c0 t0] eqn:Et.
  - exists m. split; [reflexivity|]. split; [exact Hm|]. split; [apply same_others_refl, Hm|].
    assert (names = []) by (eapply trim_empty_words; eassumption). subst names.
    rewrite Hkeep; [exact Hold | intros ? []].
  - rewrite (get_class_list_words _ _ Hwt).
    destruct (class_cases _ _ Hold) as [(v & q & E & Ev)|[E ->]].
    + rewrite E. cbn [rbind]. rewrite Ev.
      destruct (removed_positions old names) as [|i0 is0] eqn:Er.
      * exists m. split; [reflexivity|]. split; [exact Hm|]. split; [apply same_others_refl, Hm|].
        rewrite Hkeep; [exact Hold | apply removed_nil, Er].
      * rewrite <- Er, (remove_spec old names Hnd Hso). cbn [rbind].
        set (l := filter _ old).
        assert (Hincl : incl l old) by (intros c Hc; apply filter_In in Hc; tauto).
        assert (Hall : Forall Word l).
        { assert (Ho : Forall Word old) by (rewrite <- Ev; eapply words_forall, get_class_list_spec).
          rewrite Forall_forall in Ho |- *. intros c Hc. apply Ho, Hincl, Hc. }
        pose proof (class_list_to_string_words _ Hall) as Hws.
        destruct (set_class o m _ _ Hm Hws) as (m' & E' & Hm' & Hc' & Ho').
        { eapply nomix_words; [exact Hws | | exact Hmix]. exact Hincl. }
        exists m'. split; [exact E'|]. split; [exact Hm'|]. split; [exact Ho'|]. left. exact Hc'.
    + exists m. split; [destruct E as [-> | ->]; reflexivity|]. split; [exact Hm|].
      split; [apply same_others_refl, Hm|]. exact Hold.
Qed.

Lemma toggle_class_ok o m arg names old :
  MetaOk m -> AsciiSpaced arg -> Words arg names -> HasClasses m old -> NoDup old -> SameOrder old names ->
  NoMix names old ->
  exists m', toggle_class o m arg = Ok m' /\ MetaOk m' /\ SameOthers m m' /\
    HasClasses m' (filter (fun c => if in_dec str_dec c names then false else true) old ++
                   filter (fun c => if in_dec str_dec c old then false else true) names).
Proof.
  intros Hm Ha Hw Hold Hnd Hso Hmix. unfold toggle_class.
  pose proof (words_trim _ _ Ha Hw) as Hwt.
  destruct (trim arg) as [|c0 t0] eqn:Et.
  - exists m. split; [reflexivity|]. split; [exact Hm|]. split; [apply same_others_refl, Hm|].
    assert (names = []) by (eapply trim_empty_words; eassumption). subst names. cbn. rewrite app_nil_r.
    replace (filter _ old) with old; [exact Hold|].
    clear. induction old as [|c old IH]; cbn; [reflexivity | rewrite <- IH; reflexivity].
  - rewrite (get_class_list_words _ _ Hwt).
    destruct (class_cases _ _ Hold) as [(v & q & E & Ev)|[E ->]].
    + rewrite E. cbn [rbind]. rewrite Ev.
      assert (Eadd : filter (fun n => negb (match position n old with Some _ => true | None => false end)) names =
                     filter (fun c => if in_dec str_dec c old then false else true) names).
      { apply filter_ext. intros c. pose proof (position_none c old) as Hp.
        destruct (position c old) eqn:Ep, (in_dec str_dec c old) as [Hin|Hn]; try reflexivity.
        - apply Hp in Hn. discriminate.
        - exfalso. apply Hp; [reflexivity | exact Hin]. }
      rewrite Eadd. set (added := filter _ names).
      set (kept := filter (fun c => if in_dec str_dec c names then false else true) old).
      assert (Ek : (match removed_positions old names with [] => Ok old | _ => retain_by_index old (removed_positions old names) end)
                   = Ok kept).
      { destruct (removed_positions old names) as [|i is] eqn:Er.
        - f_equal. pose proof (removed_nil _ _ Er) as Hdis. subst kept. clear - Hdis.
          induction old as [|c old IH]; cbn; [reflexivity|].
          destruct (in_dec str_dec c names) as [Hin|_].
          + exfalso. apply (Hdis c Hin). left. reflexivity.
          + rewrite <- IH; [reflexivity|]. intros d Hd Hin. apply (Hdis d Hd). right. exact Hin.
        - rewrite <- Er. apply remove_spec; assumption. }
      assert (Hincl : incl (kept ++ added) (names ++ old)).
      { intros c Hc. apply in_or_app. apply in_app_or in Hc as [Hc|Hc]; apply filter_In in Hc; tauto. }
      assert (Hall : Forall Word (kept ++ added)).
      { assert (Ho : Forall Word old) by (rewrite <- Ev; eapply words_forall, get_class_list_spec).
        apply words_forall in Hw. rewrite Forall_forall in Ho, Hw |- *. intros c Hc.
        apply Hincl, in_app_or in Hc as [Hc|Hc]; [apply Hw, Hc | apply Ho, Hc]. }
      pose proof (class_list_to_string_words _ Hall) as Hws.
      destruct (set_class o m _ _ Hm Hws) as (m' & E' & Hm' & Hc' & Ho').
      { eapply nomix_words; [exact Hws | exact Hincl | exact Hmix]. }
      destruct (removed_positions old names) as [|i is] eqn:Er; [destruct added as [|a0 as0] eqn:Ea|].
      * exists m. split; [reflexivity|]. split; [exact Hm|]. split; [apply same_others_refl, Hm|].
        rewrite app_nil_r. injection Ek as Ek. rewrite <- Ek. exact Hold.
      * exists m'. split; [injection Ek as Ek; cbn [rbind]; rewrite Ek; exact E'|]. split; [exact Hm'|]. split; [exact Ho'|]. left. exact Hc'.
      * exists m'. split; [rewrite Ek; exact E'|]. split; [exact Hm'|]. split; [exact Ho'|]. left. exact Hc'.
    + destruct (set_class o m _ _ Hm Hwt) as (m' & E' & Hm' & Hc' & Ho').
      { eapply nomix_words; [exact Hwt | | exact Hmix]. apply incl_appl, incl_refl. }
      exists m'. split; [destruct E as [-> | ->]; exact E'|]. split; [exact Hm'|]. split; [exact Ho'|].
      cbn. replace (filter _ names) with names; [left; exact Hc'|].
      clear. induction names as [|c names IH]; cbn; [reflexivity | rewrite <- IH; reflexivity].
Qed.

Lemma has_class_ok m arg names old :
  AsciiSpaced arg -> Words arg names -> HasClasses m old ->
  exists b, has_class m arg = Ok b /\ (b = true <-> names <> [] /\ incl names old).
Proof.
  intros Ha Hw Hold. unfold has_class. pose proof (words_trim _ _ Ha Hw) as Hwt.
  destruct (trim arg) as [|c0 t0] eqn:Et.
  - exists false. split; [reflexivity|]. split; [discriminate|]. intros [Hne _]. exfalso. apply Hne.
    eapply trim_empty_words; eassumption.
  - assert (Hne : names <> []).
    { intros ->. inversion Hwt as [s Hb| |]; subst.
      inversion Hb as [|? ? Hc0 Hb']; subst. apply ascii_ws_unicode in Hc0.
      (* the last character of a trimmed string is not white space *)
      assert (Hl : forall s, Forall (fun c => is_ascii_ws c = true) s -> drop_ws s = []).
      { induction 1 as [|c s Hc Hs IHs]; cbn; [reflexivity|]. rewrite (ascii_ws_unicode _ Hc). exact IHs. }
      pose proof (words_drop_ws arg [] Hw Ha) as Hd.
      unfold trim in Et. inversion Hw as [s Hb0| |]; subst. rewrite (Hl _ Hb0) in Et. discriminate. }
    rewrite (get_class_list_words _ _ Hwt).
    destruct (class_cases _ _ Hold) as [(v & q & E & Ev)|[E ->]].
    + rewrite E. cbn [rbind]. rewrite Ev. eexists. split; [reflexivity|].
      rewrite forallb_forall. split.
      * intros H. split; [exact Hne|]. intros c Hc. apply list_contains_spec, H, Hc.
      * intros [_ H] c Hc. apply list_contains_spec, H, Hc.
    + exists false. split; [destruct E as [-> | ->]; reflexivity|]. split; [discriminate|].
      intros [_ H]. destruct names as [|n names]; [congruence|]. destruct (H n (or_introl eq_refl)).
Qed.
