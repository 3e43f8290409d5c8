(** Property theorems: removing and toggling classes when the class list may repeat names (C16): exactly when the calls panic, and
    what they leave when the names come in the order of their first places. *)
From Coq Require Import Sorted.
From Verif Require Import Base Utils UtilsSpec UtilsProofs Attr AttrSpec AttrProofs ClassOps ClassSpec ClassProofs ClassExact PropsAttr.

(** The first place of a name in a class list. *)
Definition FirstAt (old : list str) (n : str) (i : nat) : Prop :=
  nth_error old i = Some n /\ forall k, k < i -> nth_error old k <> Some n.
(** The names given that are in the class list. *)
Definition found (old names : list str) : list str := filter (fun n => if in_dec str_dec n old then true else false) names.
(** Some name found comes after more names than there are classes before its first place. *)
Definition TooSoon (old names : list str) : Prop :=
  exists j n i, nth_error (found old names) j = Some n /\ FirstAt old n i /\ i < j.
(** The names found come in the order of their first places. *)
Definition FirstOrder (old names : list str) : Prop :=
  exists ps, Forall2 (FirstAt old) (found old names) ps /\ StronglySorted lt ps.
(** A list without the first occurrence of [n]. *)
Fixpoint remove_first (n : str) (l : list str) : list str :=
  match l with
  | [] => []
  | c :: l' => if str_dec c n then l' else c :: remove_first n l'
  end.
Definition remove_firsts (names old : list str) : list str := fold_left (fun l n => remove_first n l) names old.

Lemma position_first n old : forall i, position n old = Some i <-> FirstAt old n i.
Proof.
  induction old as [|c old IH]; intros i; cbn [position].
  - split; [discriminate | intros [H _]; destruct i; discriminate].
  - destruct (str_eqb c n) eqn:E.
    + apply str_eqb_spec in E as ->. split.
      * intros [= <-]. split; [reflexivity | intros k Hk; lia].
      * intros [H1 H2]. destruct i as [|i]; [reflexivity|]. exfalso. exact (H2 0 ltac:(lia) eq_refl).
    + assert (Hn : c <> n) by (intros ->; rewrite str_eqb_refl in E; discriminate).
      destruct (position n old) as [p|] eqn:Ep.
      * destruct (proj1 (IH p) eq_refl) as [P1 P2]. split.
        -- intros [= <-]. split; [exact P1|]. intros [|k] Hk; cbn; [congruence | apply P2; lia].
        -- intros [H1 H2]. destruct i as [|i]; [cbn in H1; congruence|].
           assert (Hi : Some p = Some i); [|injection Hi as ->; reflexivity].
           apply IH. split; [exact H1|]. intros k Hk. exact (H2 (S k) ltac:(lia)).
      * split; [discriminate|]. intros [H1 H2]. destruct i as [|i]; [cbn in H1; congruence|].
        exfalso. assert (Hi : None = Some i); [|discriminate]. apply IH. split; [exact H1|].
        intros k Hk. exact (H2 (S k) ltac:(lia)).
Qed.
Lemma positions_found old names : Forall2 (FirstAt old) (found old names) (removed_positions old names).
Proof.
  induction names as [|n names IH]; [constructor|]. unfold found. cbn [filter removed_positions].
  destruct (position n old) as [i|] eqn:E.
  - destruct (in_dec str_dec n old) as [_|Hn].
    + constructor; [apply position_first, E | exact IH].
    + apply position_none in Hn. congruence.
  - destruct (in_dec str_dec n old) as [Hi|_]; [|exact IH].
    apply position_none in E. contradiction.
Qed.
Lemma first_fun old n i j : FirstAt old n i -> FirstAt old n j -> i = j.
Proof. intros H1 H2. apply position_first in H1, H2. congruence. Qed.

(** Reading the list of positions. *)
Lemma forall2_nth {A B} (R : A -> B -> Prop) la lb : Forall2 R la lb ->
  forall j x, nth_error la j = Some x -> exists y, nth_error lb j = Some y /\ R x y.
Proof.
  induction 1 as [|a b la lb H H2 IH]; intros [|j] x E; try discriminate.
  - injection E as <-. exists b. auto.
  - exact (IH j x E).
Qed.
Lemma forall2_nth_r {A B} (R : A -> B -> Prop) la lb : Forall2 R la lb ->
  forall j y, nth_error lb j = Some y -> exists x, nth_error la j = Some x /\ R x y.
Proof.
  induction 1 as [|a b la lb H H2 IH]; intros [|j] y E; try discriminate.
  - injection E as <-. exists a. auto.
  - exact (IH j y E).
Qed.

Lemma vec_remove_in {A} (v : list A) : forall k, k < length v -> exists l, vec_remove v k = Ok l /\ S (length l) = length v.
Proof.
  induction v as [|x v IH]; intros k Hk; cbn in Hk; [lia|]. destruct k as [|k]; cbn.
  - exists v. auto.
  - destruct (IH k ltac:(lia)) as (l & -> & El). exists (x :: l). cbn. auto.
Qed.
Lemma retain_outcome {A} p : forall (v : list A) i, Forall (fun x => x < length v + i) p ->
  (retain_loop v p i = Panic <-> exists j x, nth_error p j = Some x /\ x < i + j) /\ retain_loop v p i <> OutOfFuel.
Proof.
  induction p as [|x p IH]; intros v i Hp; cbn [retain_loop].
  - split; [|discriminate]. split; [discriminate|]. intros ([|j] & x & E & _); discriminate.
  - inversion Hp as [|? ? Hx Hp']; subst. unfold rsub. destruct (i <=? x) eqn:E.
    + apply Nat.leb_le in E. cbn [rbind]. destruct (vec_remove_in v (x - i) ltac:(lia)) as (v' & -> & El). cbn [rbind].
      destruct (IH v' (S i)) as [H1 H2]. { eapply Forall_impl; [|exact Hp']. cbn. intros; lia. }
      split; [|exact H2]. rewrite H1. split.
      * intros (j & y & Ey & Hy). exists (S j), y. split; [exact Ey | lia].
      * intros ([|j] & y & Ey & Hy); [injection Ey as <-; lia|]. exists j, y. split; [exact Ey | lia].
    + apply Nat.leb_gt in E. cbn [rbind]. split; [|discriminate]. split; [|reflexivity]. intros _. exists 0, x.
      split; [reflexivity | lia].
Qed.
Lemma positions_bound old names : Forall (fun x => x < length old + 0) (removed_positions old names).
Proof.
  pose proof (positions_found old names) as H. induction H as [|n i ns ps [Hi _] _ IH]; constructor; [|exact IH].
  apply (proj1 (nth_error_Some old i)) in Hi || (assert (Hs : nth_error old i <> None) by congruence; apply nth_error_Some in Hs; lia).
Qed.
Lemma retain_too_soon old names :
  (retain_by_index old (removed_positions old names) = Panic <-> TooSoon old names) /\
  retain_by_index old (removed_positions old names) <> OutOfFuel.
Proof.
  destruct (retain_outcome _ old 0 (positions_bound old names)) as [H1 H2]. split; [|exact H2]. unfold retain_by_index.
  rewrite H1. split.
  - intros (j & x & E & Hx). destruct (forall2_nth_r _ _ _ (positions_found old names) j x E) as (n & En & Hn).
    exists j, n, x. auto.
  - intros (j & n & i & En & Hn & Hi). destruct (forall2_nth _ _ _ (positions_found old names) j n En) as (y & Ey & Hy).
    rewrite (first_fun _ _ _ _ Hy Hn) in Ey. exists j, i. auto.
Qed.

Lemma remove_first_app n a b : ~ In n a -> remove_first n (a ++ b) = a ++ remove_first n b.
Proof.
  induction a as [|c a IH]; intros H; cbn; [reflexivity|]. destruct (str_dec c n) as [->|_]; [exfalso; apply H; left; reflexivity|].
  rewrite IH; [reflexivity|]. intros Hi. apply H. right. exact Hi.
Qed.
Lemma remove_first_none n l : ~ In n l -> remove_first n l = l.
Proof. intros H. rewrite <- (app_nil_r l) at 1. rewrite remove_first_app by exact H. cbn. apply app_nil_r. Qed.
Lemma remove_first_incl n l : incl (remove_first n l) l.
Proof.
  induction l as [|c l IH]; cbn; [apply incl_refl|]. destruct (str_dec c n).
  - apply incl_tl, incl_refl.
  - apply incl_cons; [left; reflexivity | apply incl_tl, IH].
Qed.
Lemma remove_firsts_incl names : forall old, incl (remove_firsts names old) old.
Proof.
  induction names as [|n names IH]; intros old; cbn; [apply incl_refl|].
  eapply incl_tran; [apply IH | apply remove_first_incl].
Qed.
Lemma remove_firsts_found names old : remove_firsts (found old names) old = remove_firsts names old.
Proof.
  assert (G : forall l, incl l old -> remove_firsts (found old names) l = remove_firsts names l); [|apply G, incl_refl].
  unfold remove_firsts, found. induction names as [|n names IH]; intros l Hl; [reflexivity|]. cbn [filter fold_left].
  destruct (in_dec str_dec n old) as [Hi|Hn].
  - cbn [fold_left]. apply IH. eapply incl_tran; [apply remove_first_incl | exact Hl].
  - rewrite remove_first_none; [apply IH, Hl|]. intros Hi. apply Hn, Hl, Hi.
Qed.
Lemma skipn_first old n p q : FirstAt old n p -> q <= p ->
  exists mid, length mid = p - q /\ skipn q old = mid ++ n :: skipn (S p) old /\ ~ In n mid /\ ~ In n (firstn q old) /\
    firstn (S p) old = firstn q old ++ mid ++ [n].
Proof.
  intros [H1 H2] Hq. apply nth_error_split in H1 as (a & b & -> & <-).
  assert (Ha : ~ In n a).
  { intros Hi. apply In_nth_error in Hi as (k & Ek). assert (Hk : k < length a) by (apply nth_error_Some; congruence).
    apply (H2 k Hk). rewrite nth_error_app1 by exact Hk. exact Ek. }
  exists (skipn q a). split; [apply skipn_length|]. split; [|split; [|split]].
  - rewrite skipn_app. replace (q - length a) with 0 by lia. cbn [skipn]. f_equal. f_equal.
    clear. induction a as [|x a IH]; [reflexivity | exact IH].
  - intros Hi. apply Ha. rewrite <- (firstn_skipn q a). apply in_or_app. right. exact Hi.
  - rewrite firstn_app. replace (q - length a) with 0 by lia. cbn [firstn]. rewrite app_nil_r.
    intros Hi. apply Ha. rewrite <- (firstn_skipn q a). apply in_or_app. left. exact Hi.
  - rewrite !firstn_app. replace (q - length a) with 0 by lia. replace (S (length a) - length a) with 1 by lia.
    rewrite firstn_all2 by lia. cbn [firstn]. rewrite app_nil_r, app_assoc, firstn_skipn. reflexivity.
Qed.
Lemma retain_firsts old ns ps : Forall2 (FirstAt old) ns ps -> StronglySorted lt ps ->
  forall a q i, Forall (fun p => q <= p) ps -> length a + i = q -> incl a (firstn q old) ->
  retain_loop (a ++ skipn q old) ps i = Ok (remove_firsts ns (a ++ skipn q old)).
Proof.
  induction 1 as [|n p ns ps Hn Hns IH]; intros Hs a q i Hq Ha Hi; cbn [retain_loop]; [reflexivity|].
  apply StronglySorted_inv in Hs as [Hs Hlt]. inversion Hq as [|? ? Hqp Hq']; subst.
  destruct (skipn_first old n p _ Hn Hqp) as (mid & Lm & Es & Nm & Nf & Ef).
  unfold rsub. replace (i <=? p) with true by (symmetry; apply Nat.leb_le; lia). cbn [rbind].
  rewrite Es.
  assert (Ev : vec_remove (a ++ mid ++ n :: skipn (S p) old) (p - i) = Ok (a ++ mid ++ skipn (S p) old)).
  { rewrite !app_assoc. replace (p - i) with (length (a ++ mid)) by (rewrite app_length; lia).
    generalize (a ++ mid) as v. generalize (skipn (S p) old) as w. clear. intros w.
    induction v as [|x v IH]; cbn; [reflexivity|]. rewrite IH. reflexivity. }
  rewrite Ev. cbn [rbind]. unfold remove_firsts. cbn [fold_left].
  rewrite remove_first_app by (intros H; apply Nf, Hi, H). rewrite remove_first_app by exact Nm. cbn [remove_first].
  destruct (str_dec n n) as [_|C]; [|congruence]. rewrite app_assoc.
  apply (IH Hs (a ++ mid) (S p) (S i)).
  - eapply Forall_impl; [|exact Hlt]. cbn. intros; lia.
  - rewrite app_length. lia.
  - rewrite Ef. apply incl_app; [apply incl_appl; exact Hi | apply incl_appr, incl_appl, incl_refl].
Qed.
Lemma retain_first_order old names : FirstOrder old names ->
  retain_by_index old (removed_positions old names) = Ok (remove_firsts names old).
Proof.
  intros (ps & Hf & Hs).
  assert (E : removed_positions old names = ps).
  { pose proof (positions_found old names) as H. revert ps Hf Hs. induction H as [|n i ns is Hn _ IH]; intros ps Hf Hs.
    - inversion Hf. reflexivity.
    - inversion Hf as [|? p ? ps' Hp Hf']; subst. apply StronglySorted_inv in Hs as [Hs _].
      rewrite (first_fun _ _ _ _ Hn Hp), (IH ps' Hf' Hs). reflexivity. }
  rewrite E, <- remove_firsts_found. unfold retain_by_index.
  apply (retain_firsts old _ ps Hf Hs [] 0 0); [|reflexivity | intros x []].
  apply Forall_forall. intros; lia.
Qed.
Lemma same_order_first old names : NoDup old -> SameOrder old names -> FirstOrder old names.
Proof.
  intros Hn Hs. exists (removed_positions old names). split; [apply positions_found|].
  rewrite removed_positions_filter. unfold SameOrder in Hs. rewrite Hs.
  pose proof (removed_positions_idx (fun c => if in_dec str_dec c names then true else false) old [] Hn) as E. cbn [app length] in E.
  rewrite E. clear. generalize 0 as lo. induction old as [|c old IH]; intros lo; cbn [idx_of]; [constructor|].
  destruct (in_dec str_dec c names); [|apply IH]. constructor; [apply IH|].
  eapply Forall_impl; [|apply idx_of_bound]. cbn. intros; lia.
Qed.

Lemma too_soon_none old : forall names, (forall n, In n names -> ~ In n old) -> ~ TooSoon old names.
Proof.
  intros names H (j & n & i & E & _). apply nth_error_In in E. unfold found in E. apply filter_In in E as [E1 E2].
  destruct (in_dec str_dec n old) as [Hi|]; [exact (H n E1 Hi) | discriminate].
Qed.

(** C16, panics: [remove_class] panics exactly when some name found comes after more names than there are classes before its
    first place, whether or not names repeat. *)
Theorem C16_remove_class_panic_iff (o : oracles_attr) (m : meta) (arg : str) (names old : list str) :
  MetaOk m -> AsciiSpaced arg -> Words arg names -> HasClasses m old ->
  (remove_class o m arg = Panic <-> TooSoon old names) /\
  (~ TooSoon old names -> exists m', remove_class o m arg = Ok m' /\ MetaOk m').
Proof.
  intros Hm Ha Hw Hold. unfold remove_class. pose proof (words_trim _ _ Ha Hw) as Hwt.
  destruct (trim arg) as [|c0 t0] eqn:Et.
  - assert (names = []) by (eapply trim_empty_words; eassumption). subst names.
    pose proof (too_soon_none old [] ltac:(intros ? [])) as Hn. split; [|intros _; exists m; auto].
    split; [discriminate | contradiction].
  - rewrite (get_class_list_words _ _ Hwt). destruct (class_cases _ _ Hold) as [(v & q & E & Ev)|[E ->]].
    + rewrite E. cbn [rbind]. rewrite Ev. destruct (removed_positions old names) as [|i0 is0] eqn:Er.
      * pose proof (too_soon_none old names (removed_nil _ _ Er)) as Hn. split; [|intros _; exists m; auto].
        split; [discriminate | contradiction].
      * rewrite <- Er. destruct (retain_too_soon old names) as [H1 H2].
        destruct (retain_by_index old (removed_positions old names)) as [l| |] eqn:El; [| |contradiction]; cbn [rbind].
        -- destruct (set_attribute_ok o m ATTR_CLASS (Some (class_list_to_string l)) Hm) as (m' & E' & Hm' & _).
           rewrite E'. split; [|intros _; exists m'; auto]. split; [discriminate|]. intros H. apply H1 in H. discriminate.
        -- split; [split; [intros _; apply H1; reflexivity | reflexivity]|]. intros H. exfalso. apply H, H1. reflexivity.
    + pose proof (too_soon_none [] names ltac:(intros ? _ [])) as Hn. destruct E as [-> | ->]; cbn [rbind];
        (split; [split; [discriminate | contradiction] | intros _; exists m; auto]).
Qed.
Print Assumptions C16_remove_class_panic_iff.
(** ... and so does [toggle_class]. *)
Theorem C16_toggle_class_panic_iff (o : oracles_attr) (m : meta) (arg : str) (names old : list str) :
  MetaOk m -> AsciiSpaced arg -> Words arg names -> HasClasses m old ->
  (toggle_class o m arg = Panic <-> TooSoon old names) /\
  (~ TooSoon old names -> exists m', toggle_class o m arg = Ok m' /\ MetaOk m').
Proof.
  intros Hm Ha Hw Hold. unfold toggle_class. pose proof (words_trim _ _ Ha Hw) as Hwt.
  assert (Hset : forall s, exists m', set_attribute o m ATTR_CLASS (Some s) = Ok m' /\ MetaOk m').
  { intros s. destruct (set_attribute_ok o m ATTR_CLASS (Some s) Hm) as (m' & E' & Hm' & _). exists m'. auto. }
  assert (Done : forall r, ~ TooSoon old names -> (exists m', r = Ok m' /\ MetaOk m') ->
    (r = Panic <-> TooSoon old names) /\ (~ TooSoon old names -> exists m', r = Ok m' /\ MetaOk m')).
  { intros r Hn Hr. split; [|intros _; exact Hr]. destruct Hr as (m' & -> & _). split; [discriminate | contradiction]. }
  destruct (trim arg) as [|c0 t0] eqn:Et.
  - assert (names = []) by (eapply trim_empty_words; eassumption). subst names.
    apply Done; [apply too_soon_none; intros ? [] | exists m; auto].
  - rewrite (get_class_list_words _ _ Hwt). destruct (class_cases _ _ Hold) as [(v & q & E & Ev)|[E ->]].
    + rewrite E. cbn [rbind]. rewrite Ev. destruct (removed_positions old names) as [|i0 is0] eqn:Er.
      * apply Done; [apply too_soon_none, removed_nil, Er|]. cbn [rbind].
        destruct (filter _ names); [exists m; auto | apply Hset].
      * rewrite <- Er. destruct (retain_too_soon old names) as [H1 H2].
        destruct (retain_by_index old (removed_positions old names)) as [l| |] eqn:El; [| |contradiction]; cbn [rbind].
        -- apply Done; [intros H; apply H1 in H; discriminate | apply Hset].
        -- split; [split; [intros _; apply H1; reflexivity | reflexivity]|]. intros H. exfalso. apply H, H1. reflexivity.
    + apply Done; [apply too_soon_none; intros ? _ []|]. destruct E as [-> | ->]; cbn [rbind]; apply Hset.
Qed.
Print Assumptions C16_toggle_class_panic_iff.

(** C16, result: when the names found come in the order of their first places, exactly their first occurrences go.
    Full claim: every class named goes and no other one.  Missing: names in another order, and further occurrences, which stay. *)
Theorem C16_remove_first_partial (o : oracles_attr) (m : meta) (arg : str) (names old : list str) :
  MetaOk m -> AsciiSpaced arg -> Words arg names -> HasClasses m old -> FirstOrder old names -> NoMix [] old ->
  exists m', remove_class o m arg = Ok m' /\ MetaOk m' /\ SameOthers m m' /\ HasClasses m' (remove_firsts names old).
Proof.
  intros Hm Ha Hw Hold Hso Hmix. unfold remove_class. pose proof (words_trim _ _ Ha Hw) as Hwt.
  assert (Hkeep : (forall c, In c names -> ~ In c old) -> remove_firsts names old = old).
  { intros Hd. rewrite <- remove_firsts_found. replace (found old names) with (@nil str); [reflexivity|].
    unfold found. clear - Hd. induction names as [|c names IH]; cbn; [reflexivity|].
    destruct (in_dec str_dec c old) as [Hi|_]; [exfalso; exact (Hd c (or_introl eq_refl) Hi)|].
    apply IH. intros d H. apply Hd. right. exact H. }
  destruct (trim arg) as [|c0 t0] eqn:Et.
  - exists m. split; [reflexivity|]. split; [exact Hm|]. split; [apply same_others_refl, Hm|].
    assert (names = []) by (eapply trim_empty_words; eassumption). subst names. exact Hold.
  - rewrite (get_class_list_words _ _ Hwt). destruct (class_cases _ _ Hold) as [(v & q & E & Ev)|[E ->]].
    + rewrite E. cbn [rbind]. rewrite Ev. destruct (removed_positions old names) as [|i0 is0] eqn:Er.
      * exists m. split; [reflexivity|]. split; [exact Hm|]. split; [apply same_others_refl, Hm|].
        rewrite Hkeep; [exact Hold | apply removed_nil, Er].
      * rewrite <- Er, (retain_first_order old names Hso). cbn [rbind].
        pose proof (remove_firsts_incl names old) as Hincl. set (l := remove_firsts names old) in *.
        assert (Hall : Forall Word l).
        { assert (Ho : Forall Word old) by (rewrite <- Ev; eapply words_forall, get_class_list_spec).
          rewrite Forall_forall in Ho |- *. intros c Hc. apply Ho, Hincl, Hc. }
        pose proof (class_list_to_string_words _ Hall) as Hws.
        destruct (set_class o m _ _ Hm Hws) as (m' & E' & Hm' & Hc' & Ho').
        { eapply nomix_words; [exact Hws | | exact Hmix]. exact Hincl. }
        exists m'. split; [exact E'|]. split; [exact Hm'|]. split; [exact Ho'|]. left. exact Hc'.
    + exists m. split; [destruct E as [-> | ->]; reflexivity|]. split; [exact Hm|].
      split; [apply same_others_refl, Hm|]. rewrite Hkeep; [exact Hold | intros ? _ []].
Qed.
Print Assumptions C16_remove_first_partial.
Theorem C16_toggle_first_partial (o : oracles_attr) (m : meta) (arg : str) (names old : list str) :
  MetaOk m -> AsciiSpaced arg -> Words arg names -> HasClasses m old -> FirstOrder old names -> NoMix names old ->
  exists m', toggle_class o m arg = Ok m' /\ MetaOk m' /\ SameOthers m m' /\
    HasClasses m' (remove_firsts names old ++ filter (fun c => if in_dec str_dec c old then false else true) names).
Proof.
  intros Hm Ha Hw Hold Hso Hmix. unfold toggle_class. pose proof (words_trim _ _ Ha Hw) as Hwt.
  destruct (trim arg) as [|c0 t0] eqn:Et.
  - exists m. split; [reflexivity|]. split; [exact Hm|]. split; [apply same_others_refl, Hm|].
    assert (names = []) by (eapply trim_empty_words; eassumption). subst names. cbn. rewrite app_nil_r. exact Hold.
  - rewrite (get_class_list_words _ _ Hwt). destruct (class_cases _ _ Hold) as [(v & q & E & Ev)|[E ->]].
    + rewrite E. cbn [rbind]. rewrite Ev.
      assert (Eadd : filter (fun n => negb (match position n old with Some _ => true | None => false end)) names =
                     filter (fun c => if in_dec str_dec c old then false else true) names).
      { apply filter_ext. intros c. pose proof (position_none c old) as Hp.
        destruct (position c old) eqn:Ep, (in_dec str_dec c old) as [Hin|Hn]; try reflexivity.
        - apply Hp in Hn. discriminate.
        - exfalso. apply Hp; [reflexivity | exact Hin]. }
      rewrite Eadd. set (added := filter _ names). pose proof (remove_firsts_incl names old) as Hk.
      pose proof (retain_first_order old names Hso) as Er'. set (kept := remove_firsts names old) in *.
      assert (Ek : (match removed_positions old names with [] => Ok old | _ => retain_by_index old (removed_positions old names) end)
                   = Ok kept).
      { rewrite Er'. destruct (removed_positions old names) eqn:Er; [|reflexivity]. exact Er'. }
      assert (Hincl : incl (kept ++ added) (names ++ old)).
      { intros c Hc. apply in_or_app. apply in_app_or in Hc as [Hc|Hc]; [right; apply Hk, Hc|]. apply filter_In in Hc; tauto. }
      assert (Hall : Forall Word (kept ++ added)).
      { assert (Ho : Forall Word old) by (rewrite <- Ev; eapply words_forall, get_class_list_spec).
        apply words_forall in Hw. rewrite Forall_forall in Ho, Hw |- *. intros c Hc.
        apply Hincl, in_app_or in Hc as [Hc|Hc]; [apply Hw, Hc | apply Ho, Hc]. }
      pose proof (class_list_to_string_words _ Hall) as Hws.
      destruct (set_class o m _ _ Hm Hws) as (m' & E' & Hm' & Hc' & Ho').
      { eapply nomix_words; [exact Hws | exact Hincl | exact Hmix]. }
      destruct (removed_positions old names) as [|i is] eqn:Er; [destruct added as [|a0 as0] eqn:Ea|].
      * exists m. split; [reflexivity|]. split; [exact Hm|]. split; [apply same_others_refl, Hm|].
        rewrite app_nil_r. injection Ek as Ek. rewrite <- Ek. exact Hold.
      * exists m'. split; [injection Ek as Ek; cbn [rbind]; rewrite Ek; exact E'|]. split; [exact Hm'|]. split; [exact Ho'|]. left. exact Hc'.
      * exists m'. split; [rewrite Ek; exact E'|]. split; [exact Hm'|]. split; [exact Ho'|]. left. exact Hc'.
    + destruct (set_class o m _ _ Hm Hwt) as (m' & E' & Hm' & Hc' & Ho').
      { eapply nomix_words; [exact Hwt | | exact Hmix]. apply incl_appl, incl_refl. }
      exists m'. split; [destruct E as [-> | ->]; exact E'|]. split; [exact Hm'|]. split; [exact Ho'|].
      replace (remove_firsts names []) with (@nil str) by (clear; induction names; auto). cbn [app].
      assert (Ef : filter (fun c => if in_dec str_dec c [] then false else true) names = names).
      { clear. induction names as [|c names IH]; cbn; [reflexivity|]. f_equal. exact IH. }
      rewrite Ef. left. exact Hc'.
Qed.
Print Assumptions C16_toggle_first_partial.

(** A class list with a repeated name: [a b a c]; removing [a c] takes the first [a] and [c]; removing [c b a] is too soon for
    [a] (place 0, third name); removing [b a] panics as well. *)
Definition ex_rep : meta :=
  mkMeta (lit "div") [mkAttr (Some (lit "class")) (Some (lit "a b a c")) (Some DQ) false] [(lit "class", 0)].
Definition ex_rep_list : list str := [lit "a"; lit "b"; lit "a"; lit "c"].
Lemma ex_rep_classes : HasClasses ex_rep ex_rep_list.
Proof. left. exists (lit "a b a c"), (Some DQ). split; [reflexivity|]. apply C17_class_text_words. vm_compute. reflexivity. Qed.
Example C16_first_ex :
  FirstOrder ex_rep_list [lit "a"; lit "c"] /\ remove_firsts [lit "a"; lit "c"] ex_rep_list = [lit "b"; lit "a"] /\
  TooSoon ex_rep_list [lit "b"; lit "a"] /\ ~ TooSoon ex_rep_list [lit "c"; lit "b"] /\
  ~ FirstOrder ex_rep_list [lit "c"; lit "b"] /\
  (exists m', remove_class ex_oracle ex_rep (lit "a c") = Ok m' /\ HasClasses m' [lit "b"; lit "a"]) /\
  remove_class ex_oracle ex_rep (lit "b a") = Panic /\ toggle_class ex_oracle ex_rep (lit "b a x") = Panic.
Proof.
  assert (P : forall n i, position n ex_rep_list = Some i -> FirstAt ex_rep_list n i) by (intros n i; apply position_first).
  split; [exists [0; 3]; split; [repeat constructor; apply P; reflexivity | repeat constructor]|].
  split; [vm_compute; reflexivity|].
  split; [exists 1, (lit "a"), 0; split; [vm_compute; reflexivity|]; split; [apply P; reflexivity | lia]|].
  split.
  { intros H. apply (proj2 (proj1 (retain_too_soon _ _))) in H. vm_compute in H. discriminate. }
  split.
  { intros H. apply retain_first_order in H. vm_compute in H. discriminate. }
  split; [|split; vm_compute; reflexivity].
  eexists. split; [vm_compute; reflexivity|]. left. eexists _, _. split; [vm_compute; reflexivity|].
  apply C17_class_text_words. vm_compute. reflexivity.
Qed.
