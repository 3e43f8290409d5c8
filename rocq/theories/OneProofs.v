(** The rules that test a single element. *)
From Verif Require Import Base Utils UtilsSpec UtilsProofs Attr AttrSpec AttrProofs ClassSpec Dom DomSpec
  Order DomProofs OrderSpec OrderProofs Sets SetsProofs NavProofs Engine Rules SelSpec.

Lemma starts_with_spec s p : starts_with s p = true <-> exists t, s = p ++ t.
Proof.
  revert s. induction p as [|c p IH]; intros s; cbn.
  - split; [intros _; exists s; reflexivity | destruct s; reflexivity].
  - destruct s as [|d s]; cbn.
    + split; [discriminate | intros (t & E); discriminate].
    + rewrite andb_true_iff, IH. unfold char_eqb. rewrite N.eqb_eq. split.
      * intros [-> (t & ->)]. exists t. reflexivity.
      * intros (t & E). injection E as -> ->. split; [reflexivity | exists t; reflexivity].
Qed.
Lemma ends_with_spec s p : ends_with s p = true <-> exists t, s = t ++ p.
Proof.
  unfold ends_with. rewrite starts_with_spec. split.
  - intros (t & E). exists (rev t). rewrite <- (rev_involutive s), E, rev_app_distr, rev_involutive. reflexivity.
  - intros (t & ->). exists (rev t). apply rev_app_distr.
Qed.
Lemma str_contains_spec s p : str_contains s p = true <-> Substring p s.
Proof.
  unfold Substring. induction s as [|c s IH].
  - cbn [str_contains]. rewrite orb_false_r, starts_with_spec. split.
    + intros (t & E). exists [], t. exact E.
    + intros (a & b & E). symmetry in E. apply app_eq_nil in E. destruct E as [-> E]. exists b. symmetry. exact E.
  - cbn [str_contains]. rewrite orb_true_iff, IH, starts_with_spec. split.
    + intros [(t & E) | (a & b & E)]; [exists [], t; exact E | exists (c :: a), b; rewrite E; reflexivity].
    + intros (a & b & E). destruct a as [|d a]; [left; exists b; exact E|].
      right. injection E as -> E. exists a, b. exact E.
Qed.

Definition attr_guard (test : option (amode * str)) (a : option attr_value) : Prop :=
  match test with
  | Some (MEq, w) | Some (MDash, w) | Some (MNot, w) => w = [] -> a <> None
  | _ => True
  end.
Definition TestRel (test : option (amode * str)) (v : option (option str)) : Prop :=
  match test with
  | None => v <> None
  | Some (mode, w) => AttrRel mode w (css_value v)
  end.
Lemma nonempty_false {A} (l : list A) : nonempty l = false <-> l = [].
Proof. destruct l; cbn; split; congruence. Qed.
Lemma nonempty_true {A} (l : list A) : nonempty l = true <-> l <> [].
Proof. destruct l; cbn; split; congruence. Qed.

Lemma str_eqb_false a b : str_eqb a b = false <-> a <> b.
Proof.
  destruct (str_eqb a b) eqn:E; split; try congruence.
  - apply str_eqb_spec in E. congruence.
  - intros _ E'. apply str_eqb_spec in E'. congruence.
Qed.
Lemma attr_test_spec test a : attr_guard test a -> (attr_test test a = true <-> TestRel test (seen a)).
Proof.
  intros G. destruct test as [[mode w]|]; cbn [attr_test TestRel].
  2:{ destruct a as [[v q|]|]; cbn; split; congruence. }
  destruct (negb (nonempty w) && negb (match mode with MEq | MNot | MDash => true | _ => false end)) eqn:Eg.
  - apply andb_true_iff in Eg. destruct Eg as [E1 E2]. apply negb_true_iff, nonempty_false in E1. subst w.
    split; [discriminate|]. intros H. exfalso. destruct mode; try discriminate; cbn in H.
    + destruct H as [H _]. congruence.
    + destruct H as [H _]. congruence.
    + destruct H as [H _]. congruence.
    + destruct H as (s & l & _ & Hw & Hi). apply words_forall in Hw. rewrite Forall_forall in Hw.
      destruct (Hw [] Hi) as [Hn _]. congruence.
  - destruct mode; destruct a as [[v q|]|]; cbn [attr_test AttrRel seen css_value]; cbn in G.
    + rewrite str_eqb_spec. split; congruence.
    + rewrite negb_true_iff, nonempty_false. split; [intros ->; reflexivity | intros E; injection E as <-; reflexivity].
    + rewrite negb_true_iff, nonempty_false. split; [intros E; exfalso; exact (G E eq_refl) | discriminate].
    + rewrite starts_with_spec. apply andb_false_iff in Eg. destruct Eg as [Eg | Eg]; [|discriminate].
      apply negb_false_iff, nonempty_true in Eg. split.
      * intros (t & ->). split; [exact Eg | exists t; reflexivity].
      * intros (_ & t & E). injection E as ->. exists t. reflexivity.
    + split; [discriminate|]. intros (Hn & s & E). injection E as E. symmetry in E. apply app_eq_nil in E. destruct E. congruence.
    + split; [discriminate|]. intros (Hn & s & E). discriminate.
    + rewrite ends_with_spec. apply andb_false_iff in Eg. destruct Eg as [Eg | Eg]; [|discriminate].
      apply negb_false_iff, nonempty_true in Eg. split.
      * intros (t & ->). split; [exact Eg | exists t; reflexivity].
      * intros (_ & t & E). injection E as ->. exists t. reflexivity.
    + split; [discriminate|]. intros (Hn & s & E). injection E as E. symmetry in E. apply app_eq_nil in E. destruct E. congruence.
    + split; [discriminate|]. intros (Hn & s & E). discriminate.
    + rewrite str_contains_spec. apply andb_false_iff in Eg. destruct Eg as [Eg | Eg]; [|discriminate].
      apply negb_false_iff, nonempty_true in Eg. split.
      * intros H. split; [exact Eg | exists v; split; [reflexivity | exact H]].
      * intros (_ & s & E & H). injection E as ->. exact H.
    + split; [discriminate|]. intros (Hn & s & E & a & b & H). injection E as <-. symmetry in H.
      apply app_eq_nil in H. destruct H as [_ H]. apply app_eq_nil in H. destruct H. congruence.
    + split; [discriminate|]. intros (Hn & s & E & H). discriminate.
    + rewrite orb_true_iff, str_eqb_spec, starts_with_spec. split.
      * intros [-> | (t & ->)]; [left; reflexivity|]. right. exists t. rewrite <- app_assoc. reflexivity.
      * intros [E | (t & E)]; [left; congruence|]. right. injection E as ->. exists t. rewrite <- app_assoc. reflexivity.
    + rewrite negb_true_iff, nonempty_false. split.
      * intros ->. left. reflexivity.
      * intros [E | (t & E)]; [congruence|]. injection E as E. destruct w; discriminate.
    + rewrite negb_true_iff, nonempty_false. split; [intros E; exfalso; exact (G E eq_refl)|].
      intros [E | (t & E)]; discriminate.
    + rewrite existsb_exists. split.
      * intros (u & Hu & E). apply str_eqb_spec in E. subst u. exists v, (get_class_list v).
        split; [reflexivity|]. split; [apply get_class_list_spec | exact Hu].
      * intros (s & l & E & Hw & Hi). injection E as <-. rewrite (get_class_list_words v l Hw).
        exists w. split; [exact Hi | apply str_eqb_refl].
    + split; [discriminate|]. intros (s & l & E & Hw & Hi). injection E as <-.
      rewrite <- (get_class_list_words [] l Hw) in Hi. destruct Hi.
    + split; [discriminate|]. intros (s & l & E & _). discriminate.
    + rewrite negb_true_iff, str_eqb_false. split; congruence.
    + rewrite nonempty_true. split; [intros H E; injection E as E; apply H; symmetry; exact E | intros H ->; apply H; reflexivity].
    + rewrite nonempty_true. split; [discriminate | intros _ E; exact (G E eq_refl)].
Qed.

Section One.
  Variable h : heap.
  Variable r : id.
  Hypothesis D : DocOk h r.
  Let wf : WF h := do_wf h r D.

  Lemma el_attr x key : ElIn h r x -> exists a, node_attribute h x key = Ok a.
  Proof.
    intros [Hi He]. destruct (do_meta h r D x Hi He) as (m & Em & Hm). unfold node_attribute. rewrite Em.
    destruct (shows_abs m Hm key) as (a & E & _). exists a. exact E.
  Qed.
  Lemma el_has x key : ElIn h r x -> exists b, node_has_attribute h x key = Ok b /\ (b = true <-> Has h x key).
  Proof.
    intros Hx. destruct (el_attr x key Hx) as (a & E). unfold node_has_attribute. rewrite E. cbn. eexists. split; [reflexivity|].
    unfold Has, ReadsAs. split.
    - destruct a as [v|]; [|discriminate]. intros _. destruct v as [v q|]; [exists (Some v) | exists None]; exists (Some (AV v q)) || exists (Some ATrue); split; [exact E | reflexivity | exact E | reflexivity].
    - intros (v & a' & E' & Hs). rewrite E in E'. injection E' as <-. destruct a; [reflexivity | discriminate].
  Qed.
  Lemma reads_fun x key v w : ReadsAs h x key v -> ReadsAs h x key w -> v = w.
  Proof. intros (a & E1 & H1) (b & E2 & H2). congruence. Qed.

  Lemma attr_one_spec key test x : ElIn h r x ->
    (forall a, node_attribute h x key = Ok a -> attr_guard test a) ->
    exists b, attr_one h key test x = Ok b /\ (b = true <-> AttrHolds h key test x).
  Proof.
    intros Hx G. destruct (el_attr x key Hx) as (a & E). unfold attr_one. rewrite E. cbn. eexists. split; [reflexivity|].
    rewrite (attr_test_spec test a (G a E)). unfold AttrHolds. split.
    - intros H. exists (seen a). split; [exists a; split; [exact E | reflexivity] | exact H].
    - intros (v & (a' & E' & Hs) & H). rewrite E in E'. injection E' as <-. subst v. exact H.
  Qed.

  Lemma class_one_spec name x : ElIn h r x ->
    exists b, class_one h name x = Ok b /\ (b = true <-> ClassIs h x name).
  Proof.
    intros Hx. destruct (el_attr x (lit "class") Hx) as (a & E). unfold class_one. rewrite E. cbn [rbind].
    eexists. split; [reflexivity|]. unfold ClassIs, HasClassValue. unfold node_attribute in E.
    destruct (n_meta (node_of h x)) as [m|] eqn:Em; [|discriminate]. split.
    - destruct a as [[v q|]|]; try discriminate. intros H. rewrite existsb_exists in H. destruct H as (u & Hu & Hq).
      apply str_eqb_spec in Hq. subst u. exists m, (get_class_list v). split; [reflexivity|].
      split; [|exact Hu]. exists v, q. split; [exact E | apply get_class_list_spec].
    - intros (m' & l & E' & (v & q & Ev & Hw) & Hi). injection E' as <-. change CLASS with (lit "class") in Ev.
      rewrite E in Ev. injection Ev as ->. rewrite (get_class_list_words v l Hw). apply existsb_exists. exists name.
      split; [exact Hi | apply str_eqb_refl].
  Qed.

  (** Names. *)
  Lemma name_tag x name : name <> [] -> (EqIgnoreCase (tag_names h x) name <-> NameIs h x name).
  Proof.
    intros Hn. unfold NameIs, EqIgnoreCase, tag_names. destruct (is_element h x).
    - destruct (n_meta (node_of h x)) as [m|]; split.
      + intros E. split; [reflexivity|]. exists m. split; [reflexivity|]. rewrite str_lower_idem in E. exact E.
      + intros [_ (m' & E & H)]. injection E as <-. rewrite str_lower_idem. exact H.
      + intros E. exfalso. destruct name; [congruence | discriminate].
      + intros [_ (m' & E & _)]. discriminate.
    - split; [|intros [H _]; discriminate]. intros E. exfalso. destruct name; [congruence | discriminate].
  Qed.
  Lemma name_one_spec name x : ElIn h r x ->
    exists b, name_one h name x = Ok b /\ (b = true <-> NameIs h x name).
  Proof.
    intros [Hi He]. unfold name_one. eexists. split; [reflexivity|]. rewrite is_equal_chars_ignore_case_spec.
    unfold NameIs, EqIgnoreCase, tag_names. rewrite He.
    destruct (do_meta h r D x Hi He) as (m & Em & _). rewrite Em, str_lower_idem. split.
    - intros E. split; [reflexivity|]. exists m. split; [reflexivity | exact E].
    - intros [_ (m' & E & H)]. injection E as <-. exact H.
  Qed.
  Lemma is_tag_spec x name : name <> [] -> str_lower name = name -> (is_tag h x name = true <-> NameIs h x name).
  Proof.
    intros Hn Hl. unfold is_tag. rewrite is_equal_chars_spec, <- (name_tag x name Hn). unfold EqIgnoreCase. rewrite Hl.
    unfold tag_names. destruct (is_element h x); [|tauto].
    destruct (n_meta (node_of h x)); [rewrite str_lower_idem|]; tauto.
  Qed.
  Lemma to_upper_lower_inj c d : to_upper (to_lower c) = to_upper (to_lower d) -> to_lower c = to_lower d.
  Proof.
    unfold to_upper, to_lower, is_ascii_lower, is_ascii_upper.
    destruct (N.leb_spec 65 c), (N.leb_spec c 90), (N.leb_spec 65 d), (N.leb_spec d 90); cbn [andb];
    repeat match goal with |- context [(?a <=? ?b)%N] => destruct (N.leb_spec a b); cbn [andb] end; lia.
  Qed.
  Lemma upper_inj (a b : str) : map to_upper (str_lower a) = map to_upper (str_lower b) -> str_lower a = str_lower b.
  Proof.
    revert b. induction a as [|c a IH]; intros [|d b] E; cbn in E; try discriminate; [reflexivity|].
    injection E as E1 E2. cbn. rewrite (to_upper_lower_inj c d E1). f_equal. exact (IH b E2).
  Qed.
  Lemma tag_names_lower x : exists s, tag_names h x = str_lower s.
  Proof.
    unfold tag_names. destruct (is_element h x); [|exists []; reflexivity].
    destruct (n_meta (node_of h x)) as [m|]; [exists (m_name m) | exists []]; reflexivity.
  Qed.
  Lemma tag_name_eqb x y : str_eqb (tag_name h x) (tag_name h y) = str_eqb (tag_names h x) (tag_names h y).
  Proof.
    unfold tag_name. destruct (tag_names_lower x) as (a & ->), (tag_names_lower y) as (b & ->).
    destruct (str_eqb (str_lower a) (str_lower b)) eqn:E.
    - apply str_eqb_spec in E. rewrite E. apply str_eqb_refl.
    - apply str_eqb_false. apply str_eqb_false in E. intros H. apply E. exact (upper_inj a b H).
  Qed.

  Lemma root_one_spec x : ElIn h r x ->
    exists b, root_one h x = Ok b /\
      (b = true <-> NameIs h x (lit "html") /\ exists p, Child h p x /\ is_document h p = true).
  Proof.
    intros [Hi He]. unfold root_one. eexists. split; [reflexivity|]. rewrite andb_true_iff, str_eqb_spec.
    assert (E : tag_name h x = lit "HTML" <-> NameIs h x (lit "html")).
    { rewrite <- (is_tag_spec x (lit "html")) by (discriminate || reflexivity).
      unfold is_tag. rewrite is_equal_chars_spec. unfold tag_name. split; [|intros ->; reflexivity].
      destruct (tag_names_lower x) as (a & ->). intros E. exact (upper_inj a (lit "html") E). }
    rewrite E. split.
    - intros [H1 H2]. split; [exact H1|]. destruct (parent h x) as [p|] eqn:Ep; [|discriminate].
      exists p. split; [|exact H2]. exists (index h x). exact (proj2 (intree_parent h wf r x p Hi Ep)).
    - intros [H1 (p & Hc & H2)]. split; [exact H1|]. rewrite (child_parent h wf p x Hc). exact H2.
  Qed.
  Lemma empty_one_spec x : exists b, empty_one h x = Ok b /\
    (b = true <-> forall c, Child h x c -> n_type (node_of h c) = NComment).
  Proof.
    unfold empty_one. eexists. split; [reflexivity|]. rewrite forallb_forall.
    assert (E : forall c, is_comment h c = true <-> n_type (node_of h c) = NComment).
    { intros c. unfold is_comment, ntype_of. destruct (n_type (node_of h c)); split; (discriminate || reflexivity). }
    split; intros H c Hc; apply E, H, child_in, Hc.
  Qed.
  Lemma contains_one_spec text_of t x : exists b, contains_one text_of t x = Ok b /\ (b = true <-> Substring t (text_of x)).
  Proof. unfold contains_one. eexists. split; [reflexivity|]. apply contains_chars_spec. Qed.

  (** ** :checked *)
  Lemma kids_length p : length (kids h p) <= length h.
  Proof.
    assert (H : incl (kids h p) (seq 0 (length h))).
    { intros c Hc. apply child_in in Hc. destruct Hc as (i & Hc). apply in_seq.
      pose proof (proj1 (wf_listed h wf p i c Hc)). lia. }
    pose proof (NoDup_incl_length (kids_nodup h wf p) H). rewrite seq_length in H0. exact H0.
  Qed.
  Notation optn := (lit "option").
  Lemma option_before_spec : forall fuel x p pre post, kids h p = pre ++ x :: post -> length pre < fuel ->
    exists b, option_before h fuel x = Ok b /\ (b = true <-> exists y, Preceding h x y /\ NameIs h y optn).
  Proof.
    induction fuel as [|f IH]; intros x p pre post E Hf; [lia|]. cbn [option_before].
    rewrite (prev_sibling_at h wf p x pre post E). cbn [rbind].
    destruct (hd_error (filter (is_element h) (rev pre))) as [y|] eqn:Ey.
    - apply hd_filter_some in Ey as Es. destruct Es as (l1 & l2 & El & He & Hb).
      assert (Ep : pre = rev l2 ++ y :: rev l1).
      { rewrite <- (rev_involutive pre), El, rev_app_distr. cbn [rev]. rewrite <- app_assoc. reflexivity. }
      assert (Hpr : Preceding h x y).
      { apply (preceding_at h wf p x pre post E). apply filter_In. split; [|exact He]. rewrite Ep. apply in_elt. }
      destruct (is_tag h y (lit "option")) eqn:Et.
      + exists true. split; [reflexivity|]. split; [intros _ | reflexivity]. exists y. split; [exact Hpr|].
        apply is_tag_spec; [discriminate | reflexivity | exact Et].
      + assert (E' : kids h p = rev l2 ++ y :: (rev l1 ++ x :: post)).
        { rewrite E, Ep, <- app_assoc. reflexivity. }
        destruct (IH y p (rev l2) (rev l1 ++ x :: post) E') as (b & Eb & Hbb).
        { rewrite Ep, app_length in Hf. cbn in Hf. lia. }
        exists b. split; [exact Eb|]. rewrite Hbb. split.
        * intros (z & Hz & Hn). exists z. split; [|exact Hn]. apply (preceding_at h wf p x pre post E).
          apply (preceding_at h wf p y _ _ E') in Hz. rewrite filter_In in *. destruct Hz as [Hz Hze].
          split; [|exact Hze]. rewrite Ep. apply in_or_app. left. exact Hz.
        * intros (z & Hz & Hn). exists z. split; [|exact Hn]. apply (preceding_at h wf p y _ _ E').
          apply (preceding_at h wf p x pre post E) in Hz. rewrite filter_In in *. destruct Hz as [Hz Hze].
          split; [|exact Hze]. rewrite Ep in Hz. apply in_app_or in Hz. destruct Hz as [Hz | [-> | Hz]]; [exact Hz| |].
          -- exfalso. apply is_tag_spec in Hn; [congruence | discriminate | reflexivity].
          -- exfalso. apply in_rev in Hz. rewrite (Hb z Hz) in Hze. discriminate.
    - exists false. split; [reflexivity|]. split; [discriminate|]. intros (y & Hy & _). exfalso.
      apply (preceding_at h wf p x pre post E) in Hy. apply filter_In in Hy. destruct Hy as [Hy He].
      assert (Hc : In y (filter (is_element h) (rev pre))) by (apply filter_In; split; [apply in_rev in Hy|]; assumption).
      destruct (filter (is_element h) (rev pre)); [destruct Hc | discriminate].
  Qed.

  (** An option in the subtree of [x], not inside another option of that subtree, is selected. *)
  Definition SelectedIn (x : id) : Prop :=
    exists y, AncEq h x y /\ NameIs h y optn /\ Has h y (lit "selected") /\
      forall z, AncEq h x z -> Anc h z y -> ~ NameIs h z optn.
  Lemma el_child p c : InTree h r p -> In c (children h p) -> ElIn h r c.
  Proof.
    intros Hp Hc. apply in_children in Hc. destruct Hc as [Hc He]. split; [|exact He].
    apply (intree_down h r p c Hp). right. apply Anc_child. exact Hc.
  Qed.
  Lemma rexists_spec {A} (f : A -> res bool) (P : A -> Prop) l :
    (forall x, In x l -> exists b, f x = Ok b /\ (b = true <-> P x)) ->
    exists b, rexists f l = Ok b /\ (b = true <-> exists x, In x l /\ P x).
  Proof.
    induction l as [|x l IH]; intros H; cbn.
    - exists false. split; [reflexivity|]. split; [discriminate | intros (x & [] & _)].
    - destruct (H x (or_introl eq_refl)) as (b & E & Hb). rewrite E. cbn. destruct b.
      + exists true. split; [reflexivity|]. split; [intros _ | reflexivity]. exists x. split; [left; reflexivity | apply Hb; reflexivity].
      + destruct IH as (b' & E' & Hb'); [intros y Hy; apply H; right; exact Hy|]. exists b'. split; [exact E'|]. rewrite Hb'. split.
        * intros (y & Hy & HP). exists y. split; [right; exact Hy | exact HP].
        * intros (y & [<- | Hy] & HP); [apply Hb in HP; discriminate | exists y; split; assumption].
  Qed.
  Lemma desc_child_el x y : InTree h r x -> Anc h x y -> is_element h y = true ->
    exists c, In c (children h x) /\ AncEq h c y.
  Proof.
    intros Hx Ha He. apply anc_first in Ha. destruct Ha as (c & Hc & Hcy). exists c. split; [|exact Hcy].
    apply in_children. split; [exact Hc|]. destruct Hcy as [<- | Hcy]; [exact He|].
    apply anc_first in Hcy. destruct Hcy as (d & Hd & _). pose proof (child_parent h wf _ _ Hd) as Hp.
    destruct (proj2 (wf_parent h wf _ _ Hp)) as [H | H]; [exact H|].
    apply (wf_root h wf) in H. rewrite (child_parent h wf _ _ Hc) in H. discriminate.
  Qed.
  Lemma selected_in_spec : forall fuel x, ElIn h r x -> S (length h) < length (key h x) + fuel ->
    exists b, selected_in h fuel x = Ok b /\ (b = true <-> SelectedIn x).
  Proof.
    induction fuel as [|f IH]; intros x Hx Hf; [pose proof (key_length h wf x); lia|]. cbn [selected_in].
    destruct (is_tag h x (lit "option")) eqn:Et.
    - apply is_tag_spec in Et; [|discriminate | reflexivity].
      destruct (el_has x (lit "selected") Hx) as (b & E & Hb). exists b. split; [exact E|]. rewrite Hb. split.
      + intros H. exists x. split; [left; reflexivity|]. split; [exact Et|]. split; [exact H|].
        intros z [<- | Hz] Hzx; [destruct (anc_irrefl h wf x Hzx) | destruct (anc_asym h wf _ _ Hz Hzx)].
      + intros (y & Hy & Hn & Hs & Hz). destruct Hy as [<- | Hy]; [exact Hs|].
        exfalso. exact (Hz x (or_introl eq_refl) Hy Et).
    - assert (Hnx : ~ NameIs h x optn). { intros H. apply is_tag_spec in H; [|discriminate|reflexivity]. congruence. }
      destruct (rexists_spec (selected_in h f) SelectedIn (children h x)) as (b & E & Hb).
      { intros c Hc. apply IH; [exact (el_child x c (proj1 Hx) Hc)|].
        apply in_children in Hc. destruct Hc as ((i & Hc) & _). rewrite (key_listed h wf _ _ _ Hc), app_length. cbn [length]. lia. }
      exists b. split; [exact E|]. rewrite Hb. split.
      + intros (c & Hc & y & Hy & Hn & Hs & Hz). apply in_children in Hc. destruct Hc as [Hc _].
        assert (Hxc : Anc h x c) by (apply Anc_child; exact Hc).
        exists y. split; [right; exact (anc_anceq h _ _ _ Hxc Hy)|]. split; [exact Hn|]. split; [exact Hs|].
        intros z [<- | Hxz] Hzy; [exact Hnx|].
        apply Hz; [|exact Hzy].
        assert (Hcz : AncEq h c z \/ Anc h z c).
        { assert (Hy' : InTree h r y). { apply (intree_down h r x y (proj1 Hx)). right. exact (anc_anceq h _ _ _ Hxc Hy). }
          assert (Hc' : InTree h r c) by (apply (intree_anc h wf r y c Hy'); exact Hy).
          assert (Hz' : InTree h r z) by (apply (intree_anc h wf r y z Hy'); right; exact Hzy).
          pose proof (relation_tree h wf r c z Hc' Hz') as Hr.
          destruct (relation_of (key h c) (key h z)).
          - left. right. exact Hr.
          - left. left. exact Hr.
          - right. exact Hr.
          - exfalso. destruct Hr as [H1 H2].
            destruct (before_total h wf r c z Hc' Hz') as [Hb1 | [Hb1 | Hb1]].
            + destruct Hy as [<- | Hy]; [apply H2; right; exact Hzy|]. apply H1. right.
              apply (before_between h wf r c z y Hc' Hz' Hy' Hb1); [left; exact Hzy | exact Hy].
            + apply H1. left. exact Hb1.
            + destruct Hy as [<- | Hy]; [apply H2; right; exact Hzy|]. apply H2. right.
              apply (before_between h wf r z c y Hz' Hc' Hy' Hb1); [left; exact Hy | exact Hzy]. }
        destruct Hcz as [Hcz | Hzc]; [exact Hcz|]. exfalso.
        (* z strictly between x and its child c *)
        apply anc_inv in Hzc. destruct Hzc as (q & Hq & Hqc).
        pose proof (child_parent h wf _ _ Hqc) as E1. pose proof (child_parent h wf _ _ Hc) as E2.
        rewrite E1 in E2. injection E2 as ->. destruct Hq as [-> | Hq]; [exact (anc_irrefl h wf x Hxz) | exact (anc_asym h wf _ _ Hxz Hq)].
      + intros (y & Hy & Hn & Hs & Hz). destruct Hy as [<- | Hy]; [contradiction|].
        destruct (desc_child_el x y (proj1 Hx) Hy (proj1 Hn)) as (c & Hc & Hcy). exists c. split; [exact Hc|].
        exists y. split; [exact Hcy|]. split; [exact Hn|]. split; [exact Hs|]. intros z Hcz. apply Hz.
        right. apply in_children in Hc. exact (anc_anceq h _ _ _ (Anc_child h _ _ (proj1 Hc)) Hcz).
  Qed.
  Lemma selected_after_spec : forall fuel x p pre post, InTree h r p -> kids h p = pre ++ x :: post -> length post < fuel ->
    exists b, selected_after h fuel x = Ok b /\ (b = true <-> exists y, Following h x y /\ SelectedIn y).
  Proof.
    induction fuel as [|f IH]; intros x p pre post Hp E Hf; [lia|]. cbn [selected_after].
    rewrite (next_sibling_at h wf p x pre post E).
    destruct (hd_error (filter (is_element h) post)) as [y|] eqn:Ey.
    - apply hd_filter_some in Ey as Es. destruct Es as (l1 & l2 & El & He & Hb).
      assert (Hfo : Following h x y).
      { apply (following_at h wf p x pre post E). apply filter_In. split; [|exact He]. rewrite El. apply in_elt. }
      assert (E' : kids h p = (pre ++ x :: l1) ++ y :: l2). { rewrite E, El, <- app_assoc. reflexivity. }
      assert (Hy : ElIn h r y).
      { apply (el_child p y Hp). apply in_children. split; [|exact He]. apply child_in. rewrite E'. apply in_elt. }
      destruct (selected_in_spec (S (length h)) y Hy) as (b & Eb & Hbb).
      { pose proof (key_nonempty h wf y). destruct (key h y); [congruence | cbn; lia]. }
      rewrite Eb. cbn [rbind]. destruct b.
      + exists true. split; [reflexivity|]. split; [intros _|reflexivity]. exists y. split; [exact Hfo | apply Hbb; reflexivity].
      + destruct (IH y p (pre ++ x :: l1) l2 Hp E') as (b & Eb' & Hbb').
        { rewrite El, app_length in Hf. cbn in Hf. lia. }
        exists b. split; [exact Eb'|]. rewrite Hbb'. split.
        * intros (z & Hz & Hn). exists z. split; [|exact Hn]. apply (following_at h wf p x pre post E).
          apply (following_at h wf p y _ _ E') in Hz. rewrite filter_In in *. destruct Hz as [Hz Hze].
          split; [|exact Hze]. rewrite El. apply in_or_app. right. right. exact Hz.
        * intros (z & Hz & Hn). exists z. split; [|exact Hn]. apply (following_at h wf p y _ _ E').
          apply (following_at h wf p x pre post E) in Hz. rewrite filter_In in *. destruct Hz as [Hz Hze].
          split; [|exact Hze]. rewrite El in Hz. apply in_app_or in Hz. destruct Hz as [Hz | [-> | Hz]]; [| |exact Hz].
          -- exfalso. rewrite (Hb z Hz) in Hze. discriminate.
          -- exfalso. apply Hbb in Hn. discriminate.
    - exists false. split; [reflexivity|]. split; [discriminate|]. intros (y & Hy & _). exfalso.
      apply (following_at h wf p x pre post E) in Hy.
      destruct (filter (is_element h) post); [destruct Hy | discriminate].
  Qed.

  Lemma checked_one_spec x : ElIn h r x -> OptionsFirst h r ->
    exists b, checked_one h x = Ok b /\ (b = true <-> CheckedBox h x \/ CheckedOption h x).
  Proof.
    intros Hx OF. unfold checked_one.
    destruct (is_tag h x (lit "input")) eqn:Ei.
    { apply is_tag_spec in Ei; [|discriminate|reflexivity].
      assert (Hno : ~ CheckedOption h x).
      { intros [Hn _]. destruct Ei as [_ (m & Em & Hm)], Hn as [_ (m' & Em' & Hm')]. rewrite Em in Em'. injection Em' as <-.
        unfold EqIgnoreCase in *. rewrite Hm in Hm'. discriminate. }
      destruct (el_attr x (lit "type") Hx) as (a & Ea). rewrite Ea. cbn [rbind].
      assert (Hr : ReadsAs h x (lit "type") (seen a)) by (exists a; split; [exact Ea | reflexivity]).
      destruct a as [[v q|]|].
      - destruct (str_eqb (str_lower v) (lit "checkbox") || str_eqb (str_lower v) (lit "radio")) eqn:Ev.
        + destruct (el_has x (lit "checked") Hx) as (b & E & Hb). exists b. split; [exact E|]. rewrite Hb. split.
          * intros H. left. split; [exact Ei|]. split; [|exact H]. exists v. split; [exact Hr|].
            apply orb_true_iff in Ev. rewrite !str_eqb_spec in Ev. unfold EqIgnoreCase.
            destruct Ev as [-> | ->]; [left | right]; reflexivity.
          * intros [(_ & _ & H) | H]; [exact H | contradiction].
        + exists false. split; [reflexivity|]. split; [discriminate|].
          intros [(_ & (v' & Hv' & Hc) & _) | H]; [|contradiction]. exfalso.
          pose proof (reads_fun _ _ _ _ Hr Hv') as E. cbn in E. injection E as <-.
          apply orb_false_iff in Ev. rewrite !str_eqb_false in Ev. unfold EqIgnoreCase in Hc.
          destruct Ev as [E1 E2]. destruct Hc as [Hc | Hc]; [apply E1 | apply E2]; exact Hc.
      - exists false. split; [reflexivity|]. split; [discriminate|].
        intros [(_ & (v' & Hv' & _) & _) | H]; [|contradiction]. pose proof (reads_fun _ _ _ _ Hr Hv') as E. discriminate.
      - exists false. split; [reflexivity|]. split; [discriminate|].
        intros [(_ & (v' & Hv' & _) & _) | H]; [|contradiction]. pose proof (reads_fun _ _ _ _ Hr Hv') as E. discriminate. }
    assert (Hnb : ~ CheckedBox h x).
    { intros [Hn _]. apply is_tag_spec in Hn; [congruence | discriminate | reflexivity]. }
    destruct (is_tag h x (lit "option")) eqn:Eo.
    2:{ exists false. split; [reflexivity|]. split; [discriminate|]. intros [H | [Hn _]]; [contradiction|].
        apply is_tag_spec in Hn; [congruence | discriminate | reflexivity]. }
    apply is_tag_spec in Eo; [|discriminate|reflexivity].
    destruct (el_has x (lit "selected") Hx) as (b & E & Hb). rewrite E. cbn [rbind]. destruct b.
    { exists true. split; [reflexivity|]. split; [intros _ | reflexivity]. right. split; [exact Eo|]. left. apply Hb. reflexivity. }
    assert (Hns : ~ Has h x (lit "selected")) by (intros H; apply Hb in H; discriminate).
    assert (Hred : forall b : bool, (b = true <-> DefaultOption h x) -> (b = true <-> CheckedBox h x \/ CheckedOption h x)).
    { intros b' H. rewrite H. split; [intros Hd; right; split; [exact Eo | right; exact Hd]|].
      intros [H1 | [_ [H1 | H1]]]; [contradiction | contradiction | exact H1]. }
    destruct (parent h x) as [p|] eqn:Ep.
    2:{ exists false. split; [reflexivity|]. apply Hred. split; [discriminate|]. intros (p & Hc & _).
        rewrite (child_parent h wf _ _ Hc) in Ep. discriminate. }
    destruct (intree_parent h wf r x p (proj1 Hx) Ep) as [Hp Hl].
    assert (Hc : Child h p x) by (exists (index h x); exact Hl).
    assert (Hpp : forall q, Child h q x -> q = p). { intros q Hq. pose proof (child_parent h wf _ _ Hq). congruence. }
    destruct (is_tag h p (lit "select")) eqn:Es.
    2:{ exists false. split; [reflexivity|]. apply Hred. split; [discriminate|]. intros (q & Hq & Hn & _).
        rewrite (Hpp q Hq) in Hn. apply is_tag_spec in Hn; [congruence | discriminate | reflexivity]. }
    apply is_tag_spec in Es; [|discriminate|reflexivity].
    destruct (el_has p (lit "multiple") (conj Hp (proj1 Es))) as (bm & Em & Hbm). rewrite Em. cbn [rbind]. destruct bm.
    { exists false. split; [reflexivity|]. apply Hred. split; [discriminate|]. intros (q & Hq & _ & Hm & _).
      rewrite (Hpp q Hq) in Hm. exfalso. apply Hm, Hbm. reflexivity. }
    assert (Hnm : ~ Has h p (lit "multiple")) by (intros H; apply Hbm in H; discriminate).
    destruct (listed_split h p _ x Hl) as (pre & post & Ek & _).
    pose proof (kids_length p) as Hkl. rewrite Ek, app_length in Hkl. cbn in Hkl.
    destruct (option_before_spec (S (length h)) x p pre post Ek) as (bb & Eb & Hbb); [lia|]. rewrite Eb. cbn [rbind]. destruct bb.
    { exists false. split; [reflexivity|]. apply Hred. split; [discriminate|]. intros (q & Hq & _ & _ & Hpr & _).
      destruct (proj1 Hbb eq_refl) as (y & Hy & Hn). exfalso. exact (Hpr y Hy Hn). }
    assert (Hnp : forall y, Preceding h x y -> ~ NameIs h y optn).
    { intros y Hy Hn. assert (false = true) by (apply Hbb; exists y; split; assumption). discriminate. }
    destruct (selected_after_spec (S (length h)) x p pre post Hp Ek) as (ba & Ea & Hba); [lia|]. rewrite Ea. cbn [rbind].
    exists (negb ba). split; [reflexivity|]. apply Hred. rewrite negb_true_iff. split.
    - intros ->. exists p. split; [exact Hc|]. split; [exact Es|]. split; [exact Hnm|]. split; [exact Hnp|].
      intros y ((Hpy & Hey) & Hn & Hz) Hs.
      destruct (desc_child_el p y Hp Hpy Hey) as (c & Hcc & Hcy).
      apply in_children in Hcc. destruct Hcc as [Hcc Hce].
      assert (Hpc : Anc h p c) by (apply Anc_child; exact Hcc).
      pose proof (proj1 (child_in h p c) Hcc) as Hci. rewrite Ek in Hci. apply in_app_or in Hci.
      destruct Hci as [Hci | [Hci | Hci]].
      + assert (Hpr : Preceding h x c) by (apply (preceding_at h wf p x pre post Ek); apply filter_In; split; assumption).
        destruct Hcy as [<- | Hcy]; [exact (Hnp c Hpr Hn)|]. exact (OF x c y Hx Eo Hpr (Hnp c Hpr) Hcy Hn).
      + subst c. destruct Hcy as [<- | Hcy]; [contradiction|]. exact (Hz x Hpc Hcy Eo).
      + assert (Hfo : Following h x c) by (apply (following_at h wf p x pre post Ek); apply filter_In; split; assumption).
        assert (false = true); [|discriminate]. apply Hba. exists c. split; [exact Hfo|]. exists y.
        split; [exact Hcy|]. split; [exact Hn|]. split; [exact Hs|]. intros z Hcz. apply Hz. exact (anc_anceq h _ _ _ Hpc Hcz).
    - intros (q & Hq & _ & _ & _ & Hall). rewrite (Hpp q Hq) in Hall. destruct ba; [|reflexivity]. exfalso.
      destruct (proj1 Hba eq_refl) as (c & Hfo & y & Hcy & Hn & Hs & Hz).
      apply (following_at h wf p x pre post Ek) in Hfo. apply filter_In in Hfo. destruct Hfo as [Hfo Hce].
      assert (Hcc : Child h p c) by (apply child_in; rewrite Ek; apply in_or_app; right; right; exact Hfo).
      assert (Hpc : Anc h p c) by (apply Anc_child; exact Hcc).
      apply (Hall y); [|exact Hs]. split; [split; [exact (anc_anceq h _ _ _ Hpc Hcy) | exact (proj1 Hn)]|].
      split; [exact Hn|]. intros z Hpz Hzy Hzn.
      (* z is on the path from p to y, hence at or below c *)
      apply anc_first in Hpz. destruct Hpz as (c' & Hc' & Hcz).
      assert (c' = c).
      { assert (Hy' : InTree h r y) by (apply (intree_down h r p y Hp); right; exact (anc_anceq h _ _ _ Hpc Hcy)).
        assert (Hc1 : AncEq h c' y) by (right; exact (anceq_anc h _ _ _ Hcz Hzy)).
        destruct Hc' as (i' & Hl'), Hcc as (i & Hlc).
        destruct Hy' as (Hr0 & ly & Hly). destruct Hp as (_ & lp & Hlp).
        apply anceq_path in Hc1. destruct Hc1 as (m1 & Hm1). apply anceq_path in Hcy. destruct Hcy as (m2 & Hm2).
        pose proof (path_app _ _ _ _ _ _ Hlp (path_cons _ _ _ _ _ _ Hl' Hm1)) as P1.
        pose proof (path_app _ _ _ _ _ _ Hlp (path_cons _ _ _ _ _ _ Hlc Hm2)) as P2.
        pose proof (path_unique h wf r _ _ y Hr0 P1 P2) as Eq. apply app_inv_head in Eq. injection Eq as -> _.
        exact (listed_fun h _ _ _ _ Hl' Hlc). }
      subst c'. exact (Hz z Hcz Hzy Hzn).
  Qed.
End One.
