(** Proofs about the value of a form control. *)
From Verif Require Import Base Attr AttrSpec AttrProofs Dom DomSpec Order DomProofs OrderSpec OrderProofs Sets SetsProofs
  NavProofs Engine Rules SelSpec Mutate TextNodes Form TextSpec PreProofs TextProofs.

Section Form.
  Variable h : heap.
  Variable r : id.
  Hypothesis D : DocOk h r.
  Let wf : WF h := do_wf h r D.

  Lemma attr_total x k : InTree h r x -> is_element h x = true -> exists a, node_attribute h x k = Ok a.
  Proof.
    intros H1 H2. destruct (do_meta h r D x H1 H2) as (m & Em & Hm). unfold node_attribute. rewrite Em.
    destruct (shows_abs m Hm k) as (a & S & _). exists a. exact S.
  Qed.

  Definition opt (c : id) : bool := is_element h c && tag_is h c (lit "option").
  Lemma opt_spec c : opt c = true <-> IsOption h c.
  Proof. unfold opt, IsOption, tag_is. rewrite andb_true_iff, str_eqb_spec. reflexivity. Qed.
  Definition sel (c : id) : bool := match node_has_attribute h c (lit "selected") with Ok b => b | _ => false end.
  Definition vof (c : id) : str := match value_attr h c with Ok v => v | _ => [] end.
  Lemma sel_spec c : ElIn h r c -> node_has_attribute h c (lit "selected") = Ok (sel c).
  Proof.
    intros [H1 H2]. unfold sel, node_has_attribute. destruct (attr_total c (lit "selected") H1 H2) as (a & ->). reflexivity.
  Qed.
  Lemma sel_iff c : ElIn h r c -> (sel c = true <-> Selected h c).
  Proof.
    intros H. unfold Selected. rewrite (sel_spec c H). split; [intros ->; reflexivity | intros E; injection E as ->; reflexivity].
  Qed.
  Lemma vof_ok c : ElIn h r c -> value_attr h c = Ok (vof c).
  Proof. intros [H1 H2]. unfold vof, value_attr. destruct (attr_total c (lit "value") H1 H2) as (a & ->). reflexivity. Qed.
  Lemma vof_spec c : ElIn h r c -> HasValue h c (vof c).
  Proof.
    intros [H1 H2]. unfold HasValue, vof, value_attr. destruct (attr_total c (lit "value") H1 H2) as (a & E). rewrite E. cbn.
    destruct a as [[v q|]|]; [left; exists q; reflexivity | right; split; [reflexivity | right; reflexivity] | right; split; [reflexivity | left; reflexivity]].
  Qed.

  (** All options below [x], in document order. *)
  Fixpoint opts (fuel : nat) (x : id) : list id :=
    match fuel with
    | 0 => []
    | S f => flat_map (fun c => if is_element h c then if opt c then [c] else opts f c else []) (kids h x)
    end.
  (** The selected options the walk collects. *)
  Fixpoint picks (m : bool) (fuel : nat) (x : id) : list id :=
    match fuel with
    | 0 => []
    | S f =>
        (fix go cs := match cs with
                      | [] => []
                      | c :: cs' =>
                          if is_element h c then
                            if opt c then if sel c then c :: (if m then go cs' else []) else go cs'
                            else picks m f c ++ go cs'
                          else go cs'
                      end) (kids h x)
    end.
  Lemma picks_all fuel : forall x, picks true fuel x = filter sel (opts fuel x).
  Proof.
    induction fuel as [|f IH]; intros x; [reflexivity|]. cbn [picks opts]. induction (kids h x) as [|c cs IHc]; [reflexivity|].
    cbn [flat_map]. rewrite filter_app, <- IHc. destruct (is_element h c); [|reflexivity]. destruct (opt c).
    - cbn. destruct (sel c); reflexivity.
    - rewrite IH. reflexivity.
  Qed.
  Lemma hd_app {A} (l m m' : list A) : hd_error m = hd_error m' -> hd_error (l ++ m) = hd_error (l ++ m').
  Proof. destruct l; [exact (fun H => H) | reflexivity]. Qed.
  Lemma hd_app_l {A} (l l' m : list A) : hd_error l = hd_error l' -> hd_error (l ++ m) = hd_error (l' ++ m).
  Proof. destruct l, l'; cbn; intros H; try discriminate; [reflexivity | exact H]. Qed.
  Lemma picks_first fuel : forall x, hd_error (picks false fuel x) = hd_error (filter sel (opts fuel x)).
  Proof.
    induction fuel as [|f IH]; intros x; [reflexivity|]. cbn [picks opts]. induction (kids h x) as [|c cs IHc]; [reflexivity|].
    cbn [flat_map]. rewrite filter_app. destruct (is_element h c); [|exact IHc]. destruct (opt c).
    - cbn. destruct (sel c); [reflexivity | exact IHc].
    - rewrite (hd_app _ _ _ IHc). apply hd_app_l. apply IH.
  Qed.

  (** Levels below 255. *)
  Definition Room (s x : id) (level : nat) : Prop :=
    exists l, Path h s l x /\ length l = level /\ forall c, Anc h s c -> AncEq h c x -> ~ IsOption h c.
  Lemma room_down s x level c : Room s x level -> Child h x c -> opt c = false -> Room s c (S level).
  Proof.
    intros (l & Hl & Hn & Ho) (i & Hi) Hc.
    exists (l ++ [i]). split; [exact (Path_down h s l x i c Hl Hi)|]. split; [rewrite app_length; cbn; lia|].
    intros k Hk Hkc Hko. destruct Hkc as [-> | Hkc]; [apply opt_spec in Hko; congruence|].
    destruct (anc_inv h _ _ Hkc) as (p & Hkp & (j & Hj)).
    pose proof (listed_parent h wf p j c Hj) as E1.
    rewrite (listed_parent h wf x i c Hi) in E1. injection E1 as ->. exact (Ho k Hk Hkp Hko).
  Qed.
  Lemma room_child s x level c : Room s x level -> Child h x c -> is_element h c = true -> opt c = false ->
    Shallow h s -> Room s c (S level) /\ level < top_level.
  Proof.
    intros HR HC He Hc HS. pose proof (room_down s x level c HR HC Hc) as HR'.
    split; [exact HR'|]. destruct HR' as (l' & Hl' & Hn' & Ho').
    pose proof (HS l' c Hl' ltac:(destruct l'; discriminate) He Ho'). unfold top_level. lia.
  Qed.

  Definition or_else {A} (a b : option A) : option A := match a with Some _ => a | None => b end.
  Definition walk (m : bool) (f level : nat) :=
    fix loop (cs : list id) (st : option str * list str) : res (option str * list str) :=
         match cs with
         | [] => Ok st
         | c :: cs' =>
             if is_element h c then
               if tag_is h c (lit "option") then
                 do selected <- node_has_attribute h c (lit "selected");
                 if selected || (match fst st with None => true | Some _ => false end && (level =? 0)) then
                   do v <- value_attr h c;
                   if selected then
                     if m then loop cs' (fst st, snd st ++ [v]) else Ok (fst st, snd st ++ [v])
                   else loop cs' (Some v, snd st)
                 else loop cs' st
               else
                 if level =? top_level then Panic
                 else do st' <- collect_options f h m (S level) c st; loop cs' st'
             else loop cs' st
         end.
  Lemma collect_unfold m f level x st : collect_options (S f) h m level x st = walk m f level (kids h x) st.
  Proof. reflexivity. Qed.
  Definition go (m : bool) (f : nat) :=
    fix go (cs : list id) : list id := match cs with
                      | [] => []
                      | c :: cs' =>
                          if is_element h c then
                            if opt c then if sel c then c :: (if m then go cs' else []) else go cs'
                            else picks m f c ++ go cs'
                          else go cs'
                      end.
  Lemma picks_unfold m f x : picks m (S f) x = go m f (kids h x).
  Proof. reflexivity. Qed.

  Lemma collect_ok s m (HS : Shallow h s) : forall fuel level x d vs, Dig h fuel x -> InTree h r x -> Room s x level ->
    exists d', collect_options fuel h m level x (d, vs) = Ok (d', vs ++ map vof (picks m fuel x)) /\
      (level <> 0 -> d' = d) /\
      (level = 0 -> picks m fuel x = [] -> d' = or_else d (option_map vof (hd_error (filter opt (kids h x))))).
  Proof.
    induction fuel as [|f IH]; intros level x d vs Hd Hx HR; [destruct (dig_pos h wf _ _ Hd); discriminate|].
    rewrite collect_unfold, picks_unfold.
    assert (HC : forall c, In c (kids h x) -> Child h x c) by (intros c; apply child_in).
    revert d vs HC. induction (kids h x) as [|c cs IHc]; intros d vs HC.
    - exists d. cbn. rewrite app_nil_r. split; [reflexivity|]. split; [reflexivity|]. intros _ _. destruct d; reflexivity.
    - specialize (fun d vs => IHc d vs (fun k Hk => HC k (or_intror Hk))).
      pose proof (HC c (or_introl eq_refl)) as Hc. cbn [walk go filter].
      destruct (is_element h c) eqn:Ee.
      2:{ assert (Eo : opt c = false) by (unfold opt; rewrite Ee; reflexivity). rewrite Eo. exact (IHc d vs). }
      assert (Hce : ElIn h r c) by (split; [exact (intree_down h r x c Hx (or_intror (Anc_child h _ _ Hc))) | exact Ee]).
      assert (Eo : tag_is h c (lit "option") = opt c) by (unfold opt; rewrite Ee; reflexivity). rewrite Eo.
      destruct (opt c) eqn:Eoc.
      + rewrite (sel_spec c Hce). cbn [rbind fst snd]. rewrite (vof_ok c Hce). cbn [rbind].
        destruct (sel c) eqn:Es; cbn [orb].
        * destruct m.
          -- destruct (IHc d (vs ++ [vof c])) as (d' & E1 & E2 & E3). exists d'. rewrite E1, <- app_assoc. split; [reflexivity|].
             split; [exact E2 | discriminate].
          -- exists d. split; [reflexivity|]. split; [reflexivity | discriminate].
        * destruct d as [d0|]; cbn [andb].
          -- destruct (IHc (Some d0) vs) as (d' & E1 & E2 & E3). exists d'. split; [exact E1|]. split; [exact E2|].
             intros H1 H2. rewrite (E3 H1 H2). reflexivity.
          -- destruct (level =? 0) eqn:El.
             ++ apply Nat.eqb_eq in El. destruct (IHc (Some (vof c)) vs) as (d' & E1 & E2 & E3). exists d'. split; [exact E1|].
                split; [congruence|]. intros H1 H2. rewrite (E3 H1 H2). reflexivity.
             ++ destruct (IHc None vs) as (d' & E1 & E2 & E3). exists d'. split; [exact E1|]. split; [exact E2|].
                intros H1. apply Nat.eqb_neq in El. congruence.
      + destruct (room_child s x level c HR Hc Ee Eoc HS) as [HRc Hlv].
        rewrite (proj2 (Nat.eqb_neq level top_level)) by lia.
        destruct (IH (S level) c d vs (dig_child h wf _ _ _ Hd Hc) (proj1 Hce) HRc) as (d1 & E1 & E2 & _).
        rewrite E1. cbn [rbind]. rewrite (E2 ltac:(discriminate)).
        destruct (IHc d (vs ++ map vof (picks m f c))) as (d' & F1 & F2 & F3). exists d'. rewrite F1, map_app, app_assoc. split; [reflexivity|].
        split; [exact F2|]. intros H1 H2. apply app_eq_nil in H2. exact (F3 H1 (proj2 H2)).
  Qed.

  Lemma opts_in : forall fuel x, Dig h fuel x -> forall y, In y (opts fuel x) <-> OptionOf h x y.
  Proof.
    induction fuel as [|f IH]; intros x Hd y; [destruct (dig_pos h wf _ _ Hd); discriminate|]. cbn [opts]. rewrite in_flat_map. split.
    - intros (c & Hc & Hy). apply child_in in Hc. destruct (is_element h c) eqn:Ee; [|destruct Hy]. destruct (opt c) eqn:Eo.
      + destruct Hy as [<- | []]. split; [apply Anc_child; exact Hc|]. split; [apply opt_spec; exact Eo|].
        intros k Hk Hkc _. pose proof (branch h wf x c k c Hc (or_introl eq_refl) Hk (or_intror Hkc)) as H.
        exact (no_cycle h wf c (anceq_anc h _ _ _ H Hkc)).
      + apply (IH c (dig_child h wf _ _ _ Hd Hc)) in Hy. destruct Hy as (Ha & Ho & Hb).
        split; [exact (anc_trans h _ _ _ (Anc_child h _ _ Hc) Ha)|]. split; [exact Ho|]. intros k Hk Hky Hko.
        destruct (branch h wf x c k y Hc (or_intror Ha) Hk (or_intror Hky)) as [<- | H]; [apply opt_spec in Hko; congruence | exact (Hb k H Hky Hko)].
    - intros (Ha & Ho & Hb). destruct (anc_first h _ _ Ha) as (c & Hc & Hcy). exists c. split; [apply child_in; exact Hc|].
      assert (Ee : is_element h c = true).
      { destruct Hcy as [-> | Hcy]; [exact (proj1 Ho)|]. destruct (anc_first h _ _ Hcy) as (k & (i & Hk) & _).
        destruct (wf_parent h wf _ _ (proj1 (proj2 (wf_listed h wf _ _ _ Hk)))) as [_ [H | H]]; [exact H|].
        apply (wf_root h wf) in H. destruct Hc as (j & Hj). rewrite (proj1 (proj2 (wf_listed h wf _ _ _ Hj))) in H. discriminate. }
      rewrite Ee. destruct (opt c) eqn:Eo.
      + destruct Hcy as [-> | Hcy]; [left; reflexivity|]. apply opt_spec in Eo. exfalso. exact (Hb c (Anc_child h _ _ Hc) Hcy Eo).
      + destruct Hcy as [-> | Hcy]; [apply opt_spec in Ho; congruence|]. apply (IH c (dig_child h wf _ _ _ Hd Hc)).
        split; [exact Hcy|]. split; [exact Ho|]. intros k Hk. exact (Hb k (anc_trans h _ _ _ (Anc_child h _ _ Hc) Hk)).
  Qed.
  Lemma opts_under fuel : forall x y, In y (opts fuel x) -> Anc h x y.
  Proof.
    induction fuel as [|f IH]; intros x y H; [destruct H|]. cbn [opts] in H. apply in_flat_map in H. destruct H as (c & Hc & H).
    apply child_in in Hc. destruct (is_element h c); [|destruct H]. destruct (opt c).
    - destruct H as [<- | []]. apply Anc_child. exact Hc.
    - exact (anc_trans h _ _ _ (Anc_child h _ _ Hc) (IH _ _ H)).
  Qed.
  Lemma opts_ordered fuel : forall x, Ordered h (opts fuel x).
  Proof.
    induction fuel as [|f IH]; intros x; [exact I|]. cbn [opts]. apply flat_kids_ordered. intros c Hc.
    destruct (is_element h c); [|split; [exact I | intros y []]]. destruct (opt c).
    - split; [split; [constructor | exact I]|]. intros y [<- | []]. left. reflexivity.
    - split; [apply IH|]. intros y Hy. right. exact (opts_under _ _ _ Hy).
  Qed.
  Lemma ordered_filter (f : id -> bool) l : Ordered h l -> Ordered h (filter f l).
  Proof.
    induction l as [|x l IH]; intros H; [exact I|]. destruct H as [H1 H2]. cbn. destruct (f x); [|exact (IH H2)]. split; [|exact (IH H2)].
    rewrite Forall_forall in *. intros y Hy. apply filter_In in Hy. exact (H1 y (proj1 Hy)).
  Qed.
  Lemma ordered_first l y : Ordered h l -> hd_error l = Some y -> FirstIn h (fun z => In z l) y.
  Proof.
    destruct l as [|x l]; [discriminate|]. intros [H _] E. injection E as ->. split; [left; reflexivity|].
    intros z [-> | Hz]; [left; reflexivity|]. right. rewrite Forall_forall in H. exact (H z Hz).
  Qed.
  Lemma first_ext (P Q : id -> Prop) y : (forall z, P z <-> Q z) -> FirstIn h P y -> FirstIn h Q y.
  Proof. intros E [H1 H2]. split; [apply E; exact H1|]. intros z Hz. apply H2, E, Hz. Qed.

  Section Select.
    Variable text_of : id -> str.
    Variable s : id.
    Hypothesis Hs : InTree h r s.
    Hypothesis Hel : is_element h s = true.
    Hypothesis Hn : tag_names h s = lit "select".
    Hypothesis HS : Shallow h s.

    Definition all_opts : list id := opts (S (length h)) s.
    Lemma all_opts_el y : In y all_opts -> ElIn h r y.
    Proof.
      intros H. apply (opts_in _ _ (dig_full h wf s)) in H. destruct H as (Ha & Ho & _).
      split; [exact (intree_down h r s y Hs (or_intror Ha)) | exact (proj1 Ho)].
    Qed.
    Lemma sel_opts_in y : In y (filter sel all_opts) <-> OptionOf h s y /\ Selected h y.
    Proof.
      rewrite filter_In. split.
      - intros [H1 H2]. split; [exact (proj1 (opts_in _ _ (dig_full h wf s) y) H1) | apply sel_iff; [apply all_opts_el; exact H1 | exact H2]].
      - intros [H1 H2]. assert (H : In y all_opts) by exact (proj2 (opts_in _ _ (dig_full h wf s) y) H1).
        split; [exact H | apply sel_iff; [apply all_opts_el; exact H | exact H2]].
    Qed.
    Lemma room_start : Room s s 0.
    Proof.
      exists []. split; [constructor|]. split; [reflexivity|]. intros c H1 H2. exfalso. exact (no_cycle h wf s (anc_anceq h _ _ _ H1 H2)).
    Qed.
    Lemma value_select m : node_has_attribute h s (lit "multiple") = Ok m -> exists d',
      value text_of h s = Ok (if m then Multiple (map vof (picks m (S (length h)) s))
        else match map vof (picks m (S (length h)) s) with v :: _ => Single v | [] => Single (match d' with Some v => v | None => [] end) end) /\
      (picks m (S (length h)) s = [] -> d' = option_map vof (hd_error (filter opt (kids h s)))).
    Proof.
      intros Em. destruct (collect_ok s m HS (S (length h)) 0 s None [] (dig_full h wf s) Hs room_start) as (d' & E1 & _ & E3).
      exists d'. split; [|exact (E3 eq_refl)]. unfold value, tag_is. rewrite Hn.
      change (str_eqb (lit "select") (lit "input")) with false. change (str_eqb (lit "select") (lit "option")) with false.
      change (str_eqb (lit "select") (lit "select")) with true. cbn [orb]. rewrite Em. cbn [rbind]. rewrite E1. reflexivity.
    Qed.

    Lemma value_multiple : node_has_attribute h s (lit "multiple") = Ok true -> exists ys vs,
      value text_of h s = Ok (Multiple vs) /\ Ordered h ys /\ Forall2 (HasValue h) ys vs /\
      forall y, In y ys <-> OptionOf h s y /\ Selected h y.
    Proof.
      intros Em. destruct (value_select true Em) as (d' & E & _). rewrite picks_all in E.
      exists (filter sel all_opts), (map vof (filter sel all_opts)). split; [exact E|].
      split; [apply ordered_filter, opts_ordered|]. split; [|exact sel_opts_in].
      assert (H : forall y, In y (filter sel all_opts) -> ElIn h r y) by (intros y Hy; apply filter_In in Hy; apply all_opts_el, Hy).
      induction (filter sel all_opts) as [|y l IH]; constructor; [apply vof_spec, H; left; reflexivity | apply IH; intros z Hz; apply H; right; exact Hz].
    Qed.

    Lemma value_single : node_has_attribute h s (lit "multiple") = Ok false -> exists v,
      value text_of h s = Ok (Single v) /\
      ((exists y, FirstIn h (fun z => OptionOf h s z /\ Selected h z) y /\ HasValue h y v) \/
       (~ exists y, OptionOf h s y /\ Selected h y) /\
       ((exists y, FirstIn h (fun z => Child h s z /\ IsOption h z) y /\ HasValue h y v) \/
        (~ exists y, Child h s y /\ IsOption h y) /\ v = [])).
    Proof.
      intros Em. destruct (value_select false Em) as (d' & E & Ed).
      pose proof (picks_first (S (length h)) s) as P. fold all_opts in P.
      destruct (picks false (S (length h)) s) as [|y ys] eqn:Ep.
      - cbn in E. specialize (Ed eq_refl).
        assert (HN : ~ exists y, OptionOf h s y /\ Selected h y).
        { intros (y & Hy). apply sel_opts_in in Hy. destruct (filter sel all_opts); [destruct Hy | discriminate]. }
        destruct (filter opt (kids h s)) as [|y l] eqn:Ef.
        + cbn in Ed. rewrite Ed in E. exists []. split; [exact E|]. right. split; [exact HN|]. right. split; [|reflexivity].
          intros (y & Hc & Ho). assert (H : In y (filter opt (kids h s))) by (apply filter_In; split; [apply child_in; exact Hc | apply opt_spec; exact Ho]).
          rewrite Ef in H. destruct H.
        + cbn in Ed. rewrite Ed in E. exists (vof y). split; [exact E|]. right. split; [exact HN|]. left. exists y.
          assert (HF : FirstIn h (fun z => Child h s z /\ IsOption h z) y).
          { apply (first_ext (fun z => In z (filter opt (kids h s)))).
            - intros z. rewrite filter_In, opt_spec, <- child_in. reflexivity.
            - apply ordered_first; [apply ordered_filter, kids_ordered | rewrite Ef; reflexivity]. }
          split; [exact HF|]. apply vof_spec. destruct HF as [[Hc Ho] _].
          split; [exact (intree_down h r s y Hs (or_intror (Anc_child h _ _ Hc))) | exact (proj1 Ho)].
      - cbn in E. cbn [hd_error] in P. exists (vof y). split; [exact E|]. left. exists y. symmetry in P. split.
        + apply (first_ext (fun z => In z (filter sel all_opts))); [exact sel_opts_in|].
          apply ordered_first; [apply ordered_filter, opts_ordered | exact P].
        + apply vof_spec, all_opts_el. destruct (filter sel all_opts) as [|z l] eqn:Ef; [cbn in P; discriminate|]. injection P as ->.
          assert (H : In y (filter sel all_opts)) by (rewrite Ef; left; reflexivity). apply filter_In in H. exact (proj1 H).
    Qed.
  End Select.

  (** * More levels than that *)
  (** The walk ends with a result or with the overflow. *)
  Lemma collect_total m : forall fuel level x st, Dig h fuel x -> InTree h r x ->
    collect_options fuel h m level x st <> OutOfFuel.
  Proof.
    induction fuel as [|f IH]; intros level x st Hd Hx; [destruct (dig_pos h wf _ _ Hd); discriminate|].
    rewrite collect_unfold.
    assert (HC : forall c, In c (kids h x) -> Child h x c) by (intros c; apply child_in).
    revert st HC. induction (kids h x) as [|c cs IHc]; intros st HC; [discriminate|].
    specialize (fun st => IHc st (fun k Hk => HC k (or_intror Hk))).
    pose proof (HC c (or_introl eq_refl)) as Hc. cbn [walk].
    destruct (is_element h c) eqn:Ee; [|apply IHc].
    assert (Hce : ElIn h r c) by (split; [exact (intree_down h r x c Hx (or_intror (Anc_child h _ _ Hc))) | exact Ee]).
    destruct (tag_is h c (lit "option")).
    - rewrite (sel_spec c Hce), (vof_ok c Hce). cbn [rbind].
      destruct (sel c); cbn [orb].
      + destruct m; [apply IHc | discriminate].
      + match goal with |- context [if ?b then _ else _] => destruct b end; apply IHc.
    - destruct (level =? top_level); [discriminate|].
      pose proof (IH (S level) c st (dig_child h wf _ _ _ Hd Hc) (proj1 Hce)) as H.
      destruct (collect_options f h m (S level) c st) as [st'| |]; cbn [rbind]; [apply IHc | discriminate | contradiction].
  Qed.

  Lemma collect_overflow s m : forall fuel level x st, Dig h fuel x -> InTree h r x -> Room s x level ->
    collect_options fuel h m level x st = Panic -> TooDeep h s.
  Proof.
    induction fuel as [|f IH]; intros level x st Hd Hx HR; [discriminate|]. rewrite collect_unfold.
    assert (HC : forall c, In c (kids h x) -> Child h x c) by (intros c; apply child_in).
    revert st HC. induction (kids h x) as [|c cs IHc]; intros st HC; [discriminate|].
    specialize (fun st => IHc st (fun k Hk => HC k (or_intror Hk))).
    pose proof (HC c (or_introl eq_refl)) as Hc. cbn [walk].
    destruct (is_element h c) eqn:Ee; [|apply IHc].
    assert (Hce : ElIn h r c) by (split; [exact (intree_down h r x c Hx (or_intror (Anc_child h _ _ Hc))) | exact Ee]).
    replace (tag_is h c (lit "option")) with (opt c) by (unfold opt; rewrite Ee; reflexivity). destruct (opt c) eqn:Eo.
    - rewrite (sel_spec c Hce), (vof_ok c Hce). cbn [rbind].
      destruct (sel c); cbn [orb].
      + destruct m; [apply IHc | discriminate].
      + match goal with |- context [if ?b then _ else _] => destruct b end; apply IHc.
    - pose proof (room_down s x level c HR Hc Eo) as HRc. destruct (Nat.eqb_spec level top_level) as [El | El].
      + intros _. destruct HRc as (l & Hl & Hn & Ho). exists l, c. split; [exact Hl|]. unfold top_level in El. split; [lia|].
        split; [exact Ee | exact Ho].
      + pose proof (collect_total m f (S level) c st (dig_child h wf _ _ _ Hd Hc) (proj1 Hce)) as H.
        destruct (collect_options f h m (S level) c st) as [st'| |] eqn:E; cbn [rbind]; [apply IHc | | contradiction].
        intros _. exact (IH _ _ _ (dig_child h wf _ _ _ Hd Hc) (proj1 Hce) HRc E).
  Qed.

  Lemma option_lift x c z : Child h x c -> ~ IsOption h c -> OptionOf h c z -> OptionOf h x z.
  Proof.
    intros Hc Ho (Ha & Hz & Hb). split; [exact (anc_trans h _ _ _ (Anc_child h _ _ Hc) Ha)|]. split; [exact Hz|]. intros k Hk Hkz Hko.
    destruct (branch h wf x c k z Hc (or_intror Ha) Hk (or_intror Hkz)) as [<- | H]; [exact (Ho Hko) | exact (Hb k H Hkz Hko)].
  Qed.
  Lemma option_child x c : Child h x c -> IsOption h c -> OptionOf h x c.
  Proof.
    intros Hc Ho. split; [apply Anc_child; exact Hc|]. split; [exact Ho|].
    intros k Hk Hkc _. pose proof (branch h wf x c k c Hc (or_introl eq_refl) Hk (or_intror Hkc)) as H.
    exact (no_cycle h wf c (anceq_anc h _ _ _ H Hkc)).
  Qed.
  (** Every option is looked at. *)
  Definition Whole (m : bool) (x : id) : Prop := m = true \/ forall z, OptionOf h x z -> ~ Selected h z.
  Lemma walk_panic m f level x y (Hd : Dig h (S f) x) (Hx : InTree h r x) (HW : Whole m x) :
    is_element h y = true -> opt y = false ->
    (level = top_level \/ forall st, collect_options f h m (S level) y st = Panic) ->
    forall cs st, (forall c, In c cs -> Child h x c) -> In y cs -> walk m f level cs st = Panic.
  Proof.
    intros Ey Oy HP. induction cs as [|c cs IHc]; intros st HC Hin; [destruct Hin|].
    pose proof (HC c (or_introl eq_refl)) as Hc. specialize (fun st => IHc st (fun k Hk => HC k (or_intror Hk))). cbn [walk].
    destruct Hin as [-> | Hin].
    - rewrite Ey. replace (tag_is h y (lit "option")) with (opt y) by (unfold opt; rewrite Ey; reflexivity). rewrite Oy.
      destruct HP as [-> | HP]; [rewrite Nat.eqb_refl; reflexivity|]. destruct (level =? top_level); [reflexivity|].
      rewrite HP. reflexivity.
    - destruct (is_element h c) eqn:Ee; [|exact (IHc _ Hin)].
      assert (Hce : ElIn h r c) by (split; [exact (intree_down h r x c Hx (or_intror (Anc_child h _ _ Hc))) | exact Ee]).
      replace (tag_is h c (lit "option")) with (opt c) by (unfold opt; rewrite Ee; reflexivity). destruct (opt c) eqn:Eo.
      + rewrite (sel_spec c Hce), (vof_ok c Hce). cbn [rbind]. destruct (sel c) eqn:Es; cbn [orb].
        * destruct HW as [-> | HW]; [exact (IHc _ Hin)|]. exfalso.
          apply (HW c); [apply option_child; [exact Hc | apply opt_spec; exact Eo] | apply (sel_iff c Hce); exact Es].
        * match goal with |- context [if ?b then _ else _] => destruct b end; exact (IHc _ Hin).
      + destruct (level =? top_level); [reflexivity|].
        pose proof (collect_total m f (S level) c st (dig_child h wf _ _ _ Hd Hc) (proj1 Hce)) as H.
        destruct (collect_options f h m (S level) c st) as [st'| |]; cbn [rbind]; [exact (IHc _ Hin) | reflexivity | contradiction].
  Qed.
  Lemma up_element x c y : Child h x c -> AncEq h c y -> is_element h y = true -> is_element h c = true.
  Proof.
    intros Hc [-> | Hcy] He; [exact He|]. destruct (anc_first h _ _ Hcy) as (k & (i & Hk) & _).
    destruct (wf_parent h wf _ _ (proj1 (proj2 (wf_listed h wf _ _ _ Hk)))) as [_ [H | H]]; [exact H|].
    apply (wf_root h wf) in H. destruct Hc as (j & Hj). rewrite (proj1 (proj2 (wf_listed h wf _ _ _ Hj))) in H. discriminate.
  Qed.
  Lemma collect_panic m y : is_element h y = true -> forall l fuel level x st, Dig h fuel x -> InTree h r x -> Whole m x ->
    Path h x l y -> level <= top_level -> top_level < level + length l ->
    (forall c, Anc h x c -> AncEq h c y -> ~ IsOption h c) -> collect_options fuel h m level x st = Panic.
  Proof.
    intros Ey. induction l as [|i l IH]; intros fuel level x st Hd Hx HW Hp Hl Hn Ho; [cbn in Hn; lia|].
    destruct fuel as [|f]; [destruct (dig_pos h wf _ _ Hd); discriminate|]. rewrite collect_unfold.
    destruct (path_cons_inv h _ _ _ _ Hp) as (c & Hc & Hcy). assert (HC : Child h x c) by (exists i; exact Hc).
    assert (Hle : AncEq h c y).
    { destruct l as [|j l]; [left; exact (eq_sym (path_nil_inv h _ _ Hcy))|]. right. apply anc_path. exists (j :: l).
      split; [discriminate | exact Hcy]. }
    pose proof (up_element x c y HC Hle Ey) as Ec.
    assert (Oc : ~ IsOption h c) by (apply Ho; [apply Anc_child; exact HC | exact Hle]).
    assert (Eo : opt c = false) by (destruct (opt c) eqn:E; [apply opt_spec in E; contradiction | reflexivity]).
    apply (walk_panic m f level x c Hd Hx HW Ec Eo); [|intros k; apply child_in | apply child_in; exact HC].
    destruct (Nat.eq_dec level top_level) as [E | E]; [left; exact E|]. right. intros st'.
    apply IH; [exact (dig_child h wf _ _ _ Hd HC) | exact (intree_down h r x c Hx (or_intror (Anc_child h _ _ HC))) | | exact Hcy | lia | cbn [length] in Hn; lia |].
    - destruct HW as [HW | HW]; [left; exact HW|]. right. intros z Hz. apply HW. exact (option_lift x c z HC Oc Hz).
    - intros k Hk. apply Ho. exact (anc_trans h _ _ _ (Anc_child h _ _ HC) Hk).
  Qed.
  Lemma value_deep text_of s : ElIn h r s -> tag_names h s = lit "select" -> TooDeep h s ->
    node_has_attribute h s (lit "multiple") = Ok true \/ (forall z, OptionOf h s z -> ~ Selected h z) ->
    value text_of h s = Panic.
  Proof.
    intros [Hs He] Hn (l & y & Hp & Hl & Ey & Ho) HM. unfold value, tag_is. rewrite Hn.
    change (str_eqb (lit "select") (lit "input")) with false. change (str_eqb (lit "select") (lit "option")) with false.
    change (str_eqb (lit "select") (lit "select")) with true. cbn [orb].
    unfold node_has_attribute in *. destruct (attr_total s (lit "multiple") Hs He) as (a & Ea). rewrite Ea in *. cbn [rbind] in *.
    rewrite (collect_panic _ y Ey l (S (length h)) 0 s (None, []) (dig_full h wf s) Hs).
    - reflexivity.
    - destruct HM as [HM | HM]; [left; injection HM; trivial | right; exact HM].
    - exact Hp.
    - lia.
    - unfold top_level. lia.
    - exact Ho.
  Qed.
  Lemma value_overflow text_of s : ElIn h r s -> tag_names h s = lit "select" -> value text_of h s <> OutOfFuel /\
    (value text_of h s = Panic -> TooDeep h s).
  Proof.
    intros [Hs He] Hn. unfold value, tag_is. rewrite Hn.
    change (str_eqb (lit "select") (lit "input")) with false. change (str_eqb (lit "select") (lit "option")) with false.
    change (str_eqb (lit "select") (lit "select")) with true. cbn [orb].
    unfold node_has_attribute in *. destruct (attr_total s (lit "multiple") Hs He) as (a & Ea). rewrite Ea in *. cbn [rbind] in *.
    set (m := match a with Some _ => true | None => false end) in *.
    pose proof (collect_total m (S (length h)) 0 s (None, []) (dig_full h wf s) Hs) as HT.
    pose proof (collect_overflow s m (S (length h)) 0 s (None, []) (dig_full h wf s) Hs (room_start s)) as HO.
    destruct (collect_options (S (length h)) h m 0 s (None, [])) as [st| |]; cbn [rbind] in *;
      [split; discriminate | split; [discriminate | intros _; exact (HO eq_refl)] | contradiction].
  Qed.
End Form.
