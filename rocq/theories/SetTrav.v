(** Traversals from a set of elements: children, parent, next, prev, siblings, ... without and with a filter. *)
From Verif Require Import Base Utils UtilsSpec Attr AttrSpec Dom DomSpec Order DomProofs OrderSpec OrderProofs
  Sets SetsProofs AddProofs NavProofs Engine Rules Traverse SelSpec FindSpec TravSpec SetSpec OneProofs PreProofs SelBool SibLists SibProofs StepProofs BackProofs FilterProofs
  RuleProofs FindProofs FindRules SelectProofs TravProofs.
From Coq Require Import Sorting.Permutation.

(** * One element per parent *)
Lemma firsts_same h l : forall seen, ForallOrdPairs (fun x y => parent h x <> parent h y) l -> (forall x, In x l -> ~ In (parent h x) seen) -> firsts h seen l = l.
Proof.
  intros seen H. revert seen. induction H as [|x l Hf _ IH]; intros seen Hs; [reflexivity|]. cbn [firsts].
  destruct (existsb (opt_eqb (parent h x)) seen) eqn:E.
  - exfalso. apply existsb_exists in E. destruct E as (o & Ho & E). apply opt_eqb_spec in E. subst o. exact (Hs x (or_introl eq_refl) Ho).
  - f_equal. apply IH. intros y Hy [Ey | Hy']; [|exact (Hs y (or_intror Hy) Hy')]. rewrite Forall_forall in Hf. exact (Hf y Hy Ey).
Qed.
Lemma firsts_idem h l : firsts h [] (firsts h [] l) = firsts h [] l.
Proof. apply firsts_same; [apply firsts_distinct | intros x _ []]. Qed.
Definition seen_in (h : heap) (l : list id) (x : id) : bool := existsb (fun y => opt_eqb (parent h x) (parent h y)) l.
Lemma seen_in_spec h l x : seen_in h l x = true <-> exists y, In y l /\ parent h y = parent h x.
Proof.
  unfold seen_in. rewrite existsb_exists. split; intros (y & Hy & E); exists y; (split; [exact Hy|]).
  - apply opt_eqb_spec in E. congruence.
  - apply opt_eqb_spec. congruence.
Qed.
Lemma firsts_snoc h l x : forall seen, firsts h seen (l ++ [x]) =
  firsts h seen l ++ (if existsb (opt_eqb (parent h x)) seen || seen_in h l x then [] else [x]).
Proof.
  induction l as [|y l IH]; intros seen; cbn [firsts app seen_in existsb].
  - rewrite orb_false_r. destruct (existsb (opt_eqb (parent h x)) seen); reflexivity.
  - fold (seen_in h l x). destruct (existsb (opt_eqb (parent h y)) seen) eqn:E.
    + rewrite IH. destruct (opt_eqb (parent h x) (parent h y)) eqn:Exy; [|reflexivity]. apply opt_eqb_spec in Exy. rewrite Exy, E. reflexivity.
    + rewrite IH. cbn [app existsb]. rewrite orb_assoc. f_equal. f_equal. rewrite (orb_comm (existsb _ seen)). reflexivity.
Qed.

(** * unique_all_siblings *)
Lemma rfold_snoc {A B} (f : A -> B -> res A) l x : forall s, rfold f (l ++ [x]) s = (do s' <- rfold f l s; f s' x).
Proof.
  induction l as [|y l IH]; intros s; cbn [rfold app rbind].
  - destruct (f s x); reflexivity.
  - destruct (f s y); cbn [rbind]; [apply IH | reflexivity | reflexivity].
Qed.
Definition from (h : heap) (p : id) (y : id) : bool := opt_eqb (parent h y) (Some p).
(** More than one element of the list is a child of [p]. *)
Definition multi (h : heap) (l : list id) (p : id) : bool := 2 <=? length (filter (from h p) l).
(** What is kept for the first element [x] of a parent. *)
Definition ua_out (h : heap) (l : list id) (x : id) : id * bool :=
  match parent h x with Some p => if multi h l p then (p, true) else (x, false) | None => (x, false) end.
Fixpoint ua_pos_of (h : heap) (p : id) (l : list id) : option nat :=
  match l with
  | [] => None
  | x :: l' => if from h p x then Some 0 else option_map S (ua_pos_of h p l')
  end.
Lemma from_spec h p y : from h p y = true <-> parent h y = Some p.
Proof. apply opt_eqb_spec. Qed.
Lemma ua_pos_none h p l : ua_pos_of h p l = None <-> forall x, In x l -> parent h x <> Some p.
Proof.
  induction l as [|y l IH]; cbn [ua_pos_of]; [split; [intros _ x [] | reflexivity]|]. destruct (from h p y) eqn:E.
  - apply from_spec in E. split; [discriminate|]. intros H. destruct (H y (or_introl eq_refl) E).
  - assert (Hy : parent h y <> Some p) by (intros Ey; apply from_spec in Ey; congruence). split.
    + intros H. destruct (ua_pos_of h p l); [discriminate|]. intros x [<- | Hx]; [exact Hy | exact (proj1 IH eq_refl x Hx)].
    + intros H. rewrite (proj2 IH); [reflexivity|]. intros x Hx. exact (H x (or_intror Hx)).
Qed.
Lemma ua_pos_snoc h p l x : ua_pos_of h p (l ++ [x]) =
  match ua_pos_of h p l with Some i => Some i | None => if from h p x then Some (length l) else None end.
Proof.
  induction l as [|y l IH]; cbn [ua_pos_of app length]; [destruct (from h p x); reflexivity|]. destruct (from h p y); [reflexivity|]. rewrite IH.
  destruct (ua_pos_of h p l); [reflexivity|]. destruct (from h p x); reflexivity.
Qed.
Lemma ua_find_mark k k' l : ua_find k (ua_mark k' l) =
  option_map (fun e => if idx_eqb k' k then mkUA (ua_path e) (ua_pos e) true (ua_parent e) else e) (ua_find k l).
Proof.
  induction l as [|e l IH]; [reflexivity|]. cbn [ua_mark map ua_find]. fold (ua_mark k' l).
  assert (Ep : ua_path (if idx_eqb k' (ua_path e) then mkUA (ua_path e) (ua_pos e) true (ua_parent e) else e) = ua_path e) by (destruct (idx_eqb k' (ua_path e)); reflexivity).
  rewrite Ep. destruct (idx_eqb k (ua_path e)) eqn:E; [|exact IH]. cbn [option_map]. apply idx_eqb_spec in E. rewrite <- E. reflexivity.
Qed.
Lemma replace_at_map {A B} (f g : A -> B) (l1 l2 : list A) x v : (forall y, In y l1 \/ In y l2 -> f y = g y) -> g x = v ->
  replace_at (map f (l1 ++ x :: l2)) (length l1) v = map g (l1 ++ x :: l2).
Proof.
  intros H <-. induction l1 as [|y l1 IH]; cbn [app map length replace_at].
  - f_equal. apply map_ext_in. intros y Hy. apply H. right. exact Hy.
  - f_equal; [apply H; left; left; reflexivity|]. apply IH. intros z [Hz | Hz]; apply H; [left; right; exact Hz | right; exact Hz].
Qed.
Lemma ua_pos_split h p l i : ua_pos_of h p l = Some i -> exists l1 x l2, l = l1 ++ x :: l2 /\ length l1 = i /\ parent h x = Some p.
Proof.
  revert i. induction l as [|y l IH]; intros i; cbn [ua_pos_of]; [discriminate|]. destruct (from h p y) eqn:E.
  - intros H. injection H as <-. exists [], y, l. split; [reflexivity|]. split; [reflexivity | apply from_spec; exact E].
  - destruct (ua_pos_of h p l) as [j|]; [|discriminate]. intros H. injection H as <-. destruct (IH j eq_refl) as (l1 & x & l2 & -> & <- & Ex).
    exists (y :: l1), x, l2. split; [reflexivity|]. split; [reflexivity | exact Ex].
Qed.
Lemma multi_snoc h l x p : multi h (l ++ [x]) p = (2 <=? length (filter (from h p) l) + (if from h p x then 1 else 0)).
Proof. unfold multi. rewrite filter_app, app_length. cbn [filter]. destruct (from h p x); reflexivity. Qed.
Lemma multi_other h l x p : parent h x <> Some p -> multi h (l ++ [x]) p = multi h l p.
Proof.
  intros H. rewrite multi_snoc. destruct (from h p x) eqn:E; [apply from_spec in E; contradiction|]. rewrite Nat.add_0_r. reflexivity.
Qed.

Section SetTrav.
  Variable h : heap.
  Variable r : id.
  Hypothesis D : DocOk h r.
  Let wf : WF h := do_wf h r D.

  Lemma ua_fold l : Forall (ElIn h r) l -> exists seen,
    rfold (ua_step h) l ([], []) = Ok (seen, map (ua_out h l) (firsts h [] l)) /\
    forall p, InTree h r p -> ua_find (key h p) seen = option_map (fun i => mkUA (key h p) i (multi h l p) p) (ua_pos_of h p (firsts h [] l)).
  Proof.
    induction l as [|x l IH] using rev_ind; intros HE; [exists []; split; [reflexivity | intros p _; reflexivity]|].
    apply Forall_app in HE. destruct HE as [HE Hx]. apply Forall_inv in Hx. destruct (IH HE) as (seen & E & HF). clear IH.
    destruct (el_parent h r D x Hx) as (p & Ep & Hp & _). rewrite rfold_snoc, E. cbn [rbind ua_step]. rewrite Ep, (tree_indexs_key h wf p). cbn [rbind].
    rewrite (HF p Hp), firsts_snoc. cbn [existsb orb]. destruct (ua_pos_of h p (firsts h [] l)) as [i|] eqn:Ei; cbn [option_map].
    - destruct (ua_pos_split h p _ i Ei) as (l1 & x' & l2 & El & Hl & Ex').
      assert (Hs : seen_in h l x = true).
      { apply seen_in_spec. exists x'. split; [|congruence]. apply (firsts_sub h l []). rewrite El. apply in_elt. }
      rewrite Hs, app_nil_r. cbn [ua_changed ua_pos ua_parent].
      assert (Hone : forall y, In y (firsts h [] l) -> parent h y = Some p -> y = x').
      { intros y Hy Ey. pose proof (firsts_distinct h l []) as HD. rewrite El in HD, Hy. apply pairs_app in HD. destruct HD as (_ & HD & HD1).
        inversion HD as [|a b HD2 _]; subst. apply in_app_or in Hy. destruct Hy as [Hy | [Hy | Hy]]; [|congruence|].
        - destruct (HD1 y x' Hy (or_introl eq_refl)). congruence.
        - rewrite Forall_forall in HD2. destruct (HD2 y Hy). congruence. }
      assert (Hcnt : 1 <= length (filter (from h p) l)).
      { assert (Hi : In x' (filter (from h p) l)) by (apply filter_In; split; [apply (firsts_sub h l []); rewrite El; apply in_elt | apply from_spec; exact Ex']).
        destruct (filter (from h p) l); [destruct Hi | cbn; lia]. }
      assert (Hmul : multi h (l ++ [x]) p = true).
      { rewrite multi_snoc. replace (from h p x) with true by (symmetry; apply from_spec; exact Ep). apply Nat.leb_le. lia. }
      assert (Hoth : forall y, parent h y <> Some p -> ua_out h (l ++ [x]) y = ua_out h l y).
      { intros y Hy. unfold ua_out. destruct (parent h y) as [q|]; [|reflexivity]. rewrite (multi_other h l x q); [reflexivity | congruence]. }
      destruct (multi h l p) eqn:Em.
      + exists seen. split.
        * f_equal. f_equal. apply map_ext_in. intros y Hy. destruct (opt_eqb (parent h y) (Some p)) eqn:Ey.
          -- apply opt_eqb_spec in Ey. unfold ua_out. rewrite Ey, Em, Hmul. reflexivity.
          -- symmetry. apply Hoth. intros H. apply opt_eqb_spec in H. congruence.
        * intros q Hq. rewrite (HF q Hq). destruct (Nat.eq_dec q p) as [-> | Hne]; [rewrite Em, Hmul; reflexivity|].
          rewrite (multi_other h l x q) by congruence. reflexivity.
      + eexists. split.
        * f_equal. f_equal. rewrite El, <- Hl. apply replace_at_map; [|unfold ua_out; rewrite Ex', Hmul; reflexivity].
          intros y Hy. symmetry. apply Hoth. intros Ey. pose proof (firsts_distinct h l []) as HD. rewrite El in HD. apply pairs_app in HD. destruct HD as (_ & HD & HD1).
          inversion HD as [|a b HD2 _]; subst. destruct Hy as [Hy | Hy].
          -- destruct (HD1 y x' Hy (or_introl eq_refl)). congruence.
          -- rewrite Forall_forall in HD2. destruct (HD2 y Hy). congruence.
        * intros q Hq. rewrite ua_find_mark, (HF q Hq). destruct (Nat.eq_dec q p) as [-> | Hne].
          -- rewrite Ei, Hmul. cbn [option_map ua_path ua_pos ua_parent]. replace (idx_eqb (key h p) (key h p)) with true by (symmetry; apply idx_eqb_spec; reflexivity). reflexivity.
          -- rewrite (multi_other h l x q) by congruence. destruct (idx_eqb (key h p) (key h q)) eqn:Ek.
             ++ apply idx_eqb_spec in Ek. destruct Hne. symmetry. exact (key_inj h wf r p q Hp Hq Ek).
             ++ destruct (ua_pos_of h q (firsts h [] l)); reflexivity.
    - assert (Hnone : forall y, In y l -> parent h y <> Some p).
      { intros y Hy Ey. destruct (firsts_cover h l y Hy) as (z & Hz & Ez). exact (proj1 (ua_pos_none h p _) Ei z Hz ltac:(congruence)). }
      assert (Hs : seen_in h l x = false).
      { destruct (seen_in h l x) eqn:Es; [|reflexivity]. apply seen_in_spec in Es. destruct Es as (y & Hy & Ey). destruct (Hnone y Hy). congruence. }
      rewrite Hs.
      assert (Hzero : filter (from h p) l = []).
      { apply filter_nil. intros y Hy. destruct (from h p y) eqn:Ey; [|reflexivity]. apply from_spec in Ey. destruct (Hnone y Hy Ey). }
      assert (Hmul : multi h (l ++ [x]) p = false) by (rewrite multi_snoc, Hzero; cbn [length]; destruct (from h p x); reflexivity).
      eexists. split.
      + f_equal. f_equal. rewrite map_app. cbn [map]. f_equal.
        * apply map_ext_in. intros y Hy. unfold ua_out. destruct (parent h y) as [q|] eqn:Ey; [|reflexivity]. rewrite (multi_other h l x q); [reflexivity|].
          intros Eq. apply (Hnone y (firsts_sub h l [] y Hy)). congruence.
        * unfold ua_out. rewrite Ep, Hmul. reflexivity.
      + intros q Hq. rewrite map_length. cbn [ua_find ua_path]. rewrite ua_pos_snoc. destruct (idx_eqb (key h q) (key h p)) eqn:Ek.
        * apply idx_eqb_spec in Ek. pose proof (key_inj h wf r q p Hq Hp Ek) as ->. rewrite Ei, Hmul. replace (from h p x) with true by (symmetry; apply from_spec; exact Ep). reflexivity.
        * assert (Hne : q <> p) by (intros ->; rewrite (proj2 (idx_eqb_spec _ _) eq_refl) in Ek; discriminate).
          assert (Hf : from h q x = false) by (destruct (from h q x) eqn:Ef; [apply from_spec in Ef; congruence | reflexivity]).
          rewrite Hf, (HF q Hq), (multi_other h l x q) by congruence. destruct (ua_pos_of h q (firsts h [] l)); reflexivity.
  Qed.
  Lemma ua_ok l : Forall (ElIn h r) l -> unique_all_siblings h l = Ok (map (ua_out h l) (firsts h [] l)).
  Proof. intros HE. destruct (ua_fold l HE) as (seen & E & _). unfold unique_all_siblings. rewrite E. reflexivity. Qed.

  (** * The lists each step forms *)
  Definition set_base (c : comb) (els : list id) : list id :=
    match c with
    | Children => flat_map (children h) els
    | Next => flat_map (next_list h) els
    | Prev => flat_map (prev_list h) els
    | NextAll => flat_map (following_list h) (firsts h [] els)
    | PrevAll => flat_map (preceding_list h) (rev (firsts h [] (rev els)))
    | Parent => flat_map (parent_el h) (firsts h [] els)
    | _ => []
    end.
  Definition plain_step (c : comb) : bool := match c with Children | Next | Prev | NextAll | PrevAll | Parent => true | _ => false end.
  Section Base.
    Variable els : list id.
    Hypothesis HE : Forall (ElIn h r) els.
    Hypothesis HI : SibInc h els.
    Let Hel : forall e, In e els -> ElIn h r e.
    Proof. intros e He. rewrite Forall_forall in HE. exact (HE e He). Qed.
    Let Hin : forall e, In e els -> InTree h r e := fun e He => proj1 (Hel e He).
    Let HS : Forall (Start h r) els.
    Proof. apply Forall_forall. intros e He. exact (el_start h r e (Hel e He)). Qed.
    Let HN : NoDup els := sibinc_nodup h r D els HE HI.
    Let lasts := rev (firsts h [] (rev els)).
    Let lasts_sub e : In e lasts -> In e els.
    Proof. intros He. apply in_rev in He. apply firsts_sub in He. apply in_rev. exact He. Qed.

    (** The last listed element of a parent has the largest index. *)
    Let lasts_cover e : In e els -> exists e', In e' lasts /\ parent h e' = parent h e /\ index h e <= index h e'.
    Proof.
      intros He. destruct (firsts_cover h (rev els) e (proj1 (in_rev _ _) He)) as (e' & He' & Ep). exists e'. split; [apply -> in_rev; exact He'|]. split; [exact Ep|].
      apply in_firsts in He'. destruct He' as (l1 & l2 & El & _ & Hd).
      assert (El' : els = rev l2 ++ e' :: rev l1) by (rewrite <- (rev_involutive els), El, rev_app_distr; cbn; rewrite <- app_assoc; reflexivity).
      pose proof (Hel e He) as Hee. destruct (el_parent h r D e Hee) as (p & Ep' & _). rewrite El' in He. apply in_app_or in He. destruct He as [He | [<- | He]]; [|lia|].
      - pose proof HI as P. rewrite El' in P. unfold SibInc in P. apply pairs_app in P. destruct P as (_ & _ & P).
        pose proof (P e e' He (or_introl eq_refl) p Ep' ltac:(congruence)). lia.
      - exfalso. apply in_rev in He. exact (Hd e He (eq_sym Ep)).
    Qed.
    Lemma prev_set : SibInc h (flat_map (prev_list h) els) /\ forall y, In y (flat_map (prev_list h) els) <-> exists e, In e els /\ Rel h Prev e y.
    Proof.
      split.
      - apply pairs_flat; [intros e _; unfold prev_list; destruct (hd_error _); repeat constructor|].
        pose proof HI as HP. revert HP. apply pairs_imp. intros u v Hu Hv Huv y z Hy Hz p Ey Ez. apply (in_prev h r D u y (Hin u Hu)) in Hy. apply (in_prev h r D v z (Hin v Hv)) in Hz.
        destruct (preceding_facts h r D u y (Hin u Hu) (prev_preceding h u y Hy)) as (Hye & Epy & Hiy).
        destruct (preceding_facts h r D v z (Hin v Hv) (prev_preceding h v z Hz)) as (Hze & Epz & Hiz).
        assert (Hlt : index h u < index h v) by (apply (Huv p); congruence).
        assert (HPv : Preceding h v u) by (apply (preceding_intro h r D v u (Hin v Hv) (Hel u Hu)); congruence).
        pose proof (prev_max h r D v z u (Hin v Hv) Hz HPv). lia.
      - intros y. rewrite in_flat_map. split; intros (e & He & Hy); exists e; (split; [exact He|]); apply (in_prev h r D e y (Hin e He)); exact Hy.
    Qed.
    Lemma prev_all_set : SibInc h (flat_map (preceding_list h) lasts) /\ forall y, In y (flat_map (preceding_list h) lasts) <-> exists e, In e els /\ Rel h PrevAll e y.
    Proof.
      split.
      - apply pairs_flat.
        + intros e He. apply (ordered_sibinc h r D); [|exact (preceding_sorted h e)]. apply Forall_forall. intros y Hy.
          apply (in_preceding h r D e y (Hin e (lasts_sub e He))) in Hy. exact (proj1 (preceding_facts h r D e y (Hin e (lasts_sub e He)) Hy)).
        + unfold lasts. apply pairs_rev. pose proof (firsts_distinct h (rev els) []) as HP. revert HP. apply pairs_imp. intros u v Hu Hv Hne y z Hy Hz p Ey Ez.
          exfalso. apply Hne. apply in_rev in Hu, Hv. fold lasts in Hu, Hv. apply (in_preceding h r D v y (Hin v (lasts_sub v Hv))) in Hy. apply (in_preceding h r D u z (Hin u (lasts_sub u Hu))) in Hz.
          destruct (preceding_facts h r D v y (Hin v (lasts_sub v Hv)) Hy) as (_ & E1 & _). destruct (preceding_facts h r D u z (Hin u (lasts_sub u Hu)) Hz) as (_ & E2 & _). congruence.
      - intros y. rewrite in_flat_map. split.
        + intros (e & He & Hy). exists e. split; [exact (lasts_sub e He)|]. apply (in_preceding h r D e y (Hin e (lasts_sub e He))). exact Hy.
        + intros (e & He & Hy). cbn in Hy. destruct (lasts_cover e He) as (e' & He' & Ep & Hle). exists e'. split; [exact He'|]. pose proof (Hin e' (lasts_sub e' He')) as Hi'.
          destruct (preceding_facts h r D e y (Hin e He) Hy) as (Hye & Epy & Hiy). apply (in_preceding h r D e' y Hi'). apply (preceding_intro h r D e' y Hi' Hye).
          * destruct (el_parent h r D e' (Hel e' (lasts_sub e' He'))) as (p & -> & _). discriminate.
          * congruence.
          * lia.
    Qed.
    Lemma parent_set : NoDup (flat_map (parent_el h) (firsts h [] els)) /\ forall y, In y (flat_map (parent_el h) (firsts h [] els)) <-> exists e, In e els /\ Rel h Parent e y.
    Proof.
      split.
      - apply pairs_ne. apply pairs_flat; [intros e _; unfold parent_el; destruct (parent h e) as [p|]; [destruct (is_root h p)|]; repeat constructor|].
        pose proof (firsts_distinct h els []) as HP. revert HP. apply pairs_imp. intros u v Hu Hv Hne y z Hy Hz ->. apply Hne. unfold parent_el in Hy, Hz.
        destruct (parent h u) as [p|]; [|destruct Hy]. destruct (parent h v) as [q|]; [|destruct Hz]. destruct (is_root h p); [destruct Hy|]. destruct (is_root h q); [destruct Hz|].
        destruct Hy as [-> | []], Hz as [-> | []]. reflexivity.
      - intros y. rewrite in_flat_map. split.
        + intros (e & He & Hy). apply firsts_sub in He. exists e. split; [exact He|]. apply (in_step h r D Parent e y eq_refl (Hel e He)). exact Hy.
        + intros (e & He & Hy). destruct (firsts_cover h els e He) as (e' & He' & Ep). exists e'. split; [exact He'|].
          apply (in_step h r D Parent e y eq_refl (Hel e He)) in Hy. cbn [step_list] in Hy. unfold parent_el in *. rewrite Ep. exact Hy.
    Qed.
    Lemma base_facts c : plain_step c = true -> NoDup (set_base c els) /\ Forall (ElIn h r) (set_base c els) /\ (c <> Parent -> SibInc h (set_base c els)) /\
      forall y, In y (set_base c els) <-> exists e, In e els /\ Rel h c e y.
    Proof.
      intros Hc.
      assert (HM : (c <> Parent -> SibInc h (set_base c els)) /\ forall y, In y (set_base c els) <-> exists e, In e els /\ Rel h c e y).
      { destruct c; try discriminate; cbn [set_base].
        - destruct (kids_base h r D els HS HN) as (_ & H1 & _ & H2). split; [intros _; exact H1 | exact H2].
        - split; [congruence | exact (proj2 parent_set)].
        - destruct (nexts_base h r D els HS HN HI) as (_ & H1 & _ & H2). split; [intros _; exact H1 | exact H2].
        - destruct (next_base h r D els HS HI) as (_ & H1 & _ & H2). split; [intros _; exact H1 | exact H2].
        - split; [intros _; exact (proj1 prev_all_set) | exact (proj2 prev_all_set)].
        - split; [intros _; exact (proj1 prev_set) | exact (proj2 prev_set)]. }
      destruct HM as [H1 H2]. assert (HF : Forall (ElIn h r) (set_base c els)).
      { apply Forall_forall. intros y Hy. apply H2 in Hy. destruct Hy as (e & He & Hy). apply (rel_sym_el h r D c e y); [destruct c; discriminate || reflexivity | exact (Hel e He) | exact Hy]. }
      split; [|split; [exact HF|]; split; [exact H1 | exact H2]].
      destruct (comb_eqb c Parent) eqn:E; [|apply (sibinc_nodup h r D); [exact HF | apply H1; intros ->; discriminate]].
      destruct c; try discriminate. exact (proj1 parent_set).
    Qed.

    Lemma all_select c : plain_step c = true -> select_by_rule h els all_matcher c = Ok (set_base c els).
    Proof.
      intros Hc. assert (HT : Forall (InTree h r) els) by (apply Forall_forall; exact Hin). destruct c; try discriminate; cbn [select_by_rule set_base mt_one mt_spec all_matcher apply get_all_handle mt_all rbind].
      - apply rflat_ok. reflexivity.
      - rewrite (us_first h r D els HT). reflexivity.
      - rewrite (us_first h r D els HT). cbn [rbind]. apply rflat_ok. intros e He. rewrite (nexts_eq h r D e (Hin e (firsts_sub h els [] e He))). reflexivity.
      - f_equal. apply flat_map_ext. intros e. apply next_eq.
      - rewrite (us_last h r D els HT). cbn [rbind]. apply rflat_ok. intros e He. rewrite (prevs_eq h r D e (Hin e (lasts_sub e He))). reflexivity.
      - rewrite (rflat_ok _ (prev_list h)); [reflexivity|]. intros e He. exact (prev_eq h r D e (Hin e He)).
    Qed.
  End Base.
  Lemma sel_all c els : find_selector h els (from_segment (make_comb_all c)) = if nonempty els then select_by_rule h els all_matcher c else Ok [].
  Proof.
    unfold find_selector, from_segment, make_comb_all, find_process, find_first, select. destruct (nonempty els); [|reflexivity].
    cbn [nonempty rfold query should_in rnth nth_error rbind tl mt_cache all_matcher andb]. change (mkMatcher _ None None 0%N false) with all_matcher.
    destruct (select_by_rule h els all_matcher c) as [l| |]; try reflexivity. cbn [rbind chain_rest]. destruct l as [|y l]; reflexivity.
  Qed.
  Lemma base_nil c : set_base c [] = [].
  Proof. destruct c; reflexivity. Qed.
  Lemma base_firsts c els : c = Parent \/ c = NextAll -> set_base c (firsts h [] els) = set_base c els.
  Proof. intros [-> | ->]; cbn [set_base]; rewrite firsts_idem; reflexivity. Qed.
  Lemma base_lasts els : set_base PrevAll (rev (firsts h [] (rev els))) = set_base PrevAll els.
  Proof. cbn [set_base]. rewrite rev_involutive, firsts_idem. reflexivity. Qed.
  Lemma firsts_els els : Forall (ElIn h r) els -> Forall (ElIn h r) (firsts h [] els).
  Proof. rewrite !Forall_forall. intros H x Hx. apply H. exact (firsts_sub h els [] x Hx). Qed.
  Lemma lasts_els els : Forall (ElIn h r) els -> Forall (ElIn h r) (rev (firsts h [] (rev els))).
  Proof. intros H. apply Forall_rev. apply firsts_els. apply Forall_rev. exact H. Qed.
  Lemma els_in els : Forall (ElIn h r) els -> Forall (InTree h r) els.
  Proof. apply Forall_impl. intros x Hx. apply Hx. Qed.

  (** * Sorting *)
  Lemma sort_nodup l : AllIn h r l -> NoDup l -> exists l', sort h l = Ok l' /\ Ordered h l' /\ forall y, In y l' <-> In y l.
  Proof.
    intros H1 Hn. destruct (sort_ok h wf r l) as (l' & E & HP & HW). exists l'. split; [exact E|]. specialize (HW H1).
    assert (Hn' : NoDup l') by (apply (Permutation_NoDup (l := l)); [symmetry; exact HP | exact Hn]). split.
    - clear -HW Hn'. induction l' as [|y l' IH]; [exact I|]. inversion Hn' as [|y0 l0 Hy Hn'']; subst. destruct HW as [H1 H2]. split; [|exact (IH H2 Hn'')].
      rewrite Forall_forall in *. intros z Hz. destruct (H1 z Hz) as [H | <-]; [exact H | contradiction].
    - intros y. split; apply Permutation_in; [exact HP | symmetry; exact HP].
  Qed.

  (** * Siblings *)
  Definition sib_part (els : list id) (x : id) : list id :=
    match parent h x with Some p => if multi h els p then children h p else step_list h Siblings x | None => [] end.
  Definition sib_list (els : list id) : list id := flat_map (sib_part els) (firsts h [] els).
  Lemma part_parent els x y : ElIn h r x -> In y (sib_part els x) -> parent h y = parent h x /\ ElIn h r y.
  Proof.
    intros Hx Hy. unfold sib_part in Hy. destruct (el_parent h r D x Hx) as (p & E & Hp & _). rewrite E in *. destruct (multi h els p).
    - split; [exact (children_parent h wf p y Hy) | exact (el_child h r p y Hp Hy)].
    - apply (in_step h r D Siblings x y eq_refl Hx) in Hy. split; [|exact (rel_sym_el h r D Siblings x y eq_refl Hx Hy)].
      destruct Hy as (q & i & j & H1 & H2 & _). rewrite (listed_parent h wf _ _ _ H2). rewrite (listed_parent h wf _ _ _ H1) in E. exact E.
  Qed.
  Lemma part_ordered els x : ElIn h r x -> Ordered h (sib_part els x).
  Proof.
    intros Hx. unfold sib_part. destruct (parent h x) as [p|]; [|exact I]. destruct (multi h els p); [apply children_ordered | exact (step_ordered h r D Siblings x eq_refl Hx)].
  Qed.
  Lemma multi_two els p : NoDup els -> multi h els p = true -> forall y, exists e, In e els /\ parent h e = Some p /\ e <> y.
  Proof.
    intros HN Hm y. unfold multi in Hm. apply Nat.leb_le in Hm. pose proof (NoDup_filter (from h p) HN) as Hn.
    assert (Hi : forall e, In e (filter (from h p) els) -> In e els /\ parent h e = Some p) by (intros e He; apply filter_In in He; rewrite from_spec in He; exact He).
    destruct (filter (from h p) els) as [|a [|b l]]; cbn in Hm; [lia | lia|]. destruct (Nat.eq_dec a y) as [-> | Hne].
    - exists b. destruct (Hi b (or_intror (or_introl eq_refl))) as [H1 H2]. split; [exact H1|]. split; [exact H2|]. intros ->. inversion Hn as [|u v Hu _]; subst. apply Hu. left. reflexivity.
    - exists a. destruct (Hi a (or_introl eq_refl)) as [H1 H2]. repeat split; assumption.
  Qed.
  Lemma multi_one els p e e' : multi h els p = false -> In e els -> In e' els -> parent h e = Some p -> parent h e' = Some p -> e = e'.
  Proof.
    intros Hm He He' Ep Ep'. unfold multi in Hm. apply Nat.leb_gt in Hm.
    assert (H1 : In e (filter (from h p) els)) by (apply filter_In; split; [exact He | apply from_spec; exact Ep]).
    assert (H2 : In e' (filter (from h p) els)) by (apply filter_In; split; [exact He' | apply from_spec; exact Ep']).
    destruct (filter (from h p) els) as [|a [|b l]]; cbn in Hm; [destruct H1 | | lia]. destruct H1 as [-> | []], H2 as [-> | []]. reflexivity.
  Qed.
  Lemma rel_siblings x y p : ElIn h r x -> ElIn h r y -> parent h x = Some p -> (Rel h Siblings x y <-> parent h y = Some p /\ x <> y).
  Proof.
    intros Hx Hy E. destruct (start_parent h r D x p (proj1 Hx) E) as [Hp Lx]. split.
    - intros (q & i & j & H1 & H2 & Hne & _). pose proof (listed_parent h wf _ _ _ H1) as Eq. rewrite E in Eq. injection Eq as <-. split; [exact (listed_parent h wf _ _ _ H2)|].
      intros ->. destruct (listed_inj h wf _ _ _ _ _ H1 H2) as [_ ->]. congruence.
    - intros [Ey Hne]. destruct (start_parent h r D y p (proj1 Hy) Ey) as [_ Ly]. exists p, (index h x), (index h y). split; [exact Lx|]. split; [exact Ly|]. split; [|apply Hy].
      intros Ei. apply Hne. apply (sib_eq h r D x y (proj1 Hx) (proj1 Hy)); [congruence | exact Ei].
  Qed.
  Lemma sib_facts els : Forall (ElIn h r) els -> NoDup els -> Forall (ElIn h r) (sib_list els) /\ NoDup (sib_list els) /\
    forall y, In y (sib_list els) <-> exists e, In e els /\ Rel h Siblings e y.
  Proof.
    intros HE HN. assert (Hel : forall e, In e els -> ElIn h r e) by (intros e He; rewrite Forall_forall in HE; exact (HE e He)).
    assert (Hf : forall e, In e (firsts h [] els) -> ElIn h r e) by (intros e He; exact (Hel e (firsts_sub h els [] e He))).
    split; [|split].
    - apply Forall_forall. intros y Hy. apply in_flat_map in Hy. destruct Hy as (x & Hx & Hy). exact (proj2 (part_parent els x y (Hf x Hx) Hy)).
    - apply pairs_ne. apply pairs_flat.
      + intros x Hx. apply pairs_ne. apply (ordered_nodup h wf r); [|exact (part_ordered els x (Hf x Hx))]. apply Forall_forall. intros y Hy. exact (proj1 (proj2 (part_parent els x y (Hf x Hx) Hy))).
      + pose proof (firsts_distinct h els []) as HP. revert HP. apply pairs_imp. intros u v Hu Hv Hne y z Hy Hz ->. apply Hne.
        destruct (part_parent els u z (Hf u Hu) Hy) as [E1 _]. destruct (part_parent els v z (Hf v Hv) Hz) as [E2 _]. congruence.
    - intros y. unfold sib_list. rewrite in_flat_map. split.
      + intros (x & Hx & Hy). pose proof (Hf x Hx) as Hxe. destruct (part_parent els x y Hxe Hy) as [Ey Hye]. destruct (el_parent h r D x Hxe) as (p & E & Hp & _).
        unfold sib_part in Hy. rewrite E in Hy. destruct (multi h els p) eqn:Em.
        * destruct (multi_two els p HN Em y) as (e & He & Ee & Hne). exists e. split; [exact He|]. apply (rel_siblings e y p (Hel e He) Hye Ee). split; [congruence | exact Hne].
        * exists x. split; [exact (firsts_sub h els [] x Hx)|]. apply (in_step h r D Siblings x y eq_refl Hxe). exact Hy.
      + intros (e & He & HR). pose proof (rel_sym_el h r D Siblings e y eq_refl (Hel e He) HR) as Hye. destruct (el_parent h r D e (Hel e He)) as (p & E & Hp & _).
        pose proof (proj1 (rel_siblings e y p (Hel e He) Hye E) HR) as [Ey Hne]. destruct (firsts_cover h els e He) as (x & Hx & Ex). exists x. split; [exact Hx|].
        unfold sib_part. rewrite Ex, E. destruct (multi h els p) eqn:Em.
        * apply in_children. split; [|apply Hye]. exists (index h y). exact (proj2 (start_parent h r D y p (proj1 Hye) Ey)).
        * assert (x = e) as -> by (apply (multi_one els p x e Em (firsts_sub h els [] x Hx) He); congruence). apply (in_step h r D Siblings e y eq_refl (Hel e He)). exact HR.
  Qed.

  (** * The ancestors *)
  Definition anc_set (els : list id) : list id := flat_map (anc_list (dfs_fuel h) h) els.
  Lemma anc_facts els : Forall (ElIn h r) els -> Forall (ElIn h r) (anc_set els) /\ forall y, In y (anc_set els) <-> exists e, In e els /\ Rel h ParentAll e y.
  Proof.
    intros HE. rewrite Forall_forall in HE.
    assert (HM : forall y, In y (anc_set els) <-> exists e, In e els /\ Rel h ParentAll e y).
    { intros y. unfold anc_set. rewrite in_flat_map. split; intros (e & He & Hy); exists e; (split; [exact He|]); apply (in_step h r D ParentAll e y eq_refl (HE e He)); exact Hy. }
    split; [|exact HM]. apply Forall_forall. intros y Hy. apply HM in Hy. destruct Hy as (e & He & HR). exact (rel_sym_el h r D ParentAll e y eq_refl (HE e He) HR).
  Qed.
  Lemma anc_firsts els y : Forall (ElIn h r) els -> ((exists e, In e (firsts h [] els) /\ Rel h ParentAll e y) <-> exists e, In e els /\ Rel h ParentAll e y).
  Proof.
    intros HE. split; [intros (e & He & HR); exists e; split; [exact (firsts_sub h els [] e He) | exact HR]|].
    intros (e & He & HR). destruct (firsts_cover h els e He) as (x & Hx & Ex). exists x. split; [exact Hx|]. cbn in *. destruct HR as [Ha Hy]. split; [|exact Hy].
    pose proof (firsts_sub h els [] x Hx) as Hx'. rewrite Forall_forall in HE. apply anc_inv in Ha. destruct Ha as (q & Hq & Hc). pose proof (child_parent h wf _ _ Hc) as E. rewrite <- Ex in E.
    destruct (start_parent h r D x q (proj1 (HE x Hx')) E) as [_ Lx]. assert (Hqx : Child h q x) by (exists (index h x); exact Lx). exact (anceq_anc h y q x Hq (Anc_child h q x Hqx)).
  Qed.

  (** * Without a filter *)
  Variable text_of : id -> str.
  Variable by_id : id -> str -> option id.
  Hypothesis IC : IdCache h r by_id.
  Lemma plain_all c els : plain_step c = true -> Forall (ElIn h r) els -> SibInc h els -> select_with_comb h els None c = Ok (set_base c els).
  Proof.
    intros Hc HE HI. unfold select_with_comb. rewrite sel_all. destruct els as [|x els]; cbn [nonempty]; [rewrite base_nil; reflexivity | exact (all_select _ HE c Hc)].
  Qed.
  Lemma step_set c els : step_comb c = true -> Forall (ElIn h r) els -> SibInc h els ->
    exists l, step_ast h text_of by_id c els None = Ok l /\ Forall (ElIn h r) l /\ NoDup l /\ (c <> Parent -> SibInc h l) /\
      (plain_step c = true -> l = set_base c els) /\ (plain_step c = false -> Ordered h l) /\ forall y, In y l <-> exists e, In e els /\ Rel h c e y.
  Proof.
    intros Hc HE HI. assert (HN : NoDup els) by exact (sibinc_nodup h r D els HE HI). destruct (plain_step c) eqn:Ep.
    - assert (E : step_ast h text_of by_id c els None = Ok (set_base c els)).
      { destruct c; try discriminate; cbn [step_ast plain_text option_map].
        - exact (plain_all Children els eq_refl HE HI).
        - unfold Engine.el_parent. rewrite (us_first h r D els (els_in els HE)). cbn [rbind]. rewrite (plain_all Parent _ eq_refl (firsts_els els HE) (firsts_pairs h els [] HI)), base_firsts by auto. reflexivity.
        - unfold Engine.el_next_all. rewrite (us_first h r D els (els_in els HE)). cbn [rbind]. rewrite (plain_all NextAll _ eq_refl (firsts_els els HE) (firsts_pairs h els [] HI)), base_firsts by auto. reflexivity.
        - exact (plain_all Next els eq_refl HE HI).
        - unfold Engine.el_prev_all. rewrite (us_last h r D els (els_in els HE)). cbn [rbind]. rewrite (plain_all PrevAll _ eq_refl (lasts_els els HE)), base_lasts; [reflexivity|].
          apply StepProofs.pairs_rev. apply firsts_pairs. apply StepProofs.pairs_rev. exact HI.
        - exact (plain_all Prev els eq_refl HE HI). }
      destruct (base_facts els HE HI c Ep) as (H1 & H2 & H3 & H4). exists (set_base c els). split; [exact E|]. split; [exact H2|]. split; [exact H1|]. split; [exact H3|]. split; [reflexivity|]. split; [discriminate | exact H4].
    - assert (HG : forall l, Forall (ElIn h r) l -> Ordered h l -> NoDup l /\ SibInc h l).
      { intros l H1 H2. pose proof (ordered_sibinc h r D l H1 H2) as H3. split; [exact (sibinc_nodup h r D l H1 H3) | exact H3]. }
      destruct c; try discriminate; cbn [step_ast plain_text looked_text option_map].
      + unfold Engine.el_parents. rewrite (us_first h r D els (els_in els HE)). cbn [rbind]. unfold select_with_comb. rewrite sel_all.
        destruct (anc_facts _ (firsts_els els HE)) as [A1 A2]. destruct (sort_and_unique_ok h wf r (anc_set (firsts h [] els)) (els_in _ A1)) as (l & El & HD & HM).
        assert (ES : (if nonempty (firsts h [] els) then select_by_rule h (firsts h [] els) all_matcher ParentAll else Ok []) = Ok l).
        { cbn [select_by_rule all_matcher mt_one]. rewrite (rflat_ok _ (anc_list (dfs_fuel h) h)).
          - fold (anc_set (firsts h [] els)). cbn [rbind]. rewrite El. cbn [rbind get_all_handle mt_all]. destruct (firsts h [] els); [|reflexivity]. cbn [nonempty]. exact El.
          - intros x Hx. pose proof (firsts_els els HE) as HF. rewrite Forall_forall in HF. exact (proj1 (anc_full h r D x (proj1 (HF x Hx)))). }
        rewrite ES. cbn [rbind]. rewrite (sorted_same h r D l HD). exists l. split; [reflexivity|].
        assert (HlE : Forall (ElIn h r) l) by (apply Forall_forall; intros y Hy; apply HM in Hy; rewrite Forall_forall in A1; exact (A1 y Hy)).
        destruct (HG l HlE (proj2 HD)) as [G1 G2]. split; [exact HlE|]. split; [exact G1|]. split; [intros _; exact G2|]. split; [discriminate|]. split; [intros _; exact (proj2 HD)|].
        intros y. rewrite (HM y), (A2 y). exact (anc_firsts els y HE).
      + unfold Engine.el_siblings. rewrite (ua_ok els HE). cbn [rbind]. destruct (sib_facts els HE HN) as (S1 & S2 & S3).
        assert (EF : rflat (fun e : id * bool => let '(x, is_parent) := e in find_selector h [x] (if is_parent then from_segment (make_comb_all Children) else from_segment (make_comb_all Siblings)))
          (map (ua_out h els) (firsts h [] els)) = Ok (sib_list els)).
        { rewrite (rflat_ok _ (fun e : id * bool => let '(x, is_parent) := e in if is_parent then children h x else step_list h Siblings x)).
          - f_equal. unfold sib_list. rewrite flat_map_concat_map, map_map, <- flat_map_concat_map. rewrite !flat_map_concat_map. f_equal. apply map_ext_in. intros x Hx.
            unfold sib_part, ua_out. pose proof (firsts_els els HE) as HF. rewrite Forall_forall in HF. destruct (el_parent h r D x (HF x Hx)) as (p & E & _). rewrite E. destruct (multi h els p); reflexivity.
          - intros e He. apply in_map_iff in He. destruct He as (x & <- & Hx). pose proof (firsts_els els HE) as HF. rewrite Forall_forall in HF. pose proof (HF x Hx) as Hxe. unfold ua_out.
            destruct (el_parent h r D x Hxe) as (p & E & Hp & _). rewrite E. destruct (multi h els p).
            + rewrite sel_all. cbn. rewrite app_nil_r. reflexivity.
            + exact (all_find h r D Siblings x eq_refl Hxe). }
        rewrite EF. cbn [rbind]. destruct (sort_nodup (sib_list els) (els_in _ S1) S2) as (l & El & HO & HM). exists l. split; [exact El|].
        assert (HlE : Forall (ElIn h r) l) by (apply Forall_forall; intros y Hy; apply HM in Hy; rewrite Forall_forall in S1; exact (S1 y Hy)).
        destruct (HG l HlE HO) as [G1 G2]. split; [exact HlE|]. split; [exact G1|]. split; [intros _; exact G2|]. split; [discriminate|]. split; [intros _; exact HO|].
        intros y. rewrite (HM y). apply S3.
  Qed.

  (** * With one compound as the filter *)
  Lemma kids_select m p els : MOk h r m p true -> SafeM h Children m (fun y => In y els) -> Forall (InTree h r) els ->
    select_by_rule h els m Children = Ok (filter p (flat_map (children h) els)).
  Proof.
    intros M HSM HT. rewrite Forall_forall in HT. rewrite filter_flat_map. cbn [select_by_rule].
    assert (HSx : forall x, In x els -> SafeM h Children m (fun y => y = x)).
    { intros x Hx E1. destruct (HSM E1) as [Hc HS']. split; [exact Hc|]. destruct (mt_spec m).
      - intros y ->. exact (HS' x Hx).
      - intros g0 Eg y ->. exact (HS' g0 Eg x Hx). }
    pose proof (fun x Hx => children_base h r m p true x M (HSx x Hx) (HT x Hx)) as HC.
    destruct (mt_one m) as [g|] eqn:E1; [apply rflat_ok; exact HC|]. destruct (mt_spec m) as [g|]; [apply rflat_ok; exact HC|].
    destruct (mo_all h r m p true M E1) as (g & Eg). unfold get_all_handle in *. rewrite Eg in *. cbn [rbind] in *. apply rflat_ok. exact HC.
  Qed.
  Lemma select_set c m p els : plain_step c = true -> Forall (ElIn h r) els -> SibInc h els -> SibInc h (set_base c els) -> MOk h r m p true -> SafeM h c m (fun y => In y els) ->
    select_by_rule h els m c = Ok (filter p (set_base c els)).
  Proof.
    intros Hc HE HI HB M HSM. pose proof (els_in els HE) as HT. destruct (base_facts els HE HI c Hc) as (_ & HF & _ & _).
    assert (HG : Good h r true (set_base c els)) by (split; [exact HF|]; split; [exact HB | discriminate]).
    destruct c; try discriminate; cbn [select_by_rule set_base] in *.
    - exact (kids_select m p els M HSM HT).
    - rewrite (us_first h r D els HT). cbn [rbind]. exact (mok_list h r m p true _ M HG).
    - rewrite (us_first h r D els HT). cbn [rbind]. rewrite filter_flat_map. apply rflat_ok. intros e He. pose proof (firsts_els els HE) as HF'. rewrite Forall_forall in HF'.
      rewrite (nexts_eq h r D e (proj1 (HF' e He))). cbn [rbind]. exact (mo_none h r m p true M _ (step_good h r D true NextAll e eq_refl (HF' e He))).
    - replace (flat_map (fun x => opt_list (next_element_sibling h x)) els) with (flat_map (next_list h) els) by (apply flat_map_ext; intros x; symmetry; apply next_eq).
      exact (mok_apply h r m p true _ M HG).
    - rewrite (us_last h r D els HT). cbn [rbind]. rewrite filter_flat_map. apply rflat_ok. intros e He. pose proof (lasts_els els HE) as HF'. rewrite Forall_forall in HF'.
      rewrite (prevs_eq h r D e (proj1 (HF' e He))). cbn [rbind]. exact (mo_none h r m p true M _ (step_good h r D true PrevAll e eq_refl (HF' e He))).
    - rewrite Forall_forall in HT. rewrite (rflat_ok _ (prev_list h)); [|intros e He; exact (prev_eq h r D e (HT e He))]. cbn [rbind]. exact (mok_apply h r m p true _ M HG).
  Qed.
  Lemma select_anc m p els base : Forall (ElIn h r) els -> sort_and_unique h (anc_set els) = Ok base -> MOk h r m p true ->
    select_by_rule h els m ParentAll = Ok (filter p base).
  Proof.
    intros HE EB M. destruct (anc_facts els HE) as [A1 A2]. destruct (sort_and_unique_ok h wf r (anc_set els) (els_in _ A1)) as (l & El & HD & HM). rewrite EB in El. injection El as <-.
    assert (HB : Forall (ElIn h r) base) by (apply Forall_forall; intros y Hy; apply HM in Hy; rewrite Forall_forall in A1; exact (A1 y Hy)). rewrite Forall_forall in HE.
    cbn [select_by_rule]. destruct (mt_one m) as [g|] eqn:E1.
    - assert (EA : rflat (fun x => do a <- ancestors h (dfs_fuel h) x; rfilter g a) els = Ok (filter p (anc_set els))).
      { unfold anc_set. rewrite filter_flat_map. apply rflat_ok. intros x Hx. rewrite (proj1 (anc_full h r D x (proj1 (HE x Hx)))). cbn [rbind].
        apply rfilter_ok. intros y Hy. apply (mo_one h r m p true M g E1). exact (proj1 (Forall_forall _ _) (step_els h r D ParentAll x eq_refl (HE x Hx)) y Hy). }
      rewrite EA. cbn [rbind]. assert (HA : AllIn h r (filter p (anc_set els))).
      { apply Forall_forall. intros y Hy. apply filter_In in Hy. exact (proj1 (Forall_forall _ _) (els_in _ A1) y (proj1 Hy)). }
      destruct (sort_and_unique_ok h wf r _ HA) as (l & -> & HD' & HM'). f_equal. apply (ordered_unique h wf r); [exact (proj1 HD') | exact (proj2 HD') | apply ordered_filter; exact (proj2 HD)|].
      intros y. rewrite (HM' y), !filter_In, (HM y). reflexivity.
    - rewrite (rflat_ok _ (anc_list (dfs_fuel h) h)) by (intros x Hx; exact (proj1 (anc_full h r D x (proj1 (HE x Hx))))). cbn [rbind]. fold (anc_set els). rewrite EB. cbn [rbind].
      pose proof (mok_list h r m p true base M (good_ordered h r D true base HB (proj2 HD))) as HL. rewrite E1 in HL. exact HL.
  Qed.
  Lemma parent_inc els : Forall (ElIn h r) els -> Ordered h els -> SibInc h (set_base Parent els).
  Proof.
    intros HE HO. cbn [set_base]. pose proof (firsts_els els HE) as HF. rewrite Forall_forall in HF. apply pairs_flat.
    - intros e _. unfold parent_el. destruct (parent h e) as [p|]; [destruct (is_root h p)|]; repeat constructor.
    - apply ordered_pairs in HO. apply (firsts_pairs h els []) in HO. pose proof (pairs_and _ _ _ HO (firsts_distinct h els [])) as HP. revert HP. apply pairs_imp.
      intros u v Hu Hv [HB Hne] y z Hy Hz p Ey Ez. apply (parent_el_spec h r D u y (proj1 (HF u Hu))) in Hy. apply (parent_el_spec h r D v z (proj1 (HF v Hv))) in Hz.
      destruct Hy as [Hy _], Hz as [Hz _]. pose proof (child_parent h wf _ _ Hy) as Eu. pose proof (child_parent h wf _ _ Hz) as Ev.
      pose proof (proj1 (start_parent h r D u y (proj1 (HF u Hu)) Eu)) as Hyt. pose proof (proj1 (start_parent h r D v z (proj1 (HF v Hv)) Ev)) as Hzt.
      destruct (start_parent h r D y p Hyt Ey) as [_ Ly]. destruct (start_parent h r D z p Hzt Ez) as [_ Lz].
      destruct (Nat.lt_trichotomy (index h y) (index h z)) as [H | [H | H]]; [exact H | |].
      + exfalso. apply Hne. assert (y = z) by (apply (sib_eq h r D y z Hyt Hzt); congruence). congruence.
      + exfalso. apply (before_asym h wf r u v (proj1 (HF u Hu)) (proj1 (HF v Hv)) HB).
        apply (subtree_before h p _ _ z y v u Lz Ly H); right; apply Anc_child; assumption.
  Qed.

  Notation pb := (predb h text_of).
  Notation cg g := (optimize_group false (map (map (fun e : rule * comb => let '(r', c) := e in (compile h text_of by_id r', c))) g)).
  Lemma set_process c cp els base : step_comb c = true ->
    (forall m p, MOk h r m p true -> SafeM h c m (fun y => In y els) -> select_by_rule h els m c = Ok (filter p base)) ->
    Forall (ElIn h r) base -> SibInc h base -> CompOk h r text_of cp -> comp_wf cp = true -> comp_comb cp = ChildrenAll -> comp_any_order cp = true ->
    RuleSafe h c (head_rule cp) (fun y => In y els) ->
    find_process h els (headed c (cg [cp])) = Ok (filter (matchesb h (pb [cp])) base).
  Proof.
    intros Hc Hsel HBe HBi Hok Hw Ec Ha HR.
    assert (HC : COk h r (optimize_compound (compile_comp h text_of by_id cp)) (hd [] (pb [cp])) true).
    { apply cok_compile; [exact Hw|]. intros rl c' Hi. pose proof (mok_rule h r D text_of by_id IC rl (Hok rl c' Hi)) as HM.
      unfold comp_any_order in Ha. rewrite forallb_forall in Ha. specialize (Ha (rl, c') Hi). cbn in Ha. rewrite any_order_simple in Ha. rewrite Ha in HM. exact HM. }
    pose proof (safe_compound h r text_of by_id c cp (fun y => In y els) Hok ltac:(intros ->; discriminate) HR) as HS.
    destruct (compound_chain h r _ _ true HC) as (m & c0 & rest & p & E & Hf & Ec0 & M & Hp & Hch).
    assert (E0 : c0 = ChildrenAll).
    { rewrite Ec0. destruct cp as [|[rl cc] cp']; [discriminate|]. exact Ec. }
    assert (Eq : headed c (cg [cp]) = mkProcess None [(m, c) :: rest]).
    { unfold optimize_group. cbn [map andb]. change (map (fun e : rule * comb => let '(r', c) := e in (compile h text_of by_id r', c)) cp) with (compile_comp h text_of by_id cp).
      rewrite E. unfold headed. cbn. rewrite E0. reflexivity. }
    rewrite Eq. unfold find_process, find_first, select. cbn [query should_in rnth nth_error rbind tl].
    assert (Enc : mt_cache m && comb_eqb c ChildrenAll = false) by (destruct c; try discriminate; apply andb_false_r). rewrite Enc.
    rewrite (Hsel m p M (HS m c0 rest E)). cbn [rbind].
    assert (HG : Good h r true base) by (split; [exact HBe|]; split; [exact HBi | discriminate]).
    rewrite (Hch base HBe (good_filter h r true p base HG)). cbn [rbind query_rest].
    assert (Em : filter (matchesb h (pb [cp])) base = filter (compb (hd [] (pb [cp]))) base).
    { apply filter_ext. intros y. unfold matchesb. cbn. apply andb_true_r. }
    rewrite Em. destruct (filter (compb (hd [] (pb [cp]))) base); reflexivity.
  Qed.
  Definition one_flt (cp : list (rule * comb)) : selector := compile_selector h text_of by_id false [[cp]].
  Lemma set_find c cp els base : step_comb c = true ->
    (forall m p, MOk h r m p true -> SafeM h c m (fun y => In y els) -> select_by_rule h els m c = Ok (filter p base)) ->
    (els = [] -> base = []) ->
    Forall (ElIn h r) base -> SibInc h base -> CompOk h r text_of cp -> comp_wf cp = true -> comp_comb cp = ChildrenAll -> comp_any_order cp = true ->
    RuleSafe h c (head_rule cp) (fun y => In y els) ->
    find_selector h els (head_combinator c (one_flt cp)) = Ok (filter (matchesb h (pb [cp])) base).
  Proof.
    intros Hc Hsel Hnil H1 H2 H3 H4 H5 H6 H7. unfold find_selector. destruct els as [|x els]; cbn [nonempty]; [rewrite (Hnil eq_refl); reflexivity|].
    unfold one_flt. change (head_combinator c (compile_selector h text_of by_id false [[cp]])) with [headed c (cg [cp])]. cbn [rfold].
    rewrite (set_process c cp (x :: els) base Hc Hsel H1 H2 H3 H4 H5 H6 H7). cbn [rbind]. destruct (filter (matchesb h (pb [cp])) base); reflexivity.
  Qed.
  Lemma step_set_filter c els cp : step_comb c = true -> Forall (ElIn h r) els -> Ordered h els ->
    CompOk h r text_of cp -> comp_wf cp = true -> comp_comb cp = ChildrenAll -> comp_any_order cp = true -> ((exists y, KidsAt h c els y) -> RuleSafe h Children (head_rule cp) (KidsAt h c els)) ->
    exists l0 l, step_ast h text_of by_id c els None = Ok l0 /\ step_ast h text_of by_id c els (Some [[cp]]) = Ok l /\ l = filter (matchesb h (pb [cp])) l0.
  Proof.
    intros Hc HE HO Hok Hw Ec Ha HR. pose proof (ordered_sibinc h r D els HE HO) as HI. assert (HN : NoDup els) by exact (sibinc_nodup h r D els HE HI).
    destruct (step_set c els Hc HE HI) as (l0 & E0 & L1 & L2 & L3 & L4 & L5 & L6). exists l0, (filter (matchesb h (pb [cp])) l0). split; [exact E0|]. split; [|reflexivity].
    assert (Hpl : forall us, plain_step c = true -> Forall (ElIn h r) us -> SibInc h us -> (c = Parent -> Ordered h us) -> (c = Children -> us = els) ->
      select_with_comb h us (plain_text h text_of by_id (Some [[cp]])) c = Ok (filter (matchesb h (pb [cp])) (set_base c us))).
    { intros us Hp HEu HIu HOu Hcu. cbn [plain_text option_map select_with_comb]. fold (one_flt cp). destruct us as [|x us]; cbn [nonempty]; [rewrite base_nil; reflexivity|].
      destruct (base_facts (x :: us) HEu HIu c Hp) as (_ & HF & HSI & _).
      assert (HSB : SibInc h (set_base c (x :: us))).
      { destruct (comb_eqb c Parent) eqn:Ep; [|apply HSI; intros ->; discriminate]. destruct c; try discriminate. exact (parent_inc (x :: us) HEu (HOu eq_refl)). }
      apply (set_find c cp (x :: us) (set_base c (x :: us))); try assumption; [|discriminate|].
      - intros m p M HSM. exact (select_set c m p (x :: us) Hp HEu HIu HSB M HSM).
      - destruct c; try exact I; try discriminate. rewrite (Hcu eq_refl) in *. apply HR. exists x. cbn [KidsAt]. rewrite <- (Hcu eq_refl). left. reflexivity. }
    assert (HOf : forall l, Ordered h l -> Ordered h (firsts h [] l)) by (intros l Hl; apply ordered_pairs; apply firsts_pairs; apply ordered_pairs; exact Hl).
    destruct (plain_step c) eqn:Ep.
    - rewrite (L4 eq_refl). destruct c; try discriminate; cbn [step_ast].
      + apply (Hpl els); try assumption; auto.
      + unfold Engine.el_parent. rewrite (us_first h r D els (els_in els HE)). cbn [rbind].
        rewrite (Hpl _ eq_refl (firsts_els els HE) (firsts_pairs h els [] HI) (fun _ => HOf els HO) ltac:(discriminate)), base_firsts by auto. reflexivity.
      + unfold Engine.el_next_all. rewrite (us_first h r D els (els_in els HE)). cbn [rbind].
        rewrite (Hpl _ eq_refl (firsts_els els HE) (firsts_pairs h els [] HI) ltac:(discriminate) ltac:(discriminate)), base_firsts by auto. reflexivity.
      + apply (Hpl els); try assumption; auto.
      + unfold Engine.el_prev_all. rewrite (us_last h r D els (els_in els HE)). cbn [rbind].
        rewrite (Hpl _ eq_refl (lasts_els els HE)), base_lasts; [reflexivity | | discriminate | discriminate].
        apply StepProofs.pairs_rev. apply firsts_pairs. apply StepProofs.pairs_rev. exact HI.
      + apply (Hpl els); try assumption; auto.
    - specialize (L5 eq_refl). destruct c; try discriminate; cbn [step_ast].
      + unfold Engine.el_parents. rewrite (us_first h r D els (els_in els HE)). cbn [rbind plain_text option_map select_with_comb]. fold (one_flt cp).
        destruct (anc_facts _ (firsts_els els HE)) as [A1 A2]. destruct (sort_and_unique_ok h wf r (anc_set (firsts h [] els)) (els_in _ A1)) as (base & El & HD & HM).
        assert (Eb : base = l0).
        { apply (ordered_unique h wf r); [exact (proj1 HD) | exact (proj2 HD) | exact L5|]. intros y. rewrite (HM y), (A2 y), (L6 y). exact (anc_firsts els y HE). }
        assert (EF : (if nonempty (firsts h [] els) then find_selector h (firsts h [] els) (head_combinator ParentAll (one_flt cp)) else Ok []) = Ok (filter (matchesb h (pb [cp])) l0)).
        { rewrite (set_find ParentAll cp (firsts h [] els) l0); try assumption; try exact I.
          - destruct (firsts h [] els); [|reflexivity]. cbn [nonempty]. cbn in El. injection El as <-. rewrite <- Eb. reflexivity.
          - intros m p M _. rewrite <- Eb. exact (select_anc m p _ base (firsts_els els HE) El M).
          - intros En. rewrite En in El. cbn in El. injection El as <-. symmetry. exact Eb.
          - exact (ordered_sibinc h r D l0 L1 L5). }
        rewrite EF. cbn [rbind]. apply (sorted_same h r D). exact (filter_docset h r _ l0 L1 L5).
      + rewrite looked_plain by reflexivity. unfold Engine.el_siblings. rewrite (ua_ok els HE). cbn [rbind plain_text option_map]. fold (one_flt cp). destruct (sib_facts els HE HN) as (S1 & S2 & S3).
        assert (EF : rflat (fun e : id * bool => let '(x, is_parent) := e in find_selector h [x] (if is_parent then head_combinator Children (one_flt cp) else head_combinator Siblings (one_flt cp)))
          (map (ua_out h els) (firsts h [] els)) = Ok (filter (matchesb h (pb [cp])) (sib_list els))).
        { pose proof (firsts_els els HE) as HF. rewrite Forall_forall in HF.
          rewrite (rflat_ok _ (fun e : id * bool => let '(x, is_parent) := e in filter (matchesb h (pb [cp])) (if is_parent then children h x else step_list h Siblings x))).
          - f_equal. unfold sib_list. rewrite filter_flat_map. rewrite !flat_map_concat_map, map_map. f_equal. apply map_ext_in. intros x Hx.
            unfold sib_part, ua_out. destruct (el_parent h r D x (HF x Hx)) as (p & E & _). rewrite E. destruct (multi h els p); reflexivity.
          - intros e He. apply in_map_iff in He. destruct He as (x & <- & Hx). pose proof (HF x Hx) as Hxe. unfold ua_out.
            destruct (el_parent h r D x Hxe) as (p & E & Hp & _). rewrite E. destruct (multi h els p) eqn:Em.
            + assert (HK : KidsAt h Siblings els p).
              { destruct (multi_two els p HN Em x) as (b & Hb & Eb & Hne). exists x, b. split; [exact (firsts_sub h els [] x Hx)|]. split; [exact Hb|]. split; [congruence|]. split; [exact E | exact Eb]. }
              specialize (HR (ex_intro _ p HK)). destruct HR as (R1 & R2 & R3).
              apply (set_find Children cp [p] (children h p)); try assumption; try discriminate.
              * intros m p' M HSM. rewrite (kids_select m p' [p] M HSM); [cbn [flat_map]; rewrite app_nil_r; reflexivity | constructor; [exact Hp | constructor]].
              * apply Forall_forall. intros y Hy. exact (el_child h r p y Hp Hy).
              * destruct (children_good h r D true p Hp) as (_ & H & _). exact H.
              * split; [exact R1|]. split; [intros H y [<- | []]; exact (R2 H p HK) | intros H y [<- | []]; exact (R3 H p HK)].
            + apply (set_find Siblings cp [x] (step_list h Siblings x)); try assumption; try discriminate; try exact I.
              * intros m p' M HSM. apply (one_step h r D Siblings m p' true x eq_refl Hxe M). intros _. exact I.
              * exact (step_els h r D Siblings x eq_refl Hxe).
              * exact (ordered_sibinc h r D _ (step_els h r D Siblings x eq_refl Hxe) (step_ordered h r D Siblings x eq_refl Hxe)). }
        rewrite EF. cbn [rbind].
        assert (HA : AllIn h r (filter (matchesb h (pb [cp])) (sib_list els))).
        { apply Forall_forall. intros y Hy. apply filter_In in Hy. exact (proj1 (Forall_forall _ _) (els_in _ S1) y (proj1 Hy)). }
        destruct (sort_nodup _ HA (NoDup_filter _ S2)) as (l & -> & HOl & HMl). f_equal.
        apply (ordered_unique h wf r); [|exact HOl | apply ordered_filter; exact L5|].
        * apply Forall_forall. intros y Hy. apply HMl in Hy. exact (proj1 (Forall_forall _ _) HA y Hy).
        * intros y. rewrite (HMl y), !filter_In, (S3 y), (L6 y). reflexivity.
  Qed.

  (** * The walks *)
  Lemma rel_same_parent c x y : c = Next \/ c = Prev -> ElIn h r x -> Rel h (all_of c) x y -> parent h y = parent h x.
  Proof.
    intros Hc Hx HR. destruct Hc as [-> | ->]; cbn [all_of Rel] in HR.
    - exact (proj1 (proj2 (following_facts h r D x y (proj1 Hx) HR))).
    - exact (proj1 (proj2 (preceding_facts h r D x y (proj1 Hx) HR))).
  Qed.
  Lemma until_flat c stop flt contains : unit_comb c = true -> AnyText h r text_of stop -> OptAny h r text_of flt ->
    forall us, Forall (ElIn h r) us -> exists l, select_until h us (compile_selector h text_of by_id true stop) (looked_text h text_of by_id flt) contains c = Ok l /\
      (c = Next \/ c = Prev -> ForallOrdPairs (fun x y => parent h x <> parent h y) us -> NoDup l) /\
      forall y, In y l <-> (exists x, In x us /\ Stretch h c (Tested h text_of stop) contains x y) /\ PassesT h text_of flt y.
  Proof.
    intros Hc HS HF. induction us as [|x us IH]; intros HU.
    - exists []. split; [reflexivity|]. split; [constructor|]. intros y. split; [intros [] | intros [(x & [] & _) _]].
    - inversion HU as [|? ? Hx HU']; subst. destruct (IH HU') as (l2 & E2 & N2 & M2).
      destruct (until_ok h r D text_of by_id IC c stop flt contains Hc HS HF (dfs_fuel h) x Hx (until_start h r D text_of c x Hc Hx)) as (l1 & E1 & O1 & M1).
      exists (l1 ++ l2). split; [unfold select_until in *; cbn [rflat]; rewrite E1; cbn [rbind]; rewrite E2; reflexivity|]. split.
      + intros Hnp HP. inversion HP as [|? ? HP1 HP2]; subst. apply pairs_ne. apply pairs_app. split; [|split; [apply pairs_ne; exact (N2 Hnp HP2)|]].
        * revert O1. apply pairs_imp. intros u v Hu Hv Ha ->. pose proof (proj1 (proj1 (M1 v) Hu)) as (Hr & _ & _).
          assert (Hv' : ElIn h r v) by exact (rel_sym_el h r D _ x v (proj2 (unit_step c Hc)) Hx Hr). exact (ahead_asym h r D c v v Hv' Hv' Ha Ha).
        * intros u v Hu Hv ->. pose proof (proj1 (proj1 (M1 v) Hu)) as (Hr & _ & _). apply M2 in Hv. destruct Hv as [(x' & Hx' & Hr' & _) _].
          rewrite Forall_forall in HU', HP1. apply (HP1 x' Hx'). rewrite <- (rel_same_parent c x v Hnp Hx Hr). exact (rel_same_parent c x' v Hnp (HU' x' Hx') Hr').
      + intros y. rewrite in_app_iff, M1, M2. split.
        * intros [[H1 H2] | [(x' & Hx' & H1) H2]]; (split; [|exact H2]); [exists x; split; [left; reflexivity | exact H1] | exists x'; split; [right; exact Hx' | exact H1]].
        * intros [(x' & [<- | Hx'] & H1) H2]; [left; split; assumption | right; split; [exists x'; split; assumption | exact H2]].
  Qed.
  Lemma outer_first els x : Forall (ElIn h r) els -> SibInc h els -> (In x (firsts h [] els) <-> Outer h Next els x).
  Proof.
    intros HE HI. rewrite Forall_forall in HE. split.
    - intros Hx. split; [exact (firsts_sub h els [] x Hx)|]. intros e He Ep. pose proof (HE x (firsts_sub h els [] x Hx)) as Hxe. apply in_firsts in Hx. destruct Hx as (l1 & l2 & El & _ & Hd).
      destruct (el_parent h r D x Hxe) as (p & Ep' & _). rewrite El in He. apply in_app_or in He. destruct He as [He | [<- | He]]; [destruct (Hd e He Ep) | lia|].
      pose proof HI as P. rewrite El in P. unfold SibInc in P. apply pairs_app in P. destruct P as (_ & P & _). inversion P as [|? ? P1 _]; subst. rewrite Forall_forall in P1.
      pose proof (P1 e He p Ep' ltac:(congruence)). lia.
    - intros [Hx Ho]. destruct (firsts_cover h els x Hx) as (y & Hy & Ey). pose proof (firsts_sub h els [] y Hy) as Hy'.
      assert (Hle : index h y <= index h x).
      { pose proof (HE y Hy') as Hye. apply in_firsts in Hy. destruct Hy as (l1 & l2 & El & _ & Hd). destruct (el_parent h r D y Hye) as (p & Ep' & _).
        rewrite El in Hx. apply in_app_or in Hx. destruct Hx as [Hx | [<- | Hx]]; [destruct (Hd x Hx (eq_sym Ey)) | lia|].
        pose proof HI as P. rewrite El in P. unfold SibInc in P. apply pairs_app in P. destruct P as (_ & P & _). inversion P as [|? ? P1 _]; subst. rewrite Forall_forall in P1.
        pose proof (P1 x Hx p Ep' ltac:(congruence)). lia. }
      pose proof (Ho y Hy' Ey) as Hle'. assert (Ei : index h x = index h y) by lia.
      destruct (el_parent h r D x (HE x Hx)) as (p & Ep & _ & Lx). destruct (el_parent h r D y (HE y Hy')) as (q & Eq & _ & Ly).
      assert (p = q) by congruence. subst q. rewrite Ei in Lx. assert (x = y) by exact (listed_fun h p (index h y) x y Lx Ly). subst y. exact Hy.
  Qed.
  Lemma outer_last els x : Forall (ElIn h r) els -> SibInc h els -> (In x (rev (firsts h [] (rev els))) <-> Outer h Prev els x).
  Proof.
    intros HE HI. rewrite Forall_forall in HE.
    assert (HL : forall y e, In y (rev (firsts h [] (rev els))) -> In e els -> parent h e = parent h y -> index h e <= index h y).
    { intros y e Hy He Ep. apply in_rev in Hy. pose proof (firsts_sub h (rev els) [] y Hy) as Hy'. apply in_rev in Hy'. pose proof (HE y Hy') as Hye.
      apply in_firsts in Hy. destruct Hy as (l1 & l2 & El & _ & Hd). destruct (el_parent h r D y Hye) as (p & Ep' & _).
      assert (El' : els = rev l2 ++ y :: rev l1) by (rewrite <- (rev_involutive els), El, rev_app_distr; cbn; rewrite <- app_assoc; reflexivity).
      rewrite El' in He. apply in_app_or in He. destruct He as [He | [<- | He]]; [|lia|].
      - pose proof HI as P. rewrite El' in P. unfold SibInc in P. apply pairs_app in P. destruct P as (_ & _ & P).
        pose proof (P e y He (or_introl eq_refl) p ltac:(congruence) Ep'). lia.
      - apply in_rev in He. destruct (Hd e He Ep). }
    split.
    - intros Hx. split; [|intros e He Ep; exact (HL x e Hx He Ep)]. apply in_rev in Hx. apply in_rev. exact (firsts_sub h (rev els) [] x Hx).
    - intros [Hx Ho]. destruct (firsts_cover h (rev els) x (proj1 (in_rev _ _) Hx)) as (y & Hy & Ey).
      assert (Hy' : In y els) by (apply in_rev; exact (firsts_sub h (rev els) [] y Hy)). apply -> in_rev in Hy.
      pose proof (HL y x Hy Hx (eq_sym Ey)) as Hle. pose proof (Ho y Hy' Ey) as Hle'. assert (Ei : index h x = index h y) by lia.
      destruct (el_parent h r D x (HE x Hx)) as (p & Ep & _ & Lx). destruct (el_parent h r D y (HE y Hy')) as (q & Eq & _ & Ly).
      assert (p = q) by congruence. subst q. rewrite Ei in Lx. assert (x = y) by exact (listed_fun h p (index h y) x y Lx Ly). subst y. exact Hy.
  Qed.
  Lemma until_set c stop flt contains els : unit_comb c = true -> AnyText h r text_of stop -> OptAny h r text_of flt ->
    Forall (ElIn h r) els -> SibInc h els -> exists l, until_ast h text_of by_id c els stop flt contains = Ok l /\ NoDup l /\ (c = Parent -> Ordered h l) /\
      forall y, In y l <-> (exists x, Outer h c els x /\ Stretch h c (Tested h text_of stop) contains x y) /\ PassesT h text_of flt y.
  Proof.
    intros Hc HS HF HE HI. destruct c; try discriminate; cbn [until_ast].
    - destruct (until_flat Parent stop flt contains eq_refl HS HF _ (firsts_els els HE)) as (l & E & _ & M).
      unfold el_parents_until. rewrite (us_first h r D els (els_in els HE)). cbn [rbind]. rewrite E. cbn [rbind].
      pose proof (firsts_els els HE) as HFE. rewrite Forall_forall in HFE.
      assert (HA : AllIn h r l). { apply Forall_forall. intros y Hy. apply M in Hy. destruct Hy as [(x & Hx & Hy & _) _]. exact (proj1 (rel_sym_el h r D ParentAll x y eq_refl (HFE x Hx) Hy)). }
      destruct (sort_and_unique_ok h wf r l HA) as (l' & -> & HD & HM). exists l'. split; [reflexivity|]. split; [exact (docset_nodup h r D l' HD)|]. split; [intros _; apply HD|].
      intros y. rewrite (HM y), (M y). split; intros [(x & Hx & Hst) Hp]; (split; [|exact Hp]).
      + exists x. split; [split; [exact (firsts_sub h els [] x Hx) | intros; exact I] | exact Hst].
      + destruct Hx as [Hx _]. destruct (firsts_cover h els x Hx) as (x' & Hx' & Ep). exists x'. split; [exact Hx'|].
        rewrite Forall_forall in HE. pose proof (HE x Hx) as Hxe. pose proof (HFE x' Hx') as Hxe'.
        assert (HRR : forall z, Rel h ParentAll x z <-> Rel h ParentAll x' z).
        { intros z. rewrite <- (in_step h r D ParentAll x z eq_refl Hxe), <- (in_step h r D ParentAll x' z eq_refl Hxe').
          assert (EL : step_list h ParentAll x = step_list h ParentAll x') by (cbn [step_list]; unfold dfs_fuel; cbn [anc_list]; rewrite Ep; reflexivity). rewrite EL. reflexivity. }
        destruct Hst as (S1 & S2 & S3). split; [apply HRR; exact S1|]. split; [|exact S3]. intros z Hz. apply S2, HRR. exact Hz.
    - destruct (until_flat Next stop flt contains eq_refl HS HF _ (firsts_els els HE)) as (l & E & N & M).
      unfold el_next_until. rewrite (us_first h r D els (els_in els HE)). cbn [rbind]. rewrite E. exists l. split; [reflexivity|].
      split; [apply N; [left; reflexivity | apply firsts_distinct]|]. split; [discriminate|]. intros y. rewrite (M y).
      split; intros [(x & Hx & Hst) Hp]; (split; [exists x; split; [apply (outer_first els x HE HI); exact Hx | exact Hst] | exact Hp]).
    - destruct (until_flat Prev stop flt contains eq_refl HS HF _ (lasts_els els HE)) as (l & E & N & M).
      unfold el_prev_until. rewrite (us_last h r D els (els_in els HE)). cbn [rbind]. rewrite E. cbn [rbind]. exists (rev l). split; [reflexivity|].
      split; [apply NoDup_rev; apply N; [right; reflexivity|]; apply StepProofs.pairs_rev; pose proof (firsts_distinct h (rev els) []) as HP; revert HP; apply pairs_imp; intros u v _ _ H1 H2; exact (H1 (eq_sym H2))|].
      split; [discriminate|]. intros y. rewrite <- in_rev, (M y).
      split; intros [(x & Hx & Hst) Hp]; (split; [exists x; split; [apply (outer_last els x HE HI); exact Hx | exact Hst] | exact Hp]).
  Qed.
End SetTrav.
