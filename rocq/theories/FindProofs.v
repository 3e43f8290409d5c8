(** Running compounds forwards from a set of nodes: what [find] computes. *)
From Verif Require Import Base Attr Dom DomSpec Order DomProofs OrderSpec OrderProofs
  Sets SetsProofs AddProofs AddExact NavProofs Engine Rules SelSpec FindSpec OneProofs PreProofs SelBool SibLists SibProofs StepProofs BackProofs FilterProofs.

Lemma addfree_ext h (A B A' B' : id -> Prop) : (forall x, A x <-> A' x) -> (forall x, B x <-> B' x) -> AddFree h A B -> AddFree h A' B'.
Proof.
  intros HA HB [H1 H2]. split.
  - intros (Hs & x & y & Hx & Hm & Hy & Hxy). apply H1. split.
    + intros z Hz. apply HB, Hs, HA. exact Hz.
    + exists x, y. split; [apply HA; exact Hx|]. split; [intros z Hz; apply Hm, HA; exact Hz|]. split; [apply HB; exact Hy | exact Hxy].
  - intros a b Ha Hb Ea Eb. apply (H2 a b Ha Hb); intros x; [rewrite Ea; symmetry; apply HA | rewrite Eb; symmetry; apply HB].
Qed.

Lemma union_one h (B : id -> Prop) : UnionOk h [B].
Proof.
  split; [|exact I]. split; [intros (_ & x & _ & [] & _)|]. intros a b _ _ HA _ (a0 & x & _ & _ & _ & -> & _). apply (HA x). apply in_elt.
Qed.

Section Find.
  Variable h : heap.
  Variable r : id.
  Hypothesis D : DocOk h r.
  Let wf : WF h := do_wf h r D.

  (** * When the next candidates are in document order again *)
  Notation NestFree := (NestFree h).
  Notation NoFollow := (NoFollow h).
  Notation OrdAfter := (OrdAfter h).
  (** The rule that is run first does not meet a node whose child list makes it panic. *)
  Definition SafeM (c : comb) (m : matcher) (P : id -> Prop) : Prop :=
    mt_one m = None ->
    match c with
    | ChildrenAll => forall g, mt_spec m = Some g ->
        forall x, P x -> (forall y, P y -> ~ Anc h y x) -> kids h x = [] -> g x = Ok []
    | Children =>
        mt_cache m = false /\
        match mt_spec m with
        | Some g => forall x, P x -> kids h x = [] -> g x = Ok []
        | None => forall g, mt_all m = Some g -> forall x, P x -> children h x = [] -> g [] (Some false) = Ok []
        end
    | _ => True
    end.

  Lemma before_down u v x y : Before h u v -> ~ Anc h u v -> AncEq h u x -> AncEq h v y -> Before h x y.
  Proof.
    intros [Ha | (p & i & j & a & b & H1 & H2 & H3 & H4 & H5)] Hn Hx Hy; [contradiction|].
    apply (subtree_before h p i j a b x y H1 H2 H3).
    - destruct Hx as [<- | Hx]; [exact H4 | right; exact (anceq_anc h a u x H4 Hx)].
    - destruct Hy as [<- | Hy]; [exact H5 | right; exact (anceq_anc h b v y H5 Hy)].
  Qed.
  Lemma dfs_ok m p s x : MOk h r m p s -> mt_cache m = false -> InTree h r x ->
    (mt_one m = None -> forall g, mt_spec m = Some g -> kids h x = [] -> g x = Ok []) ->
    dfs h m x = Ok (filter p (descendants h x)).
  Proof.
    intros M Hc Hx HS. unfold dfs, descendants. destruct (mt_one m) as [g|] eqn:E1.
    - exact (dfs_one_ok h r D p g (mo_one h r m p s M g E1) _ x Hx (deep_full h r D x)).
    - destruct (mt_spec m) as [g|] eqn:E2.
      + destruct (mo_spec h r m p s M E1 g E2) as [HE | [HE Hf]].
        * exact (dfs_spec_ok h r D p g HE _ x Hx (deep_full h r D x) (HS eq_refl g eq_refl)).
        * unfold dfs_fuel. cbn [dfs_spec]. rewrite (HE x). cbn. f_equal. symmetry. apply filter_nil.
          intros y Hy. apply Hf. apply (desc_el h r x y Hx). exact (proj1 (descendants_in h r D x y Hx) Hy).
      + destruct (mo_all h r m p s M E1) as (g & Eg). unfold get_all_handle. rewrite Eg. cbn [rbind].
        exact (dfs_all_ok h r D p g (mo_kids h r m p s M E1 E2 Hc g Eg) _ x Hx (deep_full h r D x)).
  Qed.
  Lemma children_base m p s x : MOk h r m p s -> SafeM Children m (fun y => y = x) -> InTree h r x ->
    match mt_one m with
    | Some g => rfilter g (children h x)
    | None =>
        match mt_spec m with
        | Some g => do calls <- g x; Ok (flat_map (fun e : id * bool * bool => let '(c, b, _) := e in if b then [c] else []) calls)
        | None => do g <- get_all_handle m; g (children h x) (Some false)
        end
    end = Ok (filter p (children h x)).
  Proof.
    intros M HS Hx. unfold SafeM in HS. destruct (mt_one m) as [g|] eqn:E1.
    - apply rfilter_ok. intros y Hy. exact (mo_one h r m p s M g E1 y (el_child h r x y Hx Hy)).
    - destruct (HS eq_refl) as [Hc HS']. destruct (mt_spec m) as [g|] eqn:E2.
      + destruct (mo_spec h r m p s M E1 g E2) as [HE | [HE Hf]].
        * assert (Ek : kids h x = [] \/ kids h x <> []) by (destruct (kids h x); [left; reflexivity | right; discriminate]).
          destruct Ek as [Ek | Ek].
          -- rewrite (HS' x eq_refl Ek). cbn. unfold children. rewrite Ek. reflexivity.
          -- rewrite (HE x Hx Ek). cbn [rbind]. f_equal. induction (children h x) as [|c l IH]; [reflexivity|]. cbn. rewrite IH. destruct (p c); reflexivity.
        * rewrite (HE x). cbn. f_equal. symmetry. apply filter_nil. intros y Hy. apply Hf. exact (el_child h r x y Hx Hy).
      + destruct (mo_all h r m p s M E1) as (g & Eg). unfold get_all_handle. rewrite Eg. cbn [rbind].
        assert (Ek : children h x = [] \/ children h x <> []) by (destruct (children h x); [left; reflexivity | right; discriminate]).
        destruct Ek as [Ek | Ek]; [rewrite Ek; exact (HS' g Eg x eq_refl Ek)|].
        exact (mo_kids h r m p s M E1 E2 Hc g Eg x Hx Ek).
  Qed.

  (** * One step *)
  Section Step.
    Variable els : list id.
    Hypothesis HS : Forall (Start h r) els.
    Hypothesis HN : NoDup els.
    Hypothesis HI : SibInc h els.
    Let P : id -> Prop := fun x => In x els.
    Let Hin : forall x, In x els -> InTree h r x.
    Proof. intros x Hx. rewrite Forall_forall in HS. exact (proj1 (HS x Hx)). Qed.

    Lemma starts_ok : Ordered h els -> exists l, search_starts h els = Ok l /\ Ordered h l /\ forall x, In x l <-> Topmost h els x.
    Proof.
      intros Ho. unfold search_starts. destruct (Nat.ltb_spec 1 (length els)) as [Hl | Hl].
      - destruct (unique_parents_ok h wf r els) as (l & El & [_ Hol] & Hm); [split; [apply Forall_forall; exact Hin | exact Ho]|].
        exists l. split; [exact El|]. split; [exact Hol | exact Hm].
      - exists els. split; [reflexivity|]. split; [exact Ho|]. intros x. unfold Topmost. split; [|tauto]. intros Hx. split; [exact Hx|].
        intros y Hy Ha. destruct els as [|a [|b l]]; cbn in Hl; try lia; [destruct Hx|]. destruct Hx as [<- | []], Hy as [<- | []].
        exact (anc_irrefl h wf _ Ha).
    Qed.
    Lemma descendants_base m p s : MOk h r m p s -> mt_cache m = false -> SafeM ChildrenAll m P -> Ordered h els ->
      exists base, select_by_rule h els m ChildrenAll = Ok (filter p base) /\ Forall (ElIn h r) base /\ Ordered h base /\
        forall y, In y base <-> exists e, In e els /\ Rel h ChildrenAll e y.
    Proof.
      intros M Hc HSM Ho. destruct (starts_ok Ho) as (st & Est & Hos & Hm). exists (flat_map (descendants h) st).
      assert (Hst : forall x, In x st -> InTree h r x) by (intros x Hx; apply Hm in Hx; exact (Hin x (proj1 Hx))).
      assert (HM : forall y, In y (flat_map (descendants h) st) <-> exists e, In e els /\ Rel h ChildrenAll e y).
      { intros y. rewrite in_flat_map. split.
        - intros (e & He & Hy). exists e. split; [apply Hm in He; apply He|]. exact (proj1 (descendants_in h r D e y (Hst e He)) Hy).
        - intros (e & He & [Ha Hye]). destruct (topmost_covers h wf r els e) as (t & Ht & Hte); [apply Forall_forall; exact Hin | exact He|].
          assert (Hts : In t st) by (apply Hm; exact Ht). exists t. split; [exact Hts|]. apply (descendants_in h r D t y (Hst t Hts)).
          split; [exact (anceq_anc h t e y Hte Ha) | exact Hye]. }
      split; [|split; [|split; [|exact HM]]].
      - cbn [select_by_rule]. rewrite Est. cbn [rbind]. rewrite filter_flat_map. apply rflat_ok. intros x Hx.
        apply (dfs_ok m p s x M Hc (Hst x Hx)). intros E1 g Eg Hk. apply Hm in Hx. destruct Hx as [Hx Ht]. exact (HSM E1 g Eg x Hx Ht Hk).
      - apply Forall_forall. intros y Hy. apply HM in Hy. destruct Hy as (e & He & HR). exact (desc_el h r e y (Hin e He) HR).
      - apply ordered_pairs. apply pairs_flat.
        + intros a Ha. apply ordered_pairs. exact (proj2 (descendants_docset h r D a (Hst a Ha))).
        + apply ordered_pairs in Hos. revert Hos. apply pairs_imp. intros u v Hu Hv HB x y Hx Hy.
          apply (descendants_in h r D u x (Hst u Hu)) in Hx. apply (descendants_in h r D v y (Hst v Hv)) in Hy.
          apply (before_down u v x y HB); [|right; apply Hx | right; apply Hy]. apply Hm in Hu, Hv. apply Hv. apply Hu.
    Qed.

    Lemma kids_base : Forall (ElIn h r) (flat_map (children h) els) /\ SibInc h (flat_map (children h) els) /\
      (Ordered h els -> NestFree P -> Ordered h (flat_map (children h) els)) /\
      forall y, In y (flat_map (children h) els) <-> exists e, In e els /\ Rel h Children e y.
    Proof.
      assert (HM : forall y, In y (flat_map (children h) els) <-> exists e, In e els /\ Rel h Children e y).
      { intros y. rewrite in_flat_map. split; intros (e & He & Hy); exists e; (split; [exact He|]); [apply in_children in Hy; exact Hy | apply in_children; exact Hy]. }
      split; [|split; [|split; [|exact HM]]].
      - apply Forall_forall. intros y Hy. apply in_flat_map in Hy. destruct Hy as (e & He & Hy). exact (el_child h r e y (Hin e He) Hy).
      - apply pairs_flat.
        + intros a Ha. apply (ordered_sibinc h r D); [|exact (children_ordered h a)]. apply Forall_forall. intros c Hc. exact (el_child h r a c (Hin a Ha) Hc).
        + apply pairs_ne in HN. revert HN. apply pairs_imp. intros a b Ha Hb Hne x y Hx Hy p Ex Ey. exfalso. apply Hne.
          apply in_children in Hx, Hy. rewrite (child_parent h wf _ _ (proj1 Hx)) in Ex. rewrite (child_parent h wf _ _ (proj1 Hy)) in Ey. congruence.
      - intros Ho Hnf. apply ordered_pairs. apply pairs_flat; [intros a _; apply ordered_pairs; exact (children_ordered h a)|].
        apply ordered_pairs in Ho. revert Ho. apply pairs_imp. intros u v Hu Hv HB x y Hx Hy. apply in_children in Hx, Hy.
        apply (before_down u v x y HB (Hnf u v Hu Hv)); right; apply Anc_child; [apply Hx | apply Hy].
    Qed.

    (** Later siblings of two nodes that are not nested. *)
    Lemma sib_apart u v : InTree h r u -> InTree h r v -> Before h u v -> ~ Anc h u v -> parent h u <> parent h v ->
      (exists p i j a b, Listed h p i a /\ Listed h p j b /\ i < j /\ Anc h a u /\ AncEq h b v) \/
      (exists p i j b, Listed h p i u /\ Listed h p j b /\ i < j /\ Anc h b v).
    Proof.
      intros Hu Hv [Ha | (p & i & j & a & b & H1 & H2 & H3 & H4 & H5)] Hn Hne; [contradiction|].
      destruct H4 as [-> | H4]; [|left; exists p, i, j, a, b; repeat split; assumption].
      destruct H5 as [-> | H5]; [|right; exists p, i, j, b; repeat split; assumption].
      exfalso. apply Hne. rewrite (listed_parent h wf _ _ _ H1), (listed_parent h wf _ _ _ H2). reflexivity.
    Qed.
    Lemma follow_under a u y : Anc h a u -> Following h u y -> Anc h a y.
    Proof.
      intros Ha (p & i & j & H1 & H2 & _). apply anc_inv in Ha. destruct Ha as (q & Hq & Hc).
      pose proof (child_parent h wf _ _ Hc) as E. rewrite (listed_parent h wf _ _ _ H1) in E. injection E as ->.
      exact (anceq_anc h a q y Hq (Anc_child h q y (ex_intro _ j H2))).
    Qed.
    Lemma follow_right p j b v z : Listed h p j b -> AncEq h b v -> Following h v z -> exists j' b', Listed h p j' b' /\ j <= j' /\ AncEq h b' z.
    Proof.
      intros Hb [-> | Ha] HF.
      - destruct HF as (q & i & k & H1 & H2 & Hlt & _). destruct (listed_inj h wf _ _ _ _ _ Hb H1) as [-> ->].
        exists k, z. split; [exact H2|]. split; [lia | left; reflexivity].
      - exists j, b. split; [exact Hb|]. split; [lia|]. right. exact (follow_under b v z Ha HF).
    Qed.

    Lemma next_base : Forall (ElIn h r) (flat_map (next_list h) els) /\ SibInc h (flat_map (next_list h) els) /\
      (Ordered h els -> NestFree P -> Ordered h (flat_map (next_list h) els)) /\
      forall y, In y (flat_map (next_list h) els) <-> exists e, In e els /\ Rel h Next e y.
    Proof.
      assert (HM : forall y, In y (flat_map (next_list h) els) <-> exists e, In e els /\ Rel h Next e y).
      { intros y. rewrite in_flat_map. split; intros (e & He & Hy); exists e; (split; [exact He|]); apply (in_next h r D e y (Hin e He)); exact Hy. }
      assert (Hsib : forall u v y z, In u els -> In v els -> parent h u = parent h v -> index h u < index h v -> NextEl h u y -> NextEl h v z ->
        parent h y = parent h z /\ index h y < index h z).
      { intros u v y z Hu Hv Ep Hlt Hy Hz. destruct (following_facts h r D u y (Hin u Hu) (next_following h u y Hy)) as (Hye & Epy & _).
        destruct (following_facts h r D v z (Hin v Hv) (next_following h v z Hz)) as (Hze & Epz & Hiz). split; [congruence|].
        destruct (el_parent h r D y Hye) as (q & Eq & _). rewrite Forall_forall in HS. destruct (HS v Hv) as [_ [Hve | ->]].
        - assert (HF : Following h u v).
          { apply (following_intro h r D u v (Hin u Hu)); [split; [exact (Hin v Hv) | exact Hve] | congruence | congruence | exact Hlt]. }
          pose proof (next_min h r D u y v (Hin u Hu) Hy HF). lia.
        - exfalso. rewrite (root_no_parent h r D) in Ep. congruence. }
      split; [|split; [|split; [|exact HM]]].
      - apply Forall_forall. intros y Hy. apply HM in Hy. destruct Hy as (e & He & HR). exact (rel_el h r D Next e y (Hin e He) eq_refl HR).
      - apply pairs_flat.
        + intros a _. unfold next_list. destruct (hd_error _); repeat constructor.
        + revert HI. apply pairs_imp. intros u v Hu Hv Huv y z Hy Hz p Ey Ez.
          apply (in_next h r D u y (Hin u Hu)) in Hy. apply (in_next h r D v z (Hin v Hv)) in Hz.
          destruct (following_facts h r D u y (Hin u Hu) (next_following h u y Hy)) as (_ & Epy & _).
          destruct (following_facts h r D v z (Hin v Hv) (next_following h v z Hz)) as (_ & Epz & _).
          apply (Hsib u v y z Hu Hv); [congruence | apply (Huv p); congruence | exact Hy | exact Hz].
      - intros Ho Hnf. apply ordered_pairs. apply pairs_flat.
        + intros a _. unfold next_list. destruct (hd_error _); repeat constructor.
        + apply ordered_pairs in Ho. pose proof (pairs_and _ _ _ Ho HI) as HP. revert HP. apply pairs_imp.
          intros u v Hu Hv [HB Hinc] y z Hy Hz.
          apply (in_next h r D u y (Hin u Hu)) in Hy. apply (in_next h r D v z (Hin v Hv)) in Hz.
          destruct (following_facts h r D u y (Hin u Hu) (next_following h u y Hy)) as (Hye & Epy & _).
          destruct (following_facts h r D v z (Hin v Hv) (next_following h v z Hz)) as (Hze & Epz & _).
          destruct (el_parent h r D y Hye) as (q & Eq & _).
          assert (Hd : parent h u = parent h v \/ parent h u <> parent h v).
          { destruct (opt_eqb (parent h u) (parent h v)) eqn:E; [left; apply opt_eqb_spec; exact E | right; intros E'; apply opt_eqb_spec in E'; congruence]. }
          destruct Hd as [Ep | Ep].
          * destruct (Hsib u v y z Hu Hv Ep) as [E1 E2]; [apply (Hinc q); congruence | exact Hy | exact Hz|].
            apply (sib_before h r D y z (proj1 Hye) (proj1 Hze)); [congruence | congruence | exact E2].
          * destruct (sib_apart u v (Hin u Hu) (Hin v Hv) HB (Hnf u v Hu Hv) Ep) as [(p & i & j & a & b & H1 & H2 & H3 & H4 & H5) | (p & i & j & b & H1 & H2 & H3 & H4)].
            -- destruct (follow_right p j b v z H2 H5 (next_following h v z Hz)) as (j' & b' & H2' & Hle & H5').
               apply (subtree_before h p i j' a b' y z H1 H2'); [lia | right; exact (follow_under a u y H4 (next_following h u y Hy)) | exact H5'].
            -- assert (Hbz : Anc h b z) by exact (follow_under b v z H4 (next_following h v z Hz)).
               assert (Hbe : is_element h b = true).
               { pose proof (intree_anc h wf r v b (Hin v Hv) (or_intror H4)) as Hb. apply anc_first in H4. destruct H4 as (c & Hc & _).
                 destruct (wf_parent h wf c b (child_parent h wf _ _ Hc)) as [_ [He | Hr]]; [exact He|].
                 pose proof (listed_parent h wf _ _ _ H2) as E. rewrite (wf_root h wf b Hr) in E. discriminate. }
               assert (HF : Following h u b) by (exists p, i, j; repeat split; assumption).
               pose proof (next_min h r D u y b (Hin u Hu) Hy HF) as Hle.
               destruct (following_facts h r D u b (Hin u Hu) HF) as (Hbin & Epb & _).
               destruct (Nat.eq_dec (index h y) (index h b)) as [E | E].
               ++ assert (y = b) by (apply (sib_eq h r D y b (proj1 Hye) (proj1 Hbin)); [congruence | exact E]). subst y. left. exact Hbz.
               ++ assert (HBb : Before h y b) by (apply (sib_before h r D y b (proj1 Hye) (proj1 Hbin)); [congruence | congruence | lia]).
                  destruct (el_parent h r D y Hye) as (py & Epy' & _ & Ly). destruct (el_parent h r D b Hbin) as (pb & Epb' & _ & Lb).
                  assert (py = pb) by congruence. subst pb. apply (subtree_before h py _ _ y b y z Ly Lb); [lia | left; reflexivity | right; exact Hbz].
    Qed.

    Lemma following_ordered e : Ordered h (following_list h e).
    Proof.
      unfold following_list. destruct (parent h e) as [p|]; [|exact I]. apply ordered_filter. pose proof (kids_ordered h p) as HK.
      rewrite <- (firstn_skipn (S (index h e)) (kids h p)) in HK. apply ordered_app in HK. apply HK.
    Qed.
    Lemma nexts_base : let base := flat_map (following_list h) (firsts h [] els) in
      Forall (ElIn h r) base /\ SibInc h base /\ (Ordered h els -> NestFree P -> NoFollow P -> Ordered h base) /\
      forall y, In y base <-> exists e, In e els /\ Rel h NextAll e y.
    Proof.
      intros base.
      assert (HM : forall y, In y base <-> exists e, In e els /\ Rel h NextAll e y).
      { intros y. unfold base. rewrite in_flat_map. split.
        - intros (e & He & Hy). apply firsts_sub in He. exists e. split; [exact He|]. exact (proj1 (in_following h r D e y (Hin e He)) Hy).
        - intros (e & He & Hy). cbn in Hy. destruct (firsts_cover h els e He) as (e' & He' & Ep). exists e'. split; [exact He'|].
          pose proof (firsts_sub h els [] e' He') as Hi'. apply (in_following h r D e' y (Hin e' Hi')).
          destruct (following_facts h r D e y (Hin e He) Hy) as (Hye & Epy & Hiy).
          destruct (el_parent h r D y Hye) as (q & Eq & _).
          apply (following_intro h r D e' y (Hin e' Hi') Hye); [congruence | congruence|].
          assert (Hle : index h e' <= index h e); [|lia].
          apply in_firsts in He'. destruct He' as (l1 & l2 & El & _ & Hd). pose proof HI as HI'. rewrite El in He, HI'.
          apply in_app_or in He. destruct He as [He | [<- | He]]; [exfalso; exact (Hd e He (eq_sym Ep)) | lia|].
          apply pairs_app in HI'. destruct HI' as (_ & HI' & _). inversion HI' as [|x0 l0 Hf _]; subst. rewrite Forall_forall in Hf.
          assert (index h e' < index h e) by (apply (Hf e He q); congruence). lia. }
      assert (Hsub : forall e, In e (firsts h [] els) -> InTree h r e) by (intros e He; exact (Hin e (firsts_sub h els [] e He))).
      split; [|split; [|split; [|exact HM]]].
      - apply Forall_forall. intros y Hy. apply HM in Hy. destruct Hy as (e & He & HR). exact (rel_el h r D NextAll e y (Hin e He) eq_refl HR).
      - apply pairs_flat.
        + intros a Ha. apply (ordered_sibinc h r D); [|exact (following_ordered a)]. apply Forall_forall. intros c Hc.
          apply (in_following h r D a c (Hsub a Ha)) in Hc. exact (proj1 (following_facts h r D a c (Hsub a Ha) Hc)).
        + pose proof (firsts_distinct h els []) as HP. revert HP. apply pairs_imp. intros u v Hu Hv Hne y z Hy Hz p Ey Ez. exfalso. apply Hne.
          apply (in_following h r D u y (Hsub u Hu)) in Hy. apply (in_following h r D v z (Hsub v Hv)) in Hz.
          destruct (following_facts h r D u y (Hsub u Hu) Hy) as (_ & Epy & _). destruct (following_facts h r D v z (Hsub v Hv) Hz) as (_ & Epz & _). congruence.
      - intros Ho Hnf Hfo. apply ordered_pairs. apply pairs_flat; [intros a _; apply ordered_pairs; exact (following_ordered a)|].
        apply ordered_pairs in Ho. apply (firsts_pairs h els []) in Ho. pose proof (pairs_and _ _ _ Ho (firsts_distinct h els [])) as HP.
        revert HP. apply pairs_imp. intros u v Hu Hv [HB Hne] y z Hy Hz.
        pose proof (firsts_sub h els [] u Hu) as Hu'. pose proof (firsts_sub h els [] v Hv) as Hv'.
        apply (in_following h r D u y (Hsub u Hu)) in Hy. apply (in_following h r D v z (Hsub v Hv)) in Hz.
        destruct (sib_apart u v (Hin u Hu') (Hin v Hv') HB (Hnf u v Hu' Hv') Hne) as [(p & i & j & a & b & H1 & H2 & H3 & H4 & H5) | (p & i & j & b & H1 & H2 & H3 & H4)].
        + destruct (follow_right p j b v z H2 H5 Hz) as (j' & b' & H2' & Hle & H5').
          apply (subtree_before h p i j' a b' y z H1 H2'); [lia | right; exact (follow_under a u y H4 Hy) | exact H5'].
        + exfalso. apply (Hfo u v b Hu' Hv'); [|exact H4]. exists p, i, j. split; [exact H1|]. split; [exact H2|]. split; [exact H3|].
          apply anc_first in H4. destruct H4 as (c & Hc & _).
          destruct (wf_parent h wf c b (child_parent h wf _ _ Hc)) as [_ [He | Hr]]; [exact He|].
          pose proof (listed_parent h wf _ _ _ H2) as E. rewrite (wf_root h wf b Hr) in E. discriminate.
    Qed.

    Lemma fwd_step c m p s : fwd c = true -> MOk h r m p s -> (c = ChildrenAll -> mt_cache m = false /\ Ordered h els) ->
      SafeM c m P -> (s = false -> OrdAfter c P (Ordered h els)) ->
      exists base, select_by_rule h els m c = Ok (filter p base) /\ Forall (ElIn h r) base /\ SibInc h base /\
        (OrdAfter c P (Ordered h els) -> Ordered h base) /\ forall y, In y base <-> exists e, In e els /\ Rel h c e y.
    Proof.
      intros Hf M HA HSM Hord. destruct c; try discriminate.
      - destruct (HA eq_refl) as [Hc Ho]. destruct (descendants_base m p s M Hc HSM Ho) as (base & E & H1 & H2 & H3).
        exists base. split; [exact E|]. split; [exact H1|]. split; [exact (ordered_sibinc h r D base H1 H2)|]. split; [intros _; exact H2 | exact H3].
      - destruct kids_base as (H1 & H2 & H3 & H4). exists (flat_map (children h) els). split; [|split; [exact H1|]; split; [exact H2|]; split; [|exact H4]].
        + rewrite filter_flat_map. cbn [select_by_rule].
          assert (HSx : forall x, In x els -> SafeM Children m (fun y => y = x)).
          { intros x Hx E1. destruct (HSM E1) as [Hc HS']. split; [exact Hc|]. destruct (mt_spec m).
            - intros y ->. exact (HS' x Hx).
            - intros g0 Eg y ->. exact (HS' g0 Eg x Hx). }
          pose proof (fun x Hx => children_base m p s x M (HSx x Hx) (Hin x Hx)) as HC.
          destruct (mt_one m) as [g|] eqn:E1; [apply rflat_ok; exact HC|]. destruct (mt_spec m) as [g|]; [apply rflat_ok; exact HC|].
          destruct (mo_all h r m p s M E1) as (g & Eg). unfold get_all_handle in *. rewrite Eg in *. cbn [rbind] in *. apply rflat_ok. exact HC.
        + intros [Ho Hn]. exact (H3 Ho Hn).
      - destruct nexts_base as (H1 & H2 & H3 & H4). eexists. split; [|split; [exact H1|]; split; [exact H2|]; split; [|exact H4]].
        + cbn [select_by_rule]. rewrite (us_first h r D els) by (apply Forall_forall; exact Hin). cbn [rbind]. rewrite filter_flat_map. apply rflat_ok.
          intros e He. pose proof (Hin e (firsts_sub h els [] e He)) as Hi. rewrite (nexts_eq h r D e Hi). cbn [rbind]. apply (mo_none h r m p s M).
          apply good_ordered; [exact D | |exact (following_ordered e)]. rewrite Forall_forall in H1. apply Forall_forall. intros y Hy. apply H1.
          apply in_flat_map. exists e. split; assumption.
        + intros (Ho & Hn & Hw). exact (H3 Ho Hn Hw).
      - destruct next_base as (H1 & H2 & H3 & H4). exists (flat_map (next_list h) els). split; [|split; [exact H1|]; split; [exact H2|]; split; [|exact H4]].
        + cbn [select_by_rule]. replace (flat_map (fun x => opt_list (next_element_sibling h x)) els) with (flat_map (next_list h) els)
            by (apply flat_map_ext; intros x; symmetry; apply next_eq).
          apply (mok_apply h r m p s _ M). split; [exact H1|]. split; [exact H2|]. intros E. destruct (Hord E) as [Ho Hn]. exact (H3 Ho Hn).
        + intros [Ho Hn]. exact (H3 Ho Hn).
    Qed.
  End Step.

  (** * One compound *)
  Definition SafeC (c : comb) (cp : compound) (P : id -> Prop) : Prop :=
    forall m c0 rest, cp = (m, c0) :: rest -> SafeM c m P.
  Lemma safe_ext c m (P Q : id -> Prop) : (forall x, P x <-> Q x) -> SafeM c m P -> SafeM c m Q.
  Proof.
    intros E HSM E1. specialize (HSM E1). destruct c; try exact HSM.
    - intros g Eg x Hx Ht Hk. apply (HSM g Eg x); [apply E; exact Hx | intros y Hy; apply Ht, E, Hy | exact Hk].
    - destruct HSM as [Hc HSM]. split; [exact Hc|]. destruct (mt_spec m).
      + intros x Hx. apply HSM, E, Hx.
      + intros g Eg x Hx. apply (HSM g Eg), E, Hx.
  Qed.
  Lemma safec_ext c cp (P Q : id -> Prop) : (forall x, P x <-> Q x) -> SafeC c cp P -> SafeC c cp Q.
  Proof. intros E HS m c0 rest Ecp. exact (safe_ext c m P Q E (HS m c0 rest Ecp)). Qed.
  Lemma ord_after_ext c (P Q : id -> Prop) (o o' : Prop) : (forall x, P x <-> Q x) -> (o -> o') -> OrdAfter c P o -> OrdAfter c Q o'.
  Proof.
    intros E Ho H.
    assert (HN : NestFree P -> NestFree Q) by (intros H0 u v Hu Hv; apply H0; apply E; assumption).
    assert (HF : NoFollow P -> NoFollow Q) by (intros H0 u v z Hu Hv; apply H0; apply E; assumption).
    destruct c; cbn in *; try exact H.
    - split; [apply Ho, H | apply HN, H].
    - split; [apply Ho, H|]. split; [apply HN, H | apply HF, H].
    - split; [apply Ho, H | apply HN, H].
  Qed.

  Lemma fwd_select els cp b s c o : COk h r cp b s -> fwd c = true -> match o with Some c' => c' | None => comp_comb b end = c ->
    Forall (Start h r) els -> NoDup els -> SibInc h els -> (c = ChildrenAll -> Ordered h els) ->
    SafeC c cp (fun x => In x els) -> (s = false -> OrdAfter c (fun x => In x els) (Ordered h els)) ->
    exists l, select h els cp o = Ok l /\ Forall (ElIn h r) l /\ SibInc h l /\
      (OrdAfter c (fun x => In x els) (Ordered h els) -> Ordered h l) /\
      forall y, In y l <-> compb b y = true /\ exists e, In e els /\ Rel h c e y.
  Proof.
    intros HC Hf Hres HS HN HI HA HSC Hord. destruct (compound_chain h r cp b s HC) as (m & c1 & rest & p & -> & Hf1 & Ec1 & M & Hp & Hch).
    unfold select. cbn [rnth nth_error rbind tl].
    assert (Ec : match o with Some c' => c' | None => c1 end = c) by (rewrite Ec1; exact Hres). rewrite Ec.
    destruct (mt_cache m && comb_eqb c ChildrenAll) eqn:Ecache.
    - apply andb_true_iff in Ecache. destruct Ecache as [Em Ecc]. assert (c = ChildrenAll) by (destruct c; try discriminate; reflexivity).
      clear Ec Hres Ec1. subst c. clear Ecc.
      destruct (mo_cache h r m p s M Em) as [_ Hcache]. destruct (Hcache els) as (l0 & El0 & He0 & Hm0).
      { rewrite Forall_forall in *. intros x Hx. destruct (HS x Hx) as [Hi [He | ->]]; (split; [exact Hi|]); [left; exact He | right; exact (do_root h r D)]. }
      rewrite El0. cbn [rbind].
      set (kb := fun x => ok_or (has_plain h els x ChildrenAll)).
      assert (Hkb : forall x, In x l0 -> has_plain h els x ChildrenAll = Ok (kb x) /\ (kb x = true <-> exists e, In e els /\ Rel h ChildrenAll e x)).
      { intros x Hx. rewrite Forall_forall in He0. destruct (has_plain_ok h r D els x ChildrenAll HS (He0 x Hx) eq_refl) as (bb & Eb & Hb).
        unfold kb. rewrite Eb. split; [reflexivity | exact Hb]. }
      assert (Hk : rfilter (fun x => has_plain h els x ChildrenAll) l0 = Ok (filter kb l0)).
      { apply rfilter_ok. intros x Hx. exact (proj1 (Hkb x Hx)). }
      assert (HAk : AllIn h r (filter kb l0)).
      { rewrite Forall_forall in *. intros x Hx. apply filter_In in Hx. apply (He0 x (proj1 Hx)). }
      destruct (sort_and_unique_ok h wf r _ HAk) as (l1 & El1 & [Ha1 Ho1] & Hs1).
      assert (El : (if nonempty l0 then do kept <- rfilter (fun x => has_plain h els x ChildrenAll) l0; sort_and_unique h kept else Ok []) = Ok l1).
      { destruct (nonempty l0) eqn:En; [rewrite Hk; exact El1|]. apply nonempty_false in En. subst l0. destruct l1 as [|x l1]; [reflexivity|].
        destruct (proj1 (Hs1 x) (or_introl eq_refl)). }
      rewrite El. cbn [rbind].
      assert (Hmem : forall y, In y l1 <-> p y = true /\ exists e, In e els /\ Rel h ChildrenAll e y).
      { intros y. rewrite (Hs1 y), filter_In. split.
        - intros [H1 H2]. apply (proj2 (Hkb y H1)) in H2. split; [|exact H2]. apply (Hm0 ltac:(intros ->; destruct H2 as (? & [] & _))) in H1. apply H1.
        - intros [H1 H2]. assert (Hy : In y l0).
          { destruct H2 as (e & He & HR). apply (Hm0 ltac:(intros ->; destruct He)). split; [|exact H1].
            rewrite Forall_forall in HS. exact (desc_el h r e y (proj1 (HS e He)) HR). }
          split; [exact Hy | apply (Hkb y Hy); exact H2]. }
      assert (He1 : Forall (ElIn h r) l1).
      { apply Forall_forall. intros y Hy. apply Hs1, filter_In in Hy. rewrite Forall_forall in He0. apply He0, Hy. }
      assert (Ef : filter p l1 = l1) by (apply filter_all; intros y Hy; apply Hmem in Hy; apply Hy).
      pose proof (Hch l1 He1) as Hch1. rewrite Ef in Hch1. rewrite (Hch1 (good_ordered h r D s l1 He1 Ho1)).
      exists (filter (compb b) l1). split; [reflexivity|].
      assert (Hef : Forall (ElIn h r) (filter (compb b) l1)).
      { rewrite Forall_forall in *. intros y Hy. apply filter_In in Hy. apply He1, Hy. }
      assert (Hof : Ordered h (filter (compb b) l1)) by (apply ordered_filter; exact Ho1).
      split; [exact Hef|]. split; [exact (ordered_sibinc h r D _ Hef Hof)|]. split; [intros _; exact Hof|].
      intros y. rewrite filter_In, Hmem. split; [tauto|]. intros [H1 H2]. split; [|exact H1]. split; [|exact H2].
      apply Hp; [|exact H1]. destruct H2 as (e & He & HR). rewrite Forall_forall in HS. exact (desc_el h r e y (proj1 (HS e He)) HR).
    - destruct (fwd_step els HS HN HI c m p s Hf M) as (base & Es & Hb1 & Hb2 & Hb3 & Hb4).
      + intros Ecc. split; [|exact (HA Ecc)]. rewrite Ecc in Ecache. cbn in Ecache. rewrite andb_true_r in Ecache. exact Ecache.
      + exact (HSC m c1 rest eq_refl).
      + exact Hord.
      + rewrite Es. cbn [rbind]. rewrite Hch; [|exact Hb1|].
        2:{ apply good_filter. split; [exact Hb1|]. split; [exact Hb2|]. intros E. exact (Hb3 (Hord E)). }
        exists (filter (compb b) base). split; [reflexivity|]. split; [|split; [|split]].
        * rewrite Forall_forall in *. intros y Hy. apply filter_In in Hy. apply Hb1, Hy.
        * apply sibinc_filter. exact Hb2.
        * intros H. apply ordered_filter. exact (Hb3 H).
        * intros y. rewrite filter_In, Hb4. tauto.
  Qed.

  (** * A chain of compounds *)
  Definition StepB (S : id -> Prop) (b : bcompound) (x : id) : Prop := compb b x = true /\ exists e, S e /\ Rel h (comp_comb b) e x.
  Fixpoint WalkB (S : id -> Prop) (gb : bgroup) : id -> Prop :=
    match gb with
    | [] => S
    | b :: gb' => WalkB (StepB S b) gb'
    end.
  (** [ord]: the set so far is in document order. *)
  Fixpoint Runs (P : id -> Prop) (ord : Prop) (g : cgroup) (gb : bgroup) : Prop :=
    match g, gb with
    | [], [] => True
    | cp :: g', b :: gb' =>
        (exists s, COk h r cp b s /\ (s = false -> OrdAfter (comp_comb b) P ord)) /\
        (comp_comb b = ChildrenAll -> ord) /\ SafeC (comp_comb b) cp P /\
        Runs (StepB P b) (OrdAfter (comp_comb b) P ord) g' gb'
    | _, _ => False
    end.
  Fixpoint OrdEnd (P : id -> Prop) (ord : Prop) (gb : bgroup) : Prop :=
    match gb with
    | [] => ord
    | b :: gb' => OrdEnd (StepB P b) (OrdAfter (comp_comb b) P ord) gb'
    end.
  Lemma stepb_ext b (P Q : id -> Prop) : (forall x, P x <-> Q x) -> forall x, StepB P b x <-> StepB Q b x.
  Proof.
    intros E x. unfold StepB. split; intros (H1 & e & He & HR); (split; [exact H1|]); exists e; (split; [apply E; exact He | exact HR]).
  Qed.
  Lemma walkb_ext gb : forall (P Q : id -> Prop), (forall x, P x <-> Q x) -> forall x, WalkB P gb x <-> WalkB Q gb x.
  Proof. induction gb as [|b gb IH]; intros P Q E; [exact E|]. cbn. apply IH. exact (stepb_ext b P Q E). Qed.
  Lemma walkb_none gb : forall P : id -> Prop, (forall x, ~ P x) -> forall x, ~ WalkB P gb x.
  Proof. induction gb as [|b gb IH]; intros P H; [exact H|]. cbn. apply IH. intros x (_ & e & He & _). exact (H e He). Qed.
  Lemma walkb_snoc gb : forall P b x, WalkB P (gb ++ [b]) x <-> StepB (WalkB P gb) b x.
  Proof. induction gb as [|b0 gb IH]; intros P b x; cbn; [reflexivity | apply IH]. Qed.
  Lemma walkb_app gb gb' : forall P, WalkB P (gb ++ gb') = WalkB (WalkB P gb) gb'.
  Proof. induction gb as [|b gb IH]; intros P; cbn; [reflexivity | apply IH]. Qed.

  Definition FwdSet (l : list id) : Prop := Forall (Start h r) l /\ NoDup l /\ SibInc h l.
  Lemma fwdset_els l : Forall (ElIn h r) l -> SibInc h l -> FwdSet l.
  Proof.
    intros H1 H2. split; [|split; [exact (sibinc_nodup h r D l H1 H2) | exact H2]].
    revert H1. apply Forall_impl. exact (el_start h r).
  Qed.

  Lemma select_run cp b els (P : id -> Prop) (ord : Prop) o c : FwdSet els -> (forall x, In x els <-> P x) -> (ord -> Ordered h els) ->
    match o with Some c' => c' | None => comp_comb b end = c -> fwd c = true ->
    (exists s, COk h r cp b s /\ (s = false -> OrdAfter c P ord)) -> (c = ChildrenAll -> ord) -> SafeC c cp P ->
    exists l, select h els cp o = Ok l /\ Forall (ElIn h r) l /\ FwdSet l /\ (OrdAfter c P ord -> Ordered h l) /\
      forall y, In y l <-> compb b y = true /\ exists e, P e /\ Rel h c e y.
  Proof.
    intros (HS & HN & HI) HP Ho Hres Hf (s & HC & Hs) HA HSC.
    assert (HP' : forall x, P x <-> In x els) by (intros x; symmetry; apply HP).
    assert (HO : OrdAfter c P ord -> OrdAfter c (fun x => In x els) (Ordered h els)) by exact (ord_after_ext c P _ ord _ HP' Ho).
    destruct (fwd_select els cp b s c o HC Hf Hres HS HN HI) as (l & El & H1 & H2 & H3 & H4).
    - intros E. exact (Ho (HA E)).
    - exact (safec_ext c cp P _ HP' HSC).
    - intros E. exact (HO (Hs E)).
    - exists l. split; [exact El|]. split; [exact H1|]. split; [exact (fwdset_els l H1 H2)|]. split; [intros H; exact (H3 (HO H))|].
      intros y. rewrite H4. split; intros (Hc & e & He & HR); (split; [exact Hc|]); exists e; (split; [apply HP; exact He | exact HR]).
  Qed.
  Lemma query_run gb : forall g els (P : id -> Prop) (ord : Prop), FwdSet els -> (forall x, In x els <-> P x) -> (ord -> Ordered h els) ->
    Runs P ord g gb -> exists o, query_rest h els g = Ok o /\
      let l := match o with Some l => l | None => [] end in
      FwdSet l /\ (Forall (ElIn h r) els -> Forall (ElIn h r) l) /\ (OrdEnd P ord gb -> Ordered h l) /\ forall x, In x l <-> WalkB P gb x.
  Proof.
    induction gb as [|b gb IH]; intros [|cp g] els P ord HF HP Ho HR; try contradiction.
    - exists (Some els). split; [reflexivity|]. cbn. split; [exact HF|]. split; [trivial|]. split; [exact Ho | exact HP].
    - cbn [Runs] in HR. destruct HR as (HC & HA & HSC & HR). cbn [query_rest].
      assert (Hf : fwd (comp_comb b) = true) by (destruct HC as (s & HC & _); exact (proj1 (cok_comb h r cp b s HC))).
      destruct (select_run cp b els P ord None (comp_comb b) HF HP Ho eq_refl Hf HC HA HSC) as (l & El & H1 & H2 & H3 & H4).
      rewrite El. cbn [rbind WalkB OrdEnd]. destruct (nonempty l) eqn:En.
      + destruct (IH g l (StepB P b) _ H2 H4 H3 HR) as (o & Eo & Ha & Hb & Hc & Hd). exists o. split; [exact Eo|].
        split; [exact Ha|]. split; [intros _; exact (Hb H1)|]. split; [exact Hc | exact Hd].
      + apply nonempty_false in En. subst l. exists None. split; [reflexivity|]. cbn.
        split; [repeat constructor|]. split; [constructor|]. split; [trivial|]. intros x. split; [intros []|].
        intros Hw. apply (walkb_none gb (StepB P b)) in Hw; [exact Hw|]. intros y Hy. apply H4 in Hy. exact Hy.
  Qed.

  (** * Walking forwards and matching backwards *)
  Definition all_fwd (gb : bgroup) : Prop := Forall (fun b => fwd (comp_comb b) = true) gb.
  Lemma walkb_in gb : all_fwd gb -> forall P : id -> Prop, (forall s, P s -> InTree h r s) -> forall x, WalkB P gb x -> InTree h r x.
  Proof.
    induction 1 as [|b gb Hf _ IH]; intros P HP; [exact HP|]. cbn. apply IH. intros x (_ & e & He & HR).
    exact (proj1 (rel_el h r D _ e x (HP e He) Hf HR)).
  Qed.
  Lemma walkb_el gb b (P : id -> Prop) x : all_fwd (gb ++ [b]) -> (forall s, P s -> InTree h r s) -> WalkB P (gb ++ [b]) x -> ElIn h r x.
  Proof.
    intros HF HP HW. apply walkb_snoc in HW. destruct HW as (_ & e & He & HR). apply Forall_app in HF. destruct HF as [HF Hb].
    apply Forall_inv in Hb. exact (rel_el h r D _ e x (walkb_in gb HF P HP e He) Hb HR).
  Qed.
  Lemma walk_back (P : id -> Prop) : (forall s, P s -> InTree h r s) -> forall gb b x, all_fwd (gb ++ [b]) ->
    (WalkB P (gb ++ [b]) x <-> compb b x = true /\ BackRev h r (rev gb) (comp_comb b) P x).
  Proof.
    intros HP. induction gb as [|b' gb IH] using rev_ind; intros b x HF.
    - cbn. unfold StepB. reflexivity.
    - rewrite walkb_snoc, rev_app_distr. cbn [rev app BackRev]. unfold StepB. apply Forall_app in HF. destruct HF as [HF Hb].
      split; intros [H1 H2]; (split; [exact H1|]).
      + destruct H2 as (e & He & HR). exists e. split; [exact (walkb_el gb b' P e HF HP He)|]. split; [exact HR|]. apply (IH b' e HF). exact He.
      + destruct H2 as (y & Hy & HR & Hc & Hbr). exists y. split; [|exact HR]. apply (IH b' y HF). split; assumption.
  Qed.
  Fixpoint end_comb (g_rev : bgroup) (c : comb) : comb := match g_rev with [] => c | b :: rest => end_comb rest (comp_comb b) end.
  Lemma end_comb_snoc g b : forall c, end_comb (g ++ [b]) c = comp_comb b.
  Proof. induction g as [|b' g IH]; intros c; [reflexivity | apply IH]. Qed.
  Lemma rel_under c a y x : fwd c = true -> Anc h a y -> Rel h c y x -> Anc h a x.
  Proof.
    intros Hf Ha HR. destruct c; try discriminate; cbn in HR.
    - exact (anc_trans h a y x Ha (proj1 HR)).
    - exact (Anc_step h a y x Ha (proj1 HR)).
    - exact (follow_under a y x Ha HR).
    - exact (follow_under a y x Ha (next_following h y x HR)).
  Qed.
  Lemma back_under P g : all_fwd g -> forall c x, fwd c = true -> childish (end_comb g c) = true -> BackRev h r g c P x -> exists s, P s /\ Anc h s x.
  Proof.
    induction 1 as [|b g Hb _ IH]; intros c x Hf Hc HB.
    - cbn in Hc, HB. destruct HB as (s & Hs & HR). exists s. split; [exact Hs|]. destruct c; try discriminate; cbn in HR; [apply HR | apply Anc_child, HR].
    - cbn in Hc, HB. destruct HB as (y & Hy & HR & Hcb & HB). destruct (IH _ y Hb Hc HB) as (s & Hs & Ha).
      exists s. split; [exact Hs|]. exact (rel_under c s y x Hf Ha HR).
  Qed.

  (** * One process of a selector *)
  Definition ProcDone (els : list id) (p : process) (gb : bgroup) (ord : Prop) : Prop :=
    exists l, find_process h els p = Ok l /\ Forall (ElIn h r) l /\ NoDup l /\ (ord -> Ordered h l) /\
      forall x, In x l <-> WalkB (fun s => In s els) gb x.

  Lemma process_plain els g gb : FwdSet els -> gb <> [] -> Runs (fun x => In x els) (Ordered h els) g gb ->
    ProcDone els (mkProcess None g) gb (OrdEnd (fun x => In x els) (Ordered h els) gb).
  Proof.
    intros HF Hne HR. destruct gb as [|b gb]; [congruence|]. destruct g as [|cp g]; [destruct HR|]. cbn [Runs] in HR. destruct HR as (HC & HA & HSC & HR).
    assert (Hf : fwd (comp_comb b) = true) by (destruct HC as (s & HC & _); exact (proj1 (cok_comb h r cp b s HC))).
    destruct (select_run cp b els (fun x => In x els) (Ordered h els) None (comp_comb b) HF (fun x => iff_refl _) (fun H => H) eq_refl Hf HC HA HSC)
      as (l & El & H1 & H2 & H3 & H4).
    unfold ProcDone, find_process, find_first. cbn [query should_in rnth nth_error rbind tl]. rewrite El. cbn [rbind WalkB OrdEnd].
    destruct (nonempty l) eqn:En.
    - destruct (query_run gb g l _ _ H2 H4 H3 HR) as (o & Eo & Ha & Hb & Hc & Hd). rewrite Eo. cbn [rbind]. eexists. split; [reflexivity|].
      split; [exact (Hb H1)|]. split; [apply Ha|]. split; [exact Hc | exact Hd].
    - apply nonempty_false in En. subst l. exists []. split; [reflexivity|]. split; [constructor|]. split; [constructor|]. split; [intros _; exact I|].
      intros x. split; [intros []|]. intros Hw. apply (walkb_none gb) in Hw; [exact Hw|]. intros y Hy. apply H4 in Hy. exact Hy.
  Qed.

  Lemma process_lookup els pre preb cp b g gb s : FwdSet els -> Ordered h els ->
    Forall2 (fun cp b => COk h r cp b false) pre preb -> childish (end_comb (rev preb) (comp_comb b)) = true -> preb <> [] ->
    COk h r cp b s -> SafeC ChildrenAll cp (fun x => In x els) ->
    Runs (WalkB (fun x => In x els) (preb ++ [b])) True g gb ->
    ProcDone els (mkProcess (Some pre) (cp :: g)) (preb ++ b :: gb) (OrdEnd (WalkB (fun x => In x els) (preb ++ [b])) True gb).
  Proof.
    intros HF Ho Hpre Hch Hne HC HSC HR. pose proof (cok_comb h r cp b s HC) as (Hfb & m & c0 & rest & Ecp & Ec0).
    assert (Hall : all_fwd (preb ++ [b])).
    { apply Forall_app. split; [exact (fwd_all h r false pre preb Hpre) | constructor; [exact Hfb | constructor]]. }
    assert (Hin : forall x, In x els -> InTree h r x).
    { intros x Hx. destruct HF as (HS & _). rewrite Forall_forall in HS. exact (proj1 (HS x Hx)). }
    destruct (select_run cp b els (fun x => In x els) (Ordered h els) (Some ChildrenAll) ChildrenAll HF (fun x => iff_refl _) (fun H => H) eq_refl eq_refl)
      as (l & El & H1 & H2 & H3 & H4); [exists s; split; [exact HC | intros _; exact I] | intros _; exact Ho | exact HSC|].
    specialize (H3 I). unfold ProcDone, find_process, find_first. cbn [query should_in rnth nth_error rbind tl]. rewrite El. cbn [rbind].
    set (kb := fun x => ok_or (has_ele h els x (comp_comb b) pre)).
    assert (Hkb : forall x, In x l -> has_ele h els x (comp_comb b) pre = Ok (kb x) /\
      (kb x = true <-> BackRev h r (rev preb) (comp_comb b) (fun s => In s els) x)).
    { intros x Hx. rewrite Forall_forall in H1. destruct HF as (HS & _).
      destruct (has_ele_ok h r D els x (comp_comb b) pre preb HS (H1 x Hx) Hfb Hpre) as (bb & Eb & Hb). unfold kb. rewrite Eb. split; [reflexivity | exact Hb]. }
    assert (Hmem : forall x, In x (filter kb l) <-> WalkB (fun s => In s els) (preb ++ [b]) x).
    { intros x. rewrite (walk_back (fun s => In s els) Hin preb b x Hall), filter_In, H4. split.
      - intros [Hx Hk]. split; [apply Hx|]. apply Hkb; [apply H4; exact Hx | exact Hk].
      - intros [Hc HB]. destruct (back_under (fun s => In s els) (rev preb)) with (c := comp_comb b) (x := x) as (e & He & Ha).
        + apply Forall_rev. exact (fwd_all h r false pre preb Hpre).
        + exact Hfb.
        + exact Hch.
        + exact HB.
        + assert (Hx : compb b x = true /\ exists e, In e els /\ Rel h ChildrenAll e x).
          { split; [exact Hc|]. exists e. split; [exact He|]. split; [exact Ha|].
            assert (HW : WalkB (fun s => In s els) (preb ++ [b]) x) by (apply (walk_back _ Hin preb b x Hall); split; assumption).
            apply (walkb_el preb b _ x Hall Hin HW). }
          split; [exact Hx|]. apply Hkb; [apply H4; exact Hx | exact HB]. }
    assert (Egr : (if nonempty l then do first <- rnth cp 0; rfilter (fun x => has_ele h els x (snd first) pre) l else Ok []) = Ok (filter kb l)).
    { destruct (nonempty l) eqn:En; [|apply nonempty_false in En; subst l; reflexivity]. subst cp. cbn [rnth nth_error rbind snd]. rewrite Ec0.
      apply rfilter_ok. intros x Hx. exact (proj1 (Hkb x Hx)). }
    rewrite Egr. cbn [rbind].
    assert (HE : Forall (ElIn h r) (filter kb l)) by (rewrite Forall_forall in *; intros y Hy; apply filter_In in Hy; apply H1, Hy).
    assert (HO : Ordered h (filter kb l)) by (apply ordered_filter; exact H3).
    replace (preb ++ b :: gb) with ((preb ++ [b]) ++ gb) by (rewrite <- app_assoc; reflexivity). rewrite (walkb_app (preb ++ [b]) gb).
    destruct (nonempty (filter kb l)) eqn:En.
    - destruct (query_run gb g (filter kb l) _ True (fwdset_els _ HE (ordered_sibinc h r D _ HE HO)) Hmem (fun _ => HO) HR) as (o & Eo & Ha & Hb & Hc & Hd).
      rewrite Eo. cbn [rbind]. eexists. split; [reflexivity|]. split; [exact (Hb HE)|]. split; [apply Ha|]. split; [exact Hc | exact Hd].
    - apply nonempty_false in En. exists []. split; [reflexivity|]. split; [constructor|]. split; [constructor|]. split; [intros _; exact I|].
      intros x. split; [intros []|]. intros Hw. apply (walkb_none gb) in Hw; [exact Hw|]. intros y Hy. apply Hmem in Hy. rewrite En in Hy. exact Hy.
  Qed.

  (** * All processes *)
  Lemma find_one els p gb ord : ProcDone els p gb ord -> gb <> [] ->
    exists l, find_selector h els [p] = Ok l /\ Forall (ElIn h r) l /\ NoDup l /\ (ord -> Ordered h l) /\ forall x, In x l <-> WalkB (fun s => In s els) gb x.
  Proof.
    intros (l & El & H1 & H2 & H3 & H4) Hne. unfold find_selector. destruct (nonempty els) eqn:En.
    - cbn [rfold]. rewrite El. cbn [rbind]. exists l. split; [|split; [exact H1|]; split; [exact H2|]; split; [exact H3 | exact H4]].
      destruct l; reflexivity.
    - apply nonempty_false in En. subst els. exists []. split; [reflexivity|]. split; [constructor|]. split; [constructor|]. split; [intros _; exact I|].
      intros x. split; [intros []|]. apply walkb_none. intros y [].
  Qed.
  Notation AddFree := (AddFree h).
  Notation AddsFree := (AddsFree h).
  Lemma addfree_join (A B : id -> Prop) a b : DocSet h r a -> DocSet h r b -> (forall x, In x a <-> A x) -> (forall x, In x b <-> B x) ->
    AddFree A B -> JoinOk h a b.
  Proof.
    intros [_ Ha] [_ Hb] HA HB [H1 H2]. split; [|exact (H2 a b Ha Hb HA HB)]. intros (Hs & x & y & Hx & Hm & Hy & Hxy). apply H1. split.
    - intros z Hz. apply HB, Hs, HA. exact Hz.
    - exists x, y. split; [apply HA; exact Hx|]. split; [intros z Hz; apply Hm, HA; exact Hz|]. split; [apply HB; exact Hy | exact Hxy].
  Qed.
  Lemma find_many els sel gbs : Forall2 (fun p gb => exists ord : Prop, ord /\ ProcDone els p gb ord) sel gbs ->
    forall (A : id -> Prop) acc, DocSet h r acc -> Forall (ElIn h r) acc -> (forall x, In x acc <-> A x) ->
    AddsFree A (map (WalkB (fun s => In s els)) gbs) ->
    exists l, rfold (fun result p => do group <- find_process h els p; if nonempty group then add h result group else Ok result) sel acc = Ok l /\
      DocSet h r l /\ Forall (ElIn h r) l /\ forall x, In x l <-> A x \/ exists gb, In gb gbs /\ WalkB (fun s => In s els) gb x.
  Proof.
    induction 1 as [|p gb sel gbs (ord & Hord & l & El & H1 & H2 & H3 & H4) _ IH]; intros A acc HD HE HA HF.
    - exists acc. split; [reflexivity|]. split; [exact HD|]. split; [exact HE|]. intros x. rewrite HA. split; [tauto | intros [H | (gb & [] & _)]; exact H].
    - cbn [map AddsFree] in HF. destruct HF as [HF1 HF2]. cbn [rfold]. rewrite El. cbn [rbind].
      assert (HDl : DocSet h r l).
      { split; [|exact (H3 Hord)]. revert H1. apply Forall_impl. intros x Hx. apply Hx. }
      assert (Hadd : exists l2, (if nonempty l then add h acc l else Ok acc) = Ok l2 /\ DocSet h r l2 /\ forall x, In x l2 <-> In x acc \/ In x l).
      { destruct (nonempty l) eqn:En.
        - exact (add_join h wf r acc l HD HDl (addfree_join A _ acc l HD HDl HA H4 HF1)).
        - apply nonempty_false in En. subst l. exists acc. split; [reflexivity|]. split; [exact HD|]. intros x. cbn. tauto. }
      destruct Hadd as (l2 & El2 & HD2 & Hm2). rewrite El2. cbn [rbind].
      destruct (IH (fun x => A x \/ WalkB (fun s => In s els) gb x) l2 HD2) as (l3 & El3 & HD3 & HE3 & Hm3).
      + apply Forall_forall. intros x Hx. apply Hm2 in Hx. rewrite Forall_forall in HE, H1. destruct Hx; [apply HE | apply H1]; assumption.
      + intros x. rewrite Hm2, HA, H4. reflexivity.
      + exact HF2.
      + exists l3. split; [exact El3|]. split; [exact HD3|]. split; [exact HE3|]. intros x. rewrite Hm3. cbn [In]. split.
        * intros [[H | H] | (g & Hg & H)]; [left; exact H | right; exists gb; split; [left; reflexivity | exact H] | right; exists g; split; [right; exact Hg | exact H]].
        * intros [H | (g & [<- | Hg] & H)]; [left; left; exact H | left; right; exact H | right; exists g; split; assumption].
  Qed.
End Find.
