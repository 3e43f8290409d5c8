(** Running compounds backwards from one element: what [has_ele] decides. *)
From Verif Require Import Base Attr Dom DomSpec Order DomProofs OrderSpec OrderProofs
  Sets SetsProofs NavProofs Engine Rules SelSpec OneProofs PreProofs SelBool SibLists SibProofs StepProofs.

Section Back.
  Variable h : heap.
  Variable r : id.
  Hypothesis D : DocOk h r.
  Let wf : WF h := do_wf h r D.

  (** The sets on which a rule is evaluated; [simple] rules do not care about document order. *)
  Definition Good (simple : bool) (l : list id) : Prop :=
    Forall (ElIn h r) l /\ SibInc h l /\ (simple = false -> Ordered h l).
  Lemma good_filter s p l : Good s l -> Good s (filter p l).
  Proof.
    intros (H1 & H2 & H3). split; [|split].
    - rewrite Forall_forall in *. intros x Hx. apply filter_In in Hx. apply H1, Hx.
    - apply sibinc_filter. exact H2.
    - intros E. apply ordered_filter. exact (H3 E).
  Qed.
  Lemma good_ordered s l : Forall (ElIn h r) l -> Ordered h l -> Good s l.
  Proof. intros H1 H2. split; [exact H1|]. split; [exact (ordered_sibinc h r D l H1 H2) | intros _; exact H2]. Qed.
  Lemma good_weaken s l : Good false l -> Good s l.
  Proof. intros (H1 & H2 & H3). split; [exact H1|]. split; [exact H2 | intros _; exact (H3 eq_refl)]. Qed.
  Lemma good_nodup s l : Good s l -> NoDup l.
  Proof. intros (H1 & H2 & _). exact (sibinc_nodup h r D l H1 H2). Qed.
  Lemma good_nil s : Good s [].
  Proof. split; [constructor|]. split; [constructor | intros _; exact I]. Qed.

  (** What the proofs need to know about a compiled rule: its handles compute the test [pb]. *)
  Record MOk (m : matcher) (pb : id -> bool) (simple : bool) : Prop := mkMOk {
    mo_none : forall l, Good simple l -> apply m l None = Ok (filter pb l);
    mo_one : forall g, mt_one m = Some g -> forall x, ElIn h r x -> g x = Ok (pb x);
    mo_all : mt_one m = None -> exists g, mt_all m = Some g;
    mo_spec : mt_one m = None -> forall g, mt_spec m = Some g ->
      Events h r g pb \/ ((forall p, g p = Ok []) /\ forall x, ElIn h r x -> pb x = false);
    mo_kids : mt_one m = None -> mt_spec m = None -> mt_cache m = false -> forall g, mt_all m = Some g ->
      forall p, InTree h r p -> children h p <> [] -> g (children h p) (Some false) = Ok (filter pb (children h p));
    mo_cache : mt_cache m = true -> mt_one m = None /\ forall els, Forall (fun x => InTree h r x /\ Container h x) els ->
      exists l, apply m els (Some true) = Ok l /\ Forall (ElIn h r) l /\
        (els <> [] -> forall x, In x l <-> ElIn h r x /\ pb x = true)
  }.
  Lemma mok_weaken m pb s : MOk m pb true -> MOk m pb s.
  Proof.
    intros [H1 H2 H3 H4 H5 H6]. split; try assumption. intros l (Ha & Hb & _). apply H1. split; [exact Ha|]. split; [exact Hb | discriminate].
  Qed.
  Lemma mok_list m pb s l : MOk m pb s -> Good s l ->
    match mt_one m with Some g => rfilter g l | None => do g <- get_all_handle m; g l None end = Ok (filter pb l).
  Proof.
    intros M HG. destruct (mt_one m) as [g|] eqn:E.
    - apply rfilter_ok. intros x Hx. apply (mo_one m pb s M g E). destruct HG as (H1 & _). rewrite Forall_forall in H1. exact (H1 x Hx).
    - destruct (mo_all m pb s M E) as (g & Eg). unfold get_all_handle. rewrite Eg. cbn [rbind].
      pose proof (mo_none m pb s M l HG) as H. unfold apply in H. rewrite Eg in H. exact H.
  Qed.
  Lemma mok_apply m pb s l : MOk m pb s -> Good s l ->
    match mt_one m with Some g => rfilter g l | None => apply m l None end = Ok (filter pb l).
  Proof.
    intros M HG. destruct (mt_one m) as [g|] eqn:E; [|exact (mo_none m pb s M l HG)].
    apply rfilter_ok. intros x Hx. apply (mo_one m pb s M g E). destruct HG as (H1 & _). rewrite Forall_forall in H1. exact (H1 x Hx).
  Qed.

  Lemma filter_filter {A} (p q : A -> bool) l : filter q (filter p l) = filter (fun x => p x && q x) l.
  Proof. induction l as [|x l IH]; [reflexivity|]. cbn. destruct (p x) eqn:E; cbn; rewrite IH; [destruct (q x)|]; reflexivity. Qed.

  (** * Compounds *)
  (** A compiled compound computes the conjunction of its rules. *)
  Definition COk (cp : compound) (b : bcompound) (simple : bool) : Prop :=
    comp_wf cp = true /\ comp_comb cp = comp_comb b /\
    exists ps, Forall2 (fun s p => MOk (fst s) p simple) cp ps /\
      forall x, ElIn h r x -> compb b x = forallb (fun p => p x) ps.

  Lemma chain_ok s rest ps : Forall2 (fun sg p => MOk (fst sg) p s) rest ps -> forallb (fun e => comb_eqb (snd e) Chain) rest = true ->
    forall l, Good s l -> chain_rest h l rest = Ok (filter (fun x => forallb (fun p => p x) ps) l).
  Proof.
    induction 1 as [|[m c] p rest ps M _ IH]; intros Hc l HG.
    { cbn. f_equal. symmetry. apply filter_all. reflexivity. }
    cbn [forallb snd] in Hc. apply andb_true_iff in Hc. destruct Hc as [Hc Hc']. destruct c; try discriminate.
    cbn [chain_rest]. destruct (nonempty l) eqn:En; [|destruct l; [reflexivity | discriminate]].
    cbn [select_by_rule]. cbn [fst] in M. rewrite (mo_none m p s M l HG). cbn [rbind]. rewrite (IH Hc' _ (good_filter s p l HG)), filter_filter. reflexivity.
  Qed.
  (** A compound on a set whose first rule has been evaluated to [filter p base]. *)
  Lemma compound_chain cp b s : COk cp b s -> exists m c rest p, cp = (m, c) :: rest /\ fwd c = true /\ c = comp_comb b /\ MOk m p s /\
    (forall x, ElIn h r x -> compb b x = true -> p x = true) /\
    forall base, Forall (ElIn h r) base -> Good s (filter p base) -> chain_rest h (filter p base) rest = Ok (filter (compb b) base).
  Proof.
    intros (Hw & Hc & ps & HF & Hb). destruct cp as [|[m c] rest]; [discriminate|]. inversion HF as [|s0 p l0 ps' M HF']; subst.
    cbn in Hw. apply andb_true_iff in Hw. destruct Hw as [Hf Hch]. exists m, c, rest, p.
    split; [reflexivity|]. split; [exact Hf|]. split; [exact Hc|]. split; [exact M|]. split.
    - intros x Hx E. rewrite (Hb x Hx) in E. cbn in E. apply andb_true_iff in E. apply E.
    - intros base HB HG. rewrite (chain_ok s rest ps' HF' Hch _ HG), filter_filter. f_equal.
      apply filter_ext_in. intros x Hx. rewrite Forall_forall in HB. rewrite (Hb x (HB x Hx)). reflexivity.
  Qed.

  (** * The left side of the way up from an element *)
  Definition LC (x y : id) : Prop := ElIn h r y /\ exists a, AncEq h a x /\ (y = a \/ Preceding h a y).

  Lemma chain_unique p a b x : InTree h r x -> Child h p a -> Child h p b -> AncEq h a x -> AncEq h b x -> a = b.
  Proof.
    intros Hx (i & Ha) (j & Hb) H1 H2. destruct (Nat.lt_trichotomy i j) as [H | [<- | H]].
    - destruct (before_irrefl h wf r x Hx). right. exists p, i, j, a, b. repeat split; assumption.
    - exact (listed_fun h _ _ _ _ Ha Hb).
    - destruct (before_irrefl h wf r x Hx). right. exists p, j, i, b, a. repeat split; assumption.
  Qed.
  Lemma anc_comparable a b : forall x, AncEq h a x -> AncEq h b x -> AncEq h a b \/ Anc h b a.
  Proof.
    intros x. induction x as [x IH] using (up_ind_wf h wf). intros [-> | Ha] Hb.
    - destruct Hb as [-> | Hb]; [left; left; reflexivity | right; exact Hb].
    - destruct Hb as [-> | Hb]; [left; right; exact Ha|]. apply anc_inv in Ha, Hb.
      destruct Ha as (p & Hap & Hp), Hb as (q & Hbq & Hq). pose proof (child_parent h wf _ _ Hp) as E. rewrite (child_parent h wf _ _ Hq) in E.
      injection E as ->. exact (IH p (child_parent h wf _ _ Hp) Hap Hbq).
  Qed.
  Lemma lc_self x : ElIn h r x -> LC x x.
  Proof. intros Hx. split; [exact Hx|]. exists x. split; left; reflexivity. Qed.
  (** The node of the way that stands beside (or is) [y], and their common parent. *)
  Lemma lc_beside x y p : LC x y -> parent h y = Some p -> exists a, AncEq h a x /\ Child h p a /\ (y = a \/ Preceding h a y).
  Proof.
    intros [Hy (a & Ha & Hya)] E. exists a. split; [exact Ha|]. split; [|exact Hya].
    destruct (el_parent h r D y Hy) as (p' & E' & _ & Hl). rewrite E in E'. injection E' as <-. destruct Hya as [-> | (q & i & j & H1 & H2 & _)].
    - exists (index h a). exact Hl.
    - pose proof (listed_parent h wf _ _ _ H1) as E1. rewrite E in E1. injection E1 as <-. exists j. exact H2.
  Qed.
  Lemma lc_up x y z : LC x y -> Anc h z y -> is_element h z = true -> LC x z.
  Proof.
    intros HL Hz He. pose proof HL as [Hy _]. destruct (el_parent h r D y Hy) as (p & E & Hp & _).
    destruct (lc_beside x y p HL E) as (a & Ha & Hpa & _).
    assert (Hzp : AncEq h z p).
    { apply anc_inv in Hz. destruct Hz as (q & Hq & Hc). rewrite (child_parent h wf _ _ Hc) in E. injection E as ->. exact Hq. }
    split; [split; [exact (intree_anc h wf r p z Hp Hzp) | exact He]|]. exists z. split; [|left; reflexivity].
    right. exact (anc_anceq h z a x (anceq_anc h z p a Hzp (Anc_child h p a Hpa)) Ha).
  Qed.
  Lemma lc_preceding x y z : LC x y -> Preceding h y z -> LC x z.
  Proof.
    intros [Hy (a & Ha & Hya)] Hz. split; [exact (proj1 (preceding_facts h r D y z (proj1 Hy) Hz))|]. exists a. split; [exact Ha|]. right.
    destruct Hya as [-> | (p & i & j & H1 & H2 & Hlt & He)]; [exact Hz|]. destruct Hz as (p' & k & i' & H3 & H4 & Hlt' & He').
    destruct (listed_inj h wf _ _ _ _ _ H1 H4) as [<- <-]. exists p, k, j. repeat split; try assumption. lia.
  Qed.
  Lemma lc_levels x u v pu pv : InTree h r x -> LC x u -> LC x v -> parent h u = Some pu -> parent h v = Some pv -> Anc h pv pu -> Before h v u.
  Proof.
    intros Hx Hu Hv Eu Ev Ha. destruct (lc_beside x u pu Hu Eu) as (a & Hax & Hpa & Hua).
    destruct (lc_beside x v pv Hv Ev) as (b & Hbx & Hpb & Hvb). apply anc_first in Ha. destruct Ha as (c & Hc & Hcp).
    assert (Ecb : c = b).
    { apply (chain_unique pv c b x Hx Hc Hpb); [|exact Hbx]. right. exact (anc_anceq h c a x (anceq_anc h c pu a Hcp (Anc_child h pu a Hpa)) Hax). }
    subst c. assert (Hcu : Child h pu u).
    { destruct (el_parent h r D u (proj1 Hu)) as (p' & E' & _ & Hl). rewrite Eu in E'. injection E' as <-. exists (index h u). exact Hl. }
    assert (Hbu : Anc h b u) by exact (anceq_anc h b pu u Hcp (Anc_child h pu u Hcu)).
    destruct Hvb as [-> | (q & i & j & H1 & H2 & Hlt & _)]; [left; exact Hbu|]. right. exists q, i, j, v, b.
    split; [exact H1|]. split; [exact H2|]. split; [exact Hlt|]. split; [left; reflexivity | right; exact Hbu].
  Qed.
  Lemma lc_order x u v : InTree h r x -> LC x u -> LC x v -> Before h u v ->
    exists pu pv, parent h u = Some pu /\ parent h v = Some pv /\ ((pu = pv /\ index h u < index h v) \/ Anc h pu pv).
  Proof.
    intros Hx Hu Hv HB. pose proof Hu as [Eu _]. pose proof Hv as [Ev _].
    destruct (el_parent h r D u Eu) as (pu & Epu & Hpu & Lu). destruct (el_parent h r D v Ev) as (pv & Epv & Hpv & Lv).
    exists pu, pv. split; [exact Epu|]. split; [exact Epv|].
    destruct (lc_beside x u pu Hu Epu) as (a & Hax & Hpa & _). destruct (lc_beside x v pv Hv Epv) as (b & Hbx & Hpb & _).
    destruct (anc_comparable pu pv x) as [[-> | H] | H].
    - right. exact (anc_anceq h pu a x (Anc_child h pu a Hpa) Hax).
    - right. exact (anc_anceq h pv b x (Anc_child h pv b Hpb) Hbx).
    - left. split; [reflexivity|]. destruct (Nat.lt_trichotomy (index h u) (index h v)) as [H | [H | H]]; [exact H | |]; exfalso.
      + rewrite H in Lu. rewrite (listed_fun h _ _ _ _ Lu Lv) in HB. exact (before_irrefl h wf r v (proj1 Ev) HB).
      + exact (before_asym h wf r u v (proj1 Eu) (proj1 Ev) HB (listed_before h pv _ _ v u Lv Lu H)).
    - right. exact H.
    - exfalso. exact (before_asym h wf r u v (proj1 Eu) (proj1 Ev) HB (lc_levels x u v pu pv Hx Hu Hv Epu Epv H)).
  Qed.

  (** * One step backwards *)
  Definition BackSet (x : id) (l : list id) : Prop := Forall (LC x) l /\ Ordered h l.
  Lemma lc_els x l : Forall (LC x) l -> Forall (ElIn h r) l.
  Proof. apply Forall_impl. intros y [H _]. exact H. Qed.
  Lemma lc_in x l : Forall (LC x) l -> AllIn h r l.
  Proof. apply Forall_impl. intros y [[H _] _]. exact H. Qed.
  Lemma backset_good s x l : BackSet x l -> Good s l.
  Proof. intros [H1 H2]. exact (good_ordered s l (lc_els x l H1) H2). Qed.
  Lemma backset_filter x p l : BackSet x l -> BackSet x (filter p l).
  Proof.
    intros [H1 H2]. split; [|apply ordered_filter; exact H2]. rewrite Forall_forall in *. intros y Hy. apply filter_In in Hy. apply H1, Hy.
  Qed.
  Lemma backset_pairs x l : InTree h r x -> BackSet x l -> ForallOrdPairs (fun u v => exists pu pv, parent h u = Some pu /\ parent h v = Some pv /\
    ((pu = pv /\ index h u < index h v) \/ Anc h pu pv)) l.
  Proof.
    intros Hx [H1 H2]. apply ordered_pairs in H2. revert H2. apply pairs_imp. rewrite Forall_forall in H1.
    intros u v Hu Hv. exact (lc_order x u v Hx (H1 u Hu) (H1 v Hv)).
  Qed.

  Section Candidates.
    Variable x : id.
    Hypothesis Hx : InTree h r x.
    Variable els : list id.
    Hypothesis HB : BackSet x els.
    Let Hin : forall e, In e els -> InTree h r e.
    Proof. destruct HB as [H _]. apply lc_in in H. rewrite Forall_forall in H. exact H. Qed.
    Let Hlc : forall e, In e els -> LC x e.
    Proof. destruct HB as [H _]. rewrite Forall_forall in H. exact H. Qed.
    Let Hel : forall e, In e els -> ElIn h r e := fun e He => proj1 (Hlc e He).

    Lemma back_parents : BackSet x (flat_map (parent_el h) (firsts h [] els)) /\
      forall y, In y (flat_map (parent_el h) (firsts h [] els)) <-> exists e, In e els /\ Rel h Children y e /\ is_element h y = true.
    Proof.
      assert (HM : forall y, In y (flat_map (parent_el h) (firsts h [] els)) <-> exists e, In e els /\ Rel h Children y e /\ is_element h y = true).
      { intros y. rewrite in_flat_map. split.
        - intros (e & He & Hy). apply firsts_sub in He. apply (parent_el_spec h r D e y (Hin e He)) in Hy. exists e. split; [exact He|].
          split; [split; [apply Hy | apply (Hel e He)] | apply Hy].
        - intros (e & He & [Hc _] & Hy). destruct (firsts_cover h els e He) as (e' & He' & Ep). exists e'. split; [exact He'|].
          apply firsts_sub in He'. apply (parent_el_spec h r D e' y (Hin e' He')). split; [|exact Hy].
          pose proof (child_parent h wf _ _ Hc) as E. rewrite <- Ep in E. destruct (start_parent h r D e' y (Hin e' He') E) as [_ Hl].
          exists (index h e'). exact Hl. }
      split; [|exact HM]. split.
      - apply Forall_forall. intros y Hy. apply HM in Hy. destruct Hy as (e & He & [Hc _] & Hye). exact (lc_up x e y (Hlc e He) (Anc_child h y e Hc) Hye).
      - apply ordered_pairs. apply pairs_flat.
        + intros e _. unfold parent_el. destruct (parent h e) as [p|]; [destruct (is_root h p)|]; repeat constructor.
        + pose proof (firsts_pairs h els [] (backset_pairs x els Hx HB)) as P1. pose proof (firsts_distinct h els []) as P2.
          pose proof (pairs_and _ _ _ P1 P2) as P. revert P. apply pairs_imp.
          intros u v Hu Hv [(pu & pv & Eu & Ev & Huv) Hne] y z Hy Hz. unfold parent_el in Hy, Hz. rewrite Eu in Hy. rewrite Ev in Hz.
          destruct (is_root h pu); [destruct Hy|]. destruct (is_root h pv); [destruct Hz|]. destruct Hy as [<- | []], Hz as [<- | []].
          destruct Huv as [[-> _] | Ha]; [congruence | left; exact Ha].
    Qed.
    Lemma back_prev : BackSet x (flat_map (prev_list h) els) /\
      forall y, In y (flat_map (prev_list h) els) <-> exists e, In e els /\ Rel h Next y e /\ is_element h y = true.
    Proof.
      assert (HN : forall e y, In e els -> (PrevEl h e y <-> NextEl h y e /\ is_element h y = true)).
      { intros e y He. split.
        - intros (p & i & j & H1 & H2 & H3 & H4 & H5). split; [|exact H4]. exists p, i, j. repeat split; try assumption. apply (Hel e He).
        - intros [(p & i & j & H1 & H2 & H3 & H4 & H5) Hy]. exists p, i, j. repeat split; assumption. }
      assert (HM : forall y, In y (flat_map (prev_list h) els) <-> exists e, In e els /\ Rel h Next y e /\ is_element h y = true).
      { intros y. rewrite in_flat_map. split.
        - intros (e & He & Hy). apply (in_prev h r D e y (Hin e He)) in Hy. apply (HN e y He) in Hy. exists e. split; [exact He | exact Hy].
        - intros (e & He & Hy). exists e. split; [exact He|]. apply (in_prev h r D e y (Hin e He)). apply (HN e y He). exact Hy. }
      split; [|exact HM]. split.
      - apply Forall_forall. intros y Hy. apply in_flat_map in Hy. destruct Hy as (e & He & Hy). apply (in_prev h r D e y (Hin e He)) in Hy.
        exact (lc_preceding x e y (Hlc e He) (prev_preceding h e y Hy)).
      - apply ordered_pairs. apply pairs_flat.
        + intros e _. unfold prev_list. destruct (hd_error _); repeat constructor.
        + pose proof (backset_pairs x els Hx HB) as P. revert P. apply pairs_imp.
          intros u v Hu Hv (pu & pv & Eu & Ev & Huv) y z Hy Hz.
          apply (in_prev h r D u y (Hin u Hu)) in Hy. apply (in_prev h r D v z (Hin v Hv)) in Hz.
          destruct (preceding_facts h r D u y (Hin u Hu) (prev_preceding h u y Hy)) as (Hye & Epy & Hiy).
          destruct (preceding_facts h r D v z (Hin v Hv) (prev_preceding h v z Hz)) as (Hze & Epz & Hiz).
          destruct Huv as [[-> Hlt] | Ha].
          * assert (HPv : Preceding h v u).
            { apply (preceding_intro h r D v u (Hin v Hv) (Hel u Hu)); [congruence | congruence | exact Hlt]. }
            pose proof (prev_max h r D v z u (Hin v Hv) Hz HPv). apply (sib_before h r D y z (proj1 Hye) (proj1 Hze)); [congruence | congruence | lia].
          * apply (lc_levels x z y pv pu Hx (lc_preceding x v z (Hlc v Hv) (prev_preceding h v z Hz))
              (lc_preceding x u y (Hlc u Hu) (prev_preceding h u y Hy))); [congruence | congruence | exact Ha].
    Qed.
    Lemma preceding_ordered e : In e els -> Ordered h (preceding_list h e).
    Proof.
      intros He. unfold preceding_list. destruct (el_parent h r D e (Hel e He)) as (p & -> & Hp & _).
      apply ordered_filter. pose proof (kids_ordered h p) as HK. rewrite <- (firstn_skipn (index h e) (kids h p)) in HK. apply ordered_app in HK. apply HK.
    Qed.
    Lemma back_prev_all : BackSet x (flat_map (preceding_list h) (rev (firsts h [] (rev els)))) /\
      forall y, In y (flat_map (preceding_list h) (rev (firsts h [] (rev els)))) <-> exists e, In e els /\ Rel h NextAll y e /\ is_element h y = true.
    Proof.
      assert (HN : forall e y, In e els -> (Preceding h e y <-> Following h y e /\ is_element h y = true)).
      { intros e y He. split.
        - intros (p & i & j & H1 & H2 & H3 & H4). split; [|exact H4]. exists p, i, j. repeat split; try assumption. apply (Hel e He).
        - intros [(p & i & j & H1 & H2 & H3 & H4) Hy]. exists p, i, j. repeat split; assumption. }
      assert (Hsub : forall e, In e (rev (firsts h [] (rev els))) -> In e els).
      { intros e He. apply in_rev in He. apply firsts_sub in He. apply in_rev. exact He. }
      assert (HM : forall y, In y (flat_map (preceding_list h) (rev (firsts h [] (rev els)))) <-> exists e, In e els /\ Rel h NextAll y e /\ is_element h y = true).
      { intros y. rewrite in_flat_map. split.
        - intros (e & He & Hy). apply Hsub in He. apply (in_preceding h r D e y (Hin e He)) in Hy. apply (HN e y He) in Hy. exists e. split; [exact He | exact Hy].
        - intros (e & He & Hy). apply (HN e y He) in Hy. destruct (firsts_cover h (rev els) e (proj1 (in_rev _ _) He)) as (e' & He' & Ep).
          exists e'. split; [apply -> in_rev; exact He'|]. pose proof (Hsub e' (proj1 (in_rev _ _) He')) as Hi'.
          apply (in_preceding h r D e' y (Hin e' Hi')).
          destruct (preceding_facts h r D e y (Hin e He) Hy) as (Hye & Epy & Hiy).
          apply (preceding_intro h r D e' y (Hin e' Hi') Hye).
          + destruct (el_parent h r D e' (Hel e' Hi')) as (p & -> & _). discriminate.
          + congruence.
          + assert (Hle : index h e <= index h e'); [|lia].
            apply in_firsts in He'. destruct He' as (l1 & l2 & El & _ & Hd).
            assert (El' : els = rev l2 ++ e' :: rev l1).
            { rewrite <- (rev_involutive els), El, rev_app_distr. cbn. rewrite <- app_assoc. reflexivity. }
            rewrite El' in He. apply in_app_or in He. destruct He as [He | [<- | He]]; [|lia|].
            * pose proof (backset_pairs x els Hx HB) as P. rewrite El' in P. apply pairs_app in P. destruct P as (_ & _ & P).
              destruct (P e e' He (or_introl eq_refl)) as (pu & pv & Eu & Ev & [[_ Hlt] | Ha]); [lia|].
              exfalso. rewrite Eu, Ev in Ep. injection Ep as ->. exact (anc_irrefl h wf pu Ha).
            * exfalso. apply in_rev in He. exact (Hd e He (eq_sym Ep)). }
      split; [|exact HM]. split.
      - apply Forall_forall. intros y Hy. apply in_flat_map in Hy. destruct Hy as (e & He & Hy). apply Hsub in He. apply (in_preceding h r D e y (Hin e He)) in Hy.
        exact (lc_preceding x e y (Hlc e He) Hy).
      - apply ordered_pairs. apply pairs_flat.
        + intros e He. apply ordered_pairs. exact (preceding_ordered e (Hsub e He)).
        + assert (P1 : ForallOrdPairs (fun v u => exists pu pv, parent h u = Some pu /\ parent h v = Some pv /\
              ((pu = pv /\ index h u < index h v) \/ Anc h pu pv)) (rev els)).
          { apply pairs_rev. exact (backset_pairs x els Hx HB). }
          apply (firsts_pairs h _ []) in P1. pose proof (firsts_distinct h (rev els) []) as P2.
          pose proof (pairs_and _ _ _ P1 P2) as P. apply pairs_rev. revert P. apply pairs_imp.
          intros v u Hv Hu [(pu & pv & Eu & Ev & Huv) Hne] y z Hy Hz.
          apply (fun H => Hsub u (proj1 (in_rev _ _) H)) in Hu. apply (fun H => Hsub v (proj1 (in_rev _ _) H)) in Hv.
          apply (in_preceding h r D u y (Hin u Hu)) in Hy. apply (in_preceding h r D v z (Hin v Hv)) in Hz.
          destruct (preceding_facts h r D u y (Hin u Hu) Hy) as (Hye & Epy & Hiy).
          destruct (preceding_facts h r D v z (Hin v Hv) Hz) as (Hze & Epz & Hiz).
          destruct Huv as [[-> Hlt] | Ha]; [congruence|].
          apply (lc_levels x z y pv pu Hx (lc_preceding x v z (Hlc v Hv) Hz) (lc_preceding x u y (Hlc u Hu) Hy)); [congruence | congruence | exact Ha].
    Qed.
  End Candidates.

  Lemma back_step c rc m pb s x els : fwd c = true -> comb_reverse c = Ok rc -> MOk m pb s -> InTree h r x -> BackSet x els ->
    exists base, select_by_rule h els m rc = Ok (filter pb base) /\ BackSet x base /\
      forall y, In y base <-> exists e, In e els /\ Rel h c y e /\ is_element h y = true.
  Proof.
    intros Hf Hr M Hx HB. pose proof HB as [HL HO]. pose proof (lc_in x els HL) as Hin.
    destruct c; try discriminate; injection Hr as <-; cbn [select_by_rule].
    - (* ancestors *)
      set (anc := flat_map (anc_list (dfs_fuel h) h) els).
      assert (Hanc : forall e, In e els -> ancestors h (dfs_fuel h) e = Ok (anc_list (dfs_fuel h) h e) /\
        forall y, In y (anc_list (dfs_fuel h) h e) <-> Anc h y e /\ is_element h y = true).
      { intros e He. rewrite Forall_forall in Hin. exact (anc_full h r D e (Hin e He)). }
      assert (Hmem : forall y, In y anc <-> exists e, In e els /\ Rel h ChildrenAll y e /\ is_element h y = true).
      { intros y. unfold anc. rewrite in_flat_map. split.
        - intros (e & He & Hy). apply (proj2 (Hanc e He)) in Hy. exists e. split; [exact He|]. split; [split; [apply Hy|] | apply Hy].
          rewrite Forall_forall in HL. apply (HL e He).
        - intros (e & He & [Ha _] & Hy). exists e. split; [exact He|]. apply (proj2 (Hanc e He)). split; assumption. }
      assert (Hlc : Forall (LC x) anc).
      { apply Forall_forall. intros y Hy. apply Hmem in Hy. destruct Hy as (e & He & [Ha _] & Hye). rewrite Forall_forall in HL.
        exact (lc_up x e y (HL e He) Ha Hye). }
      destruct (sort_and_unique_ok h wf r anc (lc_in x anc Hlc)) as (base & Es & [Hb1 Hb2] & Hb3).
      assert (HBb : BackSet x base).
      { split; [|exact Hb2]. rewrite Forall_forall in *. intros y Hy. apply Hlc, Hb3, Hy. }
      exists base. split; [|split; [exact HBb | intros y; rewrite <- (Hmem y); apply Hb3]].
      destruct (mt_one m) as [g|] eqn:Eg.
      + assert (Hfl : rflat (fun x0 => do a <- ancestors h (dfs_fuel h) x0; rfilter g a) els = Ok (filter pb anc)).
        { unfold anc. rewrite filter_flat_map. apply rflat_ok. intros e He. rewrite (proj1 (Hanc e He)). cbn [rbind].
          apply rfilter_ok. intros y Hy. apply (mo_one m pb s M g Eg). rewrite Forall_forall in Hlc. apply (Hlc y). apply in_flat_map. exists e. split; assumption. }
        rewrite Hfl. cbn [rbind].
        assert (HA : AllIn h r (filter pb anc)).
        { apply lc_in in Hlc. rewrite Forall_forall in *. intros y Hy. apply filter_In in Hy. apply Hlc, Hy. }
        destruct (sort_and_unique_ok h wf r _ HA) as (l' & -> & [Hl1 Hl2] & Hl3). f_equal.
        apply (ordered_unique h wf r); [exact Hl1 | exact Hl2 | apply ordered_filter; exact Hb2|].
        intros y. rewrite (Hl3 y), !filter_In, (Hb3 y). reflexivity.
      + assert (Hfl : rflat (ancestors h (dfs_fuel h)) els = Ok anc).
        { unfold anc. apply rflat_ok. intros e He. exact (proj1 (Hanc e He)). }
        rewrite Hfl. cbn [rbind]. rewrite Es. cbn [rbind].
        pose proof (mok_list m pb s base M (backset_good s x base HBb)) as H. rewrite Eg in H. exact H.
    - (* parents *)
      destruct (back_parents x Hx els HB) as [H1 H2]. exists (flat_map (parent_el h) (firsts h [] els)).
      split; [|split; [exact H1 | exact H2]]. rewrite (us_first h r D els Hin). cbn [rbind].
      exact (mok_list m pb s _ M (backset_good s x _ H1)).
    - (* earlier siblings *)
      destruct (back_prev_all x Hx els HB) as [H1 H2]. exists (flat_map (preceding_list h) (rev (firsts h [] (rev els)))).
      split; [|split; [exact H1 | exact H2]]. rewrite (us_last h r D els Hin). cbn [rbind]. rewrite filter_flat_map. apply rflat_ok.
      intros e He. assert (Hi : In e els) by (apply in_rev in He; apply firsts_sub in He; apply in_rev; exact He).
      rewrite Forall_forall in Hin. rewrite (prevs_eq h r D e (Hin e Hi)). cbn [rbind]. apply (mo_none m pb s M).
      apply (backset_good s x). split; [|exact (preceding_ordered x els HB e Hi)].
      apply Forall_forall. intros y Hy. destruct H1 as [H1 _]. rewrite Forall_forall in H1. apply H1. apply in_flat_map. exists e. split; assumption.
    - (* previous siblings *)
      destruct (back_prev x Hx els HB) as [H1 H2]. exists (flat_map (prev_list h) els).
      split; [|split; [exact H1 | exact H2]].
      rewrite (rflat_ok _ (prev_list h)) by (intros e He; rewrite Forall_forall in Hin; exact (prev_eq h r D e (Hin e He))).
      cbn [rbind]. exact (mok_apply m pb s _ M (backset_good s x _ H1)).
  Qed.
  Lemma back_select c rc cp b s x els : fwd c = true -> comb_reverse c = Ok rc -> COk cp b s -> InTree h r x -> BackSet x els ->
    exists l, select h els cp (Some rc) = Ok l /\ BackSet x l /\
      forall y, In y l <-> compb b y = true /\ exists e, In e els /\ Rel h c y e /\ is_element h y = true.
  Proof.
    intros Hf Hr HC Hx HB. destruct (compound_chain cp b s HC) as (m & c0 & rest & p & -> & _ & _ & M & _ & Hch).
    destruct (back_step c rc m p s x els Hf Hr M Hx HB) as (base & Es & Hb & Hm). exists (filter (compb b) base).
    split; [|split; [apply backset_filter; exact Hb | intros y; rewrite filter_In, Hm; tauto]].
    unfold select. cbn [rnth nth_error rbind].
    assert (E : comb_eqb rc ChildrenAll = false) by (destruct c; try discriminate; injection Hr as <-; reflexivity).
    rewrite E, andb_false_r, Es. cbn [rbind tl]. apply Hch.
    - destruct Hb as [Hb _]. exact (lc_els x base Hb).
    - apply good_filter. exact (backset_good s x base Hb).
  Qed.
End Back.
