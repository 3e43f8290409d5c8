(** Every compiled rule computes the test [holdsb]; compiled selectors compute the conjunctions they stand for. *)
From Verif Require Import Base Utils UtilsSpec Nth NthSpec Attr AttrSpec Dom DomSpec Order DomProofs OrderSpec OrderProofs
  Sets SetsProofs AddProofs NavProofs Engine Rules SelSpec OneProofs PreProofs SelBool SibLists SibProofs StepProofs BackProofs FilterProofs.
From Coq Require Import Sorting.Permutation.

(** Rules whose evaluation does not depend on the order of the elements. *)
Fixpoint rule_simple (rl : rule) : bool :=
  let ok gs := forallb (fun g => forallb (fun cp => forallb (fun e : rule * comb => let '(r', _) := e in rule_simple r') cp) g) gs in
  match rl with
  | RNot n => match n with NSel gs => (length gs <=? 1) && ok gs | _ => true end
  | RAlias gs => (length gs <=? 1) && ok gs
  | _ => true
  end.
Definition ast_simple (gs : ast) : bool :=
  forallb (fun g => forallb (fun cp => forallb (fun e : rule * comb => let '(r', _) := e in rule_simple r') cp) g) gs.
Lemma ast_simple_in gs rl : ast_simple gs = true -> InAst rl gs -> rule_simple rl = true.
Proof.
  intros H (g & cp & c & Hg & Hc & He). unfold ast_simple in H. rewrite forallb_forall in H. specialize (H g Hg). rewrite forallb_forall in H.
  specialize (H cp Hc). rewrite forallb_forall in H. exact (H (rl, c) He).
Qed.

(** * Sorting a compound *)
Lemma insert_perm s l : Permutation (insert_prio s l) (s :: l).
Proof.
  induction l as [|s' l IH]; [reflexivity|]. cbn. destruct (_ <=? _)%N; [reflexivity|]. rewrite IH. apply perm_swap.
Qed.
Lemma sort_perm l : Permutation (sort_prio l) l.
Proof. induction l as [|s l IH]; [reflexivity|]. cbn. rewrite insert_perm. apply perm_skip. exact IH. Qed.
Lemma perm_filter_len {A} (f : A -> bool) l m : Permutation l m -> length (filter f l) = length (filter f m).
Proof. induction 1; cbn; repeat (destruct (f _); cbn); congruence. Qed.
Lemma comb_eqb_eq a b : comb_eqb a b = true <-> a = b.
Proof. destruct a, b; split; try discriminate; reflexivity. Qed.
Lemma optimize_compound_wf (cp : compound) : comp_wf cp = true ->
  comp_wf (optimize_compound cp) = true /\ comp_comb (optimize_compound cp) = comp_comb cp /\
  Permutation (map fst (optimize_compound cp)) (map fst cp).
Proof.
  intros Hw. destruct cp as [|[m0 c0] [|s1 rest0]]; [discriminate | split; [exact Hw|]; split; reflexivity|].
  remember (s1 :: rest0) as rest eqn:Er. assert (E : optimize_compound (((m0, c0) : segment) :: rest) =
    match sort_prio (((m0, c0) : segment) :: rest) with
    | [] => []
    | (m, c) :: rest' => if comb_eqb c c0 then (m, c) :: rest' else (m, c0) :: map (fun s => (fst s, Chain)) rest'
    end) by (subst rest; reflexivity).
  rewrite E. clear E Er. pose proof (sort_perm (((m0, c0) : segment) :: rest)) as HP.
  destruct (sort_prio (((m0, c0) : segment) :: rest)) as [|[m c] rest'].
  { apply Permutation_nil in HP. discriminate. }
  cbn in Hw. apply andb_true_iff in Hw. destruct Hw as [Hf Hch]. cbn [comp_comb].
  destruct (comb_eqb c c0) eqn:Ec.
  - apply comb_eqb_eq in Ec. subst c. split; [|split; [reflexivity | exact (Permutation_map fst HP)]].
    cbn. rewrite Hf. cbn [andb]. apply (perm_filter_len (fun e : segment => negb (comb_eqb (snd e) Chain))) in HP. cbn in HP.
    assert (Hn : comb_eqb c0 Chain = false) by (destruct c0; try discriminate; reflexivity).
    rewrite Hn in HP. cbn in HP. injection HP as HP.
    assert (E0 : filter (fun e : segment => negb (comb_eqb (snd e) Chain)) rest = []).
    { apply filter_nil. intros e He. rewrite forallb_forall in Hch. rewrite (Hch e He). reflexivity. }
    rewrite E0 in HP. destruct (filter (fun e : segment => negb (comb_eqb (snd e) Chain)) rest') eqn:Ef; [|discriminate].
    apply forallb_forall. intros e He. destruct (comb_eqb (snd e) Chain) eqn:En; [reflexivity|]. exfalso.
    assert (Hi : In e (filter (fun e : segment => negb (comb_eqb (snd e) Chain)) rest')) by (apply filter_In; split; [exact He | rewrite En; reflexivity]).
    rewrite Ef in Hi. exact Hi.
  - split; [|split; [reflexivity|]].
    + cbn. rewrite Hf. cbn [andb]. apply forallb_forall. intros e He. apply in_map_iff in He. destruct He as (s & <- & _). reflexivity.
    + cbn [map fst]. rewrite map_map. cbn [fst]. exact (Permutation_map fst HP).
Qed.

Section RuleProofs.
  Variable h : heap.
  Variable r : id.
  Hypothesis D : DocOk h r.
  Let wf : WF h := do_wf h r D.

  (** ** A rule with only a handle for one element *)
  Lemma mok_one m g pb : mt_all m = None -> mt_one m = Some g -> mt_cache m = false ->
    (forall x, ElIn h r x -> g x = Ok (pb x)) -> MOk h r m pb true.
  Proof.
    intros Ha Ho Hc H. split; try (rewrite Ho; discriminate).
    - intros l (He & _). unfold apply. rewrite Ha, Ho. apply rfilter_ok. intros x Hx. rewrite Forall_forall in He. exact (H x (He x Hx)).
    - intros g' E. rewrite Ho in E. injection E as <-. exact H.
    - rewrite Hc. discriminate.
  Qed.
  (** ** A rule on sets without special treatment *)
  Lemma mok_all m g pb s : mt_all m = Some g -> mt_one m = None -> mt_spec m = None -> mt_cache m = false ->
    (forall l, Good h r s l -> g l None = Ok (filter pb l)) ->
    (forall p, InTree h r p -> children h p <> [] -> g (children h p) (Some false) = Ok (filter pb (children h p))) -> MOk h r m pb s.
  Proof.
    intros Ha Ho Hs Hc H1 H2. split.
    - intros l HG. unfold apply. rewrite Ha. exact (H1 l HG).
    - rewrite Ho. discriminate.
    - intros _. exists g. exact Ha.
    - rewrite Hs. discriminate.
    - intros _ _ _ g' E. rewrite Ha in E. injection E as <-. exact H2.
    - rewrite Hc. discriminate.
  Qed.
  Lemma mok_all_spec m g sp pb s : mt_all m = Some g -> mt_one m = None -> mt_spec m = Some sp -> mt_cache m = false ->
    (forall l, Good h r s l -> g l None = Ok (filter pb l)) ->
    (Events h r sp pb \/ ((forall p, sp p = Ok []) /\ forall x, ElIn h r x -> pb x = false)) -> MOk h r m pb s.
  Proof.
    intros Ha Ho Hs Hc H1 H2. split.
    - intros l HG. unfold apply. rewrite Ha. exact (H1 l HG).
    - rewrite Ho. discriminate.
    - intros _. exists g. exact Ha.
    - intros _ sp' E. rewrite Hs in E. injection E as <-. exact H2.
    - rewrite Hs. discriminate.
    - rewrite Hc. discriminate.
  Qed.
  Lemma mok_ext m pb pb' s : (forall x, ElIn h r x -> pb x = pb' x) -> MOk h r m pb s -> MOk h r m pb' s.
  Proof.
    intros E [H1 H2 H3 H4 H5 H6].
    assert (EF : forall l, Forall (ElIn h r) l -> filter pb' l = filter pb l).
    { intros l Hl. apply filter_ext_in. intros x Hx. rewrite Forall_forall in Hl. symmetry. exact (E x (Hl x Hx)). }
    split.
    - intros l HG. rewrite (EF l (proj1 HG)). exact (H1 l HG).
    - intros g Eg x Hx. rewrite <- (E x Hx). exact (H2 g Eg x Hx).
    - exact H3.
    - intros Ho g Eg. destruct (H4 Ho g Eg) as [H | [Ha Hb]].
      + left. intros p Hp Hk. rewrite (H p Hp Hk). f_equal. apply map_ext_in. intros c Hc. rewrite (E c (el_child h r p c Hp Hc)). reflexivity.
      + right. split; [exact Ha|]. intros x Hx. rewrite <- (E x Hx). exact (Hb x Hx).
    - intros Ho Hs Hc g Eg p Hp Hne. rewrite (EF (children h p)); [exact (H5 Ho Hs Hc g Eg p Hp Hne)|].
      apply Forall_forall. intros c Hi. exact (el_child h r p c Hp Hi).
    - intros Hc. destruct (H6 Hc) as [Ho H]. split; [exact Ho|]. intros els He. destruct (H els He) as (l & El & Hl & Hi).
      exists l. split; [exact El|]. split; [exact Hl|]. intros Hne x. rewrite (Hi Hne x). split; intros [Hx Hp]; (split; [exact Hx|]); rewrite <- Hp; [symmetry|]; exact (E x Hx).
  Qed.

  Variable text_of : id -> str.
  Variable by_id : id -> str -> option id.
  Hypothesis IC : IdCache h r by_id.
  Notation comp := (compile h text_of by_id).
  Notation hb := (holdsb h text_of).

  Lemma prio_compile rl : mt_prio (comp rl) = prio_of rl.
  Proof. destruct rl; reflexivity. Qed.

  (** ** Compounds and groups *)
  Definition compile_comp (cp : list (rule * comb)) : compound := map (fun e : rule * comb => let '(r', c) := e in (comp r', c)) cp.
  Lemma comp_wf_map (cp : list (rule * comb)) : comp_wf (compile_comp cp) = comp_wf cp.
  Proof.
    destruct cp as [|[a c] cp]; [reflexivity|]. cbn. f_equal. induction cp as [|[a' c'] cp IH]; [reflexivity|]. cbn. rewrite IH. reflexivity.
  Qed.
  Lemma cok_compile cp s : comp_wf cp = true -> (forall rl c, In (rl, c) cp -> MOk h r (comp rl) (hb rl) s) ->
    COk h r (optimize_compound (compile_comp cp)) (map (fun e : rule * comb => let '(r', c) := e in (hb r', c)) cp) s.
  Proof.
    intros Hw HM. rewrite <- comp_wf_map in Hw. destruct (optimize_compound_wf _ Hw) as (H1 & H2 & H3).
    split; [exact H1|]. split; [rewrite H2; unfold compile_comp; rewrite !comp_comb_map; reflexivity|].
    assert (HF : Forall2 (fun m p => MOk h r m p s) (map fst (compile_comp cp)) (map (fun e : rule * comb => hb (fst e)) cp)).
    { clear -HM. induction cp as [|[rl c] cp IH]; [constructor|]. cbn. constructor; [exact (HM rl c (or_introl eq_refl))|].
      apply IH. intros rl' c' Hi. exact (HM rl' c' (or_intror Hi)). }
    destruct (Permutation_Forall2 (Permutation_sym H3) HF) as (ps & HP & HF').
    exists ps. split.
    - clear -HF'. remember (map fst (optimize_compound (compile_comp cp))) as ms eqn:E. revert E.
      generalize (optimize_compound (compile_comp cp)). induction HF' as [|m p ms ps H _ IH]; intros [|e l] E; try discriminate; [constructor|].
      injection E as -> ->. constructor; [exact H | apply IH; reflexivity].
    - intros x Hx. assert (E : compb (map (fun e : rule * comb => let '(r', c) := e in (hb r', c)) cp) x = forallb (fun p => p x) (map (fun e : rule * comb => hb (fst e)) cp)).
      { unfold compb. clear. induction cp as [|[rl c] cp IH]; [reflexivity|]. cbn. rewrite IH. reflexivity. }
      rewrite E. apply eq_true_iff_eq. rewrite !forallb_forall. split; intros H p Hp; apply H; eapply Permutation_in; [symmetry; exact HP | exact Hp | exact HP | exact Hp].
  Qed.
  Definition group_of (g : list (list (rule * comb))) : cgroup := map (fun cp => optimize_compound (compile_comp cp)) g.
  Lemma group_of_opt g : query (optimize_group false (map (map (fun e : rule * comb => let '(r', c) := e in (comp r', c))) g)) = group_of g.
  Proof. unfold optimize_group, group_of. cbn. rewrite map_map. reflexivity. Qed.
  Lemma coks_compile (g : list (list (rule * comb))) s : forallb comp_wf g = true -> (forall cp rl c, In cp g -> In (rl, c) cp -> MOk h r (comp rl) (hb rl) s) ->
    Forall2 (fun cp b => COk h r cp b s) (group_of g) (predb h text_of g).
  Proof.
    intros Hw HM. induction g as [|cp g IH]; [constructor|]. cbn in Hw. apply andb_true_iff in Hw. destruct Hw as [Hw1 Hw2]. cbn. constructor.
    - apply cok_compile; [exact Hw1|]. intros rl c Hi. exact (HM cp rl c (or_introl eq_refl) Hi).
    - apply IH; [exact Hw2|]. intros cp' rl c Hc Hi. exact (HM cp' rl c (or_intror Hc) Hi).
  Qed.
  Lemma groupb_compile (g : list (list (rule * comb))) s : group_wf g = true -> group_desc g = true ->
    (forall cp rl c, In cp g -> In (rl, c) cp -> MOk h r (comp rl) (hb rl) s) -> GroupB h r s (group_of g) (predb h text_of g).
  Proof.
    intros Hw Hd HM. unfold group_wf in Hw. apply andb_true_iff in Hw. destruct Hw as [Hn Hw]. exists (predb h text_of g). split; [|split].
    - destruct g; [discriminate | cbn; discriminate].
    - exact (coks_compile g s Hw HM).
    - intros x _. apply rooted_desc. destruct g as [|cp g]; [discriminate|]. cbn in *. apply comb_eqb_eq in Hd. rewrite comp_comb_map. exact Hd.
  Qed.
  Lemma groupb_root (g : list (list (rule * comb))) s : group_wf g = true ->
    (forall cp rl c, In cp g -> In (rl, c) cp -> MOk h r (comp rl) (hb rl) s) -> GroupB h r s (group_of g) (rootedb h r (predb h text_of g)).
  Proof.
    intros Hw HM. unfold group_wf in Hw. apply andb_true_iff in Hw. destruct Hw as [Hn Hw]. exists (predb h text_of g). split; [|split].
    - destruct g; [discriminate | cbn; discriminate].
    - exact (coks_compile g s Hw HM).
    - reflexivity.
  Qed.
  Lemma selb_compile (gs : ast) s : sel_wf gs = true -> (forall rl, InAst rl gs -> MOk h r (comp rl) (hb rl) s) ->
    SelB h r s (optimize false (compile_groups h text_of by_id gs)) (map (predb h text_of) gs).
  Proof.
    intros Hw HM. unfold SelB, optimize, compile_groups. induction gs as [|g gs IH]; [constructor|].
    cbn in Hw. apply andb_true_iff in Hw. destruct Hw as [Hg Hw]. apply andb_true_iff in Hg. cbn [map]. constructor.
    - rewrite group_of_opt. apply groupb_compile; [apply Hg | apply Hg|]. intros cp rl c Hc Hi. apply HM. exists g, cp, c. split; [left; reflexivity | split; assumption].
    - apply IH; [exact Hw|]. intros rl (g' & cp & c & Hg' & Hc & Hi). apply HM. exists g', cp, c. split; [right; exact Hg' | split; assumption].
  Qed.

  Lemma selb_root (gs : ast) s : forallb group_wf gs = true -> (forall rl, InAst rl gs -> MOk h r (comp rl) (hb rl) s) ->
    SelB h r s (optimize false (compile_groups h text_of by_id gs)) (map (fun g => rootedb h r (predb h text_of g)) gs).
  Proof.
    intros Hw HM. unfold SelB, optimize, compile_groups. induction gs as [|g gs IH]; [constructor|].
    cbn in Hw. apply andb_true_iff in Hw. destruct Hw as [Hg Hw]. cbn [map]. constructor.
    - rewrite group_of_opt. apply groupb_root; [exact Hg|]. intros cp rl c Hc Hi. apply HM. exists g, cp, c. split; [left; reflexivity | split; assumption].
    - apply IH; [exact Hw|]. intros rl (g' & cp & c & Hg' & Hc & Hi). apply HM. exists g', cp, c. split; [right; exact Hg' | split; assumption].
  Qed.

  Lemma exclusive_b (gs : ast) : sel_wf gs = true -> (forall rl, InAst rl gs -> Reflects h r text_of rl) -> Exclusive h r (map (preds h text_of) gs) ->
    ForallOrdPairs (fun g g' => forall x, ElIn h r x -> matchesb h g x = true -> matchesb h g' x = false) (map (predb h text_of) gs).
  Proof.
    unfold Exclusive. intros Hw HR HE.
    assert (HS : forall g, In g gs -> forall x, ElIn h r x -> (matchesb h (predb h text_of g) x = true <-> Matches h (preds h text_of g) x)).
    { intros g Hg x Hx. apply (matchesb_spec h r text_of D); [| |exact Hx].
      - intros cp rl c Hc Hi. apply HR. exists g, cp, c. split; [exact Hg | split; assumption].
      - unfold sel_wf in Hw. rewrite forallb_forall in Hw. specialize (Hw g Hg). unfold group_wf in Hw. rewrite !andb_true_iff in Hw. apply Hw. }
    clear Hw HR. induction gs as [|g gs IH]; [constructor|]. cbn in *. inversion HE as [|g0 l0 H1 H2]; subst. constructor.
    - rewrite Forall_forall in *. intros g' Hg'. apply in_map_iff in Hg'. destruct Hg' as (g1 & <- & Hg1). intros x Hx Hm.
      apply not_true_is_false. intros Hm'. apply (H1 (preds h text_of g1) (in_map _ _ _ Hg1) x Hx).
      + apply HS; [left; reflexivity | exact Hx | exact Hm].
      + apply HS; [right; exact Hg1 | exact Hx | exact Hm'].
    - apply IH; [exact H2|]. intros g1 Hg1. exact (HS g1 (or_intror Hg1)).
  Qed.

  Lemma mok_false m pb s : MOk h r m pb s -> MOk h r m pb false.
  Proof. destruct s; [apply mok_weaken | trivial]. Qed.
  Lemma mok_from m pb s s' : MOk h r m pb s -> (s' = true -> s = true) -> MOk h r m pb s'.
  Proof. destruct s', s; intros H E; try exact H; [discriminate (E eq_refl) | exact (mok_weaken h r m pb false H)]. Qed.

  (** ** The nested selectors *)
  Lemma nested_ok gs : sel_wf gs = true -> (forall rl, InAst rl gs -> MOk h r (comp rl) (hb rl) (rule_simple rl)) ->
    (forall rl, InAst rl gs -> Reflects h r text_of rl) -> Exclusive h r (map (preds h text_of) gs) ->
    forall s, s = ((length gs <=? 1) && ast_simple gs)%bool ->
    SelB h r s (optimize false (compile_groups h text_of by_id gs)) (map (predb h text_of) gs) /\
    forall l, Forall (ElIn h r) l -> FilterOk h s l (map (predb h text_of) gs).
  Proof.
    intros Hw HM HR HE s ->. split.
    - apply selb_compile; [exact Hw|]. intros rl Hi. apply (mok_from _ _ _ _ (HM rl Hi)). intros E. apply andb_true_iff in E. exact (ast_simple_in gs rl (proj2 E) Hi).
    - intros l Hl. unfold FilterOk. rewrite map_length. destruct (length gs <=? 1) eqn:El; [left; apply Nat.leb_le; exact El|]. right. split; [reflexivity|].
      apply (exclusive_addok h r); [exact Hl | exact (exclusive_b gs Hw HR HE)|]. discriminate.
  Qed.

  Theorem mok_rule rl : RuleOk h r text_of rl -> MOk h r (comp rl) (hb rl) (rule_simple rl).
  Proof.
    induction rl as [rl IH] using rule_sub_ind. intros Hok.
    assert (IH' : forall rl', InAst rl' (rule_sub rl) -> MOk h r (comp rl') (hb rl') (rule_simple rl')).
    { intros rl' Hi. apply IH; [exact Hi | exact (rule_ok_sub h r text_of rl Hok rl' Hi)]. }
    assert (IR : forall rl', InAst rl' (rule_sub rl) -> Reflects h r text_of rl').
    { intros rl' Hi. apply (holdsb_spec h r text_of D). exact (rule_ok_sub h r text_of rl Hok rl' Hi). }
    clear IH.
    assert (Hone : forall f P, (exists b, f = Ok b /\ (b = true <-> P)) -> f = Ok (ok_or f)).
    { intros f P (b & -> & _). reflexivity. }
    assert (HC : forall p, InTree h r p -> Good h r true (children h p)) by (intros p Hp; exact (children_good h r D true p Hp)).
    destruct rl as [|n|n|n|k t| | |asc| |asc f|asc|asc f| |n|t|n| |gs]; cbn [rule_simple].
    - apply (mok_all _ (fun els _ => Ok els)); try reflexivity.
      + intros l _. cbn. f_equal. symmetry. apply filter_all. reflexivity.
      + intros p _ _. cbn. f_equal. symmetry. apply filter_all. reflexivity.
    - apply (mok_one _ (name_one h n)); try reflexivity.
    - apply (mok_one _ (class_one h n)); try reflexivity. intros x Hx. cbn [holdsb]. eapply Hone. exact (class_one_spec h r D n x Hx).
    - (* id *)
      assert (HR : Reflects h r text_of (RId n)) by (apply (holdsb_spec h r text_of D); exact Hok).
      assert (IC' : forall x, by_id r n = Some x <-> ElIn h r x /\ IdIs h x n).
      { intros x. pose proof (IC n) as HI. destruct (by_id r n) as [e|].
        - split; [intros E; injection E as <-; exact HI|]. intros [Hx Hid]. f_equal. exact (Hok e x (proj1 HI) Hx (proj2 HI) Hid).
        - split; [discriminate|]. intros [Hx Hid]. destruct (HI x Hx Hid). }
      split; try discriminate.
      + intros l HG. cbn [apply compile mt_all]. unfold id_all. destruct l as [|y l]; [reflexivity|]. pose proof HG as (He & _).
        rewrite (do_owner h r D y); [|inversion He; subst; apply H1 | inversion He; subst; left; apply H1].
        assert (Hb : forall x, In x (y :: l) -> (hb (RId n) x = true <-> by_id r n = Some x)).
        { intros x Hx. rewrite Forall_forall in He. rewrite (HR x (He x Hx)), (IC' x). cbn [Holds]. pose proof (He x Hx). tauto. }
        destruct (by_id r n) as [e|].
        * f_equal. pose proof (good_nodup h r D true _ HG) as Hn. clear -Hb Hn. revert Hb Hn. generalize (y :: l). clear y l. intros l Hb Hn.
          destruct (includes l e) eqn:Ei.
          -- apply includes_spec in Ei. apply in_split in Ei. destruct Ei as (l1 & l2 & ->). apply NoDup_remove_2 in Hn.
             rewrite filter_app. cbn [filter].
             rewrite (proj2 (Hb e (in_elt e l1 l2)) eq_refl). rewrite !filter_nil; [reflexivity| |].
             ++ intros x Hx. apply not_true_is_false. rewrite (Hb x) by (apply in_or_app; right; right; exact Hx). intros E. injection E as <-. apply Hn. apply in_or_app. right. exact Hx.
             ++ intros x Hx. apply not_true_is_false. rewrite (Hb x) by (apply in_or_app; left; exact Hx). intros E. injection E as <-. apply Hn. apply in_or_app. left. exact Hx.
          -- symmetry. apply filter_nil. intros x Hx. apply not_true_is_false. rewrite (Hb x Hx). intros E. injection E as <-.
             apply includes_spec in Hx. congruence.
        * f_equal. symmetry. apply filter_nil. intros x Hx. apply not_true_is_false. rewrite (Hb x Hx). discriminate.
      + intros _. eexists. reflexivity.
      + intros _. split; [reflexivity|]. intros els He. cbn [apply compile mt_all]. unfold id_all. destruct els as [|y l].
        { exists []. split; [reflexivity|]. split; [constructor | congruence]. }
        rewrite (do_owner h r D y) by (inversion He; subst; apply H1).
        destruct (by_id r n) as [e|] eqn:Eb.
        * exists [e]. split; [reflexivity|]. pose proof (proj1 (IC' e) eq_refl) as [He' Hid]. split; [constructor; [exact He' | constructor]|].
          intros _ x. split.
          -- intros [<- | []]. split; [exact He'|]. apply HR; assumption.
          -- intros [Hx Hp]. apply (HR x Hx) in Hp. left. assert (E : Some e = Some x) by (apply IC'; split; assumption). congruence.
        * exists []. split; [reflexivity|]. split; [constructor|]. intros _ x. split; [intros []|]. intros [Hx Hp]. apply (HR x Hx) in Hp.
          assert (E : None = Some x) by (apply IC'; split; assumption). discriminate.
    - apply (mok_one _ (attr_one h k t)); try reflexivity. intros x Hx. cbn [holdsb]. eapply Hone. apply (attr_one_spec h r D k t x Hx).
      intros a _. destruct t as [[[] w]|]; cbn in Hok |- *; try exact I; intros E; contradiction.
    - split; try discriminate.
      + intros l (He & _). cbn [apply compile mt_all mt_one]. apply rfilter_ok. reflexivity.
      + intros g E x _. injection E as <-. reflexivity.
    - apply (mok_one _ (empty_one h)); reflexivity.
    - apply (mok_all_spec _ (fun els _ => first_child_all h asc els) (nth_child_spec h asc 1)); try reflexivity.
      + intros l (H1 & H2 & _). exact (first_child_none h r D text_of asc l H1 H2).
      + left. intros p Hp Hk. rewrite (nth_child_events h r D text_of asc 1 eq_refl p Hp Hk). f_equal. apply map_ext_in.
        intros c Hc. rewrite (first_child_holds h r D text_of asc p c Hc). reflexivity.
    - apply (mok_all _ (fun els _ => Ok (only_child_all h els None))); try reflexivity.
      + intros l (H1 & H2 & _). f_equal. exact (only_child_none h r D text_of l H1 H2).
      + intros p Hp _. destruct (HC p Hp) as (H1 & H2 & _). f_equal. exact (only_child_none h r D text_of _ H1 H2).
    - destruct f as [[st|] b].
      + apply (mok_all _ (nth_child_all h asc (Some st, b))); try reflexivity.
        * intros l (H1 & H2 & _). exact (nth_child_none h r D text_of asc _ l Hok H1 H2).
        * intros p Hp Hne. exact (nth_child_some h r D text_of asc _ p false Hok Hp Hne).
      + apply (mok_all_spec _ (nth_child_all h asc (None, b)) (nth_child_spec h asc b)); try reflexivity.
        * intros l (H1 & H2 & _). exact (nth_child_none h r D text_of asc _ l Hok H1 H2).
        * destruct (Z.ltb_spec 0 b).
          -- left. apply (nth_child_events h r D text_of). exact H.
          -- right. split.
             ++ intros p. unfold nth_child_spec. destruct (Z.ltb_spec 0 b); [lia | reflexivity].
             ++ intros x Hx. apply not_true_is_false. intros E. apply (holdsb_spec h r text_of D (RNthChild asc (None, b)) Hok x Hx) in E.
                cbn in E. destruct E as (i & total & _ & [Hr (k & _ & Ek)]). lia.
    - apply (mok_all_spec _ (fun els _ => first_of_type_all h asc els) (nth_of_type_spec h asc 1)); try reflexivity.
      + intros l (H1 & H2 & _). exact (first_type_none h r D text_of asc l H1 H2).
      + left. intros p Hp Hk. rewrite (nth_type_events h r D text_of asc 1 eq_refl p Hp Hk). f_equal. apply map_ext_in.
        intros c Hc. rewrite (first_type_holds h r D text_of asc p c Hc). reflexivity.
    - destruct f as [[st|] b].
      + apply (mok_all _ (nth_of_type_all h asc (Some st, b))); try reflexivity.
        * intros l (H1 & H2 & _). exact (nth_type_none h r D text_of asc _ l Hok H1 H2).
        * intros p Hp Hne. exact (nth_type_some h r D text_of asc _ p false Hok Hp Hne).
      + apply (mok_all_spec _ (nth_of_type_all h asc (None, b)) (nth_of_type_spec h asc b)); try reflexivity.
        * intros l (H1 & H2 & _). exact (nth_type_none h r D text_of asc _ l Hok H1 H2).
        * destruct (Z.ltb_spec 0 b).
          -- left. apply (nth_type_events h r D text_of). exact H.
          -- right. split.
             ++ intros p. unfold nth_of_type_spec. destruct (Z.ltb_spec 0 b); [lia | reflexivity].
             ++ intros x Hx. apply not_true_is_false. intros E. apply (holdsb_spec h r text_of D (RNthOfType asc (None, b)) Hok x Hx) in E.
                cbn in E. destruct E as (i & total & _ & [Hr (k & _ & Ek)]). lia.
    - apply (mok_all _ (fun els _ => only_of_type_all h els)); try reflexivity.
      + intros l (H1 & H2 & _). exact (only_type_none h r D text_of l H1 H2).
      + intros p Hp _. destruct (HC p Hp) as (H1 & H2 & _). exact (only_type_none h r D text_of _ H1 H2).
    - destruct n as [gs| |]; try contradiction.
      2: { assert (HA : forall l, nested_apply (not_sel h) (Ok None) l = Ok (filter (hb (RNot NErr)) l)).
           { intros l. rewrite (filter_nil (hb (RNot NErr))) by reflexivity. unfold nested_apply. destruct (nonempty l); reflexivity. }
           apply (mok_all _ (fun els _ => nested_apply (not_sel h) (Ok None) els)); try reflexivity; intros; apply HA. }
      destruct Hok as (Hw & _ & HE).
      fold (ast_simple gs). remember ((length gs <=? 1) && ast_simple gs)%bool as s eqn:Es.
      destruct (nested_ok gs Hw IH' IR HE s Es) as [HB HF].
      assert (HA : forall l b, Good h r s l -> nested_apply (not_sel h) (Ok (Some (optimize false (compile_groups h text_of by_id gs)))) l = Ok (filter (hb (RNot (NSel gs))) l) /\ b = b :> option bool).
      { intros l b HG. split; [|reflexivity]. unfold nested_apply, not_sel. destruct (nonempty l) eqn:En; [|destruct l; [reflexivity | discriminate]].
        cbn [rbind]. rewrite (not_handle h r D s l _ _ HG HB (HF l (proj1 HG))). reflexivity. }
      apply (mok_all _ (fun els _ => nested_apply (not_sel h) (Ok (Some (optimize false (compile_groups h text_of by_id gs)))) els)); try reflexivity.
      + intros l HG. exact (proj1 (HA l None HG)).
      + intros p Hp _. exact (proj1 (HA _ None (children_good h r D s p Hp))).
    - apply (mok_one _ (contains_one text_of t)); reflexivity.
    - destruct n as [gs| |]; try contradiction.
      2: { assert (HA : forall l, nested_apply (has_sel h) (Ok None) l = Ok (filter (hb (RHas NErr)) l)).
           { intros l. rewrite (filter_nil (hb (RHas NErr))) by reflexivity. unfold nested_apply. destruct (nonempty l); reflexivity. }
           apply (mok_all _ (fun els _ => nested_apply (has_sel h) (Ok None) els)); try reflexivity; intros; apply HA. }
      destruct Hok as (Hw & _).
      assert (HB : SelB h r false (optimize false (compile_groups h text_of by_id gs)) (map (predb h text_of) gs)).
      { apply selb_compile; [exact Hw|]. intros rl Hi. exact (mok_false _ _ _ (IH' rl Hi)). }
      assert (HA : forall l, Forall (ElIn h r) l -> nested_apply (has_sel h) (Ok (Some (optimize false (compile_groups h text_of by_id gs)))) l = Ok (filter (hb (RHas (NSel gs))) l)).
      { intros l Hl. unfold nested_apply. destruct (nonempty l) eqn:En; [|destruct l; [reflexivity | discriminate]]. cbn [rbind].
        rewrite (has_ok h r D _ _ l HB); [reflexivity|]. revert Hl. apply Forall_impl. intros x [Hx _]. exact Hx. }
      apply (mok_all _ (fun els _ => nested_apply (has_sel h) (Ok (Some (optimize false (compile_groups h text_of by_id gs)))) els)); try reflexivity.
      + intros l HG. exact (HA l (proj1 HG)).
      + intros p Hp _. exact (HA _ (proj1 (HC p Hp))).
    - apply (mok_one _ (checked_one h)); try reflexivity. intros x Hx. cbn [holdsb]. eapply Hone. exact (checked_one_spec h r D x Hx Hok).
    - destruct Hok as (Hw & _ & HE).
      fold (ast_simple gs). remember ((length gs <=? 1) && ast_simple gs)%bool as s eqn:Es.
      destruct (nested_ok gs Hw IH' IR HE s Es) as [HB HF].
      assert (HA : forall l, Good h r s l -> filter_sel h l (optimize false (compile_groups h text_of by_id gs)) = Ok (filter (hb (RAlias gs)) l)).
      { intros l HG. unfold filter_sel. destruct (nonempty l) eqn:En; [|destruct l; [reflexivity | discriminate]].
        rewrite (filter_handle h r D s l _ _ HG HB (HF l (proj1 HG))). reflexivity. }
      apply (mok_all _ (fun els _ => filter_sel h els (optimize false (compile_groups h text_of by_id gs)))); try reflexivity.
      + exact HA.
      + intros p Hp _. exact (HA _ (children_good h r D s p Hp)).
  Qed.

  (** ** A whole selector *)
  Lemma ast_ok (gs : ast) rl : SelOk h r text_of gs -> InAst rl gs -> RuleOk h r text_of rl.
  Proof. intros H (g & cp & c & Hg & Hc & Hi). exact (H g Hg cp Hc rl c Hi). Qed.
  Lemma selb_ok (gs : ast) s : SelOk h r text_of gs -> sel_wf gs = true -> (s = true -> ast_simple gs = true) ->
    SelB h r s (compile_selector h text_of by_id false gs) (map (predb h text_of) gs).
  Proof.
    intros Hok Hw Hs. apply selb_compile; [exact Hw|]. intros rl Hi. apply (mok_from _ _ _ _ (mok_rule rl (ast_ok gs rl Hok Hi))).
    intros E. exact (ast_simple_in gs rl (Hs E) Hi).
  Qed.
  Lemma selb_root_ok (gs : ast) s : SelOk h r text_of gs -> forallb group_wf gs = true -> (s = true -> ast_simple gs = true) ->
    SelB h r s (compile_selector h text_of by_id false gs) (map (fun g => rootedb h r (predb h text_of g)) gs).
  Proof.
    intros Hok Hw Hs. apply selb_root; [exact Hw|]. intros rl Hi. apply (mok_from _ _ _ _ (mok_rule rl (ast_ok gs rl Hok Hi))).
    intros E. exact (ast_simple_in gs rl (Hs E) Hi).
  Qed.
  Lemma coks_ok (g : list (list (rule * comb))) s : GroupOk h r text_of g -> forallb comp_wf g = true -> (s = true -> ast_simple [g] = true) ->
    Forall2 (fun cp b => COk h r cp b s) (group_of g) (predb h text_of g).
  Proof.
    intros Hok Hw Hs. apply coks_compile; [exact Hw|]. intros cp rl c Hc Hi. apply (mok_from _ _ _ _ (mok_rule rl (Hok cp Hc rl c Hi))).
    intros E. apply (ast_simple_in [g] rl (Hs E)). exists g, cp, c. split; [left; reflexivity | split; assumption].
  Qed.
End RuleProofs.
