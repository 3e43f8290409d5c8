(** Searches that walk forwards from an element left over from a dropped document. *)
From Verif Require Import Base Attr Dom DomSpec Order DomProofs OrderProofs NavProofs Sets SelSpec Mutate Nth Engine Rules RuleProofs Parse Query Reports ReportsStay
  SelBool Total FindSpec FindProofs FindRules Lifetime LifetimeSpec LifetimeProofs LifetimeQuery.

Lemma relation_app pre a b : relation_of (pre ++ a) (pre ++ b) = relation_of a b.
Proof. induction pre as [|n pre IH]; [reflexivity|]. cbn. rewrite Nat.eqb_refl. exact IH. Qed.
Lemma idx_app pre a b : idx_eqb (pre ++ a) (pre ++ b) = idx_eqb a b.
Proof. unfold idx_eqb. rewrite compare_app. reflexivity. Qed.
Lemma rmapl_ext {A B} (f g : A -> res B) l : (forall x, In x l -> f x = g x) -> rmapl f l = rmapl g l.
Proof.
  induction l as [|x l IH]; intros H; [reflexivity|]. cbn [rmapl]. rewrite (H x (or_introl eq_refl)), IH; [reflexivity|].
  intros y Hy. apply H. right. exact Hy.
Qed.

Section Forward.
  Variable h : heap.
  Hypothesis wf : WF h.
  Variables held docs : list id.
  Let h' := drop h held docs.
  Local Notation Live := (Alive h held docs).
  Variable text_of : id -> str.
  Variable by_id : id -> str -> option id.

  (** Where a search may start, and what it finds: nodes below such, so their parents are left as well. *)
  Variables P Q : id -> Prop.
  Hypothesis PL : forall x, P x -> Live x.
  Hypothesis QP : forall x, Q x -> P x.
  Hypothesis PK : forall x c, P x -> In c (children h x) -> Q c.
  Hypothesis Qpar : forall x, Q x -> exists p, parent h x = Some p /\ P p.
  Variable pre : list nat.
  Hypothesis keys : forall x, P x -> key h x = pre ++ key h' x.
  Hypothesis same_add : forall a b, Forall P a -> Forall P b -> add h' a b = add h a b.
  Local Notation Pq := (Post (Forall Q)).

  Lemma QL x : Q x -> Live x.
  Proof. intros H. exact (PL x (QP x H)). Qed.
  Lemma fw_parent x : Q x -> parent h' x = parent h x.
  Proof. intros H. destruct (Qpar x H) as (p & E & Hp). rewrite E. apply (drop_parent h wf held docs x p (QL x H)). split; [exact E | exact (PL p Hp)]. Qed.
  Lemma fw_children x : P x -> children h' x = children h x.
  Proof. intros H. exact (drop_children h wf held docs x (PL x H)). Qed.
  Lemma fw_kids_Q x : P x -> Forall Q (children h x).
  Proof. intros H. apply Forall_forall. intros c. exact (PK x c H). Qed.
  Lemma fw_tag x : Q x -> tag_name h' x = tag_name h x.
  Proof. intros H. unfold tag_name. unfold h'. rewrite (drop_tag h wf held docs x (QL x H)). reflexivity. Qed.
  Lemma fw_index x : Q x -> index h' x = index h x.
  Proof. intros H. exact (drop_index h wf held docs x (QL x H)). Qed.
  Lemma nodes_Q p m : P p -> (forall x, In x m -> In x (kids h p)) -> Forall Q (filter (is_element h) m).
  Proof.
    intros H Hm. apply Forall_forall. intros y Hy. apply filter_In in Hy as [Hy He]. apply (PK p); [exact H|]. unfold children. apply filter_In. auto.
  Qed.

  (** * The groups of siblings *)
  Lemma fw_groups els : Forall Q els -> forall i cur, sib_groups h' els i cur = sib_groups h els i cur.
  Proof.
    intros H. induction H as [|x els Hx _ IH]; intros i cur; [reflexivity|]. cbn [sib_groups]. rewrite (fw_parent x Hx).
    destruct (parent h x) as [p|]; [|apply IH]. destruct cur as [[[s e] q]|]; [|apply IH]. destruct (Nat.eqb p q); rewrite IH; reflexivity.
  Qed.
  Lemma fw_groups_P els : Forall Q els -> forall i cur, (forall g, cur = Some g -> P (snd g)) -> Forall (fun g : sgroup => P (snd g)) (sib_groups h els i cur).
  Proof.
    intros H. induction H as [|x els Hx _ IH]; intros i cur Hc; [destruct cur; repeat constructor; apply Hc; reflexivity|]. cbn [sib_groups].
    destruct (Qpar x Hx) as (p & E & Hp). rewrite E. destruct cur as [[[s e] q]|]; [|apply IH; intros g Eg; injection Eg as <-; exact Hp].
    pose proof (Hc _ eq_refl) as Hq. destruct (Nat.eqb p q); [apply IH; intros g Eg; injection Eg as <-; exact Hq|].
    constructor; [exact Hq|]. apply IH. intros g Eg. injection Eg as <-. exact Hp.
  Qed.
  Lemma fw_each els (F' F : sgroup -> res (list id)) : Forall Q els -> (forall g, P (snd g) -> F' g = F g /\ Pq (F g)) ->
    rflat F' (group_siblings h' els) = rflat F (group_siblings h els) /\ Pq (rflat F (group_siblings h els)).
  Proof.
    intros H HF. unfold group_siblings. rewrite (fw_groups els H). assert (HG : Forall (fun g : sgroup => P (snd g)) (sib_groups h els 0 None)) by (apply fw_groups_P; [exact H | discriminate]).
    split.
    - apply rflat_ext. intros g Hg. rewrite Forall_forall in HG. apply HF. exact (HG g Hg).
    - apply (post_flat (fun g : sgroup => P (snd g))); [exact HG|]. intros g Hg. exact (proj2 (HF g Hg)).
  Qed.
  Lemma fw_handle_child asc els g allow : Forall Q els -> P (snd g) ->
    handle_nth_child h' asc els g allow = handle_nth_child h asc els g allow /\ Pq (handle_nth_child h asc els g allow).
  Proof.
    intros H Hg. destruct g as [[s e] p]. cbn [snd] in Hg. unfold handle_nth_child. destruct allow as [|a allow]; [split; [reflexivity | apply post_ok; constructor]|].
    rewrite (fw_children p Hg). split; [reflexivity|]. apply nth_handle_P; [exact H | exact (fw_kids_Q p Hg)].
  Qed.
  Lemma fw_names cs : Forall Q cs -> forall m allow, names_walk h' m allow cs = names_walk h m allow cs.
  Proof.
    intros H. induction H as [|x cs Hx _ IH]; intros m allow; [reflexivity|]. cbn [names_walk]. unfold allowed_name. rewrite (fw_tag x Hx).
    destruct (count_get m (tag_name h x)) as [i|]; cbn [rbind fst snd]; [rewrite IH; reflexivity|].
    destruct allow as [|a allow]; [reflexivity|]. cbn [rbind fst snd]. rewrite IH. reflexivity.
  Qed.
  Lemma fw_marked cs : Forall Q cs -> forall marks, marked_indexs h' cs marks = marked_indexs h cs marks.
  Proof.
    intros H. unfold marked_indexs. induction H as [|x cs Hx _ IH]; intros [|b marks]; try reflexivity. cbn [combine filter snd]. destruct b; [|exact (IH marks)].
    cbn [map fst]. rewrite (fw_index x Hx), IH. reflexivity.
  Qed.
  Lemma fw_scan at_ sibs : Forall Q sibs -> avail_scan h' at_ sibs = avail_scan h at_ sibs /\ Forall Q (snd (avail_scan h at_ sibs)).
  Proof.
    intros H. induction H as [|x sibs Hx HS IH]; [split; [reflexivity | constructor]|]. cbn [avail_scan]. rewrite (fw_index x Hx).
    destruct (Nat.compare (index h x) at_); [split; [reflexivity | exact HS] | exact IH | split; [reflexivity | constructor; assumption]].
  Qed.
  Lemma fw_avail : forall ixs sibs, Forall Q sibs -> collect_avail h' ixs sibs = collect_avail h ixs sibs.
  Proof.
    induction ixs as [|i ixs IH]; intros sibs H; [reflexivity|]. cbn [collect_avail]. destruct (fw_scan i sibs H) as [E HL]. rewrite E.
    destruct sibs as [|x sibs]; [reflexivity|]. destruct (avail_scan h i (x :: sibs)) as [f l]. rewrite (IH l HL). reflexivity.
  Qed.
  Lemma fw_handle_type asc els s e p allow : Forall Q els -> P p ->
    handle_nth_of_type h' asc els s e (Some p) allow = handle_nth_of_type h asc els s e (Some p) allow /\ Pq (handle_nth_of_type h asc els s e (Some p) allow).
  Proof.
    intros H Hp. split; [|exact (of_type_P h Q asc els s e (Some p) allow H)]. unfold handle_nth_of_type. destruct allow as [|a allow]; [reflexivity|].
    rewrite (fw_children p Hp). pose proof (fw_kids_Q p Hp) as HK. rewrite (fw_names _ HK), (fw_names _ (Forall_rev HK)).
    assert (HR : Forall Q (range els s e)) by exact (range_P Q els s e H).
    destruct asc; destruct (names_walk h [] (a :: allow) _) as [marks| |]; cbn [rbind]; try reflexivity.
    - rewrite (fw_marked _ HK), (fw_avail _ _ HR). reflexivity.
    - rewrite (fw_marked _ (Forall_rev HK)), (fw_avail _ _ HR). reflexivity.
  Qed.

  (** * The rules about the place among the siblings *)
  Lemma fw_nth_child asc f els uc : Forall Q els -> nth_child_all h' asc f els uc = nth_child_all h asc f els uc /\ Pq (nth_child_all h asc f els uc).
  Proof.
    intros H. unfold nth_child_all. destruct uc as [b|].
    - split; [reflexivity|]. apply (post_bind (fun _ => True)); [apply post_any|]. intros allow _. apply nth_handle_P; exact H.
    - apply (fw_each els _ _ H). intros g Hg. rewrite (fw_children (snd g) Hg). split.
      + destruct (get_allowed_indexs f (length (children h (snd g)))) as [allow| |]; cbn [rbind]; [|reflexivity|reflexivity]. apply (fw_handle_child asc els g allow H Hg).
      + apply (post_bind (fun _ => True)); [apply post_any|]. intros allow _. apply (fw_handle_child asc els g allow H Hg).
  Qed.
  Lemma fw_first_child asc els : Forall Q els -> first_child_all h' asc els = first_child_all h asc els /\ Pq (first_child_all h asc els).
  Proof. intros H. unfold first_child_all. apply (fw_each els _ _ H). intros g Hg. exact (fw_handle_child asc els g [0%Z] H Hg). Qed.
  Lemma fw_only_child els : Forall Q els -> forall prev, only_child_all h' els prev = only_child_all h els prev /\ Forall Q (only_child_all h els prev).
  Proof.
    intros H. induction H as [|x els Hx _ IH]; intros prev; [split; [reflexivity | constructor]|]. cbn [only_child_all]. rewrite (fw_parent x Hx).
    destruct (Qpar x Hx) as (p & E & Hp). rewrite E, (fw_children p Hp). destruct (match prev with Some q => Nat.eqb q p | None => false end); [apply IH|].
    destruct (IH (Some p)) as [E1 E2]. rewrite E1. split; [reflexivity|]. destruct (Nat.eqb (length (children h p)) 1); [constructor|]; assumption.
  Qed.
  Lemma fw_nth_type asc f els uc : Forall Q els -> nth_of_type_all h' asc f els uc = nth_of_type_all h asc f els uc /\ Pq (nth_of_type_all h asc f els uc).
  Proof.
    intros H. unfold nth_of_type_all. destruct uc as [b|].
    - destruct (get_allowed_indexs f (length els)) as [allow| |]; cbn [rbind]; [|split; [reflexivity | apply post_panic] | split; [reflexivity | apply post_fuel]].
      destruct H as [|x els Hx HE]; [split; [reflexivity | exact (of_type_P h Q asc [] 0 _ None allow (Forall_nil _))]|].
      rewrite (fw_parent x Hx). destruct (Qpar x Hx) as (p & E & Hp). rewrite E. apply fw_handle_type; [constructor; assumption | exact Hp].
    - apply (fw_each els _ _ H). intros [[s e] p] Hg. cbn [snd] in Hg. rewrite (fw_children p Hg). split.
      + destruct (get_allowed_indexs f (length (children h p))) as [allow| |]; cbn [rbind]; [|reflexivity|reflexivity]. apply (fw_handle_type asc els s e p allow H Hg).
      + apply (post_bind (fun _ => True)); [apply post_any|]. intros allow _. apply (fw_handle_type asc els s e p allow H Hg).
  Qed.
  Lemma fw_first_type asc els : Forall Q els -> first_of_type_all h' asc els = first_of_type_all h asc els /\ Pq (first_of_type_all h asc els).
  Proof. intros H. unfold first_of_type_all. apply (fw_each els _ _ H). intros [[s e] p] Hg. exact (fw_handle_type asc els s e p [0%Z] H Hg). Qed.
  Lemma fw_only_names cs : Forall Q cs -> forall i o rp, only_names h' cs i o rp = only_names h cs i o rp.
  Proof.
    intros H. induction H as [|x cs Hx _ IH]; intros i o rp; [reflexivity|]. cbn [only_names]. rewrite (fw_tag x Hx).
    destruct (existsb (str_eqb (tag_name h x)) rp); [apply IH|]. destruct (existsb (fun e : str * nat => str_eqb (fst e) (tag_name h x)) o); apply IH.
  Qed.
  Lemma fw_name_scan name sibs : Forall Q sibs -> name_scan h' name sibs = name_scan h name sibs /\ forall x l, name_scan h name sibs = Some (x, l) -> Forall Q l.
  Proof.
    intros H. induction H as [|x sibs Hx HS IH]; [split; [reflexivity | discriminate]|]. cbn [name_scan]. rewrite (fw_tag x Hx).
    destruct (str_eqb (tag_name h x) name); [split; [reflexivity | intros y l E; injection E as <- <-; exact HS] | exact IH].
  Qed.
  Lemma fw_only_walk : forall names sibs, Forall Q sibs -> only_walk h' names sibs = only_walk h names sibs.
  Proof.
    induction names as [|[n k] names IH]; intros sibs H; [reflexivity|]. cbn [only_walk]. destruct (fw_name_scan n sibs H) as [E HL]. rewrite E.
    destruct (name_scan h n sibs) as [[x l]|]; [rewrite (IH l (HL x l eq_refl)); reflexivity | exact (IH sibs H)].
  Qed.
  Lemma fw_only_type els : Forall Q els -> only_of_type_all h' els = only_of_type_all h els /\ Pq (only_of_type_all h els).
  Proof.
    intros H. unfold only_of_type_all. apply (fw_each els _ _ H). intros [[s e] p] Hp. cbn [snd] in Hp. cbv zeta. pose proof (range_P Q els s e H) as HR.
    rewrite (fw_children p Hp), (fw_only_names _ (fw_kids_Q p Hp)), (fw_only_walk _ _ HR). split; [reflexivity|].
    destruct (Nat.eqb (length (range els s e)) (length (children h p))).
    - apply (post_mapl (fun _ => True)); [apply Forall_forall; intros ? _; exact I|]. intros n _. apply post_nth. exact HR.
    - apply post_ok. apply (sub_P Q (range els s e)); [exact HR|]. intros x. apply only_walk_sub.
  Qed.
  (** The specified handles. *)
  Lemma fw_since x i b : P x -> since_by h' x i b = since_by h x i b /\ Pq (since_by h x i b).
  Proof.
    intros H. unfold since_by. unfold h'. rewrite (drop_childs h wf held docs x (PL x H)).
    assert (Ek : forall cs, childs h x = Some cs -> kids h x = cs) by (intros cs E; unfold kids; rewrite E; reflexivity).
    destruct (childs h x) as [cs|]; [|split; [reflexivity | apply post_ok; constructor]]. specialize (Ek cs eq_refl). subst cs.
    assert (EF : forall l, incl l (kids h x) -> filter (is_element (drop h held docs)) l = filter (is_element h) l) by (intros l; exact (drop_kid_filter h wf held docs x l (PL x H))).
    destruct b.
    - destruct (i <? length (kids h x)); [|split; [reflexivity | apply post_panic]].
      assert (HI : forall l, (forall y, In y l -> In y (firstn (S i) (kids h x))) -> incl l (kids h x)) by (intros l Hl y Hy; exact (in_firstn _ _ _ (Hl y Hy))).
      rewrite EF; [split; [reflexivity|]; apply post_ok; apply (nodes_Q x _ H)|]; intros y Hy; apply in_rev in Hy; exact (in_firstn _ _ _ Hy).
    - destruct (i <=? length (kids h x)); [|split; [reflexivity | apply post_panic]].
      rewrite EF; [split; [reflexivity|]; apply post_ok; apply (nodes_Q x _ H)|]; intros y; apply in_skipn.
  Qed.
  Lemma fw_length x : P x -> child_nodes_length h' x = child_nodes_length h x.
  Proof. intros H. exact (drop_nodes_length h wf held docs x (PL x H)). Qed.
  Local Notation Calls := (Post (Forall (fun e : id * bool * bool => Q (fst (fst e))))).
  Lemma fw_child_spec asc ix x : P x -> nth_child_spec h' asc ix x = nth_child_spec h asc ix x /\ Calls (nth_child_spec h asc ix x).
  Proof.
    intros H. unfold nth_child_spec. destruct (0 <? ix)%Z; [|split; [reflexivity | apply post_ok; constructor]]. destruct (fw_since x 0 false H) as [E1 E2]. rewrite E1. split.
    - destruct (since_by h x 0 false) as [cs| |]; cbn [rbind]; [|reflexivity|reflexivity]. rewrite (fw_length x H). destruct asc; [reflexivity|].
      destruct (rsub (child_nodes_length h x) 1) as [k| |]; cbn [rbind]; [|reflexivity|reflexivity]. rewrite (proj1 (fw_since x k true H)). reflexivity.
    - apply (post_bind (Forall Q)); [exact E2|]. intros cs Hc. apply (post_bind (fun _ => True)); [apply post_any|]. intros marks _. apply marks_P. exact Hc.
  Qed.
  Lemma fw_type_spec asc ix x : P x -> nth_of_type_spec h' asc ix x = nth_of_type_spec h asc ix x /\ Calls (nth_of_type_spec h asc ix x).
  Proof.
    intros H. unfold nth_of_type_spec. destruct (0 <? ix)%Z; [|split; [reflexivity | apply post_ok; constructor]]. destruct (fw_since x 0 false H) as [E1 E2]. rewrite E1. split.
    - destruct (since_by h x 0 false) as [cs| |]; cbn [rbind]; [|reflexivity|reflexivity]. rewrite (fw_length x H), (fw_names cs (E2 cs eq_refl)). destruct asc; [reflexivity|].
      destruct (rsub (child_nodes_length h x) 1) as [k| |]; cbn [rbind]; [|reflexivity|reflexivity]. destruct (fw_since x k true H) as [E3 E4]. rewrite E3.
      destruct (since_by h x k true) as [ds| |]; cbn [rbind]; [|reflexivity|reflexivity]. rewrite (fw_names ds (E4 ds eq_refl)). reflexivity.
    - apply (post_bind (Forall Q)); [exact E2|]. intros cs Hc. apply (post_bind (fun _ => True)); [apply post_any|]. intros marks _. apply marks_P. exact Hc.
  Qed.

  (** * [:checked] *)
  Lemma fw_is_tag x n : P x -> is_tag h' x n = is_tag h x n.
  Proof. intros H. unfold is_tag. unfold h'. rewrite (drop_tag h wf held docs x (PL x H)). reflexivity. Qed.
  Lemma fw_prev x : Q x -> previous_element_sibling h' x = previous_element_sibling h x /\ Post (fun o => Forall Q (opt_list o)) (previous_element_sibling h x).
  Proof.
    intros H. destruct (Qpar x H) as (p & E & Hp). split; [exact (proj1 (proj2 (proj2 (drop_sideways h wf held docs x p (QL x H) E (PL p Hp)))))|].
    unfold previous_element_sibling. rewrite E. destruct (index h x <=? length (kids h p)); [|apply post_panic]. apply post_ok. eapply opt_P; [|reflexivity]. apply (nodes_Q p); [exact Hp|].
    intros y Hy. apply in_rev in Hy. exact (in_firstn _ _ _ Hy).
  Qed.
  Lemma fw_next x : Q x -> next_element_sibling h' x = next_element_sibling h x /\ Forall Q (opt_list (next_element_sibling h x)).
  Proof.
    intros H. destruct (Qpar x H) as (p & E & Hp). split; [exact (proj1 (drop_sideways h wf held docs x p (QL x H) E (PL p Hp)))|].
    unfold next_element_sibling. rewrite E. eapply opt_P; [|reflexivity]. apply (nodes_Q p); [exact Hp|]. intros y. apply in_skipn.
  Qed.
  Lemma fw_option_before : forall f x, Q x -> option_before h' f x = option_before h f x.
  Proof.
    induction f as [|f IH]; intros x H; [reflexivity|]. cbn [option_before]. destruct (fw_prev x H) as [E1 E2]. rewrite E1.
    destruct (previous_element_sibling h x) as [[y|]| |]; cbn [rbind]; try reflexivity. pose proof (Forall_inv (E2 _ eq_refl)) as Hy. rewrite (fw_is_tag y _ (QP y Hy)), (IH y Hy). reflexivity.
  Qed.
  Lemma fw_selected_in : forall f x, P x -> selected_in h' f x = selected_in h f x.
  Proof.
    induction f as [|f IH]; intros x H; [reflexivity|]. cbn [selected_in]. rewrite (fw_is_tag x _ H). destruct (is_tag h x (lit "option")); [exact (drop_has h wf held docs x _ (PL x H))|].
    rewrite (fw_children x H). apply rexists_ext. intros c Hc. exact (IH c (QP c (PK x c H Hc))).
  Qed.
  Lemma fw_selected_after : forall f x, Q x -> selected_after h' f x = selected_after h f x.
  Proof.
    induction f as [|f IH]; intros x H; [reflexivity|]. cbn [selected_after]. destruct (fw_next x H) as [E1 E2]. rewrite E1.
    destruct (next_element_sibling h x) as [y|]; [|reflexivity]. pose proof (Forall_inv E2) as Hy. assert (EL : length h' = length h) by apply drop_length.
    rewrite EL, (fw_selected_in _ y (QP y Hy)), (IH y Hy). reflexivity.
  Qed.
  Lemma fw_checked x : Q x -> checked_one h' x = checked_one h x.
  Proof.
    intros H. unfold checked_one. rewrite !(fw_is_tag x _ (QP x H)).
    assert (EA : forall k, node_attribute h' x k = node_attribute h x k) by (intros k; exact (drop_attribute h wf held docs x k (QL x H))).
    assert (EH : forall k, node_has_attribute h' x k = node_has_attribute h x k) by (intros k; exact (drop_has h wf held docs x k (QL x H))).
    rewrite EA, !EH, (fw_parent x H). destruct (Qpar x H) as (p & E & Hp). rewrite E, (fw_is_tag p _ Hp).
    assert (EP : node_has_attribute h' p (lit "multiple") = node_has_attribute h p (lit "multiple")) by exact (drop_has h wf held docs p _ (PL p Hp)).
    assert (EL : length h' = length h) by apply drop_length. rewrite EP, EL, (fw_option_before _ x H), (fw_selected_after _ x H). reflexivity.
  Qed.

  (** * Matchers that answer alike *)
  Record AQ (m' m : matcher) : Prop := mkAQ {
    aq_prio : mt_prio m' = mt_prio m;
    aq_cache : mt_cache m' = false /\ mt_cache m = false;
    aq_one : match mt_one m', mt_one m with
             | Some g', Some g => forall x, Q x -> g' x = g x
             | None, None => True
             | _, _ => False
             end;
    aq_all : match mt_all m', mt_all m with
             | Some g', Some g => forall els uc, Forall Q els -> g' els uc = g els uc /\ Pq (g els uc)
             | None, None => True
             | _, _ => False
             end;
    aq_spec : match mt_spec m', mt_spec m with
              | Some g', Some g => forall x, P x -> g' x = g x /\ Calls (g x)
              | None, None => True
              | _, _ => False
              end
  }.
  Lemma aq_own r : own_rule r = true -> AQ (compile h' text_of by_id r) (compile h text_of by_id r).
  Proof.
    intros H. pose proof (alike_compile h wf held docs text_of by_id r H) as HA. fold h' in HA.
    assert (G : forall m' m, Alike h held docs m' m -> AQ m' m); [|exact (G _ _ HA)].
    intros m' m [|r0 g' g Hg]; constructor; cbn; try tauto.
    - intros els uc He. split; [reflexivity | apply post_ok; exact He].
    - intros x Hx. exact (Hg x (QL x Hx)).
  Qed.
  Lemma aq_place r : place_rule r = true -> AQ (compile h' text_of by_id r) (compile h text_of by_id r).
  Proof.
    destruct r as [| | | | | | |asc| |asc f|asc|asc f| | | | | |]; cbn [place_rule]; try discriminate; intros _; constructor; cbn [compile all mt_prio mt_cache mt_one mt_all mt_spec];
      try tauto; try reflexivity; try exact I; try (split; reflexivity).
    - intros els uc H. exact (fw_first_child asc els H).
    - intros x H. exact (fw_child_spec asc 1 x H).
    - intros els uc H. destruct (fw_only_child els H None) as [E1 E2]. rewrite E1. split; [reflexivity | apply post_ok; exact E2].
    - intros els uc H. exact (fw_nth_child asc f els uc H).
    - destruct (fst f); [exact I|]. intros x H. exact (fw_child_spec asc (snd f) x H).
    - intros els uc H. exact (fw_first_type asc els H).
    - intros x H. exact (fw_type_spec asc 1 x H).
    - intros els uc H. exact (fw_nth_type asc f els uc H).
    - destruct (fst f); [exact I|]. intros x H. exact (fw_type_spec asc (snd f) x H).
    - intros els uc H. exact (fw_only_type els H).
  Qed.

  Definition AQS (s' s : segment) : Prop := AQ (fst s') (fst s) /\ snd s' = snd s.
  Lemma aq_insert s' s : AQS s' s -> forall l' l, Forall2 AQS l' l -> Forall2 AQS (insert_prio s' l') (insert_prio s l).
  Proof.
    intros H l' l HL. induction HL as [|a' a l' l Ha HL IH]; [constructor; [exact H | constructor]|]. cbn.
    rewrite (aq_prio _ _ (proj1 H)), (aq_prio _ _ (proj1 Ha)). destruct (_ <=? _)%N.
    - constructor; [exact H|]. constructor; assumption.
    - constructor; assumption.
  Qed.
  Lemma aq_sort l' l : Forall2 AQS l' l -> Forall2 AQS (sort_prio l') (sort_prio l).
  Proof. intros H. induction H as [|a' a l' l Ha HL IH]; [constructor|]. apply (aq_insert a' a Ha). exact IH. Qed.
  Lemma aq_optimize l' l : Forall2 AQS l' l -> Forall2 AQS (optimize_compound l') (optimize_compound l).
  Proof.
    intros H. pose proof (aq_sort l' l H) as HS. destruct H as [|[m1' c1'] [m1 c1] l' l [H1 E1] HL]; [constructor|]. cbn in H1, E1. subst c1'.
    destruct HL as [|s2' s2 l' l H2 HL]; [constructor; [split; [exact H1 | reflexivity] | constructor]|].
    unfold optimize_compound. destruct HS as [|[m' c'] [m c] t' t [Hm Ec] HT]; [constructor|]. cbn in Hm, Ec. subst c'.
    destruct (comb_eqb c c1).
    - constructor; [split; [exact Hm | reflexivity] | exact HT].
    - constructor; [split; [exact Hm | reflexivity]|]. clear -HT. induction HT as [|a' a t' t [Ha _] HT IH]; [constructor|]. constructor; [split; [exact Ha | reflexivity] | exact IH].
  Qed.

  (** * Steps *)
  Lemma fw_apply m' m els : AQ m' m -> Forall Q els -> apply m' els None = apply m els None /\ Pq (apply m els None).
  Proof.
    intros A H. unfold apply. pose proof (aq_all _ _ A) as HA. pose proof (aq_one _ _ A) as HO.
    destruct (mt_all m') as [g'|], (mt_all m) as [g|]; try contradiction; [exact (HA els None H)|].
    destruct (mt_one m') as [g'|], (mt_one m) as [g|]; try contradiction; [|split; [reflexivity | apply post_panic]].
    split; [|exact (post_filter Q g els H)]. apply rfilter_ext. intros x Hx. rewrite Forall_forall in H. exact (HO x (H x Hx)).
  Qed.
  Lemma fw_dfs_one g' g : (forall x, Q x -> g' x = g x) -> forall f x, P x -> dfs_one h' f g' x = dfs_one h f g x /\ Pq (dfs_one h f g x).
  Proof.
    intros Hg. induction f as [|f IH]; intros x H; [split; [reflexivity | apply post_fuel]|]. cbn [dfs_one]. rewrite (fw_children x H). pose proof (fw_kids_Q x H) as HK. split.
    - apply rflat_ext. intros c Hc. rewrite Forall_forall in HK. specialize (HK c Hc). rewrite (Hg c HK), (fw_length c (QP c HK)), (proj1 (IH c (QP c HK))). reflexivity.
    - apply (post_flat Q); [exact HK|]. intros c Hc. apply (post_bind (fun _ => True)); [apply post_any|]. intros b _.
      apply (post_bind (Forall Q)); [destruct (0 <? child_nodes_length h c); [exact (proj2 (IH c (QP c Hc))) | apply post_ok; constructor]|].
      intros sub Hs. apply post_ok. destruct b; [constructor|]; assumption.
  Qed.
  Lemma fw_dfs_spec g' g : (forall x, P x -> g' x = g x /\ Calls (g x)) -> forall f x, P x -> dfs_spec h' f g' x = dfs_spec h f g x /\ Pq (dfs_spec h f g x).
  Proof.
    intros Hg. induction f as [|f IH]; intros x H; [split; [reflexivity | apply post_fuel]|]. cbn [dfs_spec]. destruct (Hg x H) as [E HC]. rewrite E. split.
    - destruct (g x) as [calls| |]; cbn [rbind]; [|reflexivity|reflexivity]. specialize (HC calls eq_refl). apply rflat_ext. intros [[c b] lc] Hc.
      rewrite Forall_forall in HC. specialize (HC _ Hc). cbn [fst] in HC. rewrite (fw_length c (QP c HC)), (proj1 (IH c (QP c HC))). reflexivity.
    - apply (post_bind (Forall (fun e : id * bool * bool => Q (fst (fst e))))); [exact HC|]. intros calls Hc.
      apply (post_flat (fun e : id * bool * bool => Q (fst (fst e)))); [exact Hc|]. intros [[c b] lc] Hp. cbn [fst] in Hp.
      apply (post_bind (Forall Q)); [destruct (lc && (0 <? child_nodes_length h c)); [exact (proj2 (IH c (QP c Hp))) | apply post_ok; constructor]|].
      intros sub Hs. apply post_ok. destruct b; [constructor|]; assumption.
  Qed.
  Definition fw_walk (f : nat) (k : heap) (g : list id -> option bool -> res (list id)) :=
    fix walk (cs matched : list id) : res (list id) :=
      match cs with
      | [] => Ok []
      | c :: cs' =>
          let hit := match matched with m :: _ => Nat.eqb c m | [] => false end in
          do sub <- (if 0 <? child_nodes_length k c then dfs_all k f g c else Ok []);
          do rest <- walk cs' (if hit then tl matched else matched);
          Ok ((if hit then [c] else []) ++ sub ++ rest)
      end.
  Lemma fw_unfold (k : heap) g f x : dfs_all k (S f) g x = if nonempty (children k x) then do matched <- g (children k x) (Some false); fw_walk f k g (children k x) matched else Ok [].
  Proof. reflexivity. Qed.
  Lemma fw_walk_cons (k : heap) g f c cs matched : fw_walk f k g (c :: cs) matched =
    do sub <- (if 0 <? child_nodes_length k c then dfs_all k f g c else Ok []);
    do rest <- fw_walk f k g cs (if match matched with m :: _ => Nat.eqb c m | [] => false end then tl matched else matched);
    Ok ((if match matched with m :: _ => Nat.eqb c m | [] => false end then [c] else []) ++ sub ++ rest).
  Proof. reflexivity. Qed.
  Lemma fw_dfs_all g' g : (forall els uc, Forall Q els -> g' els uc = g els uc /\ Pq (g els uc)) -> forall f x, P x -> dfs_all h' f g' x = dfs_all h f g x /\ Pq (dfs_all h f g x).
  Proof.
    intros Hg. induction f as [|f IH]; intros x H; [split; [reflexivity | apply post_fuel]|]. rewrite !fw_unfold, (fw_children x H). pose proof (fw_kids_Q x H) as HK.
    destruct (nonempty (children h x)); [|split; [reflexivity | apply post_ok; constructor]]. rewrite (proj1 (Hg _ (Some false) HK)).
    destruct (g (children h x) (Some false)) as [matched| |]; cbn [rbind]; [|split; [reflexivity | apply post_panic] | split; [reflexivity | apply post_fuel]].
    revert matched. induction HK as [|c cs Hc _ IHc]; intros matched; [split; [reflexivity | apply post_ok; constructor]|]. rewrite !fw_walk_cons.
    destruct (IH c (QP c Hc)) as [E1 E2]. rewrite (fw_length c (QP c Hc)), E1.
    destruct (IHc (if match matched with m :: _ => Nat.eqb c m | [] => false end then tl matched else matched)) as [E3 E4]. rewrite E3. split; [reflexivity|].
    apply (post_bind (Forall Q)); [destruct (0 <? child_nodes_length h c); [exact E2 | apply post_ok; constructor]|]. intros sub Hs.
    apply (post_bind (Forall Q)); [exact E4|]. intros rest Hr. apply post_ok. apply Forall_app. split; [|apply Forall_app; split; assumption].
    destruct (match matched with m :: _ => Nat.eqb c m | [] => false end); repeat (constructor; try assumption).
  Qed.
  Lemma fw_dfs m' m x : AQ m' m -> P x -> dfs h' m' x = dfs h m x /\ Pq (dfs h m x).
  Proof.
    intros A H. unfold dfs, dfs_fuel. assert (EL : length h' = length h) by apply drop_length. rewrite EL.
    pose proof (aq_all _ _ A) as HA. pose proof (aq_one _ _ A) as HO. pose proof (aq_spec _ _ A) as HS.
    destruct (mt_one m') as [g'|], (mt_one m) as [g|]; try contradiction; [exact (fw_dfs_one g' g HO _ x H)|].
    destruct (mt_spec m') as [g'|], (mt_spec m) as [g|]; try contradiction; [exact (fw_dfs_spec g' g HS _ x H)|]. unfold get_all_handle.
    destruct (mt_all m') as [g'|], (mt_all m) as [g|]; try contradiction; [exact (fw_dfs_all g' g HA _ x H) | split; [reflexivity | apply post_panic]].
  Qed.
  Definition prekey (e : list nat * id) : list nat * id := (pre ++ fst e, snd e).
  Lemma fw_starts els : Forall P els -> search_starts h' els = search_starts h els.
  Proof.
    intros H. unfold search_starts. destruct (1 <? length els); [|reflexivity]. unfold unique_parents.
    assert (G : forall s, rfold (up_step h) els (map prekey s) = do s' <- rfold (up_step h') els s; Ok (map prekey s')).
    { pose proof (drop_wf h wf held docs) as wf'. fold h' in wf'. induction H as [|x els Hx _ IH]; intros s; [reflexivity|]. cbn [rfold]. unfold up_step at 1 3.
      rewrite (tree_indexs_key h wf x), (tree_indexs_key h' wf' x), (keys x Hx). cbn [rbind]. rewrite <- map_rev. destruct (rev s) as [|[top y] s']; cbn [map prekey fst snd].
      - cbn [rbind]. exact (IH [(key h' x, x)]).
      - rewrite relation_app. destruct (relation_of (key h' x) top); cbn [rbind]; try reflexivity; [apply IH|].
        specialize (IH (s ++ [(key h' x, x)])). rewrite map_app in IH. exact IH. }
    specialize (G []). cbn [map] in G. rewrite G. destruct (rfold (up_step h') els []) as [s| |]; cbn [rbind]; [|reflexivity|reflexivity].
    f_equal. rewrite map_map. apply map_ext. intros []. reflexivity.
  Qed.
  Definition preus (s : us_state) : us_state := mkUS (map (app pre) (us_paths s)) (us_prev s) (us_root s) (us_keep s).
  Lemma fw_firsts els : Forall Q els -> unique_sibling_first h' els = unique_sibling_first h els.
  Proof.
    intros H. unfold unique_sibling_first.
    assert (G : forall s, rfold (us_step h) els (preus s) = do s' <- rfold (us_step h') els s; Ok (preus s')).
    { pose proof (drop_wf h wf held docs) as wf'. fold h' in wf'. induction H as [|x els Hx _ IH]; intros s; [reflexivity|]. cbn [rfold]. unfold us_step at 1 3.
      rewrite (fw_parent x Hx). destruct (Qpar x Hx) as (p & E & Hp). rewrite E. cbn [us_prev preus us_paths us_root us_keep].
      destruct (match us_prev s with Some q => Nat.eqb p q | None => false end); cbn [rbind]; [apply IH|].
      rewrite (tree_indexs_key h wf p), (tree_indexs_key h' wf' p), (keys p Hp). cbn [rbind].
      assert (EE : existsb (idx_eqb (pre ++ key h' p)) (map (app pre) (us_paths s)) = existsb (idx_eqb (key h' p)) (us_paths s)).
      { induction (us_paths s) as [|a l IHl]; [reflexivity|]. cbn [map existsb]. rewrite idx_app, IHl. reflexivity. }
      rewrite EE. destruct (existsb (idx_eqb (key h' p)) (us_paths s)); cbn [rbind]; [apply (IH (mkUS (us_paths s) (Some p) (us_root s) (us_keep s)))|].
      apply (IH (mkUS (key h' p :: us_paths s) (Some p) (us_root s) (us_keep s ++ [x]))). }
    specialize (G us_init). change (preus us_init) with us_init in G. rewrite G. destruct (rfold (us_step h') els us_init); reflexivity.
  Qed.
  Lemma fw_nexts x : Q x -> next_element_siblings h' x = next_element_siblings h x /\ Pq (next_element_siblings h x).
  Proof.
    intros H. destruct (Qpar x H) as (p & E & Hp). split; [exact (proj1 (proj2 (drop_sideways h wf held docs x p (QL x H) E (PL p Hp))))|].
    unfold next_element_siblings. rewrite E. apply (post_bind (fun _ => True)); [apply post_any|]. intros _ _. apply post_ok. apply (nodes_Q p); [exact Hp|]. intros y. apply in_skipn.
  Qed.
  (** Downwards from anything, sideways from what was found. *)
  Lemma fw_down els m' m c : AQ m' m -> childish c = true -> Forall P els -> select_by_rule h' els m' c = select_by_rule h els m c /\ Pq (select_by_rule h els m c).
  Proof.
    intros A Hc H. destruct c; try discriminate; cbn [select_by_rule].
    - rewrite (fw_starts els H). split.
      + destruct (search_starts h els) as [st| |] eqn:Es; cbn [rbind]; [|reflexivity|reflexivity]. apply rflat_ext. intros x Hx.
        pose proof (starts_P h P els H st Es) as HS. rewrite Forall_forall in HS. exact (proj1 (fw_dfs m' m x A (HS x Hx))).
      + apply (post_bind (Forall P)); [exact (starts_P h P els H)|]. intros st Hs. apply (post_flat P); [exact Hs|]. intros x Hx. exact (proj2 (fw_dfs m' m x A Hx)).
    - pose proof (aq_all _ _ A) as HA. pose proof (aq_one _ _ A) as HO. pose proof (aq_spec _ _ A) as HS.
      destruct (mt_one m') as [g'|], (mt_one m) as [g|]; try contradiction.
      + split; [|apply (post_flat P); [exact H|]; intros x Hx; apply post_filter; exact (fw_kids_Q x Hx)]. apply rflat_ext. intros x Hx. rewrite Forall_forall in H.
        rewrite (fw_children x (H x Hx)). apply rfilter_ext. intros y Hy. exact (HO y (PK x y (H x Hx) Hy)).
      + destruct (mt_spec m') as [g'|], (mt_spec m) as [g|]; try contradiction.
        * split; [apply rflat_ext; intros x Hx; rewrite Forall_forall in H; rewrite (proj1 (HS x (H x Hx))); reflexivity|]. apply (post_flat P); [exact H|]. intros x Hx.
          apply (post_bind (Forall (fun e : id * bool * bool => Q (fst (fst e))))); [exact (proj2 (HS x Hx))|]. intros calls Hcl. apply post_ok. clear -Hcl.
          induction Hcl as [|[[c b] lc] l Hq _ IH]; [constructor|]. cbn [flat_map]. apply Forall_app. split; [destruct b; repeat constructor; exact Hq | exact IH].
        * unfold get_all_handle. destruct (mt_all m') as [g'|], (mt_all m) as [g|]; try contradiction; cbn [rbind]; [|split; [reflexivity | apply post_panic]]. split.
          -- apply rflat_ext. intros x Hx. rewrite Forall_forall in H. rewrite (fw_children x (H x Hx)). exact (proj1 (HA _ (Some false) (fw_kids_Q x (H x Hx)))).
          -- apply (post_flat P); [exact H|]. intros x Hx. exact (proj2 (HA _ (Some false) (fw_kids_Q x Hx))).
  Qed.
  Lemma fw_side els m' m c : AQ m' m -> fwd c = true \/ c = Chain -> Forall Q els -> select_by_rule h' els m' c = select_by_rule h els m c /\ Pq (select_by_rule h els m c).
  Proof.
    intros A Hc H. destruct (childish c) eqn:Ec; [exact (fw_down els m' m c A Ec (Forall_impl _ QP H))|].
    destruct c; try discriminate; try (destruct Hc as [Hc|Hc]; discriminate); cbn [select_by_rule].
    - rewrite (fw_firsts els H). split.
      + destruct (unique_sibling_first h els) as [us| |] eqn:Eu; cbn [rbind]; [|reflexivity|reflexivity]. pose proof (usf_P h Q els H us Eu) as HU. apply rflat_ext. intros x Hx.
        rewrite Forall_forall in HU. destruct (fw_nexts x (HU x Hx)) as [E1 E2]. rewrite E1. destruct (next_element_siblings h x) as [ns| |]; cbn [rbind]; [|reflexivity|reflexivity].
        exact (proj1 (fw_apply m' m ns A (E2 ns eq_refl))).
      + apply (post_bind (Forall Q)); [exact (usf_P h Q els H)|]. intros us Hu. apply (post_flat Q); [exact Hu|]. intros x Hx.
        apply (post_bind (Forall Q)); [exact (proj2 (fw_nexts x Hx))|]. intros ns Hn. exact (proj2 (fw_apply m' m ns A Hn)).
    - assert (EN : flat_map (fun x => opt_list (next_element_sibling h' x)) els = flat_map (fun x => opt_list (next_element_sibling h x)) els /\
        Forall Q (flat_map (fun x => opt_list (next_element_sibling h x)) els)).
      { induction H as [|x els Hx _ [IH1 IH2]]; [split; [reflexivity | constructor]|]. cbn [flat_map]. destruct (fw_next x Hx) as [E1 E2]. rewrite E1, IH1. split; [reflexivity|].
        apply Forall_app. split; assumption. }
      destruct EN as [EN HN]. rewrite EN. pose proof (fw_apply m' m _ A HN) as HP. pose proof (aq_one _ _ A) as HO.
      destruct (mt_one m') as [g'|], (mt_one m) as [g|]; try contradiction; [|exact HP]. split; [|exact (post_filter Q g _ HN)].
      apply rfilter_ext. intros x Hx. rewrite Forall_forall in HN. exact (HO x (HN x Hx)).
    - exact (fw_apply m' m els A H).
  Qed.
  Lemma fw_chain : forall rs' rs, Forall2 AQS rs' rs -> Forall (fun s => snd s = Chain) rs -> forall els, Forall Q els ->
    chain_rest h' els rs' = chain_rest h els rs /\ Pq (chain_rest h els rs).
  Proof.
    intros rs' rs H. induction H as [|[m' c'] [m c] rs' rs [Hm Ec] HR IH]; intros HC els HL; [split; [reflexivity | apply post_ok; exact HL]|].
    cbn in Hm, Ec. subst c'. pose proof (Forall_inv HC) as Hc. cbn in Hc. subst c. cbn [chain_rest].
    destruct (nonempty els); [|split; [reflexivity | apply post_ok; exact HL]].
    destruct (fw_side els m' m Chain Hm (or_intror eq_refl) HL) as [E1 E2]. rewrite E1.
    destruct (select_by_rule h els m Chain) as [l| |]; cbn [rbind]; [|split; [reflexivity | apply post_panic] | split; [reflexivity | apply post_fuel]].
    exact (IH (Forall_inv_tail HC) l (E2 l eq_refl)).
  Qed.

  (** * Compounds and groups *)
  Lemma wf_fwd (cp : list (rule * comb)) : comp_wf cp = true -> fwd (comp_comb cp) = true.
  Proof. destruct cp as [|[r c] l]; [discriminate|]. cbn. intros H. apply andb_true_iff in H. apply H. Qed.
  Definition RAQ (r : rule) : Prop := AQ (compile h' text_of by_id r) (compile h text_of by_id r).
  Definition CAQ (cp : list (rule * comb)) : Prop := forall r c, In (r, c) cp -> RAQ r.
  Lemma fw_shape cp : CAQ cp -> comp_wf cp = true -> exists m' m rest' rest,
    optimize_compound (compile_comp h' text_of by_id cp) = (m', comp_comb cp) :: rest' /\ optimize_compound (compile_comp h text_of by_id cp) = (m, comp_comb cp) :: rest /\
    AQ m' m /\ Forall2 AQS rest' rest /\ Forall (fun s => snd s = Chain) rest.
  Proof.
    intros Ho Hw. assert (HA : Forall2 AQS (optimize_compound (compile_comp h' text_of by_id cp)) (optimize_compound (compile_comp h text_of by_id cp))).
    { apply aq_optimize. clear Hw. induction cp as [|[r c] l IH]; [constructor|].
      constructor; [split; [exact (Ho r c (or_introl eq_refl)) | reflexivity] | exact (IH (fun r0 c0 H0 => Ho r0 c0 (or_intror H0)))]. }
    pose proof Hw as Hw2. rewrite <- (comp_wf_map h text_of by_id) in Hw2. destruct (optimize_compound_wf _ Hw2) as (H1 & H2 & _).
    destruct HA as [|[m' c'] [m c] rest' rest [Hm Ec] HR]; [discriminate|]. cbn in Hm, Ec. subst c'. cbn in H2.
    assert (E : c = comp_comb cp) by (rewrite H2; clear; destruct cp as [|[r0 c0] l]; reflexivity). subst c.
    exists m', m, rest', rest. do 2 (split; [rewrite <- E; reflexivity|]). split; [exact Hm|]. split; [exact HR|].
    cbn in H1. apply andb_true_iff in H1. destruct H1 as [_ H1]. apply Forall_forall. intros [ms cs] Hs. rewrite forallb_forall in H1.
    specialize (H1 _ Hs). cbn in *. destruct cs; try discriminate. reflexivity.
  Qed.

  Local Notation opt k cp := (optimize_compound (compile_comp k text_of by_id cp)).
  (** * One compound at a time on what was found *)
  Lemma fw_process cp els root : CAQ cp -> comp_wf cp = true -> Forall Q els ->
    filter_process h' els root (mkProcess None [opt h' cp]) = filter_process h els root (mkProcess None [opt h cp]) /\
    Post (fun r => Forall Q (fst r)) (filter_process h els root (mkProcess None [opt h cp])).
  Proof.
    intros Ho Hw HL. destruct (fw_shape cp Ho Hw) as (m' & m & rest' & rest & -> & -> & Hm & HR & Hch). unfold filter_process. cbn [query rev app rnth nth_error rbind fst snd tl].
    destruct (fw_side els m' m Chain Hm (or_intror eq_refl) HL) as [E1 E2]. rewrite E1.
    destruct (select_by_rule h els m Chain) as [l| |]; cbn [rbind]; [|split; [reflexivity | apply post_panic] | split; [reflexivity | apply post_fuel]].
    destruct (fw_chain rest' rest HR Hch l (E2 l eq_refl)) as [E3 E4]. rewrite E3.
    destruct (chain_rest h l rest) as [l'| |]; cbn [rbind]; [|split; [reflexivity | apply post_panic] | split; [reflexivity | apply post_fuel]].
    specialize (E4 l' eq_refl). destruct l' as [|x l']; (split; [reflexivity | apply post_ok; exact E4]).
  Qed.
  Local Notation procs k cps := (map (fun cp => mkProcess None [opt k cp]) cps).
  Lemma fw_loop els mode : Forall Q els -> forall cps, (forall cp, In cp cps -> CAQ cp /\ comp_wf cp = true) -> forall root acc, Forall Q acc ->
    filter_loop h' els mode root acc (procs h' cps) = filter_loop h els mode root acc (procs h cps).
  Proof.
    intros HL. induction cps as [|cp cps IH]; intros Hc root acc Ha; [reflexivity|]. destruct (Hc cp (or_introl eq_refl)) as [Ho Hw]. pose proof (fun cp0 H0 => Hc cp0 (or_intror H0)) as Hc'. clear Hc. rename Hc' into Hc. cbn [map filter_loop].
    destruct (fw_process cp els root Ho Hw HL) as [E1 E2]. rewrite E1.
    destruct (filter_process h els root (mkProcess None [opt h cp])) as [[g rt]| |]; cbn [rbind]; [|reflexivity|reflexivity]. specialize (E2 _ eq_refl). cbn [fst] in E2.
    destruct (nonempty g); [|exact (IH Hc rt acc Ha)]. destruct mode; [reflexivity|]. rewrite (same_add acc g (Forall_impl _ QP Ha) (Forall_impl _ QP E2)).
    destruct (add h acc g) as [acc'| |] eqn:Ea; cbn [rbind]; [|reflexivity|reflexivity]. exact (IH Hc rt acc' (add_P h Q acc g Ha E2 acc' Ea)).
  Qed.
  Lemma fw_handle els cps t : (forall cp, In cp cps -> CAQ cp /\ comp_wf cp = true) -> Forall Q els -> filter_type_handle h' els (procs h' cps) t = filter_type_handle h els (procs h cps) t.
  Proof. intros Hc HL. unfold filter_type_handle. rewrite (fw_loop els _ HL cps Hc None [] (Forall_nil _)). reflexivity. Qed.
  Lemma fw_has_loop cps : (forall cp, In cp cps -> CAQ cp /\ comp_wf cp = true) -> forall f x, P x -> has_loop h' f (procs h' cps) x = has_loop h f (procs h cps) x.
  Proof.
    intros Hc. induction f as [|f IH]; intros x H; [reflexivity|]. cbn [has_loop]. rewrite (fw_children x H), (fw_handle _ cps FIs Hc (fw_kids_Q x H)).
    destruct (nonempty (children h x)); [|reflexivity]. destruct (filter_type_handle h (children h x) (procs h cps) FIs) as [r| |]; cbn [rbind]; [|reflexivity|reflexivity].
    destruct (snd r); [reflexivity|]. apply rexists_ext. intros c Hcc. apply IH. exact (QP c (PK x c H Hcc)).
  Qed.
  (** * Every rule that sees only what is left *)
  Lemma fw_nested (gs : ast) : (forall g, In g gs -> exists cp, g = [cp]) -> exists cps, gs = map (fun cp => [cp]) cps.
  Proof.
    induction gs as [|g gs IH]; intros H; [exists []; reflexivity|]. destruct (H g (or_introl eq_refl)) as (cp & ->). destruct (IH (fun g0 H0 => H g0 (or_intror H0))) as (cps & ->).
    exists (cp :: cps). reflexivity.
  Qed.
  Lemma fw_inner (gs : ast) : (forall r, InAst r gs -> seen_rule r = true -> RAQ r) ->
    forallb (fun g => match g with [cp] => comp_wf cp && forallb (fun e : rule * comb => let '(r', _) := e in seen_rule r') cp | _ => false end) gs = true ->
    exists cps, gs = map (fun cp => [cp]) cps /\ forall cp, In cp cps -> CAQ cp /\ comp_wf cp = true.
  Proof.
    intros IH H. rewrite forallb_forall in H. destruct (fw_nested gs) as (cps & ->).
    - intros g Hg. specialize (H g Hg). destruct g as [|cp [|? ?]]; try discriminate. exists cp. reflexivity.
    - exists cps. split; [reflexivity|]. intros cp Hc. assert (Hg : In [cp] (map (fun cp => [cp]) cps)) by (apply in_map_iff; exists cp; split; [reflexivity | exact Hc]).
      specialize (H [cp] Hg). apply andb_true_iff in H. destruct H as [H1 H2]. split; [|exact H1]. intros r c Hr. rewrite forallb_forall in H2.
      apply IH; [exists [cp], cp, c; split; [exact Hg|]; split; [left; reflexivity | exact Hr] | exact (H2 (r, c) Hr)].
  Qed.
  Lemma compiled_inner (k : heap) cps :
    optimize false (map (map (map (fun e : rule * comb => let '(r', c) := e in (compile k text_of by_id r', c)))) (map (fun cp => [cp]) cps)) = procs k cps.
  Proof. exact (compiled_all text_of by_id k false cps). Qed.
  Lemma not_in_Q els l : Forall Q els -> Forall Q (not_in els l).
  Proof.
    intros H. unfold not_in. generalize 0. induction H as [|x els Hx _ IH]; intros n; [constructor|]. cbn [not_in_from]. destruct (index_of l x n); [apply IH | constructor; [exact Hx | apply IH]].
  Qed.
  Lemma fw_loop_Q els mode : Forall Q els -> forall cps, (forall cp, In cp cps -> CAQ cp /\ comp_wf cp = true) -> forall root acc, Forall Q acc ->
    Post (fun r : list id * bool => Forall Q (fst r)) (filter_loop h els mode root acc (procs h cps)).
  Proof.
    intros HL. induction cps as [|cp cps IH]; intros Hc root acc Ha; [apply post_ok; exact Ha|]. destruct (Hc cp (or_introl eq_refl)) as [Ho Hw]. cbn [map filter_loop].
    apply (post_bind (fun r : list id * option id => Forall Q (fst r))); [exact (proj2 (fw_process cp els root Ho Hw HL))|]. intros [g rt] Hg. cbn [fst] in Hg.
    pose proof (fun cp0 H0 => Hc cp0 (or_intror H0)) as Hc'. destruct (nonempty g); [|exact (IH Hc' rt acc Ha)]. destruct mode; [apply post_ok; exact Ha|].
    apply (post_bind (Forall Q)); [exact (add_P h Q acc g Ha Hg)|]. intros acc' Ha'. exact (IH Hc' rt acc' Ha').
  Qed.
  Lemma fw_handle_Q els cps t : (forall cp, In cp cps -> CAQ cp /\ comp_wf cp = true) -> Forall Q els ->
    Post (fun r : list id * bool => Forall Q (fst r)) (filter_type_handle h els (procs h cps) t).
  Proof.
    intros Hc HL. unfold filter_type_handle. apply (post_bind (fun r : list id * bool => Forall Q (fst r))); [exact (fw_loop_Q els _ HL cps Hc None [] (Forall_nil _))|].
    intros [l b] Hl. cbn [fst] in Hl. apply post_ok. destruct t; cbn [fst]; try exact Hl. destruct (nonempty l); [exact (not_in_Q els l HL) | exact HL].
  Qed.
  Lemma aq_rule : forall r, seen_rule r = true -> RAQ r.
  Proof.
    apply (rule_sub_ind (fun r => seen_rule r = true -> RAQ r)). intros r IH H. unfold RAQ.
    assert (HN : forall cps, (forall cp, In cp cps -> CAQ cp /\ comp_wf cp = true) -> forall els, Forall Q els ->
      (not_sel h' els (procs h' cps) = not_sel h els (procs h cps) /\ Pq (not_sel h els (procs h cps))) /\
      (filter_sel h' els (procs h' cps) = filter_sel h els (procs h cps) /\ Pq (filter_sel h els (procs h cps))) /\
      (has_sel h' els (procs h' cps) = has_sel h els (procs h cps) /\ Pq (has_sel h els (procs h cps)))).
    { intros cps Hc els HL. unfold not_sel, filter_sel, has_sel. rewrite !(fw_handle els cps _ Hc HL). split; [|split]; (split; [try reflexivity|]).
      - destruct (nonempty els); [|apply post_ok; constructor]. apply (post_bind (fun r : list id * bool => Forall Q (fst r))); [exact (fw_handle_Q els cps FNot Hc HL)|].
        intros x Hx. apply post_ok. exact Hx.
      - destruct (nonempty els); [|apply post_ok; constructor]. apply (post_bind (fun r : list id * bool => Forall Q (fst r))); [exact (fw_handle_Q els cps FFilter Hc HL)|].
        intros x Hx. apply post_ok. exact Hx.
      - unfold dfs_fuel. assert (EL : length h' = length h) by apply drop_length. rewrite EL. apply rfilter_ext. intros x Hx. rewrite Forall_forall in HL.
        exact (fw_has_loop cps Hc _ x (QP x (HL x Hx))).
      - apply post_filter. exact HL. }
    destruct r as [| | | | | | | | | | | | |n| |n| |gs]; try (apply aq_own; exact H); try (apply aq_place; exact H); try discriminate H.
    - destruct n as [gs| |]; constructor; cbn [compile all mt_prio mt_cache mt_one mt_all mt_spec]; try exact I; try reflexivity; try (split; reflexivity); intros els uc He; unfold nested_apply;
        [|destruct (nonempty els); cbn [rbind]; (split; [reflexivity | apply post_ok; constructor])
         |destruct (nonempty els); cbn [rbind]; [split; [reflexivity | apply post_panic] | split; [reflexivity | apply post_ok; constructor]]].
      destruct (fw_inner gs IH H) as (cps & -> & Hc). rewrite !compiled_inner. destruct (nonempty els); cbn [rbind]; [exact (proj1 (HN cps Hc els He)) | split; [reflexivity | apply post_ok; constructor]].
    - destruct n as [gs| |]; constructor; cbn [compile all mt_prio mt_cache mt_one mt_all mt_spec]; try exact I; try reflexivity; try (split; reflexivity); intros els uc He; unfold nested_apply;
        [|destruct (nonempty els); cbn [rbind]; (split; [reflexivity | apply post_ok; constructor])
         |destruct (nonempty els); cbn [rbind]; [split; [reflexivity | apply post_panic] | split; [reflexivity | apply post_ok; constructor]]].
      destruct (fw_inner gs IH H) as (cps & -> & Hc). rewrite !compiled_inner. destruct (nonempty els); cbn [rbind]; [exact (proj2 (proj2 (HN cps Hc els He))) | split; [reflexivity | apply post_ok; constructor]].
    - constructor; cbn [compile one mt_prio mt_cache mt_one mt_all mt_spec]; try exact I; try reflexivity; try (split; reflexivity). exact fw_checked.
    - constructor; cbn [compile all mt_prio mt_cache mt_one mt_all mt_spec]; try exact I; try reflexivity; try (split; reflexivity). intros els uc He.
      destruct (fw_inner gs IH H) as (cps & -> & Hc). rewrite !compiled_inner. exact (proj1 (proj2 (HN cps Hc els He))).
  Qed.
  Lemma fw_seen cp : comp_seen cp = true -> CAQ cp.
  Proof. intros H r c Hr. unfold comp_seen in H. rewrite forallb_forall in H. exact (aq_rule r (H (r, c) Hr)). Qed.
  Lemma fw_each_seen cps : one_each cps = true -> forall cp, In cp cps -> CAQ cp /\ comp_wf cp = true.
  Proof.
    intros H cp Hc. unfold one_each in H. rewrite forallb_forall in H. specialize (H cp Hc). apply andb_true_iff in H. split; [exact (fw_seen cp (proj1 H)) | exact (proj2 H)].
  Qed.
  Theorem fw_filters els cps : one_each cps = true -> Forall Q els -> let gs := map (fun cp => [cp]) cps in
    filter_ast h' text_of by_id els gs = filter_ast h text_of by_id els gs /\ not_ast h' text_of by_id els gs = not_ast h text_of by_id els gs /\
    is_ast h' text_of by_id els gs = is_ast h text_of by_id els gs /\ is_all_ast h' text_of by_id els gs = is_all_ast h text_of by_id els gs.
  Proof.
    intros Hc HL gs. pose proof (fw_each_seen cps Hc) as Hc'. clear Hc. rename Hc' into Hc. unfold filter_ast, not_ast, is_ast, is_all_ast, gs. rewrite !(compiled_all text_of by_id). unfold filter_sel, not_sel, is_sel, is_all_sel.
    rewrite !(fw_handle els cps _ Hc HL). repeat split.
  Qed.
  Theorem fw_has els cps : one_each cps = true -> Forall P els -> let gs := map (fun cp => [cp]) cps in
    has_ast h' text_of by_id els gs = has_ast h text_of by_id els gs.
  Proof.
    intros Hc HL gs. pose proof (fw_each_seen cps Hc) as Hc'. clear Hc. rename Hc' into Hc. unfold has_ast, gs. rewrite !(compiled_all text_of by_id). unfold has_sel, dfs_fuel. assert (EL : length h' = length h) by apply drop_length. rewrite EL.
    apply rfilter_ext. intros x Hx. rewrite Forall_forall in HL. exact (fw_has_loop cps Hc _ x (HL x Hx)).
  Qed.
  (** * Groups walked forwards *)
  Lemma fw_select els cp o : comp_seen cp = true -> comp_wf cp = true ->
    (let c := match o with Some c => c | None => comp_comb cp end in childish c = true /\ Forall P els \/ fwd c = true /\ Forall Q els) ->
    select h' els (opt h' cp) o = select h els (opt h cp) o /\ Pq (select h els (opt h cp) o).
  Proof.
    intros Ho Hw HC. destruct (fw_shape cp (fw_seen cp Ho) Hw) as (m' & m & rest' & rest & -> & -> & Hm & HR & Hch). unfold select. cbn [rnth nth_error rbind tl].
    destruct (aq_cache _ _ Hm) as [-> ->]. cbn [andb]. set (c := match o with Some c => c | None => comp_comb cp end) in *. cbv zeta in HC.
    assert (ES : select_by_rule h' els m' c = select_by_rule h els m c /\ Pq (select_by_rule h els m c)).
    { destruct HC as [[Hc HL] | [Hc HL]]; [exact (fw_down els m' m c Hm Hc HL) | exact (fw_side els m' m c Hm (or_introl Hc) HL)]. }
    destruct ES as [E1 E2]. rewrite E1. destruct (select_by_rule h els m c) as [l| |]; cbn [rbind]; [|split; [reflexivity | apply post_panic] | split; [reflexivity | apply post_fuel]].
    exact (fw_chain rest' rest HR Hch l (E2 l eq_refl)).
  Qed.
  Lemma fw_rest : forall g, forallb comp_seen g = true -> forallb comp_wf g = true -> forall els, Forall Q els ->
    query_rest h' els (group_of h' text_of by_id g) = query_rest h els (group_of h text_of by_id g) /\
    Post (fun o => forall l, o = Some l -> Forall Q l) (query_rest h els (group_of h text_of by_id g)).
  Proof.
    induction g as [|cp g IH]; intros Ho Hw els HL; [split; [reflexivity | apply post_ok; intros l E; injection E as <-; exact HL]|].
    cbn in Ho, Hw. apply andb_true_iff in Ho, Hw. destruct Ho as [Ho1 Ho2], Hw as [Hw1 Hw2]. cbn [group_of map query_rest].
    destruct (fw_select els cp None Ho1 Hw1 (or_intror (conj (wf_fwd cp Hw1) HL))) as [E1 E2]. rewrite E1.
    destruct (select h els (opt h cp) None) as [l| |]; cbn [rbind]; [|split; [reflexivity | apply post_panic] | split; [reflexivity | apply post_fuel]].
    destruct (nonempty l); [exact (IH Ho2 Hw2 l (E2 l eq_refl)) | split; [reflexivity | apply post_ok; discriminate]].
  Qed.
  Lemma fw_group g x : group_forward g = true -> P x ->
    let p k := optimize_group true (map (map (fun e : rule * comb => let '(r', c) := e in (compile k text_of by_id r', c))) g) in
    find_process h' [x] (p h') = find_process h [x] (p h) /\ Pq (find_process h [x] (p h)).
  Proof.
    intros Hg Hx p. unfold group_forward in Hg. rewrite !andb_true_iff in Hg. destruct Hg as (((Hg & Ho) & Hn) & Hc). apply negb_true_iff in Hn.
    unfold group_wf in Hg. apply andb_true_iff in Hg. destruct Hg as [_ Hw]. unfold p. rewrite !(group_lookup _ text_of by_id g Hw), Hn.
    destruct g as [|cp g]; [discriminate|]. cbn in Ho, Hw. apply andb_true_iff in Ho, Hw. destruct Ho as [Ho1 Ho2], Hw as [Hw1 Hw2].
    unfold find_process, find_first. cbn [query should_in group_of map rnth nth_error rbind tl].
    destruct (fw_select [x] cp None Ho1 Hw1 (or_introl (conj Hc (Forall_cons x Hx (Forall_nil _))))) as [E1 E2]. rewrite E1.
    destruct (select h [x] (opt h cp) None) as [l| |]; cbn [rbind]; [|split; [reflexivity | apply post_panic] | split; [reflexivity | apply post_fuel]].
    destruct (nonempty l); [|split; [reflexivity | apply post_ok; constructor]]. destruct (fw_rest g Ho2 Hw2 l (E2 l eq_refl)) as [E3 E4]. unfold group_of in E3, E4. rewrite E3.
    split; [reflexivity|]. eapply post_bind; [exact E4|]. intros [l'|] H; apply post_ok; [exact (H l' eq_refl) | constructor].
  Qed.
  Definition alike_at (x : id) (g : list (list (rule * comb))) : Prop :=
    let p k := optimize_group true (map (map (fun e : rule * comb => let '(r', c) := e in (compile k text_of by_id r', c))) g) in
    find_process h' [x] (p h') = find_process h [x] (p h) /\ Pq (find_process h [x] (p h)).
  Lemma fw_fold gs x : Forall (alike_at x) gs -> find_ast h' text_of by_id [x] gs = find_ast h text_of by_id [x] gs.
  Proof.
    intros Hg. unfold find_ast, find_selector, compile_selector, optimize, compile_groups. cbn [nonempty]. rewrite !map_map.
    assert (G : forall l, Forall (alike_at x) l -> forall acc, Forall Q acc ->
      rfold (fun result p => do group <- find_process h' [x] p; if nonempty group then add h' result group else Ok result)
        (map (fun g => optimize_group true (map (map (fun e : rule * comb => let '(r', c) := e in (compile h' text_of by_id r', c))) g)) l) acc =
      rfold (fun result p => do group <- find_process h [x] p; if nonempty group then add h result group else Ok result)
        (map (fun g => optimize_group true (map (map (fun e : rule * comb => let '(r', c) := e in (compile h text_of by_id r', c))) g)) l) acc).
    { induction l as [|g l IH]; intros Hl acc Ha; [reflexivity|]. inversion Hl as [|g0 l0 H1 H2]; subst. cbn [map rfold].
      destruct H1 as [E1 E2]. rewrite E1. clear E1. match type of E2 with Post _ ?e => destruct e as [r| |] end; cbn [rbind]; [|reflexivity|reflexivity].
      specialize (E2 r eq_refl). destruct (nonempty r); [|exact (IH H2 acc Ha)]. rewrite (same_add acc r (Forall_impl _ QP Ha) (Forall_impl _ QP E2)).
      destruct (add h acc r) as [acc'| |] eqn:Ea; cbn [rbind]; [|reflexivity|reflexivity]. exact (IH H2 acc' (add_P h Q acc r Ha E2 acc' Ea)). }
    exact (G gs Hg [] (Forall_nil _)).
  Qed.
  Theorem fw_find gs x : forallb group_forward gs = true -> P x -> find_ast h' text_of by_id [x] gs = find_ast h text_of by_id [x] gs.
  Proof.
    intros Hg Hx. apply fw_fold. apply Forall_forall. intros g Hi. rewrite forallb_forall in Hg. exact (fw_group g x (Hg g Hi) Hx).
  Qed.

End Forward.
