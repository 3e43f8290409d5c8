(** A search never leaves a set of nodes closed under children and parents, and reports only for its members. *)
From Verif Require Import Base Attr Dom Order Sets Mutate Engine Rules Parse Query SelBool Total Reports ReportsProofs.

(** A rule with a text that is no selector, at any depth. *)
Inductive Bad : rule -> Prop :=
| Bad_not : Bad (RNot NErr)
| Bad_has : Bad (RHas NErr)
| Bad_in rl rl' : InAst rl' (rule_sub rl) -> Bad rl' -> Bad rl.

Definition Post {A} (R : A -> Prop) (e : res A) : Prop := forall a, e = Ok a -> R a.
Lemma post_ok {A} (R : A -> Prop) a : R a -> Post R (Ok a).
Proof. intros H b E. injection E as <-. exact H. Qed.
Lemma post_bind {A B} (R : A -> Prop) (T : B -> Prop) e (f : A -> res B) : Post R e -> (forall a, R a -> Post T (f a)) -> Post T (rbind e f).
Proof. intros H G b E. apply rbind_ok in E as (a & Ea & Ef). exact (G a (H a Ea) b Ef). Qed.
Lemma post_any {A} (e : res A) : Post (fun _ => True) e.
Proof. intros a _. exact I. Qed.
Lemma post_panic {A} (R : A -> Prop) : Post R Panic.
Proof. intros a E. discriminate. Qed.
Lemma post_fuel {A} (R : A -> Prop) : Post R OutOfFuel.
Proof. intros a E. discriminate. Qed.
Lemma post_impl {A} (R T : A -> Prop) e : (forall a, R a -> T a) -> Post R e -> Post T e.
Proof. intros H G a E. exact (H a (G a E)). Qed.
Lemma post_flat {A B} (R : A -> Prop) (T : B -> Prop) (f : A -> res (list B)) l : Forall R l -> (forall x, R x -> Post (Forall T) (f x)) -> Post (Forall T) (rflat f l).
Proof.
  intros Hl H. induction Hl as [|x l Hx Hl IH]; [apply post_ok; constructor|]. cbn [rflat]. apply (post_bind (Forall T)); [exact (H x Hx)|]. intros a Ha.
  apply (post_bind (Forall T)); [exact IH|]. intros b Hb. apply post_ok. apply Forall_app. auto.
Qed.
Lemma post_filter {A} (R : A -> Prop) (g : A -> res bool) l : Forall R l -> Post (Forall R) (rfilter g l).
Proof.
  intros Hl. induction Hl as [|x l Hx Hl IH]; [apply post_ok; constructor|]. cbn [rfilter]. apply (post_bind (fun _ => True)); [apply post_any|]. intros b _.
  apply (post_bind (Forall R)); [exact IH|]. intros ys Hy. apply post_ok. destruct b; [constructor|]; assumption.
Qed.
Lemma post_mapl {A B} (R : A -> Prop) (T : B -> Prop) (f : A -> res B) l : Forall R l -> (forall x, R x -> Post T (f x)) -> Post (Forall T) (rmapl f l).
Proof.
  intros Hl H. induction Hl as [|x l Hx Hl IH]; [apply post_ok; constructor|]. cbn [rmapl]. apply (post_bind T); [exact (H x Hx)|]. intros a Ha.
  apply (post_bind (Forall T)); [exact IH|]. intros b Hb. apply post_ok. constructor; assumption.
Qed.
Lemma post_fold {A B} (R : A -> Prop) (T : B -> Prop) (f : B -> A -> res B) l : Forall R l -> (forall b x, T b -> R x -> Post T (f b x)) -> forall b, T b -> Post T (rfold f l b).
Proof.
  intros Hl H. induction Hl as [|x l Hx Hl IH]; intros b Hb; [apply post_ok; exact Hb|]. cbn [rfold]. apply (post_bind T); [exact (H b x Hb Hx) | exact IH].
Qed.
Lemma post_nth {A} (R : A -> Prop) l i : Forall R l -> Post R (rnth l i).
Proof. intros Hl a E. unfold rnth in E. destruct (nth_error l i) eqn:En; [|discriminate]. injection E as <-. rewrite Forall_forall in Hl. exact (Hl _ (nth_error_In _ _ En)). Qed.

Section Stay.
  Variable h : heap.
  Variable P : id -> Prop.
  Variable Q : id -> Prop.
  Hypothesis down : forall x y, P x -> In y (children h x) -> P y.
  Hypothesis up : forall x p, P x -> parent h x = Some p -> P p.
  Notation In_P := (Forall P).
  Notation Pl := (Post (Forall P)).

  Lemma sub_P l m : In_P l -> (forall x, In x m -> In x l) -> In_P m.
  Proof. apply forall_sub. Qed.
  Lemma kids_P x : P x -> In_P (children h x).
  Proof. intros H. apply Forall_forall. intros y. apply down. exact H. Qed.
  Lemma nodes_P p m : P p -> (forall x, In x m -> In x (kids h p)) -> In_P (filter (is_element h) m).
  Proof.
    intros H Hm. apply Forall_forall. intros y Hy. apply filter_In in Hy as [Hy He]. apply (down p); [exact H|]. unfold children. apply filter_In. auto.
  Qed.
  Lemma in_first {A} n (l : list A) x : In x (firstn n l) -> In x l.
  Proof. apply in_firstn. Qed.
  Lemma opt_P (o : option id) l : In_P l -> o = hd_error l -> In_P (opt_list o).
  Proof. intros H ->. destruct H; cbn; [constructor|]. constructor; [assumption | constructor]. Qed.
  Lemma next_P x : P x -> In_P (opt_list (next_element_sibling h x)).
  Proof.
    intros H. unfold next_element_sibling. destruct (parent h x) as [p|] eqn:Ep; [|constructor].
    eapply opt_P; [|reflexivity]. apply (nodes_P p); [exact (up x p H Ep)|]. intros y. apply in_skipn.
  Qed.
  Lemma nexts_P x : P x -> Pl (next_element_siblings h x).
  Proof.
    intros H. unfold next_element_siblings. destruct (parent h x) as [p|] eqn:Ep; [|apply post_ok; constructor].
    apply (post_bind (fun _ => True)); [apply post_any|]. intros _ _. apply post_ok. apply (nodes_P p); [exact (up x p H Ep)|]. intros y. apply in_skipn.
  Qed.
  Lemma prev_P x : P x -> Post (fun o => In_P (opt_list o)) (previous_element_sibling h x).
  Proof.
    intros H. unfold previous_element_sibling. destruct (parent h x) as [p|] eqn:Ep; [|apply post_ok; constructor].
    destruct (index h x <=? length (kids h p)); [|apply post_panic]. apply post_ok. eapply opt_P; [|reflexivity]. apply (nodes_P p); [exact (up x p H Ep)|].
    intros y Hy. apply in_rev in Hy. exact (in_firstn _ _ _ Hy).
  Qed.
  Lemma prevs_P x : P x -> Pl (previous_element_siblings h x).
  Proof.
    intros H. unfold previous_element_siblings. destruct (parent h x) as [p|] eqn:Ep; [|apply post_ok; constructor].
    destruct (index h x <=? length (kids h p)); [|apply post_panic]. apply post_ok. apply (nodes_P p); [exact (up x p H Ep)|]. intros y. apply in_firstn.
  Qed.
  Lemma sibs_P x : P x -> Pl (siblings h x).
  Proof.
    intros H. unfold siblings. destruct (parent h x) as [p|] eqn:Ep; [|apply post_ok; constructor]. destruct (Nat.eqb (index h x) 0); [exact (nexts_P x H)|].
    apply (post_bind (fun _ => True)); [apply post_any|]. intros k _. destruct (Nat.eqb (index h x) k); [exact (prevs_P x H)|].
    destruct (index h x <=? length (kids h p)); [|apply post_panic]. apply post_ok. pose proof (up x p H Ep) as Hp. apply Forall_app. split; apply (nodes_P p _ Hp); intros y; [apply in_firstn | apply in_skipn].
  Qed.
  Lemma since_P x i b : P x -> Pl (since_by h x i b).
  Proof.
    intros H. unfold since_by. assert (Ek : forall cs, childs h x = Some cs -> kids h x = cs) by (intros cs E; unfold kids; rewrite E; reflexivity).
    destruct (childs h x) as [cs|]; [|apply post_ok; constructor]. specialize (Ek cs eq_refl). rewrite <- Ek in *. destruct b.
    - destruct (i <? length (kids h x)); [|apply post_panic]. apply post_ok. apply (nodes_P x _ H). intros y Hy. apply in_rev in Hy. exact (in_firstn _ _ _ Hy).
    - destruct (i <=? length (kids h x)); [|apply post_panic]. apply post_ok. apply (nodes_P x _ H). intros y. apply in_skipn.
  Qed.

  (** * The operations on sets *)
  Lemma sort_P l : In_P l -> Pl (sort h l).
  Proof.
    intros H. unfold sort. apply (post_bind (Forall (fun k : list nat * id => P (snd k)))).
    - apply (post_mapl P); [exact H|]. intros x Hx. unfold with_key. apply (post_bind (fun _ => True)); [apply post_any|]. intros k _. apply post_ok. exact Hx.
    - intros ks Hk. apply post_ok. apply Forall_map. assert (G : forall k l, P (snd k) -> Forall (fun k : list nat * id => P (snd k)) l -> Forall (fun k : list nat * id => P (snd k)) (insert_key k l)).
      { intros k m Hk' Hm. induction Hm as [|k2 m H2 Hm IH]; [constructor; [exact Hk' | constructor]|]. cbn. destruct (compare_indexs (fst k) (fst k2)); repeat (constructor; try assumption). }
      induction Hk as [|k ks Hk Hks IH]; [constructor|]. cbn. apply G; assumption.
  Qed.
  Lemma dedup_P l : In_P l -> forall x, In_P (dedup_from x l).
  Proof. intros H. induction H as [|y l Hy Hl IH]; intros x; [constructor|]. cbn. destruct (Nat.eqb y x); [apply IH | constructor; [exact Hy | apply IH]]. Qed.
  Lemma sau_P l : In_P l -> Pl (sort_and_unique h l).
  Proof.
    intros H. unfold sort_and_unique. apply (post_bind In_P); [exact (sort_P l H)|]. intros l' H'. apply post_ok. destruct H' as [|x l' Hx Hl]; [constructor|]. cbn. constructor; [exact Hx | exact (dedup_P l' Hl x)].
  Qed.
  Lemma us_P l : In_P l -> forall s, In_P (us_keep s) -> Post (fun s => In_P (us_keep s)) (rfold (us_step h) l s).
  Proof.
    intros H s Hs. apply (post_fold P); [exact H | | exact Hs]. clear s Hs. intros s x Hs Hx. unfold us_step. destruct (parent h x) as [p|].
    - destruct (match us_prev s with Some q => Nat.eqb p q | None => false end); [apply post_ok; exact Hs|]. apply (post_bind (fun _ => True)); [apply post_any|]. intros path _.
      destruct (existsb (idx_eqb path) (us_paths s)); apply post_ok; [exact Hs|]. apply Forall_app. split; [exact Hs | constructor; [exact Hx | constructor]].
    - destruct (us_root s); apply post_ok; [exact Hs|]. apply Forall_app. split; [exact Hs | constructor; [exact Hx | constructor]].
  Qed.
  Lemma usf_P l : In_P l -> Pl (unique_sibling_first h l).
  Proof. intros H. unfold unique_sibling_first. apply (post_bind (fun s => In_P (us_keep s))); [apply us_P; [exact H | constructor]|]. intros s Hs. apply post_ok. exact Hs. Qed.
  Lemma usl_P l : In_P l -> Pl (unique_sibling_last h l).
  Proof.
    intros H. unfold unique_sibling_last. apply (post_bind (fun s => In_P (us_keep s))).
    - apply us_P; [|constructor]. apply Forall_rev. exact H.
    - intros s Hs. apply post_ok. apply Forall_rev. exact Hs.
  Qed.
  Lemma replace_P {A} (R : A -> Prop) l : Forall R l -> forall i x, R x -> Forall R (replace_at l i x).
  Proof. intros H. induction H as [|y l Hy Hl IH]; intros [|i] x Hx; cbn; constructor; auto. Qed.
  Lemma find_in path l e : ua_find path l = Some e -> In e l.
  Proof. induction l as [|a l IH]; [discriminate|]. cbn. destruct (idx_eqb path (ua_path a)); [intros E; injection E as <-; left; reflexivity | intros E; right; exact (IH E)]. Qed.
  Lemma uas_P l : In_P l -> Post (Forall (fun e : id * bool => P (fst e))) (unique_all_siblings h l).
  Proof.
    intros H. unfold unique_all_siblings. apply (post_bind (fun s : list ua_entry * list (id * bool) => Forall (fun e => P (ua_parent e)) (fst s) /\ Forall (fun e => P (fst e)) (snd s))).
    - apply (post_fold P); [exact H | | split; constructor]. intros [seen out] x [H1 H2] Hx. cbn [fst snd] in *. unfold ua_step. destruct (parent h x) as [p|] eqn:Ep; [|apply post_ok; split; assumption].
      apply (post_bind (fun _ => True)); [apply post_any|]. intros path _. destruct (ua_find path seen) as [e|] eqn:Ef.
      + destruct (ua_changed e); apply post_ok; [split; assumption|]. cbn [fst snd]. split.
        * unfold ua_mark. apply Forall_map. apply Forall_forall. intros e' He'. rewrite Forall_forall in H1. destruct (idx_eqb path (ua_path e')); exact (H1 e' He').
        * apply replace_P; [exact H2|]. cbn. rewrite Forall_forall in H1. exact (H1 e (find_in _ _ _ Ef)).
      + apply post_ok. cbn [fst snd]. split; [constructor; [exact (up x p Hx Ep) | exact H1]|]. apply Forall_app. split; [exact H2 | constructor; [exact Hx | constructor]].
    - intros s [_ Hs]. apply post_ok. exact Hs.
  Qed.
  Lemma starts_P l : In_P l -> Pl (search_starts h l).
  Proof.
    intros H. unfold search_starts. destruct (1 <? length l); [|apply post_ok; exact H]. unfold unique_parents. apply (post_bind (Forall (fun e : list nat * id => P (snd e)))).
    - apply (post_fold P); [exact H | | constructor]. intros s x Hs Hx. unfold up_step. apply (post_bind (fun _ => True)); [apply post_any|]. intros path _.
      destruct (rev s) as [|[top t] s'].
      + apply post_ok. constructor; [exact Hx | constructor].
      + destruct (relation_of path top); first [apply post_ok; exact Hs | apply post_ok; apply Forall_app; split; [exact Hs | constructor; [exact Hx | constructor]] | apply post_panic].
    - intros s Hs. apply post_ok. apply Forall_map. exact Hs.
  Qed.
  Lemma add_P a b : In_P a -> In_P b -> Pl (add h a b).
  Proof.
    intros Ha Hb. unfold add. destruct a as [|x a]; [apply post_ok; exact Hb|]. destruct b as [|y b]; [apply post_ok; exact Ha|].
    do 2 (apply (post_bind (fun _ => True)); [apply post_any|]; intros ? _). apply (post_bind (fun _ => True)); [apply post_any|]. intros mids _.
    revert Ha. generalize (x :: a). generalize 0. intros i l Hl. revert i mids. assert (M : forall mids, Pl (rmapl (mid_ele (y :: b)) mids)).
    { intros mids. apply (post_mapl (fun _ => True)); [apply Forall_forall; intros ? _; exact I|]. intros m _. apply post_nth. exact Hb. }
    induction Hl as [|z l Hz Hl IH]; intros i mids; cbn [add_merge]; [apply M|]. destruct (span_at i mids) as [now later]. apply (post_bind In_P); [apply M|]. intros u Hu.
    apply (post_bind In_P); [apply IH|]. intros v Hv. apply post_ok. apply Forall_app. split; [exact Hu | constructor; assumption].
  Qed.
  Lemma ancestors_P f : forall x, P x -> Pl (ancestors h f x).
  Proof.
    induction f as [|f IH]; intros x H; [apply post_fuel|]. cbn [ancestors]. destruct (parent h x) as [p|] eqn:Ep; [|apply post_ok; constructor]. destruct (is_root h p); [apply post_ok; constructor|].
    pose proof (up x p H Ep) as Hp. apply (post_bind In_P); [exact (IH p Hp)|]. intros l Hl. apply post_ok. apply Forall_app. split; [exact Hl | constructor; [exact Hp | constructor]].
  Qed.
  Lemma parents_P l : In_P l -> In_P (flat_map (parent_el h) l).
  Proof.
    intros H. apply (within_flat_map P); [exact H|]. intros x y Hx Hy. unfold parent_el in Hy. destruct (parent h x) as [p|] eqn:Ep; [|destruct Hy]. destruct (is_root h p); [destruct Hy|].
    destruct Hy as [<-|[]]. exact (up x p Hx Ep).
  Qed.

  (** * Searches *)
  Definition WPost {A} (R : A -> Prop) (e : wres A) : Prop := forall a rep, e = Ok (a, rep) -> R a /\ Forall Q rep.
  Lemma wpost_ok {A} (R : A -> Prop) a : R a -> WPost R (Ok (a, [])).
  Proof. intros H b rep E. injection E as <- <-. split; [exact H | constructor]. Qed.
  Lemma wpost_silent {A} (R : A -> Prop) e : Post R e -> WPost R (silent e).
  Proof. intros H a rep E. unfold silent in E. apply rbind_ok in E as (b & Eb & E). injection E as <- <-. split; [exact (H b Eb) | constructor]. Qed.
  Lemma wpost_say {A B} (R : A -> Prop) (T : B -> Prop) e (f : A -> wres B) : WPost R e -> (forall a, R a -> WPost T (f a)) -> WPost T (wbind e f).
  Proof.
    intros H G b rep E. unfold wbind in E. apply rbind_ok in E as ([a r1] & Ea & E). apply rbind_ok in E as ([b' r2] & Eb & E). cbn [fst snd] in *. injection E as <- <-.
    destruct (H a r1 Ea) as [Ha H1]. destruct (G a Ha b' r2 Eb) as [Hb H2]. split; [exact Hb|]. apply Forall_app. auto.
  Qed.
  Lemma wpost_do {A B} (R : A -> Prop) (T : B -> Prop) e (f : A -> wres B) : Post R e -> (forall a, R a -> WPost T (f a)) -> WPost T (rbind e f).
  Proof. intros H G b rep E. apply rbind_ok in E as (a & Ea & E). exact (G a (H a Ea) b rep E). Qed.
  Lemma wpost_flat {A B} (R : A -> Prop) (T : B -> Prop) (f : A -> wres (list B)) l : Forall R l -> (forall x, R x -> WPost (Forall T) (f x)) -> WPost (Forall T) (wflat f l).
  Proof.
    intros Hl H. induction Hl as [|x l Hx Hl IH]; [apply wpost_ok; constructor|]. cbn [wflat]. apply (wpost_say (Forall T)); [exact (H x Hx)|]. intros a Ha.
    apply (wpost_say (Forall T)); [exact IH|]. intros b Hb. apply wpost_ok. apply Forall_app. auto.
  Qed.
  Lemma wpost_filter {A} (R : A -> Prop) (g : A -> wres bool) l : Forall R l -> (forall x, R x -> WPost (fun _ => True) (g x)) -> WPost (Forall R) (wfilter g l).
  Proof.
    intros Hl H. induction Hl as [|x l Hx Hl IH]; [apply wpost_ok; constructor|]. cbn [wfilter]. apply (wpost_say (fun _ => True)); [exact (H x Hx)|]. intros b _.
    apply (wpost_say (Forall R)); [exact IH|]. intros ys Hy. apply wpost_ok. destruct b; [constructor|]; assumption.
  Qed.
  Lemma wpost_exists {A} (R : A -> Prop) (g : A -> wres bool) l : Forall R l -> (forall x, R x -> WPost (fun _ => True) (g x)) -> WPost (fun _ => True) (wexists g l).
  Proof.
    intros Hl H. induction Hl as [|x l Hx Hl IH]; [apply wpost_ok; constructor|]. cbn [wexists]. apply (wpost_say (fun _ => True)); [exact (H x Hx)|]. intros [|] _; [apply wpost_ok; constructor | exact IH].
  Qed.
  Lemma wpost_fuel {A} (R : A -> Prop) : WPost R OutOfFuel.
  Proof. intros a rep E. discriminate. Qed.
  Lemma post_true {A} (e : res A) : WPost (fun _ => True) (silent e).
  Proof. apply wpost_silent. apply post_any. Qed.
  Notation Wl := (WPost (Forall P)).

  Record MStay (m : rmatcher) : Prop := {
    ms_all : forall g els uc, mt_all (fst m) = Some g -> In_P els -> Pl (g els uc);
    ms_spec : forall g x, mt_spec (fst m) = Some g -> P x -> Post (Forall (fun e : id * bool * bool => P (fst (fst e)))) (g x);
    ms_says : forall els uc, In_P els -> Forall Q (snd m els uc)
  }.
  Section Matcher.
    Variable m : rmatcher.
    Hypothesis M : MStay m.
    Lemma with_P g els uc : mt_all (fst m) = Some g -> In_P els -> Wl (with_reports m g els uc).
    Proof.
      intros Eg He l rep E. unfold with_reports in E. apply rbind_ok in E as (l' & El & E). injection E as <- <-. split; [exact (ms_all m M g els uc Eg He l' El) | exact (ms_says m M els uc He)].
    Qed.
    Lemma apply_P els uc : In_P els -> Wl (wapply m els uc).
    Proof.
      intros He l rep E. unfold wapply in E. apply rbind_ok in E as (l' & El & E). injection E as <- <-. split; [|exact (ms_says m M els uc He)].
      unfold apply in El. destruct (mt_all (fst m)) as [g|] eqn:Eg; [exact (ms_all m M g els uc Eg He l' El)|]. destruct (mt_one (fst m)) as [g|]; [|discriminate]. exact (post_filter P g els He l' El).
    Qed.
    Lemma handle_P : Post (fun g => mt_all (fst m) = Some g) (get_all_handle (fst m)).
    Proof. unfold get_all_handle. destruct (mt_all (fst m)); [apply post_ok; reflexivity | apply post_panic]. Qed.
    Lemma dfs_one_P g : forall f x, P x -> Pl (dfs_one h f g x).
    Proof.
      induction f as [|f IH]; intros x H; [apply post_fuel|]. cbn [dfs_one]. apply (post_flat P); [exact (kids_P x H)|]. intros c Hc. apply (post_bind (fun _ => True)); [apply post_any|]. intros b _.
      apply (post_bind In_P); [destruct (0 <? child_nodes_length h c); [exact (IH c Hc) | apply post_ok; constructor]|]. intros sub Hs. apply post_ok. destruct b; [constructor|]; assumption.
    Qed.
    Lemma dfs_spec_P g : mt_spec (fst m) = Some g -> forall f x, P x -> Pl (dfs_spec h f g x).
    Proof.
      intros Eg. induction f as [|f IH]; intros x H; [apply post_fuel|]. cbn [dfs_spec]. apply (post_bind (Forall (fun e : id * bool * bool => P (fst (fst e))))); [exact (ms_spec m M g x Eg H)|].
      intros calls Hc. apply (post_flat (fun e : id * bool * bool => P (fst (fst e)))); [exact Hc|]. intros [[c b] lc] Hp. cbn [fst] in Hp.
      apply (post_bind In_P); [destruct (lc && (0 <? child_nodes_length h c)); [exact (IH c Hp) | apply post_ok; constructor]|]. intros sub Hs. apply post_ok. destruct b; [constructor|]; assumption.
    Qed.
    Lemma dfs_all_P g : mt_all (fst m) = Some g -> forall f x, P x -> Wl (wdfs_all h f (with_reports m g) x).
    Proof.
      intros Eg. induction f as [|f IH]; intros x H; [apply wpost_fuel|]. cbn [wdfs_all]. destruct (nonempty (children h x)); [|apply wpost_ok; constructor].
      apply (wpost_say In_P); [exact (with_P g _ _ Eg (kids_P x H))|]. intros matched _. pose proof (kids_P x H) as Hk. revert matched. induction Hk as [|c cs Hc Hcs IHc]; intros matched; [apply wpost_ok; constructor|].
      apply (wpost_say In_P); [destruct (0 <? child_nodes_length h c); [exact (IH c Hc) | apply wpost_ok; constructor]|]. intros sub Hs.
      apply (wpost_say In_P); [apply IHc|]. intros rest Hr. apply wpost_ok. apply Forall_app. split; [|apply Forall_app; split; assumption].
      destruct (match matched with m0 :: _ => Nat.eqb c m0 | [] => false end); repeat (constructor; try assumption).
    Qed.
    Lemma dfs_P x : P x -> Wl (wdfs h m x).
    Proof.
      intros H. unfold wdfs. destruct (mt_one (fst m)) as [g|]; [apply wpost_silent; exact (dfs_one_P g _ x H)|]. destruct (mt_spec (fst m)) as [g|] eqn:Eg; [apply wpost_silent; exact (dfs_spec_P g Eg _ x H)|].
      apply (wpost_do (fun g => mt_all (fst m) = Some g)); [exact handle_P|]. intros g Eg'. exact (dfs_all_P g Eg' _ x H).
    Qed.
    Lemma rule_P c els : In_P els -> Wl (wselect_by_rule h els m c).
    Proof.
      intros H. destruct c; cbn [wselect_by_rule].
      - apply (wpost_do In_P); [exact (starts_P els H)|]. intros st Hs. apply (wpost_flat P); [exact Hs | exact dfs_P].
      - destruct (mt_one (fst m)) as [g|].
        + apply wpost_silent. apply (post_flat P); [exact H|]. intros x Hx. apply post_filter. exact (kids_P x Hx).
        + destruct (mt_spec (fst m)) as [g|] eqn:Eg.
          * apply wpost_silent. apply (post_flat P); [exact H|]. intros x Hx. apply (post_bind (Forall (fun e : id * bool * bool => P (fst (fst e))))); [exact (ms_spec m M g x Eg Hx)|].
            intros calls Hc. apply post_ok. apply (within_flat_map (fun e : id * bool * bool => P (fst (fst e)))); [exact Hc|]. intros [[c b] lc] y Hp Hy. cbn in Hp. destruct b; [|destruct Hy]. destruct Hy as [<-|[]]. exact Hp.
          * apply (wpost_do (fun g => mt_all (fst m) = Some g)); [exact handle_P|]. intros g Eg'. apply (wpost_flat P); [exact H|]. intros x Hx. exact (with_P g _ _ Eg' (kids_P x Hx)).
      - apply (wpost_do In_P); [exact (usf_P els H)|]. intros us Hu. pose proof (parents_P us Hu) as Hp. destruct (mt_one (fst m)) as [g|]; [apply wpost_silent; exact (post_filter P g _ Hp)|].
        apply (wpost_do (fun g => mt_all (fst m) = Some g)); [exact handle_P|]. intros g Eg. exact (with_P g _ _ Eg Hp).
      - destruct (mt_one (fst m)) as [g|].
        + apply wpost_silent. apply (post_bind In_P); [|exact sau_P]. apply (post_flat P); [exact H|]. intros x Hx. apply (post_bind In_P); [exact (ancestors_P _ x Hx)|]. intros a Ha. exact (post_filter P g a Ha).
        + apply (wpost_do In_P); [apply (post_flat P); [exact H | exact (ancestors_P _)]|]. intros l Hl. apply (wpost_do In_P); [exact (sau_P l Hl)|]. intros l' Hl'.
          apply (wpost_do (fun g => mt_all (fst m) = Some g)); [exact handle_P|]. intros g Eg. exact (with_P g _ _ Eg Hl').
      - apply (wpost_do In_P); [exact (usf_P els H)|]. intros us Hu. apply (wpost_flat P); [exact Hu|]. intros x Hx. apply (wpost_do In_P); [exact (nexts_P x Hx)|]. intros ns Hn. exact (apply_P ns _ Hn).
      - assert (Hn : In_P (flat_map (fun x => opt_list (next_element_sibling h x)) els)).
        { apply (within_flat_map P); [exact H|]. intros x y Hx Hy. pose proof (next_P x Hx) as G. rewrite Forall_forall in G. exact (G y Hy). }
        destruct (mt_one (fst m)) as [g|]; [apply wpost_silent; exact (post_filter P g _ Hn) | exact (apply_P _ _ Hn)].
      - apply (wpost_do In_P); [exact (usl_P els H)|]. intros us Hu. apply (wpost_flat P); [exact Hu|]. intros x Hx. apply (wpost_do In_P); [exact (prevs_P x Hx)|]. intros ns Hn. exact (apply_P ns _ Hn).
      - apply (wpost_do In_P).
        + apply (post_flat P); [exact H|]. intros x Hx. apply (post_bind (fun o => In_P (opt_list o))); [exact (prev_P x Hx)|]. intros o Ho. apply post_ok. exact Ho.
        + intros ps Hp. destruct (mt_one (fst m)) as [g|]; [apply wpost_silent; exact (post_filter P g _ Hp) | exact (apply_P _ _ Hp)].
      - apply (wpost_do (Forall (fun e : id * bool => P (fst e)))); [exact (uas_P els H)|]. intros us Hu. apply (wpost_flat (fun e : id * bool => P (fst e))); [exact Hu|]. intros [x b] Hx. cbn [fst] in Hx.
        apply (wpost_do In_P); [destruct b; [apply post_ok; exact (kids_P x Hx) | exact (sibs_P x Hx)]|]. intros sibs Hs. exact (apply_P sibs _ Hs).
      - exact (apply_P els _ H).
    Qed.
  End Matcher.

  Definition CStay (cp : rcompound) : Prop := Forall (fun s : rsegment => MStay (fst s)) cp.
  Definition GStay (g : rgroup) : Prop := Forall CStay g.
  Definition PStay (p : rprocess) : Prop := GStay (r_query p) /\ forall g, r_in p = Some g -> GStay g.
  Definition SStay (s : rselector) : Prop := Forall PStay s.
  Lemma tl_all {A} (R : A -> Prop) l : Forall R l -> Forall R (tl l).
  Proof. intros H. destruct H; [constructor | assumption]. Qed.
  Lemma chain_P rules : CStay rules -> forall els, In_P els -> Wl (wchain_rest h els rules).
  Proof.
    intros H. induction H as [|[m c] rules Hm Hr IH]; intros els He; [apply wpost_ok; exact He|]. cbn. destruct (nonempty els); [|apply wpost_ok; exact He].
    apply (wpost_say In_P); [exact (rule_P m Hm c els He) | exact IH].
  Qed.
  Lemma select_P els rules o : CStay rules -> In_P els -> Wl (wselect h els rules o).
  Proof.
    intros H He. unfold wselect. apply (wpost_do (fun s : rsegment => MStay (fst s))); [exact (post_nth _ _ _ H)|]. intros [m c1] Hm. cbn [fst] in Hm. apply (wpost_say In_P).
    - destruct (mt_cache (fst m) && comb_eqb (match o with Some c => c | None => c1 end) ChildrenAll); [|exact (rule_P m Hm _ els He)].
      apply (wpost_say In_P); [exact (apply_P m Hm els _ He)|]. intros l Hl. destruct (nonempty l); [|apply wpost_ok; constructor]. apply wpost_silent. apply (post_bind In_P); [exact (post_filter P _ l Hl) | exact sau_P].
    - intros l Hl. apply chain_P; [exact (tl_all _ _ H) | exact Hl].
  Qed.
  Lemma lookup_P look : GStay look -> forall els c, In_P els -> WPost (fun _ => True) (whas_lookup h els c look).
  Proof.
    intros H. induction H as [|r look Hr Hl IH]; intros els c He; [apply wpost_ok; exact I|]. cbn [whas_lookup]. apply (wpost_say In_P); [exact (select_P els r _ Hr He)|]. intros l Hf.
    destruct (nonempty l); [|apply wpost_ok; exact I]. apply (wpost_do (fun _ => True)); [apply post_any|]. intros s _. apply (wpost_do (fun _ => True)); [apply post_any|]. intros c' _. exact (IH l c' Hf).
  Qed.
  Lemma has_ele_P set x c look : GStay look -> P x -> WPost (fun _ => True) (whas_ele h set x c look).
  Proof.
    intros H Hx. unfold whas_ele. apply (wpost_do (fun _ => True)); [apply post_any|]. intros rc _. apply (wpost_say (fun _ => True)); [apply lookup_P; [apply Forall_rev; exact H | constructor; [exact Hx | constructor]]|].
    intros [[els rc']|] _; [apply post_true | apply wpost_ok; exact I].
  Qed.
  Lemma query_P q : GStay q -> forall g, In_P g -> WPost (fun o => forall l, o = Some l -> In_P l) (wquery_rest h g q).
  Proof.
    intros H. induction H as [|r q Hr Hq IH]; intros g Hg; [apply wpost_ok; intros l E; injection E as <-; exact Hg|]. cbn [wquery_rest]. apply (wpost_say In_P); [exact (select_P g r _ Hr Hg)|].
    intros l Hl. destruct (nonempty l); [exact (IH l Hl) | apply wpost_ok; discriminate].
  Qed.
  Lemma process_P els p : PStay p -> In_P els -> Wl (wfind_process h els p).
  Proof.
    intros [Hq Hi] He. unfold wfind_process. apply (wpost_say In_P).
    - unfold wfind_first. apply (wpost_do CStay); [exact (post_nth _ _ _ Hq)|]. intros fq Hf. destruct (r_in p) as [look|]; [|exact (select_P els fq _ Hf He)].
      apply (wpost_say In_P); [exact (select_P els fq _ Hf He)|]. intros l Hl. destruct (nonempty l); [|apply wpost_ok; constructor]. apply (wpost_do (fun _ => True)); [apply post_any|]. intros s _.
      apply wpost_filter; [exact Hl|]. intros x Hx. exact (has_ele_P els x _ look (Hi look eq_refl) Hx).
    - intros g Hg. destruct (nonempty g); [|apply wpost_ok; constructor]. apply (wpost_say (fun o => forall l, o = Some l -> In_P l)); [apply query_P; [exact (tl_all _ _ Hq) | exact Hg]|].
      intros [l|] Hl; apply wpost_ok; [exact (Hl l eq_refl) | constructor].
  Qed.
  Lemma find_P els s : SStay s -> In_P els -> Wl (wfind_selector h els s).
  Proof.
    intros H He. unfold wfind_selector. destruct (nonempty els); [|apply wpost_ok; constructor]. assert (G : forall acc, In_P acc -> Wl (wfold (fun result p => say group <- wfind_process h els p; silent (if nonempty group then add h result group else Ok result)) s acc)).
    { induction H as [|p s Hp Hs IH]; intros acc Ha; [apply wpost_ok; exact Ha|]. cbn [wfold]. apply (wpost_say In_P); [|exact IH]. apply (wpost_say In_P); [exact (process_P els p Hp He)|].
      intros g Hg. apply wpost_silent. destruct (nonempty g); [exact (add_P acc g Ha Hg) | apply post_ok; exact Ha]. }
    apply G. constructor.
  Qed.
  Lemma filter_process_P els root p : PStay p -> In_P els -> WPost (fun r : list id * option id => In_P (fst r)) (wfilter_process h els root p).
  Proof.
    intros [Hq _] He. unfold wfilter_process. apply Forall_rev in Hq. destruct Hq as [|lq before Hl Hb]; [apply wpost_ok; constructor|].
    apply (wpost_do (fun s : rsegment => MStay (fst s))); [exact (post_nth _ _ _ Hl)|]. intros [m c1] Hm. cbn [fst snd] in *. apply (wpost_say In_P); [exact (rule_P m Hm Chain els He)|]. intros f0 Hf.
    apply (wpost_say In_P); [apply chain_P; [exact (tl_all _ _ Hl) | exact Hf]|]. intros l Hfl. destruct l as [|x l]; [apply wpost_ok; constructor|]. destruct before as [|b before]; [apply wpost_ok; exact Hfl|].
    apply (wpost_say In_P); [|intros lasts Hla; apply wpost_ok; exact Hla]. apply wpost_filter; [exact Hfl|]. intros y Hy. apply has_ele_P; [apply Forall_rev; exact Hb | exact Hy].
  Qed.
  Lemma filter_loop_P els mode s : SStay s -> In_P els -> forall root acc, In_P acc -> WPost (fun r : list id * bool => In_P (fst r)) (wfilter_loop h els mode root acc s).
  Proof.
    intros H He. induction H as [|p s Hp Hs IH]; intros root acc Ha; [apply wpost_ok; exact Ha|]. cbn [wfilter_loop]. apply (wpost_say (fun r : list id * option id => In_P (fst r))); [exact (filter_process_P els root p Hp He)|].
    intros [l root'] Hl. cbn [fst] in Hl. destruct (nonempty l); [|exact (IH root' acc Ha)]. destruct mode; [apply wpost_ok; exact Ha|]. apply (wpost_do In_P); [exact (add_P acc l Ha Hl)|]. intros acc' Ha'. exact (IH root' acc' Ha').
  Qed.
  Lemma handle_type_P els s t : SStay s -> In_P els -> WPost (fun r : list id * bool => In_P (fst r)) (wfilter_type_handle h els s t).
  Proof.
    intros H He. unfold wfilter_type_handle. apply (wpost_say (fun r : list id * bool => In_P (fst r))); [apply filter_loop_P; [exact H | exact He | constructor]|]. intros [l b] Hl. cbn [fst] in Hl. apply wpost_ok.
    destruct t; cbn [fst]; try exact Hl. destruct (nonempty l); [|exact He]. apply (sub_P els); [exact He|]. intros x. apply not_in_sub.
  Qed.
  Lemma filter_sel_P els s : SStay s -> In_P els -> Wl (wfilter_sel h els s).
  Proof. intros H He. unfold wfilter_sel. destruct (nonempty els); [|apply wpost_ok; constructor]. eapply wpost_say; [exact (handle_type_P els s _ H He)|]. intros r Hr. apply wpost_ok. exact Hr. Qed.
  Lemma not_sel_P els s : SStay s -> In_P els -> Wl (wnot_sel h els s).
  Proof. intros H He. unfold wnot_sel. destruct (nonempty els); [|apply wpost_ok; constructor]. eapply wpost_say; [exact (handle_type_P els s _ H He)|]. intros r Hr. apply wpost_ok. exact Hr. Qed.
  Lemma is_sel_P els s : SStay s -> In_P els -> WPost (fun _ => True) (wis_sel h els s).
  Proof. intros H He. unfold wis_sel. destruct (nonempty els); [|apply wpost_ok; constructor]. eapply wpost_say; [exact (handle_type_P els s _ H He)|]. intros r Hr. apply wpost_ok. exact I. Qed.
  Lemma is_all_sel_P els s : SStay s -> In_P els -> WPost (fun _ => True) (wis_all_sel h els s).
  Proof. intros H He. unfold wis_all_sel. destruct (nonempty els); [|apply wpost_ok; constructor]. eapply wpost_say; [exact (handle_type_P els s _ H He)|]. intros r Hr. apply wpost_ok. exact I. Qed.
  Lemma has_loop_P s : SStay s -> forall f x, P x -> WPost (fun _ => True) (whas_loop h f s x).
  Proof.
    intros H. induction f as [|f IH]; intros x Hx; [apply wpost_fuel|]. cbn [whas_loop]. destruct (nonempty (children h x)); [|apply wpost_ok; exact I].
    eapply wpost_say; [exact (handle_type_P _ s _ H (kids_P x Hx))|]. intros r _. destruct (snd r); [apply wpost_ok; exact I|]. apply (wpost_exists P); [exact (kids_P x Hx) | exact IH].
  Qed.
  Lemma has_sel_P els s : SStay s -> In_P els -> Wl (whas_sel h els s).
  Proof. intros H He. apply wpost_filter; [exact He|]. intros x Hx. exact (has_loop_P s H _ x Hx). Qed.

  Lemma all_stays : MStay rall.
  Proof. split; cbn; [|discriminate | constructor]. intros g els uc E H. injection E as <-. apply post_ok. exact H. Qed.
  Lemma from_stays c : SStay (rfrom_segment (rmake_comb_all c)).
  Proof. constructor; [|constructor]. split; [|discriminate]. constructor; [|constructor]. constructor; [exact all_stays | constructor]. Qed.
  Lemma head_group_stays c g : GStay g -> GStay (rhead_group c g).
  Proof.
    intros H. destruct H as [|[|[m c0] cp] g Hc Hg]; cbn; [constructor | constructor; assumption|]. destruct (comb_eqb c0 ChildrenAll); constructor; try assumption.
    - inversion Hc. constructor; assumption.
    - constructor; [exact all_stays | constructor].
    - constructor; assumption.
  Qed.
  Lemma head_stays c s : SStay s -> SStay (rhead_combinator c s).
  Proof.
    intros H. apply Forall_map. eapply Forall_impl; [|exact H]. intros p [Hq Hi]. destruct (r_in p) as [g|]; split; cbn; try discriminate; [exact Hq | | exact (head_group_stays c _ Hq)].
    intros g' E. injection E as <-. exact (head_group_stays c g (Hi g eq_refl)).
  Qed.
  Lemma with_comb_P els s c : (forall t, s = Some t -> SStay t) -> In_P els -> Wl (wselect_with_comb h els s c).
  Proof.
    intros H He. destruct s as [s|]; cbn [wselect_with_comb]; [|exact (find_P els _ (from_stays c) He)]. destruct (nonempty els); [|apply wpost_ok; constructor]. exact (find_P els _ (head_stays c s (H s eq_refl)) He).
  Qed.
  Lemma siblings_all_P els s : (forall t, s = Some t -> SStay t) -> In_P els -> Wl (wsiblings h els s).
  Proof.
    intros H He. unfold wsiblings. apply (wpost_do (Forall (fun e : id * bool => P (fst e)))); [exact (uas_P els He)|]. intros us Hu. apply (wpost_say In_P).
    - apply (wpost_flat (fun e : id * bool => P (fst e))); [exact Hu|]. intros [x b] Hx. apply find_P; [|constructor; [exact Hx | constructor]].
      destruct s as [s|]; destruct b; first [apply from_stays | apply head_stays; exact (H s eq_refl)].
    - intros l Hl. apply wpost_silent. exact (sort_P l Hl).
  Qed.
  Lemma closest_loop_P s : SStay s -> forall f x, P x -> Wl (wclosest_loop h f s x).
  Proof.
    intros H. induction f as [|f IH]; intros x Hx; [apply wpost_fuel|]. cbn [wclosest_loop]. assert (H1 : In_P [x]) by (constructor; [exact Hx | constructor]).
    eapply wpost_say; [exact (handle_type_P _ s _ H H1)|]. intros r _. destruct (snd r); [apply wpost_ok; exact H1|]. destruct (parent h x) as [p|] eqn:Ep; [|apply wpost_ok; constructor].
    destruct (is_root h p); [apply wpost_ok; constructor | exact (IH p (up x p Hx Ep))].
  Qed.
  Lemma split_P s els : SStay s -> In_P els -> WPost (fun b : list id * list id => In_P (fst b) /\ In_P (snd b)) (wclosest_split h s els).
  Proof.
    intros H He. induction He as [|x els Hx He IH]; [apply wpost_ok; split; constructor|]. cbn [wclosest_split]. assert (H1 : In_P [x]) by (constructor; [exact Hx | constructor]).
    eapply wpost_say; [exact (handle_type_P _ s _ H H1)|]. intros r _. eapply wpost_say; [exact IH|]. intros b [Hb1 Hb2]. apply wpost_ok. destruct (snd r); split; try constructor; assumption.
  Qed.
  Lemma closest_P els s : SStay s -> In_P els -> Wl (wclosest h els s).
  Proof.
    intros H He. unfold wclosest. eapply wpost_say; [exact (split_P s els H He)|]. intros b [H1 H2]. destruct (nonempty (snd b)); [|apply wpost_ok; exact H1].
    apply (wpost_do In_P); [exact (usf_P _ H2)|]. intros us Hu. apply (wpost_say In_P); [apply (wpost_flat P); [exact Hu | exact (closest_loop_P s H _)]|].
    intros ups Hp. apply wpost_silent. apply sau_P. apply Forall_app. auto.
  Qed.
  Lemma until_P c s flt contains : SStay s -> (forall t, flt = Some t -> SStay t) -> forall f cur, In_P cur -> Wl (wuntil_loop h f c s flt contains cur).
  Proof.
    intros H Hf. induction f as [|f IH]; intros cur Hc; [apply wpost_fuel|]. cbn [wuntil_loop]. apply (wpost_say In_P); [exact (find_P cur _ (from_stays c) Hc)|]. intros next Hn.
    destruct next as [|y next]; [apply wpost_ok; constructor|]. eapply wpost_say; [exact (handle_type_P _ s _ H Hn)|]. intros m _. cbv zeta. destruct (snd m && negb contains); [apply wpost_ok; constructor|].
    apply (wpost_say (fun _ => True)).
    - destruct flt as [fs|]; [|apply wpost_ok; exact I]. eapply wpost_say; [exact (handle_type_P _ fs _ (Hf fs eq_refl) Hn)|]. intros r _. apply wpost_ok. exact I.
    - intros b _. apply (wpost_say In_P); [destruct (snd m); [apply wpost_ok; constructor | exact (IH _ Hn)]|]. intros rest Hr. apply wpost_ok. inversion Hn. destruct b; [constructor|]; assumption.
  Qed.
  Lemma select_until_P els s flt contains c : SStay s -> (forall t, flt = Some t -> SStay t) -> In_P els -> Wl (wselect_until h els s flt contains c).
  Proof. intros H Hf He. apply (wpost_flat P); [exact He|]. intros x Hx. apply until_P; [exact H | exact Hf | constructor; [exact Hx | constructor]]. Qed.

  (** * Compiling *)
  Lemma insert_stays s l : MStay (fst s) -> CStay l -> CStay (rinsert_prio s l).
  Proof. intros Hs Hl. induction Hl as [|s' l Hs' Hl IH]; cbn; [constructor; [exact Hs | constructor]|]. destruct (rprio s' <=? rprio s)%N; repeat (constructor; try assumption). Qed.
  Lemma sort_stays l : CStay l -> CStay (rsort_prio l).
  Proof. intros H. induction H as [|s l Hs Hl IH]; [constructor|]. cbn. apply insert_stays; assumption. Qed.
  Lemma opt_comp_stays cp : CStay cp -> CStay (roptimize_compound cp).
  Proof.
    intros H. destruct cp as [|[m c] [|s2 cp]]; [exact H|exact H|]. unfold roptimize_compound.
    assert (G : CStay (rsort_prio ((m, c) :: s2 :: cp))). { exact (sort_stays _ H). }
    unfold CStay, rcompound, rsegment in *. destruct (rsort_prio ((m, c) :: s2 :: cp)) as [|[m' c'] rest]; [constructor|]. inversion G as [|? ? G1 G2]. subst. destruct (comb_eqb c' c); constructor; try assumption.
    apply Forall_map. eapply Forall_impl; [|exact G2]. intros s Hs. exact Hs.
  Qed.
  Lemma opt_stays b gs : Forall GStay gs -> SStay (roptimize b gs).
  Proof.
    intros H. apply Forall_map. eapply Forall_impl; [|exact H]. intros g Hg. unfold roptimize_group.
    assert (G : GStay (map roptimize_compound g)). { apply Forall_map. eapply Forall_impl; [|exact Hg]. exact opt_comp_stays. }
    cbv zeta. destruct (b && _ && _); split; cbn; try discriminate; try exact G.
    - apply (forall_sub CStay _ _ G). intros x. apply in_skipn.
    - intros g' E. injection E as <-. apply (forall_sub CStay _ _ G). intros x. apply in_firstn.
  Qed.

  Variable text_of : id -> str.
  Variable by_id : id -> str -> option id.
  Hypothesis ids : forall x d n e, P x -> owner_document h x = Some d -> by_id d n = Some e -> P e.
  Notation comp := (rcompile h text_of by_id).
  Lemma groups_stay gs : (forall rl, InAst rl gs -> MStay (comp rl)) -> Forall GStay (rcompile_groups h text_of by_id gs).
  Proof.
    intros H. apply Forall_map. apply Forall_forall. intros g Hg. apply Forall_map. apply Forall_forall. intros cp Hc. apply Forall_map. apply Forall_forall. intros [rl c] Hr. apply H. exists g, cp, c. auto.
  Qed.
  Lemma one_stays rl g : compile h text_of by_id rl = one rl g -> reports h text_of by_id rl = (fun _ _ => []) -> MStay (comp rl).
  Proof. intros E1 E2. split; unfold rcompile; cbn [fst snd]; rewrite ?E1, ?E2; cbn; try discriminate. constructor. Qed.
  Lemma all_rule_stays rl g sp : compile h text_of by_id rl = all rl g sp -> reports h text_of by_id rl = (fun _ _ => []) ->
    (forall els uc, In_P els -> Pl (g els uc)) -> (forall k x, sp = Some k -> P x -> Post (Forall (fun e : id * bool * bool => P (fst (fst e)))) (k x)) -> MStay (comp rl).
  Proof.
    intros E1 E2 Hg Hs. split; unfold rcompile; cbn [fst snd]; rewrite ?E1, ?E2; cbn; [|exact Hs | constructor]. intros g' els uc E. injection E as <-. apply Hg.
  Qed.
  (** Groups of siblings. *)
  Lemma groups_P els : In_P els -> forall i cur, (forall g, cur = Some g -> P (snd g)) -> Forall (fun g : sgroup => P (snd g)) (sib_groups h els i cur).
  Proof.
    intros H. induction H as [|x els Hx He IH]; intros i cur Hc; cbn [sib_groups].
    - destruct cur as [g|]; cbn; [constructor; [exact (Hc g eq_refl) | constructor] | constructor].
    - destruct (parent h x) as [p|] eqn:Ep; [|exact (IH _ _ Hc)]. pose proof (up x p Hx Ep) as Hp. destruct cur as [[[s e] q]|]; [|apply IH; intros g E; injection E as <-; exact Hp].
      pose proof (Hc _ eq_refl) as Hq. cbn [snd] in Hq. destruct (Nat.eqb p q); [apply IH; intros g E; injection E as <-; exact Hq|]. constructor; [exact Hq|]. apply IH. intros g E. injection E as <-. exact Hp.
  Qed.
  Lemma sibling_groups_P els F : In_P els -> (forall g : sgroup, P (snd g) -> Pl (F g)) -> Pl (rflat F (group_siblings h els)).
  Proof. intros H HF. apply (post_flat (fun g : sgroup => P (snd g))); [apply groups_P; [exact H | discriminate] | exact HF]. Qed.
  Lemma zget_P cs z : In_P cs -> Post P (zget cs z).
  Proof. intros H. unfold zget. destruct ((0 <=? z) && (z <? Z.of_nat (length cs)))%Z; [exact (post_nth P _ _ H) | apply post_panic]. Qed.
  Lemma nth_handle_P asc els s e allow cs : In_P els -> In_P cs -> Pl (nth_handle asc els s e allow cs).
  Proof.
    intros He Hc. assert (A : forall (l : list Z), Forall (fun _ => True) l) by (intros l; apply Forall_forall; intros ? _; exact I).
    destruct asc; cbn [nth_handle]; [unfold nth_asc | unfold nth_desc]; destruct (Nat.eqb (e - s) (length cs)).
    - apply (post_mapl (fun _ => True)); [apply A|]. intros z _. exact (zget_P cs z Hc).
    - apply post_ok. apply (sub_P els); [exact He|]. intros x Hx. apply (in_range els s e). exact (asc_walk_sub _ _ _ _ _ Hx).
    - apply (post_mapl (fun _ => True)); [apply A|]. intros z _. exact (zget_P cs _ Hc).
    - apply post_ok. apply (sub_P cs); [exact Hc|]. intros x Hx. apply in_rev in Hx. apply desc_walk_sub in Hx. apply in_rev. exact Hx.
  Qed.
  Lemma nth_group_P asc els g allow : In_P els -> P (snd g) -> Pl (handle_nth_child h asc els g allow).
  Proof. intros He Hg. destruct g as [[s e] p]. cbn [handle_nth_child snd] in *. destruct allow; [apply post_ok; constructor|]. exact (nth_handle_P asc els s e _ _ He (kids_P p Hg)). Qed.
  Lemma of_type_P asc els s e p allow : In_P els -> Pl (handle_nth_of_type h asc els s e p allow).
  Proof.
    intros He. unfold handle_nth_of_type. destruct allow as [|a allow]; [apply post_ok; constructor|]. destruct p as [p|]; [|apply post_panic]. cbv zeta. apply (post_bind (fun _ => True)); [apply post_any|].
    intros idx _. apply post_ok. apply (sub_P els); [exact He|]. intros x Hx. apply (in_range els s e). exact (collect_sub _ _ _ _ Hx).
  Qed.
  Lemma marks_P cs (marks : list bool) : In_P cs -> Post (Forall (fun e : id * bool * bool => P (fst (fst e)))) (rmapl (fun p => do b <- rnth marks (fst p); Ok (snd p, b, true)) (combine (seq 0 (length cs)) cs)).
  Proof.
    intros H. apply (post_mapl (fun p : nat * id => P (snd p))).
    - apply Forall_forall. intros [i x] Hi. apply in_combine_r in Hi. rewrite Forall_forall in H. exact (H x Hi).
    - intros [i x] Hx. apply (post_bind (fun _ => True)); [apply post_any|]. intros b _. apply post_ok. exact Hx.
  Qed.
  Lemma child_spec_P asc i x : P x -> Post (Forall (fun e : id * bool * bool => P (fst (fst e)))) (nth_child_spec h asc i x).
  Proof.
    intros H. unfold nth_child_spec. destruct (0 <? i)%Z; [|apply post_ok; constructor]. apply (post_bind In_P); [exact (since_P x 0 false H)|]. intros cs Hc.
    apply (post_bind (fun _ => True)); [apply post_any|]. intros marks _. exact (marks_P cs marks Hc).
  Qed.
  Lemma type_spec_P asc i x : P x -> Post (Forall (fun e : id * bool * bool => P (fst (fst e)))) (nth_of_type_spec h asc i x).
  Proof.
    intros H. unfold nth_of_type_spec. destruct (0 <? i)%Z; [|apply post_ok; constructor]. apply (post_bind In_P); [exact (since_P x 0 false H)|]. intros cs Hc.
    apply (post_bind (fun _ => True)); [apply post_any|]. intros marks _. exact (marks_P cs marks Hc).
  Qed.
  Lemma range_P els s e : In_P els -> In_P (range els s e).
  Proof. intros H. apply (sub_P els); [exact H|]. intros x. apply in_range. Qed.
  Lemma only_type_P els : In_P els -> Pl (only_of_type_all h els).
  Proof.
    intros H. apply sibling_groups_P; [exact H|]. intros [[s e] p] Hp. cbv zeta. destruct (Nat.eqb (length (range els s e)) (length (children h p))).
    - apply (post_mapl (fun _ => True)); [apply Forall_forall; intros ? _; exact I|]. intros n _. apply post_nth. exact (range_P els s e H).
    - apply post_ok. apply (sub_P (range els s e)); [exact (range_P els s e H)|]. intros x. apply only_walk_sub.
  Qed.
  Lemma value_post {A} (R : A -> Prop) (e : wres A) : WPost R e -> Post R (value e).
  Proof. intros H a E. unfold value in E. apply rbind_ok in E as ([b rep] & Eb & E). cbn in E. injection E as <-. exact (proj1 (H b rep Eb)). Qed.
  Lemma said_post {A} (R : A -> Prop) (e : wres A) : WPost R e -> Forall Q (said e).
  Proof. intros H. unfold said. destruct e as [[a rep]| |]; [exact (proj2 (H a rep eq_refl)) | constructor | constructor]. Qed.
  Lemma nested_stays rl (w : list id -> rselector -> wres (list id)) (run : list id -> selector -> res (list id)) n :
    (forall els s, value (w els s) = run els (plain_sel s)) -> (forall els s, SStay s -> In_P els -> Wl (w els s)) ->
    rule_sub rl = (match n with NSel gs => gs | _ => [] end) ->
    compile h text_of by_id rl = all rl (fun els _ => nested_apply run (match n with NSel gs => Ok (Some (compile_selector h text_of by_id false gs)) | NErr => Ok None | NPanic => Panic end) els) None ->
    reports h text_of by_id rl = (fun els _ => match els with [] => [] | x :: _ => match n with NSel gs => said (w els (rcompile_selector h text_of by_id false gs)) | NErr => halt h x | NPanic => [] end end) ->
    (n = NErr -> forall x, P x -> Forall Q (halt h x)) -> (forall rl', InAst rl' (rule_sub rl) -> MStay (comp rl')) -> MStay (comp rl).
  Proof.
    intros Hv Hw Es Ec Er Hn Hs.
    assert (G : forall gs els, n = NSel gs -> In_P els -> Wl (w els (rcompile_selector h text_of by_id false gs))).
    { intros gs els -> He. apply Hw; [|exact He]. apply opt_stays. apply groups_stay. rewrite Es in Hs. exact Hs. }
    split; unfold rcompile; cbn [fst snd]; rewrite ?Ec, ?Er; cbn; [|discriminate|].
    - intros g els uc E He. injection E as <-. unfold nested_apply. destruct (nonempty els); [|apply post_ok; constructor]. destruct n as [gs| |]; [|apply post_ok; constructor | apply post_panic]. cbn [rbind].
      rewrite <- plain_compile, <- Hv. apply value_post. exact (G gs els eq_refl He).
    - intros els _ He. destruct els as [|x els]; [constructor|]. inversion He. destruct n as [gs| |]; [|apply Hn; auto | constructor]. eapply said_post. exact (G gs _ eq_refl He).
  Qed.
  Lemma rule_stays rl : (Bad rl -> forall x, P x -> Forall Q (halt h x)) -> MStay (comp rl).
  Proof.
    induction rl as [rl IH] using rule_sub_ind. intros HB.
    assert (Hs : forall rl', InAst rl' (rule_sub rl) -> MStay (comp rl')). { intros rl' Hi. apply IH; [exact Hi|]. intros Hb. apply HB. exact (Bad_in rl rl' Hi Hb). }
    destruct rl as [|nm|nm|nm|k t| | |asc| |asc [a b]|asc|asc [a b]| |n|t|n| |gs].
    - split; cbn; [|discriminate | constructor]. intros g els uc E H. injection E as <-. apply post_ok. exact H.
    - eapply one_stays; reflexivity.
    - eapply one_stays; reflexivity.
    - split; cbn; [|discriminate | constructor]. intros g els uc E H. injection E as <-. unfold id_all. destruct els as [|x els]; [apply post_ok; constructor|]. inversion H as [|? ? Hx Hr]; subst.
      destruct (owner_document h x) as [d|] eqn:Ed; [|apply post_ok; constructor]. destruct (by_id d nm) as [e|] eqn:Ee; [|apply post_ok; constructor]. pose proof (ids x d nm e Hx Ed Ee) as He.
      destruct uc; apply post_ok; [|destruct (includes (x :: els) e)]; repeat constructor; exact He.
    - eapply one_stays; reflexivity.
    - split; cbn; [discriminate | | constructor]. intros g x E H. injection E as <-. unfold root_spec. apply post_ok. destruct (is_root h x); [|constructor]. apply Forall_map. apply Forall_forall.
      intros y Hy. apply filter_In in Hy as [Hy _]. exact (down x y H Hy).
    - eapply one_stays; reflexivity.
    - eapply all_rule_stays; [reflexivity | reflexivity | |].
      + intros els uc H. unfold first_child_all. apply sibling_groups_P; [exact H|]. intros g Hg. exact (nth_group_P _ els g _ H Hg).
      + intros k x E H. injection E as <-. exact (child_spec_P _ _ x H).
    - eapply all_rule_stays; [reflexivity | reflexivity | |discriminate]. intros els uc H. apply post_ok. apply (sub_P els); [exact H|]. intros x. apply only_child_sub.
    - eapply all_rule_stays; [reflexivity | reflexivity | |].
      + intros els uc H. unfold nth_child_all. destruct uc as [uc|].
        * apply (post_bind (fun _ => True)); [apply post_any|]. intros allow _. exact (nth_handle_P _ els _ _ _ els H H).
        * apply sibling_groups_P; [exact H|]. intros g Hg. apply (post_bind (fun _ => True)); [apply post_any|]. intros allow _. exact (nth_group_P _ els g _ H Hg).
      + intros k x E H. cbn in E. destruct a as [a|]; [discriminate|]. injection E as <-. exact (child_spec_P _ _ x H).
    - eapply all_rule_stays; [reflexivity | reflexivity | |].
      + intros els uc H. unfold first_of_type_all. apply sibling_groups_P; [exact H|]. intros [[s e] p] Hg. exact (of_type_P _ els s e _ _ H).
      + intros k x E H. injection E as <-. exact (type_spec_P _ _ x H).
    - eapply all_rule_stays; [reflexivity | reflexivity | |].
      + intros els uc H. unfold nth_of_type_all. destruct uc as [uc|].
        * apply (post_bind (fun _ => True)); [apply post_any|]. intros allow _. exact (of_type_P _ els _ _ _ _ H).
        * apply sibling_groups_P; [exact H|]. intros [[s e] p] Hg. apply (post_bind (fun _ => True)); [apply post_any|]. intros allow _. exact (of_type_P _ els s e _ _ H).
      + intros k x E H. cbn in E. destruct a as [a|]; [discriminate|]. injection E as <-. exact (type_spec_P _ _ x H).
    - eapply all_rule_stays; [reflexivity | reflexivity | |discriminate]. intros els uc H. exact (only_type_P els H).
    - apply (nested_stays (RNot n) (wnot_sel h) (not_sel h) n).
      + intros els s. apply v_not_sel.
      + intros els s H He. exact (not_sel_P els s H He).
      + destruct n; reflexivity.
      + destruct n; reflexivity.
      + destruct n; reflexivity.
      + intros ->. exact (HB Bad_not).
      + exact Hs.
    - eapply one_stays; reflexivity.
    - apply (nested_stays (RHas n) (whas_sel h) (has_sel h) n).
      + intros els s. apply v_has_sel.
      + intros els s H He. exact (has_sel_P els s H He).
      + destruct n; reflexivity.
      + destruct n; reflexivity.
      + destruct n; reflexivity.
      + intros ->. exact (HB Bad_has).
      + exact Hs.
    - eapply one_stays; reflexivity.
    - assert (G : forall els, In_P els -> Wl (wfilter_sel h els (rcompile_selector h text_of by_id false gs))).
      { intros els He. apply filter_sel_P; [|exact He]. apply opt_stays. apply groups_stay. exact Hs. }
      split; unfold rcompile; cbn [fst snd].
      + intros g els uc E He. cbn in E. injection E as <-. change (optimize false _) with (compile_selector h text_of by_id false gs). rewrite <- plain_compile, <- v_filter_sel. apply value_post. exact (G els He).
      + discriminate.
      + intros els uc He. eapply said_post. exact (G els He).
  Qed.
  Lemma compiled_stays b gs : (forall rl, InAst rl gs -> Bad rl -> forall x, P x -> Forall Q (halt h x)) -> SStay (rcompile_selector h text_of by_id b gs).
  Proof. intros H. apply opt_stays. apply groups_stay. intros rl Hr. apply rule_stays. exact (H rl Hr). Qed.

  (** * The queries on texts *)
  Variable wide_digit : char -> bool.
  Notation calm s := (forall gs rl, from_str wide_digit s = Ok (Some gs) -> InAst rl gs -> Bad rl -> forall x, P x -> Forall Q (halt h x)).
  Notation right s := (from_str wide_digit s = Ok None -> forall x, P x -> Forall Q (halt h x)).
  Lemma throw_P els : (forall x, P x -> Forall Q (halt h x)) -> In_P els -> Post (Forall Q) (throw_error h els).
  Proof. intros H He e E. unfold throw_error in E. destruct els as [|x els]; [discriminate|]. injection E as <-. inversion He. apply H. assumption. Qed.
  Lemma parsed_P {A} (R : A -> Prop) (d : A) els s run : R d -> In_P els -> right s ->
    (forall gs, from_str wide_digit s = Ok (Some gs) -> WPost R (run gs)) -> WPost R (wparsed_or h wide_digit d els s run).
  Proof.
    intros Hd He Hr H. unfold wparsed_or. destruct (from_str wide_digit s) as [[gs|]| |]; cbn [rbind].
    - exact (H gs eq_refl).
    - intros a rep E. apply rbind_ok in E as (e & Ee & E). injection E as <- <-. split; [exact Hd | exact (throw_P els (Hr eq_refl) He e Ee)].
    - intros a rep E. discriminate.
    - intros a rep E. discriminate.
  Qed.
  Lemma trigger_P {A} (R : A -> Prop) (d : A) els s run : R d -> In_P els -> right s ->
    (forall gs, from_str wide_digit s = Ok (Some gs) -> WPost R (run gs)) -> WPost R (wtrigger_method h wide_digit d els s run).
  Proof. intros Hd He Hr H. unfold wtrigger_method. destruct els; [apply wpost_ok; exact Hd | exact (parsed_P R d _ s run Hd He Hr H)]. Qed.
  Section Text.
    Variable els : list id.
    Hypothesis He : In_P els.
    Lemma find_text_P s : right s -> calm s -> Wl (wfind_text h text_of by_id wide_digit els s).
    Proof. intros Hr Hc. apply parsed_P; auto. intros gs Eg. apply find_P; [|exact He]. apply compiled_stays. intros rl. exact (Hc gs rl Eg). Qed.
    Lemma filter_text_P s : right s -> calm s -> Wl (wfilter_text h text_of by_id wide_digit els s).
    Proof. intros Hr Hc. apply trigger_P; auto. intros gs Eg. apply filter_sel_P; [|exact He]. apply compiled_stays. intros rl. exact (Hc gs rl Eg). Qed.
    Lemma not_text_P s : right s -> calm s -> Wl (wnot_text h text_of by_id wide_digit els s).
    Proof. intros Hr Hc. apply trigger_P; auto. intros gs Eg. apply not_sel_P; [|exact He]. apply compiled_stays. intros rl. exact (Hc gs rl Eg). Qed.
    Lemma has_text_P s : right s -> calm s -> Wl (whas_text h text_of by_id wide_digit els s).
    Proof. intros Hr Hc. apply trigger_P; auto. intros gs Eg. apply has_sel_P; [|exact He]. apply compiled_stays. intros rl. exact (Hc gs rl Eg). Qed.
    Lemma is_text_P s : right s -> calm s -> WPost (fun _ => True) (wis_text h text_of by_id wide_digit els s).
    Proof. intros Hr Hc. apply trigger_P; auto. intros gs Eg. apply is_sel_P; [|exact He]. apply compiled_stays. intros rl. exact (Hc gs rl Eg). Qed.
    Lemma is_all_text_P s : right s -> calm s -> WPost (fun _ => True) (wis_all_text h text_of by_id wide_digit els s).
    Proof. intros Hr Hc. apply trigger_P; auto. intros gs Eg. apply is_all_sel_P; [|exact He]. apply compiled_stays. intros rl. exact (Hc gs rl Eg). Qed.
    Lemma closest_text_P s : s = [] \/ (right s /\ calm s) -> Wl (wclosest_text h text_of by_id wide_digit els s).
    Proof.
      unfold wclosest_text. destruct s as [|c s]; [intros _; apply wpost_ok; constructor|]. intros [E | [Hr Hc]]; [discriminate|]. apply parsed_P; auto. intros gs Eg. apply closest_P; [|exact He].
      apply compiled_stays. intros rl. exact (Hc gs rl Eg).
    Qed.
    Lemma siblings_text_P s : trim s = [] \/ (right (trim s) /\ calm (trim s)) -> Wl (wsiblings_text h text_of by_id wide_digit els s).
    Proof.
      intros H. unfold wsiblings_text. apply (wpost_do (fun _ => True)); [apply post_any|]. intros _ _. destruct (trim s) as [|c t]; [apply siblings_all_P; [discriminate | exact He]|].
      destruct H as [E | [Hr Hc]]; [discriminate|]. apply parsed_P; auto. intros gs Eg. apply siblings_all_P; [|exact He]. intros t' E. injection E as <-. apply compiled_stays. intros rl. exact (Hc gs rl Eg).
    Qed.
  End Text.
  Lemma select_text_P us s c : In_P us -> s = [] \/ (right s /\ calm s) -> Wl (wselect_text h text_of by_id wide_digit us s c).
  Proof.
    intros Hu H. unfold wselect_text. destruct s as [|a s]; [apply with_comb_P; [discriminate | exact Hu]|]. destruct H as [E | [Hr Hc]]; [discriminate|]. apply trigger_P; auto. intros gs Eg. apply with_comb_P; [|exact Hu].
    intros t E. injection E as <-. apply compiled_stays. intros rl. exact (Hc gs rl Eg).
  Qed.
  Lemma uniques_P c els : In_P els -> Pl (uniques h c els).
  Proof. intros H. unfold uniques. destruct c; first [exact (usl_P els H) | exact (usf_P els H) | apply post_ok; exact H]. Qed.
  Lemma step_text_P c els s : In_P els -> (let t := match c with Siblings => trim s | _ => s end in t = [] \/ (right t /\ calm t)) -> Wl (wstep_text h text_of by_id wide_digit c els s).
  Proof.
    intros He H. assert (G : c <> Siblings -> Wl (do us <- uniques h c els; say r <- wselect_text h text_of by_id wide_digit us s c; silent (finish h c r))).
    { intros Hn. apply (wpost_do In_P); [exact (uniques_P c els He)|]. intros us Hu. apply (wpost_say In_P); [apply select_text_P; [exact Hu | destruct c; first [exact H | congruence]]|]. intros l Hl. apply wpost_silent.
      unfold finish. destruct c; first [exact (sau_P l Hl) | apply post_ok; exact Hl]. }
    destruct c; first [apply G; discriminate | exact (siblings_text_P els He s H)].
  Qed.
  Lemma until_text_P c els stop flt contains : In_P els -> right stop -> calm stop -> flt = [] \/ (right flt /\ calm flt) -> Wl (wuntil_text h text_of by_id wide_digit c els stop flt contains).
  Proof.
    intros He Hr Hc H. unfold wuntil_text. apply (wpost_do In_P); [unfold until_uniques; destruct c; first [exact (usl_P els He) | exact (usf_P els He)]|]. intros us Hu.
    apply (wpost_do (fun p => from_str wide_digit stop = Ok p)); [intros p E; exact E|]. intros p Ep. apply (wpost_say In_P).
    - destruct p as [gs|].
      + cbv zeta. assert (G : forall f, (forall fg, f = Some fg -> forall rl, InAst rl fg -> Bad rl -> forall x, P x -> Forall Q (halt h x)) ->
          Wl (wselect_until h us (rcompile_selector h text_of by_id true gs) (option_map (rcompile_selector h text_of by_id true) f) contains c)).
        { intros f Hf. apply select_until_P; [| |exact Hu].
          - apply compiled_stays. intros rl. exact (Hc gs rl Ep).
          - intros t E. destruct f as [fg|]; [|discriminate]. injection E as <-. apply compiled_stays. exact (Hf fg eq_refl). }
        destruct flt as [|a flt]; [apply G; discriminate|]. destruct H as [E | [Hr' Hc']]; [discriminate|]. apply parsed_P; auto. intros fg Ef. apply G. intros fg' E. injection E as <-. intros rl. exact (Hc' fg rl Ef).
      + intros a rep E. apply rbind_ok in E as (e & Ee & E). injection E as <- <-. split; [constructor | exact (throw_P us (Hr Ep) Hu e Ee)].
    - intros l Hl. apply wpost_silent. unfold until_finish. destruct c; first [exact (sau_P l Hl) | apply post_ok; first [exact Hl | apply Forall_rev; exact Hl]].
  Qed.
End Stay.
