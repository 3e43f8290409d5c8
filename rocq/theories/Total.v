(** Queries return: no panic and no endless loop, for every set of elements, in any order and with repetitions. *)
From Verif Require Import Base Utils UtilsSpec Nth NthSpec NthProofs Attr AttrSpec Dom DomSpec Order DomProofs OrderSpec OrderProofs
  Sets SetsProofs AddProofs NavProofs Engine Rules SelSpec FindSpec OneProofs PreProofs SelBool SibLists SibProofs StepProofs BackProofs FilterProofs
  RuleProofs FindProofs FindRules Traverse TravSpec SetTrav TravProofs TotalSpec.
From Coq Require Import Sorting.Permutation.

Definition Within {A} (P : A -> Prop) (e : res (list A)) : Prop := exists l, e = Ok l /\ Forall P l.
Definition Returns {A} (e : res A) : Prop := exists b, e = Ok b.

Lemma within_ok {A} (P : A -> Prop) l : Forall P l -> Within P (Ok l).
Proof. intros H. exists l. split; [reflexivity | exact H]. Qed.
Lemma within_bind {A B} (P : A -> Prop) (Q : B -> Prop) e (f : list A -> res (list B)) : Within P e -> (forall l, Forall P l -> Within Q (f l)) -> Within Q (rbind e f).
Proof. intros (l & -> & H) Hf. exact (Hf l H). Qed.
Lemma within_rflat {A B} (P : A -> Prop) (Q : B -> Prop) (f : A -> res (list B)) l : Forall P l -> (forall x, P x -> Within Q (f x)) -> Within Q (rflat f l).
Proof.
  intros H Hf. induction H as [|x l Hx _ IH]; [apply within_ok; constructor|]. cbn [rflat].
  apply (within_bind Q); [exact (Hf x Hx)|]. intros a Ha. apply (within_bind Q); [exact IH|]. intros b Hb. apply within_ok. apply Forall_app. split; assumption.
Qed.
Lemma within_rfilter {A} (P : A -> Prop) (g : A -> res bool) l : Forall P l -> (forall x, P x -> Returns (g x)) -> Within P (rfilter g l).
Proof.
  intros H Hg. induction H as [|x l Hx _ IH]; [apply within_ok; constructor|]. cbn [rfilter]. destruct (Hg x Hx) as (b & ->). cbn [rbind].
  apply (within_bind P); [exact IH|]. intros l' Hl'. apply within_ok. destruct b; [constructor; assumption | exact Hl'].
Qed.
Lemma returns_rexists {A} (P : A -> Prop) (g : A -> res bool) l : Forall P l -> (forall x, P x -> Returns (g x)) -> Returns (rexists g l).
Proof.
  intros H Hg. induction H as [|x l Hx _ IH]; [exists false; reflexivity|]. cbn [rexists]. destruct (Hg x Hx) as (b & ->). cbn [rbind].
  destruct b; [exists true; reflexivity | exact IH].
Qed.
Lemma within_rmapl {A B} (P : A -> Prop) (Q : B -> Prop) (f : A -> res B) l : Forall P l -> (forall x, P x -> exists y, f x = Ok y /\ Q y) -> Within Q (rmapl f l).
Proof.
  intros H Hf. induction H as [|x l Hx _ IH]; [apply within_ok; constructor|]. cbn [rmapl]. destruct (Hf x Hx) as (y & -> & Hy). cbn [rbind].
  apply (within_bind Q); [exact IH|]. intros l' Hl'. apply within_ok. constructor; assumption.
Qed.
Lemma within_impl {A} (P Q : A -> Prop) e : (forall x, P x -> Q x) -> Within P e -> Within Q e.
Proof. intros H (l & E & Hl). exists l. split; [exact E|]. revert Hl. apply Forall_impl. exact H. Qed.
Lemma forall_sub {A} (P : A -> Prop) l m : Forall P l -> (forall x, In x m -> In x l) -> Forall P m.
Proof. rewrite !Forall_forall. intros H Hs x Hx. exact (H x (Hs x Hx)). Qed.

(** * [add] on arbitrary sets *)
Section Add.
  Variable h : heap.
  Hypothesis wf : WF h.
  Lemma add_search_ok ka k : forall fuel l rt mid, rt < length ka -> l <= mid -> mid <= rt -> (mid = (l + rt) / 2) -> rt - l < fuel ->
    exists m b, add_search fuel ka k l rt mid = Ok (m, b) /\ l <= m <= rt.
  Proof.
    induction fuel as [|f IH]; intros l rt mid Hr H1 H2 Em Hf; [lia|]. cbn [add_search]. destruct (Nat.eqb_spec mid l) as [-> | Hne].
    - exists l, false. split; [reflexivity | lia].
    - unfold rnth. destruct (nth_error ka mid) as [km|] eqn:E; [|apply nth_error_None in E; lia]. cbn [rbind].
      destruct (compare_indexs k km).
      + exists mid, true. split; [reflexivity | lia].
      + assert (mid < rt) by (rewrite Em; apply Nat.div_lt_upper_bound; lia).
        destruct (IH l mid ((l + mid) / 2)) as (m & b & Es & Hm);
          [lia | apply Nat.div_le_lower_bound; lia | apply Nat.div_le_upper_bound; lia | reflexivity | lia | exists m, b; split; [exact Es | lia]].
      + destruct (IH mid rt ((mid + rt) / 2)) as (m & b & Es & Hm);
          [lia | apply Nat.div_le_lower_bound; lia | apply Nat.div_le_upper_bound; lia | reflexivity | lia | exists m, b; split; [exact Es | lia]].
  Qed.
  Definition MidsIn (n : nat) (mids : list (nat * nat)) : Prop := Forall (fun m => fst m < n) mids.
  Lemma push_in n lo len at_ : lo + len <= n -> MidsIn n (push_range lo len at_).
  Proof.
    intros H. unfold MidsIn, push_range. apply Forall_forall. intros m Hm. apply in_map_iff in Hm. destruct Hm as (i & <- & Hi). apply in_seq in Hi. cbn. lia.
  Qed.
  Lemma add_loop_ok ka kb : ka <> [] -> kb <> [] -> forall fuel fl sl mids, length kb - sl < fuel -> MidsIn (length kb) mids ->
    exists mids', add_loop fuel ka kb (length ka - 1) (length kb - 1) fl sl mids = Ok mids' /\ MidsIn (length kb) mids'.
  Proof.
    intros Ha Hb. assert (La : 0 < length ka) by (destruct ka; [congruence | cbn; lia]). assert (Lb : 0 < length kb) by (destruct kb; [congruence | cbn; lia]).
    assert (Hn : forall (l : list (list nat)) i, i < length l -> exists k, rnth l i = Ok k).
    { intros l i Hi. unfold rnth. destruct (nth_error l i) as [k|] eqn:E; [exists k; reflexivity | apply nth_error_None in E; lia]. }
    induction fuel as [|f IH]; intros fl sl mids Hf Hm; [lia|]. cbn [add_loop].
    destruct (Nat.leb_spec fl (length ka - 1)) as [H1|H1]; [|exists mids; split; [reflexivity | exact Hm]].
    destruct (Nat.leb_spec sl (length kb - 1)) as [H2|H2]; [|exists mids; split; [reflexivity | exact Hm]]. cbn [andb].
    destruct (Hn kb sl) as (k & ->); [lia|]. destruct (Hn ka fl) as (kl & ->); [lia|]. cbn [rbind].
    assert (Happ : forall more, MidsIn (length kb) more -> MidsIn (length kb) (mids ++ more)) by (intros more H; apply Forall_app; split; assumption).
    destruct (compare_indexs k kl).
    - apply IH; [lia | exact Hm].
    - destruct (Hn kb (length kb - 1)) as (kr & ->); [lia|]. cbn [rbind]. destruct (compare_indexs kr kl).
      + eexists. split; [reflexivity|]. apply Happ, push_in. lia.
      + eexists. split; [reflexivity|]. apply Happ, push_in. lia.
      + apply IH; [lia|]. apply Happ. constructor; [cbn; lia | constructor].
    - destruct (Hn ka (length ka - 1)) as (kr & ->); [lia|]. cbn [rbind]. destruct (compare_indexs k kr).
      + eexists. split; [reflexivity|]. apply Happ, push_in. lia.
      + destruct (add_search_ok ka k (S (length ka - 1)) fl (length ka - 1) ((fl + (length ka - 1)) / 2)) as (m & b & -> & Hms);
          [lia | apply Nat.div_le_lower_bound; lia | apply Nat.div_le_upper_bound; lia | reflexivity | lia |].
        cbn [rbind fst snd]. apply IH; [lia|]. destruct b; [exact Hm|]. apply Happ. constructor; [cbn; lia | constructor].
      + eexists. split; [reflexivity|]. apply Happ, push_in. lia.
  Qed.
  Lemma span_split i mids : mids = fst (span_at i mids) ++ snd (span_at i mids).
  Proof. induction mids as [|m mids IH]; [reflexivity|]. cbn. destruct (_ =? i); [|reflexivity]. destruct (span_at i mids) as [a b]. cbn in *. f_equal. exact IH. Qed.
  Lemma add_merge_ok (P : id -> Prop) second : Forall P second -> forall first_ i mids, Forall P first_ -> MidsIn (length second) mids ->
    Within P (add_merge second i first_ mids).
  Proof.
    intros Hs.
    assert (HM : forall mids, MidsIn (length second) mids -> Within P (rmapl (mid_ele second) mids)).
    { intros mids Hm. apply (within_rmapl (fun m => fst m < length second)); [exact Hm|]. intros m Hl. unfold mid_ele, rnth.
      destruct (nth_error second (fst m)) as [x|] eqn:E; [|apply nth_error_None in E; lia]. exists x. split; [reflexivity|].
      rewrite Forall_forall in Hs. apply Hs. exact (nth_error_In _ _ E). }
    induction first_ as [|x rest IH]; intros i mids Hf Hm; cbn [add_merge]; [exact (HM mids Hm)|].
    pose proof (span_split i mids) as Es. destruct (span_at i mids) as [now later]. cbn [fst snd] in Es. rewrite Es in Hm. apply Forall_app in Hm. destruct Hm as [Hm1 Hm2].
    inversion Hf; subst. apply (within_bind P); [exact (HM now Hm1)|]. intros a Ha. apply (within_bind P); [apply IH; assumption|]. intros b Hb.
    apply within_ok. apply Forall_app. split; [exact Ha | constructor; assumption].
  Qed.
  Lemma add_within (P : id -> Prop) a b : Forall P a -> Forall P b -> Within P (add h a b).
  Proof.
    intros Ha Hb. unfold add. destruct a as [|x a]; [apply within_ok; exact Hb|]. destruct b as [|y b]; [apply within_ok; exact Ha|].
    assert (HK : forall l, rmapl (get_tree_indexs h) l = Ok (map (key h) l)).
    { induction l as [|z l IH]; [reflexivity|]. cbn [rmapl map]. rewrite (tree_indexs_key h wf z). cbn [rbind]. rewrite IH. reflexivity. }
    rewrite !HK. cbn [rbind].
    destruct (add_loop_ok (map (key h) (x :: a)) (map (key h) (y :: b)) ltac:(discriminate) ltac:(discriminate) (S (length (y :: b))) 0 0 []) as (mids & E & Hm).
    - rewrite map_length. lia.
    - constructor.
    - rewrite !map_length in E. rewrite E. cbn [rbind]. apply add_merge_ok; [exact Hb | exact Ha|]. rewrite map_length in Hm. exact Hm.
  Qed.
End Add.

(** * Rules on arbitrary sets of elements *)
Lemma in_skipn {A} n (l : list A) x : In x (skipn n l) -> In x l.
Proof. intros H. rewrite <- (firstn_skipn n l). apply in_or_app. right. exact H. Qed.
Lemma in_range {A} (l : list A) s e x : In x (range l s e) -> In x l.
Proof. unfold range. intros H. apply in_firstn in H. exact (in_skipn _ _ _ H). Qed.
Lemma asc_walk_sub sibs : forall cs start allow x, In x (asc_walk sibs cs start allow) -> In x sibs.
Proof.
  induction sibs as [|y sibs IH]; intros cs start allow x; [intros []|]. cbn [asc_walk]. destruct (pos_from cs y 0) as [i|]; [|intros H; right; exact (IH _ _ _ _ H)].
  destruct (allow_scan allow (start + i)) as [[hit allow'] stop]. intros H. apply in_app_or in H. destruct H as [H | H].
  - destruct hit; [destruct H as [-> | []]; left; reflexivity | destruct H].
  - destruct stop; [destruct H | right; exact (IH _ _ _ _ H)].
Qed.
Lemma desc_walk_sub cs : forall i sibs allow x, In x (desc_walk cs i sibs allow) -> In x cs.
Proof.
  induction cs as [|c cs IH]; intros i sibs allow x; [intros []|]. cbn [desc_walk]. destruct (allowed allow i); [|intros H; right; exact (IH _ _ _ _ H)].
  destruct (pos_from sibs c 0) as [k|].
  - intros [-> | H]; [left; reflexivity|]. destruct (nonempty (skipn (S k) sibs)); [right; exact (IH _ _ _ _ H) | destruct H].
  - destruct (nonempty sibs); [intros H; right; exact (IH _ _ _ _ H) | intros []].
Qed.
Lemma zget_within (P : id -> Prop) cs z : Forall P cs -> (0 <= z < Z.of_nat (length cs))%Z -> exists y, zget cs z = Ok y /\ P y.
Proof.
  intros HP Hz. unfold zget. destruct (Z.leb_spec 0 z); [|lia]. destruct (Z.ltb_spec z (Z.of_nat (length cs))); [|lia]. cbn [andb]. unfold rnth.
  destruct (nth_error cs (Z.to_nat z)) as [y|] eqn:E; [|apply nth_error_None in E; lia]. exists y. split; [reflexivity|]. rewrite Forall_forall in HP. exact (HP y (nth_error_In _ _ E)).
Qed.
Lemma nth_handle_within (P : id -> Prop) asc els s e allow cs : Forall P els -> Forall P cs -> Forall (fun z => (0 <= z < Z.of_nat (length cs))%Z) allow ->
  Within P (nth_handle asc els s e allow cs).
Proof.
  intros He Hc Ha. destruct asc; cbn [nth_handle]; unfold nth_asc, nth_desc; destruct (Nat.eqb (e - s) (length cs)).
  - apply (within_rmapl _ P (zget cs) allow Ha). intros z Hz. exact (zget_within P cs z Hc Hz).
  - apply within_ok. apply (forall_sub P els); [exact He|]. intros x Hx. apply asc_walk_sub in Hx. exact (in_range _ _ _ _ Hx).
  - apply (within_rmapl (fun z => (0 <= z < Z.of_nat (length cs))%Z)); [apply Forall_rev; exact Ha|]. intros z Hz. apply (zget_within P cs _ Hc). lia.
  - apply within_ok. apply Forall_rev. apply (forall_sub P cs); [exact Hc|]. intros x Hx. apply desc_walk_sub in Hx. apply in_rev in Hx. exact Hx.
Qed.
Lemma only_child_sub h els : forall prev x, In x (only_child_all h els prev) -> In x els.
Proof.
  induction els as [|y els IH]; intros prev x; [intros []|]. cbn [only_child_all]. destruct (parent h y) as [p|]; [|intros H; right; exact (IH _ _ H)].
  destruct (match prev with Some q => q =? p | None => false end); [intros H; right; exact (IH _ _ H)|]. intros H. apply in_app_or in H.
  destruct H as [H | H]; [|right; exact (IH _ _ H)]. destruct (length (children h p) =? 1); [destruct H as [-> | []]; left; reflexivity | destruct H].
Qed.
Lemma names_walk_runs h allow l : allow <> [] -> forall m, Returns (names_walk h m allow l).
Proof.
  intros Ha. induction l as [|x l IH]; intros m; [eexists; reflexivity|]. cbn [names_walk]. unfold allowed_name.
  destruct (count_get m (tag_name h x)).
  - cbn [rbind fst snd]. destruct (IH (count_set m (tag_name h x) (S n))) as (b & ->). eexists. reflexivity.
  - destruct allow as [|a rest]; [congruence|]. cbn [rbind fst snd]. destruct (IH (count_set m (tag_name h x) 0)) as (b & ->). eexists. reflexivity.
Qed.
Lemma avail_scan_sub h at_ sibs x : In x (fst (avail_scan h at_ sibs)) \/ In x (snd (avail_scan h at_ sibs)) -> In x sibs.
Proof.
  induction sibs as [|y sibs IH]; [intros [[] | []]|]. cbn [avail_scan]. destruct (index h y ?= at_); cbn [fst snd].
  - intros [[-> | []] | H]; [left; reflexivity | right; exact H].
  - intros H. right. exact (IH H).
  - intros [[] | H]. exact H.
Qed.
Lemma collect_sub h indexs : forall sibs x, In x (collect_avail h indexs sibs) -> In x sibs.
Proof.
  induction indexs as [|i indexs IH]; intros sibs x; [intros []|]. cbn [collect_avail]. destruct sibs as [|y sibs]; [intros []|].
  pose proof (avail_scan_sub h i (y :: sibs) x) as HS. destruct (avail_scan h i (y :: sibs)) as [found left_]. cbn [fst snd] in HS.
  intros H. apply in_app_or in H. apply HS. destruct H as [H | H]; [left; exact H | right; exact (IH _ _ H)].
Qed.
Lemma of_type_within h (P : id -> Prop) asc els s e p allow : Forall P els -> Within P (handle_nth_of_type h asc els s e (Some p) allow).
Proof.
  intros He. unfold handle_nth_of_type. destruct allow as [|a allow]; [apply within_ok; constructor|].
  assert (HC : forall indexs, Within P (Ok (collect_avail h indexs (range els s e)))).
  { intros indexs. apply within_ok. apply (forall_sub P els _ He). intros x Hx. apply collect_sub in Hx. exact (in_range _ _ _ _ Hx). }
  destruct asc.
  - destruct (names_walk_runs h (a :: allow) (children h p) ltac:(discriminate) []) as (b & ->). cbn [rbind]. apply HC.
  - destruct (names_walk_runs h (a :: allow) (rev (children h p)) ltac:(discriminate) []) as (b & ->). cbn [rbind]. apply HC.
Qed.
Lemma only_names_bound h cs : forall i onces rep n, (forall n, In n onces -> snd n < i) -> In n (only_names h cs i onces rep) -> snd n < i + length cs.
Proof.
  induction cs as [|c cs IH]; intros i onces rep n Ho; cbn [only_names length].
  - intros H. specialize (Ho n H). lia.
  - rewrite Nat.add_succ_r. destruct (existsb (str_eqb (tag_name h c)) rep).
    + apply (IH (S i)). intros m Hm. specialize (Ho m Hm). lia.
    + destruct (existsb (fun e => str_eqb (fst e) (tag_name h c)) onces).
      * apply (IH (S i)). intros m Hm. apply filter_In in Hm. specialize (Ho m (proj1 Hm)). lia.
      * apply (IH (S i)). intros m Hm. apply in_app_or in Hm. destruct Hm as [Hm | [<- | []]]; [specialize (Ho m Hm); lia | cbn; lia].
Qed.
Lemma name_scan_sub h name sibs y left_ : name_scan h name sibs = Some (y, left_) -> In y sibs /\ forall x, In x left_ -> In x sibs.
Proof.
  induction sibs as [|z sibs IH]; [discriminate|]. cbn [name_scan]. destruct (str_eqb (tag_name h z) name).
  - intros H. injection H as <- <-. split; [left; reflexivity | intros x Hx; right; exact Hx].
  - intros H. destruct (IH H) as [H1 H2]. split; [right; exact H1 | intros x Hx; right; exact (H2 x Hx)].
Qed.
Lemma only_walk_sub h names : forall sibs x, In x (only_walk h names sibs) -> In x sibs.
Proof.
  induction names as [|[name i] names IH]; intros sibs x; [intros []|]. cbn [only_walk]. destruct (name_scan h name sibs) as [[y left_]|] eqn:E; [|apply IH].
  destruct (name_scan_sub h name sibs y left_ E) as [H1 H2]. intros [<- | H]; [exact H1 | exact (H2 x (IH _ _ H))].
Qed.

Section Rules.
  Variable h : heap.
  Variable r : id.
  Hypothesis D : DocOk h r.
  Let wf : WF h := do_wf h r D.
  Notation El := (Forall (ElIn h r)).

  Definition Family (p : id) : Prop := InTree h r p /\ children h p <> [].
  Lemma el_family x : ElIn h r x -> exists p, parent h x = Some p /\ Family p.
  Proof.
    intros Hx. destruct (el_parent h r D x Hx) as (p & Ep & Hp & Hl). exists p. split; [exact Ep|]. split; [exact Hp|]. intros E.
    assert (Hi : In x (children h p)) by (apply in_children; split; [exists (index h x); exact Hl | exact (proj2 Hx)]). rewrite E in Hi. exact Hi.
  Qed.
  Lemma kids_el p : InTree h r p -> El (children h p).
  Proof. intros Hp. apply Forall_forall. intros c Hc. exact (el_child h r p c Hp Hc). Qed.
  Lemma groups_family els : El els -> forall i cur, (forall g, cur = Some g -> Family (snd g)) -> Forall (fun g => Family (snd g)) (sib_groups h els i cur).
  Proof.
    intros He. induction He as [|x els Hx _ IH]; intros i cur Hc; cbn [sib_groups].
    - destruct cur as [g|]; [constructor; [exact (Hc g eq_refl) | constructor] | constructor].
    - destruct (el_family x Hx) as (p & -> & Hp). destruct cur as [[[s e] q]|].
      + destruct (p =? q); [apply IH; intros g E; injection E as <-; exact (Hc _ eq_refl)|]. constructor; [exact (Hc _ eq_refl)|].
        apply IH. intros g E. injection E as <-. exact Hp.
      + apply IH. intros g E. injection E as <-. exact Hp.
  Qed.
  Lemma sib_rule els (F : sgroup -> res (list id)) : El els -> (forall g, Family (snd g) -> Within (ElIn h r) (F g)) -> Within (ElIn h r) (rflat F (group_siblings h els)).
  Proof. intros He HF. apply (within_rflat (fun g => Family (snd g))); [|exact HF]. apply groups_family; [exact He | discriminate]. Qed.

  Lemma nth_family f p : NthOk h r f -> Family p ->
    exists l, get_allowed_indexs f (length (children h p)) = Ok l /\ Forall (fun z => (0 <= z < Z.of_nat (length (children h p)))%Z) l.
  Proof.
    intros Hf [Hp Hc]. destruct (nth_ok_at h r f p Hf Hp Hc) as (l & El & _ & Hl). exists l. split; [exact El | exact (allow_range f _ l Hl)].
  Qed.
  Lemma nth_child_none_t asc f els : NthOk h r f -> El els -> Within (ElIn h r) (nth_child_all h asc f els None).
  Proof.
    intros Hf He. cbn [nth_child_all]. apply sib_rule; [exact He|]. intros [[s e] p] Hp. cbn [snd] in *. destruct (nth_family f p Hf Hp) as (l & -> & Hl). cbn [rbind handle_nth_child].
    destruct l as [|a l]; [apply within_ok; constructor|]. apply nth_handle_within; [exact He | exact (kids_el p (proj1 Hp)) | exact Hl].
  Qed.
  Lemma nth_child_some_t asc f p b : NthOk h r f -> Family p -> Within (ElIn h r) (nth_child_all h asc f (children h p) (Some b)).
  Proof.
    intros Hf Hp. cbn [nth_child_all]. destruct (nth_family f p Hf Hp) as (l & -> & Hl). cbn [rbind].
    apply nth_handle_within; [exact (kids_el p (proj1 Hp)) | exact (kids_el p (proj1 Hp)) | exact Hl].
  Qed.
  Lemma first_child_t asc els : El els -> Within (ElIn h r) (first_child_all h asc els).
  Proof.
    intros He. apply sib_rule; [exact He|]. intros [[s e] p] Hp. cbn [snd handle_nth_child] in *. apply nth_handle_within; [exact He | exact (kids_el p (proj1 Hp))|].
    destruct Hp as [_ Hp]. constructor; [|constructor]. destruct (children h p); [congruence | cbn [length]; lia].
  Qed.
  Lemma nth_type_none_t asc f els : NthOk h r f -> El els -> Within (ElIn h r) (nth_of_type_all h asc f els None).
  Proof.
    intros Hf He. cbn [nth_of_type_all]. apply sib_rule; [exact He|]. intros [[s e] p] Hp. cbn [snd] in *. destruct (nth_family f p Hf Hp) as (l & -> & Hl). cbn [rbind].
    apply of_type_within. exact He.
  Qed.
  Lemma nth_type_some_t asc f p b : NthOk h r f -> Family p -> Within (ElIn h r) (nth_of_type_all h asc f (children h p) (Some b)).
  Proof.
    intros Hf Hp. cbn [nth_of_type_all]. destruct (nth_family f p Hf Hp) as (l & -> & Hl). cbn [rbind]. pose proof (kids_el p (proj1 Hp)) as HK.
    destruct Hp as [Hp Hc]. destruct (children h p) as [|c cs] eqn:Ec; [congruence|]. destruct (el_family c (Forall_inv HK)) as (q & -> & _). apply of_type_within. exact HK.
  Qed.
  Lemma first_type_t asc els : El els -> Within (ElIn h r) (first_of_type_all h asc els).
  Proof. intros He. apply sib_rule; [exact He|]. intros [[s e] p] Hp. apply of_type_within. exact He. Qed.
  Lemma only_type_t els : El els -> Within (ElIn h r) (only_of_type_all h els).
  Proof.
    intros He. apply sib_rule; [exact He|]. intros [[s e] p] Hp. assert (HR : El (range els s e)) by (apply (forall_sub _ els _ He); intros x; apply in_range). cbv zeta.
    destruct (Nat.eqb_spec (length (range els s e)) (length (children h p))) as [Hn | _].
    - apply (within_rmapl (fun n : str * nat => snd n < length (range els s e))).
      + apply Forall_forall. intros n Hm. rewrite Hn. apply (only_names_bound h (children h p) 0 [] [] n); [intros m [] | exact Hm].
      + intros n Hm. unfold rnth. destruct (nth_error (range els s e) (snd n)) as [y|] eqn:E; [|apply nth_error_None in E; lia]. exists y. split; [reflexivity|].
        rewrite Forall_forall in HR. exact (HR y (nth_error_In _ _ E)).
    - apply within_ok. apply (forall_sub _ _ _ HR). intros x. apply only_walk_sub.
  Qed.
  Lemma only_child_t els : El els -> El (only_child_all h els None).
  Proof. intros He. apply (forall_sub _ els _ He). intros x. apply only_child_sub. Qed.

  Lemma checked_t x : ElIn h r x -> Returns (checked_one h x).
  Proof.
    intros Hx. unfold checked_one. destruct (is_tag h x (lit "input")).
    { destruct (el_attr h r D x (lit "type") Hx) as (a & ->). cbn [rbind]. destruct a as [[v q|]|]; try (eexists; reflexivity).
      destruct (_ || _); [|eexists; reflexivity]. destruct (el_has h r D x (lit "checked") Hx) as (b & -> & _). eexists. reflexivity. }
    destruct (is_tag h x (lit "option")); [|eexists; reflexivity]. destruct (el_has h r D x (lit "selected") Hx) as (b & -> & _). cbn [rbind].
    destruct b; [eexists; reflexivity|]. destruct (parent h x) as [p|] eqn:Ep; [|eexists; reflexivity].
    destruct (is_tag h p (lit "select")) eqn:Es; [|eexists; reflexivity].
    destruct (start_parent h r D x p (proj1 Hx) Ep) as [Hp Hl]. assert (Hpe : ElIn h r p).
    { split; [exact Hp|]. apply is_tag_spec in Es; [|discriminate|reflexivity]. exact (proj1 Es). }
    destruct (el_has h r D p (lit "multiple") Hpe) as (b & -> & _). cbn [rbind]. destruct b; [eexists; reflexivity|].
    destruct (listed_split h p _ x Hl) as (pre & post & Ek & _). pose proof (kids_length h r D p) as HK. rewrite Ek, app_length in HK. cbn [length] in HK.
    destruct (option_before_spec h r D (S (length h)) x p pre post Ek ltac:(lia)) as (b & -> & _). cbn [rbind]. destruct b; [eexists; reflexivity|].
    destruct (selected_after_spec h r D (S (length h)) x p pre post Hp Ek ltac:(lia)) as (b & -> & _). eexists. reflexivity.
  Qed.
End Rules.

(** * Running a compiled selector *)
Lemma returns_bind {A B} (P : A -> Prop) (e : res (list A)) (f : list A -> res B) : Within P e -> (forall l, Forall P l -> Returns (f l)) -> Returns (rbind e f).
Proof. intros (l & -> & Hl) Hf. exact (Hf l Hl). Qed.
Lemma within_flat_map {A B} (P : A -> Prop) (Q : B -> Prop) (f : A -> list B) l : Forall P l -> (forall x y, P x -> In y (f x) -> Q y) -> Forall Q (flat_map f l).
Proof. intros H Hf. apply Forall_forall. intros y Hy. apply in_flat_map in Hy. destruct Hy as (x & Hx & Hy). rewrite Forall_forall in H. exact (Hf x y (H x Hx) Hy). Qed.
Lemma not_in_sub search l : forall i x, In x (not_in_from search i l) -> In x l.
Proof.
  induction l as [|y l IH]; intros i x; [intros []|]. cbn [not_in_from]. destruct (index_of search y i); [intros H; right; exact (IH _ _ H)|].
  intros [-> | H]; [left; reflexivity | right; exact (IH _ _ H)].
Qed.

Section Engine.
  Variable h : heap.
  Variable r : id.
  Hypothesis D : DocOk h r.
  Let wf : WF h := do_wf h r D.
  Notation ElIn := (ElIn h r).
  Notation El := (Forall ElIn).

  Record MCalm (m : matcher) : Prop := mkMCalm {
    mc_apply : forall l, El l -> Within ElIn (apply m l None);
    mc_one : forall g, mt_one m = Some g -> forall x, ElIn x -> Returns (g x);
    mc_all : mt_one m = None -> exists g, mt_all m = Some g;
    mc_kids : mt_one m = None -> mt_spec m = None -> forall g, mt_all m = Some g -> forall p, Family h r p -> Within ElIn (g (children h p) (Some false));
    mc_spec : mt_one m = None -> forall g, mt_spec m = Some g -> forall p, InTree h r p -> kids h p <> [] -> Within (fun e => In (fst (fst e)) (children h p)) (g p);
    mc_cache : mt_cache m = true -> forall els, Forall (Start h r) els -> Within ElIn (apply m els (Some true)) }.
  (** What is asked of the first rule where a node has no child nodes, no element children. *)
  Definition LeafSpec (m : matcher) (els : list id) : Prop := mt_one m = None -> forall g x, In x els -> mt_spec m = Some g -> kids h x = [] -> g x = Ok [].
  Definition NoKids (m : matcher) (els : list id) : Prop := mt_one m = None -> mt_spec m = None -> forall g x, In x els -> children h x = [] -> mt_all m = Some g -> g [] (Some false) = Ok [].
  Definition Goes (c : comb) (m : matcher) (els : list id) : Prop :=
    match c with
    | ChildrenAll => Forall (Start h r) els /\ (mt_cache m = true \/ Ordered h els /\ LeafSpec m els)
    | Children => Forall (Start h r) els /\ LeafSpec m els /\ NoKids m els
    | Next | NextAll => AllIn h r els
    | _ => El els
    end.

  Lemma el_in l : El l -> AllIn h r l.
  Proof. apply Forall_impl. intros x Hx. exact (proj1 Hx). Qed.
  Lemma el_start l : El l -> Forall (Start h r) l.
  Proof. apply Forall_impl. intros x Hx. split; [exact (proj1 Hx) | left; exact (proj2 Hx)]. Qed.
  Lemma sort_t l : El l -> Within ElIn (sort h l).
  Proof. intros Hl. destruct (sort_ok h wf r l) as (l' & -> & HP & _). apply within_ok. exact (Permutation_Forall (Permutation_sym HP) Hl). Qed.
  Lemma sau_t l : El l -> Within ElIn (sort_and_unique h l).
  Proof.
    intros Hl. destruct (sort_and_unique_ok h wf r l (el_in l Hl)) as (l' & -> & _ & HS). apply within_ok. apply (forall_sub _ l); [exact Hl|].
    intros x Hx. apply HS. exact Hx.
  Qed.
  Lemma use_one m g l : MCalm m -> mt_one m = Some g -> El l -> Within ElIn (rfilter g l).
  Proof. intros M E Hl. apply within_rfilter; [exact Hl | exact (mc_one m M g E)]. Qed.

  Lemma dfs_one_t g : (forall x, ElIn x -> Returns (g x)) -> forall f x, InTree h r x -> Deep h f x -> Within ElIn (dfs_one h f g x).
  Proof.
    intros Hg. induction f as [|f IH]; intros x Hx Hd; [destruct (deep_pos h r D 0 x Hd) as (k & E); discriminate|]. cbn [dfs_one].
    apply (within_rflat (fun c => In c (children h x))); [apply Forall_forall; intros c Hc; exact Hc|]. intros c Hc. pose proof (el_child h r x c Hx Hc) as Hce.
    destruct (Hg c Hce) as (b & ->). cbn [rbind].
    assert (HS : Within ElIn (if 0 <? child_nodes_length h c then dfs_one h f g c else Ok [])).
    { destruct (0 <? child_nodes_length h c); [|apply within_ok; constructor]. apply IH; [exact (proj1 Hce)|].
      apply (deep_child h r D f x c Hd). apply in_children in Hc. exact (proj1 Hc). }
    apply (within_bind ElIn _ _ _ HS). intros l Hl. apply within_ok. destruct b; [constructor; assumption | exact Hl].
  Qed.
  Lemma dfs_spec_t g : (forall p, InTree h r p -> kids h p <> [] -> Within (fun e => In (fst (fst e)) (children h p)) (g p)) ->
    forall f x, InTree h r x -> Deep h f x -> kids h x <> [] -> Within ElIn (dfs_spec h f g x).
  Proof.
    intros Hg. induction f as [|f IH]; intros x Hx Hd Hk; [destruct (deep_pos h r D 0 x Hd) as (k & E); discriminate|]. cbn [dfs_spec].
    apply (within_bind _ _ _ _ (Hg x Hx Hk)). intros calls Hcalls. apply (within_rflat _ _ _ _ Hcalls). intros [[c b] lc] Hc. cbn [fst] in Hc.
    pose proof (el_child h r x c Hx Hc) as Hce.
    assert (HS : Within ElIn (if lc && (0 <? child_nodes_length h c) then dfs_spec h f g c else Ok [])).
    { destruct lc; cbn [andb]; [|apply within_ok; constructor]. destruct (Nat.ltb_spec 0 (child_nodes_length h c)) as [Hl | _]; [|apply within_ok; constructor].
      apply IH; [exact (proj1 Hce) | | intros E; unfold child_nodes_length in Hl; rewrite E in Hl; cbn in Hl; lia].
      apply (deep_child h r D f x c Hd). apply in_children in Hc. exact (proj1 Hc). }
    apply (within_bind ElIn _ _ _ HS). intros l Hl. apply within_ok. destruct b; [constructor; assumption | exact Hl].
  Qed.
  Lemma dfs_all_t g : (forall p, Family h r p -> Within ElIn (g (children h p) (Some false))) ->
    forall f x, InTree h r x -> Deep h f x -> Within ElIn (dfs_all h f g x).
  Proof.
    intros Hg. induction f as [|f IH]; intros x Hx Hd; [destruct (deep_pos h r D 0 x Hd) as (k & E); discriminate|]. cbn [dfs_all]. cbv zeta.
    destruct (nonempty (children h x)) eqn:En; [|apply within_ok; constructor].
    assert (HF : Family h r x) by (split; [exact Hx | intros E; rewrite E in En; discriminate]).
    apply (within_bind _ _ _ _ (Hg x HF)). intros matched _. clear En HF.
    assert (HC : forall c, In c (children h x) -> ElIn c /\ Within ElIn (if 0 <? child_nodes_length h c then dfs_all h f g c else Ok [])).
    { intros c Hc. pose proof (el_child h r x c Hx Hc) as Hce. split; [exact Hce|]. destruct (0 <? child_nodes_length h c); [|apply within_ok; constructor].
      apply IH; [exact (proj1 Hce)|]. apply (deep_child h r D f x c Hd). apply in_children in Hc. exact (proj1 Hc). }
    revert matched HC. induction (children h x) as [|c cs IHc]; intros matched HC; [apply within_ok; constructor|]. cbv zeta.
    destruct (HC c (or_introl eq_refl)) as [Hce HS]. apply (within_bind ElIn _ _ _ HS). intros l Hl.
    refine (within_bind ElIn _ _ _ (IHc _ (fun c' Hc' => HC c' (or_intror Hc'))) _). intros rest Hr. apply within_ok.
    apply Forall_app. split; [|apply Forall_app; split; assumption].
    destruct matched as [|m matched]; [constructor|]. destruct (c =? m); [constructor; [exact Hce | constructor] | constructor].
  Qed.
  Lemma dfs_t m els x : MCalm m -> InTree h r x -> In x els -> LeafSpec m els -> Within ElIn (dfs h m x).
  Proof.
    intros M Hx Hi HL. unfold dfs. pose proof (deep_full h r D x) as Hd. fold (dfs_fuel h) in Hd. destruct (mt_one m) as [g|] eqn:E1; [exact (dfs_one_t g (mc_one m M g E1) _ x Hx Hd)|].
    destruct (mt_spec m) as [g|] eqn:E2.
    - destruct (kids h x) as [|k ks] eqn:Ek; [|apply (dfs_spec_t g (mc_spec m M E1 g E2) _ x Hx Hd); congruence].
      unfold dfs_fuel. cbn [dfs_spec]. rewrite (HL E1 g x Hi E2 Ek). apply within_ok. constructor.
    - destruct (mc_all m M E1) as (g & E3). unfold get_all_handle. rewrite E3. cbn [rbind]. exact (dfs_all_t g (mc_kids m M E1 E2 g E3) _ x Hx Hd).
  Qed.

  Lemma rule_t m c els : MCalm m -> Goes c m els -> (c = ChildrenAll -> mt_cache m = false) -> Within ElIn (select_by_rule h els m c).
  Proof.
    intros M HG HC. destruct c; cbn [Goes select_by_rule] in *.
    - destruct HG as [HS [E | [HO HL]]]; [rewrite (HC eq_refl) in E; discriminate|]. destruct (ordered_inc h r D els (conj HS HO)) as (_ & HN & HI).
      destruct (starts_ok h r D els HS HN HI HO) as (l & -> & _ & Hm). cbn [rbind]. apply (within_rflat (fun x => In x els)).
      + apply Forall_forall. intros x Hx. apply Hm in Hx. exact (proj1 Hx).
      + intros x Hx. rewrite Forall_forall in HS. exact (dfs_t m els x M (proj1 (HS x Hx)) Hx HL).
    - destruct HG as (HS0 & HL & HK). assert (HS : Forall (fun x => In x els /\ InTree h r x) els).
      { rewrite Forall_forall in HS0. apply Forall_forall. intros x Hx. split; [exact Hx | exact (proj1 (HS0 x Hx))]. }
      destruct (mt_one m) as [g|] eqn:E1.
      { apply (within_rflat _ _ _ _ HS). intros x [_ Hx]. exact (use_one m g _ M E1 (kids_el h r x Hx)). }
      destruct (mt_spec m) as [g|] eqn:E2.
      { apply (within_rflat _ _ _ _ HS). intros x [Hi Hx]. destruct (kids h x) as [|k ks] eqn:Ek; [rewrite (HL E1 g x Hi E2 Ek); apply within_ok; constructor|].
        apply (within_bind _ _ _ _ (mc_spec m M E1 g E2 x Hx ltac:(congruence))). intros calls Hcalls. apply within_ok. apply (within_flat_map _ _ _ _ Hcalls).
        intros [[c b] lc] y Hc Hy. cbn [fst] in Hc. destruct b; [destruct Hy as [<- | []]; exact (el_child h r x c Hx Hc) | destruct Hy]. }
      destruct (mc_all m M E1) as (g & E3). unfold get_all_handle. rewrite E3. cbn [rbind]. apply (within_rflat _ _ _ _ HS). intros x [Hi Hx].
      destruct (children h x) as [|k ks] eqn:Ek; [rewrite (HK E1 E2 g x Hi Ek E3); apply within_ok; constructor|]. rewrite <- Ek. apply (mc_kids m M E1 E2 g E3).
      split; [exact Hx | congruence].
    - rewrite (us_first h r D els (el_in els HG)). cbn [rbind]. cbv zeta.
      assert (HP : El (flat_map (parent_el h) (firsts h [] els))).
      { apply (within_flat_map _ _ _ _ (firsts_els h r els HG)). intros x y Hx Hy. pose proof (step_els h r D Parent x eq_refl Hx) as HE.
        rewrite Forall_forall in HE. exact (HE y Hy). }
      destruct (mt_one m) as [g|] eqn:E1; [exact (use_one m g _ M E1 HP)|]. destruct (mc_all m M E1) as (g & E3). unfold get_all_handle. rewrite E3. cbn [rbind].
      pose proof (mc_apply m M _ HP) as HA. unfold apply in HA. rewrite E3 in HA. exact HA.
    - assert (HA : forall x, ElIn x -> exists l, ancestors h (dfs_fuel h) x = Ok l /\ El l).
      { intros x Hx. exists (anc_list (dfs_fuel h) h x). split; [exact (proj1 (anc_full h r D x (proj1 Hx))) | exact (step_els h r D ParentAll x eq_refl Hx)]. }
      destruct (mt_one m) as [g|] eqn:E1.
      + refine (within_bind ElIn _ _ _ _ sau_t). apply (within_rflat _ _ _ _ HG). intros x Hx. destruct (HA x Hx) as (l & -> & Hl). cbn [rbind]. exact (use_one m g l M E1 Hl).
      + refine (within_bind ElIn _ _ _ _ _); [apply (within_rflat _ _ _ _ HG); intros x Hx; destruct (HA x Hx) as (l & -> & Hl); apply within_ok; exact Hl|].
        intros l Hl. apply (within_bind _ _ _ _ (sau_t l Hl)). intros l' Hl'. destruct (mc_all m M E1) as (g & E3). unfold get_all_handle. rewrite E3. cbn [rbind].
        pose proof (mc_apply m M _ Hl') as Ha. unfold apply in Ha. rewrite E3 in Ha. exact Ha.
    - rewrite (us_first h r D els HG). cbn [rbind]. apply (within_rflat (InTree h r)).
      { apply (forall_sub _ els _ HG). intros x. apply firsts_sub. }
      intros x Hx. rewrite (nexts_eq h r D x Hx). cbn [rbind]. apply (mc_apply m M). apply Forall_forall. intros y Hy. apply (in_following h r D x y Hx) in Hy.
      exact (proj1 (following_facts h r D x y Hx Hy)).
    - cbv zeta. assert (HP : El (flat_map (fun x => opt_list (next_element_sibling h x)) els)).
      { apply (within_flat_map _ _ _ _ HG). intros x y Hx Hy. rewrite next_eq in Hy. apply (in_next h r D x y Hx) in Hy.
        exact (proj1 (following_facts h r D x y Hx (next_following h x y Hy))). }
      destruct (mt_one m) as [g|] eqn:E1; [exact (use_one m g _ M E1 HP) | exact (mc_apply m M _ HP)].
    - rewrite (us_last h r D els (el_in els HG)). cbn [rbind]. apply (within_rflat _ _ _ _ (lasts_els h r els HG)). intros x Hx.
      rewrite (prevs_eq h r D x (proj1 Hx)). cbn [rbind]. apply (mc_apply m M). apply Forall_forall. intros y Hy. apply (in_preceding h r D x y (proj1 Hx)) in Hy.
      exact (proj1 (preceding_facts h r D x y (proj1 Hx) Hy)).
    - refine (within_bind ElIn _ _ _ _ _).
      + apply (within_rflat _ _ _ _ HG). intros x Hx. rewrite (prev_eq h r D x (proj1 Hx)). apply within_ok. apply Forall_forall. intros y Hy.
        apply (in_prev h r D x y (proj1 Hx)) in Hy. exact (proj1 (preceding_facts h r D x y (proj1 Hx) (prev_preceding h x y Hy))).
      + intros ps HP. destruct (mt_one m) as [g|] eqn:E1; [exact (use_one m g _ M E1 HP) | exact (mc_apply m M _ HP)].
    - rewrite (ua_ok h r D els HG). cbn [rbind].
      apply (within_rflat (fun e : id * bool => if snd e then InTree h r (fst e) else ElIn (fst e))).
      + apply Forall_forall. intros e He. apply in_map_iff in He. destruct He as (x & <- & Hx). pose proof (firsts_els h r els HG) as HF. rewrite Forall_forall in HF.
        specialize (HF x Hx). unfold ua_out. destruct (el_parent h r D x HF) as (p & -> & Hp & _). destruct (multi h els p); [exact Hp | exact HF].
      + intros [x b] He. cbn [fst snd] in He. destruct b; cbn [rbind]; [exact (mc_apply m M _ (kids_el h r x He))|].
        rewrite (siblings_eq h r D x He). cbn [rbind]. apply (mc_apply m M). apply Forall_app. split; apply Forall_forall; intros y Hy.
        * apply (in_preceding h r D x y (proj1 He)) in Hy. exact (proj1 (preceding_facts h r D x y (proj1 He) Hy)).
        * apply (in_following h r D x y (proj1 He)) in Hy. exact (proj1 (following_facts h r D x y (proj1 He) Hy)).
    - exact (mc_apply m M els HG).
  Qed.

  Definition CalmRest (rest : compound) : Prop := Forall (fun s => MCalm (fst s) /\ snd s = Chain) rest.
  Definition CalmComp (cp : compound) : Prop := match cp with [] => False | (m, c) :: rest => MCalm m /\ CalmRest rest end.
  Definition head_m (cp : compound) : matcher := match cp with (m, _) :: _ => m | [] => all_matcher end.
  Lemma chain_t rest : CalmRest rest -> forall els, El els -> Within ElIn (chain_rest h els rest).
  Proof.
    intros HR. induction HR as [|[m c] rest [M E] _ IH]; intros els He; [apply within_ok; exact He|]. cbn [fst snd] in M, E. subst c. cbn [chain_rest].
    destruct (nonempty els); [|apply within_ok; exact He]. refine (within_bind ElIn _ _ _ (rule_t m Chain els M He _) IH). discriminate.
  Qed.
  Lemma select_t els cp o c : CalmComp cp -> match o with Some c' => c' | None => comp_comb cp end = c -> Goes c (head_m cp) els -> Within ElIn (select h els cp o).
  Proof.
    intros HC Ec HG. destruct cp as [|[m c1] rest]; [destruct HC|]. destruct HC as [M HR]. unfold select. cbn [rnth nth_error rbind tl head_m comp_comb] in *. rewrite Ec.
    refine (within_bind ElIn _ _ _ _ (chain_t rest HR)). destruct (mt_cache m && comb_eqb c ChildrenAll) eqn:Eb.
    - apply andb_true_iff in Eb. destruct Eb as [Em Ecc]. assert (Ech : c = ChildrenAll) by (destruct c; try discriminate; reflexivity). subst c. rewrite Ech in HG.
      destruct HG as [HS _]. apply (within_bind _ _ _ _ (mc_cache m M Em els HS)). intros l Hl. destruct (nonempty l); [|apply within_ok; constructor].
      refine (within_bind ElIn _ _ _ _ sau_t). rewrite Ech. apply (within_rfilter _ _ _ Hl). intros x Hx.
      destruct (has_plain_ok h r D els x ChildrenAll HS Hx eq_refl) as (b & E & _). exists b. exact E.
    - apply (rule_t m c els M HG). intros ->. cbn [comb_eqb] in Eb. rewrite andb_true_r in Eb. exact Eb.
  Qed.

  Definition backc (c : comb) : bool := match c with Parent | ParentAll | Prev | PrevAll => true | _ => false end.
  Lemma reverse_back c : fwd c = true -> exists rc, comb_reverse c = Ok rc /\ backc rc = true.
  Proof. destruct c; try discriminate; intros _; eexists; split; reflexivity. Qed.
  Lemma goes_back c m els : backc c = true -> El els -> Goes c m els.
  Proof. destruct c; try discriminate; intros _ H; exact H. Qed.
  Lemma final_t set els c : backc c = true -> El els -> Returns (has_final h set els c).
  Proof.
    intros Hc He. destruct c; try discriminate; cbn [has_final].
    - eexists. reflexivity.
    - apply (returns_rexists _ _ _ He). intros x Hx. destruct (has_above_full h r D set x (proj1 Hx)) as (b & E & _). exists b. exact E.
    - apply (returns_rexists _ _ _ He). intros x Hx. rewrite (prevs_eq h r D x (proj1 Hx)). eexists. reflexivity.
    - apply (returns_rexists _ _ _ He). intros x Hx. pose proof (prev_eq h r D x (proj1 Hx)) as E. destruct (previous_element_sibling h x); try discriminate. eexists. reflexivity.
  Qed.
  Definition FwdComp (cp : compound) : Prop := CalmComp cp /\ fwd (comp_comb cp) = true.
  Lemma lookup_t look : Forall FwdComp look -> forall els c, El els -> backc c = true ->
    has_lookup h els c look = Ok None \/ exists els' c', has_lookup h els c look = Ok (Some (els', c')) /\ El els' /\ backc c' = true.
  Proof.
    intros HL. induction HL as [|cp look [HC HF] _ IH]; intros els c He Hc; [right; exists els, c; auto|]. cbn [has_lookup].
    destruct (select_t els cp (Some c) c HC eq_refl (goes_back c _ els Hc He)) as (l & -> & Hl). cbn [rbind]. destruct (nonempty l); [|left; reflexivity].
    destruct cp as [|[m c1] rest]; [destruct HC|]. cbn [rnth nth_error rbind snd comp_comb] in *. destruct (reverse_back c1 HF) as (rc & -> & Hrc). cbn [rbind].
    exact (IH l rc Hl Hrc).
  Qed.
  Lemma has_ele_t set x c look : ElIn x -> fwd c = true -> Forall FwdComp look -> Returns (has_ele h set x c look).
  Proof.
    intros Hx Hc HL. unfold has_ele. destruct (reverse_back c Hc) as (rc & -> & Hrc). cbn [rbind].
    destruct (lookup_t (rev look) (Forall_rev HL) [x] rc ltac:(constructor; [exact Hx | constructor]) Hrc) as [-> | (els & c' & -> & He & Hc')]; cbn [rbind].
    - exists false. reflexivity.
    - exact (final_t set els c' Hc' He).
  Qed.

  (** * filter, is, not, is_all, has *)
  Definition CalmSel (s : selector) : Prop := Forall (fun p => Forall FwdComp (query p)) s.
  Lemma filter_process_t els root p : El els -> Forall FwdComp (query p) ->
    exists l root', filter_process h els root p = Ok (l, root') /\ El l.
  Proof.
    intros He HQ. unfold filter_process. cbv zeta. pose proof (Forall_rev HQ) as HR. destruct (rev (query p)) as [|lq before] eqn:Er; [exists [], root; split; [reflexivity | constructor]|].
    inversion HR as [|? ? [HC HF] HB]; subst. destruct lq as [|[m c] rest]; [destruct HC|]. destruct HC as [M HT]. cbn [rnth nth_error rbind fst snd tl comp_comb] in *.
    destruct (rule_t m Chain els M He ltac:(discriminate)) as (l0 & -> & Hl0). cbn [rbind].
    destruct (chain_t rest HT l0 Hl0) as (l & -> & Hl). cbn [rbind]. destruct l as [|x l]; [eexists _, _; split; [reflexivity | exact Hl]|].
    destruct before as [|b before]; [eexists _, _; split; [reflexivity | exact Hl]|].
    match goal with |- context [has_ele h [?rt]] => generalize rt end. intros rt.
    assert (HW : Within ElIn (rfilter (fun y => has_ele h [rt] y c (rev (b :: before))) (x :: l))).
    { apply (within_rfilter _ _ _ Hl). intros y Hy. apply (has_ele_t _ y c _ Hy HF). apply Forall_rev. exact HB. }
    destruct HW as (l' & -> & Hl'). eexists _, _. split; [reflexivity | exact Hl'].
  Qed.
  Lemma filter_loop_t els mode s : El els -> CalmSel s -> forall root result, El result -> exists l b, filter_loop h els mode root result s = Ok (l, b) /\ El l.
  Proof.
    intros He HS. induction HS as [|p s Hp _ IH]; intros root result Hr; [eexists _, _; split; [reflexivity | exact Hr]|]. cbn [filter_loop].
    destruct (filter_process_t els root p He Hp) as (l & root' & -> & Hl). cbn [rbind]. destruct (nonempty l); [|exact (IH root' result Hr)].
    destruct mode; [eexists _, _; split; [reflexivity | exact Hr]|]. destruct (add_within h wf ElIn result l Hr Hl) as (l' & -> & Hl'). cbn [rbind]. exact (IH root' l' Hl').
  Qed.
  Lemma handle_t els s t : El els -> CalmSel s -> exists l b, filter_type_handle h els s t = Ok (l, b) /\ El l.
  Proof.
    intros He HS. unfold filter_type_handle. destruct (filter_loop_t els (match t with FIs => true | _ => false end) s He HS None [] ltac:(constructor)) as (l & b & -> & Hl).
    cbn [rbind]. destruct t; eexists _, _; (split; [reflexivity|]); try exact Hl. destruct (nonempty l); [|exact He].
    apply (forall_sub _ els _ He). intros x. apply not_in_sub.
  Qed.
  Lemma filter_sel_t els s : El els -> CalmSel s -> Within ElIn (filter_sel h els s).
  Proof. intros He HS. unfold filter_sel. destruct (nonempty els); [|apply within_ok; constructor]. destruct (handle_t els s FFilter He HS) as (l & b & -> & Hl). apply within_ok. exact Hl. Qed.
  Lemma not_sel_t els s : El els -> CalmSel s -> Within ElIn (not_sel h els s).
  Proof. intros He HS. unfold not_sel. destruct (nonempty els); [|apply within_ok; constructor]. destruct (handle_t els s FNot He HS) as (l & b & -> & Hl). apply within_ok. exact Hl. Qed.
  Lemma is_sel_t els s : El els -> CalmSel s -> Returns (is_sel h els s).
  Proof. intros He HS. unfold is_sel. destruct (nonempty els); [|exists false; reflexivity]. destruct (handle_t els s FIs He HS) as (l & b & -> & Hl). exists b. reflexivity. Qed.
  Lemma is_all_sel_t els s : El els -> CalmSel s -> Returns (is_all_sel h els s).
  Proof. intros He HS. unfold is_all_sel. destruct (nonempty els); [|exists false; reflexivity]. destruct (handle_t els s FIsAll He HS) as (l & b & -> & Hl). exists b. reflexivity. Qed.
  Lemma has_loop_t s : CalmSel s -> forall f x, InTree h r x -> Deep h f x -> Returns (has_loop h f s x).
  Proof.
    intros HS. induction f as [|f IH]; intros x Hx Hd; [destruct (deep_pos h r D 0 x Hd) as (k & E); discriminate|]. cbn [has_loop]. cbv zeta.
    destruct (nonempty (children h x)); [|exists false; reflexivity]. pose proof (kids_el h r x Hx) as HK. destruct (handle_t (children h x) s FIs HK HS) as (l & b & -> & _).
    cbn [rbind snd]. destruct b; [exists true; reflexivity|]. apply (returns_rexists (fun c => In c (children h x))); [apply Forall_forall; intros c Hc; exact Hc|].
    intros c Hc. rewrite Forall_forall in HK. apply IH; [exact (proj1 (HK c Hc))|]. apply (deep_child h r D f x c Hd). apply in_children in Hc. exact (proj1 Hc).
  Qed.
  Lemma has_sel_t els s : El els -> CalmSel s -> Within ElIn (has_sel h els s).
  Proof. intros He HS. apply (within_rfilter _ _ _ He). intros x Hx. exact (has_loop_t s HS _ x (proj1 Hx) (deep_full h r D x)). Qed.
End Engine.

(** * Every rule that can be run *)
Section Compiled.
  Variable h : heap.
  Variable r : id.
  Hypothesis D : DocOk h r.
  Variable text_of : id -> str.
  Variable by_id : id -> str -> option id.
  Hypothesis IC : IdInside h r by_id.
  Let wf : WF h := do_wf h r D.
  Notation ElIn := (ElIn h r).
  Notation El := (Forall ElIn).
  Notation comp := (compile h text_of by_id).
  Notation MCalm := (MCalm h r).

  Lemma calm_one rl g : (forall x, ElIn x -> Returns (g x)) -> MCalm (one rl g).
  Proof.
    intros Hg. split; try discriminate.
    - intros l Hl. cbn. exact (within_rfilter _ _ _ Hl Hg).
    - intros g' E. injection E as <-. exact Hg.
  Qed.
  Lemma calm_all rl g : (forall l o, El l -> Within ElIn (g l o)) -> MCalm (all rl g None).
  Proof.
    intros Hg. split; try discriminate.
    - intros l Hl. cbn. exact (Hg l None Hl).
    - intros _. eexists. reflexivity.
    - intros _ _ g' E p [Hp _]. injection E as <-. apply Hg. exact (kids_el h r p Hp).
  Qed.
  Lemma calm_spec rl g sp : (forall l, El l -> Within ElIn (g l None)) ->
    (forall p, InTree h r p -> kids h p <> [] -> Within (fun e => In (fst (fst e)) (children h p)) (sp p)) -> MCalm (all rl g (Some sp)).
  Proof.
    intros Hg Hs. split; try discriminate.
    - intros l Hl. cbn. exact (Hg l Hl).
    - intros _. eexists. reflexivity.
    - intros _ g' E. injection E as <-. exact Hs.
  Qed.
  Lemma child_spec_t asc i p : InTree h r p -> kids h p <> [] -> Within (fun e => In (fst (fst e)) (children h p)) (nth_child_spec h asc i p).
  Proof.
    intros Hp Hk. destruct (Z.ltb_spec 0 i) as [Hi | Hi].
    - rewrite (nth_child_events h r D text_of asc i Hi p Hp Hk). apply within_ok. apply Forall_forall. intros e He. apply in_map_iff in He. destruct He as (c & <- & Hc). exact Hc.
    - unfold nth_child_spec. destruct (Z.ltb_spec 0 i); [lia|]. apply within_ok. constructor.
  Qed.
  Lemma type_spec_t asc i p : InTree h r p -> kids h p <> [] -> Within (fun e => In (fst (fst e)) (children h p)) (nth_of_type_spec h asc i p).
  Proof.
    intros Hp Hk. destruct (Z.ltb_spec 0 i) as [Hi | Hi].
    - rewrite (nth_type_events h r D text_of asc i Hi p Hp Hk). apply within_ok. apply Forall_forall. intros e He. apply in_map_iff in He. destruct He as (c & <- & Hc). exact Hc.
    - unfold nth_of_type_spec. destruct (Z.ltb_spec 0 i); [lia|]. apply within_ok. constructor.
  Qed.
  Lemma start_owner x : Start h r x -> owner_document h x = Some r.
  Proof. intros [Hx Hs]. apply (do_owner h r D x Hx). destruct Hs as [He | ->]; [left; exact He | right; exact (do_root h r D)]. Qed.
  Lemma calm_id n : MCalm (comp (RId n)).
  Proof.
    assert (HF : forall els o, Forall (Start h r) els -> Within ElIn (id_all h by_id n els o)).
    { intros els o Hs. unfold id_all. destruct els as [|y els]; [apply within_ok; constructor|]. rewrite (start_owner y (Forall_inv Hs)).
      destruct (by_id r n) as [e|] eqn:E; [|apply within_ok; constructor]. pose proof (IC n e E) as He.
      destruct o; [apply within_ok; constructor; [exact He | constructor]|]. apply within_ok. destruct (includes _ e); [constructor; [exact He | constructor] | constructor]. }
    split; try discriminate.
    - intros l Hl. cbn. apply HF. exact (el_start h r l Hl).
    - intros _. eexists. reflexivity.
    - intros _ _ g E p [Hp _]. cbn in E. injection E as <-. apply HF. apply el_start. exact (kids_el h r p Hp).
    - intros _ els Hs. cbn. exact (HF els _ Hs).
  Qed.

  Lemma calm_comp cp : comp_wf cp = true -> (forall rl c, In (rl, c) cp -> MCalm (comp rl)) -> FwdComp h r (optimize_compound (compile_comp h text_of by_id cp)).
  Proof.
    intros Hw Hm. assert (Hw' : comp_wf (compile_comp h text_of by_id cp) = true) by (rewrite comp_wf_map; exact Hw).
    destruct (optimize_compound_wf _ Hw') as (H1 & H2 & HP).
    assert (HA : Forall MCalm (map fst (optimize_compound (compile_comp h text_of by_id cp)))).
    { apply (Permutation_Forall (Permutation_sym HP)). apply Forall_forall. intros m Hi. apply in_map_iff in Hi. destruct Hi as ([m' c'] & <- & Hi).
      apply in_map_iff in Hi. destruct Hi as ([rl c''] & E & Hi). injection E as <- <-. exact (Hm rl c'' Hi). }
    destruct (optimize_compound (compile_comp h text_of by_id cp)) as [|[m c] rest] eqn:E; [discriminate|]. cbn [comp_wf] in H1. apply andb_true_iff in H1. destruct H1 as [Hf Hr].
    split; [|exact Hf]. inversion HA as [|? ? M Hrest]; subst. split; [exact M|]. apply Forall_forall. intros [m' c'] Hi. cbn [fst snd]. split.
    - rewrite Forall_forall in Hrest. apply Hrest. apply in_map_iff. exists (m', c'). split; [reflexivity | exact Hi].
    - rewrite forallb_forall in Hr. specialize (Hr _ Hi). cbn in Hr. destruct c'; try discriminate. reflexivity.
  Qed.
  Lemma calm_group g : forallb comp_wf g = true -> (forall cp rl c, In cp g -> In (rl, c) cp -> MCalm (comp rl)) -> Forall (FwdComp h r) (group_of h text_of by_id g).
  Proof.
    intros Hw Hm. apply Forall_forall. intros cp Hi. apply in_map_iff in Hi. destruct Hi as (cp' & <- & Hi). rewrite forallb_forall in Hw.
    exact (calm_comp cp' (Hw cp' Hi) (fun rl c => Hm cp' rl c Hi)).
  Qed.
  Lemma calm_sel gs : forallb (forallb comp_wf) gs = true -> (forall rl, InAst rl gs -> MCalm (comp rl)) ->
    CalmSel h r (optimize false (map (map (map (fun e : rule * comb => let '(r', c) := e in (comp r', c)))) gs)).
  Proof.
    intros Hw Hm. apply Forall_forall. intros p Hi. apply in_map_iff in Hi. destruct Hi as (g' & <- & Hi). apply in_map_iff in Hi. destruct Hi as (g & <- & Hi).
    rewrite group_of_opt. rewrite forallb_forall in Hw. apply (calm_group g (Hw g Hi)). intros cp rl c H1 H2. apply Hm. exists g, cp, c. auto.
  Qed.
  Lemma all_ok_in (F : rule -> Prop) gs rl : fold_right and True (map (fun g => fold_right and True (map (fun cp =>
      fold_right and True (map (fun e : rule * comb => let '(r', _) := e in F r') cp)) g)) gs) -> InAst rl gs -> F rl.
  Proof.
    intros H (g & cp & c & H1 & H2 & H3). rewrite fold_and_in in H. specialize (H g H1). rewrite fold_and_in in H. specialize (H cp H2).
    rewrite fold_and_in in H. exact (H (rl, c) H3).
  Qed.
  Lemma calm_rule : forall rl, Runnable h r rl -> MCalm (comp rl).
  Proof.
    apply (rule_sub_ind (fun rl => Runnable h r rl -> MCalm (comp rl))). intros rl IH Hok.
    assert (HR : forall f (P : Prop), (exists b : bool, f = Ok b /\ (b = true <-> P)) -> Returns f) by (intros f P (b & E & _); exists b; exact E).
    destruct rl as [|n|n|n|k t| | |asc| |asc f|asc|asc f| |n|t|n| |gs]; cbn [Runnable rule_sub] in *.
    - apply (calm_all RAll (fun els _ => Ok els)). intros l o Hl. apply within_ok. exact Hl.
    - apply calm_one. intros x Hx. eapply HR. exact (name_one_spec h r D n x Hx).
    - apply calm_one. intros x Hx. eapply HR. exact (class_one_spec h r D n x Hx).
    - apply calm_id.
    - apply calm_one. intros x Hx. unfold attr_one. destruct (el_attr h r D x k Hx) as (a & ->). eexists. reflexivity.
    - split; try discriminate.
      + intros l Hl. cbn. apply (within_rfilter _ _ _ Hl). intros x Hx. eexists. reflexivity.
      + intros g E x _. injection E as <-. eexists. reflexivity.
    - apply calm_one. intros x Hx. eexists. reflexivity.
    - apply (calm_spec _ (fun els _ => first_child_all h asc els)); [exact (first_child_t h r D asc) | exact (child_spec_t asc 1)].
    - apply (calm_all _ (fun els _ => Ok (only_child_all h els None))). intros l o Hl. apply within_ok. exact (only_child_t h r l Hl).
    - destruct f as [[st|] b]; cbn [fst snd].
      + split; try discriminate.
        * intros l Hl. cbn. exact (nth_child_none_t h r D asc _ l Hok Hl).
        * intros _. eexists. reflexivity.
        * intros _ _ g E p Hp. injection E as <-. exact (nth_child_some_t h r asc _ p false Hok Hp).
      + apply calm_spec; [intros l; exact (nth_child_none_t h r D asc _ l Hok) | exact (child_spec_t asc b)].
    - apply (calm_spec _ (fun els _ => first_of_type_all h asc els)); [exact (first_type_t h r D asc) | exact (type_spec_t asc 1)].
    - destruct f as [[st|] b]; cbn [fst snd].
      + split; try discriminate.
        * intros l Hl. cbn. exact (nth_type_none_t h r D asc _ l Hok Hl).
        * intros _. eexists. reflexivity.
        * intros _ _ g E p Hp. injection E as <-. exact (nth_type_some_t h r D asc _ p false Hok Hp).
      + apply calm_spec; [intros l; exact (nth_type_none_t h r D asc _ l Hok) | exact (type_spec_t asc b)].
    - apply (calm_all _ (fun els _ => only_of_type_all h els)). intros l o. exact (only_type_t h r D l).
    - apply (calm_all (RNot n) (fun els _ => nested_apply (not_sel h) _ els)). intros l o Hl. unfold nested_apply. destruct (nonempty l); [|apply within_ok; constructor].
      destruct n as [gs| |]; cbn [rbind]; [|apply within_ok; constructor | destruct Hok]. apply (not_sel_t h r D l _ Hl). apply calm_sel; [exact (proj1 Hok)|].
      intros rl Hi. apply (IH rl Hi). exact (all_ok_in _ gs rl (proj2 Hok) Hi).
    - apply calm_one. intros x Hx. eexists. reflexivity.
    - apply (calm_all (RHas n) (fun els _ => nested_apply (has_sel h) _ els)). intros l o Hl. unfold nested_apply. destruct (nonempty l); [|apply within_ok; constructor].
      destruct n as [gs| |]; cbn [rbind]; [|apply within_ok; constructor | destruct Hok]. apply (has_sel_t h r D l _ Hl). apply calm_sel; [exact (proj1 Hok)|].
      intros rl Hi. apply (IH rl Hi). exact (all_ok_in _ gs rl (proj2 Hok) Hi).
    - apply calm_one. exact (checked_t h r D).
    - apply (calm_all (RAlias gs) (fun els _ => filter_sel h els _)). intros l o Hl. apply (filter_sel_t h r D l _ Hl). apply calm_sel; [exact (proj1 Hok)|].
      intros rl Hi. apply (IH rl Hi). exact (all_ok_in _ gs rl (proj2 Hok) Hi).
  Qed.
  Lemma kids_rule rl els : nth_at0 rl = true -> NoKids h (comp rl) els.
  Proof.
    intros H0 E1 E2 g x _ _ E3. destruct rl as [|n|n|n|k t| | |asc| |asc f|asc|asc f| |n|t|n| |gs]; cbn in E1, E2, E3; try discriminate; try (injection E3 as <-; reflexivity).
    - injection E3 as <-. cbn [nth_at0 nth_child_all length] in *. destruct (get_allowed_indexs f 0) as [[|a l]| |]; try discriminate. cbn [rbind]. destruct asc; reflexivity.
    - injection E3 as <-. cbn [nth_at0 nth_of_type_all length] in *. destruct (get_allowed_indexs f 0) as [[|a l]| |]; try discriminate. reflexivity.
  Qed.
  Lemma leaf_rule rl els : last_number rl = false -> LeafSpec h (comp rl) els.
  Proof. intros H E1 g x _ E2 Hk. exact (spec_leaf h text_of by_id rl g x E1 E2 H Hk). Qed.
  Lemma cache_rule rl : is_id rl = true -> mt_cache (comp rl) = true.
  Proof. destruct rl; try discriminate. reflexivity. Qed.
End Compiled.

(** * find, the traversals, closest *)
Section Find.
  Variable h : heap.
  Variable r : id.
  Hypothesis D : DocOk h r.
  Let wf : WF h := do_wf h r D.
  Notation ElIn := (ElIn h r).
  Notation El := (Forall ElIn).

  Definition LateComp (cp : compound) : Prop := CalmComp h r cp /\ forall els, El els -> Goes h r (comp_comb cp) (head_m cp) els.
  Lemma query_t q : Forall LateComp q -> forall els, El els -> exists o, query_rest h els q = Ok o /\ forall l, o = Some l -> El l.
  Proof.
    intros HQ. induction HQ as [|cp q [HC HG] _ IH]; intros els He; [exists (Some els); split; [reflexivity | intros l E; injection E as <-; exact He]|]. cbn [query_rest].
    destruct (select_t h r D els cp None (comp_comb cp) HC eq_refl (HG els He)) as (l & -> & Hl). cbn [rbind]. destruct (nonempty l); [exact (IH l Hl)|].
    exists None. split; [reflexivity | discriminate].
  Qed.
  Lemma process_rest els p rest : tl (query p) = rest -> Forall LateComp rest -> Within ElIn (find_first h els p) -> Within ElIn (find_process h els p).
  Proof.
    intros <- HR (l & E & Hl). unfold find_process. rewrite E. cbn [rbind]. destruct (nonempty l); [|apply within_ok; constructor].
    destruct (query_t _ HR l Hl) as (o & -> & Ho). cbn [rbind]. destruct o as [l'|]; apply within_ok; [exact (Ho l' eq_refl) | constructor].
  Qed.
  Lemma process_t els cp rest : CalmComp h r cp -> Goes h r (comp_comb cp) (head_m cp) els -> Forall LateComp rest -> Within ElIn (find_process h els (mkProcess None (cp :: rest))).
  Proof.
    intros HC HG HR. apply (process_rest els (mkProcess None (cp :: rest)) rest eq_refl HR). unfold find_first. cbn [query should_in rnth nth_error rbind].
    exact (select_t h r D els cp None (comp_comb cp) HC eq_refl HG).
  Qed.
  Lemma process_look els look cp rest : Forall (FwdComp h r) look -> FwdComp h r cp -> Goes h r ChildrenAll (head_m cp) els -> Forall LateComp rest ->
    Within ElIn (find_process h els (mkProcess (Some look) (cp :: rest))).
  Proof.
    intros HL [HC HF] HG HR. apply (process_rest els (mkProcess (Some look) (cp :: rest)) rest eq_refl HR). unfold find_first. cbn [query should_in rnth nth_error rbind].
    apply (within_bind _ _ _ _ (select_t h r D els cp (Some ChildrenAll) ChildrenAll HC eq_refl HG)). intros l Hl. destruct (nonempty l); [|apply within_ok; constructor].
    destruct cp as [|[m c] cp]; [destruct HC|]. cbn [rnth nth_error rbind snd comp_comb] in *. apply (within_rfilter _ _ _ Hl). intros x Hx. exact (has_ele_t h r D els x c look Hx HF HL).
  Qed.
  Lemma selector_t els s : (forall p, In p s -> Within ElIn (find_process h els p)) -> Within ElIn (find_selector h els s).
  Proof.
    intros HP. unfold find_selector. destruct (nonempty els); [|apply within_ok; constructor]. assert (H0 : El []) by constructor. revert H0. generalize (@nil id).
    induction s as [|p s IH]; intros acc Ha; [apply within_ok; exact Ha|]. cbn [rfold]. destruct (HP p (or_introl eq_refl)) as (l & -> & Hl). cbn [rbind].
    destruct (nonempty l).
    - destruct (add_within h wf ElIn acc l Ha Hl) as (l' & -> & Hl'). cbn [rbind]. exact (IH (fun q Hq => HP q (or_intror Hq)) l' Hl').
    - cbn [rbind]. exact (IH (fun q Hq => HP q (or_intror Hq)) acc Ha).
  Qed.
  Lemma query_app a : forall b els, query_rest h els (a ++ b) = do o <- query_rest h els a; match o with Some l => query_rest h l b | None => Ok None end.
  Proof.
    induction a as [|cp a IH]; intros b els; [reflexivity|]. cbn [query_rest app]. destruct (select h els cp None) as [l| |]; cbn [rbind]; try reflexivity.
    destruct (nonempty l); [apply IH | reflexivity].
  Qed.
  (** An exact beginning, then steps that return from every set. *)
  Lemma process_app els si a b : a <> [] -> Within ElIn (find_process h els (mkProcess si a)) -> Forall LateComp b -> Within ElIn (find_process h els (mkProcess si (a ++ b))).
  Proof.
    intros Ha (l & E & Hl) HB. destruct a as [|cp a]; [congruence|]. clear Ha. unfold find_process in *.
    assert (EF : find_first h els (mkProcess si ((cp :: a) ++ b)) = find_first h els (mkProcess si (cp :: a))) by reflexivity. rewrite EF. clear EF.
    destruct (find_first h els (mkProcess si (cp :: a))) as [g| |]; try discriminate. cbn [rbind query tl app] in *. destruct (nonempty g); [|apply within_ok; constructor].
    rewrite query_app. destruct (query_rest h g a) as [o| |]; try discriminate. cbn [rbind] in *. destruct o as [l'|]; [|apply within_ok; constructor].
    injection E as ->. destruct (query_t b HB l Hl) as (o & -> & Ho). cbn [rbind]. destruct o as [l'|]; apply within_ok; [exact (Ho l' eq_refl) | constructor].
  Qed.

  Lemma all_calm : MCalm h r all_matcher.
  Proof. exact (calm_all h r RAll (fun els _ => Ok els) (fun l o Hl => within_ok _ l Hl)). Qed.
  (** A single step without a condition. *)
  Lemma all_goes c els : c <> ChildrenAll -> El els -> Goes h r c all_matcher els.
  Proof.
    intros Hc He. destruct c; cbn [Goes]; try exact He; try (exact (el_in h r els He)); [congruence|].
    split; [exact (el_start h r els He)|]. split; intros E1; [intros g x _ E2; discriminate|]. intros _ g x _ _ E. injection E as <-. reflexivity.
  Qed.

  Variable text_of : id -> str.
  Variable by_id : id -> str -> option id.
  Hypothesis IC : IdInside h r by_id.
  Notation comp := (compile h text_of by_id).
  Notation opt cp := (optimize_compound (compile_comp h text_of by_id cp)).

  Lemma opt_head cp : comp_wf cp = true -> head_m (opt cp) = comp (head_rule cp) /\ comp_comb (opt cp) = comp_comb cp.
  Proof.
    intros Hw. assert (Hw' : comp_wf (compile_comp h text_of by_id cp) = true) by (rewrite comp_wf_map; exact Hw).
    destruct (optimize_compound_wf _ Hw') as (H1 & H2 & _). split; [|rewrite H2; unfold compile_comp; apply comp_comb_map].
    destruct (opt cp) as [|[m c] rest] eqn:E; [discriminate|]. exact (head_compiled h text_of by_id cp m c rest E).
  Qed.
  Lemma goes_side c rl els : side_step c rl = true -> El els -> Goes h r c (comp rl) els.
  Proof.
    intros Hs He. destruct c; cbn [Goes side_step] in *; try exact He; try exact (el_in h r els He).
    - split; [exact (el_start h r els He)|]. left. exact (cache_rule h text_of by_id rl Hs).
    - apply andb_true_iff in Hs. destruct Hs as [H1 H2]. apply negb_true_iff in H1. split; [exact (el_start h r els He)|].
      split; [exact (leaf_rule h text_of by_id rl els H1) | exact (kids_rule h text_of by_id rl els H2)].
  Qed.
  Lemma first_goes cp els : comp_wf cp = true -> first_step cp = true -> Starts h r els -> Goes h r (comp_comb cp) (comp (head_rule cp)) els.
  Proof.
    intros Hw Hs [HS HO]. assert (Hf : fwd (comp_comb cp) = true). { destruct cp as [|[rl c] cp]; [discriminate|]. cbn in *. apply andb_true_iff in Hw. exact (proj1 Hw). }
    assert (HA : AllIn h r els) by (revert HS; apply Forall_impl; intros x Hx; exact (proj1 Hx)).
    unfold first_step in Hs. destruct (comp_comb cp); try discriminate; cbn [Goes side_step] in *; try exact HA.
    - split; [exact HS|]. right. split; [exact HO|]. apply negb_true_iff in Hs. exact (leaf_rule h text_of by_id _ els Hs).
    - apply andb_true_iff in Hs. destruct Hs as [H1 H2]. apply negb_true_iff in H1. split; [exact HS|].
      split; [exact (leaf_rule h text_of by_id _ els H1) | exact (kids_rule h text_of by_id _ els H2)].
  Qed.
  Lemma run_comp g cp : RunnableGroup h r g -> In cp g -> comp_wf cp = true -> FwdComp h r (opt cp).
  Proof. intros HR Hi Hw. apply (calm_comp h r text_of by_id cp Hw). intros rl c H. apply (calm_rule h r D text_of by_id IC). exact (HR cp rl c Hi H). Qed.
  Lemma run_group g : RunnableGroup h r g -> forallb comp_wf g = true -> Forall (FwdComp h r) (group_of h text_of by_id g).
  Proof.
    intros HR Hw. apply Forall_forall. intros x Hx. apply in_map_iff in Hx. destruct Hx as (cp & <- & Hi). rewrite forallb_forall in Hw. exact (run_comp g cp HR Hi (Hw cp Hi)).
  Qed.
  Lemma run_late g : RunnableGroup h r g -> forallb comp_wf g = true -> forallb late g = true -> Forall LateComp (group_of h text_of by_id g).
  Proof.
    intros HR Hw Hl. apply Forall_forall. intros x Hx. apply in_map_iff in Hx. destruct Hx as (cp & <- & Hi). rewrite forallb_forall in Hw, Hl.
    split; [exact (proj1 (run_comp g cp HR Hi (Hw cp Hi)))|]. intros els He. destruct (opt_head cp (Hw cp Hi)) as [-> ->]. exact (goes_side _ _ els (Hl cp Hi) He).
  Qed.
  Lemma run_sub g g' : RunnableGroup h r g -> (forall cp, In cp g' -> In cp g) -> RunnableGroup h r g'.
  Proof. intros HR Hs cp rl c Hi. exact (HR cp rl c (Hs cp Hi)). Qed.
  Lemma wf_sub (g g' : list (list (rule * comb))) : forallb comp_wf g = true -> (forall cp, In cp g' -> In cp g) -> forallb comp_wf g' = true.
  Proof. rewrite !forallb_forall. intros H Hs cp Hi. exact (H cp (Hs cp Hi)). Qed.

  Notation proc g := (optimize_group true (map (map (fun e : rule * comb => let '(r', c) := e in (comp r', c))) g)).
  Lemma loose_process els g : Starts h r els -> RunnableGroup h r g -> forallb comp_wf g = true -> loose g = true -> Within ElIn (find_process h els (proc g)).
  Proof.
    intros HS HR Hw Hl. rewrite (group_lookup h text_of by_id g Hw). unfold loose in Hl. destruct (looks_up g).
    - pose proof (firstn_skipn (pivot g) g) as Eg. destruct (skipn (pivot g) g) as [|cp rest]; [discriminate|]. apply andb_true_iff in Hl. destruct Hl as [H1 H2].
      assert (Hs1 : forall c, In c (firstn (pivot g) g) -> In c g) by (intros c; apply in_firstn).
      assert (Hi : In cp g) by (rewrite <- Eg; apply in_or_app; right; left; reflexivity).
      assert (Hs2 : forall c, In c rest -> In c g) by (intros c Hc; rewrite <- Eg; apply in_or_app; right; right; exact Hc).
      assert (Hwc : comp_wf cp = true) by (rewrite forallb_forall in Hw; exact (Hw cp Hi)).
      apply (process_look els _ (opt cp)); [exact (run_group _ (run_sub g _ HR Hs1) (wf_sub g _ Hw Hs1)) | exact (run_comp g cp HR Hi Hwc) | | exact (run_late rest (run_sub g _ HR Hs2) (wf_sub g _ Hw Hs2) H2)].
      rewrite (proj1 (opt_head cp Hwc)). cbn [Goes]. split; [exact (proj1 HS)|]. right. split; [exact (proj2 HS)|]. apply negb_true_iff in H1. exact (leaf_rule h text_of by_id _ els H1).
    - destruct g as [|cp rest]; [discriminate|]. apply andb_true_iff in Hl. destruct Hl as [H1 H2]. cbn [forallb] in Hw. apply andb_true_iff in Hw. destruct Hw as [Hwc Hwr].
      cbn [group_of map]. apply process_t; [exact (proj1 (run_comp _ cp HR (or_introl eq_refl) Hwc)) | | exact (run_late rest (run_sub _ _ HR (fun c Hc => or_intror Hc)) Hwr H2)].
      destruct (opt_head cp Hwc) as [-> ->]. exact (first_goes cp els Hwc H1 HS).
  Qed.

  Lemma pivot_from_app a b : forall i best, pivot_from (a ++ b) i best = pivot_from b (i + length a) (pivot_from a i best).
  Proof.
    induction a as [|cp a IH]; intros i best; [cbn; rewrite Nat.add_0_r; reflexivity|]. cbn [pivot_from app length]. rewrite IH. f_equal. lia.
  Qed.
  Lemma pivot_from_keeps b : forall i best, pivot_from b i best = best \/ i <= fst (pivot_from b i best).
  Proof.
    induction b as [|cp b IH]; intros i best; [left; reflexivity|]. cbn [pivot_from]. destruct (snd best <? comp_prio cp)%N.
    - destruct (IH (S i) (i, comp_prio cp)) as [-> | H]; right; [cbn; lia | lia].
    - destruct (IH (S i) best) as [H | H]; [left; exact H | right; lia].
  Qed.
  Lemma pivot_prefix a b : pivot (a ++ b) < length a -> pivot (a ++ b) = pivot a.
  Proof.
    unfold pivot. rewrite pivot_from_app. intros H. destruct (pivot_from_keeps b (0 + length a) (pivot_from a 0 (0, 0%N))) as [-> | H']; [reflexivity | lia].
  Qed.
  Lemma looks_prefix a b : a <> [] -> (looks_up (a ++ b) = true -> pivot (a ++ b) < length a) ->
    looks_up (a ++ b) = looks_up a /\ (looks_up a = true -> pivot (a ++ b) = pivot a).
  Proof.
    intros Ha Hp. destruct a as [|cp a]; [congruence|]. clear Ha. unfold looks_up in *. cbn [app] in *. destruct (childish (comp_comb cp)); [|rewrite !andb_false_r; split; [reflexivity | discriminate]].
    rewrite !andb_true_r in *. change (cp :: a ++ b) with ((cp :: a) ++ b) in *.
    assert (E : pivot ((cp :: a) ++ b) = pivot (cp :: a)).
    { apply pivot_prefix. destruct (Nat.ltb_spec 0 (pivot ((cp :: a) ++ b))) as [H | H]; [exact (Hp eq_refl) | cbn [length]; lia]. }
    rewrite E. split; [reflexivity | intros _; reflexivity].
  Qed.
  Lemma exact_process els a b : IdCache h r by_id -> Starts h r els -> GroupOk h r text_of a -> group_wf a = true -> FindOk h text_of els a ->
    RunnableGroup h r b -> forallb comp_wf b = true -> forallb late b = true -> (looks_up (a ++ b) = true -> pivot (a ++ b) < length a) ->
    Within ElIn (find_process h els (proc (a ++ b))).
  Proof.
    intros IC' HS Ha Hw HF HR Hwb Hl Hp. destruct (group_done_doc h r D text_of by_id IC' els a HS Ha Hw HF) as (ord & (l & E & He & _) & _).
    assert (HB : Forall LateComp (group_of h text_of by_id b)) by (apply run_late; assumption).
    unfold group_wf in Hw. apply andb_true_iff in Hw. destruct Hw as [Hn Hw]. assert (Hne : a <> []) by (destruct a; [discriminate | congruence]).
    assert (Hw' : forallb comp_wf (a ++ b) = true) by (rewrite forallb_app, Hw, Hwb; reflexivity).
    destruct (looks_prefix a b Hne Hp) as [E1 E2]. rewrite (group_lookup h text_of by_id (a ++ b) Hw'), E1. rewrite (group_lookup h text_of by_id a Hw) in E.
    destruct (looks_up a) eqn:Eu.
    - rewrite (E2 eq_refl) in *. rewrite E1 in Hp. specialize (Hp eq_refl). rewrite firstn_app, skipn_app. replace (pivot a - length a) with 0 by lia. rewrite firstn_O, app_nil_r.
      cbn [skipn]. unfold group_of at 2. rewrite map_app. apply process_app; [|exists l; split; [exact E | exact He] | exact HB].
      intros E0. apply map_eq_nil in E0. apply (f_equal (@length _)) in E0. rewrite skipn_length in E0. cbn in E0. lia.
    - unfold group_of. rewrite map_app. apply process_app; [|exists l; split; [exact E | exact He] | exact HB]. intros E0. apply map_eq_nil in E0. exact (Hne E0).
  Qed.
  Lemma find_t els gs : (forall g, In g gs -> Within ElIn (find_process h els (proc g))) -> Within ElIn (find_ast h text_of by_id els gs).
  Proof.
    intros H. apply selector_t. intros p Hp. unfold compile_selector, optimize, compile_groups in Hp. rewrite map_map in Hp. apply in_map_iff in Hp. destruct Hp as (g & <- & Hg). exact (H g Hg).
  Qed.

  (** * Filters *)
  Lemma run_plain gs : CanRun h r gs -> CalmSel h r (compile_selector h text_of by_id false gs).
  Proof.
    intros [Hw HR]. apply (calm_sel h r text_of by_id gs Hw). intros rl (g & cp & c & H1 & H2 & H3). apply (calm_rule h r D text_of by_id IC). exact (HR g H1 cp rl c H2 H3).
  Qed.
  Lemma run_looked gs : CanRun h r gs -> CalmSel h r (compile_selector h text_of by_id true gs).
  Proof.
    intros [Hw HR]. apply Forall_forall. intros p Hp. unfold compile_selector, optimize, compile_groups in Hp. rewrite map_map in Hp. apply in_map_iff in Hp. destruct Hp as (g & <- & Hg).
    rewrite forallb_forall in Hw. rewrite (group_lookup h text_of by_id g (Hw g Hg)).
    assert (Hs : forall c, In c (skipn (pivot g) g) -> In c g) by (intros c; apply in_skipn).
    destruct (looks_up g); cbn [query]; [exact (run_group _ (run_sub g _ (HR g Hg) Hs) (wf_sub g _ (Hw g Hg) Hs)) | exact (run_group g (HR g Hg) (Hw g Hg))].
  Qed.

  (** * Walks *)
  Lemma until_t c s flt contains : unit_comb c = true -> CalmSel h r s -> (forall f, flt = Some f -> CalmSel h r f) ->
    forall fuel x, ElIn x -> length (step_list h (all_of c) x) < fuel -> Within ElIn (until_loop h fuel c s flt contains [x]).
  Proof.
    intros Hc HS HF. destruct (unit_step c Hc) as [Hs Ha]. induction fuel as [|f IH]; intros x Hx Hlen; [lia|].
    cbn [until_loop]. rewrite (all_find h r D c x Hs Hx). cbn [rbind]. pose proof (unit_list h text_of c x Hc) as Hul. destruct (step_list h c x) as [|y [|]] eqn:E; [apply within_ok; constructor| |cbn in Hul; lia].
    assert (HR : Rel h c x y) by (apply (in_step h r D c x y Hs Hx); rewrite E; left; reflexivity).
    pose proof (rel_sym_el h r D c x y Hs Hx HR) as Hy. rewrite (walk_length h r D text_of c x y Hc Hx HR) in Hlen.
    assert (Hy1 : El [y]) by (constructor; [exact Hy | constructor]).
    destruct (handle_t h r D [y] s FIs Hy1 HS) as (l0 & b & -> & _). cbn [rbind snd]. destruct (b && negb contains); [apply within_ok; constructor|].
    assert (HP : Returns (match flt with Some fs => do r0 <- filter_type_handle h [y] fs FIs; Ok (snd r0) | None => Ok true end)).
    { destruct flt as [fs|]; [|exists true; reflexivity]. destruct (handle_t h r D [y] fs FIs Hy1 (HF fs eq_refl)) as (l1 & b1 & -> & _). exists b1. reflexivity. }
    destruct HP as (p & ->). cbn [rbind]. apply (within_bind ElIn).
    - destruct b; [apply within_ok; constructor | apply (IH y Hy); lia].
    - intros l Hl. apply within_ok. destruct p; [constructor; assumption | exact Hl].
  Qed.
  Lemma select_until_t c s flt contains els : unit_comb c = true -> CalmSel h r s -> (forall f, flt = Some f -> CalmSel h r f) -> El els -> Within ElIn (select_until h els s flt contains c).
  Proof.
    intros Hc HS HF He. apply (within_rflat _ _ _ _ He). intros x Hx. exact (until_t c s flt contains Hc HS HF _ x Hx (until_start h r D text_of c x Hc Hx)).
  Qed.
  Lemma until_ast_t c els stop flt contains : unit_comb c = true -> CanRun h r stop -> (forall f, flt = Some f -> CanRun h r f) -> El els ->
    Within ElIn (until_ast h text_of by_id c els stop flt contains).
  Proof.
    intros Hc HS HF He.
    assert (HF' : forall f, looked_text h text_of by_id flt = Some f -> CalmSel h r f).
    { intros f E. destruct flt as [gs|]; [|discriminate]. injection E as <-. exact (run_looked gs (HF gs eq_refl)). }
    pose proof (run_looked stop HS) as HS'. destruct c; try discriminate; cbn [until_ast]; unfold el_parents_until, el_next_until, el_prev_until.
    - rewrite (us_first h r D els (el_in h r els He)). cbn [rbind].
      exact (within_bind _ _ _ _ (select_until_t Parent _ _ contains _ eq_refl HS' HF' (firsts_els h r els He)) (sau_t h r D)).
    - rewrite (us_first h r D els (el_in h r els He)). cbn [rbind]. exact (select_until_t Next _ _ contains _ eq_refl HS' HF' (firsts_els h r els He)).
    - rewrite (us_last h r D els (el_in h r els He)). cbn [rbind].
      apply (within_bind _ _ _ _ (select_until_t Prev _ _ contains _ eq_refl HS' HF' (lasts_els h r els He))). intros l Hl. apply within_ok. apply Forall_rev. exact Hl.
  Qed.
  Lemma closest_loop_t s : CalmSel h r s -> forall fuel x, ElIn x -> length (step_list h ParentAll x) < fuel -> Within ElIn (closest_loop h fuel s x).
  Proof.
    intros HS. induction fuel as [|f IH]; intros x Hx Hlen; [lia|]. cbn [closest_loop].
    destruct (handle_t h r D [x] s FIs ltac:(constructor; [exact Hx | constructor]) HS) as (l0 & b & -> & _). cbn [rbind snd].
    destruct b; [apply within_ok; constructor; [exact Hx | constructor]|]. destruct (parent h x) as [p|] eqn:Ep; [|apply within_ok; constructor].
    destruct (is_root h p) eqn:Er; [apply within_ok; constructor|].
    assert (HR : Rel h Parent x p). { apply (in_step h r D Parent x p eq_refl Hx). cbn [step_list]. unfold parent_el. rewrite Ep, Er. left. reflexivity. }
    pose proof (rel_sym_el h r D Parent x p eq_refl Hx HR) as Hpe. pose proof (walk_length h r D text_of Parent x p eq_refl Hx HR) as HL. cbn [all_of] in HL. apply (IH p Hpe). lia.
  Qed.
  Lemma closest_t els gs : CanRun h r gs -> El els -> Within ElIn (closest_ast h text_of by_id els gs).
  Proof.
    intros HG He. pose proof (run_looked gs HG) as HS. unfold closest_ast, el_closest.
    assert (HB : forall x, ElIn x -> exists l b, filter_type_handle h [x] (compile_selector h text_of by_id true gs) FIs = Ok (l, b)).
    { intros x Hx. destruct (handle_t h r D [x] _ FIs ltac:(constructor; [exact Hx | constructor]) HS) as (l0 & b & E & _). exists l0, b. exact E. }
    refine (within_bind ElIn _ _ _ (within_rfilter _ _ _ He _) _); [intros x Hx; destruct (HB x Hx) as (l0 & b & ->); exists b; reflexivity|]. intros selfs H1.
    refine (within_bind ElIn _ _ _ (within_rfilter _ _ _ He _) _); [intros x Hx; destruct (HB x Hx) as (l0 & b & ->); exists (negb b); reflexivity|]. intros others H2.
    destruct (nonempty others); [|apply within_ok; exact H1]. rewrite (us_first h r D others (el_in h r others H2)). cbn [rbind].
    refine (within_bind ElIn _ _ _ (within_rflat _ _ _ _ (firsts_els h r others H2) _) _).
    - intros x Hx. exact (closest_loop_t _ HS _ x Hx (until_start h r D text_of Parent x eq_refl Hx)).
    - intros ups H3. apply (sau_t h r D). apply Forall_app. split; assumption.
  Qed.

  (** * Steps *)
  Lemma comb_eqb_true c d : comb_eqb c d = true -> c = d.
  Proof. destruct c, d; try discriminate; reflexivity. Qed.
  (** The compiled text with the combinator of the step. *)
  Lemma head_process' c g els : c <> ChildrenAll -> RunnableGroup h r g -> group_wf g = true ->
    match g with [] => True | cp :: g' => (comp_comb cp = ChildrenAll \/ late cp = true) /\ forallb late g' = true end ->
    Goes h r c all_matcher els ->
    (forall cp, hd_error g = Some cp -> comp_comb cp = ChildrenAll -> Goes h r c (comp (head_rule cp)) els) ->
    Within ElIn (find_process h els (mkProcess None (head_group c (group_of h text_of by_id g)))).
  Proof.
    intros Hc HR Hw Hf HA HG. unfold group_wf in Hw. apply andb_true_iff in Hw. destruct Hw as [Hn Hw]. destruct g as [|cp g]; [discriminate|].
    destruct Hf as [H1 H2]. cbn [forallb] in Hw. apply andb_true_iff in Hw. destruct Hw as [Hwc Hwr].
    pose proof (run_comp _ cp HR (or_introl eq_refl) Hwc) as HC. destruct (opt_head cp Hwc) as [E1 E2].
    assert (HL : Forall LateComp (group_of h text_of by_id g)) by exact (run_late g (run_sub _ _ HR (fun c Hc => or_intror Hc)) Hwr H2).
    unfold group_of. cbn [map]. fold (group_of h text_of by_id g). destruct (opt cp) as [|[m c0] rules] eqn:Eo; [destruct (proj1 HC)|]. cbn [head_m comp_comb head_group] in *.
    subst c0. destruct (comb_eqb (comp_comb cp) ChildrenAll) eqn:Ec.
    - apply process_t; [exact (proj1 HC) | | exact HL]. cbn [comp_comb head_m]. subst m. exact (HG cp eq_refl (comb_eqb_true _ _ Ec)).
    - apply process_t; [split; [exact all_calm | constructor] | exact HA |]. constructor; [|exact HL]. split; [exact (proj1 HC)|]. intros els' He'. cbn [comp_comb head_m]. subst m.
      destruct H1 as [H1 | H1]; [rewrite H1 in Ec; discriminate|]. exact (goes_side _ _ els' H1 He').
  Qed.
  Lemma head_process c g els : c <> ChildrenAll -> RunnableGroup h r g -> group_wf g = true -> calm_filter c g = true ->
    Goes h r c all_matcher els -> (forall rl, side_step c rl = true -> Goes h r c (comp rl) els) ->
    Within ElIn (find_process h els (mkProcess None (head_group c (group_of h text_of by_id g)))).
  Proof.
    intros Hc HR Hw Hf HA HG. apply (head_process' c g els Hc HR Hw); [|exact HA|].
    - destruct g as [|cp g]; [exact I|]. cbn [calm_filter] in Hf. apply andb_true_iff in Hf. destruct Hf as [H1 H2]. split; [|exact H2].
      destruct (comb_eqb (comp_comb cp) ChildrenAll) eqn:Ec; [left; exact (comb_eqb_true _ _ Ec) | right; exact H1].
    - intros cp Hh Ecp. destruct g as [|cp0 g]; [discriminate|]. injection Hh as ->. cbn [calm_filter] in Hf. rewrite Ecp in Hf. cbn [comb_eqb] in Hf.
      apply andb_true_iff in Hf. exact (HG _ (proj1 Hf)).
  Qed.

  Lemma plain_head c gs p : In p (head_combinator c (compile_selector h text_of by_id false gs)) ->
    exists g, In g gs /\ p = mkProcess None (head_group c (group_of h text_of by_id g)).
  Proof.
    intros Hp. apply in_map_iff in Hp. destruct Hp as (q & <- & Hq). unfold compile_selector, optimize, compile_groups in Hq. rewrite map_map in Hq. apply in_map_iff in Hq.
    destruct Hq as (g & <- & Hg). exists g. split; [exact Hg|]. rewrite <- (group_of_opt h text_of by_id g). reflexivity.
  Qed.
  Lemma looked_head c gs p : forallb (forallb comp_wf) gs = true -> forallb (fun g => negb (looks_up g)) gs = true -> In p (head_combinator c (compile_selector h text_of by_id true gs)) ->
    exists g, In g gs /\ p = mkProcess None (head_group c (group_of h text_of by_id g)).
  Proof.
    intros Hw Hn Hp. apply in_map_iff in Hp. destruct Hp as (q & <- & Hq). unfold compile_selector, optimize, compile_groups in Hq. rewrite map_map in Hq. apply in_map_iff in Hq.
    destruct Hq as (g & <- & Hg). exists g. split; [exact Hg|]. rewrite forallb_forall in Hw, Hn. rewrite (group_lookup h text_of by_id g (Hw g Hg)).
    specialize (Hn g Hg). apply negb_true_iff in Hn. rewrite Hn. reflexivity.
  Qed.
  Lemma with_comb_t c flt els : step_comb c = true -> (forall gs, flt = Some gs -> CanStep h r c gs) -> El els ->
    Within ElIn (select_with_comb h els (plain_text h text_of by_id flt) c).
  Proof.
    intros Hc HF He. assert (Hn : c <> ChildrenAll) by (intros ->; discriminate). destruct flt as [gs|]; cbn [plain_text option_map select_with_comb].
    - destruct (nonempty els); [|apply within_ok; constructor]. apply selector_t. intros p Hp. apply plain_head in Hp. destruct Hp as (g & Hg & ->).
      destruct (HF gs eq_refl g Hg) as (HR & Hw & Hf). apply (head_process c g els Hn HR Hw Hf (all_goes c els Hn He)). intros rl Hs. exact (goes_side c rl els Hs He).
    - apply selector_t. intros p [<- | []]. apply process_t; [split; [exact all_calm | constructor] | exact (all_goes c els Hn He) | constructor].
  Qed.
  (** The siblings of several elements with one parent are looked for among the children of the parent. *)
  Lemma family_goes p m : Family h r p -> Start h r p -> Goes h r Children m [p].
  Proof.
    intros [Hp Hc] HS. split; [constructor; [exact HS | constructor]|]. split.
    - intros _ g x [<- | []] _ Hk. destruct Hc. exact (kids_children h p Hk).
    - intros _ _ g x [<- | []] Hk. contradiction.
  Qed.
  Lemma siblings_t flt els : (forall gs, flt = Some gs -> CanStep h r Siblings gs /\ forallb (fun g => negb (looks_up g)) gs = true) -> El els ->
    Within ElIn (el_siblings h els (looked_text h text_of by_id flt)).
  Proof.
    intros HF He. unfold el_siblings. rewrite (ua_ok h r D els He). cbn [rbind]. cbv zeta. refine (within_bind ElIn _ _ _ _ (sort_t h r D)).
    apply (within_rflat (fun e : id * bool => if snd e then Family h r (fst e) /\ Start h r (fst e) else ElIn (fst e))).
    - apply Forall_forall. intros e Hin. apply in_map_iff in Hin. destruct Hin as (x & <- & Hx). pose proof (firsts_els h r els He) as HE. rewrite Forall_forall in HE.
      specialize (HE x Hx). unfold ua_out. destruct (el_family h r D x HE) as (p & Ep & Hp). rewrite Ep. destruct (multi h els p); [|exact HE].
      split; [exact Hp|]. exact (container_parent h r D x p (proj1 HE) Ep).
    - intros [x b] Hxb. cbn [fst snd] in Hxb.
      assert (HW : forall c, c = (if b then Children else Siblings) -> Within ElIn (find_selector h [x] (match looked_text h text_of by_id flt with Some s => head_combinator c s | None => from_segment (make_comb_all c) end))).
      { intros c Ec. assert (Hn : c <> ChildrenAll) by (subst c; destruct b; discriminate).
        assert (HG : forall m, Goes h r c m [x]) by (intros m; subst c; destruct b; [exact (family_goes x m (proj1 Hxb) (proj2 Hxb)) | constructor; [exact Hxb | constructor]]).
        destruct flt as [gs|]; cbn [looked_text option_map].
        - destruct (HF gs eq_refl) as [HC HN]. apply selector_t. intros p Hp. apply looked_head in Hp; [|apply forallb_forall; intros g Hg; destruct (HC g Hg) as (_ & Hw & _); unfold group_wf in Hw; apply andb_true_iff in Hw; exact (proj2 Hw) | exact HN].
          destruct Hp as (g & Hg & ->). destruct (HC g Hg) as (HR & Hw & Hf).
          apply (head_process' c g [x] Hn HR Hw); [|exact (HG _) | intros cp _ _; exact (HG _)].
          destruct g as [|cp g]; [exact I|]. cbn [calm_filter] in Hf. apply andb_true_iff in Hf. destruct Hf as [H1 H2]. split; [|exact H2].
          destruct (comb_eqb (comp_comb cp) ChildrenAll) eqn:Ed; [left; exact (comb_eqb_true _ _ Ed) | right; exact H1].
        - apply selector_t. intros p [<- | []]. apply process_t; [split; [exact all_calm | constructor] | exact (HG _) | constructor]. }
      destruct b; [exact (HW Children eq_refl) | exact (HW Siblings eq_refl)].
  Qed.
  Lemma step_t c flt els : step_comb c = true -> (forall gs, flt = Some gs -> CanStep h r c gs /\ (c = Siblings -> forallb (fun g => negb (looks_up g)) gs = true)) -> El els ->
    Within ElIn (step_ast h text_of by_id c els flt).
  Proof.
    intros Hc HF He. assert (HF' : forall gs, flt = Some gs -> CanStep h r c gs) by (intros gs E; exact (proj1 (HF gs E))).
    destruct c; try discriminate; cbn [step_ast]; unfold el_children, el_prev, el_next, el_prev_all, el_next_all, Engine.el_parent, el_parents.
    - exact (with_comb_t Children flt els eq_refl HF' He).
    - rewrite (us_first h r D els (el_in h r els He)). cbn [rbind]. exact (with_comb_t Parent flt _ eq_refl HF' (firsts_els h r els He)).
    - rewrite (us_first h r D els (el_in h r els He)). cbn [rbind]. exact (within_bind _ _ _ _ (with_comb_t ParentAll flt _ eq_refl HF' (firsts_els h r els He)) (sau_t h r D)).
    - rewrite (us_first h r D els (el_in h r els He)). cbn [rbind]. exact (with_comb_t NextAll flt _ eq_refl HF' (firsts_els h r els He)).
    - exact (with_comb_t Next flt els eq_refl HF' He).
    - rewrite (us_last h r D els (el_in h r els He)). cbn [rbind]. exact (with_comb_t PrevAll flt _ eq_refl HF' (lasts_els h r els He)).
    - exact (with_comb_t Prev flt els eq_refl HF' He).
    - apply (siblings_t flt els); [|exact He]. intros gs E. destruct (HF gs E) as [H1 H2]. split; [exact H1 | exact (H2 eq_refl)].
  Qed.

  (** What the exact theorems ask is enough. *)
  Lemma ok_runs : forall rl, RuleOk h r text_of rl -> Runnable h r rl.
  Proof.
    apply (rule_sub_ind (fun rl => RuleOk h r text_of rl -> Runnable h r rl)). intros rl IH Hok.
    assert (HS : forall gs, rule_sub rl = gs -> fold_right and True (map (fun g => fold_right and True (map (fun cp =>
        fold_right and True (map (fun e : rule * comb => let '(r', _) := e in Runnable h r r') cp)) g)) gs)).
    { intros gs <-. apply fold_and_in. intros g Hg. apply fold_and_in. intros cp Hc. apply fold_and_in. intros [rl' c] Hi.
      assert (Ha : InAst rl' (rule_sub rl)) by (exists g, cp, c; auto). exact (IH rl' Ha (rule_ok_sub h r text_of rl Hok rl' Ha)). }
    assert (HW : forall gs : ast, sel_wf gs = true -> forallb (forallb comp_wf) gs = true).
    { intros gs H. unfold sel_wf in H. rewrite forallb_forall in *. intros g Hg. specialize (H g Hg). apply andb_true_iff in H. destruct H as [H _].
      unfold group_wf in H. apply andb_true_iff in H. exact (proj2 H). }
    destruct rl as [|n|n|n|k t| | |asc| |asc f|asc|asc f| |n|t|n| |gs]; cbn [Runnable] in *; try exact I; try exact Hok.
    - destruct n as [gs| |]; [|exact I | exact Hok]. split; [exact (HW gs (proj1 Hok)) | exact (HS gs eq_refl)].
    - destruct n as [gs| |]; [|exact I | exact Hok]. split; [exact (HW gs (proj1 Hok)) | exact (HS gs eq_refl)].
    - split; [exact (HW gs (proj1 Hok)) | exact (HS gs eq_refl)].
  Qed.
  Lemma cache_inside : IdCache h r by_id -> IdInside h r by_id.
  Proof. intros H s x E. specialize (H s). rewrite E in H. exact (proj1 H). Qed.
End Find.
