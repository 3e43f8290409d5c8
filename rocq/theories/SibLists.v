(** The positional rules on lists: the walks over sorted index lists pick exactly the elements at the given
    positions. *)
From Verif Require Import Base Nth NthSpec NthProofs Attr Dom Order Sets SetsProofs Engine Rules.

(** The elements whose position (the first has number [i]) passes the test. *)
Fixpoint pickn (t : nat -> bool) (i : nat) (l : list id) : list id :=
  match l with
  | [] => []
  | x :: l' => (if t i then [x] else []) ++ pickn t (S i) l'
  end.
Lemma pickn_ext t t' i l : (forall k, i <= k < i + length l -> t k = t' k) -> pickn t i l = pickn t' i l.
Proof.
  revert i. induction l as [|x l IH]; intros i H; [reflexivity|]. cbn in *. rewrite (H i) by lia. f_equal. apply IH. intros k Hk. apply H. lia.
Qed.
Lemma pickn_none t i l : (forall k, i <= k < i + length l -> t k = false) -> pickn t i l = [].
Proof.
  revert i. induction l as [|x l IH]; intros i H; [reflexivity|]. cbn in *. rewrite (H i) by lia. apply IH. intros k Hk. apply H. lia.
Qed.
Lemma pickn_app t i l m : pickn t i (l ++ m) = pickn t i l ++ pickn t (i + length l) m.
Proof.
  revert i. induction l as [|x l IH]; intros i; cbn; [rewrite Nat.add_0_r; reflexivity|].
  rewrite IH, <- app_assoc. do 3 f_equal. lia.
Qed.
Lemma pickn_shift t i l : pickn t (S i) l = pickn (fun k => t (S k)) i l.
Proof. revert i. induction l as [|x l IH]; intros i; cbn; [reflexivity|]. rewrite IH. reflexivity. Qed.
Lemma pickn_rev t l : rev (pickn t 0 (rev l)) = pickn (fun i => t (length l - 1 - i)) 0 l.
Proof.
  induction l as [|x l IH]; [reflexivity|]. cbn [rev]. rewrite pickn_app, rev_app_distr, IH. cbn [pickn app length].
  rewrite rev_length, Nat.add_0_l, app_nil_r. replace (S (length l) - 1 - 0) with (length l) by lia.
  rewrite pickn_shift.
  rewrite (pickn_ext (fun k => t (S (length l) - 1 - S k)) (fun i => t (length l - 1 - i))) by (intros k Hk; f_equal; lia).
  destruct (t (length l)); reflexivity.
Qed.
Lemma pickn_in t i l x : In x (pickn t i l) <-> exists k, nth_error l k = Some x /\ t (i + k) = true.
Proof.
  revert i. induction l as [|y l IH]; intros i; cbn [pickn].
  - split; [intros [] | intros ([|k] & E & _); discriminate].
  - rewrite in_app_iff, IH. split.
    + intros [H | (k & E & Ht)].
      * exists 0. rewrite Nat.add_0_r. destruct (t i); [|destruct H]. destruct H as [<- | []]. split; reflexivity.
      * exists (S k). split; [exact E|]. rewrite <- plus_n_Sm. exact Ht.
    + intros ([|k] & E & Ht).
      * left. rewrite Nat.add_0_r in Ht. rewrite Ht. cbn in E. injection E as ->. left. reflexivity.
      * right. exists k. split; [exact E|]. rewrite <- plus_n_Sm in Ht. exact Ht.
Qed.
(** Without repetitions, picking by position is filtering. *)
Lemma pickn_filter t p i l : (forall k x, nth_error l k = Some x -> t (i + k) = p x) -> pickn t i l = filter p l.
Proof.
  revert i. induction l as [|x l IH]; intros i H; [reflexivity|]. cbn. pose proof (H 0 x eq_refl) as H0.
  rewrite Nat.add_0_r in H0. rewrite H0, (IH (S i)).
  - destruct (p x); reflexivity.
  - intros k y E. specialize (H (S k) y E). rewrite <- plus_n_Sm in H. exact H.
Qed.

(** * Allowed indexes *)
Lemma allowed_spec allow i : allowed allow i = true <-> In (Z.of_nat i) allow.
Proof.
  unfold allowed. rewrite existsb_exists. split.
  - intros (z & Hz & E). apply Z.eqb_eq in E. subst z. exact Hz.
  - intros H. exists (Z.of_nat i). split; [exact H | apply Z.eqb_refl].
Qed.
Lemma allowed_cons a rest i : allowed (a :: rest) i = (Z.of_nat i =? a)%Z || allowed rest i.
Proof. reflexivity. Qed.
Lemma allowed_incr_head a rest i : ZIncr (a :: rest) -> (Z.of_nat i < a)%Z -> allowed (a :: rest) i = false.
Proof.
  intros H Hi. apply not_true_iff_false. rewrite allowed_spec. intros [E | E]; [lia|].
  apply ZIncr_forall in H. rewrite Forall_forall in H. specialize (H _ E). lia.
Qed.
Lemma ZIncr_tail a l : ZIncr (a :: l) -> ZIncr l.
Proof. intros [_ H]. exact H. Qed.
Lemma allow_scan_spec : forall allow i, ZIncr allow ->
  let '(hit, allow', stop) := allow_scan allow i in
  hit = allowed allow i /\ ZIncr allow' /\ (forall j, i < j -> allowed allow' j = allowed allow j) /\
  (stop = true -> forall j, i <= j -> allowed allow j = false).
Proof.
  induction allow as [|a rest IH]; intros i H; cbn [allow_scan].
  { repeat split; try discriminate. }
  destruct (Z.compare_spec a (Z.of_nat i)) as [E | E | E].
  - split; [rewrite allowed_cons, (proj2 (Z.eqb_eq _ _) (eq_sym E)); reflexivity|].
    split; [exact (ZIncr_tail _ _ H)|]. split; [|discriminate].
    intros j Hj. rewrite allowed_cons. destruct (Z.eqb_spec (Z.of_nat j) a); [lia | reflexivity].
  - assert (A : forall j, i <= j -> allowed (a :: rest) j = allowed rest j).
    { intros j Hj. rewrite allowed_cons. destruct (Z.eqb_spec (Z.of_nat j) a); [lia | reflexivity]. }
    destruct rest as [|b rest].
    + split; [rewrite A by lia; reflexivity|]. split; [exact I|]. split; [intros j Hj; rewrite A by lia; reflexivity|].
      intros _ j Hj. rewrite A by lia. reflexivity.
    + specialize (IH i (ZIncr_tail _ _ H)). destruct (allow_scan (b :: rest) i) as [[hit allow'] stop].
      destruct IH as (H1 & H2 & H3 & H4). split; [rewrite A by lia; exact H1|]. split; [exact H2|].
      split; [intros j Hj; rewrite A by lia; apply H3; exact Hj|]. intros Hs j Hj. rewrite A by lia. apply H4; assumption.
  - split; [symmetry; apply allowed_incr_head; assumption|]. split; [exact H|]. split; [reflexivity | discriminate].
Qed.

Lemma pos_from_shift l x i : pos_from l x (S i) = option_map S (pos_from l x i).
Proof. revert i. induction l as [|y l IH]; intros i; cbn; [reflexivity|]. destruct (Nat.eqb x y); [reflexivity | apply IH]. Qed.
Lemma pos_from_cons_ne c l x : x <> c -> pos_from (c :: l) x 0 = option_map S (pos_from l x 0).
Proof. intros H. cbn. destruct (Nat.eqb_spec x c); [contradiction|]. apply pos_from_shift. Qed.
Lemma pos_from_here c l : pos_from (c :: l) c 0 = Some 0.
Proof. cbn. rewrite Nat.eqb_refl. reflexivity. Qed.
Lemma pos_from_app_notin l m x i : ~ In x l -> pos_from (l ++ m) x i = pos_from m x (i + length l).
Proof.
  revert i. induction l as [|y l IH]; intros i H; cbn; [rewrite Nat.add_0_r; reflexivity|].
  destruct (Nat.eqb_spec x y) as [-> | Hne]; [destruct H; left; reflexivity|].
  rewrite IH by (intros Hx; apply H; right; exact Hx). f_equal. lia.
Qed.
Lemma pos_from_none l x i : ~ In x l -> pos_from l x i = None.
Proof.
  intros H. pose proof (pos_from_spec l x i) as P. destruct (pos_from l x i) as [j|]; [|reflexivity].
  destruct H. destruct P as (_ & P & _). exact (nth_error_In _ _ P).
Qed.

Lemma asc_walk_shift c l : forall sibs start allow, ~ In c sibs ->
  asc_walk sibs (c :: l) start allow = asc_walk sibs l (S start) allow.
Proof.
  induction sibs as [|x sibs IH]; intros start allow H; [reflexivity|]. cbn [asc_walk].
  rewrite pos_from_cons_ne by (intros ->; apply H; left; reflexivity).
  destruct (pos_from l x 0) as [i|]; cbn [option_map].
  - replace (start + S i) with (S start + i) by lia. reflexivity.
  - apply IH. intros Hc. apply H. right. exact Hc.
Qed.
Lemma asc_walk_ok q : forall l start allow, NoDup l -> ZIncr allow ->
  asc_walk (filter q l) l start allow = filter q (pickn (allowed allow) start l).
Proof.
  induction l as [|c l IH]; intros start allow Hn Ha; [reflexivity|].
  inversion Hn as [|c0 l0 Hc Hn']; subst c0 l0. cbn [filter pickn]. rewrite filter_app.
  destruct (q c) eqn:Eq.
  - cbn [asc_walk]. rewrite pos_from_here. cbn [skipn]. rewrite Nat.add_0_r.
    pose proof (allow_scan_spec allow start Ha) as HS. destruct (allow_scan allow start) as [[hit allow'] stop].
    destruct HS as (H1 & H2 & H3 & H4). rewrite <- H1. f_equal; [destruct hit; cbn; [rewrite Eq|]; reflexivity|].
    destruct stop.
    + rewrite pickn_none; [reflexivity|]. intros k Hk. apply H4; [reflexivity | lia].
    + rewrite (IH (S start) allow' Hn' H2). f_equal. apply pickn_ext. intros k Hk. apply H3. lia.
  - rewrite asc_walk_shift by (rewrite filter_In; intros [H _]; contradiction). rewrite (IH _ _ Hn' Ha).
    destruct (allowed allow start); cbn; [rewrite Eq|]; reflexivity.
Qed.
Lemma desc_walk_ok q allow : forall l i extra, NoDup l -> (forall x, In x extra -> ~ In x l) ->
  desc_walk l i (extra ++ filter q l) allow = filter q (pickn (allowed allow) i l).
Proof.
  induction l as [|c l IH]; intros i extra Hn He; [reflexivity|].
  inversion Hn as [|c0 l0 Hc Hn']; subst c0 l0. cbn [desc_walk pickn]. rewrite filter_app.
  assert (Hex : ~ In c extra) by (intros H; exact (He c H (or_introl eq_refl))).
  assert (He' : forall x, In x extra -> ~ In x l) by (intros x Hx Hl; exact (He x Hx (or_intror Hl))).
  assert (Enil : filter q l = [] -> filter q (pickn (allowed allow) (S i) l) = []).
  { intros E. apply filter_nil. intros x Hx. apply pickn_in in Hx. destruct Hx as (k & Hk & _).
    destruct (q x) eqn:Eq; [|reflexivity]. exfalso. assert (H : In x (filter q l)) by (apply filter_In; split; [exact (nth_error_In _ _ Hk) | exact Eq]).
    rewrite E in H. destruct H. }
  destruct (allowed allow i) eqn:Ea.
  - rewrite pos_from_app_notin by exact Hex. cbn [filter]. destruct (q c) eqn:Eq.
    + cbn [pos_from]. rewrite Nat.eqb_refl. cbn [Nat.add].
      assert (Es : skipn (S (length extra)) (extra ++ c :: filter q l) = filter q l).
      { rewrite skipn_app, skipn_all2 by lia. replace (S (length extra) - length extra) with 1 by lia. reflexivity. }
      rewrite Es. cbn. f_equal. destruct (filter q l) as [|y m] eqn:Ef; cbn [nonempty].
      * symmetry. apply Enil. reflexivity.
      * exact (IH (S i) [] Hn' (fun x H => match H with end)).
    + rewrite pos_from_none by (rewrite filter_In; intros [H _]; contradiction).
      cbn [app]. destruct (extra ++ filter q l) as [|y m] eqn:Ef; cbn [nonempty].
      * symmetry. apply Enil. destruct extra; [exact Ef | discriminate].
      * rewrite <- Ef. apply IH; assumption.
  - cbn [filter]. cbn [app]. destruct (q c) eqn:Eq.
    + rewrite <- (IH (S i) (extra ++ [c]) Hn'); [rewrite <- app_assoc; reflexivity|].
      intros x Hx. apply in_app_or in Hx. destruct Hx as [Hx | [<- | []]]; [exact (He' x Hx) | exact Hc].
    + apply IH; assumption.
Qed.
Lemma zget_ok l i : i < length l -> exists x, nth_error l i = Some x /\ zget l (Z.of_nat i) = Ok x.
Proof.
  intros H. destruct (nth_error l i) as [x|] eqn:E; [|apply nth_error_None in E; lia]. exists x. split; [reflexivity|].
  unfold zget. replace ((0 <=? Z.of_nat i) && (Z.of_nat i <? Z.of_nat (length l)))%Z with true.
  - rewrite Nat2Z.id. unfold rnth. rewrite E. reflexivity.
  - symmetry. apply andb_true_iff. rewrite Z.leb_le, Z.ltb_lt. lia.
Qed.
Lemma zget_pick l : forall suf pre allow, l = pre ++ suf -> ZIncr allow ->
  Forall (fun z => Z.of_nat (length pre) <= z < Z.of_nat (length l))%Z allow ->
  rmapl (zget l) allow = Ok (pickn (allowed allow) (length pre) suf).
Proof.
  induction suf as [|c suf IH]; intros pre allow El Ha Hf.
  - destruct allow as [|a allow]; [reflexivity|]. inversion Hf as [|a0 l0 H1 H2]; subst a0 l0. rewrite El, app_nil_r in H1. lia.
  - cbn [pickn]. assert (Hlen : length (pre ++ [c]) = S (length pre)) by (rewrite app_length; cbn; lia).
    assert (El' : l = (pre ++ [c]) ++ suf) by (rewrite <- app_assoc; exact El).
    destruct allow as [|a allow].
    { cbn. rewrite pickn_none by reflexivity. reflexivity. }
    inversion Hf as [|a0 l0 H1 H2]; subst a0 l0. pose proof (ZIncr_forall _ _ Ha) as Hgt. rewrite Forall_forall in Hgt, H2.
    destruct (Z.eq_dec a (Z.of_nat (length pre))) as [-> | Hne].
    + rewrite allowed_cons, Z.eqb_refl. cbn [orb rmapl].
      destruct (zget_ok l (length pre)) as (x & Hx & Hz); [lia|]. rewrite Hz.
      rewrite El, nth_error_app2, Nat.sub_diag in Hx by lia. cbn in Hx. injection Hx as <-.
      cbn [rbind]. rewrite (IH (pre ++ [c]) allow El' (ZIncr_tail _ _ Ha)).
      * cbn. rewrite Hlen. do 2 f_equal. apply pickn_ext. intros k Hk. rewrite allowed_cons.
        destruct (Z.eqb_spec (Z.of_nat k) (Z.of_nat (length pre))); [lia | reflexivity].
      * apply Forall_forall. intros z Hz'. specialize (Hgt z Hz'). specialize (H2 z Hz'). lia.
    + rewrite allowed_incr_head by (try assumption; lia). cbn [app]. rewrite <- Hlen. apply IH; [exact El' | exact Ha|].
      constructor; [lia|]. apply Forall_forall. intros z Hz'. specialize (Hgt z Hz'). specialize (H2 z Hz'). lia.
Qed.
Lemma rmapl_map {A B C} (f : B -> res C) (g : A -> B) l : rmapl f (map g l) = rmapl (fun x => f (g x)) l.
Proof. induction l as [|x l IH]; [reflexivity|]. cbn. rewrite IH. reflexivity. Qed.
Lemma ZIncr_rev_map n l : ZIncr l -> ZIncr (map (fun z => n - z)%Z (rev l)).
Proof.
  induction l as [|a l IH]; intros H; [exact I|]. cbn [rev]. rewrite map_app. pose proof (ZIncr_forall _ _ H) as Hf.
  apply ZIncr_app; [exact (IH (ZIncr_tail _ _ H)) | cbn; tauto|].
  intros x y Hx [<- | []]. apply in_map_iff in Hx. destruct Hx as (z & <- & Hz). apply in_rev in Hz.
  rewrite Forall_forall in Hf. specialize (Hf z Hz). lia.
Qed.

Lemma filter_rev {A} (q : A -> bool) l : filter q (rev l) = rev (filter q l).
Proof.
  induction l as [|x l IH]; [reflexivity|]. cbn. rewrite filter_app, IH. cbn. destruct (q x); [reflexivity | apply app_nil_r].
Qed.
Lemma filter_len {A} (q : A -> bool) l : length (filter q l) <= length l.
Proof. induction l as [|x l IH]; [constructor|]. cbn. destruct (q x); cbn; lia. Qed.
Lemma filter_full {A} (q : A -> bool) l : length (filter q l) = length l -> forall x, In x l -> q x = true.
Proof.
  induction l as [|y l IH]; intros H x Hx; [destruct Hx|]. cbn in H. destruct (q y) eqn:E.
  - destruct Hx as [<- | Hx]; [exact E|]. apply IH; [cbn in H; lia | exact Hx].
  - pose proof (filter_len q l). cbn in H. lia.
Qed.
Definition from_side (asc : bool) (n i : nat) : nat := if asc then i else n - 1 - i.
Lemma nth_handle_ok asc q (cs els : list id) s e allow : NoDup cs -> range els s e = filter q cs -> e - s = length (range els s e) ->
  ZIncr allow -> Forall (fun z => 0 <= z < Z.of_nat (length cs))%Z allow ->
  nth_handle asc els s e allow cs = Ok (filter q (pickn (fun i => allowed allow (from_side asc (length cs) i)) 0 cs)).
Proof.
  intros Hn Hr Hl Ha Hf. unfold nth_handle, nth_asc, nth_desc.
  assert (Hfull : e - s = length cs -> forall t, filter q (pickn t 0 cs) = pickn t 0 cs).
  { intros E t. apply filter_all. intros x Hx. apply pickn_in in Hx. destruct Hx as (k & Hk & _).
    apply (filter_full q cs); [|exact (nth_error_In _ _ Hk)]. rewrite <- Hr, <- Hl. exact E. }
  destruct asc; cbn [from_side].
  - destruct (Nat.eqb_spec (e - s) (length cs)) as [E | E].
    + rewrite (Hfull E). exact (zget_pick cs cs [] allow eq_refl Ha Hf).
    + rewrite Hr. f_equal. apply asc_walk_ok; assumption.
  - destruct (Nat.eqb_spec (e - s) (length cs)) as [E | E].
    + rewrite (Hfull E). rewrite <- (rmapl_map (zget cs) (fun z => Z.of_nat (length cs) - z - 1)%Z).
      assert (Em : map (fun z => (Z.of_nat (length cs) - z - 1)%Z) (rev allow) = map (fun z => (Z.of_nat (length cs) - 1 - z)%Z) (rev allow)).
      { apply map_ext. intros z. lia. }
      rewrite Em, (zget_pick cs cs [] _ eq_refl).
      * f_equal. apply pickn_ext. intros k Hk. cbn [length] in Hk. apply eq_true_iff_eq. rewrite !allowed_spec, in_map_iff. split.
        -- intros (z & Ez & Hz). apply in_rev in Hz. replace (Z.of_nat (length cs - 1 - k)) with z; [exact Hz|]. lia.
        -- intros H. eexists. split; [|apply -> in_rev; exact H]. lia.
      * apply ZIncr_rev_map. exact Ha.
      * apply Forall_forall. intros z Hz. apply in_map_iff in Hz. destruct Hz as (w & <- & Hw). apply in_rev in Hw.
        rewrite Forall_forall in Hf. specialize (Hf w Hw). cbn [length]. lia.
    + rewrite Hr, <- filter_rev. f_equal.
      pose proof (desc_walk_ok q allow (rev cs) 0 [] (NoDup_rev Hn) (fun x H => match H with end)) as Hd. cbn [app] in Hd.
      rewrite Hd, <- filter_rev, pickn_rev. reflexivity.
Qed.

(** * Positions among the elements of the same name *)
Section Types.
  Variable h : heap.
  Definition cnt (d : list id) (x : id) : nat := length (filter (fun y => str_eqb (tag_name h y) (tag_name h x)) d).
  Fixpoint tmarks (allow : list Z) (d l : list id) : list bool :=
    match l with
    | [] => []
    | x :: l' => allowed allow (cnt d x) :: tmarks allow (d ++ [x]) l'
    end.
  Lemma cnt_app d e x : cnt (d ++ e) x = cnt d x + cnt e x.
  Proof. unfold cnt. rewrite filter_app, app_length. reflexivity. Qed.
  Lemma cnt_rev d x : cnt (rev d) x = cnt d x.
  Proof. unfold cnt. rewrite filter_rev, rev_length. reflexivity. Qed.
  Lemma str_eqb_sym a b : str_eqb a b = str_eqb b a.
  Proof. apply eq_true_iff_eq. rewrite !str_eqb_spec. split; congruence. Qed.

  Lemma names_walk_ok allow : allow <> [] -> ZIncr allow -> Forall (fun z => 0 <= z)%Z allow -> forall l d m,
    (forall name, count_get m name = match length (filter (fun y => str_eqb (tag_name h y) name) d) with 0 => None | S k => Some k end) ->
    names_walk h m allow l = Ok (tmarks allow d l).
  Proof.
    intros Hne Ha Hpos. induction l as [|x l IH]; intros d m Hm; [reflexivity|]. cbn [names_walk tmarks]. unfold allowed_name.
    assert (Hnew : forall k, cnt d x = k -> forall name,
      count_get (count_set m (tag_name h x) k) name =
      match length (filter (fun y => str_eqb (tag_name h y) name) (d ++ [x])) with 0 => None | S k => Some k end).
    { intros k Hk name. unfold count_set. cbn [count_get]. rewrite filter_app, app_length. cbn [filter].
      destruct (str_eqb (tag_name h x) name) eqn:En.
      - apply str_eqb_spec in En. subst name. fold (cnt d x). rewrite Hk. cbn [length]. rewrite Nat.add_1_r. reflexivity.
      - cbn [length]. rewrite Nat.add_0_r. apply Hm. }
    rewrite (Hm (tag_name h x)). fold (cnt d x). destruct (cnt d x) as [|k] eqn:Ek.
    - destruct allow as [|a rest] eqn:Eal; [congruence|]. rewrite <- Eal in *. cbn [rbind fst snd].
      rewrite (IH (d ++ [x]) _ (Hnew 0 eq_refl)). cbn [rbind]. rewrite Eal, allowed_cons. cbn [Z.of_nat].
      do 2 f_equal. rewrite Z.eqb_sym. destruct (Z.eqb_spec 0 a) as [E|E]; [reflexivity|]. cbn [orb]. symmetry.
      apply not_true_iff_false. rewrite allowed_spec. intros Hin. subst allow. apply ZIncr_forall in Ha.
      rewrite Forall_forall in Ha. specialize (Ha _ Hin). inversion Hpos as [|z0 l0 Hz0 _]; subst. cbn in Ha. lia.
    - cbn [rbind fst snd]. rewrite (IH (d ++ [x]) _ (Hnew (S k) eq_refl)). reflexivity.
  Qed.
  Lemma tmarks_filter allow p : forall l d, (forall l1 x l2, l = l1 ++ x :: l2 -> allowed allow (cnt (d ++ l1) x) = p x) ->
    map fst (filter snd (combine l (tmarks allow d l))) = filter p l.
  Proof.
    induction l as [|x l IH]; intros d H; [reflexivity|]. cbn [tmarks combine filter].
    pose proof (H [] x l eq_refl) as H0. rewrite app_nil_r in H0. rewrite H0.
    assert (IH' : map fst (filter snd (combine l (tmarks allow (d ++ [x]) l))) = filter p l).
    { apply IH. intros l1 y l2 ->. rewrite <- app_assoc. exact (H (x :: l1) y l2 eq_refl). }
    cbn [snd]. destruct (p x); cbn [map fst]; rewrite IH'; reflexivity.
  Qed.
  Lemma tmarks_length allow l d : length (tmarks allow d l) = length l.
  Proof. revert d. induction l as [|x l IH]; intros d; [reflexivity|]. cbn. rewrite IH. reflexivity. Qed.
  Lemma marked_filter allow p l d : (forall l1 x l2, l = l1 ++ x :: l2 -> allowed allow (cnt (d ++ l1) x) = p x) ->
    marked_indexs h l (tmarks allow d l) = map (index h) (filter p l).
  Proof.
    intros H. unfold marked_indexs. rewrite <- (tmarks_filter allow p l d H), map_map. reflexivity.
  Qed.

  (** ** Collecting by node index *)
  Fixpoint Inc (l : list nat) : Prop :=
    match l with [] => True | x :: l' => Forall (fun y => x < y) l' /\ Inc l' end.
  Definition hasi (l : list nat) (x : id) : bool := existsb (Nat.eqb (index h x)) l.
  Lemma avail_scan_ok I i : Forall (fun j => i < j) I -> forall sibs, Inc (map (index h) sibs) ->
    let '(found, left_) := avail_scan h i sibs in
    found ++ filter (hasi I) left_ = filter (hasi (i :: I)) sibs /\ Inc (map (index h) left_).
  Proof.
    intros HI. rewrite Forall_forall in HI. induction sibs as [|x sibs IH]; intros Hs; [split; [reflexivity | exact Hs]|].
    cbn [avail_scan]. destruct Hs as [Hf Hs]. rewrite Forall_forall in Hf.
    assert (Hlt : forall y, In y sibs -> index h x < index h y) by (intros y Hy; apply Hf, in_map, Hy).
    destruct (Nat.compare_spec (index h x) i) as [E | E | E].
    - split; [|exact Hs]. cbn [filter hasi existsb app]. rewrite (proj2 (Nat.eqb_eq _ _) E). cbn [orb]. f_equal.
      apply filter_ext_in. intros y Hy. unfold hasi. cbn. specialize (Hlt y Hy). destruct (Nat.eqb_spec (index h y) i); [lia | reflexivity].
    - specialize (IH Hs). destruct (avail_scan h i sibs) as [found left_]. destruct IH as [H1 H2]. split; [|exact H2]. rewrite H1.
      cbn [filter]. assert (Ex : hasi (i :: I) x = false).
      { apply not_true_iff_false. unfold hasi. rewrite existsb_exists. intros (j & [<- | Hj] & Ej); apply Nat.eqb_eq in Ej; [lia|].
        specialize (HI j Hj). lia. }
      rewrite Ex. reflexivity.
    - split; [|split; [apply Forall_forall; exact Hf | exact Hs]]. cbn [app]. apply filter_ext_in. intros y Hy. unfold hasi. cbn.
      assert (index h x <= index h y) by (destruct Hy as [<- | Hy]; [lia | specialize (Hlt y Hy); lia]).
      destruct (Nat.eqb_spec (index h y) i); [lia | reflexivity].
  Qed.
  Lemma collect_avail_ok : forall indexs sibs, Inc indexs -> Inc (map (index h) sibs) ->
    collect_avail h indexs sibs = filter (hasi indexs) sibs.
  Proof.
    induction indexs as [|i indexs IH]; intros sibs Hi Hs; cbn [collect_avail].
    { symmetry. apply filter_nil. reflexivity. }
    destruct Hi as [Hf Hi]. destruct sibs as [|x sibs]; [reflexivity|]. remember (x :: sibs) as ss eqn:E. clear E.
    pose proof (avail_scan_ok indexs i Hf ss Hs) as H. destruct (avail_scan h i ss) as [found left_].
    destruct H as [H1 H2]. rewrite IH by assumption. exact H1.
  Qed.
  Lemma inc_filter p l : Inc (map (index h) l) -> Inc (map (index h) (filter p l)).
  Proof.
    induction l as [|x l IH]; intros H; [exact I|]. destruct H as [Hf H]. cbn. destruct (p x); [|exact (IH H)]. split; [|exact (IH H)].
    rewrite Forall_forall in *. intros i Hi. apply in_map_iff in Hi. destruct Hi as (y & <- & Hy). apply filter_In in Hy. apply Hf, in_map, Hy.
  Qed.
  Lemma hasi_filter p q l : Inc (map (index h) l) -> filter (hasi (map (index h) (filter p l))) (filter q l) = filter p (filter q l).
  Proof.
    intros H. apply filter_ext_in. intros x Hx. apply filter_In in Hx. destruct Hx as [Hx _].
    assert (Hinj : forall y, In y l -> index h y = index h x -> y = x).
    { clear p q. revert H Hx. induction l as [|z l IH]; intros H Hx y Hy E; [destruct Hy|]. destruct H as [Hf H]. rewrite Forall_forall in Hf.
      destruct Hx as [<- | Hx], Hy as [<- | Hy]; try reflexivity.
      - pose proof (Hf _ (in_map (index h) _ _ Hy)). lia.
      - pose proof (Hf _ (in_map (index h) _ _ Hx)). lia.
      - exact (IH H Hx y Hy E). }
    apply eq_true_iff_eq. unfold hasi. rewrite existsb_exists. split.
    - intros (i & Hi & E). apply Nat.eqb_eq in E. subst i. apply in_map_iff in Hi. destruct Hi as (y & E & Hy). apply filter_In in Hy.
      rewrite <- (Hinj y (proj1 Hy) E). apply Hy.
    - intros E. exists (index h x). split; [|apply Nat.eqb_refl]. apply in_map. apply filter_In. split; assumption.
  Qed.
  Lemma allowed_nil i : allowed [] i = false.
  Proof. reflexivity. Qed.
  Lemma of_type_ok (asc : bool) p P q els s e allow : Inc (map (index h) (children h p)) ->
    range els s e = filter q (children h p) -> ZIncr allow -> Forall (fun z => 0 <= z)%Z allow ->
    (forall l1 x l2, children h p = l1 ++ x :: l2 -> allowed allow (if asc then cnt l1 x else cnt l2 x : nat) = P x) ->
    handle_nth_of_type h asc els s e (Some p) allow = Ok (filter P (filter q (children h p))).
  Proof.
    intros Hi Hr Ha Hpos HP. unfold handle_nth_of_type. destruct allow as [|a rest] eqn:Eal.
    { f_equal. symmetry. apply filter_nil. intros x Hx. apply filter_In in Hx. destruct Hx as [Hx _].
      apply in_split in Hx. destruct Hx as (l1 & l2 & E). rewrite <- (HP _ _ _ E). apply allowed_nil. }
    rewrite <- Eal in *. assert (Hne : allow <> []) by (rewrite Eal; discriminate). clear a rest Eal.
    set (cs := children h p) in *.
    assert (A : forall l m, marked_indexs h l (tmarks allow [] l) = m ->
      names_walk h [] allow l = Ok (tmarks allow [] l)).
    { intros l m _. apply names_walk_ok; try assumption. reflexivity. }
    assert (Ei : (if asc then do marks <- names_walk h [] allow cs; Ok (marked_indexs h cs marks)
                  else do marks <- names_walk h [] allow (rev cs); Ok (rev (marked_indexs h (rev cs) marks)))
                 = Ok (map (index h) (filter P cs))).
    { destruct asc; rewrite (A _ _ eq_refl); cbn [rbind]; f_equal.
      - apply marked_filter. intros l1 x l2 E. cbn [app]. exact (HP l1 x l2 E).
      - rewrite (marked_filter allow P).
        + rewrite <- map_rev, <- filter_rev, rev_involutive. reflexivity.
        + intros l1 x l2 E. cbn [app]. rewrite <- (cnt_rev l1). apply (HP (rev l2) x (rev l1)).
          rewrite <- (rev_involutive cs), E, rev_app_distr. cbn. rewrite <- app_assoc. reflexivity. }
    rewrite Ei. cbn [rbind]. rewrite Hr, collect_avail_ok.
    - rewrite hasi_filter by exact Hi. reflexivity.
    - apply inc_filter. exact Hi.
    - apply inc_filter. exact Hi.
  Qed.

  (** * only-of-type *)
  (** The names occurring once with their positions. *)
  Definition once (d : list id) (x : id) : bool := Nat.eqb (cnt d x) 1.
  Lemma only_names_ok : forall l d onces repeated,
    onces = map (fun e : nat * id => (tag_name h (snd e), fst e)) (filter (fun e : nat * id => once d (snd e)) (combine (seq 0 (length d)) d)) ->
    (forall name, In name repeated <-> 1 < length (filter (fun y => str_eqb (tag_name h y) name) d)) ->
    only_names h l (length d) onces repeated =
    map (fun e : nat * id => (tag_name h (snd e), fst e)) (filter (fun e : nat * id => once (d ++ l) (snd e)) (combine (seq 0 (length (d ++ l))) (d ++ l))).
  Proof.
    induction l as [|c l IH]; intros d onces repeated Ho Hr; cbn [only_names].
    { rewrite app_nil_r. exact Ho. }
    assert (Ed : d ++ c :: l = (d ++ [c]) ++ l) by (rewrite <- app_assoc; reflexivity). rewrite Ed.
    assert (El : S (length d) = length (d ++ [c])) by (rewrite app_length; cbn; lia). rewrite El.
    assert (Hcomb : combine (seq 0 (length (d ++ [c]))) (d ++ [c]) = combine (seq 0 (length d)) d ++ [(length d, c)]).
    { assert (G : forall s, combine (seq s (length (d ++ [c]))) (d ++ [c]) = combine (seq s (length d)) d ++ [(s + length d, c)]).
      { clear. induction d as [|x d IH]; intros s; cbn; [rewrite Nat.add_0_r; reflexivity|]. rewrite IH. do 4 f_equal. lia. }
      exact (G 0). }
    assert (Hin : forall e, In e (combine (seq 0 (length d)) d) -> In (snd e) d) by (intros [a b] H; exact (in_combine_r _ _ _ _ H)).
    assert (Hc1 : forall x, cnt [c] x = if str_eqb (tag_name h c) (tag_name h x) then 1 else 0).
    { intros x. unfold cnt. cbn. destruct (str_eqb _ _); reflexivity. }
    assert (Hcin : forall x, In x d -> 1 <= cnt d x).
    { intros x Hx. unfold cnt. assert (H : In x (filter (fun y => str_eqb (tag_name h y) (tag_name h x)) d)).
      { apply filter_In. split; [exact Hx | apply str_eqb_refl]. } destruct (filter _ d); [destruct H | cbn; lia]. }
    assert (Hsame : forall x, str_eqb (tag_name h c) (tag_name h x) = true -> cnt d x = cnt d c).
    { intros x E. apply str_eqb_spec in E. unfold cnt. rewrite E. reflexivity. }
    destruct (existsb (str_eqb (tag_name h c)) repeated) eqn:Er.
    - assert (H2 : 1 < cnt d c).
      { apply existsb_exists in Er. destruct Er as (n & Hn & E). apply str_eqb_spec in E. subst n. apply Hr. exact Hn. }
      apply IH.
      + rewrite Ho, Hcomb, filter_app. cbn [filter snd]. unfold once at 3. rewrite cnt_app, Hc1, str_eqb_refl.
        destruct (Nat.eqb_spec (cnt d c + 1) 1); [lia|]. rewrite app_nil_r. f_equal. apply filter_ext_in. intros e He.
        unfold once. rewrite cnt_app, Hc1. destruct (str_eqb (tag_name h c) (tag_name h (snd e))) eqn:E; [|rewrite Nat.add_0_r; reflexivity].
        rewrite (Hsame _ E). destruct (Nat.eqb_spec (cnt d c) 1); [lia|]. destruct (Nat.eqb_spec (cnt d c + 1) 1); [lia | reflexivity].
      + intros name. rewrite Hr, filter_app, app_length. cbn [filter]. destruct (str_eqb (tag_name h c) name) eqn:E; cbn [length]; [|lia].
        apply str_eqb_spec in E. subst name. fold (cnt d c). lia.
    - assert (H2 : cnt d c <= 1).
      { apply Nat.nlt_ge. intros H. apply Hr in H. apply not_true_iff_false in Er. apply Er. apply existsb_exists.
        exists (tag_name h c). split; [exact H | apply str_eqb_refl]. }
      destruct (existsb (fun e : str * nat => str_eqb (fst e) (tag_name h c)) onces) eqn:Eo.
      + assert (H1 : cnt d c = 1).
        { apply existsb_exists in Eo. destruct Eo as (e & He & E). rewrite Ho in He. apply in_map_iff in He. destruct He as (f & <- & Hf).
          cbn in E. apply filter_In in Hf. destruct Hf as [_ Hf]. unfold once in Hf. apply Nat.eqb_eq in Hf.
          rewrite <- Hf. symmetry. apply Hsame. rewrite str_eqb_sym. exact E. }
        apply IH.
        * rewrite Ho, Hcomb, filter_app. cbn [filter snd]. unfold once at 3. rewrite cnt_app, Hc1, str_eqb_refl, H1. cbn [Nat.add Nat.eqb].
          rewrite app_nil_r.
          assert (Hfm : forall (f : str * nat -> bool) l', filter f (map (fun e : nat * id => (tag_name h (snd e), fst e)) l') =
            map (fun e : nat * id => (tag_name h (snd e), fst e)) (filter (fun e => f (tag_name h (snd e), fst e)) l')).
          { clear. intros f. induction l' as [|a l' IH]; [reflexivity|]. cbn. destruct (f _); cbn; rewrite IH; reflexivity. }
          rewrite Hfm. f_equal. cbn [fst].
          assert (Hff : forall (f g k : nat * id -> bool) l', (forall a, In a l' -> k a = f a && g a) -> filter f (filter g l') = filter k l').
          { clear. intros f g k. induction l' as [|a l' IH]; intros H; [reflexivity|]. cbn. rewrite (H a (or_introl eq_refl)).
            destruct (g a); cbn; [destruct (f a); cbn|rewrite andb_false_r]; rewrite IH by (intros b Hb; apply H; right; exact Hb); reflexivity. }
          apply Hff. intros e He. unfold once. rewrite cnt_app, Hc1, str_eqb_sym.
          destruct (str_eqb (tag_name h (snd e)) (tag_name h c)) eqn:E; cbn [negb andb]; [|rewrite Nat.add_0_r; reflexivity].
          pose proof (Hcin _ (Hin e He)). destruct (Nat.eqb_spec (cnt d (snd e) + 1) 1); [lia | reflexivity].
        * intros name. rewrite in_app_iff, Hr, filter_app, app_length. cbn [filter].
          destruct (str_eqb (tag_name h c) name) eqn:E.
          -- apply str_eqb_spec in E. subst name. fold (cnt d c). rewrite H1. cbn. split; [lia | tauto].
          -- cbn [length]. rewrite Nat.add_0_r. split; [intros [H | [H | []]]; [exact H|] | tauto]. subst name. rewrite str_eqb_refl in E. discriminate.
      + assert (H0 : cnt d c = 0).
        { destruct (cnt d c) as [|[|k]] eqn:Ek; [reflexivity| |lia]. exfalso.
          assert (Hex : exists f, In f (combine (seq 0 (length d)) d) /\ str_eqb (tag_name h (snd f)) (tag_name h c) = true).
          { assert (Hx : exists x, In x (filter (fun y => str_eqb (tag_name h y) (tag_name h c)) d)).
            { unfold cnt in Ek. destruct (filter _ d) as [|x l0]; [discriminate | exists x; left; reflexivity]. }
            destruct Hx as (x & Hx). apply filter_In in Hx. destruct Hx as [Hx E]. apply In_nth_error in Hx. destruct Hx as (k & Hk).
            exists (k, x). split; [|exact E]. apply (nth_error_In _ k).
            clear - Hk. assert (G : forall s, nth_error (combine (seq s (length d)) d) k = Some (s + k, x)).
            { revert k Hk. induction d as [|y d IH]; intros [|k] Hk s; try discriminate; cbn in *.
              - injection Hk as ->. rewrite Nat.add_0_r. reflexivity.
              - rewrite (IH k Hk). do 2 f_equal. lia. }
            exact (G 0). }
          destruct Hex as (f & Hf & E). apply not_true_iff_false in Eo. apply Eo. apply existsb_exists. exists (tag_name h (snd f), fst f).
          split; [|exact E]. rewrite Ho. apply in_map_iff. exists f. split; [reflexivity|]. apply filter_In. split; [exact Hf|].
          unfold once. rewrite (Hsame (snd f)) by (rewrite str_eqb_sym; exact E). reflexivity. }
        apply IH.
        * rewrite Ho, Hcomb, filter_app, map_app. cbn [filter snd]. unfold once at 3. rewrite cnt_app, Hc1, str_eqb_refl, H0. cbn [Nat.add Nat.eqb map fst snd].
          f_equal. f_equal. apply filter_ext_in. intros e He. unfold once. rewrite cnt_app, Hc1.
          destruct (str_eqb (tag_name h c) (tag_name h (snd e))) eqn:E; [|rewrite Nat.add_0_r; reflexivity].
          pose proof (Hcin _ (Hin e He)). rewrite (Hsame _ E) in *. lia.
        * intros name. rewrite Hr, filter_app, app_length. cbn [filter]. destruct (str_eqb (tag_name h c) name) eqn:E; cbn [length]; [|lia].
          apply str_eqb_spec in E. subst name. fold (cnt d c). lia.
  Qed.
  Lemma only_names_all l : only_names h l 0 [] [] =
    map (fun e : nat * id => (tag_name h (snd e), fst e)) (filter (fun e : nat * id => once l (snd e)) (combine (seq 0 (length l)) l)).
  Proof. apply (only_names_ok l [] [] []); [reflexivity|]. intros name. cbn. split; [intros [] | lia]. Qed.
  Lemma only_full l : rmapl (fun n : str * nat => rnth l (snd n)) (only_names h l 0 [] []) = Ok (filter (once l) l).
  Proof.
    rewrite only_names_all.
    assert (G : forall suf pre p, l = pre ++ suf ->
      rmapl (fun n : str * nat => rnth l (snd n)) (map (fun e : nat * id => (tag_name h (snd e), fst e)) (filter (fun e : nat * id => p (snd e)) (combine (seq (length pre) (length suf)) suf)))
      = Ok (filter p suf)).
    { induction suf as [|x suf IH]; intros pre p E; [reflexivity|]. cbn [length seq combine filter snd].
      assert (E' : l = (pre ++ [x]) ++ suf) by (rewrite <- app_assoc; exact E). specialize (IH (pre ++ [x]) p E').
      rewrite app_length, Nat.add_1_r in IH. destruct (p x); [|exact IH]. cbn [map rmapl fst snd].
      assert (Hr : rnth l (length pre) = Ok x).
      { unfold rnth. rewrite E, nth_error_app2, Nat.sub_diag by lia. reflexivity. }
      rewrite Hr. cbn [rbind]. rewrite IH. reflexivity. }
    exact (G l [] (once l) eq_refl).
  Qed.
  (** The scan over a part of the siblings. *)
  Lemma name_scan_skip name l1 l2 : (forall x, In x l1 -> str_eqb (tag_name h x) name = false) ->
    name_scan h name (l1 ++ l2) = name_scan h name l2.
  Proof.
    induction l1 as [|x l1 IH]; intros H; [reflexivity|]. cbn. rewrite (H x (or_introl eq_refl)). apply IH. intros y Hy. apply H. right. exact Hy.
  Qed.
  Lemma only_part q : forall suf pre start extra,
    (forall x, In x extra -> In x pre) -> NoDup (pre ++ suf) ->
    only_walk h (map (fun e : nat * id => (tag_name h (snd e), fst e)) (filter (fun e : nat * id => once (pre ++ suf) (snd e)) (combine (seq start (length suf)) suf)))
      (extra ++ filter q suf) = filter (once (pre ++ suf)) (filter q suf).
  Proof.
    induction suf as [|c suf IH]; intros pre start extra He Hn; [reflexivity|].
    assert (E : pre ++ c :: suf = (pre ++ [c]) ++ suf) by (rewrite <- app_assoc; reflexivity).
    cbn [length seq combine filter snd]. destruct (once (pre ++ c :: suf) c) eqn:Eo.
    - cbn [map only_walk fst snd].
      assert (Hoth : forall x, In x (pre ++ suf) -> str_eqb (tag_name h x) (tag_name h c) = false).
      { intros x Hx. apply not_true_iff_false. intros Ex. unfold once in Eo. apply Nat.eqb_eq in Eo.
        unfold cnt in Eo. rewrite filter_app in Eo. cbn [filter] in Eo. rewrite str_eqb_refl, app_length in Eo. cbn [length] in Eo.
        apply in_app_or in Hx. destruct Hx as [Hx | Hx].
        - assert (H : In x (filter (fun y => str_eqb (tag_name h y) (tag_name h c)) pre)) by (apply filter_In; split; assumption).
          destruct (filter (fun y => str_eqb (tag_name h y) (tag_name h c)) pre); [destruct H | cbn in Eo; lia].
        - assert (H : In x (filter (fun y => str_eqb (tag_name h y) (tag_name h c)) suf)) by (apply filter_In; split; assumption).
          destruct (filter (fun y => str_eqb (tag_name h y) (tag_name h c)) suf); [destruct H | cbn in Eo; lia]. }
      rewrite name_scan_skip by (intros x Hx; apply Hoth, in_or_app; left; apply He, Hx).
      destruct (q c) eqn:Eq.
      + cbn [name_scan]. rewrite str_eqb_refl. cbn [filter]. rewrite Eo. f_equal. rewrite E in *.
        exact (IH (pre ++ [c]) (S start) [] (fun x H => match H with end) Hn).
      + assert (Hs : name_scan h (tag_name h c) (filter q suf) = None).
        { clear - Hoth. assert (H : forall x, In x (filter q suf) -> str_eqb (tag_name h x) (tag_name h c) = false).
          { intros x Hx. apply filter_In in Hx. apply Hoth, in_or_app. right. apply Hx. }
          induction (filter q suf) as [|x l IH]; [reflexivity|]. cbn. rewrite (H x (or_introl eq_refl)). apply IH. intros y Hy. apply H. right. exact Hy. }
        rewrite Hs, E in *. apply IH; [|exact Hn]. intros x Hx. apply in_or_app. left. apply He, Hx.
    - rewrite E in *. destruct (q c) eqn:Eq.
      + cbn [filter]. rewrite Eo.
        rewrite <- (IH (pre ++ [c]) (S start) (extra ++ [c])); [rewrite <- (app_assoc extra); reflexivity | |exact Hn].
        intros x Hx. apply in_app_or in Hx. apply in_or_app. destruct Hx as [Hx | Hx]; [left; apply He, Hx | right; exact Hx].
      + apply IH; [|exact Hn]. intros x Hx. apply in_or_app. left. apply He, Hx.
  Qed.
  Lemma only_part_all q l : NoDup l -> only_walk h (only_names h l 0 [] []) (filter q l) = filter (once l) (filter q l).
  Proof. intros Hn. rewrite only_names_all. exact (only_part q l [] 0 [] (fun x H => match H with end) Hn). Qed.
End Types.
