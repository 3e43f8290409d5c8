(** [add] is the union in document order, as long as the last element of the first set, when it is also in the
    second, is the last one there too. *)
From Verif Require Import Base Dom DomSpec Order OrderSpec DomProofs OrderProofs Sets SetsProofs.

(** * The search for the insertion places, on index paths *)
Section Keys.
  Variables ka kb : list (list nat).
  Definition KStrict (l : list (list nat)) : Prop :=
    forall i j x y, nth_error l i = Some x -> nth_error l j = Some y -> i < j -> klt x y.
  Hypothesis Ha : KStrict ka.
  Hypothesis Hb : KStrict kb.
  Variables fr sr : nat.
  Hypothesis Hfr : length ka = S fr.
  Hypothesis Hsr : length kb = S sr.
  (** The guard. *)
  Hypothesis Hguard : forall j x, nth_error kb j = Some x -> nth_error ka fr = Some x -> j = sr.

  Definition below (k : list nat) (x : list nat) : bool := match compare_indexs x k with Lt => true | _ => false end.
  Definition rank (k : list nat) : nat := length (filter (below k) ka).
  Definition key_in (k : list nat) : bool := existsb (idx_eqb k) ka.

  Lemma key_in_spec k : key_in k = true <-> In k ka.
  Proof.
    unfold key_in. rewrite existsb_exists. unfold idx_eqb. split.
    - intros (x & Hx & E). destruct (compare_indexs k x) eqn:C; try discriminate. apply compare_eq in C. subst x. exact Hx.
    - intros H. exists k. rewrite compare_refl. split; [exact H | reflexivity].
  Qed.

  Lemma below_true k x : below k x = true <-> klt x k.
  Proof. unfold below, klt. destruct (compare_indexs x k); split; congruence. Qed.

  (** [rank k = i] when exactly the first [i] keys are below [k]. *)
  Lemma rank_at k i : i <= length ka ->
    (forall j x, nth_error ka j = Some x -> j < i -> klt x k) ->
    (forall j x, nth_error ka j = Some x -> i <= j -> ~ klt x k) -> rank k = i.
  Proof.
    intros Hi H1 H2. unfold rank. rewrite <- (firstn_skipn i ka), filter_app, app_length.
    assert (E1 : filter (below k) (firstn i ka) = firstn i ka).
    { apply filter_all. intros x Hx. apply below_true.
      apply In_nth_error in Hx. destruct Hx as (j & Hj). assert (Hlt : j < length (firstn i ka)) by (apply nth_error_Some; congruence).
      rewrite firstn_length in Hlt. apply (H1 j); [|lia].
      rewrite <- (firstn_skipn i ka), nth_error_app1; [exact Hj | rewrite firstn_length; lia]. }
    assert (E2 : filter (below k) (skipn i ka) = []).
    { destruct (filter (below k) (skipn i ka)) as [|x f] eqn:E; [reflexivity|]. exfalso.
      assert (Hx : In x (filter (below k) (skipn i ka))) by (rewrite E; left; reflexivity).
      apply filter_In in Hx. destruct Hx as [Hx Hk]. apply below_true in Hk. apply In_nth_error in Hx. destruct Hx as (j & Hj).
      apply (H2 (i + j) x); [|lia | exact Hk].
      rewrite <- (firstn_skipn i ka), nth_error_app2; rewrite firstn_length, Nat.min_l by lia; [|lia].
      replace (i + j - i) with j by lia. exact Hj. }
    rewrite E1, E2, firstn_length. cbn. lia.
  Qed.

  Lemma ka_le i j x y : nth_error ka i = Some x -> nth_error ka j = Some y -> i <= j -> klt x y \/ x = y.
  Proof.
    intros Hi Hj Hij. destruct (Nat.eq_dec i j) as [-> | Hne]; [right; congruence|].
    left. apply (Ha i j x y Hi Hj). lia.
  Qed.
  Lemma kb_le i j x y : nth_error kb i = Some x -> nth_error kb j = Some y -> i <= j -> klt x y \/ x = y.
  Proof.
    intros Hi Hj Hij. destruct (Nat.eq_dec i j) as [-> | Hne]; [right; congruence|].
    left. apply (Hb i j x y Hi Hj). lia.
  Qed.
  Lemma ka_get i : i <= fr -> exists x, nth_error ka i = Some x.
  Proof. intros H. destruct (nth_error ka i) as [x|] eqn:E; [exists x; reflexivity|]. apply nth_error_None in E. lia. Qed.
  Lemma kb_get i : i <= sr -> exists x, nth_error kb i = Some x.
  Proof. intros H. destruct (nth_error kb i) as [x|] eqn:E; [exists x; reflexivity|]. apply nth_error_None in E. lia. Qed.

  (** Between position [i-1] and [i]: not a key of [ka], rank [i]. *)
  Lemma gap k i : i <= length ka ->
    (forall x, 0 < i -> nth_error ka (i - 1) = Some x -> klt x k) ->
    (forall x, nth_error ka i = Some x -> klt k x) ->
    rank k = i /\ key_in k = false.
  Proof.
    intros Hi H1 H2.
    assert (L : forall j x, nth_error ka j = Some x -> j < i -> klt x k).
    { intros j x Hj Hlt. destruct (nth_error ka (i - 1)) as [y|] eqn:Ey; [|apply nth_error_None in Ey; lia].
      specialize (H1 y ltac:(lia) eq_refl). destruct (ka_le j (i - 1) x y Hj Ey ltac:(lia)) as [H | ->]; [|exact H1].
      exact (klt_trans _ _ _ H H1). }
    assert (G : forall j x, nth_error ka j = Some x -> i <= j -> klt k x).
    { intros j x Hj Hle. destruct (nth_error ka i) as [y|] eqn:Ey.
      - specialize (H2 y eq_refl). destruct (ka_le i j y x Ey Hj Hle) as [H | <-]; [|exact H2]. exact (klt_trans _ _ _ H2 H).
      - apply nth_error_None in Ey. assert (nth_error ka j <> None) by congruence. apply nth_error_Some in H. lia. }
    split.
    - apply rank_at; [exact Hi | exact L |]. intros j x Hj Hle Hk. exact (klt_irrefl _ (klt_trans _ _ _ Hk (G j x Hj Hle))).
    - apply not_true_is_false. rewrite key_in_spec. intros Hin. apply In_nth_error in Hin. destruct Hin as (j & Hj).
      destruct (Nat.lt_ge_cases j i) as [H | H]; [exact (klt_irrefl _ (L j k Hj H)) | exact (klt_irrefl _ (G j k Hj H))].
  Qed.

  Lemma compare_gt a b : compare_indexs a b = Gt -> klt b a.
  Proof. intros E. unfold klt. rewrite compare_antisym, E. reflexivity. Qed.

  Lemma add_search_ok k : forall fuel l r, l < r -> r <= fr -> r - l < fuel ->
    (forall x, nth_error ka l = Some x -> klt x k) -> (forall x, nth_error ka r = Some x -> klt k x) ->
    exists mid b, add_search fuel ka k l r ((l + r) / 2) = Ok (mid, b) /\ l <= mid /\ mid < r /\
      if b then nth_error ka mid = Some k
      else (forall x, nth_error ka mid = Some x -> klt x k) /\ (forall x, nth_error ka (S mid) = Some x -> klt k x).
  Proof.
    induction fuel as [|f IH]; intros l r Hlr Hr Hf Hl Hrk; [lia|]. cbn [add_search].
    assert (Hm1 : l <= (l + r) / 2) by (apply Nat.div_le_lower_bound; lia).
    assert (Hm2 : (l + r) / 2 < r) by (apply Nat.div_lt_upper_bound; lia).
    assert (Hm3 : (l + r) / 2 = l -> r = S l).
    { intros E. pose proof (Nat.div_mod (l + r) 2 ltac:(lia)). pose proof (Nat.mod_upper_bound (l + r) 2 ltac:(lia)). lia. }
    set (mid := (l + r) / 2) in *. clearbody mid.
    destruct (Nat.eqb_spec mid l) as [E | Hne].
    - exists mid, false. split; [reflexivity|]. split; [exact Hm1|]. split; [exact Hm2|]. rewrite E. rewrite (Hm3 E) in Hrk. split; assumption.
    - destruct (ka_get mid ltac:(lia)) as (x & Ex). unfold rnth. rewrite Ex. cbn [rbind].
      destruct (compare_indexs k x) eqn:C.
      + apply compare_eq in C. subst x. exists mid, true. split; [reflexivity|]. split; [exact Hm1|]. split; [exact Hm2 | exact Ex].
      + destruct (IH l mid) as (m & b & E & B1 & B2 & B3); try assumption; try lia.
        { intros y Ey. rewrite Ex in Ey. injection Ey as <-. exact C. }
        exists m, b. rewrite E. repeat split; try assumption; lia.
      + destruct (IH mid r) as (m & b & E & B1 & B2 & B3); try assumption; try lia.
        { intros y Ey. rewrite Ex in Ey. injection Ey as <-. exact (compare_gt _ _ C). }
        exists m, b. rewrite E. repeat split; try assumption; lia.
  Qed.

  (** What is still to be inserted from position [sl] of the second set on. *)
  Definition todo_one (j : nat) : list (nat * nat) :=
    match nth_error kb j with
    | Some k => if key_in k then [] else [(j, rank k)]
    | None => []
    end.
  Definition todo (lo len : nat) : list (nat * nat) := flat_map todo_one (seq lo len).

  Lemma todo_range lo len i : 
    (forall j, lo <= j < lo + len -> exists k, nth_error kb j = Some k /\ key_in k = false /\ rank k = i) ->
    todo lo len = push_range lo len i.
  Proof.
    revert lo. induction len as [|len IH]; intros lo H; [reflexivity|]. unfold todo, push_range in *. cbn.
    rewrite <- IH by (intros j Hj; apply H; lia).
    destruct (H lo ltac:(lia)) as (k & E1 & E2 & E3). unfold todo_one at 1. rewrite E1, E2, E3. reflexivity.
  Qed.
  Lemma todo_cons lo len : todo lo (S len) = todo_one lo ++ todo (S lo) len.
  Proof. reflexivity. Qed.
  Lemma todo_snoc lo len : todo lo (S len) = todo lo len ++ todo_one (lo + len).
  Proof. unfold todo. rewrite seq_S, flat_map_app. cbn. rewrite app_nil_r. reflexivity. Qed.
  Lemma todo_in j k : nth_error kb j = Some k -> In k ka -> todo_one j = [].
  Proof. intros E H. unfold todo_one. rewrite E, (proj2 (key_in_spec k) H). reflexivity. Qed.

  Lemma add_loop_ok : forall fuel fl sl mids,
    S sr - sl < fuel -> (fl <= fr \/ sl = S sr) -> sl <= S sr ->
    (forall i j x y, i < fl -> sl <= j -> nth_error ka i = Some x -> nth_error kb j = Some y -> klt x y) ->
    add_loop fuel ka kb fr sr fl sl mids = Ok (mids ++ todo sl (S sr - sl)).
  Proof.
    induction fuel as [|f IH]; intros fl sl mids Hf Hfl Hsl Hinv; [lia|]. cbn [add_loop].
    destruct (Nat.leb_spec sl sr) as [Hs | Hs].
    2:{ rewrite andb_false_r. replace (S sr - sl) with 0 by lia. cbn. rewrite app_nil_r. reflexivity. }
    destruct (Nat.leb_spec fl fr) as [Hle | Hle]; [|lia]. cbn [andb].
    destruct (kb_get sl Hs) as (k & Ek). destruct (ka_get fl Hle) as (kl & Ekl).
    unfold rnth at 1 2. rewrite Ek, Ekl. cbn [rbind].
    assert (Hsplit : S sr - sl = S (sr - sl)) by lia.
    (* keys below [kl] and after what was passed *)
    assert (Hgap : forall j y, sl <= j -> nth_error kb j = Some y -> klt y kl -> rank y = fl /\ key_in y = false).
    { intros j y Hj Ey Hlt. apply gap; [lia | |].
      - intros x H0 Ex. apply (Hinv (fl - 1) j x y); [lia | exact Hj | exact Ex | exact Ey].
      - intros x Ex. rewrite Ekl in Ex. injection Ex as <-. exact Hlt. }
    destruct (compare_indexs k kl) eqn:C.
    - (* equal *)
      apply compare_eq in C. subst kl.
      rewrite IH; try lia.
      + rewrite Hsplit, todo_cons, (todo_in sl k Ek (nth_error_In _ _ Ekl)). cbn [app]. reflexivity.
      + destruct (Nat.eq_dec fl fr) as [-> | Hne]; [|left; lia]. right. rewrite (Hguard sl k Ek Ekl). reflexivity.
      + intros i j x y Hi Hj Ex Ey. destruct (ka_le i fl x k Ex Ekl ltac:(lia)) as [H | ->].
        * exact (klt_trans _ _ _ H (Hb sl j k y Ek Ey ltac:(lia))).
        * exact (Hb sl j k y Ek Ey ltac:(lia)).
    - (* less *)
      destruct (kb_get sr (le_n sr)) as (kr & Ekr). unfold rnth at 1. rewrite Ekr. cbn [rbind].
      destruct (compare_indexs kr kl) eqn:D.
      + apply compare_eq in D. subst kr. f_equal. f_equal. rewrite Hsplit, todo_snoc.
        replace (sl + (sr - sl)) with sr by lia. rewrite (todo_in sr kl Ekr (nth_error_In _ _ Ekl)), app_nil_r.
        symmetry. apply todo_range. intros j Hj. destruct (kb_get j ltac:(lia)) as (y & Ey). exists y. split; [exact Ey|].
        destruct (Hgap j y ltac:(lia) Ey (Hb j sr y kl Ey Ekr ltac:(lia))) as [H1 H2]. split; assumption.
      + f_equal. f_equal. symmetry. apply todo_range. intros j Hj. destruct (kb_get j ltac:(lia)) as (y & Ey). exists y.
        split; [exact Ey|]. assert (Hy : klt y kl).
        { destruct (kb_le j sr y kr Ey Ekr ltac:(lia)) as [H | ->]; [exact (klt_trans _ _ _ H D) | exact D]. }
        destruct (Hgap j y ltac:(lia) Ey Hy) as [H1 H2]. split; assumption.
      + rewrite IH; try lia.
        * rewrite <- app_assoc. f_equal. f_equal. rewrite Hsplit, todo_cons. unfold todo_one. rewrite Ek.
          destruct (Hgap sl k ltac:(lia) Ek C) as [-> ->]. reflexivity.
        * intros i j x y Hi Hj. apply Hinv; lia.
    - (* greater *)
      apply compare_gt in C.
      destruct (ka_get fr (le_n fr)) as (kr & Ekr). unfold rnth at 1. rewrite Ekr. cbn [rbind].
      destruct (compare_indexs k kr) eqn:D.
      + apply compare_eq in D. subst kr. pose proof (Hguard sl k Ek Ekr) as ->. f_equal. f_equal.
        rewrite Nat.sub_diag. replace (S sr - sr) with 1 by lia. cbn. rewrite (todo_in sr k Ek (nth_error_In _ _ Ekr)). reflexivity.
      + assert (Hlr : fl < fr).
        { destruct (Nat.eq_dec fl fr) as [-> | Hne]; [|lia]. rewrite Ekl in Ekr. injection Ekr as <-.
          destruct (klt_irrefl _ (klt_trans _ _ _ C D)). }
        destruct (add_search_ok k (S fr) fl fr Hlr (le_n fr) ltac:(lia)) as (mid & b & E & B1 & B2 & B3).
        { intros x Ex. rewrite Ekl in Ex. injection Ex as <-. exact C. }
        { intros x Ex. rewrite Ekr in Ex. injection Ex as <-. exact D. }
        rewrite E. cbn [rbind fst snd].
        rewrite IH; try lia.
        * destruct b.
          -- rewrite Hsplit, todo_cons, (todo_in sl k Ek (nth_error_In _ _ B3)). reflexivity.
          -- rewrite <- app_assoc. f_equal. f_equal. rewrite Hsplit, todo_cons. unfold todo_one. rewrite Ek.
             destruct (gap k (S mid)) as [-> ->]; [lia | | exact (proj2 B3) | reflexivity].
             intros x _ Ex. apply (proj1 B3). replace (S mid - 1) with mid in Ex by lia. exact Ex.
        * intros i j x y Hi Hj Ex Ey. destruct (ka_get mid ltac:(lia)) as (m & Em).
          assert (Hxk : klt x k).
          { pose proof (Ha i mid x m Ex Em Hi) as H. destruct b.
            - rewrite Em in B3. injection B3 as ->. exact H.
            - exact (klt_trans _ _ _ H (proj1 B3 m Em)). }
          exact (klt_trans _ _ _ Hxk (Hb sl j k y Ek Ey ltac:(lia))).
      + apply compare_gt in D. f_equal. f_equal. symmetry. apply todo_range. intros j Hj.
        destruct (kb_get j ltac:(lia)) as (y & Ey). exists y. split; [exact Ey|].
        assert (Hy : klt kr y).
        { destruct (kb_le sl j k y Ek Ey ltac:(lia)) as [H | <-]; [exact (klt_trans _ _ _ D H) | exact D]. }
        destruct (gap y (S fr)) as [H1 H2]; [lia | | | split; assumption].
        { intros x _ Ex. replace (S fr - 1) with fr in Ex by lia. rewrite Ekr in Ex. injection Ex as <-. exact Hy. }
        { intros x Ex. assert (nth_error ka (S fr) <> None) by congruence. apply nth_error_Some in H. lia. }
  Qed.
End Keys.

(** * Building the result *)
Section Merge.
  Variable h : heap.
  Hypothesis wf : WF h.
  Variable r : id.
  Notation key := (key h).

  Definition count_before (f : list id) (y : id) : nat := length (filter (fun x => below (key y) (key x)) f).

  Lemma before_below x y : InTree h r x -> InTree h r y -> (below (key y) (key x) = true <-> Before h x y).
  Proof. intros Hx Hy. rewrite below_true. split; [apply (key_before h wf r) | apply (before_key h wf r)]; assumption. Qed.

  Lemma count_zero e f y : DocSet h r (e :: f) -> InTree h r y -> y <> e ->
    (count_before (e :: f) y = 0 <-> Before h y e).
  Proof.
    intros [Ha Ho] Hy Hne. apply Forall_inv in Ha as He. unfold count_before. cbn [filter].
    destruct (below (key y) (key e)) eqn:E.
    - apply before_below in E; try assumption. split; [discriminate|]. intros H. destruct (before_asym h wf r e y He Hy E H).
    - split.
      + intros _. destruct (before_total h wf r e y He Hy) as [H | [H | H]]; [|congruence | exact H].
        apply before_below in H; try assumption. congruence.
      + intros H. replace (filter (fun x => below (key y) (key x)) f) with (@nil id); [reflexivity|].
        symmetry. destruct (filter _ f) as [|z f'] eqn:Ef; [reflexivity|]. exfalso.
        assert (Hz : In z (filter (fun x => below (key y) (key x)) f)) by (rewrite Ef; left; reflexivity).
        apply filter_In in Hz. destruct Hz as [Hz1 Hz2].
        assert (Hzt : InTree h r z) by (rewrite Forall_forall in Ha; apply Ha; right; exact Hz1).
        apply before_below in Hz2; try assumption. destruct Ho as [Heo _]. rewrite Forall_forall in Heo.
        pose proof (before_trans h wf r y e z Hy He Hzt H (Heo z Hz1)). exact (before_asym h wf r z y Hzt Hy Hz2 H0).
  Qed.

  (** [m]: what is inserted, as (position in [second], element). *)
  Lemma span_before i e f (ms : list (nat * id)) :
    DocSet h r (e :: f) -> DocSet h r (map snd ms) -> (forall y, In y (map snd ms) -> y <> e) ->
    exists m1 m2, ms = m1 ++ m2 /\
      span_at i (map (fun p => (fst p, i + count_before (e :: f) (snd p))) ms) =
        (map (fun p => (fst p, i + count_before (e :: f) (snd p))) m1,
         map (fun p => (fst p, S i + count_before f (snd p))) m2) /\
      (forall y, In y (map snd m1) -> Before h y e) /\ (forall y, In y (map snd m2) -> Before h e y).
  Proof.
    intros Hf. induction ms as [|[s y] ms IH]; intros Hm Hn.
    - exists [], []. repeat split; try (intros ? []).
    - destruct Hm as [Hma Hmo]. cbn [map snd] in *. apply Forall_inv in Hma as Hy. apply Forall_inv_tail in Hma as Hma'.
      destruct Hmo as [Hyo Hmo]. destruct Hf as [Hfa Hfo]. apply Forall_inv in Hfa as He.
      pose proof (count_zero e f y (conj Hfa Hfo) Hy (Hn y (or_introl eq_refl))) as Hz.
      cbn [map span_at fst snd].
      destruct (Nat.eqb_spec (i + count_before (e :: f) y) i) as [E | E].
      + destruct IH as (m1 & m2 & -> & E2 & H1 & H2); [split; assumption | intros z Hz'; apply Hn; right; exact Hz' |].
        rewrite E2. exists ((s, y) :: m1), m2. repeat split; [| exact H2].
        intros z [<- | Hz']; [apply Hz; lia | exact (H1 z Hz')].
      + assert (Hey : forall z, In z (y :: map snd ms) -> Before h e z).
        { assert (Before h e y).
          { destruct (before_total h wf r e y He Hy) as [H | [H | H]]; [exact H | | apply Hz in H; lia].
            destruct (Hn y (or_introl eq_refl)). congruence. }
          intros z [<- | Hz']; [exact H|]. rewrite Forall_forall in Hyo, Hma'.
          exact (before_trans h wf r e y z He Hy (Hma' z Hz') H (Hyo z Hz')). }
        exists [], ((s, y) :: ms). split; [reflexivity|]. split; [|split; [intros ? [] | exact Hey]].
        cbn [map app fst snd]. f_equal.
        assert (Hc : forall z, In z (y :: map snd ms) -> InTree h r z -> i + count_before (e :: f) z = S i + count_before f z).
        { intros z Hz' Ht. unfold count_before. cbn [filter].
          rewrite (proj2 (before_below e z He Ht) (Hey z Hz')). cbn. lia. }
        f_equal; [f_equal; apply Hc; [left; reflexivity | exact Hy]|].
        apply map_ext_in. intros [s' z] Hz'. cbn. f_equal. 
        assert (Hin : In z (map snd ms)) by (apply in_map_iff; exists (s', z); split; [reflexivity | exact Hz']).
        apply Hc; [right; exact Hin|]. rewrite Forall_forall in Hma'. exact (Hma' z Hin).
  Qed.

  Lemma mid_ele_ok second (ms : list (nat * id)) (g : nat * id -> nat) :
    (forall p, In p ms -> nth_error second (fst p) = Some (snd p)) ->
    rmapl (mid_ele second) (map (fun p => (fst p, g p)) ms) = Ok (map snd ms).
  Proof.
    induction ms as [|p ms IH]; intros H; [reflexivity|]. cbn. unfold mid_ele at 1. cbn. unfold rnth.
    rewrite (H p (or_introl eq_refl)). cbn. rewrite IH by (intros q Hq; apply H; right; exact Hq). reflexivity.
  Qed.

  Lemma add_merge_ok second : forall f i (ms : list (nat * id)),
    DocSet h r f -> DocSet h r (map snd ms) -> (forall y, In y (map snd ms) -> ~ In y f) ->
    (forall p, In p ms -> nth_error second (fst p) = Some (snd p)) ->
    exists l, add_merge second i f (map (fun p => (fst p, i + count_before f (snd p))) ms) = Ok l /\
      DocSet h r l /\ (forall x, In x l <-> In x f \/ In x (map snd ms)).
  Proof.
    induction f as [|e f IH]; intros i ms Hf Hm Hd Hs.
    - cbn [add_merge]. rewrite (mid_ele_ok second ms (fun p => i + count_before [] (snd p)) Hs).
      exists (map snd ms). split; [reflexivity|]. split; [exact Hm|]. intros x. cbn. tauto.
    - destruct (span_before i e f ms Hf Hm) as (m1 & m2 & -> & E & H1 & H2).
      { intros y Hy E. subst y. apply (Hd e Hy). left; reflexivity. }
      cbn [add_merge]. rewrite E.
      rewrite (mid_ele_ok second m1 (fun p => i + count_before (e :: f) (snd p))).
      2:{ intros p Hp. apply Hs. apply in_app_iff. left; exact Hp. }
      cbn [rbind]. rewrite map_app in *.
      destruct Hf as [Hfa Hfo]. destruct Hm as [Hma Hmo]. apply Forall_app in Hma. destruct Hma as [Hma1 Hma2].
      apply (ordered_app h) in Hmo. destruct Hmo as (Hmo1 & Hmo2 & Hm12).
      apply Forall_inv in Hfa as He. apply Forall_inv_tail in Hfa as Hfa'. destruct Hfo as [Hef Hfo].
      destruct (IH (S i) m2) as (l & El & Hl & Hin).
      { split; assumption. }
      { split; assumption. }
      { intros y Hy Hyf. apply (Hd y); [apply in_app_iff; right; exact Hy | right; exact Hyf]. }
      { intros p Hp. apply Hs. apply in_app_iff. right; exact Hp. }
      rewrite El. cbn [rbind]. exists (map snd m1 ++ e :: l). split; [reflexivity|]. split.
      + destruct Hl as [Hla Hlo]. split.
        * apply Forall_app. split; [exact Hma1|]. constructor; assumption.
        * assert (Hel : forall x, In x l -> Before h e x).
          { intros x Hx. apply Hin in Hx. destruct Hx as [Hx | Hx]; [rewrite Forall_forall in Hef; exact (Hef x Hx) | exact (H2 x Hx)]. }
          apply (ordered_app h). split; [exact Hmo1|]. split.
          { split; [apply Forall_forall; exact Hel | exact Hlo]. }
          intros x y Hx [<- | Hy]; [exact (H1 x Hx)|].
          rewrite Forall_forall in Hma1, Hla.
          exact (before_trans h wf r x e y (Hma1 x Hx) He (Hla y Hy) (H1 x Hx) (Hel y Hy)).
      + intros x. rewrite in_app_iff. cbn. rewrite Hin, in_app_iff. tauto.
  Qed.

  Lemma docset_kstrict l : DocSet h r l -> KStrict (map key l).
  Proof.
    intros [Ha Ho] i j x y Hi Hj Hij. rewrite nth_error_map in Hi, Hj.
    destruct (nth_error l i) as [a|] eqn:Ea; [|discriminate]. destruct (nth_error l j) as [b|] eqn:Eb; [|discriminate].
    cbn in Hi, Hj. injection Hi as <-. injection Hj as <-.
    pose proof (docset_sorted h r l (conj Ha Ho)) as Hs.
    destruct (rsorted_nth (TreeBefore h r) l i j a b Hs Ea Eb Hij) as (H1 & H2 & H3).
    exact (before_key h wf r a b H1 H2 H3).
  Qed.

  Lemma key_in_map a y : AllIn h r a -> InTree h r y -> (key_in (map key a) (key y) = true <-> In y a).
  Proof.
    intros Ha Hy. rewrite key_in_spec, in_map_iff. rewrite Forall_forall in Ha. split.
    - intros (x & E & Hx). rewrite <- (key_inj h wf r x y (Ha x Hx) Hy E). exact Hx.
    - intros H. exists y. split; [reflexivity | exact H].
  Qed.

  (** What [todo] says about the elements of the second set. *)
  Lemma todo_map a b : AllIn h r a -> AllIn h r b -> forall lo pre l, b = pre ++ l -> length pre = lo ->
    exists ms, todo (map key a) (map key b) lo (length l) = map (fun p => (fst p, 0 + count_before a (snd p))) ms /\
      map snd ms = filter (fun x => negb (includes a x)) l /\
      (forall p, In p ms -> nth_error b (fst p) = Some (snd p)).
  Proof.
    intros Ha Hb lo pre l. revert lo pre. induction l as [|y l IH]; intros lo pre Eb Elo.
    - exists []. repeat split. intros ? [].
    - assert (Hy : InTree h r y) by (rewrite Forall_forall in Hb; apply Hb; rewrite Eb; apply in_elt).
      destruct (IH (S lo) (pre ++ [y])) as (ms & E1 & E2 & E3).
      { rewrite <- app_assoc. exact Eb. }
      { rewrite app_length, Elo. cbn. lia. }
      assert (Ey : nth_error b lo = Some y).
      { rewrite Eb, nth_error_app2, Elo, Nat.sub_diag by lia. reflexivity. }
      cbn [length]. rewrite todo_cons, E1. unfold todo_one. rewrite nth_error_map, Ey. cbn [option_map].
      cbn [filter]. destruct (key_in (map key a) (key y)) eqn:Ek.
      + apply (key_in_map a y Ha Hy) in Ek. apply includes_spec in Ek. rewrite Ek. cbn [negb app].
        exists ms. repeat split; assumption.
      + assert (En : includes a y = false).
        { apply not_true_is_false. rewrite includes_spec. intros H. apply (key_in_map a y Ha Hy) in H. congruence. }
        rewrite En. cbn [negb app]. exists ((lo, y) :: ms). cbn [map fst snd]. split; [|split].
        * f_equal. f_equal. unfold rank, count_before. rewrite <- (map_length key (filter _ a)). cbn. f_equal.
          clear. induction a as [|x a IH]; [reflexivity|]. cbn. destruct (below (key y) (key x)); cbn; rewrite IH; reflexivity.
        * rewrite E2. reflexivity.
        * intros p [<- | Hp]; [exact Ey | exact (E3 p Hp)].
  Qed.

  (** Guard: when the last element of [a] is in [b], nothing of [b] comes after it. *)
  Definition AddGuard (a b : list id) : Prop :=
    forall a0 x b1 b2, a = a0 ++ [x] -> b = b1 ++ x :: b2 -> b2 = [].

  Lemma add_union a b : DocSet h r a -> DocSet h r b -> AddGuard a b ->
    exists l, add h a b = Ok l /\ DocSet h r l /\ (forall x, In x l <-> In x a \/ In x b).
  Proof.
    intros Ha Hb Hg. destruct a as [|a0 a1] eqn:Eqa.
    { exists b. split; [reflexivity|]. split; [exact Hb|]. intros x. cbn. tauto. }
    rewrite <- Eqa in *. destruct b as [|b0 b1] eqn:Eqb.
    { exists a. split; [rewrite Eqa; reflexivity|]. split; [exact Ha|]. intros x. cbn. tauto. }
    rewrite <- Eqb in *.
    assert (Hla : length a = S (length a - 1)) by (rewrite Eqa; cbn; lia).
    assert (Hlb : length b = S (length b - 1)) by (rewrite Eqb; cbn; lia).
    assert (Eadd : add h a b = (do ka <- rmapl (get_tree_indexs h) a; do kb <- rmapl (get_tree_indexs h) b;
      do mids <- add_loop (S (length b)) ka kb (length a - 1) (length b - 1) 0 0 []; add_merge b 0 a mids)).
    { rewrite Eqa, Eqb. reflexivity. }
    rewrite Eadd. rewrite !(rmapl_ok (get_tree_indexs h) key) by (intros; apply (tree_indexs_key h wf)). cbn [rbind].
    rewrite (add_loop_ok (map key a) (map key b)) with (fr := length a - 1) (sr := length b - 1); try lia.
    - cbn [rbind app]. rewrite Nat.sub_0_r.
      destruct (todo_map a b (proj1 Ha) (proj1 Hb) 0 [] b eq_refl eq_refl) as (ms & E1 & E2 & E3).
      rewrite <- Hlb, E1.
      destruct (add_merge_ok b a 0 ms Ha) as (l & El & Hl & Hin).
      + rewrite E2. split; [|exact (ordered_filter h _ b (proj2 Hb))].
        apply Forall_forall. intros x Hx. apply filter_In in Hx. destruct Hb as [Hba _]. rewrite Forall_forall in Hba. apply Hba, Hx.
      + intros y Hy. rewrite E2 in Hy. apply filter_In in Hy. destruct Hy as [_ Hy]. intros Hya.
        apply includes_spec in Hya. rewrite Hya in Hy. discriminate.
      + exact E3.
      + exists l. split; [exact El|]. split; [exact Hl|]. intros x. rewrite Hin, E2, filter_In. split.
        * intros [H | [H _]]; [left | right]; exact H.
        * intros [H | H]; [left; exact H|]. destruct (includes a x) eqn:Ei.
          -- left. apply includes_spec. exact Ei.
          -- right. split; [exact H | reflexivity].
    - exact (docset_kstrict a Ha).
    - exact (docset_kstrict b Hb).
    - rewrite map_length. exact Hla.
    - rewrite map_length. exact Hlb.
    - intros j k Hj Hk. rewrite nth_error_map in Hj, Hk.
      destruct (nth_error b j) as [y|] eqn:Ey; [|discriminate]. destruct (nth_error a (length a - 1)) as [x|] eqn:Ex; [|discriminate].
      cbn in Hj, Hk. injection Hj as <-. injection Hk as Hk.
      destruct Ha as [Haa _], Hb as [Hba _]. rewrite Forall_forall in Haa, Hba.
      assert (x = y) by (apply (key_inj h wf r); [apply Haa; exact (nth_error_In _ _ Ex) | apply Hba; exact (nth_error_In _ _ Ey) | exact Hk]).
      subst y. apply nth_error_split in Ex, Ey. destruct Ex as (a2 & a3 & Ea2 & La). destruct Ey as (b2 & b3 & Eb2 & Lb).
      assert (a3 = []).
      { rewrite Ea2, app_length in La. cbn in La. destruct a3; [reflexivity | cbn in La; lia]. }
      subst a3. pose proof (Hg a2 x b2 b3 Ea2 Eb2). subst b3. rewrite Eb2, app_length, <- Lb. cbn. lia.
  Qed.
End Merge.
