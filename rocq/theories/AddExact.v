(** What [add] gives when the last element of the first set is also in the second one and more follows it there:
    with [AddProofs] this decides [add] for all pairs of sets in document order. *)
From Verif Require Import Base Dom DomSpec Order OrderSpec DomProofs OrderProofs Sets SetsProofs AddProofs.
From Coq Require Sorting.Sorted.

(** * The main loop, without the guard *)
Section Keys2.
  Variables ka kb : list (list nat).
  Hypothesis Ha : KStrict ka.
  Hypothesis Hb : KStrict kb.
  Variables fr sr : nat.
  Hypothesis Hfr : length ka = S fr.
  Hypothesis Hsr : length kb = S sr.
  (** The last key of [ka] is in [kb], at [j0], and is not the last one there. *)
  Variables (j0 : nat) (last_ : list nat).
  Hypothesis Hja : nth_error ka fr = Some last_.
  Hypothesis Hjb : nth_error kb j0 = Some last_.
  Hypothesis Hj0 : j0 < sr.

  Lemma step_less fl sl k kl : nth_error kb sl = Some k -> nth_error ka fl = Some kl -> fl <= fr -> klt k kl ->
    (forall i x, i < fl -> nth_error ka i = Some x -> klt x k) ->
    todo_one ka kb sl = [(sl, fl)].
  Proof.
    intros Ek Ekl Hle C Hinv. unfold todo_one. rewrite Ek.
    destruct (gap ka kb Ha fr sr Hfr Hsr k fl) as [-> ->]; [lia | | | reflexivity].
    - intros x H0 Ex. apply (Hinv (fl - 1)); [lia | exact Ex].
    - intros x Ex. rewrite Ekl in Ex. injection Ex as <-. exact C.
  Qed.

  (** The left end stands below all that is left of [kb]. *)
  Lemma loop_past : forall fuel fl sl mids,
    S sr - sl < fuel -> fl < fr -> sl <= j0 ->
    (forall x y, nth_error ka fl = Some x -> nth_error kb sl = Some y -> klt x y) ->
    add_loop fuel ka kb fr sr fl sl mids = Ok (mids ++ todo ka kb sl (j0 - sl) ++ push_range (S j0) (sr - j0) (S sr)).
  Proof.
    induction fuel as [|f IH]; intros fl sl mids Hf Hfl Hsl Hlt; [lia|]. cbn [add_loop].
    destruct (Nat.leb_spec sl sr) as [_ | Hs]; [|lia]. destruct (Nat.leb_spec fl fr) as [_ | Hle]; [|lia]. cbn [andb].
    destruct (kb_get ka kb fr sr Hfr Hsr sl ltac:(lia)) as (k & Ek). destruct (ka_get ka kb fr sr Hfr Hsr fl ltac:(lia)) as (kl & Ekl).
    unfold rnth at 1 2. rewrite Ek, Ekl. cbn [rbind]. pose proof (Hlt kl k Ekl Ek) as C.
    assert (compare_indexs k kl = Gt) as -> by (rewrite compare_antisym; unfold klt in C; rewrite C; reflexivity).
    unfold rnth at 1. rewrite Hja. cbn [rbind].
    destruct (Nat.eq_dec sl j0) as [-> | Hne].
    - rewrite Hjb in Ek. injection Ek as <-. rewrite compare_refl, Nat.sub_diag. reflexivity.
    - pose proof (Hb sl j0 k last_ Ek Hjb ltac:(lia)) as D. unfold klt in D. rewrite D.
      destruct (add_search_ok ka kb fr sr Hfr Hsr k (S fr) fl fr Hfl (le_n fr) ltac:(lia)) as (mid & b & E & B1 & B2 & B3).
      { intros x Ex. rewrite Ekl in Ex. injection Ex as <-. exact C. }
      { intros x Ex. rewrite Hja in Ex. injection Ex as <-. exact D. }
      rewrite E. cbn [rbind fst snd]. rewrite IH; try lia.
      + replace (j0 - sl) with (S (j0 - S sl)) by lia. rewrite todo_cons. destruct b.
        * rewrite (todo_in ka kb sl k Ek (nth_error_In _ _ B3)). reflexivity.
        * assert (todo_one ka kb sl = [(sl, S mid)]) as ->; [|rewrite <- !app_assoc; reflexivity]. unfold todo_one. rewrite Ek.
          destruct (gap ka kb Ha fr sr Hfr Hsr k (S mid)) as [-> ->]; [lia | | exact (proj2 B3) | reflexivity].
          intros x _ Ex. apply (proj1 B3). replace (S mid - 1) with mid in Ex by lia. exact Ex.
      + intros x y Ex Ey. pose proof (Hb sl (S sl) k y Ek Ey ltac:(lia)) as Hky. destruct b.
        * rewrite Ex in B3. injection B3 as ->. exact Hky.
        * exact (klt_trans _ _ _ (proj1 B3 x Ex) Hky).
  Qed.

  (** All of [ka] is in [kb]. *)
  Definition all_in : bool := forallb (fun k => key_in kb k) ka.

  Lemma all_in_spec : all_in = true <-> incl ka kb.
  Proof.
    unfold all_in. rewrite forallb_forall. split; intros H k Hk.
    - apply key_in_spec. exact (H k Hk).
    - apply key_in_spec. exact (H k Hk).
  Qed.

  Lemma loop_from : forall fuel fl sl mids,
    S sr - sl < fuel -> fl <= fr -> sl <= j0 ->
    (forall i j x y, i < fl -> sl <= j -> nth_error ka i = Some x -> nth_error kb j = Some y -> klt x y) ->
    (forall i x, i < fl -> nth_error ka i = Some x -> In x kb) ->
    (forall j x y, j < sl -> nth_error kb j = Some y -> nth_error ka fl = Some x -> klt y x) ->
    add_loop fuel ka kb fr sr fl sl mids =
      Ok (mids ++ todo ka kb sl (j0 - sl) ++ (if all_in then [] else push_range (S j0) (sr - j0) (S sr))).
  Proof.
    induction fuel as [|f IH]; intros fl sl mids Hf Hfl Hsl Hinv Hin Hlow; [lia|].
    destruct (kb_get ka kb fr sr Hfr Hsr sl ltac:(lia)) as (k & Ek). destruct (ka_get ka kb fr sr Hfr Hsr fl ltac:(lia)) as (kl & Ekl).
    destruct (compare_indexs k kl) eqn:C.
    - cbn [add_loop].
      destruct (Nat.leb_spec sl sr) as [_ | Hs]; [|lia]. destruct (Nat.leb_spec fl fr) as [_ | Hle]; [|lia]. cbn [andb].
      unfold rnth at 1 2. rewrite Ek, Ekl. cbn [rbind]. rewrite C.
      apply compare_eq in C. subst kl.
      destruct (Nat.eq_dec sl j0) as [-> | Hne].
      + rewrite Hjb in Ek. injection Ek as <-.
        assert (fl = fr).
        { destruct (Nat.eq_dec fl fr) as [E | Hn]; [exact E|]. destruct (klt_irrefl _ (Ha fl fr last_ last_ Ekl Hja ltac:(lia))). }
        subst fl. assert (all_in = true) as ->.
        { apply all_in_spec. intros x Hx. apply In_nth_error in Hx. destruct Hx as (i & Ei).
          assert (i < length ka) by (apply nth_error_Some; congruence).
          destruct (Nat.eq_dec i fr) as [-> | Hn]; [|apply (Hin i x); [lia | exact Ei]].
          rewrite Ekl in Ei. injection Ei as <-. exact (nth_error_In _ _ Hjb). }
        rewrite Nat.sub_diag. cbn [todo seq flat_map app]. rewrite app_nil_r.
        destruct f as [|f]; [lia|]. cbn [add_loop].
        destruct (Nat.leb_spec (S fr) fr) as [H | _]; [lia|]. reflexivity.
      + assert (fl < fr).
        { destruct (Nat.eq_dec fl fr) as [-> | Hn]; [|lia]. rewrite Hja in Ekl. injection Ekl as <-.
          destruct (klt_irrefl _ (Hb sl j0 last_ last_ Ek Hjb ltac:(lia))). }
        rewrite IH; try lia.
        * replace (j0 - sl) with (S (j0 - S sl)) by lia. rewrite todo_cons, (todo_in ka kb sl k Ek (nth_error_In _ _ Ekl)). reflexivity.
        * intros i j x y Hi Hj Ex Ey. destruct (ka_le ka kb Ha fr sr Hfr Hsr i fl x k Ex Ekl ltac:(lia)) as [H0 | ->].
          -- exact (klt_trans _ _ _ H0 (Hb sl j k y Ek Ey ltac:(lia))).
          -- exact (Hb sl j k y Ek Ey ltac:(lia)).
        * intros i x Hi Ex. destruct (Nat.eq_dec i fl) as [-> | Hn]; [|apply (Hin i x); [lia | exact Ex]].
          rewrite Ekl in Ex. injection Ex as <-. exact (nth_error_In _ _ Ek).
        * intros j x y Hj Ey Ex. pose proof (Ha fl (S fl) k x Ekl Ex ltac:(lia)) as Hkx.
          destruct (kb_le ka kb Hb fr sr Hfr Hsr j sl y k Ey Ek ltac:(lia)) as [H0 | ->]; [exact (klt_trans _ _ _ H0 Hkx) | exact Hkx].
    - (* less *)
      assert (sl <> j0).
      { intros ->. rewrite Hjb in Ek. injection Ek as <-.
        destruct (ka_le ka kb Ha fr sr Hfr Hsr fl fr kl last_ Ekl Hja Hfl) as [H | ->].
        - exact (klt_irrefl _ (klt_trans _ _ _ H C)).
        - exact (klt_irrefl _ C). }
      cbn [add_loop].
      destruct (Nat.leb_spec sl sr) as [_ | Hs]; [|lia]. destruct (Nat.leb_spec fl fr) as [_ | Hle]; [|lia]. cbn [andb].
      unfold rnth at 1 2. rewrite Ek, Ekl. cbn [rbind]. rewrite C.
      destruct (kb_get ka kb fr sr Hfr Hsr sr (le_n sr)) as (kr & Ekr). unfold rnth at 1. rewrite Ekr. cbn [rbind].
      assert (D : klt kl kr).
      { pose proof (Hb j0 sr last_ kr Hjb Ekr Hj0) as D.
        destruct (ka_le ka kb Ha fr sr Hfr Hsr fl fr kl last_ Ekl Hja Hfl) as [H0 | ->]; [exact (klt_trans _ _ _ H0 D) | exact D]. }
      assert (compare_indexs kr kl = Gt) as -> by (rewrite compare_antisym; unfold klt in D; rewrite D; reflexivity).
      rewrite IH; try lia.
      + replace (j0 - sl) with (S (j0 - S sl)) by lia. rewrite todo_cons, (step_less fl sl k kl Ek Ekl Hfl C).
        * rewrite <- !app_assoc. reflexivity.
        * intros i x Hi Ex. exact (Hinv i sl x k Hi (le_n sl) Ex Ek).
      + intros i j x y Hi Hj. apply Hinv; lia.
      + exact Hin.
      + intros j x y Hj Ey Ex. rewrite Ekl in Ex. injection Ex as <-.
        destruct (kb_le ka kb Hb fr sr Hfr Hsr j sl y k Ey Ek ltac:(lia)) as [H0 | ->]; [exact (klt_trans _ _ _ H0 C) | exact C].
    - (* greater: the left end is not in [kb] *)
      apply compare_gt in C.
      assert (Hnot : ~ In kl kb).
      { intros H. apply In_nth_error in H. destruct H as (j & Ej). destruct (Nat.lt_ge_cases j sl) as [Hlt | Hge].
        - exact (klt_irrefl _ (Hlow j kl kl Hlt Ej Ekl)).
        - destruct (kb_le ka kb Hb fr sr Hfr Hsr sl j k kl Ek Ej Hge) as [H | ->]; [exact (klt_irrefl _ (klt_trans _ _ _ H C)) | exact (klt_irrefl _ C)]. }
      assert (all_in = false) as ->.
      { apply not_true_is_false. rewrite all_in_spec. intros H. exact (Hnot (H kl (nth_error_In _ _ Ekl))). }
      assert (fl < fr).
      { destruct (Nat.eq_dec fl fr) as [-> | Hn]; [|lia]. rewrite Hja in Ekl. injection Ekl as <-.
        destruct (Hnot (nth_error_In _ _ Hjb)). }
      apply loop_past; try assumption.
      intros x y Ex Ey. rewrite Ekl in Ex. injection Ex as <-. rewrite Ek in Ey. injection Ey as <-. exact C.
  Qed.
End Keys2.

Lemma todo_prefix ka kb kb' n : (forall j, j < n -> nth_error kb j = nth_error kb' j) -> todo ka kb 0 n = todo ka kb' 0 n.
Proof.
  intros H. unfold todo. rewrite !flat_map_concat_map. f_equal. apply map_ext_in. intros j Hj. apply in_seq in Hj.
  unfold todo_one. rewrite (H j ltac:(lia)). reflexivity.
Qed.

(** * Building the result when a block stands at one fixed place *)
Section Block.
  Variable second : list id.
  Variable P : nat.

  Lemma rmapl_app {A B} (f : A -> res B) l m :
    rmapl f (l ++ m) = (do x <- rmapl f l; do y <- rmapl f m; Ok (x ++ y)).
  Proof.
    induction l as [|a l IH]; cbn; [destruct (rmapl f m); reflexivity|].
    destruct (f a); cbn; try reflexivity. rewrite IH. destruct (rmapl f l); cbn; try reflexivity.
    destruct (rmapl f m); reflexivity.
  Qed.

  Lemma span_app i l m : (forall p, In p m -> snd p <> i) -> span_at i (l ++ m) = (fst (span_at i l), snd (span_at i l) ++ m).
  Proof.
    intros Hm. induction l as [|p l IH]; cbn [app].
    - destruct m as [|p m]; [reflexivity|]. cbn. destruct (Nat.eqb_spec (snd p) i) as [E | _]; [destruct (Hm p (or_introl eq_refl) E) | reflexivity].
    - cbn. destruct (Nat.eqb (snd p) i); [|reflexivity]. rewrite IH. destruct (span_at i l) as [u v]. reflexivity.
  Qed.

  (** The block is never reached: it comes last. *)
  Lemma merge_last l2 M2 : rmapl (mid_ele second) M2 = Ok l2 ->
    (forall p, In p M2 -> snd p = P) -> forall f i M1 l1,
    (P < i \/ i + length f <= P \/ exists p, In p M1 /\ P < snd p) ->
    add_merge second i f M1 = Ok l1 -> add_merge second i f (M1 ++ M2) = Ok (l1 ++ l2).
  Proof.
    intros E2 H2. induction f as [|e f IH]; intros i M1 l1 Hc E1; cbn [add_merge] in *.
    - rewrite rmapl_app, E1, E2. reflexivity.
    - destruct (Nat.eq_dec i P) as [-> | Hne].
      + destruct Hc as [Hc | [Hc | (p & Hp & Hlt)]]; [lia | cbn in Hc; lia |].
        assert (Hsp : forall l, In p l -> span_at P (l ++ M2) = (fst (span_at P l), snd (span_at P l) ++ M2) /\ In p (snd (span_at P l))).
        { induction l as [|q l IHl]; intros [].
          - subst q. cbn. destruct (Nat.eqb_spec (snd p) P) as [E | _]; [lia|]. split; [reflexivity | left; reflexivity].
          - cbn. destruct (Nat.eqb (snd q) P).
            + destruct (IHl H) as [-> Hin]. destruct (span_at P l) as [u v]. split; [reflexivity | exact Hin].
            + split; [reflexivity | right; exact H]. }
        destruct (Hsp M1 Hp) as [-> Hin]. destruct (span_at P M1) as [u v]. cbn [fst snd] in *.
        destruct (rmapl (mid_ele second) u) as [u'| |]; cbn [rbind] in *; try discriminate.
        destruct (add_merge second (S P) f v) as [w| |] eqn:Ew; cbn [rbind] in *; try discriminate.
        injection E1 as <-. rewrite (IH (S P) v w); [|left; lia | exact Ew]. cbn [rbind]. rewrite <- app_assoc. reflexivity.
      + rewrite span_app by (intros p Hp; rewrite (H2 p Hp); congruence).
        destruct (span_at i M1) as [u v] eqn:Es. cbn [fst snd] in *.
        destruct (rmapl (mid_ele second) u) as [u'| |]; cbn [rbind] in *; try discriminate.
        destruct (add_merge second (S i) f v) as [w| |] eqn:Ew; cbn [rbind] in *; try discriminate.
        injection E1 as <-. rewrite (IH (S i) v w); [cbn [rbind]; rewrite <- app_assoc; reflexivity | | exact Ew].
        destruct Hc as [Hc | [Hc | (p & Hp & Hlt)]]; [left; lia | right; left; cbn in Hc; lia |].
        destruct (Nat.lt_ge_cases P (S i)) as [H | H]; [left; exact H|].
        right; right. exists p. split; [|exact Hlt].
        assert (Hsp : forall l, In p l -> In p (snd (span_at i l))).
        { clear - Hlt H. induction l as [|q l IHl]; intros Hin; [destruct Hin|]. cbn. destruct (Nat.eqb_spec (snd q) i) as [Eq | _].
          - destruct Hin as [-> | Hin]; [lia|]. specialize (IHl Hin). destruct (span_at i l). exact IHl.
          - exact Hin. }
        specialize (Hsp M1 Hp). rewrite Es in Hsp. exact Hsp.
  Qed.

  Lemma merge_nil f i : add_merge second i f [] = Ok f.
  Proof. revert i. induction f as [|e f IH]; intros i; [reflexivity|]. cbn. rewrite IH. reflexivity. Qed.

  (** All else goes at or before the place: the block stands there. *)
  Lemma merge_at l2 M2 : M2 <> [] -> rmapl (mid_ele second) M2 = Ok l2 ->
    (forall p, In p M2 -> snd p = P) -> forall f i M1 l1,
    i <= P -> P < i + length f -> (forall p, In p M1 -> i <= snd p <= P) ->
    Sorted.StronglySorted (fun p q : nat * nat => snd p <= snd q) M1 ->
    add_merge second i f M1 = Ok l1 ->
    exists u, add_merge second i f (M1 ++ M2) = Ok (u ++ l2 ++ skipn (P - i) f) /\ l1 = u ++ skipn (P - i) f.
  Proof.
    intros Hne E2 H2. induction f as [|e f IH]; intros i M1 l1 Hi Hp HM Hso E1; cbn [length] in Hp; [lia|].
    assert (Hall : forall i M, (forall p, In p M -> snd p = i) -> span_at i M = (M, [])).
    { clear. intros i. induction M as [|p M IH]; intros H; [reflexivity|]. cbn.
      rewrite (proj2 (Nat.eqb_eq _ _) (H p (or_introl eq_refl))), IH by (intros q Hq; apply H; right; exact Hq). reflexivity. }
    cbn [add_merge] in *. destruct (Nat.eq_dec i P) as [-> | Hn].
    - rewrite Nat.sub_diag. cbn [skipn].
      rewrite (Hall P (M1 ++ M2)).
      2:{ intros p Hin. apply in_app_iff in Hin. destruct Hin as [Hin | Hin]; [specialize (HM p Hin); lia | exact (H2 p Hin)]. }
      rewrite (Hall P M1) in E1 by (intros p Hin; specialize (HM p Hin); lia).
      rewrite rmapl_app. rewrite E2. destruct (rmapl (mid_ele second) M1) as [u| |]; cbn [rbind] in *; try discriminate.
      rewrite merge_nil in *. cbn [rbind] in *. injection E1 as <-. exists u. split; [rewrite <- app_assoc; reflexivity | reflexivity].
    - rewrite span_app by (intros p Hin; rewrite (H2 p Hin); congruence).
      assert (Hsp : forall l, Sorted.StronglySorted (fun p q : nat * nat => snd p <= snd q) l -> (forall p, In p l -> i <= snd p <= P) ->
        (forall p, In p (snd (span_at i l)) -> S i <= snd p <= P) /\
        Sorted.StronglySorted (fun p q : nat * nat => snd p <= snd q) (snd (span_at i l))).
      { clear - Hi. induction l as [|q l IHl]; intros Hs Hr; cbn; [split; [intros ? [] | constructor]|].
        apply Sorted.StronglySorted_inv in Hs. destruct Hs as [Hs Hq]. rewrite Forall_forall in Hq.
        destruct (Nat.eqb_spec (snd q) i) as [Eq | Nq].
        - destruct (IHl Hs) as [A B]; [intros p Hp; apply Hr; right; exact Hp|]. destruct (span_at i l). split; assumption.
        - cbn [snd]. split.
          + intros p [<- | Hp]; [specialize (Hr q (or_introl eq_refl)); lia|].
            specialize (Hq p Hp). specialize (Hr q (or_introl eq_refl)) as Hr1. specialize (Hr p (or_intror Hp)). lia.
          + constructor; [exact Hs | apply Forall_forall; exact Hq]. }
      destruct (Hsp M1 Hso HM) as [A B]. destruct (span_at i M1) as [u v]. cbn [fst snd] in *.
      destruct (rmapl (mid_ele second) u) as [u'| |]; cbn [rbind] in *; try discriminate.
      destruct (add_merge second (S i) f v) as [w| |] eqn:Ew; cbn [rbind] in *; try discriminate.
      injection E1 as <-. destruct (IH (S i) v w) as (t & E & ->); try assumption; try lia.
      rewrite E. cbn [rbind]. exists (u' ++ e :: t). replace (P - i) with (S (P - S i)) by lia. cbn [skipn].
      split; rewrite <- !app_assoc; reflexivity.
  Qed.
End Block.

(** * Sets in document order *)
Lemma filter_short {A} (f : A -> bool) l : length (filter f l) <= length l.
Proof. induction l as [|x l IH]; cbn; [lia|]. destruct (f x); cbn; lia. Qed.

Section Exact.
  Variable h : heap.
  Hypothesis wf : WF h.
  Variable r : id.
  Notation key := (key h).
  Notation DocSet := (DocSet h r).
  Notation AllIn := (Forall (InTree h r)).

  Lemma docset_app l m : DocSet (l ++ m) <-> DocSet l /\ DocSet m /\ (forall x y, In x l -> In y m -> Before h x y).
  Proof. unfold OrderSpec.DocSet. rewrite Forall_app, (ordered_app h). tauto. Qed.

  Lemma docset_not_in l x m : DocSet (l ++ x :: m) -> ~ In x l /\ ~ In x m.
  Proof.
    intros [Ha Ho]. pose proof (ordered_nodup h wf r _ Ha Ho) as N. apply NoDup_remove_2 in N. rewrite in_app_iff in N. tauto.
  Qed.

  Lemma count_mono a k k' : AllIn a -> InTree h r k -> InTree h r k' -> Before h k k' -> count_before h a k <= count_before h a k'.
  Proof.
    intros Ha Hk Hk' Hb. unfold count_before. induction a as [|x a IH]; [reflexivity|].
    apply Forall_inv in Ha as Hx. apply Forall_inv_tail in Ha. specialize (IH Ha). cbn [filter].
    destruct (below (key k) (key x)) eqn:E1; destruct (below (key k') (key x)) eqn:E2; cbn [length]; try lia.
    apply (before_below h wf r) in E1; try assumption.
    pose proof (before_trans h wf r x k k' Hx Hk Hk' E1 Hb) as H. apply (before_below h wf r) in H; try assumption. congruence.
  Qed.

  Lemma count_at a P y k : DocSet a -> nth_error a P = Some y -> InTree h r k -> ~ In k a ->
    (count_before h a k <= P <-> Before h k y).
  Proof.
    intros Ha Ey Hk Hn. apply nth_error_split in Ey as (a1 & a2 & -> & El).
    apply docset_app in Ha. destruct Ha as ([Ha1 _] & [Ha2 [Hy2 _]] & Hs). apply Forall_inv in Ha2 as Hy. apply Forall_inv_tail in Ha2.
    unfold count_before. rewrite filter_app, app_length. rewrite Forall_forall in Ha1, Ha2, Hy2. split.
    - intros H. destruct (before_total h wf r k y Hk Hy) as [C | [C | C]]; [exact C | subst y; destruct Hn; apply in_elt |].
      exfalso. rewrite (filter_all (fun x => below (key k) (key x)) a1) in H.
      + cbn [filter] in H. rewrite (proj2 (before_below h wf r y k Hy Hk) C) in H. cbn in H. lia.
      + intros x Hx. apply (before_below h wf r); [exact (Ha1 x Hx) | exact Hk |].
        exact (before_trans h wf r x y k (Ha1 x Hx) Hy Hk (Hs x y Hx (or_introl eq_refl)) C).
    - intros H. assert (filter (fun x => below (key k) (key x)) (y :: a2) = []) as ->.
      { destruct (filter _ (y :: a2)) as [|z t] eqn:E; [reflexivity|]. exfalso.
        assert (Hz : In z (filter (fun x => below (key k) (key x)) (y :: a2))) by (rewrite E; left; reflexivity).
        apply filter_In in Hz. destruct Hz as [Hz Hb].
        assert (Hzt : InTree h r z) by (destruct Hz as [<- | Hz]; [exact Hy | exact (Ha2 z Hz)]).
        apply (before_below h wf r) in Hb; try assumption.
        assert (Hkz : Before h k z).
        { destruct Hz as [<- | Hz]; [exact H|]. exact (before_trans h wf r k y z Hk Hy Hzt H (Hy2 z Hz)). }
        exact (before_asym h wf r k z Hk Hzt Hkz Hb). }
      pose proof (filter_short (fun x => below (key k) (key x)) a1). cbn [length]. unfold id in *. lia.
  Qed.

  Lemma count_le a k : count_before h a k <= length a.
  Proof. unfold count_before. apply filter_short. Qed.

  Lemma nth_last {A} (l : list A) x : nth_error (l ++ [x]) (length l) = Some x.
  Proof. rewrite nth_error_app2, Nat.sub_diag by lia. reflexivity. Qed.

  Section Over.
    Variables (a0 b1 b2 : list id) (x : id).
    Let a := a0 ++ [x].
    Let b := b1 ++ x :: b2.
    Hypothesis Ha : DocSet a.
    Hypothesis Hb : DocSet b.
    Hypothesis Hb2 : b2 <> [].

    Lemma over_b1 : DocSet b1.
    Proof. apply docset_app in Hb. apply Hb. Qed.
    Lemma over_b2 : DocSet b2.
    Proof. pose proof Hb as H. unfold b in H. apply docset_app in H. destruct H as (_ & [H1 [_ H2]] & _). apply Forall_inv_tail in H1. split; assumption. Qed.
    Lemma over_x : InTree h r x.
    Proof. destruct Ha as [H _]. rewrite Forall_forall in H. apply H. unfold a. apply in_elt. Qed.
    Lemma over_after y : In y b2 -> Before h x y.
    Proof. pose proof Hb as H. unfold b in H. apply docset_app in H. destruct H as (_ & [_ [H _]] & _). rewrite Forall_forall in H. apply H. Qed.
    Lemma over_before y : In y b1 -> Before h y x.
    Proof. intros Hy. pose proof Hb as H. unfold b in H. apply docset_app in H. destruct H as (_ & _ & H). apply H; [exact Hy | left; reflexivity]. Qed.
    Lemma over_a0 y : In y a0 -> Before h y x.
    Proof. intros Hy. pose proof Ha as H. unfold a in H. apply docset_app in H. destruct H as (_ & _ & H). apply H; [exact Hy | left; reflexivity]. Qed.
    Lemma over_new y : In y b2 -> ~ In y a.
    Proof.
      intros Hy Hya. pose proof (over_after y Hy) as H. assert (Hyt : InTree h r y) by (destruct Ha as [H1 _]; rewrite Forall_forall in H1; exact (H1 y Hya)).
      unfold a in Hya. apply in_app_iff in Hya. destruct Hya as [Hya | [<- | []]].
      - exact (before_asym h wf r x y over_x Hyt H (over_a0 y Hya)).
      - exact (before_irrefl h wf r x over_x H).
    Qed.

    Lemma over_loop : exists ms, map snd ms = filter (fun y => negb (includes a y)) b1 /\
      (forall p, In p ms -> nth_error b (fst p) = Some (snd p)) /\
      add h a b = add_merge b 0 a (map (fun p => (fst p, 0 + count_before h a (snd p))) ms ++
        if all_in (map key a) (map key b) then [] else push_range (S (length b1)) (length b2) (length b)).
    Proof.
      assert (Hla : length a = S (length a - 1)) by (unfold a; rewrite app_length; cbn; lia).
      assert (Hlb : length b = S (length b - 1)) by (unfold b; rewrite app_length; cbn; lia).
      assert (Hfa : length a - 1 = length a0) by (unfold a; rewrite app_length; cbn; lia).
      assert (Hfb : length b - 1 = length b1 + length b2) by (unfold b; rewrite app_length; cbn; lia).
      assert (Hpos : 0 < length b2) by (destruct b2; [congruence | cbn; lia]).
      assert (Eadd : add h a b = (do ka <- rmapl (get_tree_indexs h) a; do kb <- rmapl (get_tree_indexs h) b;
        do mids <- add_loop (S (length b)) ka kb (length a - 1) (length b - 1) 0 0 []; add_merge b 0 a mids)).
      { destruct a as [|u ta]; [cbn in Hla; lia|]. destruct b as [|v tb]; [cbn in Hlb; lia|]. reflexivity. }
      rewrite Eadd. rewrite !(rmapl_ok (get_tree_indexs h) key) by (intros; apply (tree_indexs_key h wf)). cbn [rbind].
      rewrite (loop_from (map key a) (map key b)) with (fr := length a - 1) (sr := length b - 1) (j0 := length b1) (last_ := key x); try lia.
      - cbn [rbind app]. rewrite Nat.sub_0_r.
        assert (Ep : todo (map key a) (map key b) 0 (length b1) = todo (map key a) (map key b1) 0 (length b1)).
        { apply todo_prefix. intros j Hj. rewrite !nth_error_map. unfold b. rewrite nth_error_app1 by exact Hj. reflexivity. }
        destruct (todo_map h wf r a b1 (proj1 Ha) (proj1 over_b1) 0 [] b1 eq_refl eq_refl) as (ms & E1 & E2 & E3).
        exists ms. split; [exact E2|]. split.
        + intros p Hp. specialize (E3 p Hp). unfold b. rewrite nth_error_app1; [exact E3 | apply nth_error_Some; congruence].
        + rewrite Ep, E1. replace (length b - 1 - length b1) with (length b2) by lia. rewrite <- Hlb. reflexivity.
      - exact (docset_kstrict h wf r a Ha).
      - exact (docset_kstrict h wf r b Hb).
      - rewrite map_length. exact Hla.
      - rewrite map_length. exact Hlb.
      - rewrite nth_error_map, Hfa. unfold a. rewrite nth_last. reflexivity.
      - rewrite nth_error_map. unfold b. rewrite nth_error_app2, Nat.sub_diag by lia. reflexivity.
    Qed.

    Lemma all_in_incl : all_in (map key a) (map key b) = true <-> incl a b.
    Proof.
      rewrite all_in_spec. destruct Ha as [H1 _], Hb as [H2 _]. rewrite Forall_forall in H1, H2. split.
      - intros H y Hy. specialize (H (key y) (in_map key a y Hy)). apply in_map_iff in H. destruct H as (z & E & Hz).
        rewrite <- (key_inj h wf r z y (H2 z Hz) (H1 y Hy) E). exact Hz.
      - intros H k Hk. apply in_map_iff in Hk. destruct Hk as (y & <- & Hy). apply in_map. exact (H y Hy).
    Qed.

    (** What is built from [a] and the part of [b] up to [x]. *)
    Lemma over_base ms : map snd ms = filter (fun y => negb (includes a y)) b1 ->
      (forall p, In p ms -> nth_error b (fst p) = Some (snd p)) ->
      exists l, add_merge b 0 a (map (fun p => (fst p, 0 + count_before h a (snd p))) ms) = Ok l /\ DocSet l /\
        (forall y, In y l <-> In y a \/ In y b1).
    Proof.
      intros E2 E3. destruct (add_merge_ok h wf r b a 0 ms Ha) as (l & El & Hl & Hin).
      - rewrite E2. split; [|exact (ordered_filter h _ b1 (proj2 over_b1))].
        apply Forall_forall. intros y Hy. apply filter_In in Hy. pose proof (proj1 over_b1) as H. rewrite Forall_forall in H. apply H, Hy.
      - intros y Hy. rewrite E2 in Hy. apply filter_In in Hy. destruct Hy as [_ Hy]. intros Hya.
        apply includes_spec in Hya. rewrite Hya in Hy. discriminate.
      - exact E3.
      - exists l. split; [exact El|]. split; [exact Hl|]. intros y. rewrite Hin, E2, filter_In. split.
        + intros [H | [H _]]; [left | right]; exact H.
        + intros [H | H]; [left; exact H|]. destruct (includes a y) eqn:Ei.
          * left. apply includes_spec. exact Ei.
          * right. split; [exact H | reflexivity].
    Qed.

    (** All of [a] is in [b]: what follows [x] is dropped. *)
    Lemma over_drop : incl a b -> add h a b = Ok (b1 ++ [x]).
    Proof.
      intros Hi. destruct over_loop as (ms & E2 & E3 & ->). rewrite (proj2 all_in_incl Hi), app_nil_r.
      destruct (over_base ms E2 E3) as (l & -> & Hl & Hin). f_equal.
      assert (Hbx : DocSet (b1 ++ [x])).
      { apply docset_app. split; [exact over_b1|]. split; [split; [constructor; [exact over_x | constructor] | cbn; auto]|].
        intros u v Hu [<- | []]. exact (over_before u Hu). }
      apply (ordered_unique h wf r); [apply Hl | apply Hl | apply Hbx |].
      intros y. rewrite Hin, in_app_iff. cbn. split.
      - intros [H | H]; [|left; exact H]. pose proof (Hi y H) as Hyb. unfold b in Hyb. apply in_app_iff in Hyb. destruct Hyb as [Hyb | [<- | Hyb]].
        + left; exact Hyb.
        + right; left; reflexivity.
        + destruct (over_new y Hyb H).
      - intros [H | [<- | []]]; [right; exact H|]. left. unfold a. apply in_elt.
    Qed.

    Lemma mid_range : rmapl (mid_ele b) (push_range (S (length b1)) (length b2) (length b)) = Ok b2.
    Proof.
      unfold push_range, b. generalize (length (b1 ++ x :: b2)) as P. intros P.
      assert (G : forall l pre, rmapl (mid_ele (pre ++ l)) (map (fun i => (i, P)) (seq (length pre) (length l))) = Ok l).
      { induction l as [|y l IH]; intros pre; [reflexivity|]. cbn [length seq map rmapl].
        unfold mid_ele at 1. cbn [fst]. unfold rnth. rewrite nth_error_app2, Nat.sub_diag by lia. cbn [nth_error rbind].
        specialize (IH (pre ++ [y])). rewrite app_length in IH. cbn [length] in IH. rewrite Nat.add_1_r, <- app_assoc in IH. cbn [app] in IH.
        rewrite IH. reflexivity. }
      specialize (G b2 (b1 ++ [x])). rewrite app_length, <- app_assoc in G. cbn [length app] in G. rewrite Nat.add_1_r in G. exact G.
    Qed.

    (** Some of [a] is not in [b]. *)
    Lemma over_keep : ~ incl a b ->
      exists l1, DocSet l1 /\ (forall y, In y l1 <-> In y a \/ In y b1) /\
        ((forall y, nth_error a (length b) = Some y -> exists k, In k b1 /\ ~ In k a /\ Before h y k) ->
           add h a b = Ok (l1 ++ b2)) /\
        (forall y, nth_error a (length b) = Some y -> (forall k, In k b1 -> ~ In k a -> Before h k y) ->
           exists u, l1 = u ++ skipn (length b) a /\ add h a b = Ok (u ++ b2 ++ skipn (length b) a)).
    Proof.
      intros Hi. destruct over_loop as (ms & E2 & E3 & ->).
      assert (all_in (map key a) (map key b) = false) as -> by (apply not_true_is_false; rewrite all_in_incl; exact Hi).
      destruct (over_base ms E2 E3) as (l & El & Hl & Hin).
      assert (Hms : forall p, In p ms -> In (snd p) b1 /\ ~ In (snd p) a /\ InTree h r (snd p)).
      { intros p Hp. apply (in_map snd) in Hp. rewrite E2 in Hp. apply filter_In in Hp. destruct Hp as [H1 H2]. split; [exact H1|]. split.
        - intros H. apply includes_spec in H. rewrite H in H2. discriminate.
        - pose proof (proj1 over_b1) as H. rewrite Forall_forall in H. exact (H _ H1). }
      assert (Hpush : forall p, In p (push_range (S (length b1)) (length b2) (length b)) -> snd p = length b).
      { intros p Hp. unfold push_range in Hp. apply in_map_iff in Hp. destruct Hp as (i & <- & _). reflexivity. }
      exists l. split; [exact Hl|]. split; [exact Hin|]. split.
      - intros Hc. apply (merge_last b (length b) b2 _ mid_range Hpush a 0 _ l); [|exact El].
        destruct (nth_error a (length b)) as [y|] eqn:Ey.
        + destruct (Hc y eq_refl) as (k & Hk & Hn & Hyk). right; right.
          assert (Hkm : In k (map snd ms)).
          { rewrite E2. apply filter_In. split; [exact Hk|]. destruct (includes a k) eqn:E; [|reflexivity]. destruct (Hn (proj1 (includes_spec a k) E)). }
          apply in_map_iff in Hkm. destruct Hkm as (p & <- & Hp). destruct (Hms p Hp) as (_ & _ & Ht).
          exists (fst p, 0 + count_before h a (snd p)). split; [apply in_map_iff; exists p; split; [reflexivity | exact Hp]|].
          cbn [snd]. destruct (Nat.lt_ge_cases (length b) (0 + count_before h a (snd p))) as [H | H]; [exact H|]. exfalso.
          apply (count_at a (length b) y (snd p) Ha Ey Ht Hn) in H.
          assert (Hyt : InTree h r y) by (destruct Ha as [H1 _]; rewrite Forall_forall in H1; exact (H1 y (nth_error_In _ _ Ey))).
          exact (before_asym h wf r y (snd p) Hyt Ht Hyk H).
        + right; left. apply nth_error_None in Ey. exact Ey.
      - intros y Ey Hc.
        destruct (merge_at b (length b) b2 (push_range (S (length b1)) (length b2) (length b))) with (f := a) (i := 0) (M1 := map (fun p : nat * id => (fst p, 0 + count_before h a (snd p))) ms) (l1 := l) as (u & E & Hu).
        + destruct b2; [congruence | discriminate].
        + exact mid_range.
        + exact Hpush.
        + lia.
        + apply nth_error_Some. congruence.
        + intros q Hq. apply in_map_iff in Hq. destruct Hq as (p & <- & Hp). destruct (Hms p Hp) as (H1 & H2 & H3). cbn [snd].
          split; [lia|]. apply (count_at a (length b) y (snd p) Ha Ey H3 H2). exact (Hc _ H1 H2).
        + assert (Hom : Ordered h (map snd ms)) by (rewrite E2; exact (ordered_filter h _ b1 (proj2 over_b1))).
          assert (Htm : forall p, In p ms -> InTree h r (snd p)) by (intros p Hp; apply (Hms p Hp)).
          clear - wf Ha Hom Htm. induction ms as [|p ms IH]; cbn [map]; constructor.
          * apply IH; [apply Hom | intros q Hq; apply Htm; right; exact Hq].
          * apply Forall_forall. intros q Hq. apply in_map_iff in Hq. destruct Hq as (p' & <- & Hp'). cbn [snd].
            cbn [map] in Hom. destruct Hom as [Hom _]. rewrite Forall_forall in Hom. cbn.
            apply count_mono; [apply Ha | apply Htm; left; reflexivity | apply Htm; right; exact Hp' | apply Hom, in_map, Hp'].
        + exact El.
        + exists u. rewrite Nat.sub_0_r in *. split; [exact Hu | exact E].
    Qed.
  End Over.

  Lemma incl_length (a b : list id) : DocSet a -> incl a b -> length a <= length b.
  Proof. intros [H1 H2] Hi. apply NoDup_incl_length; [exact (ordered_nodup h wf r a H1 H2) | exact Hi]. Qed.

  (** The exact effect. *)
  Theorem add_exact a b : DocSet a -> DocSet b ->
    exists l, add h a b = Ok l /\ NoDup l /\ incl l (a ++ b) /\
      ((forall x, In x l <-> In x a \/ In x b) <-> ~ Drops h (fun x => In x a) (fun x => In x b)) /\
      (Ordered h l <-> ~ Misplaces h a b).
  Proof.
    intros Ha Hb.
    assert (Hcase : AddGuard a b \/ exists a0 x b1 b2, a = a0 ++ [x] /\ b = b1 ++ x :: b2 /\ b2 <> []).
    { destruct (rev a) as [|x ra] eqn:Er.
      - left. intros a0 x b1 b2 Ea _. rewrite Ea, rev_app_distr in Er. discriminate.
      - assert (Ea : a = rev ra ++ [x]) by (rewrite <- (rev_involutive a), Er; reflexivity).
        destruct (in_dec Nat.eq_dec x b) as [Hin | Hn].
        + apply in_split in Hin. destruct Hin as (b1 & b2 & Eb). destruct b2 as [|y b2].
          * left. intros a0' x' b1' b2' Ea' Eb'. rewrite Ea in Ea'. apply app_inj_tail in Ea'. destruct Ea' as [_ <-].
            destruct b2' as [|z b2']; [reflexivity|]. exfalso.
            pose proof Hb as Hb'. rewrite Eb' in Hb'. destruct (docset_not_in _ _ _ Hb') as [_ Hn'].
            rewrite Eb in Eb'. pose proof (app_inj_tail b1 (b1' ++ x :: removelast (z :: b2')) x (List.last (z :: b2') z)) as HT.
            assert (Elast : z :: b2' = removelast (z :: b2') ++ [List.last (z :: b2') z]) by (apply app_removelast_last; discriminate).
            rewrite Elast in Eb'. rewrite app_comm_cons, app_assoc in Eb'. destruct (HT Eb') as [_ Hx].
            apply Hn'. rewrite Elast, Hx. apply in_elt.
          * right. exists (rev ra), x, b1, (y :: b2). split; [exact Ea|]. split; [exact Eb | discriminate].
        + left. intros a0' x' b1' b2' Ea' Eb'. rewrite Ea in Ea'. apply app_inj_tail in Ea'. destruct Ea' as [_ <-].
          destruct Hn. rewrite Eb'. apply in_elt. }
    destruct Hcase as [Hg | (a0 & x & b1 & b2 & Ea & Eb & Hne)].
    - destruct (add_union h wf r a b Ha Hb Hg) as (l & E & [Hla Hlo] & H). exists l. split; [exact E|].
      split; [exact (ordered_nodup h wf r l Hla Hlo)|]. split; [intros y Hy; apply in_app_iff; apply H; exact Hy|]. split; split.
      + intros _ (Hsub & x & y & Hx & Hmax & Hy & Hxy).
        apply in_split in Hx as Hx'. destruct Hx' as (a1 & a2 & Ea). destruct a2 as [|z a2].
        * pose proof (Hsub x Hx) as Hxb. apply in_split in Hxb. destruct Hxb as (b1 & b2 & Eb).
          pose proof (Hg a1 x b1 b2 Ea Eb). subst b2. rewrite Eb in Hb, Hy. apply docset_app in Hb. destruct Hb as (Hb1 & [Hb2 _] & Hs).
          apply Forall_inv in Hb2. apply in_app_iff in Hy. destruct Hy as [Hy | [<- | []]].
          -- destruct Hb1 as [Hb1 _]. rewrite Forall_forall in Hb1. exact (before_asym h wf r x y Hb2 (Hb1 y Hy) Hxy (Hs y x Hy (or_introl eq_refl))).
          -- exact (before_irrefl h wf r x Hb2 Hxy).
        * apply (Hmax z); [rewrite Ea; apply in_app_iff; right; right; left; reflexivity|].
          rewrite Ea in Ha. apply docset_app in Ha. destruct Ha as (_ & [_ [Ho _]] & _). apply Forall_inv in Ho. exact Ho.
      + intros _. exact H.
      + intros _ (a0 & x & b1 & b2 & y & Ea & Eb & Hne & _). exact (Hne (Hg a0 x b1 b2 Ea Eb)).
      + intros _. exact Hlo.
    - subst a b. pose proof (over_x a0 x Ha) as Hx.
      assert (Hy : exists y, In y b2) by (destruct b2 as [|y b2]; [congruence | exists y; left; reflexivity]). destruct Hy as (y & Hy).
      destruct (forallb (fun z => includes (b1 ++ x :: b2) z) (a0 ++ [x])) eqn:Ei.
      + assert (Hi : incl (a0 ++ [x]) (b1 ++ x :: b2)).
        { intros z Hz. rewrite forallb_forall in Ei. apply includes_spec. exact (Ei z Hz). }
        rewrite (over_drop a0 b1 b2 x Ha Hb Hne Hi). exists (b1 ++ [x]). split; [reflexivity|].
        assert (Hbx : DocSet (b1 ++ [x])).
        { pose proof Hb as H. rewrite (app_assoc b1 [x] b2 : b1 ++ x :: b2 = (b1 ++ [x]) ++ b2) in H. apply docset_app in H. apply H. }
        split; [exact (ordered_nodup h wf r _ (proj1 Hbx) (proj2 Hbx))|].
        split; [intros z Hz; rewrite !in_app_iff in *; cbn in *; tauto|]. split; split.
        * intros H. exfalso. assert (Hyl : In y (b1 ++ [x])) by (apply H; right; apply in_app_iff; right; right; exact Hy).
          pose proof Hb as Hb'. rewrite (app_assoc b1 [x] b2 : b1 ++ x :: b2 = (b1 ++ [x]) ++ b2) in Hb'. apply docset_app in Hb'. destruct Hb' as (_ & [Hb2 _] & Hs).
          rewrite Forall_forall in Hb2. exact (before_irrefl h wf r y (Hb2 y Hy) (Hs y y Hyl Hy)).
        * intros H. exfalso. apply H. split; [exact Hi|]. exists x, y. split; [apply in_elt|]. split; [|split].
          -- intros z Hz Hxz. apply in_app_iff in Hz. destruct Hz as [Hz | [<- | []]]; [|exact (before_irrefl h wf r x Hx Hxz)].
             assert (Hzt : InTree h r z) by (destruct Ha as [H1 _]; rewrite Forall_forall in H1; apply H1, in_app_iff; left; exact Hz).
             exact (before_asym h wf r x z Hx Hzt Hxz (over_a0 a0 x Ha z Hz)).
          -- apply in_app_iff. right; right; exact Hy.
          -- exact (over_after b1 b2 x Hb y Hy).
        * intros _ (a0' & x' & b1' & b2' & z & _ & _ & _ & Ez & _). apply nth_error_In in Ez as Hz.
          assert (length (b1 ++ x :: b2) < length (a0 ++ [x])) by (apply nth_error_Some; congruence).
          pose proof (incl_length _ _ Ha Hi). lia.
        * intros _. apply Hbx.
      + assert (Hi : ~ incl (a0 ++ [x]) (b1 ++ x :: b2)).
        { intros H. rewrite (proj2 (forallb_forall _ _)) in Ei; [discriminate|]. intros z Hz. apply includes_spec. exact (H z Hz). }
        destruct (over_keep a0 b1 b2 x Ha Hb Hne Hi) as (l1 & Hl1 & Hin & Hlast & Hat).
        pose proof (over_b2 b1 b2 x Hb) as Hd2.
        assert (Hnew : forall z, In z b2 -> ~ In z l1).
        { intros z Hz Hzl. apply Hin in Hzl. destruct Hzl as [Hzl | Hzl]; [exact (over_new a0 b1 b2 x Ha Hb z Hz Hzl)|].
          pose proof (proj1 Hd2) as H2. rewrite Forall_forall in H2.
          pose proof (over_before b1 b2 x Hb z Hzl) as H3. exact (before_asym h wf r x z Hx (H2 z Hz) (over_after b1 b2 x Hb z Hz) H3). }
        assert (Hdrop : ~ Drops h (fun z => In z (a0 ++ [x])) (fun z => In z (b1 ++ x :: b2))) by (intros [H _]; exact (Hi H)).
        assert (Hmem : forall z, In z l1 \/ In z b2 <-> In z (a0 ++ [x]) \/ In z (b1 ++ x :: b2)).
        { intros z. rewrite Hin, !in_app_iff. cbn. tauto. }
        assert (Hdec : (forall y, nth_error (a0 ++ [x]) (length (b1 ++ x :: b2)) = Some y -> exists k, In k b1 /\ ~ In k (a0 ++ [x]) /\ Before h y k) \/
          exists y, nth_error (a0 ++ [x]) (length (b1 ++ x :: b2)) = Some y /\ (forall k, In k b1 -> ~ In k (a0 ++ [x]) -> Before h k y)).
        { destruct (nth_error (a0 ++ [x]) (length (b1 ++ x :: b2))) as [v|] eqn:Ev; [|left; intros ? [=]].
          assert (Hv : InTree h r v) by (destruct Ha as [H1 _]; rewrite Forall_forall in H1; exact (H1 v (nth_error_In _ _ Ev))).
          pose proof (over_b1 b1 b2 x Hb) as [Hb1 _]. rewrite Forall_forall in Hb1.
          destruct (existsb (fun k => negb (includes (a0 ++ [x]) k) && below (key k) (key v)) b1) eqn:Ee.
          - left. intros v' [= <-]. apply existsb_exists in Ee. destruct Ee as (k & Hk & E). apply andb_true_iff in E. destruct E as [E1 E2].
            exists k. split; [exact Hk|]. split.
            + intros H. apply includes_spec in H. rewrite H in E1. discriminate.
            + apply (before_below h wf r); [exact Hv | exact (Hb1 k Hk) | exact E2].
          - right. exists v. split; [reflexivity|]. intros k Hk Hn.
            destruct (before_total h wf r k v (Hb1 k Hk) Hv) as [H | [H | H]]; [exact H | subst v; destruct Hn; exact (nth_error_In _ _ Ev) |].
            exfalso. assert (Et : existsb (fun k => negb (includes (a0 ++ [x]) k) && below (key k) (key v)) b1 = true); [|congruence].
            apply existsb_exists. exists k. split; [exact Hk|]. apply andb_true_iff. split.
            + destruct (includes (a0 ++ [x]) k) eqn:E; [|reflexivity]. destruct (Hn (proj1 (includes_spec _ k) E)).
            + apply (before_below h wf r); [exact Hv | exact (Hb1 k Hk) | exact H]. }
        destruct Hdec as [Hc | (v & Ev & Hc)].
        * rewrite (Hlast Hc). exists (l1 ++ b2). split; [reflexivity|].
          assert (HD : DocSet (l1 ++ b2)).
          { apply docset_app. split; [exact Hl1|]. split; [exact Hd2|]. intros u w Hu Hw. pose proof (over_after b1 b2 x Hb w Hw) as Hxw.
            assert (Hut : InTree h r u) by (destruct Hl1 as [H1 _]; rewrite Forall_forall in H1; exact (H1 u Hu)).
            assert (Hwt : InTree h r w) by (destruct Hd2 as [H1 _]; rewrite Forall_forall in H1; exact (H1 w Hw)).
            apply Hin in Hu. rewrite in_app_iff in Hu. destruct Hu as [[Hu | [<- | []]] | Hu]; [| exact Hxw |].
            - exact (before_trans h wf r u x w Hut Hx Hwt (over_a0 a0 x Ha u Hu) Hxw).
            - exact (before_trans h wf r u x w Hut Hx Hwt (over_before b1 b2 x Hb u Hu) Hxw). }
          split; [exact (ordered_nodup h wf r _ (proj1 HD) (proj2 HD))|].
          split; [intros z Hz; apply in_app_iff; apply Hmem; apply in_app_iff; exact Hz|]. split; split.
          -- intros _. exact Hdrop.
          -- intros _ z. rewrite in_app_iff. apply Hmem.
          -- intros _ (a0' & x' & b1' & b2' & w & Ea' & Eb' & _ & Ew & Hc').
             apply app_inj_tail in Ea'. destruct Ea' as [_ <-]. destruct (Hc w Ew) as (k & Hk & Hn & Hwk).
             assert (b1' = b1).
             { destruct (docset_not_in _ _ _ Hb) as [N1 N2]. pose proof Hb as Hb'. rewrite Eb' in Hb'. destruct (docset_not_in _ _ _ Hb') as [N1' N2'].
               clear - Eb' N1 N1'. revert b1' Eb' N1'. induction b1 as [|u b1 IH]; intros [|u' b1'] E N1'; cbn in *.
               - reflexivity.
               - injection E as <- _. destruct N1'. left; reflexivity.
               - injection E as -> _. destruct N1. left; reflexivity.
               - injection E as <- E. f_equal. apply IH; [|exact E |]; tauto. }
             subst b1'. pose proof (over_b1 b1 b2 x Hb) as [Hb1 _]. rewrite Forall_forall in Hb1.
             assert (Hwt : InTree h r w) by (destruct Ha as [H1 _]; rewrite Forall_forall in H1; exact (H1 w (nth_error_In _ _ Ew))).
             exact (before_asym h wf r w k Hwt (Hb1 k Hk) Hwk (Hc' k Hk Hn)).
          -- intros _. apply HD.
        * destruct (Hat v Ev Hc) as (u & Hu & ->). exists (u ++ b2 ++ skipn (length (b1 ++ x :: b2)) (a0 ++ [x])). split; [reflexivity|].
          set (s := skipn (length (b1 ++ x :: b2)) (a0 ++ [x])) in *.
          assert (HN1 : NoDup l1) by (exact (ordered_nodup h wf r l1 (proj1 Hl1) (proj2 Hl1))).
          assert (HN2 : NoDup b2) by (exact (ordered_nodup h wf r b2 (proj1 Hd2) (proj2 Hd2))).
          assert (Hmem' : forall z, In z (u ++ b2 ++ s) <-> In z l1 \/ In z b2) by (intros z; rewrite Hu, !in_app_iff; tauto).
          split.
          { apply (Permutation.Permutation_NoDup (l := l1 ++ b2)).
            - rewrite Hu, <- app_assoc. apply Permutation.Permutation_app_head. apply Permutation.Permutation_app_comm.
            - apply nodup_app; [exact HN1 | exact HN2 |]. intros z Hz Hz2. exact (Hnew z Hz2 Hz). }
          split; [intros z Hz; apply in_app_iff; apply Hmem; apply Hmem'; exact Hz|]. split; split.
          -- intros _. exact Hdrop.
          -- intros _ z. rewrite Hmem'. apply Hmem.
          -- intros Ho _. apply ordered_app in Ho. destruct Ho as (_ & Ho & _). apply ordered_app in Ho. destruct Ho as (_ & _ & Ho).
             assert (Hxs : In x s).
             { assert (Hlt : length (b1 ++ x :: b2) < length (a0 ++ [x])) by (apply nth_error_Some; congruence).
               unfold s. rewrite skipn_app. apply in_app_iff. right. rewrite (app_length a0 [x]) in Hlt. cbn [length] in Hlt.
               replace (length (b1 ++ x :: b2) - length a0) with 0 by lia. left. reflexivity. }
             pose proof (proj1 Hd2) as H2. rewrite Forall_forall in H2.
             exact (before_asym h wf r y x (H2 y Hy) Hx (Ho y x Hy Hxs) (over_after b1 b2 x Hb y Hy)).
          -- intros H. exfalso. apply H. exists a0, x, b1, b2, v. repeat split; assumption.
  Qed.

  Lemma add_join a b : DocSet a -> DocSet b -> JoinOk h a b ->
    exists l, add h a b = Ok l /\ DocSet l /\ (forall x, In x l <-> In x a \/ In x b).
  Proof.
    intros Ha Hb [H1 H2]. destruct (add_exact a b Ha Hb) as (l & E & _ & Hi & Hm & Ho). exists l. split; [exact E|].
    split; [|apply Hm; exact H1]. split; [|apply Ho; exact H2]. apply Forall_forall. intros x Hx. apply Hi, in_app_iff in Hx.
    destruct Ha as [Ha _], Hb as [Hb _]. rewrite Forall_forall in Ha, Hb. destruct Hx as [Hx | Hx]; [exact (Ha x Hx) | exact (Hb x Hx)].
  Qed.
End Exact.

Lemma join_disjoint h a b : (forall x, In x a -> ~ In x b) -> JoinOk h a b.
Proof.
  intros H. split.
  - intros (Hs & x & _ & Hx & _). exact (H x Hx (Hs x Hx)).
  - intros (a0 & x & b1 & b2 & y & -> & -> & _). apply (H x); apply in_elt.
Qed.
