(** Property theorems: document order (C03), add (C04), positions (C15), membership (C36), filtering by a
    closure or another set (parts of C09, C10), sets over several documents (C37). *)
From Verif Require Import Base Attr Dom DomSpec Order OrderSpec DomProofs OrderProofs Sets SetsProofs AddProofs AddExact
  DomBuild DomBuildProofs.
From Coq Require Import Sorting.Permutation.

Definition el (tag : String.string) (cs : list dtree) : dtree := El (lit tag) [] cs.
Arguments el tag%string_scope cs.

(** [<a><b/>t<c><d/></c></a><e/>]: root 0, a 1, b 2, text 3, c 4, d 5, e 6. *)
Definition ex_doc : heap := doc [el "a" [el "b" []; Tx (lit "t"); el "c" [el "d" []]]; el "e" []].
Lemma ex_doc_wf : WF ex_doc.
Proof. apply wf_check_sound. vm_compute. reflexivity. Qed.
Lemma ex_doc_in l : allin_check ex_doc 0 l = true -> AllIn ex_doc 0 l.
Proof. apply allin_check_sound. Qed.

(** C03 *)
Theorem C03_document_order (h : heap) (r x y : id) : WF h -> InTree h r x -> InTree h r y ->
  exists kx ky, get_tree_indexs h x = Ok kx /\ get_tree_indexs h y = Ok ky /\
    (compare_indexs kx ky = Lt <-> Before h x y) /\
    (compare_indexs kx ky = Eq <-> x = y) /\
    (compare_indexs kx ky = Gt <-> Before h y x).
Proof.
  intros wf Hx Hy. exists (key h x), (key h y). rewrite !(tree_indexs_key h wf). do 2 (split; [reflexivity|]).
  split; [symmetry; exact (before_iff h wf r x y Hx Hy)|]. split.
  - rewrite compare_eq. split; [exact (key_inj h wf r x y Hx Hy) | intros ->; reflexivity].
  - rewrite (before_iff h wf r y x Hy Hx), (compare_antisym (key h x) (key h y)).
    destruct (compare_indexs (key h x) (key h y)); cbn; split; congruence.
Qed.
Print Assumptions C03_document_order.

Theorem C03_strict_total_order (h : heap) (r : id) : WF h ->
  (forall x, InTree h r x -> ~ Before h x x) /\
  (forall x y z, InTree h r x -> InTree h r y -> InTree h r z -> Before h x y -> Before h y z -> Before h x z) /\
  (forall x y, InTree h r x -> InTree h r y -> Before h x y \/ x = y \/ Before h y x).
Proof.
  intros wf. split; [exact (before_irrefl h wf r)|]. split; [exact (before_trans h wf r) | exact (before_total h wf r)].
Qed.
Print Assumptions C03_strict_total_order.

Theorem C03_sort_and_unique (h : heap) (r : id) (l : list id) : WF h -> AllIn h r l ->
  exists l', sort_and_unique h l = Ok l' /\ Ordered h l' /\ NoDup l' /\ SameSet l' l.
Proof.
  intros wf Ha. destruct (sort_and_unique_ok h wf r l Ha) as (l' & E & [Ha' Ho] & HS). exists l'.
  split; [exact E|]. split; [exact Ho|]. split; [exact (ordered_nodup h wf r l' Ha' Ho) | exact HS].
Qed.
Print Assumptions C03_sort_and_unique.

Theorem C03_topmost (h : heap) (r : id) (l : list id) : WF h -> DocSet h r l ->
  exists l', unique_parents h l = Ok l' /\ Ordered h l' /\
    (forall x, In x l' <-> In x l /\ forall y, In y l -> ~ Anc h y x).
Proof.
  intros wf Hl. destruct (unique_parents_ok h wf r l Hl) as (l' & E & [_ Ho] & H). exists l'.
  split; [exact E|]. split; [exact Ho | exact H].
Qed.
Print Assumptions C03_topmost.

Example C03_ex : WF ex_doc /\ AllIn ex_doc 0 [6; 5; 2; 6; 1] /\ DocSet ex_doc 0 [1; 2; 5; 6] /\
  sort_and_unique ex_doc [6; 5; 2; 6; 1] = Ok [1; 2; 5; 6] /\ unique_parents ex_doc [1; 2; 5; 6] = Ok [1; 6].
Proof.
  split; [exact ex_doc_wf|]. split; [apply ex_doc_in; vm_compute; reflexivity|].
  split; [apply docset_check_sound; vm_compute; reflexivity|]. split; vm_compute; reflexivity.
Qed.

(** C04.  Full claim: [forall a b, DocSet h r a -> DocSet h r b -> add h a b = union in document order].
    It holds when the last element of [a], if it is in [b], is the last element of [b]. *)
Theorem C04_add_union_partial (h : heap) (r : id) (a b : list id) : WF h -> DocSet h r a -> DocSet h r b ->
  (forall a0 x b1 b2, a = a0 ++ [x] -> b = b1 ++ x :: b2 -> b2 = []) ->
  exists l, add h a b = Ok l /\ Ordered h l /\ NoDup l /\ (forall x, In x l <-> In x a \/ In x b).
Proof.
  intros wf Ha Hb Hg. destruct (add_union h wf r a b Ha Hb Hg) as (l & E & [Hla Hlo] & H). exists l.
  split; [exact E|]. split; [exact Hlo|]. split; [exact (ordered_nodup h wf r l Hla Hlo) | exact H].
Qed.
Print Assumptions C04_add_union_partial.

(** What [add] does for all pairs of ordered sets: it never fails, repeats nothing and invents nothing; the members
    are the union exactly when nothing is dropped, and the order is document order exactly when nothing is
    misplaced. *)
Theorem C04_add_exact (h : heap) (r : id) (a b : list id) : WF h -> DocSet h r a -> DocSet h r b ->
  exists l, add h a b = Ok l /\ NoDup l /\ incl l (a ++ b) /\
    ((forall x, In x l <-> In x a \/ In x b) <-> ~ Drops h (fun x => In x a) (fun x => In x b)) /\
    (Ordered h l <-> ~ Misplaces h a b).
Proof. intros wf Ha Hb. exact (add_exact h wf r a b Ha Hb). Qed.
Print Assumptions C04_add_exact.
(** The claim holds exactly for the pairs in [JoinOk]. *)
Theorem C04_add_union_iff (h : heap) (r : id) (a b : list id) : WF h -> DocSet h r a -> DocSet h r b ->
  ((exists l, add h a b = Ok l /\ Ordered h l /\ NoDup l /\ (forall x, In x l <-> In x a \/ In x b)) <-> JoinOk h a b).
Proof.
  intros wf Ha Hb. destruct (add_exact h wf r a b Ha Hb) as (l & E & N & _ & Hm & Ho). split.
  - intros (l' & E' & H1 & _ & H2). rewrite E in E'. injection E' as <-. split; [apply Hm; exact H2 | apply Ho; exact H1].
  - intros [H1 H2]. exists l. split; [exact E|]. split; [apply Ho; exact H2|]. split; [exact N | apply Hm; exact H1].
Qed.
Print Assumptions C04_add_union_iff.
(** What is dropped: all of the second set after the last element of the first. *)
Theorem C04_add_dropped (h : heap) (r : id) (a0 b1 b2 : list id) (x : id) : WF h -> DocSet h r (a0 ++ [x]) -> DocSet h r (b1 ++ x :: b2) ->
  b2 <> [] -> incl (a0 ++ [x]) (b1 ++ x :: b2) -> add h (a0 ++ [x]) (b1 ++ x :: b2) = Ok (b1 ++ [x]).
Proof. intros wf Ha Hb Hne Hi. exact (over_drop h wf r a0 b1 b2 x Ha Hb Hne Hi). Qed.
Print Assumptions C04_add_dropped.
(** [b, d] joined with [a, d, e] is right, although [d] is shared and not the last one of the second set; [b, d]
    joined with [b, d, e] drops [e]. *)
Example C04_exact_ex : DocSet ex_doc 0 [2; 5] /\ DocSet ex_doc 0 [1; 5; 6] /\ JoinOk ex_doc [2; 5] [1; 5; 6] /\
  add ex_doc [2; 5] [1; 5; 6] = Ok [1; 2; 5; 6] /\
  Drops ex_doc (fun x => In x [2; 5]) (fun x => In x [2; 5; 6]) /\ add ex_doc [2; 5] [2; 5; 6] = Ok [2; 5] /\
  Misplaces ex_doc [1; 2; 4; 5] [5; 6].
Proof.
  pose proof ex_doc_wf as wf. assert (D1 : DocSet ex_doc 0 [2; 5]) by (apply docset_check_sound; vm_compute; reflexivity).
  assert (D2 : DocSet ex_doc 0 [1; 5; 6]) by (apply docset_check_sound; vm_compute; reflexivity).
  assert (D3 : DocSet ex_doc 0 [2; 5; 6]) by (apply docset_check_sound; vm_compute; reflexivity).
  split; [exact D1|]. split; [exact D2|]. split.
  { apply (C04_add_union_iff ex_doc 0 [2; 5] [1; 5; 6] wf D1 D2). exists [1; 2; 5; 6]. split; [vm_compute; reflexivity|].
    assert (D4 : DocSet ex_doc 0 [1; 2; 5; 6]) by (apply docset_check_sound; vm_compute; reflexivity).
    split; [apply D4|]. split; [exact (ordered_nodup ex_doc wf 0 _ (proj1 D4) (proj2 D4))|]. intros x. cbn. tauto. }
  split; [vm_compute; reflexivity|]. split.
  { split; [intros x; cbn; tauto|]. destruct D3 as [T3 O3]. exists 5, 6. split; [cbn; tauto|]. split; [|split; [cbn; tauto|]].
    - intros z Hz H. rewrite Forall_forall in T3. assert (T5 : InTree ex_doc 0 5) by (apply T3; cbn; tauto).
      destruct Hz as [<- | [<- | []]].
      + assert (T2 : InTree ex_doc 0 2) by (apply T3; cbn; tauto). apply (before_key ex_doc wf 0 5 2 T5 T2) in H. vm_compute in H. discriminate.
      + exact (before_irrefl ex_doc wf 0 5 T5 H).
    - destruct O3 as (_ & O3 & _). apply Forall_inv in O3. exact O3. }
  split; [vm_compute; reflexivity|].
  exists [1; 2; 4], 5, [], [6], 4. split; [reflexivity|]. split; [reflexivity|]. split; [discriminate|]. split; [reflexivity|]. intros k [].
Qed.

(** Disjoint sets are always fine. *)
Theorem C04_add_disjoint (h : heap) (r : id) (a b : list id) : WF h -> DocSet h r a -> DocSet h r b ->
  (forall x, In x a -> ~ In x b) ->
  exists l, add h a b = Ok l /\ Ordered h l /\ Permutation l (a ++ b).
Proof.
  intros wf Ha Hb Hd. destruct (add_union h wf r a b Ha Hb) as (l & E & [Hla Hlo] & H).
  { intros a0 x b1 b2 -> ->. exfalso. apply (Hd x); [apply in_app_iff; right; left; reflexivity | apply in_elt]. }
  exists l. split; [exact E|]. split; [exact Hlo|]. apply NoDup_Permutation.
  - exact (ordered_nodup h wf r l Hla Hlo).
  - apply nodup_app; [exact (ordered_nodup h wf r a (proj1 Ha) (proj2 Ha)) | exact (ordered_nodup h wf r b (proj1 Hb) (proj2 Hb)) | exact Hd].
  - intros x. rewrite in_app_iff. apply H.
Qed.
Print Assumptions C04_add_disjoint.

Example C04_ex : DocSet ex_doc 0 [2; 5; 6] /\ DocSet ex_doc 0 [1; 4; 5] /\
  (forall a0 x b1 b2, [2; 5; 6] = a0 ++ [x] -> [1; 4; 5] = b1 ++ x :: b2 -> b2 = []) /\
  add ex_doc [2; 5; 6] [1; 4; 5] = Ok [1; 2; 4; 5; 6].
Proof.
  split; [apply docset_check_sound; vm_compute; reflexivity|]. split; [apply docset_check_sound; vm_compute; reflexivity|].
  split; [|vm_compute; reflexivity]. intros a0 x b1 b2 Ea Eb.
  destruct a0 as [|? [|? [|? [|? ?]]]]; try discriminate. injection Ea as _ _ <-.
  exfalso. assert (H : In 6 [1; 4; 5]) by (rewrite Eb; apply in_elt). cbn in H. intuition discriminate.
Qed.

(** Without the guard: [x].add([x, y]) loses y ... *)
Theorem C04_add_loses_refuted : exists h r a b, WF h /\ DocSet h r a /\ DocSet h r b /\
  exists l x, add h a b = Ok l /\ In x b /\ ~ In x l.
Proof.
  exists ex_doc, 0, [1], [1; 2]. split; [exact ex_doc_wf|].
  split; [apply docset_check_sound; vm_compute; reflexivity|]. split; [apply docset_check_sound; vm_compute; reflexivity|].
  exists [1], 2. split; [vm_compute; reflexivity|]. split; [right; left; reflexivity|]. intros [H | []]; discriminate.
Qed.
Print Assumptions C04_add_loses_refuted.
(** ... and a shared last element with something after it is put in the wrong place. *)
Theorem C04_add_order_refuted : exists h r a b, WF h /\ DocSet h r a /\ DocSet h r b /\
  exists l, add h a b = Ok l /\ ~ Ordered h l.
Proof.
  exists ex_doc, 0, [1; 2; 4; 5], [5; 6]. split; [exact ex_doc_wf|].
  split; [apply docset_check_sound; vm_compute; reflexivity|]. split; [apply docset_check_sound; vm_compute; reflexivity|].
  exists [1; 2; 6; 4; 5]. split; [vm_compute; reflexivity|]. intros (_ & _ & H & _). apply Forall_inv in H.
  pose proof ex_doc_wf as wf.
  assert (H4 : InTree ex_doc 0 4) by (apply intree_check_sound with (fuel := 8); vm_compute; reflexivity).
  assert (H6 : InTree ex_doc 0 6) by (apply intree_check_sound with (fuel := 8); vm_compute; reflexivity).
  apply (before_key ex_doc wf 0 6 4 H6 H4) in H. vm_compute in H. discriminate.
Qed.
Print Assumptions C04_add_order_refuted.

(** C15 *)
Definition InBounds (lo hi : bound) (p : nat) : bool :=
  match lo with Unbounded => true | Included s => s <=? p | Excluded s => s <? p end &&
  match hi with Unbounded => true | Included e => p <=? e | Excluded e => p <? e end.
(** The elements at the positions satisfying [f], in order. *)
Definition at_positions (f : nat -> bool) (l : list id) : list id :=
  map snd (filter (fun p => f (fst p)) (combine (seq 0 (length l)) l)).

Theorem C15_eq (l : list id) (i : nat) : eq_ l i = at_positions (Nat.eqb i) l.
Proof.
  unfold eq_, at_positions. 
  assert (H : forall k, map snd (filter (fun p => Nat.eqb (k + i) (fst p)) (combine (seq k (length l)) l)) =
                 match nth_error l i with Some x => [x] | None => [] end).
  { revert i. induction l as [|x l IH]; intros i k; [destruct i; reflexivity|]. cbn [length seq combine filter fst].
    destruct i as [|i]; cbn [nth_error].
    - rewrite Nat.add_0_r, Nat.eqb_refl. cbn. f_equal.
      rewrite (filter_nil _ (combine (seq (S k) (length l)) l)); [reflexivity|].
      intros [a b] Hab. apply in_combine_l in Hab. apply in_seq in Hab. cbn. apply Nat.eqb_neq. lia.
    - destruct (Nat.eqb_spec (k + S i) k) as [E | _]; [lia|]. rewrite <- (IH i (S k)). f_equal. apply filter_ext.
      intros p. f_equal. lia. }
  symmetry. exact (H 0).
Qed.
Print Assumptions C15_eq.
Theorem C15_first (l : list id) : first l = at_positions (Nat.eqb 0) l.
Proof. exact (C15_eq l 0). Qed.
Print Assumptions C15_first.
Theorem C15_last_partial (l : list id) : l <> [] -> last l = Ok (at_positions (Nat.eqb (length l - 1)) l).
Proof.
  intros H. unfold last, rsub. destruct l as [|x l]; [congruence|].
  replace (1 <=? length (x :: l)) with true by reflexivity. cbn [rbind]. rewrite C15_eq. reflexivity.
Qed.
Print Assumptions C15_last_partial.
(** [last] on an empty set panics. *)
Theorem C15_last_refuted : exists l, last l = Panic.
Proof. exists []. reflexivity. Qed.
Print Assumptions C15_last_refuted.

(** The ranges for which [slice] is right: an inclusive or open start which, when inside the set, is not past
    the end bound, and an end bound below [usize::MAX]. *)
Definition SliceOk (umax : nat) (l : list id) (lo hi : bound) : Prop :=
  (match lo with Excluded _ => False | _ => True end) /\
  (match hi with Included e => e < umax | _ => True end) /\
  (forall s, lo = Included s -> s < length l ->
     match hi with Unbounded => True | Included e => s <= S e | Excluded e => s <= e end).

Lemma at_positions_slice (l : list id) (s e : nat) : s <= e ->
  at_positions (fun p => (s <=? p) && (p <? e)) l = firstn (e - s) (skipn s l).
Proof.
  unfold at_positions. intros Hse.
  assert (H : forall k, map snd (filter (fun p => (k + s <=? fst p) && (fst p <? k + e)) (combine (seq k (length l)) l)) =
                   firstn (e - s) (skipn s l)).
  { revert s e Hse. induction l as [|x l IH]; intros s e Hse k; [cbn; rewrite skipn_nil, firstn_nil; reflexivity|].
    cbn [length seq combine filter fst]. destruct s as [|s].
    - rewrite Nat.add_0_r, Nat.leb_refl. cbn [skipn andb]. destruct e as [|e].
      + rewrite Nat.add_0_r, Nat.ltb_irrefl. cbn [firstn Nat.sub].
        rewrite (filter_nil _ (combine (seq (S k) (length l)) l)); [reflexivity|].
        intros [a b] Hab. apply in_combine_l in Hab. apply in_seq in Hab. cbn [fst].
        rewrite ?Nat.add_0_r. destruct (Nat.leb_spec k a), (Nat.ltb_spec a k); cbn; try reflexivity; lia.
      + replace (k <? k + S e) with true by (symmetry; apply Nat.ltb_lt; lia). cbn [map snd firstn Nat.sub]. f_equal.
        pose proof (IH 0 e ltac:(lia) (S k)) as IH'. cbn [skipn] in IH'. rewrite Nat.sub_0_r in IH'. rewrite <- IH'. f_equal.
        apply filter_ext_in. intros [a b] Hab. apply in_combine_l in Hab. apply in_seq in Hab. cbn [fst].
        rewrite ?Nat.add_0_r. destruct (Nat.leb_spec k a), (Nat.leb_spec (S k) a), (Nat.ltb_spec a (k + S e)), (Nat.ltb_spec a (S k + e)); cbn; try reflexivity; lia.
    - destruct e as [|e]; [lia|]. replace (k + S s <=? k) with false by (symmetry; apply Nat.leb_gt; lia). cbn [andb].
      cbn [skipn Nat.sub]. rewrite <- (IH s e ltac:(lia) (S k)). replace (k + S s) with (S k + s) by lia. replace (k + S e) with (S k + e) by lia. reflexivity. }
  exact (H 0).
Qed.

Theorem C15_slice_partial (umax : nat) (l : list id) (lo hi : bound) : SliceOk umax l lo hi ->
  slice umax l lo hi = Ok (at_positions (InBounds lo hi) l).
Proof.
  intros (H1 & H2 & H3). set (start := match lo with Included s => s | _ => 0 end).
  set (stop := match hi with Unbounded => length l | Excluded e => Nat.min e (length l) | Included e => Nat.min (S e) (length l) end).
  assert (Hlt : forall p x, nth_error l p = Some x -> p < length l) by (intros p x E; apply nth_error_Some; congruence).
  assert (E : at_positions (InBounds lo hi) l = at_positions (fun p => (start <=? p) && (p <? stop)) l).
  { unfold at_positions. f_equal. apply filter_ext_in. intros [p x] Hp. apply in_combine_l in Hp. apply in_seq in Hp. cbn [fst].
    unfold InBounds, start, stop. destruct lo as [|s|s]; [| |destruct H1]; f_equal; destruct hi as [|e|e];
      apply eq_iff_eq_true; rewrite ?Nat.leb_le, ?Nat.ltb_lt; split; intros; try reflexivity; lia. }
  rewrite E.
  assert (Hgo : start <= stop -> at_positions (fun p => (start <=? p) && (p <? stop)) l = firstn (stop - start) (skipn start l)).
  { intros H. apply at_positions_slice. exact H. }
  assert (Hst : (match hi with
                | Unbounded => Ok (length l)
                | Excluded e => Ok (if e <? length l then e else length l)
                | Included e => if e <? umax then Ok (if S e <? length l then S e else length l) else Panic
                end) = Ok stop).
  { unfold stop. destruct hi as [|e|e]; [reflexivity| |].
    - replace (e <? umax) with true by (symmetry; apply Nat.ltb_lt; exact H2). f_equal.
      destruct (Nat.ltb_spec (S e) (length l)); lia.
    - f_equal. destruct (Nat.ltb_spec e (length l)); lia. }
  unfold slice. rewrite Hst. cbn [rbind].
  assert (Hfin : start <= stop -> (do n <- rsub stop start; Ok (firstn n (skipn start l))) =
                 Ok (at_positions (fun p => (start <=? p) && (p <? stop)) l)).
  { intros H. unfold rsub. replace (start <=? stop) with true by (symmetry; apply Nat.leb_le; exact H). cbn [rbind]. rewrite (Hgo H). reflexivity. }
  destruct lo as [|s|s]; [| |destruct H1].
  - apply Hfin. unfold start. lia.
  - destruct (Nat.ltb_spec s (length l)) as [Hs | Hs].
    + apply Hfin. unfold start, stop. specialize (H3 s eq_refl Hs). destruct hi; lia.
    + f_equal. symmetry. unfold at_positions. rewrite filter_nil; [reflexivity|]. intros [p x] Hp. apply in_combine_l in Hp.
      apply in_seq in Hp. cbn. unfold start. replace (s <=? p) with false; [reflexivity|]. symmetry. apply Nat.leb_gt. lia.
Qed.
Print Assumptions C15_slice_partial.
Example C15_ex : SliceOk 1000 [7; 8; 9] (Included 1) (Excluded 9) /\ slice 1000 [7; 8; 9] (Included 1) (Excluded 9) = Ok [8; 9] /\
  at_positions (InBounds (Included 1) (Excluded 9)) [7; 8; 9] = [8; 9] /\ last [7; 8; 9] = Ok [9] /\ eq_ [7; 8; 9] 3 = [].
Proof. split; [repeat split; intros s [= <-] _; lia | repeat split]. Qed.

(** Outside: a start past the end panics, an excluded start is ignored, an inclusive end of [usize::MAX] panics. *)
Theorem C15_slice_refuted :
  (exists umax l lo hi, slice umax l lo hi = Panic /\ lo = Included 2 /\ hi = Excluded 1) /\
  (exists umax l lo hi r, slice umax l lo hi = Ok r /\ r <> at_positions (InBounds lo hi) l) /\
  (exists umax l lo hi, slice umax l lo hi = Panic /\ lo = Unbounded /\ hi = Included umax).
Proof.
  split; [exists 1000, [7; 8; 9], (Included 2), (Excluded 1); repeat split|]. split.
  - exists 1000, [7; 8; 9], (Excluded 1), Unbounded, [7; 8; 9]. split; [reflexivity | discriminate].
  - exists 1000, [7; 8; 9], Unbounded, (Included 1000). repeat split.
Qed.
Print Assumptions C15_slice_refuted.

(** C36 *)
Theorem C36_membership (l : list id) (x : id) : includes l x = true <-> In x l.
Proof. exact (includes_spec l x). Qed.
Print Assumptions C36_membership.
Theorem C36_index_of (l : list id) (x : id) (start : nat) (i : nat) :
  (index_of l x start = Some i <->
     start <= i /\ nth_error l i = Some x /\ forall k, start <= k < i -> nth_error l k <> Some x) /\
  (index_of l x start = None <-> forall k, start <= k -> nth_error l k <> Some x).
Proof.
  pose proof (index_of_spec l x start) as H. destruct (index_of l x start) as [j|].
  - destruct H as (H1 & H2 & H3). split.
    + split; [intros [= <-]; repeat split; assumption|]. intros (A & B & C). f_equal.
      destruct (Nat.lt_trichotomy i j) as [Hij | [-> | Hij]]; [|reflexivity|].
      * destruct (H3 i (conj A Hij) B).
      * destruct (C j (conj H1 Hij) H2).
    + split; [discriminate|]. intros A. destruct (A j H1 H2).
  - split; [split; [discriminate|] | split; [intros _; exact H | reflexivity]].
    intros (A & B & _). destruct (H i A B).
Qed.
Print Assumptions C36_index_of.
Example C36_ex : index_of [4; 7; 4; 9] 4 1 = Some 2 /\ index_of [4; 7] 5 0 = None /\ includes [4; 7] 7 = true.
Proof. repeat split. Qed.

(** C09 / C10 for closures: the handle sees position and element. *)
Theorem C09_filter_by_not_by (f : nat -> id -> bool) (l : list id) :
  let tagged := combine (seq 0 (length l)) l in
  filter_by f l = map snd (filter (fun p => f (fst p) (snd p)) tagged) /\
  not_by f l = map snd (filter (fun p => negb (f (fst p) (snd p))) tagged) /\
  Permutation (filter_by f l ++ not_by f l) l.
Proof.
  cbn zeta. unfold filter_by, not_by. rewrite filter_by_combine, not_by_combine. split; [reflexivity|]. split; [reflexivity|].
  rewrite <- map_app. assert (E : l = map snd (combine (seq 0 (length l)) l)).
  { clear. generalize 0. induction l as [|x l IH]; intros k; [reflexivity|]. cbn. rewrite <- IH. reflexivity. }
  rewrite E at 5. apply Permutation_map. generalize (combine (seq 0 (length l)) l). clear.
  induction l as [|p l IH]; [reflexivity|]. cbn. destruct (f (fst p) (snd p)); cbn.
  - constructor. exact IH.
  - rewrite <- Permutation_middle. constructor. exact IH.
Qed.
Print Assumptions C09_filter_by_not_by.
Theorem C10_is_by (f : nat -> id -> bool) (l : list id) :
  (is_by f l = true <-> filter_by f l <> []) /\ (is_all_by f l = true <-> filter_by f l = l).
Proof.
  unfold is_by, is_all_by, filter_by. generalize 0. induction l as [|x l IH]; intros i; cbn.
  - split; [split; congruence | split; reflexivity].
  - destruct (IH (S i)) as [H1 H2]. destruct (f i x).
    + split; [split; congruence|]. rewrite H2. split; [intros ->; reflexivity | intros [= E]; exact E].
    + split; [exact H1|]. split; [discriminate|]. intros E. exfalso.
      assert (Hlen : forall k m, length (filter_by_from f k m) <= length m).
      { clear. intros k m. revert k. induction m as [|y m IH]; intros k; cbn; [lia|]. specialize (IH (S k)). destruct (f k y); cbn; lia. }
      pose proof (Hlen (S i) l). rewrite E in H. cbn in H. lia.
Qed.
Print Assumptions C10_is_by.
Example C09_by_ex : filter_by (fun i x => Nat.eqb i x) [0; 5; 2] = [0; 2] /\ not_by (fun i x => Nat.eqb i x) [0; 5; 2] = [5].
Proof. split; reflexivity. Qed.

(** C09 / C10 for another set, both in document order. *)
Theorem C09_filter_in_not_in (h : heap) (r : id) (l search : list id) : WF h -> DocSet h r l -> DocSet h r search ->
  filter_in l search = filter (fun x => if in_dec Nat.eq_dec x search then true else false) l /\
  not_in l search = filter (fun x => if in_dec Nat.eq_dec x search then false else true) l.
Proof.
  intros wf Hl Hs. pose proof (docset_sorted h r l Hl) as Sl. pose proof (docset_sorted h r search Hs) as Ss.
  assert (Hi : forall x, includes search x = if in_dec Nat.eq_dec x search then true else false).
  { intros x. destruct (in_dec Nat.eq_dec x search) as [H | H]; [apply includes_spec; exact H|].
    apply not_true_is_false. rewrite includes_spec. exact H. }
  assert (Hp : Passed search 0 l) by (intros x i _ _; lia). split.
  - unfold filter_in. rewrite (filter_in_sorted (TreeBefore h r) (treebefore_irrefl h r wf) (treebefore_trans h r wf) search Ss l 0 Sl Hp).
    apply filter_ext. exact Hi.
  - unfold not_in. rewrite (not_in_sorted (TreeBefore h r) (treebefore_irrefl h r wf) (treebefore_trans h r wf) search Ss l 0 Sl Hp).
    apply filter_ext. intros x. rewrite Hi. destruct (in_dec Nat.eq_dec x search); reflexivity.
Qed.
Print Assumptions C09_filter_in_not_in.
Theorem C10_is_in (l search : list id) : is_in l search = true <-> exists x, In x l /\ In x search.
Proof. exact (is_in_spec l search). Qed.
Print Assumptions C10_is_in.
Theorem C10_is_all_in (h : heap) (r : id) (l search : list id) : WF h -> DocSet h r l -> DocSet h r search ->
  (is_all_in l search = true <-> forall x, In x l -> In x search).
Proof.
  intros wf Hl Hs. rewrite (is_all_in_sorted (TreeBefore h r) (treebefore_irrefl h r wf) (treebefore_trans h r wf) l search
    (docset_sorted h r l Hl) (docset_sorted h r search Hs)).
  rewrite forallb_forall. split; intros H x Hx; apply includes_spec, H, Hx.
Qed.
Print Assumptions C10_is_all_in.
Example C09_in_ex : DocSet ex_doc 0 [1; 2; 5] /\ DocSet ex_doc 0 [2; 4; 5; 6] /\
  filter_in [1; 2; 5] [2; 4; 5; 6] = [2; 5] /\ not_in [1; 2; 5] [2; 4; 5; 6] = [1] /\ is_all_in [2; 5] [2; 4; 5; 6] = true.
Proof.
  split; [apply docset_check_sound; vm_compute; reflexivity|]. split; [apply docset_check_sound; vm_compute; reflexivity|].
  repeat split.
Qed.
(** Out of document order the single pass misses members. *)
Theorem C09_filter_in_unordered_refuted : exists l search x, In x l /\ In x search /\ ~ In x (filter_in l search) /\ In x (not_in l search).
Proof. exists [2; 1], [1; 2], 1. vm_compute. intuition discriminate. Qed.
Print Assumptions C09_filter_in_unordered_refuted.

(** C37: pointer based set operations never confuse elements, whatever documents they come from ... *)
Theorem C37_in_operations_sound (l search : list id) (x : id) :
  (In x (filter_in l search) -> In x l /\ In x search) /\
  (In x l -> ~ In x search -> In x (not_in l search)) /\
  (is_in l search = true <-> exists y, In y l /\ In y search).
Proof.
  split; [exact (filter_in_sound search l 0 x)|]. split; [exact (not_in_complete search l 0 x) | exact (is_in_spec l search)].
Qed.
Print Assumptions C37_in_operations_sound.
(** ... but [add] and the sibling de-duplication compare index paths, so that elements of two documents at the
    same place are taken for one. *)
Definition ex_docs : heap := docs2 [el "a" []] [el "b" [el "x" []; el "y" []]].
Theorem C37_cross_document_refuted : exists h a b l x, WF h /\ add h a b = Ok l /\ In x b /\ ~ In x l /\
  (forall y, In y a -> y <> x) /\ InTree h 0 1 /\ In 1 a /\ InTree h 2 x.
Proof.
  exists ex_docs, [1], [3], [1], 3. split; [apply wf_check_sound; vm_compute; reflexivity|].
  split; [vm_compute; reflexivity|]. split; [left; reflexivity|]. split; [intros [H | []]; discriminate|].
  split; [intros y [<- | []]; discriminate|].
  split; [apply intree_check_sound with (fuel := 9); vm_compute; reflexivity|]. split; [left; reflexivity|].
  apply intree_check_sound with (fuel := 9); vm_compute; reflexivity.
Qed.
Print Assumptions C37_cross_document_refuted.
Theorem C37_unique_sibling_refuted : exists h l l' x, WF h /\ unique_sibling_first h l = Ok l' /\
  In x l /\ ~ In x l' /\ forall y p q, In y l -> y <> x -> parent h x = Some p -> parent h y = Some q -> p <> q.
Proof.
  exists ex_docs, [1; 3], [1], 3. split; [apply wf_check_sound; vm_compute; reflexivity|].
  split; [vm_compute; reflexivity|]. split; [right; left; reflexivity|]. split; [intros [H | []]; discriminate|].
  intros y p q [<- | [<- | []]] Hne; [|congruence]. vm_compute. intros [= <-] [= <-]. discriminate.
Qed.
Print Assumptions C37_unique_sibling_refuted.
