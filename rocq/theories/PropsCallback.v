(** Property theorems: callbacks that modify the tree they are called from (C67). *)
From Verif Require Import Base Utils Attr Dom DomSpec DomProofs Sets SetsProofs Mutate MutateSpec MutateProofs InsertProofs HistoryProofs DomBuild DomBuildProofs
  PropsSets PropsMutate PropsAttr Html HtmlSpec Live LiveSpec LiveProofs PropsFilter PropsLive Borrow BorrowSpec BorrowProofs ClassOps BorrowSets BorrowSetsProofs
  PropsBorrow Callback CallbackSpec CallbackProofs CallbackAny.

(** * C67: attribute and class calls from a walk *)
(** On any nodes, the one walked over included, also inside other walks ([rs]: the nodes these read): never a clash; the
    callbacks have the effect of the same calls made one child after the other. *)
Theorem C67_children_attrs o oa parse (k : id -> list scall) x rs h : (forall c, Forall AttrCall (k c)) -> NodesRead rs ->
  b_children_by x (fun c => s_calls o oa parse (k c)) (mkGuards [] rs) h =
    silent (rfold (fun h c => run_calls o oa parse h (map plain_s (k c))) (children h x) h).
Proof. exact (fun Hk Hr => children_by_eq o oa parse k Hk x rs h Hr). Qed.
Print Assumptions C67_children_attrs.
(** The walk from a position, up to the child at which the callback says to stop. *)
Theorem C67_since_attrs o oa parse (k : id -> list scall) (go : id -> bool) x i (reverse : bool) rs h :
  (forall c, Forall AttrCall (k c)) -> NodesRead rs ->
  (if reverse then S i <= length (kids h x) else i <= length (kids h x)) ->
  exists r, Reached go (filter (is_element h) (if reverse then rev (firstn (S i) (kids h x)) else skipn i (kids h x))) r /\
    b_since_by x i reverse (fun c => s_calls o oa parse (k c) ;; ret (go c)) (mkGuards [] rs) h =
      silent (rfold (fun h c => run_calls o oa parse h (map plain_s (k c))) r h).
Proof.
  intros Hk Hr Hi. destruct (reached_exists go (filter (is_element h) (if reverse then rev (firstn (S i) (kids h x)) else skipn i (kids h x)))) as (r & Hw).
  exists r. split; [exact Hw|]. exact (since_by_eq o oa parse k Hk go x i reverse rs h r Hr Hi Hw).
Qed.
Print Assumptions C67_since_attrs.
(** Positions outside the list: a panic, not a clash, whatever the callback; a node without a child list is passed over. *)
Theorem C67_since_outside x i (reverse : bool) k rs h :
  (childs h x = None -> b_since_by x i reverse k (mkGuards [] rs) h = BOk (h, tt)) /\
  (childs h x <> None -> (if reverse then length (kids h x) < S i else length (kids h x) < i) -> b_since_by x i reverse k (mkGuards [] rs) h = BFault).
Proof.
  unfold b_since_by, holding_ref. cbn [g_mut g_ref existsb]. rewrite bind_eq. unfold see, kids, childs.
  destruct (n_childs (node_of h x)) as [cs|]; [|split; [reflexivity | congruence]]. split; [discriminate|]. intros _ Hi.
  destruct reverse.
  - replace (S i <=? length cs) with false by (symmetry; apply Nat.leb_gt; exact Hi). reflexivity.
  - replace (i <=? length cs) with false by (symmetry; apply Nat.leb_gt; exact Hi). reflexivity.
Qed.
Print Assumptions C67_since_outside.

(** * C67: removals *)
(** While the nodes [rs] are being read: a node in its place can be removed iff none of them is its parent or a sibling
    behind it; then the outcome is that without guards. *)
Theorem C67_remove o oa parse h c rs : WF h -> (exists p, Child h p c) ->
  (b_call o oa parse (BTree (ORemove c)) (mkGuards [] rs) h = BClash <-> exists y, In (CNode y) rs /\ Touched h c y) /\
  ((forall y, In (CNode y) rs -> ~ Touched h c y) ->
   b_call o oa parse (BTree (ORemove c)) (mkGuards [] rs) h = silent (run_call o oa parse h (KTree (ORemove c)))).
Proof.
  intros wf (p & i & Hl). cbn [b_call b_op run_call run_op].
  destruct (remove_reading h c p i rs wf Hl) as [(E & y & Hy & Ht) | (E & H)]; rewrite E; split.
  - split; [intros _; exists y; split; assumption | reflexivity].
  - intros H. exfalso. exact (H y Hy Ht).
  - split; [intros E'; exfalso; exact (silent_not_clash _ E') | intros (y & Hy & Ht); exfalso; exact (H y Hy Ht)].
  - intros _. reflexivity.
Qed.
Print Assumptions C67_remove.
(** Removing the children of a node from the walk over them: always a clash when there is one, at the first. *)
Theorem C67_children_removal x rs h : WF h ->
  (b_children_by x b_remove_one (mkGuards [] rs) h = BClash <-> children h x <> []) /\
  (children h x = [] -> b_children_by x b_remove_one (mkGuards [] rs) h = BOk (h, tt)).
Proof.
  intros wf. rewrite (children_remove x rs h wf). destruct (children h x); split.
  - split; [discriminate | congruence].
  - reflexivity.
  - split; [discriminate | reflexivity].
  - discriminate.
Qed.
Print Assumptions C67_children_removal.

(** * C67: any modifying calls from a walk *)
(** While the nodes [rs] are being read, any program of modifying calls either ends in a clash or has the outcome it has
    otherwise, and then it left these nodes as they were, tag data apart: a walk is never led astray by its callback. *)
Theorem C67_any o oa parse l rs h :
  (s_calls o oa parse l (mkGuards [] rs) h = BClash \/ s_calls o oa parse l (mkGuards [] rs) h = s_calls o oa parse l no_guards h) /\
  (forall h' u, s_calls o oa parse l (mkGuards [] rs) h = BOk (h', u) -> forall y, y < length h -> In (CNode y) rs -> SameFields h h' y).
Proof.
  split.
  - exact (proj1 (fr_scalls [] o oa parse l [] [] h (fun x (F : In x []) => match F with end) (fun c (F : In c []) => match F with end)) rs).
  - intros h' u E. exact (proj2 (proj2 (fr_scalls [] o oa parse l [] rs h (fun x (F : In x []) => match F with end) (fun c (F : In c []) => match F with end)) h' u E)).
Qed.
Print Assumptions C67_any.
(** The walk itself: a clash, or what running the callback on the children one after the other gives; in the latter case the
    node still has these children, and no node read around it has changed. *)
Theorem C67_children_any o oa parse (k : id -> list scall) x rs h :
  let one c := (let! t := b_node_type c in match t with NTag => s_calls o oa parse (k c) | _ => ret tt end) in
  (b_children_by x (fun c => s_calls o oa parse (k c)) (mkGuards [] rs) h = BClash \/
   b_children_by x (fun c => s_calls o oa parse (k c)) (mkGuards [] rs) h = each (kids h x) one no_guards h) /\
  (forall h' u, b_children_by x (fun c => s_calls o oa parse (k c)) (mkGuards [] rs) h = BOk (h', u) ->
     forall y, y < length h -> y = x \/ In (CNode y) rs -> SameFields h h' y).
Proof.
  intros one. set (m := each (kids h x) one).
  assert (Hm : forall X, Framed X m).
  { intros X. apply fr_each. intros c. apply fr_bind; [apply fr_node_type|]. intros t. destruct t; try apply fr_ret. apply fr_scalls. }
  assert (E : forall g, g_mut g = [] -> b_children_by x (fun c => s_calls o oa parse (k c)) g h = m (mkGuards [] (CNode x :: g_ref g)) h).
  { intros g Eg. unfold b_children_by, holding_ref. rewrite Eg. cbn [existsb]. rewrite bind_eq. unfold see, m, kids, childs.
    destruct (n_childs (node_of h x)); reflexivity. }
  rewrite (E (mkGuards [] rs) eq_refl). cbn [g_ref]. split.
  - exact (proj1 (Hm [] [] [] h (fun x (F : In x []) => match F with end) (fun c (F : In c []) => match F with end)) (CNode x :: rs)).
  - intros h' u E' y Hy Hin. apply (proj2 (proj2 (Hm [] [] (CNode x :: rs) h (fun x (F : In x []) => match F with end) (fun c (F : In c []) => match F with end)) h' u E') y Hy).
    destruct Hin as [-> | Hin]; [left; reflexivity | right; exact Hin].
Qed.
Print Assumptions C67_children_any.
(** Walking over a: each child gets new contents, e a new text, a itself a class.  Moving b out of a is a clash; walking over
    c, moving e into its child d is none. *)
Definition ex_inside (c : id) : list scall := [SOne (BHtml c (lit "<i>x</i>y")); SOne (BTree (OSetText 6 (lit "z"))); SAddClass [1] (lit "u")].
Example C67_any_ex :
  (exists h', b_children_by 1 (fun c => s_calls ex_od ex_oracle toy (ex_inside c)) no_guards ex_doc = BOk (h', tt) /\
    kids h' 1 = [2; 3; 4] /\ length (kids h' 2) = 2 /\ length (kids h' 4) = 2 /\ length (kids h' 6) = 1 /\ class_after h' 1 <> class_after ex_doc 1) /\
  b_children_by 1 (fun c => s_calls ex_od ex_oracle toy [SOne (BTree (OInsert 4 BeforeEnd 2))]) no_guards ex_doc = BClash /\
  (exists h', b_children_by 4 (fun c => s_calls ex_od ex_oracle toy [SOne (BTree (OInsert 5 BeforeEnd 6))]) no_guards ex_doc = BOk (h', tt) /\
    kids h' 4 = [5] /\ kids h' 5 = [6] /\ kids h' 0 = [1]).
Proof.
  split; [eexists; split; [vm_compute; reflexivity|]; do 4 (split; [reflexivity|]); vm_compute; discriminate|].
  split; [vm_compute; reflexivity|]. eexists. split; [vm_compute; reflexivity | repeat split].
Qed.

(** * C67: for_each *)
(** Any modifying calls from [for_each]: the same as the program of these calls, up to the member at which the callback
    says to stop; so it never clashes where the program is one of C62. *)
Theorem C67_for_each o oa parse (k : nat * id -> list scall) (go : nat * id -> bool) l g h :
  exists r, Reached go (combine (seq 0 (length l)) l) r /\
    b_for_each l (fun i x => s_calls o oa parse (k (i, x)) ;; ret (go (i, x))) g h = s_calls o oa parse (flat_map k r) g h /\
    (WF h -> CallsOk o oa parse h (map plain_s (flat_map k r)) ->
     b_for_each l (fun i x => s_calls o oa parse (k (i, x)) ;; ret (go (i, x))) no_guards h =
       silent (run_calls o oa parse h (map plain_s (flat_map k r)))).
Proof.
  destruct (reached_exists go (combine (seq 0 (length l)) l)) as (r & Hr). exists r. split; [exact Hr|]. unfold b_for_each.
  split; [exact (for_each_eq o oa parse k go l 0 r g h Hr)|]. intros wf Hc.
  rewrite (for_each_eq o oa parse k go l 0 r no_guards h Hr). exact (scalls_eq o oa parse (flat_map k r) h wf Hc).
Qed.
Print Assumptions C67_for_each.

(** [ex_doc]: root 0, a 1, b 2, text 3, c 4, d 5, e 6. *)
Definition ex_mark (c : id) : list scall := [SAddClass [c; 1] (lit "u"); SToggleClass [1] (lit "v")].
Example C67_attrs_ex : (forall c, Forall AttrCall (ex_mark c)) /\ NodesRead [CNode 1; CNode 0] /\ children ex_doc 1 = [2; 4] /\
  (exists h', b_children_by 1 (fun c => s_calls ex_od ex_oracle toy (ex_mark c)) (mkGuards [] [CNode 1; CNode 0]) ex_doc = BOk (h', tt) /\
    class_after h' 1 = Ok (Some (AV (lit "u") (Some 34%N))) /\ class_after h' 2 = Ok (Some (AV (lit "u") (Some 34%N))) /\
    class_after h' 4 = Ok (Some (AV (lit "u") (Some 34%N))) /\ class_after h' 6 = Ok None) /\
  b_children_by 1 (fun c => s_calls ex_od ex_oracle toy (ex_mark c)) (mkGuards [] [CMeta 1]) ex_doc = BClash /\
  (exists h', b_since_by 1 2 true (fun c => s_calls ex_od ex_oracle toy (ex_mark c) ;; ret (negb (Nat.eqb c 4))) (mkGuards [] []) ex_doc = BOk (h', tt) /\
    class_after h' 4 = Ok (Some (AV (lit "u") (Some 34%N))) /\ class_after h' 2 = Ok None) /\
  childs ex_doc 1 <> None /\ length (kids ex_doc 1) = 3 /\
  b_since_by 1 3 true (fun c => ret true) no_guards ex_doc = BFault /\ b_since_by 1 3 false (fun c => ret true) no_guards ex_doc = BOk (ex_doc, tt).
Proof.
  split; [intros c; repeat constructor|]. split; [intros x [E | [E | []]]; discriminate|]. split; [reflexivity|].
  split; [eexists; split; [vm_compute; reflexivity | repeat split]|]. split; [vm_compute; reflexivity|].
  split; [eexists; split; [vm_compute; reflexivity | repeat split]|]. split; [discriminate|]. repeat split; vm_compute; reflexivity.
Qed.
(** While a is read: its child b cannot be removed, its grandchild d and a itself can; while c is read, b cannot, being in
    front of it. *)
Example C67_remove_ex : WF ex_doc /\ Child ex_doc 1 2 /\ Child ex_doc 4 5 /\ Child ex_doc 0 1 /\
  Touched ex_doc 2 1 /\ Touched ex_doc 2 4 /\ ~ Touched ex_doc 5 1 /\ ~ Touched ex_doc 1 1 /\
  b_remove_one 2 (mkGuards [] [CNode 1]) ex_doc = BClash /\ b_remove_one 2 (mkGuards [] [CNode 4]) ex_doc = BClash /\
  (exists h', b_remove_one 5 (mkGuards [] [CNode 1]) ex_doc = BOk (h', tt) /\ kids h' 4 = []) /\
  (exists h', b_remove_one 1 (mkGuards [] [CNode 1]) ex_doc = BOk (h', tt) /\ kids h' 0 = [6]) /\
  children ex_doc 1 <> [] /\ children ex_doc 5 = [].
Proof.
  split; [exact ex_doc_wf|]. split; [exists 0; reflexivity|]. split; [exists 0; reflexivity|]. split; [exists 0; reflexivity|].
  split. { exists 1, 0. split; [reflexivity | left; reflexivity]. }
  split. { exists 1, 0. split; [reflexivity|]. right. exists 2. split; [lia | reflexivity]. }
  assert (U : forall p i q j c, Listed ex_doc p i c -> Listed ex_doc q j c -> p = q /\ i = j).
  { intros p i q j c H1 H2. destruct (wf_listed _ ex_doc_wf _ _ _ H1) as (_ & P1 & I1), (wf_listed _ ex_doc_wf _ _ _ H2) as (_ & P2 & I2). split; congruence. }
  split. { intros (p & i & Hl & H). destruct (U p i 4 0 5 Hl eq_refl) as (-> & ->). destruct H as [H | (j & Hj & H)]; [discriminate|].
    destruct (U 4 j 0 0 1 H eq_refl) as (E & _). discriminate. }
  split. { intros (p & i & Hl & H). destruct (U p i 0 0 1 Hl eq_refl) as (-> & ->). destruct H as [H | (j & Hj & H)]; [discriminate|].
    destruct (U 0 j 0 0 1 H eq_refl) as (_ & E). lia. }
  split; [vm_compute; reflexivity|]. split; [vm_compute; reflexivity|]. split; [eexists; split; vm_compute; reflexivity|].
  split; [eexists; split; vm_compute; reflexivity|]. split; [discriminate | reflexivity].
Qed.
(** [for_each] over b, d, e: each is moved into c and marked; stopped at the second member. *)
Definition ex_move (p : nat * id) : list scall := [SOne (BTree (OInsert 4 BeforeEnd (snd p))); SAddClass [snd p; 4] (lit "u")].
Example C67_for_each_ex : WF ex_doc /\ Reached (fun p => Nat.ltb (fst p) 1) (combine (seq 0 3) [2; 5; 6]) [(0, 2); (1, 5)] /\
  CallsOk ex_od ex_oracle toy ex_doc (map plain_s (flat_map ex_move [(0, 2); (1, 5)])) /\
  exists h', b_for_each [2; 5; 6] (fun i x => s_calls ex_od ex_oracle toy (ex_move (i, x)) ;; ret (Nat.ltb (fst (i, x)) 1)) no_guards ex_doc = BOk (h', tt) /\
    kids h' 1 = [3; 4] /\ kids h' 4 = [2; 5] /\ kids h' 0 = [1; 6] /\ class_after h' 5 = Ok (Some (AV (lit "u") (Some 34%N))) /\ class_after h' 6 = Ok None.
Proof.
  split; [exact ex_doc_wf|]. split; [apply R_go; [reflexivity | apply R_stop; reflexivity]|]. split.
  - cbn [map flat_map ex_move app snd plain_s plain CallsOk CallOk].
    split; [split; [apply (PropsMutate.placed_check _ _ 1); reflexivity | split; [apply (PropsMutate.placed_check _ _ 1); reflexivity | reflexivity]]|].
    intros h1 E1. vm_compute in E1. injection E1 as <-. split; [repeat constructor|]. intros h2 E2. vm_compute in E2. injection E2 as <-.
    split; [split; [apply (PropsMutate.placed_check _ _ 1); reflexivity | split; [apply (PropsMutate.placed_check _ _ 4); reflexivity | reflexivity]]|].
    intros h3 E3. vm_compute in E3. injection E3 as <-. split; [repeat constructor|]. intros h4 _. exact I.
  - eexists. split; [vm_compute; reflexivity | repeat split].
Qed.
