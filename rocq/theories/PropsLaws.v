(** Property theorems: different calls that ask the same question give the same answer (C61). *)
From Verif Require Import Base Attr Dom DomSpec Order OrderSpec DomProofs OrderProofs Sets SetsProofs DomBuild DomBuildProofs Mutate
  Engine Rules Regex Parse PropsParse Traverse Query SelSpec FindSpec TravSpec PreProofs SelBool SelectProofs SibLists SibProofs StepProofs FilterProofs TravProofs SelBuild FindProofs FindBuild StepWalk
  PropsFilter PropsFind PropsTrav PropsSetTrav.

(** * C61: is and filter *)
Section IsFilter.
  Variable h : heap.
  Lemma merge_nonempty b : forall a i mids l, a <> [] -> add_merge b i a mids = Ok l -> l <> [].
  Proof.
    intros [|x a] i mids l Hn E; [congruence|]. cbn [add_merge] in E. destruct (span_at i mids) as [now later]. apply rbind_ok in E as (l1 & _ & E). apply rbind_ok in E as (l2 & _ & E). injection E as <-.
    destruct l1; discriminate.
  Qed.
  Lemma add_nonempty a b l : add h a b = Ok l -> (l <> [] <-> a <> [] \/ b <> []).
  Proof.
    unfold add. destruct a as [|x a]; [intros E; injection E as <-; split; [right; assumption | intros [H|H]; [congruence | exact H]]|].
    destruct b as [|y b]; [intros E; injection E as <-; split; [left; discriminate | intros _; discriminate]|].
    intros E. apply rbind_ok in E as (ka & _ & E). apply rbind_ok in E as (kb & _ & E). apply rbind_ok in E as (mids & _ & E). apply merge_nonempty in E; [|discriminate]. split; [left; discriminate | intros _; exact E].
  Qed.
  Lemma loops_agree els s : forall root result l b, filter_loop h els false root result s = Ok (l, b) ->
    (result <> [] -> l <> []) /\ forall result', result = [] -> exists l', filter_loop h els true root result' s = Ok (l', nonempty l).
  Proof.
    induction s as [|p s IH]; intros root result l b E; cbn [filter_loop] in *.
    - injection E as <- <-. split; [intros H; exact H|]. intros result' ->. exists result'. reflexivity.
    - apply rbind_ok in E as ([filtered root'] & Ep & E). rewrite Ep. cbn [rbind]. destruct filtered as [|y filtered]; cbn [nonempty] in *.
      + destruct (IH _ _ _ _ E) as [H1 H2]. split; [exact H1 | exact H2].
      + apply rbind_ok in E as (result1 & Ea & E). assert (Hn : result1 <> []) by (apply (add_nonempty _ _ _ Ea); right; discriminate). destruct (IH _ _ _ _ E) as [H1 _]. pose proof (H1 Hn) as Hl. split; [intros _; exact Hl|].
        intros result' _. exists result'. destruct l; [congruence | reflexivity].
  Qed.
End IsFilter.
(** Whenever [filter] returns, [is] returns as well, and says whether [filter] kept something; the handler is called by both or neither.
    No condition on the tree, the set or the text. *)
Theorem C61_is_filter wide_digit h text_of by_id els s l e : filter_text wide_digit h text_of by_id els s = Ok (l, e) -> Query.is_text wide_digit h text_of by_id els s = Ok (nonempty l, e).
Proof.
  unfold filter_text, Query.is_text, trigger_method. destruct els as [|x els]; [intros E; injection E as <- <-; reflexivity|]. unfold parsed_or. intros E. apply rbind_ok in E as (p & Ep & E). rewrite Ep. cbn [rbind].
  destruct p as [gs|]; [|apply rbind_ok in E as (e' & Ee & E); injection E as <- <-; rewrite Ee; reflexivity].
  apply rbind_ok in E as (l' & El & E). injection E as -> <-. unfold filter_ast, filter_sel in El. cbn [nonempty] in El. apply rbind_ok in El as ([l1 b1] & El & E). cbn [fst] in E. injection E as ->.
  unfold filter_type_handle in El. apply rbind_ok in El as ([l2 b2] & El & E). injection E as -> ->.
  destruct (loops_agree h (x :: els) _ None [] l b1 El) as [_ H]. destruct (H [] eq_refl) as (l' & E'). unfold is_ast, is_sel, filter_type_handle. cbn [nonempty]. rewrite E'. reflexivity.
Qed.
Print Assumptions C61_is_filter.
Example C61_is_filter_ex : filter_text ascii_only sdoc stext (ids_of sdoc) [2; 4; 5] (lit "p.b") = Ok ([2; 5], []) /\ filter_text ascii_only sdoc stext (ids_of sdoc) [2; 4; 5] (lit "span") = Ok ([], []) /\
  filter_text ascii_only sdoc stext (ids_of sdoc) [2; 4; 5] (lit "a[") = Ok ([], [0]).
Proof. repeat split; vm_compute; reflexivity. Qed.

(** * C61: steps *)
Definition inverse (c : comb) : comb :=
  match c with Children => Parent | Parent => Children | Next => Prev | Prev => Next | NextAll => PrevAll | PrevAll => NextAll | c => c end.
Lemma rel_inverse h c x y : step_comb c = true -> c <> ParentAll -> is_element h x = true -> is_element h y = true -> (Rel h c x y <-> Rel h (inverse c) y x).
Proof.
  intros Hc Hp Hx Hy. destruct c; try discriminate; try congruence; cbn.
  - split; intros [H _]; split; assumption.
  - split; intros [H _]; split; assumption.
  - split; intros (p & i & j & H1 & H2 & H3 & _); exists p, i, j; repeat split; assumption.
  - split; intros (p & i & j & H1 & H2 & H3 & _ & H5); exists p, i, j; repeat split; assumption.
  - split; intros (p & i & j & H1 & H2 & H3 & _); exists p, i, j; repeat split; assumption.
  - split; intros (p & i & j & H1 & H2 & H3 & _ & H5); exists p, i, j; repeat split; assumption.
  - split; intros (p & i & j & H1 & H2 & H3 & _); exists p, j, i; (repeat split; try assumption); congruence.
Qed.
(** [children] and [parent], [next] and [prev], [next_all] and [prev_all], [siblings] and itself lead back. *)
Theorem C61_inverse h r text_of by_id c x y l l' : Walking h r by_id x -> Walking h r by_id y -> step_comb c = true -> c <> ParentAll ->
  step_ast h text_of by_id c [x] None = Ok l -> step_ast h text_of by_id (inverse c) [y] None = Ok l' -> (In y l <-> In x l').
Proof.
  intros Wx Wy Hc Hp El El'. destruct (C12_step h r text_of by_id c x Wx Hc) as (l1 & E1 & _ & H1). rewrite El in E1. injection E1 as <-.
  destruct (C12_step h r text_of by_id (inverse c) y Wy ltac:(destruct c; try discriminate; reflexivity)) as (l2 & E2 & _ & H2). rewrite El' in E2. injection E2 as <-.
  rewrite H1, H2. apply rel_inverse; [exact Hc | exact Hp | apply Wx | apply Wy].
Qed.
Print Assumptions C61_inverse.
(** The elements above [y], and the elements below [x] that [find("*")] gives. *)
Theorem C61_find_parents h r text_of by_id x y l l' : Walking h r by_id x -> Walking h r by_id y ->
  find_ast h text_of by_id [x] [[[(RAll, ChildrenAll)]]] = Ok l -> step_ast h text_of by_id ParentAll [y] None = Ok l' -> (In y l <-> In x l').
Proof.
  intros [D IC Hx] Wy El El'. destruct (C12_step h r text_of by_id ParentAll y Wy eq_refl) as (l2 & E2 & _ & H2). rewrite El' in E2. injection E2 as <-.
  assert (HS : Searching h r text_of by_id [x] [[(RAll, ChildrenAll)]]).
  { split; [exact D | exact IC | | reflexivity |].
    - intros cp [<- | []] rl c [E | []]. injection E as <- _. exact I.
    - split; [constructor; [split; [apply Hx | left; apply Hx] | constructor] | split; [constructor | exact I]]. }
  destruct (C05_find_static_partial h r text_of by_id x [[(RAll, ChildrenAll)]] SOrdered HS eq_refl) as (l1 & E1 & _ & _ & H1). rewrite El in E1. injection E1 as <-.
  rewrite H1, H2. cbn. unfold Step, CompHolds, DescEl. cbn. split.
  - intros [(s & [<- | []] & H & _) _]. split; [exact H | apply Hx].
  - intros [H _]. split; [exists x; split; [left; reflexivity | split; [exact H | apply Wy]]|]. intros P c [E | []]. injection E as <- _. exact I.
Qed.
Print Assumptions C61_find_parents.
(** [siblings] is [prev_all] followed by [next_all]; the element and its siblings are the children of the parent. *)
Theorem C61_siblings h r text_of by_id x : Walking h r by_id x ->
  exists a b, step_ast h text_of by_id PrevAll [x] None = Ok a /\ step_ast h text_of by_id NextAll [x] None = Ok b /\
    step_ast h text_of by_id Siblings [x] None = Ok (a ++ b) /\
    forall p l, parent h x = Some p -> is_element h p = true -> step_ast h text_of by_id Children [p] None = Ok l -> l = a ++ x :: b.
Proof.
  intros W. pose proof W as [D IC Hx]. pose proof (fun c Hc => step_ast_ok h r D text_of by_id IC c None x Hc Hx I) as HS. exists (preceding_list h x), (following_list h x).
  assert (HF : forall l : list id, filter (passesb h text_of None) l = l) by (intros l; apply filter_all; reflexivity).
  split; [rewrite HS, HF; reflexivity|]. split; [rewrite HS, HF; reflexivity|]. split; [rewrite HS, HF; reflexivity|].
  intros p l Ep Hp El. destruct (el_parent h r D x Hx) as (q & E & Hq & Hl). rewrite E in Ep. injection Ep as ->.
  rewrite (step_ast_ok h r D text_of by_id IC Children None p eq_refl (conj Hq Hp) I), HF in El. injection El as <-.
  cbn [step_list]. unfold preceding_list, following_list. rewrite E. unfold children.
  rewrite <- (firstn_skipn (index h x) (kids h p)) at 1. rewrite filter_app. f_equal.
  unfold Listed in Hl. assert (Es : skipn (index h x) (kids h p) = x :: skipn (S (index h x)) (kids h p)).
  { revert Hl. generalize (kids h p). generalize (index h x). clear. induction n as [|n IH]; intros [|y l] Hl; try discriminate; cbn in Hl; [injection Hl as ->; reflexivity | exact (IH l Hl)]. }
  rewrite Es. cbn [filter]. rewrite (proj2 Hx). reflexivity.
Qed.
Print Assumptions C61_siblings.
Example C61_siblings_ex : Walking ndoc 0 (ids_of ndoc) 9 /\ parent ndoc 9 = Some 1 /\ step_ast ndoc stext (ids_of ndoc) Siblings [9] None = Ok [2; 11] /\
  step_ast ndoc stext (ids_of ndoc) Children [1] None = Ok [2; 9; 11] /\ step_ast ndoc stext (ids_of ndoc) Prev [9] None = Ok [2] /\ step_ast ndoc stext (ids_of ndoc) Next [2] None = Ok [9] /\
  nfind [5] [[[(RAll, ChildrenAll)]]] = Ok [6; 7; 8] /\ step_ast ndoc stext (ids_of ndoc) ParentAll [8] None = Ok [1; 2; 5; 6; 7].
Proof. split; [apply nwalking; vm_compute; reflexivity | repeat split; vm_compute; reflexivity]. Qed.
(** A walk [_until] a text that nothing on the way meets is the walk to the end. *)
Theorem C61_until_all h r text_of by_id c x stop contains : Walking h r by_id x -> unit_comb c = true -> AnyText h r text_of stop ->
  (forall z, Rel h (all_of c) x z -> ~ Tested h text_of stop z) ->
  until_ast h text_of by_id c [x] stop None contains = step_ast h text_of by_id (all_of c) [x] None.
Proof.
  intros W Hc HT HN. pose proof W as [D IC Hx]. assert (Hs : step_comb (all_of c) = true) by (destruct c; try discriminate; reflexivity).
  destruct (C13_until_tested h r text_of by_id c x stop None contains W Hc HT I) as (l & -> & Ho & Hl). destruct (C12_step h r text_of by_id (all_of c) x W Hs) as (l' & -> & Ho' & Hl'). f_equal.
  apply (ordered_unique h (do_wf h r D) r); [|exact Ho | exact Ho' |].
  - apply Forall_forall. intros y Hy. apply Hl in Hy. destruct Hy as [[Hy _] _]. exact (proj1 (rel_sym_el h r D _ x y Hs Hx Hy)).
  - intros y. rewrite Hl, Hl'. split; [intros [[H _] _]; exact H|]. intros H. split; [|exact I]. split; [exact H|]. split; [intros z Hz _; exact (HN z Hz) | right; exact (HN y H)].
Qed.
Print Assumptions C61_until_all.
Example C61_until_all_ex : Walking ndoc 0 (ids_of ndoc) 8 /\ AnyText ndoc 0 stext [[[(nm "i", ChildrenAll)]]] /\
  until_ast ndoc stext (ids_of ndoc) Parent [8] [[[(nm "i", ChildrenAll)]]] None false = Ok [1; 2; 5; 6; 7] /\
  until_ast ndoc stext (ids_of ndoc) Parent [8] [[[(nm "div", ChildrenAll)]]] None false = Ok [7].
Proof. split; [apply nwalking; vm_compute; reflexivity|]. split; [apply anytext; vm_compute; reflexivity | split; vm_compute; reflexivity]. Qed.

(** * C61: an argument text, and filtering afterwards *)
Lemma adds_ext h Bs : forall Bs' (A A' : id -> Prop), (forall x, A x <-> A' x) -> Forall2 (fun B B' : id -> Prop => forall x, B x <-> B' x) Bs Bs' -> AddsFree h A Bs -> AddsFree h A' Bs'.
Proof.
  induction Bs as [|B Bs IH]; intros Bs' A A' HA HF H; inversion HF as [|B0 B' Bs0 Bs1 HB HF']; subst; [exact I|]. destruct H as [[H1 H2] H3]. split; [split|].
  - intros [D1 (x & y & E1 & E2 & E3 & E4)]. apply H1. split; [intros z Hz; apply HB, D1, HA, Hz|]. exists x, y. split; [apply HA; exact E1|]. split; [intros z Hz; apply E2, HA, Hz|]. split; [apply HB; exact E3 | exact E4].
  - intros a b Oa Ob Ha Hb. apply (H2 a b Oa Ob); intros x; [rewrite Ha, HA; reflexivity | rewrite Hb, HB; reflexivity].
  - apply (IH Bs1 (fun x => A x \/ B x)); [intros x; rewrite HA, (HB x); reflexivity | exact HF' | exact H3].
Qed.
Lemma kept_ordered h (P : id -> Prop) l l' : Kept P l l' -> Ordered h l -> Ordered h l'.
Proof.
  induction 1 as [|x l l' _ HK IH|x l l' _ HK IH]; intros Ho; [exact I | | apply IH, Ho]. destruct Ho as [Hb Ho]. split; [|exact (IH Ho)].
  rewrite Forall_forall in *. intros y Hy. apply (kept_in _ _ _ HK) in Hy. apply Hb, Hy.
Qed.
(** Full claim: for every text.  Missing: see C12_step_filter_partial. *)
Theorem C61_step_filter_partial h r text_of by_id c x gs : Walking h r by_id x -> step_comb c = true -> FltOk h r text_of c (Some gs) x ->
  exists l0 l, step_ast h text_of by_id c [x] None = Ok l0 /\ step_ast h text_of by_id c [x] (Some gs) = Ok l /\ filter_ast h text_of by_id l0 gs = Ok l.
Proof.
  intros W Hc HF. pose proof W as [D IC Hx]. destruct (C12_step h r text_of by_id c x W Hc) as (l0 & E0 & O0 & H0). destruct (C12_step_filter_partial h r text_of by_id c x gs W Hc HF) as (l & E & O & H).
  exists l0, l. split; [exact E0|]. split; [exact E|]. destruct HF as (Hok & Hw & _ & _ & HU).
  assert (He : Forall (ElIn h r) l0) by (apply Forall_forall; intros y Hy; apply H0 in Hy; exact (rel_sym_el h r D c x y Hc Hx Hy)).
  destruct (C09_filter_not_partial h r text_of by_id l0 gs (mkSetting h r text_of by_id gs D IC Hok Hw) He O0) as (k & _ & Ek & HK & _).
  - revert HU. apply adds_ext; [reflexivity|]. clear - H0. induction gs as [|g gs IH]; constructor; [|exact IH]. intros y. rewrite H0. reflexivity.
  - rewrite Ek. f_equal. apply (ordered_unique h (do_wf h r D) r).
    + apply Forall_forall. intros y Hy. apply (kept_in _ _ _ HK) in Hy. rewrite Forall_forall in He. exact (proj1 (He y (proj1 Hy))).
    + exact (kept_ordered h _ _ _ HK O0).
    + exact O.
    + intros y. rewrite (kept_in _ _ _ HK), H0, H. reflexivity.
Qed.
Print Assumptions C61_step_filter_partial.
Example C61_step_filter_ex : Walking ndoc 0 (ids_of ndoc) 1 /\ FltOk ndoc 0 stext Children (Some [[[(nm "b", ChildrenAll)]]]) 1 /\
  step_ast ndoc stext (ids_of ndoc) Children [1] None = Ok [2; 9; 11] /\ step_ast ndoc stext (ids_of ndoc) Children [1] (Some [[[(nm "b", ChildrenAll)]]]) = Ok [11].
Proof. split; [apply nwalking; vm_compute; reflexivity|]. split; [apply flt_check_sound; vm_compute; reflexivity | split; vm_compute; reflexivity]. Qed.
(** It is not so for every text: a compound before the last is looked for among the children as well, and [filter] looks at the whole document. *)
Theorem C61_step_filter_refuted : exists h r text_of by_id x gs l0 l l', Walking h r by_id x /\ TextOk h r text_of gs /\
  step_ast h text_of by_id Children [x] None = Ok l0 /\ step_ast h text_of by_id Children [x] (Some gs) = Ok l /\ filter_ast h text_of by_id l0 gs = Ok l' /\ l <> l'.
Proof.
  pose (gs := [[[(nm "body", ChildrenAll)]; [(nm "div", ChildrenAll)]]] : ast). exists ndoc, 0, stext, (ids_of ndoc), 1, gs. do 3 eexists.
  split; [apply nwalking; vm_compute; reflexivity|]. split; [apply textok; vm_compute; reflexivity|]. split; [vm_compute; reflexivity|]. split; [vm_compute; reflexivity|]. split; [vm_compute; reflexivity | vm_compute; discriminate].
Qed.
Print Assumptions C61_step_filter_refuted.

(** * C61: find *)
Section WalkMatch.
  Variable h : heap.
  Variable r : id.
  Hypothesis D : DocOk h r.
  Lemma walk_app ga : forall (S : id -> Prop) gb x, Walk h S (ga ++ gb) x <-> Walk h (Walk h S ga) gb x.
  Proof. induction ga as [|cp ga IH]; intros S gb x; [reflexivity | apply IH]. Qed.
  Lemma walk_in g : forall (S : id -> Prop), (forall s, S s -> InTree h r s) -> Forall (fun cp : pcompound => fwd (comp_comb cp) = true) g -> g <> [] -> forall x, Walk h S g x -> ElIn h r x.
  Proof.
    induction g as [|cp g IH]; intros S HS HF Hn x Hx; [congruence|]. inversion HF as [|? ? Hc HF']; subst. assert (HE : forall y, Step h S cp y -> ElIn h r y).
    { intros y [(s & Hs & HR) _]. exact (rel_el h r D _ s y (HS s Hs) Hc HR). }
    destruct g as [|cp' g]; [exact (HE x Hx)|]. apply (IH (Step h S cp)); [intros y Hy; apply HE, Hy | exact HF' | discriminate | exact Hx].
  Qed.
  (** Walking a selector from the document gives the elements that match it. *)
  Lemma walk_matches g x : Forall (fun cp : pcompound => fwd (comp_comb cp) = true) g -> group_desc g = true -> ElIn h r x -> (Walk h (fun s => In s [r]) g x <-> Matches h g x).
  Proof.
    revert x. induction g as [|cp g IH] using rev_ind; intros x HF Hd Hx; [discriminate|]. apply Forall_app in HF as [HF Hc]. apply Forall_inv in Hc. unfold Matches. rewrite walk_app, rev_app_distr. cbn [rev app Walk MatchRev]. unfold Step.
    destruct g as [|cp0 g].
    - cbn. split; [intros [_ H]; split; [exact H | exact I]|]. intros [H _]. split; [|exact H]. exists r. split; [left; reflexivity|]. cbn in Hd. destruct (comp_comb cp); try discriminate.
      split; [|apply Hx]. destruct (intree_top h r x (proj1 Hx)) as [E | E]; [|exact E]. exfalso. subst x. pose proof (do_root h r D) as E1. pose proof (proj2 Hx) as E2. unfold is_root in E1. unfold is_element in E2. destruct (ntype_of h r); discriminate.
    - assert (Hn : rev (cp0 :: g) <> []) by (cbn; destruct (rev g); discriminate). destruct (rev (cp0 :: g)) as [|a b] eqn:Er; [congruence|]. rewrite <- Er.
      assert (Hd' : group_desc (cp0 :: g) = true) by exact Hd. split.
      + intros [(y & Hy & HR) HC]. split; [exact HC|]. assert (Ey : ElIn h r y).
        { apply (walk_in (cp0 :: g) (fun s => In s [r])); [|exact HF | discriminate | exact Hy]. intros s [<- | []]. split; [exact (wf_root h (do_wf h r D) r (do_root h r D)) | exists []; constructor]. }
        exists y. split; [apply Ey|]. split; [exact HR|]. apply (IH y HF Hd' Ey). exact Hy.
      + intros [HC (y & Ey & HR & HM)]. split; [|exact HC]. exists y. split; [|exact HR]. apply (IH y HF Hd'); [|exact HM]. split; [|exact Ey]. exact (rel_intree h r D _ y x Hc (proj1 Hx) HR).
  Qed.
End WalkMatch.
Lemma preds_fwd h text_of g : group_wf g = true -> Forall (fun cp : pcompound => fwd (comp_comb cp) = true) (preds h text_of g).
Proof.
  unfold group_wf. rewrite andb_true_iff, forallb_forall. intros [_ H]. apply Forall_forall. intros cp Hc. unfold preds in Hc. apply in_map_iff in Hc as (c0 & <- & Hc). apply H in Hc.
  destruct c0 as [|[rl c] c0]; [discriminate|]. cbn in Hc |- *. apply andb_true_iff in Hc. apply Hc.
Qed.
Lemma preds_desc h text_of g : group_desc (preds h text_of g) = group_desc g.
Proof. destruct g as [|[|[rl c] cp] g]; reflexivity. Qed.
Lemma search_all h r text_of by_id x : DocOk h r -> IdCache h r by_id -> Start h r x ->
  exists l, find_ast h text_of by_id [x] [[[(RAll, ChildrenAll)]]] = Ok l /\ Ordered h l /\ forall y, In y l <-> DescEl h x y.
Proof.
  intros D IC Hx. assert (HS : Searching h r text_of by_id [x] [[(RAll, ChildrenAll)]]).
  { split; [exact D | exact IC | | reflexivity |].
    - intros cp [<- | []] rl c [E | []]. injection E as <- _. exact I.
    - split; [constructor; [exact Hx | constructor] | split; [constructor | exact I]]. }
  destruct (C05_find_static_partial h r text_of by_id x [[(RAll, ChildrenAll)]] SOrdered HS eq_refl) as (l & E & _ & Ho & H). exists l. split; [exact E|]. split; [apply Ho; discriminate|].
  intros y. rewrite H. cbn. unfold Step, CompHolds. cbn. split; [intros [(s & [<- | []] & Hy) _]; exact Hy|]. intros Hy. split; [exists x; split; [left; reflexivity | exact Hy]|].
  intros P c [E' | []]. injection E' as <- _. exact I.
Qed.
Lemma root_start h r : DocOk h r -> Start h r r.
Proof. intros D. split; [|right; reflexivity]. split; [exact (wf_root h (do_wf h r D) r (do_root h r D)) | exists []; constructor]. Qed.
(** Searching the document is filtering all of its elements.
    Full claim: for every selector.  Missing: several groups, and groups whose result is not in document order (see C05, C06). *)
Theorem C61_find_filter_partial h r text_of by_id g s : Searching h r text_of by_id [r] g -> group_desc g = true -> find_shape SLevel g = Some s -> s <> SAny ->
  exists l0 l, find_ast h text_of by_id [r] [[[(RAll, ChildrenAll)]]] = Ok l0 /\ find_ast h text_of by_id [r] [g] = Ok l /\ filter_ast h text_of by_id l0 [g] = Ok l.
Proof.
  intros HS Hd Hf Hn. pose proof HS as [D IC Hok Hw HT]. destruct (search_all h r text_of by_id r D IC (root_start h r D)) as (l0 & E0 & O0 & H0).
  destruct (C05_find_static_partial h r text_of by_id r g s HS Hf) as (l & E & _ & O & H). exists l0, l. split; [exact E0|]. split; [exact E|].
  assert (He : Forall (ElIn h r) l0).
  { apply Forall_forall. intros y Hy. apply H0 in Hy. destruct Hy as [Hy Hy']. split; [|exact Hy']. apply (intree_down h r r y (proj1 (root_start h r D))). right. exact Hy. }
  assert (HS' : Setting h r text_of by_id [g]).
  { split; [exact D | exact IC | intros g' [<- | []]; exact Hok | cbn; rewrite Hw, Hd; reflexivity]. }
  destruct (C09_filter_not_one_partial h r text_of by_id l0 g HS' He O0) as (k & _ & Ek & HK & _). rewrite Ek. f_equal.
  pose proof (preds_fwd h text_of g Hw) as HF. assert (Hnil : preds h text_of g <> []) by (destruct g; [discriminate Hw | discriminate]).
  apply (ordered_unique h (do_wf h r D) r).
  - apply Forall_forall. intros y Hy. apply (kept_in _ _ _ HK) in Hy. rewrite Forall_forall in He. exact (proj1 (He y (proj1 Hy))).
  - exact (kept_ordered h _ _ _ HK O0).
  - exact (O Hn).
  - intros y. rewrite (kept_in _ _ _ HK), H, H0. split.
    + intros [[Ha Hy] HM]. apply (walk_matches h r D); [exact HF | rewrite preds_desc; exact Hd | | exact HM]. split; [|exact Hy]. apply (intree_down h r r y (proj1 (root_start h r D))). right. exact Ha.
    + intros HM. assert (HR0 : forall s0, In s0 [r] -> InTree h r s0) by (intros s0 [<- | []]; apply (root_start h r D)). assert (Ey : ElIn h r y) by exact (walk_in h r D _ _ HR0 HF Hnil y HM).
      split; [|apply (walk_matches h r D); [exact HF | rewrite preds_desc; exact Hd | exact Ey | exact HM]]. split; [|apply Ey].
      destruct (intree_top h r y (proj1 Ey)) as [<- | Ha]; [|exact Ha]. exfalso. pose proof (do_root h r D) as E1. pose proof (proj2 Ey) as E2. unfold is_root in E1. unfold is_element in E2. destruct (ntype_of h r); discriminate.
Qed.
Print Assumptions C61_find_filter_partial.
Example C61_find_filter_ex : Searching ndoc 0 stext (ids_of ndoc) [0] [[(nm "div", ChildrenAll)]; [(cl "a", ChildrenAll)]] /\ find_shape SLevel [[(nm "div", ChildrenAll)]; [(cl "a", ChildrenAll)]] = Some SOrdered /\
  nfind [0] [[[(nm "div", ChildrenAll)]; [(cl "a", ChildrenAll)]]] = Ok [8].
Proof. split; [apply searching_root; vm_compute; reflexivity | split; vm_compute; reflexivity]. Qed.
(** A selector for which the two differ. *)
Theorem C61_find_filter_refuted : exists h r text_of by_id g l0 l l', Searching h r text_of by_id [r] g /\ group_desc g = true /\
  find_ast h text_of by_id [r] [[[(RAll, ChildrenAll)]]] = Ok l0 /\ find_ast h text_of by_id [r] [g] = Ok l /\ filter_ast h text_of by_id l0 [g] = Ok l' /\ l <> l'.
Proof.
  exists ndoc, 0, stext, (ids_of ndoc), [[(idr "y", ChildrenAll)]; [(idr "x", Children)]]. do 3 eexists. split; [apply searching_root; vm_compute; reflexivity|].
  split; [reflexivity|]. split; [vm_compute; reflexivity|]. split; [vm_compute; reflexivity|]. split; [vm_compute; reflexivity | vm_compute; discriminate].
Qed.
Print Assumptions C61_find_filter_refuted.

(** Searching in two goes.
    Full claim: for every pair of selectors.  Missing: results that are not in document order, and chains for which a rule reads the wrong siblings (see C05, C06). *)
Theorem C61_find_find_partial h r text_of by_id els ga gb s1 s2 s3 : Searching h r text_of by_id els ga -> GroupOk h r text_of gb -> group_wf gb = true ->
  find_shape SOrdered ga = Some s1 -> s1 <> SAny -> find_shape SOrdered gb = Some s2 -> find_shape SOrdered (ga ++ gb) = Some s3 ->
  exists l1 l2 l3, find_ast h text_of by_id els [ga] = Ok l1 /\ find_ast h text_of by_id l1 [gb] = Ok l2 /\ find_ast h text_of by_id els [ga ++ gb] = Ok l3 /\
    NoDup l2 /\ NoDup l3 /\ SameSet l2 l3 /\ (s2 <> SAny -> s3 <> SAny -> l2 = l3).
Proof.
  intros HS Hok Hw F1 N1 F2 F3. pose proof HS as [D IC Hok1 Hw1 HT]. destruct (C05_find_set_partial h r text_of by_id els ga s1 HS F1) as (l1 & E1 & _ & O1 & H1). specialize (O1 N1).
  pose proof (preds_fwd h text_of ga Hw1) as HF1. pose proof (preds_fwd h text_of gb Hw) as HF2.
  assert (Ha : ga <> []) by (destruct ga; [discriminate Hw1 | discriminate]). assert (Hb : gb <> []) by (destruct gb; [discriminate Hw | discriminate]).
  assert (Ha' : preds h text_of ga <> []) by (destruct ga; [congruence | discriminate]). assert (Hb' : preds h text_of gb <> []) by (destruct gb; [congruence | discriminate]).
  assert (HIn : forall s, In s els -> InTree h r s) by (intros s0 Hs; destruct HT as [HT _]; rewrite Forall_forall in HT; apply (HT s0 Hs)).
  assert (HE1 : forall y, In y l1 -> ElIn h r y). { intros y Hy. apply H1 in Hy. exact (walk_in h r D _ _ HIn HF1 Ha' y Hy). }
  assert (HS2 : Searching h r text_of by_id l1 gb).
  { split; [exact D | exact IC | exact Hok | exact Hw |]. split; [|exact O1]. apply Forall_forall. intros y Hy. split; [apply (HE1 y Hy) | left; apply (HE1 y Hy)]. }
  assert (HS3 : Searching h r text_of by_id els (ga ++ gb)).
  { split; [exact D | exact IC | | | exact HT].
    - intros cp Hc. apply in_app_iff in Hc as [Hc | Hc]; [exact (Hok1 cp Hc) | exact (Hok cp Hc)].
    - unfold group_wf in *. rewrite forallb_app. apply andb_true_iff in Hw1 as [_ ->]. apply andb_true_iff in Hw as [_ ->]. destruct ga; [congruence | reflexivity]. }
  destruct (C05_find_set_partial h r text_of by_id l1 gb s2 HS2 F2) as (l2 & E2 & N2 & O2 & H2). destruct (C05_find_set_partial h r text_of by_id els (ga ++ gb) s3 HS3 F3) as (l3 & E3 & N3 & O3 & H3).
  assert (HE : SameSet l2 l3).
  { intros y. rewrite H2, H3. unfold preds. rewrite map_app, walk_app. apply walk_pext. exact H1. }
  exists l1, l2, l3. split; [exact E1|]. split; [exact E2|]. split; [exact E3|]. split; [exact N2|]. split; [exact N3|]. split; [exact HE|]. intros n2 n3.
  apply (ordered_unique h (do_wf h r D) r); [|exact (O2 n2) | exact (O3 n3) | exact HE]. apply Forall_forall. intros y Hy. apply H2 in Hy.
  exact (proj1 (walk_in h r D _ _ (fun s0 Hs => proj1 (HE1 s0 Hs)) HF2 Hb' y Hy)).
Qed.
Print Assumptions C61_find_find_partial.
Example C61_find_find_ex : Searching ndoc 0 stext (ids_of ndoc) [1] [[(nm "div", ChildrenAll)]] /\ find_shape SOrdered [[(nm "div", ChildrenAll)]] = Some SOrdered /\
  find_shape SOrdered [[(cl "a", ChildrenAll)]] = Some SOrdered /\ find_shape SOrdered [[(nm "div", ChildrenAll)]; [(cl "a", ChildrenAll)]] = Some SOrdered /\
  nfind [1] [[[(nm "div", ChildrenAll)]]] = Ok [2; 3; 6] /\ nfind [2; 3; 6] [[[(cl "a", ChildrenAll)]]] = Ok [8].
Proof. split; [apply searching_sound; vm_compute; reflexivity | repeat split; vm_compute; reflexivity]. Qed.
(** [i] and then [> #x]: nothing in one go, [b#x] in two steps. *)
Theorem C61_find_find_refuted : exists h r text_of by_id els ga gb l1 l2 l3, Searching h r text_of by_id els ga /\ Searching h r text_of by_id els (ga ++ gb) /\
  find_ast h text_of by_id els [ga] = Ok l1 /\ Searching h r text_of by_id l1 gb /\ find_ast h text_of by_id l1 [gb] = Ok l2 /\ find_ast h text_of by_id els [ga ++ gb] = Ok l3 /\
  ~ SameSet l2 l3.
Proof.
  exists ndoc, 0, stext, (ids_of ndoc), [1], [[(nm "i", ChildrenAll)]], [[(idr "x", Children)]]. do 3 eexists. split; [apply searching_sound; vm_compute; reflexivity|].
  split; [apply searching_sound; vm_compute; reflexivity|]. split; [vm_compute; reflexivity|]. split; [apply searching_sound; vm_compute; reflexivity|]. split; [vm_compute; reflexivity|]. split; [vm_compute; reflexivity|].
  intros H. pose proof (H 11) as H11. vm_compute in H11. tauto.
Qed.
Print Assumptions C61_find_find_refuted.

(** * C61: has and find *)
(** For one compound, [has] keeps the elements from which [find] finds something.
    Full claim: for every selector.  Missing: chains; [has] accepts a chain whose first compounds lie outside the element, [find] does not (refuted below). *)
Theorem C61_has_find_partial h r text_of by_id els cp : Setting h r text_of by_id [[cp]] -> Forall (ElIn h r) els -> (forall x, In x els -> FindOk h text_of [x] [cp]) ->
  exists k, has_ast h text_of by_id els [[cp]] = Ok k /\ Kept (fun x => exists l, find_ast h text_of by_id [x] [[cp]] = Ok l /\ l <> []) els k.
Proof.
  intros HS He HF. pose proof HS as [D IC Hok Hw]. assert (HA : AllIn h r els) by (apply Forall_forall; rewrite Forall_forall in He; intros x Hx; apply (He x Hx)).
  destruct (C11_has_partial h r text_of by_id els [[cp]] HS HA) as (k & E & HK). exists k. split; [exact E|]. revert HK. apply kept_ext. intros x Hx. rewrite Forall_forall in He.
  cbn in Hw. rewrite !andb_true_iff in Hw. destruct Hw as [[[Hw _] Hd] _].
  assert (HX : Searching h r text_of by_id [x] [cp]).
  { split; [exact D | exact IC | apply Hok; left; reflexivity | unfold group_wf; cbn; rewrite Hw; reflexivity |]. split; [constructor; [exact (el_start h r x (He x Hx)) | constructor] | split; [constructor | exact I]]. }
  destruct (C05_find_partial h r text_of by_id [x] [cp] HX (HF x Hx)) as (l & El & Hl).
  assert (HM : forall y, reached h text_of [x] [cp] y <-> DescEl h x y /\ meets h text_of [[cp]] y).
  { intros y. assert (Ec : comp_comb (comp_preds h text_of cp) = ChildrenAll) by (destruct cp as [|[rl c] cp]; [discriminate|]; cbn in Hd |- *; destruct c; try discriminate; reflexivity).
    assert (Em : meets h text_of [[cp]] y <-> CompHolds (comp_preds h text_of cp) y).
    { split; [intros (g & [<- | []] & Hm & _); exact Hm | intros Hc; exists (preds h text_of [cp]); split; [left; reflexivity | split; [exact Hc | exact I]]]. }
    rewrite Em. cbn. unfold Step. change (map _ cp) with (comp_preds h text_of cp). rewrite Ec. cbn [Rel]. split; intros [H1 H2]; (split; [|exact H2]).
    - destruct H1 as (s & [<- | []] & H1). exact H1.
    - exists x. split; [left; reflexivity | exact H1]. }
  split.
  - intros (y & H1 & H2). exists l. split; [exact El|]. intros ->. apply (Hl y), HM. split; assumption.
  - intros (l' & El' & Hn). rewrite El in El'. injection El' as <-. destruct l as [|y l]; [congruence|]. exists y. apply HM, Hl. left. reflexivity.
Qed.
Print Assumptions C61_has_find_partial.
Example C61_has_find_ex : Setting ndoc 0 stext (ids_of ndoc) [[[(cl "a", ChildrenAll)]]] /\ has_ast ndoc stext (ids_of ndoc) [3; 5; 9] [[[(cl "a", ChildrenAll)]]] = Ok [5] /\
  nfind [5] [[[(cl "a", ChildrenAll)]]] = Ok [8] /\ nfind [3] [[[(cl "a", ChildrenAll)]]] = Ok [].
Proof. split; [apply doc_setting_sound; vm_compute; reflexivity | repeat split; vm_compute; reflexivity]. Qed.
Theorem C61_has_find_refuted : exists h r text_of by_id x gs, Setting h r text_of by_id gs /\ ElIn h r x /\
  has_ast h text_of by_id [x] gs = Ok [x] /\ find_ast h text_of by_id [x] gs = Ok [].
Proof.
  exists ndoc, 0, stext, (ids_of ndoc), 6, [[[(nm "body", ChildrenAll)]; [(cl "a", ChildrenAll)]]]. split; [apply doc_setting_sound; vm_compute; reflexivity|].
  split; [apply (wk_el ndoc 0 (ids_of ndoc)); apply nwalking; vm_compute; reflexivity | split; vm_compute; reflexivity].
Qed.
Print Assumptions C61_has_find_refuted.

(** * C61: closest, is and parents *)
(** [closest] is the element itself when it meets the text, and otherwise the innermost of its ancestors that do.
    Full claim: for every text.  Missing: see C12_step_filter_partial. *)
Theorem C61_closest_parents_partial h r text_of by_id x gs : Walking h r by_id x -> FltOk h r text_of ParentAll (Some gs) x ->
  exists b l, is_ast h text_of by_id [x] gs = Ok b /\ step_ast h text_of by_id ParentAll [x] (Some gs) = Ok l /\
    closest_ast h text_of by_id [x] gs = Ok (if b then [x] else match rev l with y :: _ => [y] | [] => [] end).
Proof.
  intros W HF. pose proof W as [D IC Hx]. destruct (C12_step_filter_partial h r text_of by_id ParentAll x gs W eq_refl HF) as (l & El & Ol & Hl). destruct HF as (Hok & Hw & H1 & _).
  assert (Hn : no_lookup gs = true).
  { unfold no_lookup, one_compound in *. rewrite forallb_forall in *. intros g Hg. specialize (H1 g Hg). destruct g as [|cp [|cp' g]]; try discriminate. unfold looks_up, pivot. cbn [pivot_from]. destruct (_ <? _)%N; reflexivity. }
  destruct (C10_is_partial h r text_of by_id [x] gs (mkSetting h r text_of by_id gs D IC Hok Hw) (Forall_cons _ Hx (Forall_nil _)) ltac:(split; [constructor | exact I])) as (b & Eb & Hb).
  destruct (C14_closest_partial h r text_of by_id x gs W (conj Hok Hw) Hn) as (k & Ek & Ok & Hk). exists b, l. split; [exact Eb|]. split; [exact El|]. rewrite Ek. f_equal.
  pose proof (do_wf h r D) as wf. assert (HN : forall m, (forall y, In y m <-> Nearest h (meets h text_of gs) x y) -> length m <= 1 -> Ordered h m -> k = m).
  { intros m Hm _ Om. apply (ordered_unique h wf r); [|exact Ok | exact Om | intros y; rewrite Hk, Hm; reflexivity]. apply Forall_forall. intros y Hy. apply Hk in Hy. destruct Hy as [[Ha _] _]. exact (intree_anc h wf r x y (proj1 Hx) Ha). }
  assert (Hdec : forall u, Upwards h x u -> meets h text_of gs u \/ ~ meets h text_of gs u).
  { intros u [Hu Eu]. pose proof (meets_spec h r D text_of gs u Hok Hw (conj (intree_anc h wf r x u (proj1 Hx) Hu) Eu)) as HM. destruct (matches_anyb h (map (predb h text_of) gs) u); [left; apply HM; reflexivity | right; intros H; apply HM in H; discriminate]. }
  destruct b.
  - destruct (proj1 Hb eq_refl) as (x' & [<- | []] & Hm). apply HN; [|cbn; lia | split; [constructor | exact I]]. intros y. split.
    + intros [<- | []]. split; [split; [left; reflexivity | apply Hx]|]. split; [exact Hm|]. intros z [[-> | Hz] _] Ha _; [exact (anc_irrefl h wf x Ha) | exact (anc_irrefl h wf x (anc_trans h x z x Ha Hz))].
    + intros [[[-> | Ha] He] [Hy Hno]]; [left; reflexivity|]. exfalso. apply (Hno x); [split; [left; reflexivity | apply Hx] | exact Ha | exact Hm].
  - assert (Hm : ~ meets h text_of gs x) by (intros H; assert (C : false = true) by (apply Hb; exists x; split; [left; reflexivity | exact H]); discriminate).
    assert (HU : forall y, Upwards h x y -> meets h text_of gs y -> In y l).
    { intros y [[-> | Ha] He] Hy; [contradiction|]. apply Hl. split; [split; [exact Ha | exact He] | exact Hy]. }
    assert (HT : forall y, In y l -> InTree h r y) by (intros y Hy; apply Hl in Hy; destruct Hy as [[Ha _] _]; exact (intree_anc h wf r x y (proj1 Hx) (or_intror Ha))).
    destruct (rev l) as [|y l'] eqn:Er.
    + assert (El0 : l = []) by (rewrite <- (rev_involutive l), Er; reflexivity). subst l. apply HN; [|cbn; lia | exact I]. intros y. split; [intros [] | intros (Hu & Hy & _); exact (HU y Hu Hy)].
    + assert (El0 : l = rev l' ++ [y]) by (rewrite <- (rev_involutive l), Er; reflexivity). assert (Hy : In y l) by (rewrite El0; apply in_elt).
      pose proof (proj1 (Hl y) Hy) as [[Ha He] HMy]. apply HN; [|cbn; lia | split; [constructor | exact I]].
      assert (HB : forall z, In z l -> z = y \/ Before h z y).
      { intros z Hz. rewrite El0 in Hz, Ol. apply in_app_iff in Hz as [Hz | [<- | []]]; [right | left; reflexivity]. apply (ordered_app h) in Ol. apply Ol; [exact Hz | left; reflexivity]. }
      assert (Hbest : forall z, Upwards h x z -> Anc h y z -> ~ meets h text_of gs z).
      { intros z Hu Haz Hz. pose proof (HU z Hu Hz) as Hin. destruct (HB z Hin) as [-> | Hzy]; [exact (anc_irrefl h wf y Haz)|]. exact (before_asym h wf r z y (HT z Hin) (HT y Hy) Hzy (or_introl Haz)). }
      intros z. split.
      * intros [<- | []]. split; [split; [right; exact Ha | exact He]|]. split; [exact HMy | exact Hbest].
      * intros Hz. left. apply (proj2 (C14_nearest h r by_id x (meets h text_of gs) W Hdec) y z); [split; [split; [right; exact Ha | exact He]|]; split; [exact HMy | exact Hbest] | exact Hz].
Qed.
Print Assumptions C61_closest_parents_partial.
Example C61_closest_ex : Walking ndoc 0 (ids_of ndoc) 8 /\ FltOk ndoc 0 stext ParentAll (Some [[[(nm "div", ChildrenAll)]]]) 8 /\
  is_ast ndoc stext (ids_of ndoc) [8] [[[(nm "div", ChildrenAll)]]] = Ok false /\ step_ast ndoc stext (ids_of ndoc) ParentAll [8] (Some [[[(nm "div", ChildrenAll)]]]) = Ok [2; 6] /\
  closest_ast ndoc stext (ids_of ndoc) [8] [[[(nm "div", ChildrenAll)]]] = Ok [6].
Proof. split; [apply nwalking; vm_compute; reflexivity|]. split; [apply flt_check_sound; vm_compute; reflexivity | repeat split; vm_compute; reflexivity]. Qed.
