(** Property theorems: attribute, class and text calls on results that outlive their document (C66). *)
From Verif Require Import Base Utils Attr Dom DomSpec DomProofs DomBuild DomBuildProofs Sets SetsProofs SelBuild Mutate MutateProofs ClassOps Live Lifetime LifetimeSpec LifetimeProofs PropsLifetime.

Lemma sweep_upd live docs f : (forall n, survivor live docs (f n) = f (survivor live docs n)) -> forall h k x, includes live (k + x) = true ->
  sweep live docs k (upd h x f) = upd (sweep live docs k h) x f.
Proof.
  intros Hf. induction h as [|n h IH]; intros k x Hx; [reflexivity|]. destruct x as [|x]; cbn [upd sweep].
  - rewrite Nat.add_0_r in Hx. rewrite Hx, Hf. reflexivity.
  - f_equal. apply IH. rewrite Nat.add_succ_comm. exact Hx.
Qed.
Lemma owned_same h1 h2 : (forall y, kids h1 y = kids h2 y) -> forall fuel x, owned_by fuel h1 x = owned_by fuel h2 x.
Proof.
  intros E fuel. induction fuel as [|f IH]; intros x; [reflexivity|]. cbn [owned_by]. rewrite E. f_equal.
  induction (kids h2 x) as [|c l IHl]; [reflexivity|]. cbn [flat_map]. rewrite IH, IHl. reflexivity.
Qed.
Lemma alive_upd h held docs x f : (forall n, n_childs (f n) = n_childs n) -> alive (upd h x f) held docs = alive h held docs.
Proof.
  intros Hf. unfold alive. rewrite upd_length. assert (E : forall y, kids (upd h x f) y = kids h y).
  { intros y. unfold kids, childs. rewrite node_upd. destruct (_ && _); [rewrite Hf|]; reflexivity. }
  induction (held ++ docs) as [|y l IH]; [reflexivity|]. cbn [flat_map]. rewrite IH, (owned_same _ _ E). reflexivity.
Qed.
Lemma drop_upd h held docs x f : In x (alive h held docs) -> (forall n, n_childs (f n) = n_childs n) ->
  (forall n, survivor (alive h held docs) docs (f n) = f (survivor (alive h held docs) docs n)) ->
  drop (upd h x f) held docs = upd (drop h held docs) x f.
Proof.
  intros Hx H1 H2. unfold drop. rewrite (alive_upd h held docs x f H1). apply sweep_upd; [exact H2 | apply includes_in; exact Hx].
Qed.
Lemma drop_at h held docs x : In x (alive h held docs) -> node_of (drop h held docs) x = survivor (alive h held docs) docs (node_of h x).
Proof. intros H. unfold node_of, drop. rewrite sweep_nth. apply includes_in in H. cbn [Nat.add]. rewrite H. reflexivity. Qed.
(** One element of an attribute ([None]) or class call. *)
Definition on_any (idle : option bool) (f : meta -> res meta) (h : heap) (x : id) : res heap :=
  match idle with Some b => on_class h x b f | None => on_meta h x f end.
Lemma drop_on_any h held docs x idle f : In x (alive h held docs) ->
  on_any idle f (drop h held docs) x = (do h1 <- on_any idle f h x; Ok (drop h1 held docs)) /\
  (forall h1, on_any idle f h x = Ok h1 -> alive h1 held docs = alive h held docs).
Proof.
  intros Hx. assert (M : forall m, (do m' <- f m; Ok (upd (drop h held docs) x (set_meta (Some m')))) = (do h1 <- (do m' <- f m; Ok (upd h x (set_meta (Some m')))); Ok (drop h1 held docs)) /\
    (forall h1, (do m' <- f m; Ok (upd h x (set_meta (Some m')))) = Ok h1 -> alive h1 held docs = alive h held docs)).
  { intros m. destruct (f m) as [m'| |]; cbn [rbind]; try (split; [reflexivity | discriminate]).
    split; [rewrite (drop_upd h held docs x) by (assumption || reflexivity); reflexivity|]. intros h1 E. injection E as <-. apply alive_upd. reflexivity. }
  unfold on_any, on_class, on_meta. rewrite (drop_at h held docs x Hx). cbn [survivor n_meta].
  destruct idle as [[]|]; (destruct (n_meta (node_of h x)) as [m|]; [exact (M m)|]);
    (split; [reflexivity|]; intros h1 E; try discriminate; injection E as <-; reflexivity).
Qed.
Lemma drop_all_of held docs idle (f : meta -> res meta) l : forall h, (forall x, In x l -> In x (alive h held docs)) ->
  rfold (on_any idle f) l (drop h held docs) = (do h1 <- rfold (on_any idle f) l h; Ok (drop h1 held docs)).
Proof.
  induction l as [|x l IH]; intros h Hl; [reflexivity|]. cbn [rfold]. destruct (drop_on_any h held docs x idle f (Hl x (or_introl eq_refl))) as (E & Hal). rewrite E.
  destruct (on_any idle f h x) as [h1| |]; cbn [rbind]; try reflexivity. apply IH. intros y Hy. rewrite (Hal h1 eq_refl). apply Hl. right. exact Hy.
Qed.
(** Attribute and class calls on elements that are left, and appending to their texts, do the same before and after the
    rest is dropped. *)
Theorem C66_attrs oa (h : heap) (held docs l : list id) : WF h -> Forall (Alive h held docs) l ->
  let same (call : heap -> res heap) := call (drop h held docs) = (do h1 <- call h; Ok (drop h1 held docs)) in
  (forall n v, same (fun h => set_attr_all oa h l n v)) /\ (forall n, same (fun h => remove_attr_all h l n)) /\
  (forall c, same (fun h => add_class_all oa h l c)) /\ (forall c, same (fun h => remove_class_all oa h l c)) /\ (forall c, same (fun h => toggle_class_all oa h l c)) /\
  (forall x t, In x l -> same (fun h => append_text h x t) /\ same (fun h => prepend_text h x t)).
Proof.
  intros wf HL. cbv zeta.
  assert (H : forall x, In x l -> In x (alive h held docs)) by (intros x Hx; apply (alive_in h wf); rewrite Forall_forall in HL; exact (HL x Hx)).
  split; [intros n v; exact (drop_all_of held docs None _ l h H)|]. split; [intros n; exact (drop_all_of held docs None _ l h H)|].
  split; [intros c; exact (drop_all_of held docs (Some _) _ l h H)|]. split; [intros c; exact (drop_all_of held docs (Some _) _ l h H)|].
  split; [intros c; exact (drop_all_of held docs (Some _) _ l h H)|].
  intros x t Hx. specialize (H x Hx). unfold append_text, prepend_text. rewrite (drop_at h held docs x H). cbn [survivor n_content].
  destruct (n_content (node_of h x)); cbn [rbind]; [|split; reflexivity]. rewrite !(drop_upd h held docs x) by (assumption || reflexivity). split; reflexivity.
Qed.
Print Assumptions C66_attrs.
(** The second div is held and its children are given a class; then its text is appended to. *)
Definition loa : oracles_attr := mkOA (fun _ => None) (fun _ => false).
Example C66_attrs_ex : WF ld /\ Forall (Alive ld [4] []) [5; 7; 6] /\
  (exists h h', add_class_all loa (drop ld [4] []) [5; 7] (lit "z") = Ok h /\ add_class_all loa ld [5; 7] (lit "z") = Ok h' /\ h = drop h' [4] [] /\ h <> h' /\ h <> drop ld [4] []) /\
  (exists h, append_text (drop ld [4] []) 6 (lit "3") = Ok h /\ n_content (node_of h 6) = Some (lit "23")).
Proof.
  split; [exact ld_wf|]. split; [repeat constructor; apply (alive_in ld ld_wf); vm_compute; tauto|].
  split; [do 2 eexists; split; [vm_compute; reflexivity|]; split; [vm_compute; reflexivity|]; split; [vm_compute; reflexivity | split; vm_compute; discriminate]|].
  eexists. split; vm_compute; reflexivity.
Qed.
