(** From texts to parsed selectors: the queries on texts are the queries on what the text denotes. *)
From Verif Require Import Base Dom DomSpec DomProofs Order OrderSpec OrderProofs Sets Mutate Engine Rules Regex Parse ParseTotal SelSpec StepProofs Traverse TravSpec TravProofs Query.

Section QueryProofs.
  Variable wide_digit : char -> bool.
  Variable h : heap.
  Variable text_of : id -> str.
  Variable by_id : id -> str -> option id.
  Notation from_str := (from_str wide_digit).

  Definition quiet {A} (r : res A) : res (A * errors) := do a <- r; Ok (a, []).
  Lemma quiet_ok {A} (r : res A) a : r = Ok a -> quiet r = Ok (a, []).
  Proof. intros ->. reflexivity. Qed.
  Lemma quiet_bind {A B} (r : res A) (f : A -> res B) : (do x <- quiet r; do l <- f (fst x); Ok (l, snd x)) = quiet (do a <- r; f a).
  Proof. unfold quiet. destruct r; reflexivity. Qed.

  Lemma parsed_good {A} dflt els s gs (run : ast -> res A) : from_str s = Ok (Some gs) -> parsed_or wide_digit h dflt els s run = quiet (run gs).
  Proof. unfold parsed_or. intros ->. reflexivity. Qed.
  Lemma parsed_bad {A} dflt x els s (run : ast -> res A) : from_str s = Ok None -> parsed_or wide_digit h dflt (x :: els) s run = Ok (dflt, halt h x).
  Proof. unfold parsed_or. intros ->. reflexivity. Qed.
  Lemma trigger_good {A} dflt els s gs (run : ast -> res A) : els <> [] -> from_str s = Ok (Some gs) -> trigger_method wide_digit h dflt els s run = quiet (run gs).
  Proof. destruct els; [congruence|]. intros _. apply parsed_good. Qed.
  Lemma bad_text s : from_str s = Ok None -> s <> [].
  Proof. intros H ->. discriminate. Qed.

  Lemma select_good us s gs c : from_str s = Ok (Some gs) -> s <> [] ->
    select_text wide_digit h text_of by_id us s c = quiet (select_with_comb h us (plain_text h text_of by_id (Some gs)) c).
  Proof.
    intros H Hs. unfold select_text. destruct s as [|k s]; [congruence|]. destruct us as [|x us]; [reflexivity|]. rewrite (trigger_good _ _ _ gs) by (discriminate || exact H). reflexivity.
  Qed.
  Lemma step_text_some c els s gs : step_comb c = true -> c <> Siblings -> from_str s = Ok (Some gs) -> s <> [] ->
    step_text wide_digit h text_of by_id c els s = quiet (step_ast h text_of by_id c els (Some gs)).
  Proof.
    intros Hc Hn H Hs. unfold step_text.
    destruct c; try discriminate; try congruence; cbn [uniques finish step_ast]; unfold el_parents, el_parent, el_children, el_prev, el_prev_all, el_next, el_next_all.
    all: try (destruct (unique_sibling_first h els); cbn [rbind]; [|reflexivity|reflexivity]).
    all: try (destruct (unique_sibling_last h els); cbn [rbind]; [|reflexivity|reflexivity]).
    all: cbn [rbind]; rewrite (select_good _ s gs _ H Hs).
    all: unfold quiet; match goal with |- context [select_with_comb h ?a ?b ?d] => destruct (select_with_comb h a b d) end; reflexivity.
  Qed.
  Lemma step_text_none c els : step_comb c = true -> c <> Siblings -> step_text wide_digit h text_of by_id c els [] = quiet (step_ast h text_of by_id c els None).
  Proof.
    intros Hc Hn. unfold step_text.
    destruct c; try discriminate; try congruence; cbn [uniques finish step_ast]; unfold el_parents, el_parent, el_children, el_prev, el_prev_all, el_next, el_next_all.
    all: try (destruct (unique_sibling_first h els); cbn [rbind]; [|reflexivity|reflexivity]).
    all: try (destruct (unique_sibling_last h els); cbn [rbind]; [|reflexivity|reflexivity]).
    all: cbn [rbind select_text plain_text option_map].
    all: unfold quiet; match goal with |- context [select_with_comb h ?a ?b ?d] => destruct (select_with_comb h a b d) end; reflexivity.
  Qed.
  Lemma siblings_none els s : trim s = [] -> step_text wide_digit h text_of by_id Siblings els s = quiet (step_ast h text_of by_id Siblings els None).
  Proof. intros E. cbn [step_text]. unfold siblings_text. rewrite E. cbn [step_ast]. unfold el_siblings. destruct (unique_all_siblings h els); reflexivity. Qed.
  Lemma siblings_some els s gs : from_str (trim s) = Ok (Some gs) -> trim s <> [] ->
    step_text wide_digit h text_of by_id Siblings els s = quiet (step_ast h text_of by_id Siblings els (Some gs)).
  Proof.
    intros H Hs. cbn [step_text]. unfold siblings_text. destruct (trim s) as [|k t]; [congruence|]. rewrite (parsed_good _ _ _ gs _ H). cbn [step_ast]. unfold el_siblings, quiet.
    destruct (unique_all_siblings h els); reflexivity.
  Qed.
  Lemma until_good c els stop flt gs f contains : unit_comb c = true -> from_str stop = Ok (Some gs) ->
    match f with Some fs => flt <> [] /\ from_str flt = Ok (Some fs) | None => flt = [] end ->
    until_text wide_digit h text_of by_id c els stop flt contains = quiet (until_ast h text_of by_id c els gs f contains).
  Proof.
    intros Hc Hs Hf. unfold until_text. rewrite Hs.
    assert (G : forall us c', match flt with [] => do l <- select_until h us (compile_selector h text_of by_id true gs) (looked_text h text_of by_id None) contains c'; Ok (l, [])
        | _ :: _ => parsed_or wide_digit h [] us flt (fun f => select_until h us (compile_selector h text_of by_id true gs) (looked_text h text_of by_id (Some f)) contains c') end
      = quiet (select_until h us (compile_selector h text_of by_id true gs) (looked_text h text_of by_id f) contains c')).
    { intros us c'. destruct f as [fs|].
      - destruct Hf as [Hn Hf]. destruct flt as [|k flt]; [congruence|]. rewrite (parsed_good _ _ _ fs _ Hf). reflexivity.
      - subst flt. reflexivity. }
    destruct c; try discriminate; cbn [until_uniques until_finish until_ast]; unfold el_next_until, el_prev_until, el_parents_until.
    all: try (destruct (unique_sibling_first h els); cbn [rbind]; [|reflexivity|reflexivity]).
    all: try (destruct (unique_sibling_last h els); cbn [rbind]; [|reflexivity|reflexivity]).
    all: rewrite G; unfold quiet; match goal with |- context [select_until h ?a ?b ?d ?e ?k] => destruct (select_until h a b d e k) end; reflexivity.
  Qed.

  (** * The sets traversals start from *)
  Variable r : id.
  Hypothesis D : DocOk h r.
  Lemma firsts_in seen l x : In x (firsts h seen l) -> In x l.
  Proof.
    revert seen. induction l as [|y l IH]; intros seen; [intros []|]. cbn [firsts]. destruct (existsb (opt_eqb (parent h y)) seen).
    - intros H. right. exact (IH _ H).
    - intros [<- | H]; [left; reflexivity | right; exact (IH _ H)].
  Qed.
  Lemma firsts_some x l : firsts h [] (x :: l) <> [].
  Proof. cbn. discriminate. Qed.
  Lemma first_some els : els <> [] -> Forall (InTree h r) els -> exists y us, unique_sibling_first h els = Ok (y :: us) /\ In y els.
  Proof.
    intros Hn He. rewrite (us_first h r D els He). destruct els as [|x els]; [congruence|]. destruct (firsts h [] (x :: els)) as [|y us] eqn:E; [destruct (firsts_some x els E)|].
    exists y, us. split; [reflexivity|]. apply (firsts_in []). rewrite E. left. reflexivity.
  Qed.
  Lemma last_some els : els <> [] -> Forall (InTree h r) els -> exists y us, unique_sibling_last h els = Ok (y :: us) /\ In y els.
  Proof.
    intros Hn He. rewrite (us_last h r D els He). destruct (rev els) as [|x l] eqn:Er; [destruct els as [|x0 els]; [congruence|]; apply (f_equal (@length id)) in Er; rewrite rev_length in Er; discriminate|].
    destruct (rev (firsts h [] (x :: l))) as [|y us] eqn:E.
    - apply (f_equal (@length id)) in E. rewrite rev_length in E. pose proof (firsts_some x l) as N. destruct (firsts h [] (x :: l)); [congruence | discriminate].
    - exists y, us. split; [reflexivity|]. apply in_rev. rewrite Er. apply (firsts_in []). apply in_rev. rewrite E. left. reflexivity.
  Qed.
  Lemma uniques_some c els : step_comb c = true -> els <> [] -> Forall (InTree h r) els -> exists y us, uniques h c els = Ok (y :: us) /\ In y els.
  Proof.
    intros Hc Hn He. destruct c; cbn [uniques]; try discriminate; try (apply first_some; assumption); try (apply last_some; assumption).
    all: destruct els as [|x els]; [congruence|]; exists x, els; split; [reflexivity | left; reflexivity].
  Qed.
  Lemma until_some c els : els <> [] -> Forall (InTree h r) els -> exists y us, until_uniques h c els = Ok (y :: us) /\ In y els.
  Proof. intros Hn He. destruct c; cbn [until_uniques]; try (apply first_some; assumption). apply last_some; assumption. Qed.
  Lemma held_in els : Forall (fun x => InTree h r x /\ Container h x) els -> Forall (InTree h r) els.
  Proof. apply Forall_impl. intros x Hx. apply Hx. Qed.
  Lemma halt_doc x : InTree h r x /\ Container h x -> halt h x = [r].
  Proof. intros [Hx Hc]. unfold halt. rewrite (do_owner h r D x Hx Hc). reflexivity. Qed.

  Lemma step_bad c els s : step_comb c = true -> c <> Siblings -> els <> [] -> Forall (fun x => InTree h r x /\ Container h x) els -> from_str s = Ok None ->
    step_text wide_digit h text_of by_id c els s = Ok ([], [r]).
  Proof.
    intros Hc Hn Hne He Hs. destruct (uniques_some c els Hc Hne (held_in els He)) as (y & us & E & Hy). rewrite Forall_forall in He. pose proof (halt_doc y (He y Hy)) as Hh.
    pose proof (bad_text s Hs) as Hs'. unfold step_text. rewrite E. cbn [rbind].
    assert (G : select_text wide_digit h text_of by_id (y :: us) s c = Ok ([], [r])).
    { unfold select_text. destruct s as [|k s]; [congruence|]. unfold trigger_method. rewrite parsed_bad by exact Hs. rewrite Hh. reflexivity. }
    rewrite G. cbn [rbind fst snd]. destruct c; try discriminate; try congruence; reflexivity.
  Qed.
  Lemma until_bad_stop c els stop flt contains : unit_comb c = true -> els <> [] -> Forall (fun x => InTree h r x /\ Container h x) els -> from_str stop = Ok None ->
    until_text wide_digit h text_of by_id c els stop flt contains = Ok ([], [r]).
  Proof.
    intros Hc Hne He Hs. destruct (until_some c els Hne (held_in els He)) as (y & us & E & Hy). rewrite Forall_forall in He. pose proof (halt_doc y (He y Hy)) as Hh.
    unfold until_text. rewrite E. cbn [rbind]. rewrite Hs. cbn [rbind throw_error fst snd]. rewrite Hh. destruct c; try discriminate; reflexivity.
  Qed.
  Lemma until_bad_filter c els stop flt gs contains : unit_comb c = true -> els <> [] -> Forall (fun x => InTree h r x /\ Container h x) els -> from_str stop = Ok (Some gs) -> from_str flt = Ok None ->
    until_text wide_digit h text_of by_id c els stop flt contains = Ok ([], [r]).
  Proof.
    intros Hc Hne He Hs Hf. destruct (until_some c els Hne (held_in els He)) as (y & us & E & Hy). rewrite Forall_forall in He. pose proof (halt_doc y (He y Hy)) as Hh.
    pose proof (bad_text flt Hf) as Hf'. unfold until_text. rewrite E. cbn [rbind]. rewrite Hs. cbn [rbind]. destruct flt as [|k flt]; [congruence|]. rewrite parsed_bad by exact Hf.
    rewrite Hh. destruct c; try discriminate; reflexivity.
  Qed.
  Lemma all_siblings_ok els : exists us, unique_all_siblings h els = Ok us.
  Proof.
    unfold unique_all_siblings. assert (G : forall s, exists s', rfold (ua_step h) els s = Ok s').
    { induction els as [|x els IH]; intros s; [exists s; reflexivity|]. cbn [rfold]. assert (G : exists s', ua_step h s x = Ok s').
      { unfold ua_step. destruct s as [seen out]. destruct (parent h x) as [p|]; [|eexists; reflexivity]. rewrite (tree_indexs_key h (do_wf h r D)). cbn [rbind].
        destruct (ua_find (key h p) seen) as [e|]; [|eexists; reflexivity]. destruct (ua_changed e); eexists; reflexivity. }
      destruct G as (s' & ->). cbn [rbind]. apply IH. }
    destruct (G ([], [])) as (s' & ->). eexists. reflexivity.
  Qed.
  Lemma siblings_bad els s : els <> [] -> Forall (fun x => InTree h r x /\ Container h x) els -> from_str (trim s) = Ok None -> step_text wide_digit h text_of by_id Siblings els s = Ok ([], [r]).
  Proof.
    intros Hne He Hs. cbn [step_text]. unfold siblings_text. destruct (all_siblings_ok els) as (us & ->). cbn [rbind]. pose proof (bad_text _ Hs) as Hn.
    destruct (trim s) as [|k t]; [congruence|]. destruct els as [|x els]; [congruence|]. rewrite parsed_bad by exact Hs. rewrite (halt_doc x (Forall_inv He)). reflexivity.
  Qed.
End QueryProofs.
