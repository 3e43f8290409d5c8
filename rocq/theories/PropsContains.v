(** Property theorems: [contains], the membership of an element through a combinator (C59).
    elements.rs:1871-1873 [contains] calls [has_ele] without a look-up: [has_plain] (Engine.v). *)
From Verif Require Import Base Attr Dom DomSpec Order OrderSpec DomProofs OrderProofs Sets SetsProofs DomBuild DomBuildProofs
  Engine Rules SelSpec FindSpec PreProofs SelBool SibLists StepProofs BackProofs FilterProofs SelBuild PropsFilter PropsRules.

(** The combinators a member can be related through; the others are only used on the way back. *)
Definition looks (c : comb) : bool := match c with ChildrenAll | Children | Next | NextAll | Chain => true | _ => false end.

Section Contains.
  Variable h : heap.
  Variable r : id.
  Hypothesis D : DocOk h r.
  Let wf : WF h := do_wf h r D.

  Lemma listed_el s i p x j : Container h s -> Listed h p i s -> Listed h p j x -> is_element h s = true.
  Proof.
    intros [H | H] Hl _; [exact H|]. pose proof (listed_parent h wf _ _ _ Hl) as E. rewrite (wf_root h wf s H) in E. discriminate.
  Qed.
  Lemma contains_next set x : Forall (Container h) set -> ElIn h r x ->
    ((exists s, In s set /\ PrevEl h x s) <-> (exists s, In s set /\ NextEl h s x)).
  Proof.
    intros HS Hx. rewrite Forall_forall in HS. split; intros (s & Hs & p & i & j & H1 & H2 & H3 & H4 & H5); exists s; (split; [exact Hs|]).
    - exists p, i, j. repeat split; try assumption. apply Hx.
    - exists p, i, j. repeat split; try assumption. exact (listed_el s i p x j (HS s Hs) H1 H2).
  Qed.
  Lemma contains_after set x : Forall (Container h) set -> ElIn h r x ->
    ((exists s, In s set /\ Preceding h x s) <-> (exists s, In s set /\ Following h s x)).
  Proof.
    intros HS Hx. rewrite Forall_forall in HS. split; intros (s & Hs & p & i & j & H1 & H2 & H3 & H4); exists s; (split; [exact Hs|]).
    - exists p, i, j. repeat split; try assumption. apply Hx.
    - exists p, i, j. repeat split; try assumption. exact (listed_el s i p x j (HS s Hs) H1 H2).
  Qed.
End Contains.

(** Full claim: for every combinator.  Missing: the combinators that lead back and to the siblings ([C59_back_panics]).
    An element is contained through a combinator that leads forward when some member of the set, which may be of any
    document and in any order, is related to it. *)
Theorem C59_contains_partial h r set x c : DocOk h r -> Forall (Container h) set -> ElIn h r x -> looks c = true ->
  exists b, has_plain h set x c = Ok b /\ (b = true <-> exists s, In s set /\ Rel h c s x).
Proof.
  intros D HS Hx Hc. pose proof (do_wf h r D) as wf. unfold has_plain. destruct c; try discriminate; cbn [comb_reverse rbind has_final rexists Rel].
  - destruct (has_above_full h r D set x (proj1 Hx)) as (b & Eb & Hb). rewrite Eb. cbn [rbind]. exists b. split; [destruct b; reflexivity|].
    rewrite Hb. split; intros (s & Hs & Ha); exists s; (split; [exact Hs|]); [split; [exact Ha | apply Hx] | apply Ha].
  - eexists. split; [reflexivity|]. cbn [existsb]. rewrite orb_false_r. destruct (el_parent h r D x Hx) as (p & -> & Hp & Hl). rewrite includes_spec. split.
    + intros Hs. exists p. split; [exact Hs|]. split; [exists (index h x); exact Hl | apply Hx].
    + intros (s & Hs & (i & Hc') & _). destruct (listed_inj h wf _ _ _ _ _ Hc' Hl) as [-> _]. exact Hs.
  - rewrite (prevs_eq h r D x (proj1 Hx)). cbn [rbind]. exists (existsb (includes set) (preceding_list h x)). split; [destruct (existsb (includes set) (preceding_list h x)); reflexivity|].
    rewrite <- (contains_after h r D set x HS Hx), existsb_exists. split.
    + intros (s & Hs & Es). exists s. split; [apply includes_spec; exact Es | apply (in_preceding h r D x s (proj1 Hx)); exact Hs].
    + intros (s & Hs & HR). exists s. split; [apply (in_preceding h r D x s (proj1 Hx)); exact HR | apply includes_spec; exact Hs].
  - pose proof (prev_eq h r D x (proj1 Hx)) as Ep. destruct (previous_element_sibling h x) as [o| |]; cbn [rbind] in Ep |- *; try discriminate.
    injection Ep as Ep. rewrite Ep. exists (existsb (includes set) (prev_list h x)). split; [destruct (existsb (includes set) (prev_list h x)); reflexivity|].
    rewrite <- (contains_next h r D set x HS Hx), existsb_exists. split.
    + intros (s & Hs & Es). exists s. split; [apply includes_spec; exact Es | apply (in_prev h r D x s (proj1 Hx)); exact Hs].
    + intros (s & Hs & HR). exists s. split; [apply (in_prev h r D x s (proj1 Hx)); exact HR | apply includes_spec; exact Hs].
  - eexists. split; [reflexivity|]. cbn [existsb]. rewrite orb_false_r, includes_spec. split; [intros H; exists x; split; [exact H | reflexivity] | intros (s & Hs & ->); exact Hs].
Qed.

(** A node that has no parent, such as the document: only as a member. *)
Theorem C59_parentless h set x c : parent h x = None -> looks c = true ->
  has_plain h set x c = Ok (match c with Chain => includes set x | _ => false end).
Proof.
  intros E Hc. unfold has_plain. destruct c; try discriminate; cbn [comb_reverse rbind has_final rexists existsb].
  - cbn [has_above dfs_fuel]. rewrite E. reflexivity.
  - rewrite E. reflexivity.
  - unfold previous_element_siblings. rewrite E. reflexivity.
  - unfold previous_element_sibling. rewrite E. reflexivity.
  - rewrite orb_false_r. reflexivity.
Qed.

(** The combinators that lead back or to the siblings panic, whatever the set and the element. *)
Theorem C59_back_panics h set x c : looks c = false -> has_plain h set x c = Panic.
Proof. intros Hc. destruct c; try discriminate; reflexivity. Qed.
Theorem C59_contains_refuted : exists h r set x c s, DocOk h r /\ Forall (Container h) set /\ ElIn h r x /\ In s set /\ Rel h c s x /\
  has_plain h set x c = Panic.
Proof.
  exists tdoc, 0, [3], 2, Parent, 3. assert (D : DocOk tdoc 0) by (apply docok_check_sound; vm_compute; reflexivity).
  assert (H : Forall (ElIn tdoc 0) [2; 3]) by (apply els_check_sound; vm_compute; reflexivity).
  inversion_clear H as [|? ? H2 H']. inversion_clear H' as [|? ? H3 _].
  split; [exact D|]. split; [constructor; [left; apply H3 | constructor]|]. split; [exact H2|]. split; [left; reflexivity|].
  split; [split; [exists 0; vm_compute; reflexivity | vm_compute; reflexivity] | reflexivity].
Qed.

Example C59_ex : DocOk tdoc 0 /\ Forall (Container tdoc) [7; 0; 3] /\ Forall (ElIn tdoc 0) [2; 3; 5; 6; 7] /\
  map (fun x => has_plain tdoc [7; 0; 3] x ChildrenAll) [2; 3] = [Ok true; Ok true] /\
  map (fun x => has_plain tdoc [7; 3] x ChildrenAll) [2; 3] = [Ok false; Ok false] /\
  map (fun x => has_plain tdoc [2] x Children) [2; 5; 7] = [Ok false; Ok true; Ok true] /\
  map (fun x => has_plain tdoc [3] x Next) [3; 5; 6] = [Ok false; Ok true; Ok false] /\
  map (fun x => has_plain tdoc [6; 3] x NextAll) [3; 5; 6; 7] = [Ok false; Ok true; Ok true; Ok true] /\
  map (fun x => has_plain tdoc [6; 3] x Chain) [3; 5] = [Ok true; Ok false] /\
  parent tdoc 0 = None /\ has_plain tdoc [1; 0] 0 Chain = Ok true /\ has_plain tdoc [1; 0] 0 ChildrenAll = Ok false.
Proof.
  assert (D : DocOk tdoc 0) by (apply docok_check_sound; vm_compute; reflexivity).
  split; [exact D|]. split; [repeat constructor; vm_compute; tauto|]. split; [apply els_check_sound; vm_compute; reflexivity|].
  repeat split; vm_compute; reflexivity.
Qed.

Print Assumptions C59_contains_partial.
Print Assumptions C59_parentless.
Print Assumptions C59_back_panics.
Print Assumptions C59_contains_refuted.
