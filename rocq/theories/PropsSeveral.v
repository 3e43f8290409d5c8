(** Property theorems: insertion at several targets (C56). *)
From Verif Require Import Base Dom DomSpec DomProofs Mutate MutateSpec MutateProofs InsertProofs HistoryProofs SeveralProofs DomBuild DomBuildProofs PropsMutate.

(** C56: with several targets the nodes end up at the last one, where they would be had it been the only target; the targets
    before it, and all other nodes, lose at most the moved nodes. *)
Theorem C56_append (o : oracles_dom) (h : heap) (r e : id) (ts d : list id) : WF h -> NoDup d ->
  (forall t, In t (ts ++ [e]) -> InTree h r t /\ is_element h t = true /\ Forall (Free h t) d /\
     Forall (fun x => od_allow_insert o (tag_names h t) (ntype_of h x) = true) d) ->
  exists h', append o h (ts ++ [e]) d = Ok (h', []) /\ WF h' /\ MovedAllInto h h' e (without_all d (kids h e)) (rev d) [].
Proof.
  intros wf Hn HT. apply (several o BeforeEnd d e Hn ts h [] e _ _ wf); [|repeat split]. intros t Ht. destruct (HT t Ht) as (H1 & H2 & H3 & H4).
  split; [|exact H4]. rewrite <- (rev_involutive d). exact (free_all h r t (rev d) wf H1 H2 (Forall_rev H3)).
Qed.
Print Assumptions C56_append.
Theorem C56_prepend (o : oracles_dom) (h : heap) (r e : id) (ts d : list id) : WF h -> NoDup d ->
  (forall t, In t (ts ++ [e]) -> InTree h r t /\ is_element h t = true /\ Forall (Free h t) d /\
     Forall (fun x => od_allow_insert o (tag_names h t) (ntype_of h x) = true) d) ->
  exists h', prepend o h (ts ++ [e]) d = Ok (h', []) /\ WF h' /\ MovedAllInto h h' e [] d (without_all d (kids h e)).
Proof.
  intros wf Hn HT. apply (several o AfterBegin d e Hn ts h [] e _ _ wf); [|repeat split]. intros t Ht. destruct (HT t Ht) as (H1 & H2 & H3 & H4).
  split; [|exact H4]. rewrite <- (rev_involutive d). exact (free_all h r t (rev d) wf H1 H2 (Forall_rev H3)).
Qed.
Print Assumptions C56_prepend.
Theorem C56_before (o : oracles_dom) (h : heap) (r p e : id) (ts d l1 l2 : list id) : WF h -> NoDup d ->
  (forall t, In t (ts ++ [e]) -> InTree h r t /\ is_element h t = true /\ Forall (Free h t) d /\ exists q, Child h q t) ->
  Child h p e -> without_all d (kids h p) = l1 ++ e :: l2 ->
  exists h', before o h (ts ++ [e]) d = Ok (h', []) /\ WF h' /\ MovedAllInto h h' p l1 (rev d) (e :: l2).
Proof.
  intros wf Hn HT Hc Ew. apply (several o BeforeBegin d e Hn ts h [] p l1 (e :: l2) wf); [|split; [exact Hc | exists l2; auto]].
  intros t Ht. destruct (HT t Ht) as (H1 & H2 & H3 & H4).
  split; [|exact H4]. rewrite <- (rev_involutive d). exact (free_all h r t (rev d) wf H1 H2 (Forall_rev H3)).
Qed.
Print Assumptions C56_before.
Theorem C56_after (o : oracles_dom) (h : heap) (r p e : id) (ts d l1 l2 : list id) : WF h -> NoDup d ->
  (forall t, In t (ts ++ [e]) -> InTree h r t /\ is_element h t = true /\ Forall (Free h t) d /\ exists q, Child h q t) ->
  Child h p e -> without_all d (kids h p) = l1 ++ e :: l2 ->
  exists h', after o h (ts ++ [e]) d = Ok (h', []) /\ WF h' /\ MovedAllInto h h' p (l1 ++ [e]) d l2.
Proof.
  intros wf Hn HT Hc Ew. apply (several o AfterEnd d e Hn ts h [] p (l1 ++ [e]) l2 wf); [|split; [exact Hc | exists l1; auto]].
  intros t Ht. destruct (HT t Ht) as (H1 & H2 & H3 & H4).
  split; [|exact H4]. rewrite <- (rev_involutive d). exact (free_all h r t (rev d) wf H1 H2 (Forall_rev H3)).
Qed.
Print Assumptions C56_after.

(** [ex_row]: b 2, c 3, d 4, e 5 under a 1.  The nodes 2 and 3 go through the element 4 and stay in 5. *)
Example C56_ex : WF ex_row /\ NoDup [2; 3] /\
  (forall t, In t ([4] ++ [5]) -> InTree ex_row 0 t /\ is_element ex_row t = true /\ Forall (Free ex_row t) [2; 3] /\
     Forall (fun x => od_allow_insert ex_od (tag_names ex_row t) (ntype_of ex_row x) = true) [2; 3] /\ exists q, Child ex_row q t) /\
  Child ex_row 1 5 /\ without_all [2; 3] (kids ex_row 1) = [4] ++ 5 :: [] /\
  (exists h', append ex_od ex_row [4; 5] [2; 3] = Ok (h', []) /\ kids h' 4 = [] /\ kids h' 5 = [3; 2] /\ kids h' 1 = [4; 5]) /\
  (exists h', after ex_od ex_row [4; 5] [2; 3] = Ok (h', []) /\ kids h' 1 = [4; 5; 2; 3]).
Proof.
  assert (HF : forall t x, In t [4; 5] -> In x [2; 3] -> Free ex_row t x).
  { intros t x Ht Hx. split; [|split].
    - destruct Hx as [<- | [<- | []]]; apply (placed_check ex_row _ 1); reflexivity.
    - destruct Hx as [<- | [<- | []]]; reflexivity.
    - apply leaf_not_above; [destruct Hx as [<- | [<- | []]]; reflexivity|]. destruct Hx as [<- | [<- | []]], Ht as [<- | [<- | []]]; discriminate. }
  split; [exact ex_row_wf|]. split; [repeat constructor; cbn; intuition discriminate|]. split.
  - intros t Ht. assert (Hc : Child ex_row 1 t) by (apply child_in; destruct Ht as [<- | [<- | []]]; cbn; auto).
    split; [destruct Ht as [<- | [<- | []]]; apply (intree_check_sound _ _ 10); reflexivity|].
    split; [destruct Ht as [<- | [<- | []]]; reflexivity|]. split; [rewrite Forall_forall; intros x Hx; exact (HF t x Ht Hx)|].
    split; [destruct Ht as [<- | [<- | []]]; repeat constructor | exists 1; exact Hc].
  - split; [apply child_in; cbn; auto|]. split; [reflexivity|]. split; eexists; (split; [vm_compute; reflexivity|]); repeat split.
Qed.
