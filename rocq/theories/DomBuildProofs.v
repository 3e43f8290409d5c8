(** Checking document order on concrete documents. *)
From Verif Require Import Base Dom DomSpec Order OrderSpec DomProofs OrderProofs DomBuild.

Definition lt_check (h : heap) (x y : id) : bool :=
  match get_tree_indexs h x, get_tree_indexs h y with
  | Ok a, Ok b => match compare_indexs a b with Lt => true | _ => false end
  | _, _ => false
  end.
Fixpoint ordered_check (h : heap) (l : list id) : bool :=
  match l with
  | [] => true
  | x :: l' => forallb (lt_check h x) l' && ordered_check h l'
  end.
Definition docset_check (h : heap) (r : id) (l : list id) : bool :=
  wf_check h && allin_check h r l && ordered_check h l.
Lemma docset_check_sound h r l : docset_check h r l = true -> WF h /\ DocSet h r l.
Proof.
  unfold docset_check. rewrite !andb_true_iff. intros ((H1 & H2) & H3). apply wf_check_sound in H1. split; [exact H1|].
  apply allin_check_sound in H2. split; [exact H2|]. revert H2 H3. induction l as [|x l IH]; intros Ha H; [exact I|].
  cbn in H. apply andb_true_iff in H. destruct H as [Hx Hl]. apply Forall_inv in Ha as Hx'. apply Forall_inv_tail in Ha as Ha'.
  split; [|exact (IH Ha' Hl)]. rewrite forallb_forall in Hx. rewrite Forall_forall in *. intros y Hy. specialize (Hx y Hy).
  unfold lt_check in Hx. rewrite !(tree_indexs_key h H1) in Hx.
  apply (key_before h H1 r x y Hx' (Ha' y Hy)). unfold klt. destruct (compare_indexs (key h x) (key h y)); congruence.
Qed.
