(** Concrete documents for the examples, and boolean checks of the well-formedness predicates.
    Nothing here models code. *)
From Verif Require Import Base Attr Dom DomSpec Order OrderSpec.

(** Markup as a term: [El tag attributes children]. *)
Inductive dtree :=
| El (tag : str) (attrs : list (str * option str)) (cs : list dtree)
| Tx (s : str)
| Sp (s : str)
| Cm (s : str).

Definition mk_attrs (l : list (str * option str)) : list attr :=
  map (fun a => mkAttr (Some (fst a)) (snd a) (Some DQ) false) l.
Fixpoint mk_lc (l : list (str * option str)) (i : nat) : amap :=
  match l with
  | [] => []
  | a :: l' => (str_lower (fst a), i) :: mk_lc l' (S i)
  end.
Definition mk_meta (tag : str) (l : list (str * option str)) : meta := mkMeta tag (mk_attrs l) (mk_lc l 0).

Fixpoint place (root : id) (t : dtree) (par idx next : id) : list node :=
  match t with
  | Tx s => [mkNode NText (Some par) idx None (Some s) None (Some root)]
  | Sp s => [mkNode NSpaces (Some par) idx None (Some s) None (Some root)]
  | Cm s => [mkNode NComment (Some par) idx None (Some s) None (Some root)]
  | El tag attrs cs =>
      let fix go cs i nx : list id * list node :=
        match cs with
        | [] => ([], [])
        | c :: cs' =>
            let ns := place root c next i nx in
            let '(ids, rest) := go cs' (S i) (nx + length ns) in
            (nx :: ids, ns ++ rest)
        end in
      let '(ids, ns) := go cs 0 (S next) in
      mkNode NTag (Some par) idx (Some ids) None (Some (mk_meta tag attrs)) (Some root) :: ns
  end.

(** A document whose root is node [base]; nodes are numbered in document order. *)
Definition doc_at (base : id) (cs : list dtree) : list node :=
  let fix go cs i nx : list id * list node :=
    match cs with
    | [] => ([], [])
    | c :: cs' =>
        let ns := place base c base i nx in
        let '(ids, rest) := go cs' (S i) (nx + length ns) in
        (nx :: ids, ns ++ rest)
    end in
  let '(ids, ns) := go cs 0 (S base) in
  mkNode (NRoot true) None 0 (Some ids) None None (Some base) :: ns.
Definition doc (cs : list dtree) : heap := doc_at 0 cs.
(** Two documents in one heap. *)
Definition docs2 (a b : list dtree) : heap := let h := doc a in h ++ doc_at (length h) b.

(** * Checks *)
Definition opt_eqb (a : option id) (b : id) : bool := match a with Some x => Nat.eqb x b | None => false end.
Fixpoint check_kids (h : heap) (p : id) (i : nat) (cs : list id) : bool :=
  match cs with
  | [] => true
  | c :: cs' => (c <? length h) && opt_eqb (parent h c) p && Nat.eqb (index h c) i && check_kids h p (S i) cs'
  end.
Definition check_node (h : heap) (x : id) : bool :=
  check_kids h x 0 (kids h x) &&
  (match parent h x with
   | Some p => (p <? x) && (is_element h p || is_root h p) && negb (is_root h x)
   | None => true
   end).
Definition wf_check (h : heap) : bool := forallb (check_node h) (seq 0 (length h)).

Lemma node_of_out h x : length h <= x -> node_of h x = empty_node.
Proof. intros H. unfold node_of. apply nth_overflow. exact H. Qed.

Lemma check_kids_sound h p cs : forall i, check_kids h p i cs = true ->
  forall j c, nth_error cs j = Some c -> c < length h /\ parent h c = Some p /\ index h c = i + j.
Proof.
  induction cs as [|d cs IH]; intros i H j c Hj; [destruct j; discriminate|].
  cbn in H. rewrite !andb_true_iff in H. destruct H as (((H1 & H2) & H3) & H4).
  destruct j as [|j]; cbn in Hj.
  - injection Hj as <-. apply Nat.ltb_lt in H1. apply Nat.eqb_eq in H3. rewrite Nat.add_0_r.
    unfold opt_eqb in H2. destruct (parent h d) as [q|] eqn:E; [|discriminate]. apply Nat.eqb_eq in H2. subst q.
    repeat split; assumption.
  - destruct (IH (S i) H4 j c Hj) as (A & B & C). repeat split; try assumption. lia.
Qed.

Lemma wf_check_sound h : wf_check h = true -> WF h.
Proof.
  intros H. unfold wf_check in H. rewrite forallb_forall in H.
  assert (Hn : forall x, x < length h -> check_node h x = true).
  { intros x Hx. apply H. apply in_seq. lia. }
  assert (Hout : forall x p, parent h x = Some p -> x < length h).
  { intros x p E. destruct (Nat.lt_ge_cases x (length h)) as [Hx | Hx]; [exact Hx|].
    unfold parent in E. rewrite (node_of_out h x Hx) in E. discriminate. }
  assert (Hpar : forall x p, parent h x = Some p -> p < x /\ Container h p /\ is_root h x = false).
  { intros x p E. specialize (Hn x (Hout x p E)). unfold check_node in Hn. rewrite E in Hn.
    rewrite !andb_true_iff in Hn. destruct Hn as (_ & (H1 & H2) & H3). apply Nat.ltb_lt in H1.
    apply orb_true_iff in H2. apply negb_true_iff in H3. repeat split; assumption. }
  assert (Hup : forall x y, Up h x y -> y < x).
  { intros x y Hu. induction Hu as [x p E | x q p _ IH E]; [apply (Hpar x p E)|]. pose proof (proj1 (Hpar q p E)). lia. }
  split.
  - intros p i c Hl. destruct (Nat.lt_ge_cases p (length h)) as [Hp | Hp].
    + specialize (Hn p Hp). unfold check_node in Hn. apply andb_true_iff in Hn. destruct Hn as [Hk _].
      exact (check_kids_sound h p _ 0 Hk i c Hl).
    + unfold Listed, kids, childs in Hl. rewrite (node_of_out h p Hp) in Hl. destruct i; discriminate.
  - intros x p E. destruct (Hpar x p E) as (H1 & H2 & _). pose proof (Hout x p E). split; [lia | exact H2].
  - intros x Hu. pose proof (Hup x x Hu). lia.
  - intros x Hr. destruct (parent h x) as [p|] eqn:E; [|reflexivity]. destruct (Hpar x p E) as (_ & _ & H3). congruence.
Qed.

Fixpoint intree_check (fuel : nat) (h : heap) (r x : id) : bool :=
  match fuel with
  | 0 => false
  | S f =>
      if Nat.eqb x r then match parent h r with None => true | _ => false end
      else match parent h x with
           | Some p => opt_eqb (nth_error (kids h p) (index h x)) x && intree_check f h r p
           | None => false
           end
  end.
Lemma intree_check_sound h r (fuel : nat) (x : id) : intree_check fuel h r x = true -> InTree h r x.
Proof.
  revert x. induction fuel as [|f IH]; intros x H; [discriminate|]. cbn in H.
  destruct (Nat.eqb_spec x r) as [Er | Hne].
  - rewrite Er. destruct (parent h r) eqn:E; [discriminate|]. split; [exact E|]. exists []. constructor.
  - destruct (parent h x) as [p|] eqn:E; [|discriminate]. apply andb_true_iff in H. destruct H as [H1 H2].
    destruct (IH p H2) as (Hr & l & Hl). split; [exact Hr|]. exists (l ++ [index h x]).
    apply Path_down with (p := p); [exact Hl|]. unfold Listed, opt_eqb in *.
    destruct (nth_error (kids h p) (index h x)) as [y|]; [|discriminate]. apply Nat.eqb_eq in H1. subst y. reflexivity.
Qed.
Definition allin_check (h : heap) (r : id) (l : list id) : bool := forallb (intree_check (S (length h)) h r) l.
Lemma allin_check_sound h r l : allin_check h r l = true -> AllIn h r l.
Proof.
  unfold allin_check. rewrite forallb_forall, Forall_forall. intros H x Hx.
  exact (intree_check_sound h r _ x (H x Hx)).
Qed.
