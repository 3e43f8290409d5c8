(** Expressions that differ only in how their character tests are written match alike. *)
From Verif Require Import Base Regex.

Inductive re_same : re -> re -> Prop :=
| same_eps : re_same REps REps
| same_chr p q : (forall c, p c = q c) -> re_same (RChr p) (RChr q)
| same_seq a a' b b' : re_same a a' -> re_same b b' -> re_same (RSeq a b) (RSeq a' b')
| same_alt a a' b b' : re_same a a' -> re_same b b' -> re_same (RAlt a b) (RAlt a' b')
| same_star g a a' : re_same a a' -> re_same (RStar g a) (RStar g a')
| same_grp n a a' : re_same a a' -> re_same (RGrp n a) (RGrp n a').

Section SameLoop.
  Variable g : bool.
  Variable m : str -> caps -> (str -> caps -> option (str * caps)) -> option (str * caps).
  Variable k : str -> caps -> option (str * caps).
  Fixpoint same_loop (fuel : nat) (s : str) (c : caps) : option (str * caps) :=
    match fuel with
    | 0 => None
    | S f =>
        if g then
          match m s c (fun s' c' => if length s' <? length s then same_loop f s' c' else None) with Some x => Some x | None => k s c end
        else
          match k s c with Some x => Some x | None => m s c (fun s' c' => if length s' <? length s then same_loop f s' c' else None) end
    end.
End SameLoop.
Lemma rmatch_star g a s c k : rmatch (RStar g a) s c k = same_loop g (rmatch a) k (S (length s)) s c.
Proof. reflexivity. Qed.
Lemma rmatch_same a b : re_same a b -> forall s c k k', (forall s c, k s c = k' s c) -> rmatch a s c k = rmatch b s c k'.
Proof.
  induction 1 as [|p q Hp|a a' b b' _ IHa _ IHb|a a' b b' _ IHa _ IHb|g a a' _ IH|n a a' _ IH]; intros s c k k' Hk.
  - apply Hk.
  - cbn [rmatch]. destruct s as [|x s]; [reflexivity|]. rewrite Hp, Hk. reflexivity.
  - cbn [rmatch]. apply IHa. intros s1 c1. apply IHb. exact Hk.
  - cbn [rmatch]. rewrite (IHa s c k k' Hk), (IHb s c k k' Hk). reflexivity.
  - rewrite !rmatch_star. generalize (S (length s)) as fuel. intros fuel. revert s c.
    induction fuel as [|f IHf]; intros s c; [reflexivity|]. cbn [same_loop].
    assert (G : rmatch a s c (fun s' c' => if length s' <? length s then same_loop g (rmatch a) k f s' c' else None) =
                rmatch a' s c (fun s' c' => if length s' <? length s then same_loop g (rmatch a') k' f s' c' else None)).
    { apply IH. intros s1 c1. rewrite IHf. reflexivity. }
    rewrite G, Hk. reflexivity.
  - cbn [rmatch]. apply IH. intros s1 c1. apply Hk.
Qed.
Lemma re_exec_same a b s : re_same a b -> re_exec a s = re_exec b s.
Proof. intros H. unfold re_exec. rewrite (rmatch_same a b H s [] _ _ (fun _ _ => eq_refl)). reflexivity. Qed.
