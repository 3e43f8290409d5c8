(** Facts about the regular expression matcher. *)
From Verif Require Import Base Regex.

Definition heads (p : char -> bool) (s : str) : bool := match s with c :: _ => p c | [] => false end.

(** The equations of the matcher. *)
Lemma rmatch_eps s c k : rmatch REps s c k = k s c.
Proof. reflexivity. Qed.
Lemma rmatch_chr p s c k : rmatch (RChr p) s c k = match s with x :: s' => if p x then k s' c else None | [] => None end.
Proof. reflexivity. Qed.
Lemma rmatch_seq a b s c k : rmatch (RSeq a b) s c k = rmatch a s c (fun s' c' => rmatch b s' c' k).
Proof. reflexivity. Qed.
Lemma rmatch_alt a b s c k : rmatch (RAlt a b) s c k = match rmatch a s c k with Some x => Some x | None => rmatch b s c k end.
Proof. reflexivity. Qed.
Lemma rmatch_grp n a s c k : rmatch (RGrp n a) s c k = rmatch a s c (fun s' c' => k s' ((n, firstn (length s - length s') s) :: c')).
Proof. reflexivity. Qed.

(** One round of a repetition of single characters. *)
Lemma star_chr_nil p r c k : heads p r = false -> rmatch (RStar true (RChr p)) r c k = k r c.
Proof.
  intros H. cbn. destruct r as [|x r]; [reflexivity|]. cbn in H. rewrite H. reflexivity.
Qed.
(** The inner loop, by name. *)
Definition star_loop (g : bool) (a : re) (k : str -> caps -> option (str * caps)) : nat -> str -> caps -> option (str * caps) :=
  fix loop (fuel : nat) (s : str) (c : caps) : option (str * caps) :=
    match fuel with
    | 0 => None
    | S f =>
        if g then
          match rmatch a s c (fun s' c' => if length s' <? length s then loop f s' c' else None) with
          | Some x => Some x
          | None => k s c
          end
        else
          match k s c with
          | Some x => Some x
          | None => rmatch a s c (fun s' c' => if length s' <? length s then loop f s' c' else None)
          end
    end.
Lemma star_loop_eq g a s c k : rmatch (RStar g a) s c k = star_loop g a k (S (length s)) s c.
Proof. reflexivity. Qed.
Lemma star_loop_step_g a k f s c : star_loop true a k (S f) s c =
  match rmatch a s c (fun s' c' => if length s' <? length s then star_loop true a k f s' c' else None) with Some x => Some x | None => k s c end.
Proof. reflexivity. Qed.
Lemma star_loop_step_l a k f s c : star_loop false a k (S f) s c =
  match k s c with Some x => Some x | None => rmatch a s c (fun s' c' => if length s' <? length s then star_loop false a k f s' c' else None) end.
Proof. reflexivity. Qed.

Lemma chr_loop_longest p k x w r c f : Forall (fun c => p c = true) w -> heads p r = false -> k r c = Some x ->
  length w < f -> star_loop true (RChr p) k f (w ++ r) c = Some x.
Proof.
  intros Hw Hr Hk. revert f. induction Hw as [|a w Ha Hw IH]; intros f Hf; destruct f as [|f]; try (cbn in Hf; lia).
  - rewrite star_loop_step_g. cbn [app rmatch]. destruct r as [|b r]; [exact Hk|]. cbn in Hr. rewrite Hr. exact Hk.
  - rewrite star_loop_step_g. cbn [app rmatch]. rewrite Ha. cbn [length]. destruct (Nat.ltb_spec (length (w ++ r)) (S (length (w ++ r)))); [|lia].
    rewrite IH by (cbn in Hf; lia). reflexivity.
Qed.
Lemma star_chr_longest p k x w r c : Forall (fun c => p c = true) w -> heads p r = false -> k r c = Some x ->
  rmatch (RStar true (RChr p)) (w ++ r) c k = Some x.
Proof.
  intros Hw Hr Hk. rewrite star_loop_eq. apply chr_loop_longest; try assumption. rewrite app_length. lia.
Qed.
Lemma chr_loop_none p k w r c f : Forall (fun c => p c = true) w -> heads p r = false ->
  (forall u v, w = u ++ v -> k (v ++ r) c = None) -> star_loop true (RChr p) k f (w ++ r) c = None.
Proof.
  intros Hw Hr. revert f. induction Hw as [|a w Ha Hw IH]; intros f Hk; destruct f as [|f]; try reflexivity.
  - rewrite star_loop_step_g. cbn [app rmatch]. destruct r as [|b r]; [exact (Hk [] [] eq_refl)|]. cbn in Hr. rewrite Hr. exact (Hk [] [] eq_refl).
  - rewrite star_loop_step_g. cbn [app rmatch]. rewrite Ha. cbn [length]. destruct (Nat.ltb_spec (length (w ++ r)) (S (length (w ++ r)))); [|lia].
    rewrite IH; [exact (Hk [] (a :: w) eq_refl)|]. intros u v E. apply (Hk (a :: u) v). rewrite E. reflexivity.
Qed.
Lemma star_chr_none p k w r c : Forall (fun c => p c = true) w -> heads p r = false ->
  (forall u v, w = u ++ v -> k (v ++ r) c = None) -> rmatch (RStar true (RChr p)) (w ++ r) c k = None.
Proof. intros. rewrite star_loop_eq. apply chr_loop_none; assumption. Qed.

(** Any text splits into the characters that satisfy [p] and the rest. *)
Lemma split_while p (s : str) : exists w r, s = w ++ r /\ Forall (fun c => p c = true) w /\ heads p r = false.
Proof.
  induction s as [|x s (w & r & -> & Hw & Hr)]; [exists [], []; split; [reflexivity | split; [constructor | reflexivity]]|].
  destruct (p x) eqn:E.
  - exists (x :: w), r. split; [reflexivity | split; [constructor; assumption | exact Hr]].
  - exists [], (x :: w ++ r). split; [reflexivity | split; [constructor | exact E]].
Qed.

(** The rest a match leaves is a suffix of the text. *)
Definition Suffix (r s : str) : Prop := exists w, s = w ++ r.
Lemma suffix_refl s : Suffix s s.
Proof. exists []. reflexivity. Qed.
Lemma suffix_cons x r s : Suffix r s -> Suffix r (x :: s).
Proof. intros (w & ->). exists (x :: w). reflexivity. Qed.
Lemma suffix_trans a b c : Suffix a b -> Suffix b c -> Suffix a c.
Proof. intros (w & ->) (v & ->). exists (v ++ w). apply app_assoc. Qed.
Lemma suffix_length r s : Suffix r s -> length r <= length s.
Proof. intros (w & ->). rewrite app_length. lia. Qed.

(** What [k] returns comes through on some suffix. *)
Lemma rmatch_some r : forall s c k x, rmatch r s c k = Some x -> exists s' c', Suffix s' s /\ k s' c' = Some x.
Proof.
  induction r as [|p|a IHa b IHb|a IHa b IHb|g a IHa|n a IHa]; intros s c k x H.
  - exists s, c. split; [apply suffix_refl | exact H].
  - cbn in H. destruct s as [|y s]; [discriminate|]. destruct (p y); [|discriminate]. exists s, c. split; [apply suffix_cons, suffix_refl | exact H].
  - cbn in H. destruct (IHa _ _ _ _ H) as (s1 & c1 & S1 & H1). destruct (IHb _ _ _ _ H1) as (s2 & c2 & S2 & H2).
    exists s2, c2. split; [exact (suffix_trans _ _ _ S2 S1) | exact H2].
  - cbn in H. destruct (rmatch a s c k) as [y|] eqn:E; [injection H as <-; exact (IHa _ _ _ _ E) | exact (IHb _ _ _ _ H)].
  - rewrite star_loop_eq in H. remember (S (length s)) as f eqn:Ef. clear Ef. revert s c H. induction f as [|f IH]; intros s c H; [discriminate|].
    destruct g.
    + rewrite star_loop_step_g in H.
      destruct (rmatch a s c (fun s' c' => if length s' <? length s then star_loop true a k f s' c' else None)) as [y|] eqn:E.
      * injection H as <-. destruct (IHa _ _ _ _ E) as (s1 & c1 & S1 & H1). destruct (length s1 <? length s); [|discriminate].
        destruct (IH _ _ H1) as (s2 & c2 & S2 & H2). exists s2, c2. split; [exact (suffix_trans _ _ _ S2 S1) | exact H2].
      * exists s, c. split; [apply suffix_refl | exact H].
    + rewrite star_loop_step_l in H. destruct (k s c) as [y|] eqn:E.
      * injection H as <-. exists s, c. split; [apply suffix_refl | exact E].
      * destruct (IHa _ _ _ _ H) as (s1 & c1 & S1 & H1). destruct (length s1 <? length s); [|discriminate].
        destruct (IH _ _ H1) as (s2 & c2 & S2 & H2). exists s2, c2. split; [exact (suffix_trans _ _ _ S2 S1) | exact H2].
  - cbn in H. destruct (IHa _ _ _ _ H) as (s1 & c1 & S1 & H1). exists s1, ((n, firstn (length s - length s1) s) :: c1). split; [exact S1 | exact H1].
Qed.
Lemma re_exec_prefix r s w c : re_exec r s = Some (w, c) -> exists u, s = w ++ u.
Proof.
  unfold re_exec. destruct (rmatch r s [] (fun s' c' => Some (s', c'))) as [[rest c']|] eqn:E; [|discriminate]. intros H. injection H as <- _.
  exists (skipn (length s - length rest) s). symmetry. apply firstn_skipn.
Qed.
Lemma re_exec_of r s w u c : s = w ++ u -> rmatch r s [] (fun s' c' => Some (s', c')) = Some (u, c) -> re_exec r s = Some (w, c).
Proof.
  intros -> H. unfold re_exec. rewrite H. rewrite app_length, Nat.add_sub, firstn_app, Nat.sub_diag, firstn_all. cbn [firstn]. rewrite app_nil_r. reflexivity.
Qed.

(** The quoted text. *)
Lemma bs_loop k x f c j d s :
  k (d :: s) c = Some x -> char_eqb 92%N d = false -> j < f ->
  star_loop true (ROpt (chr 92%N)) k f (repeat 92%N j ++ d :: s) c = Some x.
Proof.
  intros Hk Hd. revert f. induction j as [|j IH]; intros f Hf; destruct f as [|f]; try lia; rewrite star_loop_step_g; unfold ROpt, chr; cbn [repeat app rmatch].
  - rewrite Hd. rewrite Nat.ltb_irrefl. exact Hk.
  - cbn [char_eqb]. rewrite N.eqb_refl. cbn [length]. match goal with |- context [?a <? S ?a] => replace (a <? S a) with true by (symmetry; apply Nat.ltb_lt; lia) end.
    unfold ROpt, chr in IH. rewrite (IH f ltac:(lia)). reflexivity.
Qed.
Lemma quoted_item k x c j d s : d <> 92%N -> d <> 10%N -> k s c = Some x ->
  rmatch (RSeq (RPlus (ROpt (chr 92%N))) re_dot) (repeat 92%N j ++ d :: s) c k = Some x.
Proof.
  intros H1 H2 Hk. assert (Hd : char_eqb 92%N d = false) by (apply N.eqb_neq; congruence).
  assert (Hdot : forall c', (match d :: s with [] => None | x :: s' => if negb (char_eqb x 10%N) then k s' c' else None end) = k s c').
  { intros c'. cbn. unfold char_eqb. destruct (N.eqb_spec d 10); [congruence | reflexivity]. }
  change (rmatch (RSeq (RPlus (ROpt (chr 92%N))) re_dot) (repeat 92%N j ++ d :: s) c k)
    with (rmatch (ROpt (chr 92%N)) (repeat 92%N j ++ d :: s) c
            (fun s1 c1 => rmatch (RStar true (ROpt (chr 92%N))) s1 c1 (fun s2 c2 => rmatch re_dot s2 c2 k))).
  assert (Hs : forall i, rmatch (RStar true (ROpt (chr 92%N))) (repeat 92%N i ++ d :: s) c (fun s2 c2 => rmatch re_dot s2 c2 k) = Some x).
  { intros i. rewrite star_loop_eq. apply bs_loop; [|exact Hd|rewrite app_length, repeat_length; lia].
    unfold re_dot. cbn [rmatch]. rewrite Hdot. exact Hk. }
  unfold ROpt at 1. unfold chr at 1. rewrite rmatch_alt, rmatch_chr. destruct j as [|j].
  - cbn [repeat app]. rewrite Hd. rewrite rmatch_eps. exact (Hs 0).
  - cbn [repeat app]. unfold char_eqb at 1. rewrite N.eqb_refl. rewrite (Hs j). reflexivity.
Qed.

(** * The texts a regular expression can match, with the captures before and after *)
Inductive Lang : re -> str -> caps -> caps -> Prop :=
| L_eps c : Lang REps [] c c
| L_chr p x c : p x = true -> Lang (RChr p) [x] c c
| L_seq a b u v c c' c'' : Lang a u c c' -> Lang b v c' c'' -> Lang (RSeq a b) (u ++ v) c c''
| L_alt_l a b u c c' : Lang a u c c' -> Lang (RAlt a b) u c c'
| L_alt_r a b u c c' : Lang b u c c' -> Lang (RAlt a b) u c c'
| L_star_nil g a c : Lang (RStar g a) [] c c
| L_star_more g a u v c c' c'' : Lang a u c c' -> Lang (RStar g a) v c' c'' -> Lang (RStar g a) (u ++ v) c c''
| L_grp n a u c c' : Lang a u c c' -> Lang (RGrp n a) u c ((n, u) :: c').
Lemma firstn_front {A} (w r : list A) : firstn (length (w ++ r) - length r) (w ++ r) = w.
Proof. rewrite app_length, Nat.add_sub, firstn_app, Nat.sub_diag, firstn_all. cbn [firstn]. apply app_nil_r. Qed.
Lemma rmatch_lang r : forall s c k x, rmatch r s c k = Some x -> exists w s' c', s = w ++ s' /\ Lang r w c c' /\ k s' c' = Some x.
Proof.
  induction r as [|p|a IHa b IHb|a IHa b IHb|g a IHa|n a IHa]; intros s c k x H.
  - exists [], s, c. split; [reflexivity|]. split; [constructor | exact H].
  - cbn in H. destruct s as [|y s]; [discriminate|]. destruct (p y) eqn:E; [|discriminate]. exists [y], s, c. split; [reflexivity|]. split; [constructor; exact E | exact H].
  - cbn in H. destruct (IHa _ _ _ _ H) as (w1 & s1 & c1 & -> & L1 & H1). destruct (IHb _ _ _ _ H1) as (w2 & s2 & c2 & -> & L2 & H2).
    exists (w1 ++ w2), s2, c2. split; [apply app_assoc|]. split; [exact (L_seq _ _ _ _ _ _ _ L1 L2) | exact H2].
  - cbn in H. destruct (rmatch a s c k) as [y|] eqn:E.
    + injection H as <-. destruct (IHa _ _ _ _ E) as (w & s' & c' & Es & L & H'). exists w, s', c'. split; [exact Es|]. split; [apply L_alt_l, L | exact H'].
    + destruct (IHb _ _ _ _ H) as (w & s' & c' & Es & L & H'). exists w, s', c'. split; [exact Es|]. split; [apply L_alt_r, L | exact H'].
  - rewrite star_loop_eq in H. remember (S (length s)) as f eqn:Ef. clear Ef. revert s c H. induction f as [|f IH]; intros s c H; [discriminate|].
    assert (B : rmatch a s c (fun s' c' => if length s' <? length s then star_loop g a k f s' c' else None) = Some x -> exists w s' c', s = w ++ s' /\ Lang (RStar g a) w c c' /\ k s' c' = Some x).
    { intros E. destruct (IHa _ _ _ _ E) as (w1 & s1 & c1 & -> & L1 & H1). destruct (length s1 <? length (w1 ++ s1)); [|discriminate].
      destruct (IH _ _ H1) as (w2 & s2 & c2 & -> & L2 & H2). exists (w1 ++ w2), s2, c2. split; [apply app_assoc|]. split; [exact (L_star_more _ _ _ _ _ _ _ L1 L2) | exact H2]. }
    destruct g.
    + rewrite star_loop_step_g in H. destruct (rmatch a s c (fun s' c' => if length s' <? length s then star_loop true a k f s' c' else None)) as [y|].
      * injection H as ->. exact (B eq_refl).
      * exists [], s, c. split; [reflexivity|]. split; [constructor | exact H].
    + rewrite star_loop_step_l in H. destruct (k s c) as [y|] eqn:E.
      * injection H as ->. exists [], s, c. split; [reflexivity|]. split; [constructor | exact E].
      * exact (B H).
  - cbn in H. destruct (IHa _ _ _ _ H) as (w & s1 & c1 & -> & L & H1). rewrite firstn_front in H1. exists w, s1, ((n, w) :: c1). split; [reflexivity|]. split; [constructor; exact L | exact H1].
Qed.
Lemma re_exec_lang r s w c : re_exec r s = Some (w, c) -> Lang r w [] c /\ exists u, s = w ++ u.
Proof.
  unfold re_exec. destruct (rmatch r s [] (fun s' c' => Some (s', c'))) as [[rest c']|] eqn:E; [|discriminate]. intros H. injection H as <- <-.
  destruct (rmatch_lang _ _ _ _ _ E) as (w & s' & c'' & -> & L & H). injection H as -> ->. rewrite firstn_front. split; [exact L | exists rest; reflexivity].
Qed.
Lemma lang_chr p u c c' : Lang (RChr p) u c c' -> exists x, u = [x] /\ p x = true /\ c' = c.
Proof. intros H. inversion H; subst. eexists. split; [reflexivity | split; [assumption | reflexivity]]. Qed.
Lemma lang_seq a b u c c' : Lang (RSeq a b) u c c' -> exists v w c1, u = v ++ w /\ Lang a v c c1 /\ Lang b w c1 c'.
Proof. intros H. inversion H; subst. eexists. eexists. eexists. split; [reflexivity | split; eassumption]. Qed.
Lemma lang_alt a b u c c' : Lang (RAlt a b) u c c' -> Lang a u c c' \/ Lang b u c c'.
Proof. intros H. inversion H; subst; [left | right]; assumption. Qed.
Lemma lang_grp n a u c c' : Lang (RGrp n a) u c c' -> exists c1, Lang a u c c1 /\ c' = (n, u) :: c1.
Proof. intros H. inversion H; subst. eexists. split; [eassumption | reflexivity]. Qed.
Lemma lang_eps u c c' : Lang REps u c c' -> u = [] /\ c' = c.
Proof. intros H. inversion H; split; reflexivity. Qed.
Lemma lang_star_chr g p u c c' : Lang (RStar g (RChr p)) u c c' -> Forall (fun c => p c = true) u /\ c' = c.
Proof.
  intros H. remember (RStar g (RChr p)) as r eqn:E. induction H as [| | | | |g' a c|g' a u v c c1 c2 H _ H' IH|]; try discriminate; [split; constructor|].
  injection E as -> ->. destruct (lang_chr p u _ _ H) as (x & -> & Hx & ->). destruct (IH eq_refl) as [I1 I2]. split; [constructor; [exact Hx | exact I1] | exact I2].
Qed.
(** Only the groups of the expression are captured. *)
Fixpoint re_groups (r : re) : list nat :=
  match r with
  | REps | RChr _ => []
  | RSeq a b | RAlt a b => re_groups a ++ re_groups b
  | RStar _ a => re_groups a
  | RGrp n a => n :: re_groups a
  end.
Lemma lang_caps r u c c' n : Lang r u c c' -> existsb (Nat.eqb n) (re_groups r) = false -> cap c' n = cap c n.
Proof.
  intros H. induction H as [| |a b u v c c1 c2 _ IH1 _ IH2|a b u c c1 _ IH|a b u c c1 _ IH|g a c|g a u v c c1 c2 _ IH1 _ IH2|m a u c c1 _ IH]; intros Hn; cbn [re_groups] in Hn;
    try rewrite existsb_app, orb_false_iff in Hn.
  - reflexivity.
  - reflexivity.
  - rewrite IH2, IH1; [reflexivity | apply Hn | apply Hn].
  - apply IH, Hn.
  - apply IH, Hn.
  - reflexivity.
  - rewrite IH2, IH1; [reflexivity | exact Hn | exact Hn].
  - cbn [existsb] in Hn. apply orb_false_iff in Hn. destruct Hn as [H1 H2]. cbn [cap]. rewrite Nat.eqb_sym, H1. exact (IH H2).
Qed.
