(** Proofs about values and going over sets. *)
From Verif Require Import Base Utils UtilsSpec UtilsProofs Attr Dom Form Values ValuesSpec.

(** * Words *)
Lemma split_ws_cons s : exists w l, split_ws s = w :: l /\ Forall (fun c => is_ascii_ws c = false) w.
Proof.
  induction s as [|c s (w & l & E & H)]; [exists [], []; split; [reflexivity | constructor]|]. cbn [split_ws]. destruct (is_ascii_ws c) eqn:Ec.
  - eexists [], _. split; [reflexivity | constructor].
  - rewrite E. exists (c :: w), l. split; [reflexivity | constructor; assumption].
Qed.
Notation keep := (filter (fun w : str => match w with [] => false | _ => true end)).
Lemma split_words_loop s : forall name, class_loop s [] name (match name with [] => true | _ => false end) = keep (match split_ws s with w :: l => (name ++ w) :: l | [] => [] end).
Proof.
  induction s as [|c s IH]; intros name; cbn [class_loop split_ws].
  - rewrite app_nil_r. destruct name; reflexivity.
  - destruct (is_ascii_ws c).
    + rewrite app_nil_r. specialize (IH []). destruct (split_ws_cons s) as (w & l & E & _). rewrite E in IH |- *. cbn [app] in IH.
      destruct name as [|d name]; cbn [filter]; [exact IH|]. rewrite class_loop_acc. rewrite IH. reflexivity.
    + destruct (split_ws_cons s) as (w & l & E & _). specialize (IH (name ++ [c])). rewrite E in IH |- *. rewrite <- app_assoc in IH. cbn [app] in IH.
      destruct name as [|d name]; exact IH.
Qed.
Lemma split_class_list s : split_ascii_whitespace s = get_class_list s.
Proof.
  unfold split_ascii_whitespace, get_class_list. rewrite (split_words_loop s []). cbn [app]. destruct (split_ws s); reflexivity.
Qed.
Lemma split_words s : Words s (split_ascii_whitespace s).
Proof. rewrite split_class_list. apply get_class_list_spec. Qed.

(** * Commas *)
Lemma join_commas l : Commas l (join_comma l).
Proof.
  induction l as [|w l IH]; [constructor|]. destruct l as [|w' l]; [constructor|]. cbn [join_comma] in *. apply (Commas_cons w (w' :: l)); [discriminate | exact IH].
Qed.
Lemma commas_fun l s : Commas l s -> s = join_comma l.
Proof.
  induction 1 as [|w|w l s Hl _ IH]; [reflexivity | reflexivity|]. subst s. destruct l as [|w' l]; [congruence | reflexivity].
Qed.
Lemma app_comma (w1 w2 s1 s2 : str) : ~ In 44%N w1 -> ~ In 44%N w2 -> w1 ++ 44%N :: s1 = w2 ++ 44%N :: s2 -> w1 = w2 /\ s1 = s2.
Proof.
  revert w2. induction w1 as [|c w1 IH]; intros [|c2 w2] H1 H2 E; cbn [app] in E.
  - injection E as E. split; [reflexivity | exact E].
  - injection E as <- _. destruct H2. left. reflexivity.
  - injection E as -> _. destruct H1. left. reflexivity.
  - injection E as -> E. destruct (IH w2) as [-> ->]; [intros H; apply H1; right; exact H | intros H; apply H2; right; exact H | exact E | split; reflexivity].
Qed.
Lemma join_injective l1 l2 : l1 <> [] -> l2 <> [] -> Forall (fun w : str => ~ In 44%N w) l1 -> Forall (fun w : str => ~ In 44%N w) l2 -> join_comma l1 = join_comma l2 -> l1 = l2.
Proof.
  revert l2. induction l1 as [|w1 l1 IH]; intros [|w2 l2] N1 N2 F1 F2 E; try congruence. clear N1 N2.
  inversion F1 as [|? ? A1 B1]; inversion F2 as [|? ? A2 B2]; subst. destruct l1 as [|v1 l1], l2 as [|v2 l2].
  - cbn in E. subst. reflexivity.
  - exfalso. cbn [join_comma] in E. apply A1. rewrite E. apply in_or_app. right. left. reflexivity.
  - exfalso. cbn [join_comma] in E. apply A2. rewrite <- E. apply in_or_app. right. left. reflexivity.
  - change (w1 ++ 44%N :: join_comma (v1 :: l1) = w2 ++ 44%N :: join_comma (v2 :: l2)) in E. destruct (app_comma _ _ _ _ A1 A2 E) as [-> E']. f_equal. apply IH; try discriminate; assumption.
Qed.

(** * Going over a set *)
Definition VisitedFrom {S T} (handle : nat -> id -> S -> res (T * S)) (i : nat) := Visited (fun j => handle (i + j)).
Lemma visited_nil {S T} (handle : nat -> id -> S -> res (T * S)) els st : Visited handle els 0 [st] [].
Proof. split; [lia | reflexivity | reflexivity | intros; lia]. Qed.
Lemma visited_cons {S T} (handle : nat -> id -> S -> res (T * S)) i x els n st st1 a states answers :
  handle i x st = Ok (a, st1) -> nth_error states 0 = Some st1 -> VisitedFrom handle (i + 1) els n states answers -> VisitedFrom handle i (x :: els) (n + 1) (st :: states) (a :: answers).
Proof.
  intros E E0 [V1 V2 V3 V4]. split; [cbn [length]; lia | cbn [length]; lia | cbn [length]; lia |]. intros j y s s' b Hj Hy Hs Hs' Hb. destruct j as [|j].
  - injection Hy as <-. injection Hs as <-. injection Hb as <-. change (nth_error states 0 = Some s') in Hs'. rewrite E0 in Hs'. injection Hs' as <-. rewrite Nat.add_0_r. exact E.
  - cbn [nth_error Nat.add] in *. replace (i + Datatypes.S j) with (i + 1 + j) by lia. apply (V4 j y s s' b); try assumption. lia.
Qed.
Lemma from_cons {S} (states : list S) st st1 st' : From states st1 st' -> From (st :: states) st st'.
Proof. intros [_ (l & ->)]. split; [reflexivity|]. exists (st :: l). reflexivity. Qed.

Lemma for_each_ok {S} (handle : nat -> id -> S -> res (bool * S)) els : forall i st st', for_each_from handle i els st = Ok st' ->
  exists n states answers, VisitedFrom handle i els n states answers /\ From states st st' /\
    (forall j, j + 1 < n -> nth_error answers j = Some true) /\ (n = length els \/ exists j, n = j + 1 /\ nth_error answers j = Some false).
Proof.
  induction els as [|x els IH]; intros i st st' E; cbn [for_each_from] in E.
  - injection E as <-. exists 0, [st], []. split; [apply visited_nil|]. split; [split; [reflexivity | exists []; reflexivity]|]. split; [intros; lia | left; reflexivity].
  - destruct (handle i x st) as [[b st1]| |] eqn:Eh; [|discriminate|discriminate]. cbn [rbind fst snd] in E. destruct b.
    + destruct (IH (i + 1) st1 st' E) as (n & states & answers & V & F & A & L). exists (n + 1), (st :: states), (true :: answers).
      split; [exact (visited_cons handle i x els n st st1 true states answers Eh (proj1 F) V)|]. split; [exact (from_cons _ _ _ _ F)|]. split.
      * intros [|j] Hj; [reflexivity | cbn [nth_error]; apply A; lia].
      * destruct L as [-> | (j & -> & Hj)]; [left; cbn [length]; lia | right; exists (Datatypes.S j); split; [lia | exact Hj]].
    + injection E as <-. exists 1, [st; st1], [false]. split; [|split; [split; [reflexivity | exists [st]; reflexivity]|]].
      * exact (visited_cons handle i x els 0 st st1 false [st1] [] Eh eq_refl (visited_nil _ els st1)).
      * split; [intros; lia | right; exists 0; split; reflexivity].
Qed.
Lemma map_ok {S T} (handle : nat -> id -> S -> res (T * S)) els : forall i acc st r st', map_from handle i els acc st = Ok (r, st') ->
  exists states answers, r = acc ++ answers /\ VisitedFrom handle i els (length els) states answers /\ From states st st'.
Proof.
  induction els as [|x els IH]; intros i acc st r st' E; cbn [map_from] in E.
  - injection E as <- <-. exists [st], []. split; [symmetry; apply app_nil_r|]. split; [apply visited_nil | split; [reflexivity | exists []; reflexivity]].
  - destruct (handle i x st) as [[a st1]| |] eqn:Eh; [|discriminate|discriminate]. cbn [rbind fst snd] in E.
    destruct (IH (i + 1) _ st1 r st' E) as (states & answers & Er & V & F). exists (st :: states), (a :: answers).
    split; [rewrite Er, <- app_assoc; reflexivity|]. split; [|exact (from_cons _ _ _ _ F)].
    replace (length (x :: els)) with (length els + 1) by (cbn [length]; lia). exact (visited_cons handle i x els _ st st1 a states answers Eh (proj1 F) V).
Qed.
(** A run that ends badly does so in the handle, after visits that all went on. *)
Lemma for_each_bad {S} (handle : nat -> id -> S -> res (bool * S)) els : forall i st, (forall st', for_each_from handle i els st <> Ok st') ->
  exists n states answers x st1, VisitedFrom handle i els n states answers /\ From states st st1 /\ (forall j, j < n -> nth_error answers j = Some true) /\
    nth_error els n = Some x /\ (forall p, handle (i + n) x st1 <> Ok p).
Proof.
  induction els as [|x els IH]; intros i st H; cbn [for_each_from] in H; [destruct (H st eq_refl)|].
  destruct (handle i x st) as [[b st1]| |] eqn:Eh.
  - cbn [rbind fst snd] in H. destruct b; [|destruct (H st1 eq_refl)].
    destruct (IH (i + 1) st1 H) as (n & states & answers & y & st2 & V & F & A & Hy & Hb). exists (n + 1), (st :: states), (true :: answers), y, st2.
    split; [exact (visited_cons handle i x els n st st1 true states answers Eh (proj1 F) V)|]. split; [exact (from_cons _ _ _ _ F)|]. split.
    + intros [|j] Hj; [reflexivity | cbn [nth_error]; apply A; lia].
    + rewrite Nat.add_comm. cbn [Nat.add nth_error]. split; [exact Hy|]. intros p. replace (i + Datatypes.S n) with (i + 1 + n) by lia. apply Hb.
  - exists 0, [st], [], x, st. split; [apply visited_nil|]. split; [split; [reflexivity | exists []; reflexivity]|]. split; [intros; lia|]. split; [reflexivity|]. intros p. rewrite Nat.add_0_r, Eh. discriminate.
  - exists 0, [st], [], x, st. split; [apply visited_nil|]. split; [split; [reflexivity | exists []; reflexivity]|]. split; [intros; lia|]. split; [reflexivity|]. intros p. rewrite Nat.add_0_r, Eh. discriminate.
Qed.
Lemma map_pure {T} (f : id -> T) els : forall i acc, map_from (fun _ x (_ : unit) => Ok (f x, tt)) i els acc tt = Ok (acc ++ map f els, tt).
Proof.
  induction els as [|x els IH]; intros i acc; cbn [map_from rbind fst snd map]; [rewrite app_nil_r; reflexivity|]. rewrite IH, <- app_assoc. reflexivity.
Qed.
