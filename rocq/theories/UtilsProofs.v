(** Proofs about the string helpers. *)
From Verif Require Import Base Utils UtilsSpec.

(** ** Words *)

Lemma class_loop_acc s acc name pw :
  class_loop s acc name pw = acc ++ class_loop s [] name pw.
Proof.
  revert acc name pw; induction s as [|c s IH]; intros acc name pw; cbn.
  - destruct pw; [rewrite app_nil_r; reflexivity | reflexivity].
  - destruct (is_ascii_ws c).
    + destruct pw.
      * apply IH.
      * rewrite IH, (IH ([] ++ [name])). rewrite <- app_assoc. reflexivity.
    + apply IH.
Qed.

Lemma class_loop_blank b s :
  Blank b -> class_loop (b ++ s) [] [] true = class_loop s [] [] true.
Proof.
  induction 1 as [|c b Hc Hb IH]; cbn; [reflexivity|]. rewrite Hc. exact IH.
Qed.

Lemma class_loop_word w s name pw :
  Forall (fun c => is_ascii_ws c = false) w -> w <> [] ->
  class_loop (w ++ s) [] name pw = class_loop s [] (name ++ w) false.
Proof.
  intros Hw; revert name pw. induction Hw as [|c w Hc Hw IH]; intros name pw Hne; [congruence|].
  cbn. rewrite Hc. destruct w as [|d w].
  - cbn. reflexivity.
  - rewrite IH by discriminate. rewrite <- app_assoc. reflexivity.
Qed.

Lemma get_class_list_words s l : Words s l -> get_class_list s = l.
Proof.
  unfold get_class_list. induction 1 as [s Hs|b w Hb [Hne Hw]|b w c s l Hb [Hne Hw] Hc Hs IH].
  - rewrite <- (app_nil_r s), class_loop_blank by exact Hs. reflexivity.
  - rewrite class_loop_blank by exact Hb.
    rewrite <- (app_nil_r w), class_loop_word by assumption. cbn. rewrite app_nil_r. reflexivity.
  - rewrite class_loop_blank by exact Hb. rewrite class_loop_word by assumption.
    cbn. rewrite Hc. rewrite class_loop_acc, IH. reflexivity.
Qed.

(** Every string decomposes into words. *)
Lemma words_exist_aux s :
  (exists l, Words s l) /\
  (forall w, Word w -> exists l, Words (w ++ s) l).
Proof.
  induction s as [|c s [[l IH1] IH2]].
  - split.
    + exists []. constructor. constructor.
    + intros w Hw. exists [w]. rewrite app_nil_r. change w with ([] ++ w) at 1. constructor; [constructor | exact Hw].
  - destruct (is_ascii_ws c) eqn:Hc.
    + split.
      * inversion IH1 as [s' Hb|b w Hb Hw|b w d s' l' Hb Hw Hd Hs]; subst.
        -- exists []. constructor. constructor; assumption.
        -- exists [w]. change (c :: b ++ w) with ((c :: b) ++ w). constructor; [constructor; assumption | exact Hw].
        -- exists (w :: l'). change (c :: b ++ w ++ d :: s') with ((c :: b) ++ w ++ d :: s').
           constructor; try assumption. constructor; assumption.
      * intros w Hw. exists (w :: l). change (w ++ c :: s) with ([] ++ w ++ c :: s).
        constructor; try assumption. constructor.
    + split.
      * destruct (IH2 [c]) as [l' Hl'].
        { split; [discriminate | repeat constructor; exact Hc]. }
        exists l'. exact Hl'.
      * intros w [Hne Hw]. destruct (IH2 (w ++ [c])) as [l' Hl'].
        { split; [destruct w; discriminate|]. apply Forall_app; split; [exact Hw | repeat constructor; exact Hc]. }
        exists l'. rewrite <- app_assoc in Hl'. exact Hl'.
Qed.

Lemma get_class_list_spec s : Words s (get_class_list s).
Proof.
  destruct (words_exist_aux s) as [[l Hl] _].
  rewrite (get_class_list_words _ _ Hl). exact Hl.
Qed.

Lemma words_functional s l l' : Words s l -> Words s l' -> l = l'.
Proof.
  intros H H'. apply get_class_list_words in H, H'. congruence.
Qed.

Lemma words_forall s l : Words s l -> Forall Word l.
Proof. induction 1; constructor; try assumption; constructor. Qed.

Lemma class_list_to_string_words l : Forall Word l -> Words (class_list_to_string l) l.
Proof.
  induction l as [|w l IH]; intros H.
  - constructor. constructor.
  - inversion H as [|? ? Hw Hl]; subst. destruct l as [|w' l].
    + cbn. change w with ([] ++ w) at 1. constructor; [constructor | exact Hw].
    + change (class_list_to_string (w :: w' :: l)) with ([] ++ w ++ 32%N :: class_list_to_string (w' :: l)).
      constructor; [constructor | exact Hw | reflexivity | apply IH; exact Hl].
Qed.

Lemma class_list_roundtrip l : Forall Word l -> get_class_list (class_list_to_string l) = l.
Proof. intros H. apply get_class_list_words, class_list_to_string_words, H. Qed.

(** ** Equality ignoring case *)

Lemma to_lower_lower c : is_ascii_lower c = true -> to_lower c = c.
Proof.
  unfold is_ascii_lower, to_lower, is_ascii_upper. intros H.
  apply andb_true_iff in H as [H1 H2]. apply N.leb_le in H1, H2.
  destruct ((65 <=? c) && (c <=? 90))%N eqn:E; [|reflexivity].
  apply andb_true_iff in E as [E1 E2]. apply N.leb_le in E1, E2. lia.
Qed.

Lemma to_lower_eq_cases c d :
  to_lower c = to_lower d <->
  (if char_eqb c d then True
   else if is_ascii_lower c then to_upper c = d
   else if is_ascii_upper c then to_lower c = d else False).
Proof.
  unfold char_eqb, to_lower, to_upper, is_ascii_lower, is_ascii_upper.
  destruct (N.eqb_spec c d) as [->|Hne]; [tauto|].
  destruct (N.leb_spec 65 c), (N.leb_spec c 90), (N.leb_spec 65 d), (N.leb_spec d 90),
    (N.leb_spec 97 c), (N.leb_spec c 122); cbn [andb]; lia.
Qed.

Lemma eq_ic_loop_spec t c :
  length t = length c -> eq_ic_loop t c = true <-> EqIgnoreCase t c.
Proof.
  unfold EqIgnoreCase, str_lower.
  revert c; induction t as [|x t IH]; intros [|y c] Hlen; cbn in *; try discriminate.
  - tauto.
  - injection Hlen as Hlen. specialize (IH c Hlen).
    assert (Hcons : (to_lower x :: map to_lower t = to_lower y :: map to_lower c) <->
                    (to_lower y = to_lower x /\ map to_lower t = map to_lower c)).
    { split; [intros E; injection E as E1 E2; split; congruence | intros [E1 E2]; rewrite E1, E2; reflexivity]. }
    rewrite Hcons, to_lower_eq_cases, <- IH. clear Hcons.
    destruct (char_eqb y x) eqn:E1; [tauto|].
    destruct (is_ascii_lower y) eqn:E2.
    + unfold char_eqb. destruct (N.eqb_spec (to_upper y) x); cbn; [tauto | split; [discriminate | tauto]].
    + destruct (is_ascii_upper y) eqn:E3.
      * unfold char_eqb. destruct (N.eqb_spec (to_lower y) x); cbn; [tauto | split; [discriminate | tauto]].
      * split; [discriminate | tauto].
Qed.

Lemma is_equal_chars_ignore_case_spec t c :
  is_equal_chars_ignore_case t c = true <-> EqIgnoreCase t c.
Proof.
  unfold is_equal_chars_ignore_case.
  destruct (Nat.eqb_spec (length t) (length c)) as [E|E]; cbn.
  - apply eq_ic_loop_spec, E.
  - split; [discriminate|]. intros H. unfold EqIgnoreCase, str_lower in H.
    apply (f_equal (@length _)) in H. rewrite !map_length in H. contradiction.
Qed.

Lemma eq_loop_spec t c : length t = length c -> eq_loop t c = true <-> t = c.
Proof.
  revert c; induction t as [|x t IH]; intros [|y c] Hlen; cbn in *; try discriminate; [tauto|].
  injection Hlen as Hlen. unfold char_eqb. destruct (N.eqb_spec x y) as [->|Hne]; cbn.
  - rewrite IH by exact Hlen. split; [intros ->; reflexivity | intros E; injection E as ->; reflexivity].
  - split; [discriminate | intros E; injection E as E1 _; contradiction].
Qed.

Lemma is_equal_chars_spec t c : is_equal_chars t c = true <-> t = c.
Proof.
  unfold is_equal_chars. destruct (Nat.eqb_spec (length t) (length c)) as [E|E].
  - apply eq_loop_spec, E.
  - split; [discriminate | intros ->; contradiction].
Qed.

(** ** Substring *)

Lemma window_differs_spec w s :
  length w = length s -> window_differs w s = false <-> w = s.
Proof.
  revert s; induction w as [|x w IH]; intros [|y s] Hlen; cbn in *; try discriminate; [tauto|].
  injection Hlen as Hlen. unfold char_eqb. destruct (N.eqb_spec x y) as [->|Hne].
  - rewrite IH by exact Hlen. split; [intros ->; reflexivity | intros E; injection E as ->; reflexivity].
  - split; [discriminate | intros E; injection E as E1 _; contradiction].
Qed.

Lemma contains_loop_spec t s n start :
  length s <= length t -> start + n <= S (length t - length s) ->
  contains_loop t s start n = true <->
  exists k, start <= k < start + n /\ firstn (length s) (skipn k t) = s.
Proof.
  intros Hle. revert start; induction n as [|n IH]; intros start Hn; cbn [contains_loop].
  - split; [discriminate | intros (k & Hk & _); lia].
  - assert (Hwl : length (firstn (length s) (skipn start t)) = length s).
    { rewrite firstn_length, skipn_length. lia. }
    pose proof (window_differs_spec _ _ Hwl) as Hw.
    destruct (window_differs _ s) eqn:E; cbn.
    + rewrite IH by lia. split; intros (k & Hk & Hs).
      * exists k; split; [lia | exact Hs].
      * destruct (Nat.eq_dec k start) as [->|Hne].
        -- apply Hw in Hs. discriminate.
        -- exists k; split; [lia | exact Hs].
    + split; [intros _ | reflexivity]. exists start. split; [lia | apply Hw; reflexivity].
Qed.

Lemma contains_chars_spec t s : contains_chars t s = true <-> Substring s t.
Proof.
  unfold contains_chars, Substring. destruct (Nat.ltb_spec (length t) (length s)) as [Hlt|Hle].
  - split; [discriminate|]. intros (a & b & ->). rewrite !app_length in Hlt. lia.
  - rewrite contains_loop_spec by lia. split.
    + intros (k & Hk & Hs). exists (firstn k t), (skipn (length s) (skipn k t)).
      rewrite <- Hs at 1. rewrite firstn_skipn, firstn_skipn. reflexivity.
    + intros (a & b & ->). exists (length a). rewrite !app_length. split; [lia|].
      rewrite skipn_app, skipn_all, Nat.sub_diag. cbn.
      rewrite firstn_app, firstn_all, Nat.sub_diag. cbn. apply app_nil_r.
Qed.

(** ** Removing positions *)

Lemma vec_remove_spec {A} (l : list A) i :
  vec_remove l i = if i <? length l then Ok (firstn i l ++ skipn (S i) l) else Panic.
Proof.
  revert i; induction l as [|x l IH]; intros [|i]; try reflexivity.
  cbn [vec_remove length firstn skipn app]. rewrite IH.
  destruct (Nat.ltb_spec i (length l)), (Nat.ltb_spec (S i) (S (length l))); try lia; reflexivity.
Qed.

Lemma drop_positions_cons {A} (suf : list A) lo j rest :
  lo <= j -> j < lo + length suf -> Forall (fun k => j < k) rest ->
  drop_positions_from lo suf (j :: rest) =
  firstn (j - lo) suf ++ drop_positions_from (S j) (skipn (S (j - lo)) suf) rest.
Proof.
  revert lo; induction suf as [|x suf IH]; intros lo Hlo Hj Hr; cbn [length] in Hj; [lia|].
  destruct (Nat.eq_dec lo j) as [->|Hne].
  - rewrite Nat.sub_diag. cbn. rewrite Nat.eqb_refl. cbn.
    clear IH Hj Hlo.
    assert (H : forall lo, j < lo -> drop_positions_from lo suf (j :: rest) = drop_positions_from lo suf rest).
    { clear. induction suf as [|x suf IH]; intros lo H; [reflexivity|].
      cbn. destruct (Nat.eqb_spec lo j); [lia|]. cbn. rewrite IH by lia. reflexivity. }
    apply H. lia.
  - replace (j - lo) with (S (j - S lo)) by lia. cbn [firstn app].
    change (drop_positions_from lo (x :: suf) (j :: rest)) with
      (if existsb (Nat.eqb lo) (j :: rest) then drop_positions_from (S lo) suf (j :: rest)
       else x :: drop_positions_from (S lo) suf (j :: rest)).
    assert (E : existsb (Nat.eqb lo) (j :: rest) = false).
    { cbn. destruct (Nat.eqb_spec lo j); [lia|]. cbn.
      destruct (existsb (Nat.eqb lo) rest) eqn:E; [|reflexivity].
      apply existsb_exists in E as (k & Hk & Ek). apply Nat.eqb_eq in Ek. subst k.
      rewrite Forall_forall in Hr. specialize (Hr _ Hk). lia. }
    rewrite E. rewrite IH by (try assumption; lia). reflexivity.
Qed.

Lemma drop_positions_nil {A} (suf : list A) lo : drop_positions_from lo suf [] = suf.
Proof. revert lo; induction suf as [|x suf IH]; intros lo; cbn; [reflexivity | rewrite IH; reflexivity]. Qed.

Lemma StrictIncr_inv j rest :
  StrictIncr (j :: rest) -> Forall (fun k => j < k) rest /\ StrictIncr rest.
Proof.
  revert j; induction rest as [|k rest IH]; intros j H.
  - split; [constructor | exact (proj2 H)].
  - destruct H as [Hjk Hr]. split; [|exact Hr].
    destruct (IH k Hr) as [Hk _]. constructor; [exact Hjk|].
    eapply Forall_impl; [|exact Hk]. cbn. intros; lia.
Qed.

Lemma retain_loop_spec {A} (idx : list nat) : forall (pre suf : list A) lo i,
  StrictIncr idx -> Forall (fun k => lo <= k < lo + length suf) idx -> length pre + i = lo ->
  retain_loop (pre ++ suf) idx i = Ok (pre ++ drop_positions_from lo suf idx).
Proof.
  induction idx as [|j rest IH]; intros pre suf lo i Hs Hb Hlo.
  - cbn [retain_loop]. rewrite drop_positions_nil. reflexivity.
  - apply StrictIncr_inv in Hs as [Hgt Hs]. inversion Hb as [|? ? Hj Hb']; subst.
    cbn [retain_loop]. unfold rsub. destruct (Nat.leb_spec i j); [|lia]. cbn [rbind].
    rewrite vec_remove_spec, app_length.
    destruct (Nat.ltb_spec (j - i) (length pre + length suf)); [|lia]. cbn [rbind].
    set (d := j - (length pre + i)).
    replace (j - i) with (length pre + d) by (subst d; lia).
    rewrite firstn_app_2, skipn_app.
    replace (S (length pre + d)) with (length pre + S d) by lia.
    rewrite skipn_all2 by lia. replace (length pre + S d - length pre) with (S d) by lia.
    rewrite app_nil_l. rewrite (IH (pre ++ firstn d suf) (skipn (S d) suf) (S j) (S i)).
    + rewrite drop_positions_cons by (try assumption; lia).
      fold d. rewrite <- app_assoc. reflexivity.
    + exact Hs.
    + rewrite Forall_forall in Hgt, Hb' |- *. intros k Hk. specialize (Hgt k Hk). specialize (Hb' k Hk).
      rewrite skipn_length. subst d. lia.
    + rewrite app_length, firstn_length. subst d. lia.
Qed.

Lemma retain_by_index_spec {A} (v : list A) idx :
  StrictIncr idx -> Forall (fun k => k < length v) idx ->
  retain_by_index v idx = Ok (drop_positions v idx).
Proof.
  intros Hs Hb. unfold retain_by_index, drop_positions.
  rewrite <- (app_nil_l v) at 1. rewrite (retain_loop_spec idx [] v 0 0).
  - reflexivity.
  - exact Hs.
  - eapply Forall_impl; [|exact Hb]. cbn. intros; lia.
  - reflexivity.
Qed.
