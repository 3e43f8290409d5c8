(** The regular expressions and patterns of the parser on the texts of the grammar. *)
From Verif Require Import Base Utils Nth NthSpec NthProofs Engine Rules Regex RegexProofs Parse ParseSpec.

(** [char] is [N]: arithmetic over lengths of texts needs one name for it. *)
Ltac slia := unfold str, char in *; lia.

Lemma firstn_pre {A} (w r : list A) : firstn (length (w ++ r) - length r) (w ++ r) = w.
Proof. rewrite app_length, Nat.add_sub, firstn_app, Nat.sub_diag, firstn_all. cbn [firstn]. apply app_nil_r. Qed.
Lemma skipn_pre {A} (w r : list A) : skipn (length w) (w ++ r) = r.
Proof. rewrite skipn_app, Nat.sub_diag, skipn_all. reflexivity. Qed.

Lemma starts_with_app v r : starts_with (v ++ r) v = true.
Proof. induction v as [|c v IH]; [destruct r; reflexivity|]. cbn. unfold char_eqb. rewrite N.eqb_refl. exact IH. Qed.
Lemma starts_with_prefix s v : starts_with s v = true -> exists r, s = v ++ r.
Proof.
  revert s. induction v as [|c v IH]; intros s H; [exists s; reflexivity|]. destruct s as [|d s]; [discriminate|]. cbn in H. apply andb_true_iff in H. destruct H as [H1 H2].
  apply N.eqb_eq in H1. subst d. destruct (IH s H2) as (r & ->). exists r. reflexivity.
Qed.

Definition is_op (c : char) : bool := existsb (char_eqb c) (lit ">,~+").
Lemma ascii_unicode_ws c : is_ascii_ws c = true -> is_unicode_ws c = true.
Proof.
  unfold is_ascii_ws, is_unicode_ws. rewrite !orb_true_iff, !andb_true_iff, !N.eqb_eq, !N.leb_le. lia.
Qed.
Lemma spaces_blank w : Spaces w -> Blank w.
Proof. apply Forall_impl. exact ascii_unicode_ws. Qed.
Lemma ws_not_op c : is_unicode_ws c = true -> is_op c = false.
Proof.
  intros H. destruct (is_op c) eqn:E; [|reflexivity]. unfold is_op in E. cbn in E. unfold char_eqb in E. rewrite !orb_true_iff, !N.eqb_eq in E.
  destruct E as [-> | [-> | [-> | [-> | E]]]]; discriminate.
Qed.
Lemma heads_blank_app p w r : (forall c, is_unicode_ws c = true -> p c = false) -> Blank w -> heads p r = false -> heads p (w ++ r) = false.
Proof. intros H Hw Hr. destruct Hw as [|c w Hc]; [exact Hr | apply H, Hc]. Qed.
Lemma rmatch_none r s c k : (forall s' c', Suffix s' s -> k s' c' = None) -> rmatch r s c k = None.
Proof.
  intros H. destruct (rmatch r s c k) as [x|] eqn:E; [|reflexivity]. destruct (rmatch_some _ _ _ _ _ E) as (s' & c' & S & E').
  rewrite (H s' c' S) in E'. discriminate.
Qed.

(** * The splitter *)
Section Splitter.
  Lemma splitter_none s : heads is_unicode_ws s = false -> heads is_op s = false -> re_exec re_splitter s = None.
  Proof.
    intros Hw Ho. unfold re_exec, re_splitter. rewrite rmatch_grp, rmatch_alt. cbn [rseqs]. rewrite rmatch_seq. unfold re_s.
    rewrite star_chr_nil by exact Hw. rewrite rmatch_seq. unfold one_of. rewrite rmatch_chr. unfold RPlus. rewrite rmatch_seq, rmatch_chr.
    destruct s as [|c s]; [reflexivity|]. cbn [heads] in Hw, Ho. unfold is_op in Ho. rewrite Ho, Hw. reflexivity.
  Qed.
  Lemma splitter_sign w1 o w2 r : Blank w1 -> is_op o = true -> Blank w2 -> heads is_unicode_ws r = false ->
    exists c, re_exec re_splitter ((w1 ++ o :: w2) ++ r) = Some (w1 ++ o :: w2, c).
  Proof.
    intros H1 Ho H2 Hr. eexists. apply re_exec_of with (u := r); [reflexivity|]. unfold re_splitter. rewrite rmatch_grp, rmatch_alt. cbn [rseqs]. rewrite rmatch_seq. unfold re_s.
    rewrite <- app_assoc. cbn [app]. erewrite star_chr_longest; [reflexivity | exact H1 | cbn; destruct (is_unicode_ws o) eqn:E; [rewrite (ws_not_op o E) in Ho; discriminate | reflexivity] |].
    rewrite rmatch_seq. unfold one_of. rewrite rmatch_chr. unfold is_op in Ho. rewrite Ho. apply star_chr_longest; [exact H2 | exact Hr | reflexivity].
  Qed.
  Lemma splitter_blank w r : Blank w -> w <> [] -> heads is_unicode_ws r = false -> heads is_op r = false ->
    exists c, re_exec re_splitter (w ++ r) = Some (w, c).
  Proof.
    intros Hw Hn Hr Ho. exists [(1, w)]. apply re_exec_of with (u := r); [reflexivity|]. unfold re_splitter. rewrite rmatch_grp, rmatch_alt. cbn [rseqs]. rewrite rmatch_seq. unfold re_s.
    rewrite star_chr_none; [| exact Hw | exact Hr |].
    - destruct Hw as [|a w Ha Hw]; [congruence|]. unfold RPlus. rewrite rmatch_seq, rmatch_chr. cbn [app]. rewrite Ha.
      apply star_chr_longest; [exact Hw | exact Hr|]. change (a :: w ++ r) with ((a :: w) ++ r). rewrite firstn_pre. reflexivity.
    - intros u v E. rewrite rmatch_seq. unfold one_of. rewrite rmatch_chr. assert (Hv : Blank v) by (subst w; apply Forall_app in Hw; apply Hw).
      pose proof (heads_blank_app is_op v r ws_not_op Hv Ho) as H. destruct (v ++ r) as [|x y]; [reflexivity|]. cbn [heads] in H. unfold is_op in H. rewrite H. reflexivity.
  Qed.
End Splitter.

(** * Quoted texts *)
Lemma quoted_loop q v : q <> 92%N -> Quoted q v -> forall f rest c x K, length v < f -> K (q :: rest) c = Some x -> (forall d s c', d <> q -> K (d :: s) c' = None) ->
  star_loop false (RSeq (RPlus (ROpt (chr 92%N))) re_dot) K f (v ++ q :: rest) c = Some x.
Proof.
  intros Hq. induction 1 as [|d v H1 H2 H3 Hv IH|j d v H2 H3 Hv IH]; intros f rest c x K Hf HK Hno; destruct f as [|f]; try (cbn in Hf; lia); rewrite star_loop_step_l.
  - cbn [app]. rewrite HK. reflexivity.
  - cbn [app]. rewrite (Hno d _ c H1).
    apply (quoted_item _ x c 0 d); [exact H3 | exact H2|]. cbn [length] in Hf |- *.
    match goal with |- context [?a <? ?b] => replace (a <? b) with true by (symmetry; apply Nat.ltb_lt; cbn [app length]; lia) end.
    apply IH; [lia | exact HK | exact Hno].
  - rewrite <- app_assoc. cbn [app]. cbn [repeat app]. rewrite Hno by congruence.
    change (92%N :: repeat 92%N j ++ d :: v ++ q :: rest) with (repeat 92%N (S j) ++ d :: v ++ q :: rest).
    apply (quoted_item _ x c (S j) d); [exact H3 | exact H2|]. rewrite app_length in Hf. cbn [length] in Hf.
    match goal with |- context [?a <? ?b] => replace (a <? b) with true by (symmetry; apply Nat.ltb_lt; rewrite (app_length (repeat _ _)); cbn [app length]; lia) end.
    apply IH; [slia | exact HK | exact Hno].
Qed.
Lemma quoted_group n q v rest c x k : q <> 92%N -> Quoted q v -> k rest ((n, v) :: c) = Some x ->
  rmatch (rseqs [chr q; RGrp n re_quoted; chr q]) (q :: v ++ q :: rest) c k = Some x.
Proof.
  intros Hq Hv Hk. cbn [rseqs]. rewrite rmatch_seq. unfold chr at 1. rewrite rmatch_chr. unfold char_eqb at 1. rewrite N.eqb_refl.
  rewrite rmatch_seq, rmatch_grp. unfold re_quoted. rewrite star_loop_eq. apply (quoted_loop q v Hq Hv).
  - rewrite app_length. lia.
  - unfold chr. rewrite rmatch_chr. unfold char_eqb. rewrite N.eqb_refl, firstn_pre. exact Hk.
  - intros d s c' Hd. unfold chr. rewrite rmatch_chr. unfold char_eqb. destruct (N.eqb_spec q d); [congruence | reflexivity].
Qed.
Lemma quoted_other n q d s c k : d <> q -> rmatch (rseqs [chr q; RGrp n re_quoted; chr q]) (d :: s) c k = None.
Proof. intros H. cbn [rseqs]. rewrite rmatch_seq. unfold chr at 1. rewrite rmatch_chr. unfold char_eqb. destruct (N.eqb_spec q d); [congruence | reflexivity]. Qed.
Lemma quoted_end n q c k : rmatch (rseqs [chr q; RGrp n re_quoted; chr q]) [] c k = None.
Proof. reflexivity. Qed.

(** * Attribute tests *)
Definition bare_char (stop : str) (c : char) : bool := negb (is_unicode_ws c) && negb (existsb (char_eqb c) stop).
Lemma bare_forall stop v : Bare stop v -> Forall (fun c => bare_char stop c = true) v.
Proof.
  apply Forall_impl. intros c [H1 H2]. unfold bare_char. rewrite H1. cbn. apply negb_true_iff. apply not_true_is_false. intros E.
  apply existsb_exists in E. destruct E as (d & Hd & E). apply N.eqb_eq in E. subst d. exact (H2 Hd).
Qed.
Lemma bare_ws stop c : is_unicode_ws c = true -> bare_char stop c = false.
Proof. unfold bare_char. intros ->. reflexivity. Qed.
Lemma none_of_stop stop b d s c k : bare_char stop d = false -> rmatch (RSeq (none_of stop) b) (d :: s) c k = None.
Proof. intros H. unfold none_of. rewrite rmatch_seq, rmatch_chr. unfold bare_char in H. rewrite H. reflexivity. Qed.
Definition attr_stop : str := (93 :: 39 :: 34 :: lit "<>/=`")%N.
Definition attr_values : re :=
  ralts [rseqs [chr 39%N; RGrp 2 re_quoted; chr 39%N];
         RGrp 3 (RPlus (none_of (93 :: 39 :: 34 :: lit "<>/=`")%N));
         rseqs [chr 34%N; RGrp 4 re_quoted; chr 34%N]].
Definition value_cap (c : caps) : option str :=
  match cap c 2 with Some v => Some v | None => match cap c 3 with Some v => Some v | None => cap c 4 end end.
Definition value_caps (c c' : caps) (v : str) : Prop := exists n, (n = 2 \/ n = 3 \/ n = 4) /\ c' = (n, v) :: c.
Lemma value_match v x r c : ValueText v x -> heads (bare_char attr_stop) r = false ->
  exists c', rmatch attr_values (x ++ r) c (fun s' c' => Some (s', c')) = Some (r, c') /\ value_caps c c' v.
Proof.
  intros [v' Hn Hb | q v' Hq Hv] Hr; unfold attr_values; cbn [ralts].
  - destruct v' as [|d v']; [congruence|]. pose proof (bare_forall _ _ Hb) as Hf. inversion Hb as [|? ? [Hd1 Hd2] _]; subst.
    exists ((3, d :: v') :: c). split; [|exists 3; split; [right; left; reflexivity | reflexivity]].
    rewrite rmatch_alt. cbn [app]. rewrite quoted_other by (intros ->; apply Hd2; cbn; tauto).
    rewrite rmatch_alt, rmatch_grp. unfold RPlus, none_of. rewrite rmatch_seq, rmatch_chr. inversion Hf as [|? ? Hd Hf']; subst. unfold bare_char in Hd.
    change (existsb (char_eqb d) (93 :: 39 :: 34 :: lit "<>/=`")%N) with (existsb (char_eqb d) (lit "]'""<>/=`")). rewrite Hd.
    erewrite star_chr_longest; [reflexivity | exact Hf' | exact Hr |]. 
    change (d :: v' ++ r) with ((d :: v') ++ r). rewrite firstn_pre. reflexivity.
  - cbn [app]. rewrite <- app_assoc. cbn [app]. destruct Hq as [-> | ->].
    + exists ((2, v') :: c). split; [|exists 2; split; [left; reflexivity | reflexivity]].
      rewrite rmatch_alt. erewrite quoted_group; [reflexivity | discriminate | exact Hv | reflexivity].
    + exists ((4, v') :: c). split; [|exists 4; split; [right; right; reflexivity | reflexivity]].
      rewrite rmatch_alt, quoted_other by discriminate. rewrite rmatch_alt, rmatch_grp. unfold RPlus. rewrite none_of_stop by reflexivity.
      apply quoted_group; [discriminate | exact Hv | reflexivity].
Qed.

Lemma mode_spec m op : ModeText m op -> mode_of op = m.
Proof. intros []; reflexivity. Qed.
Lemma value_heads v x r : ValueText v x -> heads is_unicode_ws (x ++ r) = false.
Proof. intros [v' Hn Hb | q v' [-> | ->] Hv]; [|reflexivity..]. destruct Hb as [|c v' [H _]]; [congruence | exact H]. Qed.
Lemma attr_test_match m op w v x r : ModeText m op -> Blank w -> ValueText v x -> heads (bare_char attr_stop) r = false ->
  exists c', re_exec re_attr ((op ++ [61%N] ++ w ++ x) ++ r) = Some (op ++ [61%N] ++ w ++ x, c') /\ cap c' 1 = Some op /\ value_cap c' = Some v.
Proof.
  intros Hm Hw Hv Hr.
  destruct (value_match v x r [(1, op)] Hv Hr) as (c' & E & n & Hn & ->). exists ((n, v) :: [(1, op)]). split; [|destruct Hn as [-> | [-> | ->]]; split; reflexivity].
  apply re_exec_of with (u := r); [reflexivity|]. unfold re_attr, ROpt at 1. rewrite rmatch_alt. cbn [rseqs]. rewrite rmatch_seq, rmatch_grp.
  assert (G : forall t, t = (op ++ [61%N] ++ w ++ x) ++ r ->
    rmatch (ROpt (one_of (lit "*^$~|!"))) t [] (fun s' c' =>
      rmatch (RSeq (chr 61%N) (RSeq (RStar true re_s) attr_values)) s' ((1, firstn (length t - length s') t) :: c') (fun s'0 c'0 => Some (s'0, c'0))) = Some (r, [(n, v); (1, op)])).
  { intros t ->. rewrite <- !app_assoc. cbn [app].
    assert (G : rmatch (RSeq (chr 61%N) (RSeq (RStar true re_s) attr_values)) (61%N :: w ++ x ++ r) [(1, op)] (fun s' c' => Some (s', c')) = Some (r, [(n, v); (1, op)])).
    { rewrite rmatch_seq. unfold chr at 1. rewrite rmatch_chr. cbn [char_eqb]. unfold char_eqb at 1. rewrite N.eqb_refl. rewrite rmatch_seq. unfold re_s.
      apply star_chr_longest; [exact Hw | exact (value_heads v x r Hv) | exact E]. }
    unfold ROpt. rewrite rmatch_alt. unfold one_of at 1. rewrite rmatch_chr. destruct Hm.
    1: { cbn [app]. change (existsb (char_eqb 61%N) (lit "*^$~|!")) with false. cbn iota. rewrite rmatch_eps, Nat.sub_diag. exact G. }
    all: cbn [lit map Ascii.N_of_ascii String.list_ascii_of_string app].
    all: match goal with |- context [if ?b then _ else _] => change b with true; cbn iota end.
    all: match goal with |- context [firstn (length (?o :: ?s) - length ?s) (?o :: ?s)] => change (o :: s) with ([o] ++ s); rewrite firstn_pre end.
    all: match type of G with ?A = _ => match goal with |- context [rmatch ?a ?b ?c ?d] => change (rmatch a b c d) with A end end; rewrite G; reflexivity. }
  specialize (G _ eq_refl).
  match goal with |- match ?X with Some x => Some x | None => _ end = _ => replace X with (Some (r, [(n, v); (1, op)])) by (symmetry; exact G) end.
  reflexivity.
Qed.
Lemma attr_has_match r : re_exec re_attr (93%N :: r) = Some ([], []).
Proof. unfold re_exec. cbn [re_attr ROpt]. unfold re_attr, ROpt at 1. rewrite rmatch_alt. cbn [rseqs]. rewrite rmatch_seq, rmatch_grp. unfold ROpt at 1. rewrite rmatch_alt. unfold one_of at 1.
  rewrite rmatch_chr. change (existsb (char_eqb 93%N) (lit "*^$~|!")) with false. cbn iota. rewrite rmatch_eps, rmatch_seq. unfold chr at 1. rewrite rmatch_chr. cbn [char_eqb].
  change (char_eqb 61%N 93%N) with false. cbn iota. rewrite rmatch_eps, Nat.sub_diag. reflexivity.
Qed.

(** * The argument of [:contains] *)
Definition contains_stop : str := (41 :: 39 :: 34 :: lit "<>/=`")%N.
Lemma contains_quoted_match q v r : Quote q -> Quoted q v -> exists c, re_exec re_contains ((q :: v ++ [q]) ++ r) = Some (q :: v ++ [q], c).
Proof.
  intros Hq Hv. destruct Hq as [-> | ->]; eexists; apply re_exec_of with (u := r); try reflexivity; unfold re_contains; cbn [ralts]; cbn [app]; rewrite <- app_assoc; cbn [app].
  - rewrite rmatch_alt. erewrite quoted_group; [reflexivity | discriminate | exact Hv | reflexivity].
  - rewrite rmatch_alt, quoted_other by discriminate. rewrite rmatch_alt. erewrite quoted_group; [reflexivity | discriminate | exact Hv | reflexivity].
Qed.
Lemma contains_bare_match v r : Bare contains_stop v -> heads (bare_char contains_stop) r = false -> heads (fun c => existsb (char_eqb c) [39; 34]%N) r = false ->
  exists c, re_exec re_contains (v ++ r) = Some (v, c).
Proof.
  intros Hb Hr Hq. exists [(3, v)]. apply re_exec_of with (u := r); [reflexivity|]. unfold re_contains; cbn [ralts].
  assert (H : forall q n c k, Quote q -> rmatch (rseqs [chr q; RGrp n re_quoted; chr q]) (v ++ r) c k = None).
  { intros q n c k Hq'. destruct (v ++ r) as [|d s] eqn:E; [apply quoted_end|]. apply quoted_other. intros ->.
    destruct Hb as [|d v [_ Hd]].
    - cbn in E. subst r. cbn in Hq. destruct Hq' as [-> | ->]; discriminate.
    - cbn in E. injection E as -> _. apply Hd. destruct Hq' as [-> | ->]; cbn; tauto. }
  rewrite rmatch_alt, H by (left; reflexivity). rewrite rmatch_alt, H by (right; reflexivity). rewrite rmatch_grp. unfold none_of.
  apply star_chr_longest; [exact (bare_forall _ _ Hb) | exact Hr|]. rewrite firstn_pre. reflexivity.
Qed.
