(** Proofs about the template scanner. *)
From Verif Require Import Base Utils Engine Template TemplateSpec.

Lemma ceqb_eq a b : char_eqb a b = true <-> a = b.
Proof. unfold char_eqb. apply N.eqb_eq. Qed.
Lemma ceqb_neq a b : char_eqb a b = false <-> a <> b.
Proof. unfold char_eqb. apply N.eqb_neq. Qed.
Lemma ceqb_refl a : char_eqb a a = true.
Proof. apply ceqb_eq. reflexivity. Qed.
Lemma rfold_app {A B} (f : B -> A -> res B) l m acc : rfold f (l ++ m) acc = do a <- rfold f l acc; rfold f m a.
Proof. revert acc. induction l as [|x l IH]; intros acc; [reflexivity|]. cbn. destruct (f acc x); cbn; auto. Qed.

(** What the scanner has gathered: the queue so far and the pending run of literals. *)
Definition gather1 (s : list qitem * str) (i : titem) : list qitem * str :=
  let '(q, p) := s in
  match i with
  | TLit c => (q, p ++ [c])
  | TPat n => ((q ++ run_mid p) ++ [QNamed n []], [])
  | TRaw _ raw _ => ((q ++ run_mid p) ++ [QNamed PnRegexp raw], [])
  end.
Definition gather (l : list titem) : list qitem * str := fold_left gather1 l ([], []).
Lemma gather_queue l : forall q p, fst (fold_left gather1 l (q, p)) ++ run_last (snd (fold_left gather1 l (q, p))) = q ++ queue_of p l.
Proof.
  induction l as [|i l IH]; intros q p; [reflexivity|]. cbn [fold_left]. destruct i; cbn [gather1 queue_of]; rewrite IH; auto.
  - rewrite <- !app_assoc. reflexivity.
  - rewrite <- !app_assoc. reflexivity.
Qed.
Lemma gather_end l : fst (gather l) ++ run_last (snd (gather l)) = queue_of [] l.
Proof. unfold gather. apply gather_queue. Qed.
Lemma gather_snoc l i : gather (l ++ [i]) = gather1 (gather l) i.
Proof. unfold gather. rewrite fold_left_app. reflexivity. Qed.
Lemma render_snoc l i : render (l ++ [i]) = render l ++ written i.
Proof. unfold render. rewrite flat_map_app. cbn. now rewrite app_nil_r. Qed.

(** The states of the scanner. *)
Definition st_normal (p : char) (f : bool) (q : list qitem) (cs : str) : tstate := mkT p f 0 false false [] [] [] cs q.
Definition quiet (p : char) (f : bool) : Prop := p <> LBRACE /\ (p = RBRACE -> f = true).
Definition st_name (p : char) (nm : str) (q : list qitem) : tstate := mkT p false 0 false true [] [] nm [] q.
Definition st_hash (m : nat) (nm : str) (q : list qitem) : tstate := mkT HASH false m false true [] [] nm [] q.
Definition st_raw (p : char) (k : nat) (nm raw : str) (q : list qitem) : tstate := mkT p false (S k) false true raw [] nm [] q.
Definition st_wait (p : char) (k : nat) (nm raw : str) (q : list qitem) : tstate := mkT p false (S k) true true raw [] nm [] q.

Lemma quiet_push p f q cs c : quiet p f -> t_step (st_normal p f q cs) c = Ok (st_normal c false q (cs ++ [c])).
Proof.
  intros [H1 H2]. unfold t_step. cbn. apply ceqb_neq in H1. rewrite H1. destruct (char_eqb p RBRACE) eqn:E; [|reflexivity].
  apply ceqb_eq in E. rewrite (H2 E). reflexivity.
Qed.
Lemma open_step f q cs c : c <> LBRACE -> t_step (st_normal LBRACE f q (cs ++ [LBRACE])) c = Ok (st_name c [c] (q ++ run_mid cs)).
Proof.
  intros H. unfold t_step, st_name, st_normal. cbn -[removelast app]. apply ceqb_neq in H. rewrite H. rewrite removelast_last.
  destruct cs; reflexivity.
Qed.
Lemma name_step p nm q c : nm <> [] -> p <> HASH -> is_ascii_alnum c || char_eqb c 95%N = true ->
  t_step (st_name p nm q) c = Ok (st_name c (nm ++ [c]) q).
Proof.
  intros Hn Hp Hc. unfold t_step, st_name, t_in_name. cbn -[is_ascii_alnum char_eqb]. apply ceqb_neq in Hp.
  assert (A : char_eqb c RBRACE = false). { apply ceqb_neq. intros ->. discriminate. }
  assert (B : char_eqb c HASH = false). { apply ceqb_neq. intros ->. discriminate. }
  rewrite A, B, Hp, Hc. reflexivity.
Qed.
Definition word (s : str) : Prop := Forall (fun c => is_ascii_alnum c || char_eqb c 95%N = true) s.
Lemma word_no_hash s : word s -> ~ In HASH s.
Proof. intros H I. unfold word in H. rewrite Forall_forall in H. specialize (H _ I). discriminate. Qed.
Lemma names_steps s : forall p nm q, word s -> nm <> [] -> p <> HASH ->
  exists p', p' <> HASH /\ rfold t_step s (st_name p nm q) = Ok (st_name p' (nm ++ s) q).
Proof.
  induction s as [|c s IH]; intros p nm q Hw Hn Hp.
  - exists p. split; [exact Hp|]. rewrite app_nil_r. reflexivity.
  - inversion Hw; subst. cbn [rfold]. rewrite name_step by assumption. cbn [rbind].
    destruct (IH c (nm ++ [c]) q) as (p' & Hp' & E); auto.
    + destruct nm; discriminate.
    + intros ->. discriminate.
    + exists p'. split; [exact Hp'|]. rewrite E, <- app_assoc. reflexivity.
Qed.
Lemma name_hd n : exists c s, name_of n = c :: s /\ c <> LBRACE /\ c <> HASH /\ word s.
Proof. destruct n; (eexists; eexists; split; [vm_compute; reflexivity|]; split; [discriminate|]; split; [discriminate|]; repeat constructor). Qed.
Lemma into_name n p f q cs : quiet p f ->
  exists p', p' <> HASH /\ rfold t_step (LBRACE :: name_of n) (st_normal p f q cs) = Ok (st_name p' (name_of n) (q ++ run_mid cs)).
Proof.
  intros Hq. destruct (name_hd n) as (c & s & -> & H1 & H2 & H3). cbn [rfold]. rewrite quiet_push by exact Hq. cbn [rbind].
  rewrite open_step by exact H1. cbn [rbind]. destruct (names_steps s c [c] (q ++ run_mid cs) H3) as (p' & Hp & E); auto; [discriminate|].
  exists p'. split; auto.
Qed.
Lemma find_name n : find_pattern (name_of n) = Some n.
Proof. destruct n; reflexivity. Qed.
Lemma find_pattern_name s n : find_pattern s = Some n -> s = name_of n.
Proof.
  unfold find_pattern. intros H.
  repeat match type of H with context [if str_eqb ?a ?b then _ else _] =>
    let E := fresh in destruct (str_eqb a b) eqn:E; [apply str_eqb_spec in E; inversion H; subst; reflexivity|clear E] end.
  discriminate.
Qed.
Lemma name_end p n q : t_step (st_name p (name_of n) q) RBRACE = Ok (st_normal RBRACE true (q ++ [QNamed n []]) []).
Proof. destruct n; reflexivity. Qed.

(** Hashes. *)
Lemma hash_first p nm q : nm <> [] -> t_step (st_name p nm q) HASH = Ok (st_hash 1 nm q).
Proof. reflexivity. Qed.
Lemma hashes_steps j : forall m nm q, rfold t_step (repeat HASH j) (st_hash m nm q) = Ok (st_hash (j + m) nm q).
Proof.
  induction j as [|j IH]; intros m nm q; [reflexivity|]. cbn [repeat rfold].
  change (t_step (st_hash m nm q) HASH) with (@Ok tstate (st_hash (S m) nm q)). cbn [rbind]. rewrite IH. f_equal. f_equal. lia.
Qed.
Lemma raw_first k nm q c : c <> HASH -> c <> RBRACE -> t_step (st_hash (S k) nm q) c = Ok (st_raw c k nm [c] q).
Proof.
  intros H1 H2. unfold t_step, st_hash, t_in_name. cbn -[char_eqb]. apply ceqb_neq in H1, H2. rewrite H1, H2.
  reflexivity.
Qed.
Lemma count_le s : length (filter (char_eqb HASH) s) <= length s.
Proof. induction s as [|c s IH]; cbn [filter length]; [lia|]. destruct (char_eqb HASH c); cbn [length]; lia. Qed.
Lemma count_all s : count_hash s = length s <-> s = repeat HASH (length s).
Proof.
  unfold count_hash. induction s as [|c s IH]; cbn [filter length repeat]; [tauto|].
  destruct (char_eqb HASH c) eqn:E.
  - apply ceqb_eq in E. subst c. cbn [length]. split.
    + intros H. f_equal. apply IH. lia.
    + intros H. injection H as H. f_equal. apply IH. exact H.
  - apply ceqb_neq in E. split.
    + intros H. exfalso. pose proof (count_le s). lia.
    + intros H. inversion H. congruence.
Qed.
Lemma raw_other p k nm raw q c : raw <> [] -> c <> HASH -> t_step (st_raw p k nm raw q) c = Ok (st_raw c k nm (raw ++ [c]) q).
Proof.
  intros Hr Hc. unfold t_step, st_raw, t_in_raw. cbn -[char_eqb nonempty]. destruct raw; [congruence|]. cbn [nonempty].
  apply ceqb_neq in Hc. rewrite Hc. reflexivity.
Qed.
Lemma raw_hash p k nm raw q : raw <> [] -> t_step (st_raw p k nm raw q) HASH =
  if k =? 0 then Ok (st_wait HASH k nm raw q)
  else if k <=? length raw then
    if (0 <? length raw - k) && (count_hash (skipn (length raw - k) raw) =? k) then Ok (st_wait HASH k nm (firstn (length raw - k) raw) q)
    else Ok (st_raw HASH k nm (raw ++ [HASH]) q)
  else Panic.
Proof.
  intros Hr. unfold t_step, st_raw, st_wait, t_in_raw, usub. cbn -[char_eqb nonempty Nat.ltb Nat.leb Nat.eqb count_hash firstn skipn length].
  destruct raw as [|c raw]; [congruence|]. cbn [nonempty]. rewrite ceqb_refl. change (1 <=? S k) with true. cbn [rbind].
  rewrite Nat.sub_0_r. destruct (k =? 0) eqn:E; [reflexivity|].
  destruct (k <=? length (c :: raw)); cbn [rbind]; [|reflexivity].
  destruct (_ && _); reflexivity.
Qed.

(** Runs of hashes. *)
Lemma norun_prefix m s t : NoRun m (s ++ t) -> NoRun m s.
Proof. intros H a b E. subst s. apply (H a (b ++ t)). rewrite <- !app_assoc. reflexivity. Qed.
Lemma repeat_snoc (c : char) m : repeat c (S m) = repeat c m ++ [c].
Proof. induction m as [|m IH]; [reflexivity|]. cbn [repeat] in *. rewrite IH at 1. reflexivity. Qed.
Lemma norun_other m s c : NoRun (S m) s -> c <> HASH -> NoRun (S m) (s ++ [c]).
Proof.
  intros H Hc a b E. destruct b as [|x b _] using rev_ind.
  - rewrite app_nil_r, repeat_snoc, app_assoc in E. apply app_inj_tail in E as [_ E]. congruence.
  - rewrite !app_assoc in E. apply app_inj_tail in E as [E _]. apply (H a b). rewrite E, <- app_assoc. reflexivity.
Qed.
Lemma norun_hash k s : NoRun (S k) s -> (forall a, s <> a ++ repeat HASH k) -> NoRun (S k) (s ++ [HASH]).
Proof.
  intros H Hk a b E. destruct b as [|x b _] using rev_ind.
  - rewrite app_nil_r, repeat_snoc, app_assoc in E. apply app_inj_tail in E as [E _]. exact (Hk a E).
  - rewrite !app_assoc in E. apply app_inj_tail in E as [E _]. apply (H a b). rewrite E, <- app_assoc. reflexivity.
Qed.
Lemma tail_hashes k (s : str) : k <= length s -> (count_hash (skipn (length s - k) s) =? k) = true <-> skipn (length s - k) s = repeat HASH k.
Proof.
  intros Hk. assert (L : length (skipn (length s - k) s) = k) by (rewrite skipn_length; lia). rewrite Nat.eqb_eq.
  pose proof (count_all (skipn (length s - k) s)) as C. rewrite L in C. exact C.
Qed.
Lemma raws_steps k nm q s : forall p pre, pre <> [] -> (forall r, pre <> HASH :: r) -> NoRun (S k) (pre ++ s) ->
  (forall i, nth_error (pre ++ s) i = Some HASH -> k <= i) ->
  exists p', rfold t_step s (st_raw p k nm pre q) = Ok (st_raw p' k nm (pre ++ s) q).
Proof.
  induction s as [|c s IH]; intros p pre Hn Hh Hr He.
  - exists p. rewrite app_nil_r. reflexivity.
  - assert (G : t_step (st_raw p k nm pre q) c = Ok (st_raw c k nm (pre ++ [c]) q)).
    { destruct (N.eq_dec c HASH) as [->|Hc]; [|apply raw_other; assumption].
      rewrite raw_hash by exact Hn. destruct k as [|k'].
      { exfalso. apply (Hr pre s). reflexivity. }
      cbn [Nat.eqb]. assert (Hl : S k' <= length pre).
      { apply He. rewrite nth_error_app2, Nat.sub_diag by lia. reflexivity. }
      apply Nat.leb_le in Hl as Hl'. rewrite Hl'.
      destruct (count_hash (skipn (length pre - S k') pre) =? S k') eqn:E; [|rewrite andb_false_r; reflexivity].
      apply tail_hashes in E; [|exact Hl]. exfalso.
      apply (Hr (firstn (length pre - S k') pre) s). rewrite repeat_snoc, <- E. rewrite <- app_assoc. cbn [app].
      rewrite app_assoc, firstn_skipn. reflexivity. }
    cbn [rfold]. rewrite G. cbn [rbind].
    destruct (IH c (pre ++ [c])) as (p' & E').
    + destruct pre; discriminate.
    + intros r Er. destruct pre as [|x pre]; [congruence|]. inversion Er; subst. exact (Hh _ eq_refl).
    + rewrite <- app_assoc. exact Hr.
    + rewrite <- app_assoc. exact He.
    + exists p'. rewrite E', <- app_assoc. reflexivity.
Qed.
Lemma raw_close p k nm raw q : raw <> [] -> t_step (st_raw p k nm (raw ++ repeat HASH k) q) HASH = Ok (st_wait HASH k nm raw q).
Proof.
  intros Hn. rewrite raw_hash by (destruct raw; [congruence|discriminate]).
  destruct k as [|k]; [cbn [Nat.eqb repeat]; rewrite app_nil_r; reflexivity|]. cbn [Nat.eqb].
  rewrite app_length, repeat_length. replace (length raw + S k - S k) with (length raw) by lia.
  assert (A : (S k <=? length raw + S k) = true) by (apply Nat.leb_le; lia). rewrite A.
  assert (B : (0 <? length raw) = true) by (apply Nat.ltb_lt; destruct raw; [congruence|cbn; lia]). rewrite B.
  rewrite skipn_app, skipn_all, Nat.sub_diag. cbn [skipn app].
  assert (C : count_hash (repeat HASH (S k)) = S k).
  { pose proof (proj2 (count_all (repeat HASH (S k)))) as C. rewrite repeat_length in C. apply C. reflexivity. }
  rewrite C, Nat.eqb_refl. cbn [andb]. rewrite firstn_app, firstn_all, Nat.sub_diag. cbn [firstn]. rewrite app_nil_r. reflexivity.
Qed.
Lemma wait_ws p k nm raw q c : is_ascii_ws c = true -> t_step (st_wait p k nm raw q) c = Ok (st_wait p k nm raw q).
Proof. intros H. unfold t_step, st_wait. cbn -[is_ascii_ws]. rewrite H. reflexivity. Qed.
Lemma wait_steps p k nm raw q ws : Forall (fun c => is_ascii_ws c = true) ws -> rfold t_step ws (st_wait p k nm raw q) = Ok (st_wait p k nm raw q).
Proof. induction 1 as [|c ws H _ IH]; [reflexivity|]. cbn [rfold]. rewrite wait_ws by exact H. exact IH. Qed.
Lemma wait_end p k raw q : t_step (st_wait p k (lit "regexp") raw q) RBRACE = Ok (st_normal RBRACE true (q ++ [QNamed PnRegexp raw]) []).
Proof. reflexivity. Qed.

(** One item. *)
Lemma item_steps i p f q cs : ItemOk i -> quiet p f ->
  exists p' f', quiet p' f' /\
    rfold t_step (written i) (st_normal p f q cs) = Ok (st_normal p' f' (fst (gather1 (q, cs) i)) (snd (gather1 (q, cs) i))).
Proof.
  intros Hi Hq. destruct i as [c|n|k raw ws]; cbn [written gather1 fst snd].
  - destruct (char_eqb c LBRACE) eqn:E1.
    + apply ceqb_eq in E1. subst c. cbn [orb rfold]. rewrite quiet_push by exact Hq. cbn [rbind].
      exists 0%N, false. split; [split; discriminate|]. reflexivity.
    + destruct (char_eqb c RBRACE) eqn:E2; cbn [orb rfold].
      * apply ceqb_eq in E2. subst c. rewrite quiet_push by exact Hq. cbn [rbind].
        exists 0%N, false. split; [split; discriminate|]. reflexivity.
      * rewrite quiet_push by exact Hq. cbn [rbind]. exists c, false. apply ceqb_neq in E1, E2. split; [split; congruence|]. reflexivity.
  - destruct (into_name n p f q cs Hq) as (p' & _ & E).
    change (LBRACE :: name_of n ++ [RBRACE]) with ((LBRACE :: name_of n) ++ [RBRACE]). rewrite rfold_app, E. cbn [rbind rfold].
    rewrite name_end. cbn [rbind]. exists RBRACE, true. split; [split; [discriminate|reflexivity]|]. reflexivity.
  - destruct Hi as ([Hh Hr He Hl] & Hw). destruct Hh as (c & r & -> & Hc1 & Hc2).
    destruct (into_name PnRegexp p f q cs Hq) as (p' & Hp' & E). cbn [name_of] in E.
    change (LBRACE :: lit "regexp" ++ repeat HASH (S k) ++ (c :: r) ++ repeat HASH (S k) ++ ws ++ [RBRACE])
      with ((LBRACE :: lit "regexp") ++ (HASH :: repeat HASH k) ++ (c :: r) ++ repeat HASH (S k) ++ ws ++ [RBRACE]).
    rewrite rfold_app, E. cbn [rbind]. rewrite rfold_app. cbn [rfold]. rewrite hash_first by discriminate. cbn [rbind].
    rewrite hashes_steps. cbn [rbind]. replace (k + 1) with (S k) by lia. rewrite rfold_app. cbn [rfold].
    rewrite raw_first by assumption. cbn [rbind].
    rewrite repeat_snoc. rewrite <- app_assoc.
    destruct (raws_steps k (lit "regexp") (q ++ run_mid cs) (r ++ repeat HASH k) c [c]) as (p2 & E2).
    + discriminate.
    + intros r' Er. inversion Er. congruence.
    + exact Hr.
    + intros i Hn. destruct (Nat.lt_ge_cases i (length (c :: r))) as [L|L]; [|lia].
      change ([c] ++ r ++ repeat HASH k) with ((c :: r) ++ repeat HASH k) in Hn. rewrite nth_error_app1 in Hn by exact L.
      apply He. exact Hn.
    + rewrite rfold_app in E2. destruct (rfold t_step r _) as [s1| |]; cbn [rbind] in E2 |- *; try discriminate.
      rewrite rfold_app, E2. cbn [rbind]. change ([HASH] ++ ws ++ [RBRACE]) with (HASH :: (ws ++ [RBRACE])). cbn [rfold].
      change ([c] ++ r ++ repeat HASH k) with ((c :: r) ++ repeat HASH k). rewrite raw_close by discriminate. cbn [rbind].
      rewrite rfold_app, wait_steps by exact Hw. cbn [rbind rfold]. rewrite wait_end. cbn [rbind].
      exists RBRACE, true. split; [split; [discriminate|reflexivity]|]. reflexivity.
Qed.
Lemma items_steps l : forall p f q cs, Forall ItemOk l -> quiet p f ->
  exists p' f', quiet p' f' /\
    rfold t_step (render l) (st_normal p f q cs) = Ok (st_normal p' f' (fst (fold_left gather1 l (q, cs))) (snd (fold_left gather1 l (q, cs)))).
Proof.
  induction l as [|i l IH]; intros p f q cs Hl Hq.
  - exists p, f. split; [exact Hq|reflexivity].
  - inversion Hl; subst. destruct (item_steps i p f q cs) as (p1 & f1 & Q1 & E1); auto.
    destruct (IH p1 f1 (fst (gather1 (q, cs) i)) (snd (gather1 (q, cs) i))) as (p2 & f2 & Q2 & E2); auto.
    exists p2, f2. split; [exact Q2|]. change (render (i :: l)) with (written i ++ render l). rewrite rfold_app, E1. cbn [rbind].
    rewrite E2. cbn [fold_left]. rewrite <- surjective_pairing. reflexivity.
Qed.
Lemma quiet_end p f q cs : quiet p f -> t_end (st_normal p f q cs) = Ok (q ++ run_last cs).
Proof.
  intros [H1 H2]. unfold t_end, st_normal. cbn -[char_eqb]. apply ceqb_neq in H1. rewrite H1.
  destruct (char_eqb p RBRACE) eqn:E.
  - apply ceqb_eq in E. rewrite (H2 E). cbn. destruct cs as [|? [|]]; reflexivity.
  - cbn. destruct cs as [|? [|]]; reflexivity.
Qed.
Theorem template_complete l : Forall ItemOk l -> get_queues (render l) = Ok (queue_of [] l).
Proof.
  intros Hl. unfold get_queues. destruct (items_steps l 0%N false [] []) as (p & f & Q & E); [exact Hl|split; discriminate|].
  change t_start with (st_normal 0%N false [] []). rewrite E. cbn [rbind]. rewrite quiet_end by exact Q.
  f_equal. apply (gather_end l).
Qed.

(** Every accepted text is a rendering: what the scanner has read so far, by its state. *)
Definition dead (s : tstate) : Prop := t_in s = true /\ (t_suf s <> [] \/ exists r, t_names s = HASH :: r).
Definition base (l : list titem) : list qitem := fst (gather l) ++ run_mid (snd (gather l)).
Inductive Scan : str -> tstate -> Prop :=
| ScNormal l p f : Forall ItemOk l -> quiet p f -> Scan (render l) (st_normal p f (fst (gather l)) (snd (gather l)))
| ScOpen l : Forall ItemOk l -> Scan (render l ++ [LBRACE]) (st_normal LBRACE false (fst (gather l)) (snd (gather l) ++ [LBRACE]))
| ScClose l : Forall ItemOk l -> Scan (render l ++ [RBRACE]) (st_normal RBRACE false (fst (gather l)) (snd (gather l) ++ [RBRACE]))
| ScName l p nm : Forall ItemOk l -> nm <> [] -> (forall r, nm <> HASH :: r) -> p <> HASH ->
    Scan (render l ++ LBRACE :: nm) (st_name p nm (base l))
| ScHash l m nm : Forall ItemOk l -> nm <> [] -> Scan (render l ++ LBRACE :: nm ++ repeat HASH (S m)) (st_hash (S m) nm (base l))
| ScRaw l p k nm raw : Forall ItemOk l -> nm <> [] -> (exists c r, raw = c :: r /\ c <> HASH /\ c <> RBRACE) -> NoRun (S k) raw ->
    (forall i, nth_error raw i = Some HASH -> k <= i) ->
    Scan (render l ++ LBRACE :: nm ++ repeat HASH (S k) ++ raw) (st_raw p k nm raw (base l))
| ScWait l p k nm raw ws : Forall ItemOk l -> nm <> [] -> RawOk k raw -> Forall (fun c => is_ascii_ws c = true) ws ->
    Scan (render l ++ LBRACE :: nm ++ repeat HASH (S k) ++ raw ++ repeat HASH (S k) ++ ws) (st_wait p k nm raw (base l))
| ScDead pre s : dead s -> Scan pre s.

Lemma dead_finish s c s' : dead s -> t_finish s c = Ok s' -> False.
Proof.
  intros [_ D]. unfold t_finish, to_pattern. destruct D as [D|[r D]].
  - destruct (t_suf s); [congruence|]. destruct (find_pattern (t_names s)) as [[]|]; cbn; discriminate.
  - rewrite D. destruct (find_pattern (HASH :: r)) as [n|] eqn:E; [|cbn; discriminate].
    apply find_pattern_name in E. destruct n; discriminate.
Qed.
Lemma dead_step s c s' : dead s -> t_step s c = Ok s' -> dead s'.
Proof.
  intros D H. pose proof (fun s' => dead_finish s c s' D) as F. destruct D as [Hin D].
  assert (K : forall x y, x <> [] -> x ++ [y] <> ([] : str)) by (intros [|] ?; [congruence|discriminate]).
  unfold t_step in H. rewrite Hin in H. cbn [negb] in H. destruct (t_wait s) eqn:W.
  - destruct (is_ascii_ws c); [inversion H; subst; split; [cbn; try exact Hin; reflexivity|exact D]|].
    destruct (char_eqb c RBRACE); [exfalso; eauto|discriminate].
  - destruct (nonempty (t_raw s)).
    + unfold t_in_raw in H. assert (G : t_in s' = true /\ t_suf s' = t_suf s /\ t_names s' = t_names s).
      { destruct (char_eqb c HASH); [|inversion H; subst; cbn; auto].
        destruct (usub (t_hashs s) 1) as [lv| |]; cbn [rbind] in H; try discriminate.
        destruct (lv =? 0); [inversion H; subst; cbn; auto|].
        destruct (usub (length (t_raw s)) lv) as [li| |]; cbn [rbind] in H; try discriminate.
        destruct (_ && _); inversion H; subst; cbn; auto. }
      destruct G as (G1 & G2 & G3). split; [exact G1|]. rewrite G2, G3. exact D.
    + unfold t_in_name in H. destruct (char_eqb c RBRACE).
      { destruct (0 <? t_hashs s); [discriminate|]. exfalso. eauto. }
      destruct (char_eqb c HASH); [inversion H; subst; split; [cbn; try exact Hin; reflexivity|exact D]|].
      destruct (char_eqb (t_prev s) HASH); [inversion H; subst; split; [cbn; try exact Hin; reflexivity|exact D]|].
      destruct (nonempty (t_suf s) || _); inversion H; subst; (split; [cbn; try exact Hin; reflexivity|]); cbn.
      * left. destruct (t_suf s); discriminate.
      * destruct D as [D|[r D]]; [left; exact D|right]. exists (r ++ [c]). rewrite D. reflexivity.
Qed.

Lemma literal_cases l p f c : Forall ItemOk l -> quiet p f ->
  Scan (render l ++ [c]) (st_normal c false (fst (gather l)) (snd (gather l) ++ [c])).
Proof.
  intros Hl Hq. destruct (N.eq_dec c LBRACE) as [->|H1]; [constructor; assumption|].
  destruct (N.eq_dec c RBRACE) as [->|H2]; [constructor; assumption|].
  assert (W : written (TLit c) = [c]). { cbn [written]. apply ceqb_neq in H1, H2. rewrite H1, H2. reflexivity. }
  assert (T : render l ++ [c] = render (l ++ [TLit c])) by (rewrite render_snoc, W; reflexivity). rewrite T.
  assert (G : gather (l ++ [TLit c]) = (fst (gather l), snd (gather l) ++ [c])) by (rewrite gather_snoc; destruct (gather l); reflexivity).
  pose proof (ScNormal (l ++ [TLit c]) c false) as S0. rewrite G in S0. apply S0.
  - apply Forall_app. split; [assumption|]. repeat constructor.
  - split; congruence.
Qed.
Lemma brace_cases l c : Forall ItemOk l -> c = LBRACE \/ c = RBRACE ->
  Scan ((render l ++ [c]) ++ [c]) (st_normal 0%N false (fst (gather l)) (snd (gather l) ++ [c])).
Proof.
  intros Hl Hc.
  assert (W : written (TLit c) = [c; c]) by (destruct Hc as [-> | ->]; reflexivity).
  assert (T : (render l ++ [c]) ++ [c] = render (l ++ [TLit c])) by (rewrite render_snoc, W, <- app_assoc; reflexivity). rewrite T.
  assert (G : gather (l ++ [TLit c]) = (fst (gather l), snd (gather l) ++ [c])) by (rewrite gather_snoc; destruct (gather l); reflexivity).
  pose proof (ScNormal (l ++ [TLit c]) 0%N false) as S0. rewrite G in S0. apply S0.
  - apply Forall_app. split; [assumption|]. repeat constructor.
  - split; discriminate.
Qed.
Lemma pattern_end l i nm raw : Forall ItemOk (l ++ [i]) -> gather (l ++ [i]) = (base l ++ [QNamed nm raw], []) ->
  Scan (render l ++ written i) (st_normal RBRACE true (base l ++ [QNamed nm raw]) []).
Proof.
  intros Hl G. rewrite <- render_snoc. pose proof (ScNormal (l ++ [i]) RBRACE true Hl) as S0. rewrite G in S0. apply S0.
  split; [discriminate|reflexivity].
Qed.

Lemma scan_step pre s c s' : Scan pre s -> t_step s c = Ok s' -> Scan (pre ++ [c]) s'.
Proof.
  intros Hs H. destruct Hs as [l p f Hl Hq|l Hl|l Hl|l p nm Hl Hn Hh Hp|l m nm Hl Hn|l p k nm raw Hl Hn Hr Hrun He|l p k nm raw ws Hl Hn Hr Hw|pre s D].
  - rewrite quiet_push in H by exact Hq. inversion H; subst. eapply literal_cases; eassumption.
  - destruct (N.eq_dec c LBRACE) as [->|Hc].
    + unfold t_step in H. cbn in H. inversion H; subst. apply brace_cases; auto.
    + rewrite open_step in H by exact Hc. inversion H; subst. rewrite <- app_assoc. cbn [app].
      destruct (N.eq_dec c HASH) as [->|Hc'].
      * apply ScDead. split; [reflexivity|]. right. exists []. reflexivity.
      * apply (ScName l c [c]); auto; [discriminate|]. intros r Er. inversion Er. congruence.
  - destruct (N.eq_dec c RBRACE) as [->|Hc].
    + unfold t_step in H. cbn in H. inversion H; subst. apply brace_cases; auto.
    + unfold t_step in H. cbn -[char_eqb] in H. apply ceqb_neq in Hc. rewrite Hc in H.
      change (char_eqb RBRACE LBRACE) with false in H. change (char_eqb RBRACE RBRACE) with true in H. discriminate.
  - rewrite <- app_assoc. cbn [app]. destruct (N.eq_dec c RBRACE) as [->|Hc].
    + unfold t_step, st_name, t_in_name in H. cbn -[t_finish] in H. unfold t_finish, to_pattern in H. cbn -[find_pattern] in H.
      destruct (find_pattern nm) as [n|] eqn:E; [|discriminate]. apply find_pattern_name in E. subst nm.
      assert (H' : Ok (st_normal RBRACE true (base l ++ [QNamed n []]) []) = Ok s') by (rewrite <- H; destruct n; reflexivity).
      inversion H'. apply (pattern_end l (TPat n)).
      * apply Forall_app. split; [assumption|]. repeat constructor.
      * rewrite gather_snoc. unfold base. destruct (gather l). reflexivity.
    + destruct (N.eq_dec c HASH) as [->|Hc'].
      * rewrite hash_first in H by exact Hn. inversion H; subst. apply (ScHash l 0 nm); assumption.
      * unfold t_step, st_name, t_in_name in H. cbn -[char_eqb is_ascii_alnum] in H. apply ceqb_neq in Hc. rewrite Hc in H.
        apply ceqb_neq in Hc' as Hc2. rewrite Hc2 in H. apply ceqb_neq in Hp as Hp2. rewrite Hp2 in H.
        destruct (negb _); inversion H; subst.
        { apply ScDead. split; [reflexivity|]. left. discriminate. }
        apply (ScName l c (nm ++ [c])); auto.
        { destruct nm; discriminate. }
        { intros r Er. destruct nm as [|x nm]; [congruence|]. inversion Er; subst. exact (Hh _ eq_refl). }
  - rewrite <- app_assoc. cbn [app]. rewrite <- app_assoc. destruct (N.eq_dec c HASH) as [->|Hc].
    + change (t_step (st_hash (S m) nm (base l)) HASH) with (@Ok tstate (st_hash (S (S m)) nm (base l))) in H. inversion H; subst.
      rewrite <- repeat_snoc. apply (ScHash l (S m) nm); assumption.
    + destruct (N.eq_dec c RBRACE) as [->|Hc']; [discriminate|].
      rewrite raw_first in H by assumption. inversion H; subst.
      apply (ScRaw l c m nm [c]); auto.
      * exists c, []. auto.
      * intros a b E. destruct a as [|x a]; cbn in E; inversion E; [congruence|]. destruct a; discriminate.
      * intros [|i] E; cbn in E; [inversion E; congruence|]. destruct i; discriminate.
  - assert (Hn' : raw <> []) by (destruct Hr as (x & r & -> & _); discriminate).
    assert (T : (render l ++ LBRACE :: nm ++ repeat HASH (S k) ++ raw) ++ [c] = render l ++ LBRACE :: nm ++ repeat HASH (S k) ++ raw ++ [c]).
    { rewrite <- app_assoc. cbn [app]. rewrite <- !app_assoc. reflexivity. }
    rewrite T. destruct (N.eq_dec c HASH) as [->|Hc].
    + rewrite raw_hash in H by exact Hn'. destruct k as [|k'].
      * cbn [Nat.eqb] in H. inversion H; subst.
        assert (R : RawOk 0 raw).
        { constructor; auto; [|lia]. cbn [repeat]. rewrite app_nil_r. exact Hrun. }
        pose proof (ScWait l HASH 0 nm raw [] Hl Hn R (Forall_nil _)) as S0. exact S0.
      * cbn [Nat.eqb] in H. destruct (S k' <=? length raw) eqn:L; [|discriminate]. apply Nat.leb_le in L.
        destruct ((0 <? length raw - S k') && (count_hash (skipn (length raw - S k') raw) =? S k')) eqn:E; inversion H; subst; clear H.
        -- apply andb_true_iff in E as [E1 E2]. apply Nat.ltb_lt in E1. apply tail_hashes in E2; [|exact L].
           set (raw' := firstn (length raw - S k') raw) in *.
           assert (Er : raw = raw' ++ repeat HASH (S k')) by (rewrite <- E2; symmetry; apply firstn_skipn).
           assert (Lr : length raw' = length raw - S k') by (unfold raw'; rewrite firstn_length; lia).
           assert (R : RawOk (S k') raw').
           { constructor.
             - destruct Hr as (x & r & Ex & H1 & H2). destruct raw' as [|y r'] eqn:Ey; [cbn in Lr; lia|]. exists y, r'. split; [reflexivity|].
               rewrite Ex in Er. inversion Er; subst. auto.
             - rewrite <- Er. exact Hrun.
             - intros i Hi. apply He. rewrite Er, nth_error_app1; [exact Hi|]. apply nth_error_Some. congruence.
             - apply He. rewrite Er, nth_error_app2, Nat.sub_diag by lia. reflexivity. }
           pose proof (ScWait l HASH (S k') nm raw' [] Hl Hn R (Forall_nil _)) as S0. rewrite app_nil_r in S0.
           replace (raw ++ [HASH]) with (raw' ++ repeat HASH (S (S k'))); [exact S0|].
           rewrite Er, <- app_assoc, <- repeat_snoc. reflexivity.
        -- apply ScRaw; auto.
           ++ destruct Hr as (x & r & -> & H1 & H2). exists x, (r ++ [HASH]). auto.
           ++ apply norun_hash; [exact Hrun|]. intros a Ea.
              assert (La : length raw - S k' = length a) by (rewrite Ea, app_length, repeat_length; lia).
              assert (Sk : skipn (length raw - S k') raw = repeat HASH (S k')).
              { rewrite La, Ea, skipn_app, skipn_all, Nat.sub_diag. reflexivity. }
              apply tail_hashes in Sk; [|exact L]. rewrite Sk, andb_true_r in E. apply Nat.ltb_ge in E.
              destruct a as [|x a]; [|cbn in La; lia]. destruct Hr as (y & r & Ey & H1 & _). rewrite Ey in Ea. cbn in Ea. inversion Ea. congruence.
           ++ intros i Hi. destruct (Nat.lt_ge_cases i (length raw)) as [Li|Li]; [|lia].
              rewrite nth_error_app1 in Hi by exact Li. auto.
    + rewrite raw_other in H by assumption. inversion H; subst. apply ScRaw; auto.
      * destruct Hr as (x & r & -> & H1 & H2). exists x, (r ++ [c]). auto.
      * apply norun_other; assumption.
      * intros i Hi. destruct (Nat.lt_ge_cases i (length raw)) as [Li|Li].
        -- rewrite nth_error_app1 in Hi by exact Li. auto.
        -- rewrite nth_error_app2 in Hi by exact Li. destruct (i - length raw) as [|j]; cbn in Hi; [inversion Hi; congruence|]. destruct j; discriminate.
  - assert (T : (render l ++ LBRACE :: nm ++ repeat HASH (S k) ++ raw ++ repeat HASH (S k) ++ ws) ++ [c] =
                render l ++ LBRACE :: nm ++ repeat HASH (S k) ++ raw ++ repeat HASH (S k) ++ ws ++ [c]).
    { rewrite <- app_assoc. cbn [app]. rewrite <- !app_assoc. reflexivity. }
    rewrite T. destruct (is_ascii_ws c) eqn:Ec.
    + rewrite wait_ws in H by exact Ec. inversion H; subst. apply ScWait; auto. apply Forall_app. auto.
    + unfold t_step, st_wait in H. cbn -[is_ascii_ws char_eqb t_finish] in H. rewrite Ec in H.
      destruct (char_eqb c RBRACE) eqn:Eb; [|discriminate]. apply ceqb_eq in Eb. subst c.
      unfold t_finish, to_pattern in H. cbn -[find_pattern] in H. destruct (find_pattern nm) as [n|] eqn:E; [|discriminate].
      apply find_pattern_name in E. subst nm.
      assert (n = PnRegexp). { destruct Hr as [(x & r & -> & _) _ _ _]. destruct n; cbn in H; try discriminate; reflexivity. }
      subst n. cbn in H. inversion H; subst. apply (pattern_end l (TRaw k raw ws)).
      * apply Forall_app. split; [assumption|]. constructor; [split; assumption|constructor].
      * rewrite gather_snoc. unfold base. destruct (gather l). reflexivity.
  - apply ScDead. eapply dead_step; eassumption.
Qed.
Lemma scan_all t : forall pre s s', Scan pre s -> rfold t_step t s = Ok s' -> Scan (pre ++ t) s'.
Proof.
  induction t as [|c t IH]; intros pre s s' Hs H.
  - cbn in H. inversion H; subst. rewrite app_nil_r. exact Hs.
  - cbn [rfold] in H. destruct (t_step s c) as [s1| |] eqn:E; cbn [rbind] in H; try discriminate.
    change (c :: t) with ([c] ++ t). rewrite app_assoc. eapply IH; [|exact H]. eapply scan_step; eassumption.
Qed.
Theorem template_sound t q : get_queues t = Ok q -> exists l, Forall ItemOk l /\ t = render l /\ q = queue_of [] l.
Proof.
  unfold get_queues. intros H. destruct (rfold t_step t t_start) as [s| |] eqn:E; cbn [rbind] in H; try discriminate.
  assert (S0 : Scan [] t_start). { apply (ScNormal [] 0%N false); [constructor|split; discriminate]. }
  apply (scan_all t [] t_start) in E; [|exact S0]. cbn [app] in E.
  destruct E as [l p f Hl Hq|l Hl|l Hl|l p nm Hl Hn Hh Hp|l m nm Hl Hn|l p k nm raw Hl Hn Hr Hrun He|l p k nm raw ws Hl Hn Hr Hw|pre s D]; try discriminate.
  - rewrite quiet_end in H by exact Hq. inversion H; subst. exists l. split; [exact Hl|]. split; [reflexivity|]. apply gather_end.
  - destruct D as [D _]. unfold t_end in H. rewrite D, orb_true_r in H. discriminate.
Qed.
Lemma get_queues_no_fuel t : get_queues t <> OutOfFuel.
Proof.
  unfold get_queues. assert (G : forall t s, rfold t_step t s <> OutOfFuel).
  { clear t. induction t as [|c t IH]; intros s; [discriminate|]. cbn [rfold].
    assert (F : t_step s c <> OutOfFuel).
    { assert (F0 : t_finish s c <> OutOfFuel).
      { unfold t_finish, to_pattern. destruct (find_pattern _) as [[]|]; try discriminate; destruct (t_suf s); try discriminate; destruct (t_raw s); discriminate. }
      unfold t_step, t_in_raw, t_in_name, usub.
      repeat match goal with |- context [if ?b then _ else _] => destruct b; cbn [rbind]; try discriminate; try exact F0 end. }
    destruct (t_step s c); cbn [rbind]; [apply IH|discriminate|congruence]. }
  specialize (G t t_start). destruct (rfold t_step t t_start); cbn [rbind]; [|discriminate|congruence].
  unfold t_end. repeat match goal with |- context [if ?b then _ else _] => destruct b end; discriminate.
Qed.
