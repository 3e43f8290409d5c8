(** Mutations stay inside the part of the heap they are called on. *)
From Verif Require Import Base Utils Attr Dom DomSpec Order DomProofs Sets SetsProofs Mutate MutateSpec MutateProofs
  InsertProofs HistoryProofs.

Section Frame.
  Variable B : id -> Prop.

  Definition Kept (h h' : heap) : Prop :=
    (forall b, B b -> node_of h' b = node_of h b) /\ Sealed B h' /\ length h <= length h'.

  Lemma kept_refl h : Sealed B h -> Kept h h.
  Proof. intros H. split; [reflexivity|]. split; [exact H | lia]. Qed.
  Lemma kept_trans h h1 h2 : Kept h h1 -> Kept h1 h2 -> Kept h h2.
  Proof.
    intros (A1 & _ & L1) (A2 & S2 & L2). split; [|split; [exact S2 | lia]].
    intros b Hb. rewrite (A2 b Hb). exact (A1 b Hb).
  Qed.
  Lemma kept_sealed h h' : Kept h h' -> Sealed B h'.
  Proof. intros H. apply H. Qed.
  Lemma kept_upd h x f : Sealed B h -> ~ B x ->
    (forall n p, n_parent (f n) = Some p -> n_parent n = Some p \/ ~ B p) ->
    (forall n cs, n_childs (f n) = Some cs -> n_childs n = Some cs \/ forall c, In c cs -> ~ B c) ->
    Kept h (upd h x f).
  Proof.
    intros Hs Hx Hp Hc. split; [|split; [|rewrite upd_length; lia]].
    - intros b Hb. apply node_upd_other. intros ->. contradiction.
    - intros y Hy. destruct (Hs y Hy) as [S1 S2]. unfold parent, kids, childs in *. rewrite node_upd.
      destruct (_ && _); [|split; [exact S1 | exact S2]]. split.
      + intros p Ep. destruct (Hp _ _ Ep) as [H | H]; [exact (S1 p H) | exact H].
      + intros c Hin. destruct (n_childs (f (node_of h y))) as [cs|] eqn:E; [|destruct Hin].
        destruct (Hc _ _ E) as [H | H]; [rewrite H in S2; exact (S2 c Hin) | exact (H c Hin)].
  Qed.
  Lemma kept_idx h x i : Sealed B h -> ~ B x -> Kept h (upd h x (set_idx i)).
  Proof. intros Hs Hx. apply kept_upd; [exact Hs | exact Hx | |]; cbn; intros; left; assumption. Qed.
  Lemma kept_con h x c : Sealed B h -> ~ B x -> Kept h (upd h x (set_con c)).
  Proof. intros Hs Hx. apply kept_upd; [exact Hs | exact Hx | |]; cbn; intros; left; assumption. Qed.
  Lemma kept_ch h x cs : Sealed B h -> ~ B x -> (forall l, cs = Some l -> forall c, In c l -> ~ B c) ->
    Kept h (upd h x (set_ch cs)).
  Proof.
    intros Hs Hx H. apply kept_upd; [exact Hs | exact Hx | |]; cbn.
    - intros; left; assumption.
    - intros n l E. right. exact (H l E).
  Qed.
  Lemma kept_par h x p : Sealed B h -> ~ B x -> ~ B p -> Kept h (upd h x (set_par (Some p))).
  Proof.
    intros Hs Hx Hp. apply kept_upd; [exact Hs | exact Hx | |]; cbn.
    - intros n q E. injection E as <-. right. exact Hp.
    - intros; left; assumption.
  Qed.
  Lemma kept_reset l : forall h s, Sealed B h -> (forall x, In x l -> ~ B x) -> Kept h (reset_index h s l).
  Proof.
    induction l as [|x l IH]; intros h s Hs Hl; cbn [reset_index]; [exact (kept_refl h Hs)|].
    assert (H1 : Kept h (upd h x (set_idx s))) by (apply kept_idx; [exact Hs | apply Hl; left; reflexivity]).
    apply (kept_trans _ _ _ H1). apply IH; [exact (kept_sealed _ _ H1)|]. intros y Hy. apply Hl. right. exact Hy.
  Qed.
  Lemma kept_set_parents p l : forall h, Sealed B h -> ~ B p -> (forall x, In x l -> ~ B x) -> Kept h (set_parents h p l).
  Proof.
    unfold set_parents. induction l as [|x l IH]; intros h Hs Hp Hl; cbn [fold_left]; [exact (kept_refl h Hs)|].
    assert (H1 : Kept h (upd h x (set_par (Some p)))) by (apply kept_par; [exact Hs | apply Hl; left; reflexivity | exact Hp]).
    apply (kept_trans _ _ _ H1). apply IH; [exact (kept_sealed _ _ H1) | exact Hp|]. intros y Hy. apply Hl. right. exact Hy.
  Qed.
  Lemma sealed_parent h x p : Sealed B h -> ~ B x -> parent h x = Some p -> ~ B p.
  Proof. intros Hs Hx E. exact (proj1 (Hs x Hx) p E). Qed.
  Lemma sealed_kids h x c : Sealed B h -> ~ B x -> In c (kids h x) -> ~ B c.
  Proof. intros Hs Hx E. exact (proj2 (Hs x Hx) c E). Qed.
  Lemma sealed_childs h x cs c : Sealed B h -> ~ B x -> childs h x = Some cs -> In c cs -> ~ B c.
  Proof. intros Hs Hx E Hc. apply (sealed_kids h x c Hs Hx). rewrite (kids_some _ _ _ E). exact Hc. Qed.

  Lemma in_firstn {A} (x : A) n l : In x (firstn n l) -> In x l.
  Proof. intros H. rewrite <- (firstn_skipn n l). apply in_or_app. left. exact H. Qed.
  Lemma in_skipn {A} (x : A) n l : In x (skipn n l) -> In x l.
  Proof. intros H. rewrite <- (firstn_skipn n l). apply in_or_app. right. exact H. Qed.

  Lemma remove_at_in {A} (l l' : list A) i x : remove_at l i = Ok l' -> In x l' -> In x l.
  Proof.
    unfold remove_at. destruct (i <? length l); [|discriminate]. intros E. injection E as <-. rewrite in_app_iff.
    intros [H | H]; [exact (in_firstn x i l H) | exact (in_skipn x (S i) l H)].
  Qed.

  Lemma kept_remove_child h p x h' : Sealed B h -> ~ B p -> remove_child h p x = Ok h' -> Kept h h'.
  Proof.
    intros Hs Hp E. unfold remove_child in E. destruct (parent h x) as [q|]; [|injection E as <-; exact (kept_refl h Hs)].
    destruct (Nat.eqb p q); [|injection E as <-; exact (kept_refl h Hs)].
    destruct (childs h p) as [cs|] eqn:Ec; [|injection E as <-; exact (kept_refl h Hs)]. cbv zeta in E.
    apply rbind_ok in E. destruct E as (last & _ & E). apply rbind_ok in E. destruct E as (h1 & E1 & E).
    apply rbind_ok in E. destruct E as (cs' & E2 & E). injection E as <-.
    assert (K1 : Kept h h1).
    { destruct (Nat.eqb (index h x) last); [injection E1 as <-; exact (kept_refl h Hs)|].
      destruct (S (index h x) <=? length cs); [|discriminate]. injection E1 as <-. apply kept_reset; [exact Hs|].
      intros y Hy. exact (sealed_childs h p cs y Hs Hp Ec (in_skipn y (S (index h x)) cs Hy)). }
    apply (kept_trans _ _ _ K1). apply kept_ch; [exact (kept_sealed _ _ K1) | exact Hp|].
    intros l El c Hc. injection El as <-. exact (sealed_childs h p cs c Hs Hp Ec (remove_at_in _ _ _ _ E2 Hc)).
  Qed.

  Lemma kept_nodes h x h1 ns : Sealed B h -> ~ B x -> nodes_to_insert h x = Ok (h1, ns) ->
    Kept h h1 /\ forall y, In y ns -> ~ B y.
  Proof.
    intros Hs Hx E. unfold nodes_to_insert in E. destruct (is_fragment h x).
    - injection E as <- <-. split; [exact (kept_refl h Hs)|]. intros y Hy. exact (sealed_kids h x y Hs Hx Hy).
    - apply rbind_ok in E. destruct E as (h2 & E2 & E). injection E as <- <-. split; [|intros y [<- | []]; exact Hx].
      destruct (parent h x) as [p|] eqn:Ep; [|injection E2 as <-; exact (kept_refl h Hs)].
      apply (kept_remove_child h p x h2 Hs); [|exact E2]. exact (sealed_parent h x p Hs Hx Ep).
  Qed.

  Lemma kept_inside h self b ns h' : Sealed B h -> ~ B self -> (forall y, In y ns -> ~ B y) ->
    insert_inside h self b ns = Ok h' -> Kept h h'.
  Proof.
    intros Hs Hx Hns E. unfold insert_inside in E. cbv zeta in E. set (h1 := set_parents h self ns) in E.
    assert (K1 : Kept h h1) by (apply kept_set_parents; assumption). pose proof (kept_sealed _ _ K1) as S1.
    destruct (childs h1 self) as [cs|] eqn:Ec.
    - assert (Hcs : forall c, In c cs -> ~ B c) by (intros c Hc; exact (sealed_childs h1 self cs c S1 Hx Ec Hc)).
      destruct (includes ns self); [discriminate|]. destruct b; injection E as <-.
      + assert (K2 : Kept h1 (reset_index h1 (length cs) ns)) by (apply kept_reset; assumption).
        apply (kept_trans _ _ _ K1), (kept_trans _ _ _ K2), kept_ch; [exact (kept_sealed _ _ K2) | exact Hx|].
        intros l El c Hc. injection El as <-. apply in_app_iff in Hc. destruct Hc; auto.
      + assert (K2 : Kept h1 (reset_index h1 0 ns)) by (apply kept_reset; assumption).
        assert (K3 : Kept (reset_index h1 0 ns) (reset_index (reset_index h1 0 ns) (length ns) cs))
          by (apply kept_reset; [exact (kept_sealed _ _ K2) | exact Hcs]).
        apply (kept_trans _ _ _ K1), (kept_trans _ _ _ K2), (kept_trans _ _ _ K3), kept_ch;
          [exact (kept_sealed _ _ K3) | exact Hx|].
        intros l El c Hc. injection El as <-. apply in_app_iff in Hc. destruct Hc; auto.
    - injection E as <-. assert (K2 : Kept h1 (reset_index h1 0 ns)) by (apply kept_reset; assumption).
      apply (kept_trans _ _ _ K1), (kept_trans _ _ _ K2), kept_ch; [exact (kept_sealed _ _ K2) | exact Hx|].
      intros l El c Hc. injection El as <-. auto.
  Qed.

  Lemma kept_beside h self b ns h' : Sealed B h -> ~ B self -> (forall y, In y ns -> ~ B y) ->
    insert_beside h self b ns = Ok h' -> Kept h h'.
  Proof.
    intros Hs Hx Hns E. unfold insert_beside in E. cbv zeta in E.
    set (k := if b then S (index h self) else index h self) in E. set (h1 := reset_index h k ns) in E.
    assert (K1 : Kept h h1) by (apply kept_reset; assumption). pose proof (kept_sealed _ _ K1) as S1.
    destruct (parent h1 self) as [p|] eqn:Ep; [|injection E as <-; exact K1].
    assert (Hp : ~ B p) by exact (sealed_parent h1 self p S1 Hx Ep).
    destruct (childs h1 p) as [cs|] eqn:Ec; [|injection E as <-; exact K1].
    assert (Hcs : forall c, In c cs -> ~ B c) by (intros c Hc; exact (sealed_childs h1 p cs c S1 Hp Ec Hc)).
    destruct (includes ns self || includes ns p); [discriminate|].
    set (nexts := if k <? length cs then skipn k cs else []) in E.
    set (prevs := if k <? length cs then firstn k cs else cs) in E.
    assert (Hne : forall c, In c nexts -> ~ B c).
    { intros c Hc. unfold nexts in Hc. destruct (k <? length cs); [exact (Hcs c (in_skipn _ _ _ Hc)) | destruct Hc]. }
    assert (Hpr : forall c, In c prevs -> ~ B c).
    { intros c Hc. unfold prevs in Hc. destruct (k <? length cs); [exact (Hcs c (in_firstn _ _ _ Hc)) | exact (Hcs c Hc)]. }
    assert (K2 : Kept h1 (set_parents h1 p ns)) by (apply kept_set_parents; assumption).
    assert (K3 : Kept (set_parents h1 p ns) (upd (set_parents h1 p ns) p (set_ch (Some (prevs ++ ns))))).
    { apply kept_ch; [exact (kept_sealed _ _ K2) | exact Hp|].
      intros l El c Hc. injection El as <-. apply in_app_iff in Hc. destruct Hc; auto. }
    pose proof (kept_trans _ _ _ K1 (kept_trans _ _ _ K2 K3)) as K. clear K1 K2 K3.
    set (h3 := upd (set_parents h1 p ns) p (set_ch (Some (prevs ++ ns)))) in *.
    destruct nexts as [|n0 nx]; [injection E as <-; exact K|]. injection E as <-.
    assert (K4 : Kept h3 (reset_index h3 (k + length ns) (n0 :: nx))) by (apply kept_reset; [exact (kept_sealed _ _ K) | exact Hne]).
    apply (kept_trans _ _ _ K), (kept_trans _ _ _ K4), kept_ch; [exact (kept_sealed _ _ K4) | exact Hp|].
    intros l El c Hc. injection El as <-. rewrite !in_app_iff in Hc. destruct Hc as [Hc | [Hc | Hc]]; auto.
  Qed.

  Lemma kept_insert o h self pos x h' e : Sealed B h -> ~ B self -> ~ B x ->
    insert_adjacent o h self pos x = Ok (h', e) -> Kept h h'.
  Proof.
    intros Hs Hself Hx E. unfold insert_adjacent in E. apply rbind_ok in E. destruct E as (ok & _ & E).
    destruct (negb ok); [injection E as <- _; exact (kept_refl h Hs)|].
    apply rbind_ok in E. destruct E as ((h1, ns) & E1 & E). cbn [fst snd] in E. cbv zeta in E.
    destruct (kept_nodes h x h1 ns Hs Hx E1) as [K1 Hns].
    apply rbind_ok in E. destruct E as (ns' & E2 & E).
    assert (Hns' : forall y, In y ns' -> ~ B y).
    { intros y Hy. apply Hns. destruct pos; [injection E2 as ->; exact Hy | injection E2 as ->; exact Hy | |];
        rewrite remove_not_allowed_ok in E2; injection E2 as <-; apply filter_In in Hy; tauto. }
    destruct ns' as [|n0 ns']; [injection E as <- _; exact K1|].
    apply rbind_ok in E. destruct E as (h2 & E3 & E). injection E as <- _. apply (kept_trans _ _ _ K1).
    pose proof (kept_sealed _ _ K1) as S1. destruct pos.
    - exact (kept_beside _ _ _ _ _ S1 Hself Hns' E3).
    - exact (kept_beside _ _ _ _ _ S1 Hself Hns' E3).
    - exact (kept_inside _ _ _ _ _ S1 Hself Hns' E3).
    - exact (kept_inside _ _ _ _ _ S1 Hself Hns' E3).
  Qed.

  Lemma kept_replace h x y h' z : Sealed B h -> ~ B x -> ~ B y -> replace_with h x y = Ok (h', z) -> Kept h h'.
  Proof.
    intros Hs Hx Hy E. unfold replace_with in E. apply rbind_ok in E. destruct E as ((h1, ns) & E1 & E).
    cbn [fst snd] in E. cbv zeta in E. destruct (kept_nodes h y h1 ns Hs Hy E1) as [K1 Hns].
    destruct ns as [|n0 ns0]; [injection E as <- _; exact K1|]. set (ns := n0 :: ns0) in *.
    apply rbind_ok in E. destruct E as (h2 & E2 & E). injection E as <- _. apply (kept_trans _ _ _ K1).
    pose proof (kept_sealed _ _ K1) as S1.
    destruct (parent h1 x) as [p|] eqn:Ep; [|injection E2 as <-; exact (kept_refl h1 S1)].
    assert (Hp : ~ B p) by exact (sealed_parent h1 x p S1 Hx Ep).
    destruct (childs h1 p) as [cs|] eqn:Ec; [|injection E2 as <-; exact (kept_refl h1 S1)].
    assert (Hcs : forall c, In c cs -> ~ B c) by (intros c Hc; exact (sealed_childs h1 p cs c S1 Hp Ec Hc)).
    destruct (includes ns x || includes ns p); [discriminate|]. set (i := index h1 x) in *.
    assert (K2 : Kept h1 (reset_index h1 i ns)) by (apply kept_reset; assumption).
    set (h3 := if i <? length cs then reset_index (reset_index h1 i ns) (i + length ns) (skipn (S i) cs) else reset_index h1 i ns) in *.
    assert (K3 : Kept h1 h3).
    { unfold h3. destruct (i <? length cs); [|exact K2]. apply (kept_trans _ _ _ K2), kept_reset; [exact (kept_sealed _ _ K2)|].
      intros c Hc. exact (Hcs c (in_skipn _ _ _ Hc)). }
    assert (K4 : Kept h3 (set_parents h3 p ns)) by (apply kept_set_parents; [exact (kept_sealed _ _ K3) | exact Hp | exact Hns]).
    assert (Hall : forall c, In c (firstn i cs ++ ns ++ skipn (S i) cs) -> ~ B c).
    { intros c Hc. rewrite !in_app_iff in Hc. destruct Hc as [Hc | [Hc | Hc]].
      - exact (Hcs c (in_firstn _ _ _ Hc)).
      - exact (Hns c Hc).
      - exact (Hcs c (in_skipn c (S i) cs Hc)). }
    set (all := firstn i cs ++ ns ++ skipn (S i) cs) in *. clearbody all.
    destruct (S i <=? length cs); [|discriminate]. injection E2 as <-.
    apply (kept_trans _ _ _ K3), (kept_trans _ _ _ K4), kept_ch; [exact (kept_sealed _ _ K4) | exact Hp|].
    intros l El c Hc. injection El as <-. exact (Hall c Hc).
  Qed.

  Lemma kept_set_text o h x s : Sealed B h -> (forall b, B b -> b < length h) -> ~ B x -> Kept h (fst (set_text o h x s)).
  Proof.
    intros Hs Hb Hx. unfold set_text. destruct (ntype_of h x); try exact (kept_refl h Hs).
    - cbv zeta. destruct s as [|a s], (od_content_tag o (tag_names h x)); cbn [negb fst].
      + apply kept_con; assumption.
      + apply kept_ch; [exact Hs | exact Hx | discriminate].
      + apply kept_con; assumption.
      + set (h1 := upd h x (set_ch (Some [length h]))).
        assert (Hn : ~ B (length h)) by (intros H; apply Hb in H; lia).
        assert (K1 : Kept h h1).
        { apply kept_ch; [exact Hs | exact Hx|]. intros l El c Hc. injection El as <-. destruct Hc as [<- | []]. exact Hn. }
        destruct K1 as (A1 & S1 & L1). assert (E1 : length h1 = length h) by apply upd_length.
        split; [|split; [|rewrite app_length; cbn; lia]].
        * intros b Hbb. rewrite node_snoc, E1. pose proof (Hb b Hbb) as Hlt. apply Nat.ltb_lt in Hlt. rewrite Hlt. exact (A1 b Hbb).
        * intros y Hy. unfold parent, kids, childs. rewrite node_snoc. destruct (y <? length h1); [exact (S1 y Hy)|].
          destruct (Nat.eqb y (length h1)); cbn.
          -- split; [intros p Ep; injection Ep as <-; exact Hx | intros c []].
          -- split; [discriminate | intros c []].
    - destruct s; cbn [fst]; [exact (kept_refl h Hs) | apply kept_con; assumption].
    - destruct s; cbn [fst]; [exact (kept_refl h Hs) | apply kept_con; assumption].
    - destruct s; cbn [fst]; [exact (kept_refl h Hs) | apply kept_con; assumption].
  Qed.

  Lemma kept_text_remove h x h' : Sealed B h -> ~ B x -> text_remove h x = Ok h' -> Kept h h'.
  Proof.
    intros Hs Hx E. unfold text_remove in E.
    destruct (parent h x) as [p|] eqn:Ep; [|injection E as <-; exact (kept_refl h Hs)].
    assert (Hp : ~ B p) by exact (sealed_parent h x p Hs Hx Ep).
    destruct (childs h p) as [cs|] eqn:Ec; [|injection E as <-; exact (kept_refl h Hs)]. cbv zeta in E.
    apply rbind_ok in E. destruct E as (cs' & E1 & E). destruct (includes _ x); [discriminate|]. injection E as <-.
    assert (Hcs : forall c, In c cs' -> ~ B c).
    { intros c Hc. exact (sealed_childs h p cs c Hs Hp Ec (remove_at_in _ _ _ _ E1 Hc)). }
    assert (K1 : Kept h (upd h p (set_ch (Some cs')))).
    { apply kept_ch; [exact Hs | exact Hp|]. intros l El c Hc. injection El as <-. exact (Hcs c Hc). }
    apply (kept_trans _ _ _ K1), kept_reset; [exact (kept_sealed _ _ K1)|]. intros c Hc. exact (Hcs c (in_skipn _ _ _ Hc)).
  Qed.

  Lemma kept_op o h c h' : Sealed B h -> (forall b, B b -> b < length h) -> (forall x, In x (op_nodes c) -> ~ B x) ->
    run_op o h c = Ok h' -> Kept h h'.
  Proof.
    intros Hs Hb Hn E. destruct c as [self pos x | x | x y | x s | x | x s | x s]; cbn [run_op op_nodes] in *.
    - apply rbind_ok in E. destruct E as ((h1, e) & E1 & E). injection E as <-.
      refine (kept_insert o h self pos x h1 e Hs _ _ E1); apply Hn; cbn; tauto.
    - unfold remove_one in E. assert (Hx : ~ B x) by (apply Hn; cbn; tauto).
      destruct (parent h x) as [p|] eqn:Ep; [|injection E as <-; exact (kept_refl h Hs)].
      exact (kept_remove_child h p x h' Hs (sealed_parent h x p Hs Hx Ep) E).
    - apply rbind_ok in E. destruct E as ((h1, z) & E1 & E). injection E as <-.
      refine (kept_replace h x y h1 z Hs _ _ E1); apply Hn; cbn; tauto.
    - injection E as <-. apply kept_set_text; [exact Hs | exact Hb | apply Hn; cbn; tauto].
    - refine (kept_text_remove h x h' Hs _ E). apply Hn; cbn; tauto.
    - unfold append_text in E. destruct (n_content (node_of h x)); [|discriminate]. injection E as <-.
      apply kept_con; [exact Hs | apply Hn; cbn; tauto].
    - unfold prepend_text in E. destruct (n_content (node_of h x)); [|discriminate]. injection E as <-.
      apply kept_con; [exact Hs | apply Hn; cbn; tauto].
  Qed.
  Lemma kept_ops o l : forall h h', Sealed B h -> (forall b, B b -> b < length h) ->
    (forall c x, In c l -> In x (op_nodes c) -> ~ B x) -> run_ops o h l = Ok h' -> Kept h h'.
  Proof.
    induction l as [|c l IH]; intros h h' Hs Hb Hn E.
    - injection E as <-. exact (kept_refl h Hs).
    - unfold run_ops in E. cbn [rfold] in E. apply rbind_ok in E. destruct E as (h1 & E1 & E).
      assert (K1 : Kept h h1).
      { apply (kept_op o h c h1 Hs Hb); [|exact E1]. intros x Hx. exact (Hn c x (or_introl eq_refl) Hx). }
      apply (kept_trans _ _ _ K1). apply IH.
      + exact (kept_sealed _ _ K1).
      + intros b Hbb. pose proof (Hb b Hbb). destruct K1 as (_ & _ & L). lia.
      + intros d x Hd Hx. exact (Hn d x (or_intror Hd) Hx).
      + exact E.
  Qed.
End Frame.
