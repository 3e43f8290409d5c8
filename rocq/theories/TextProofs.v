(** Proofs about the texts below an element. *)
From Verif Require Import Base Attr Dom DomSpec Order DomProofs OrderSpec OrderProofs Sets SetsProofs NavProofs
  Mutate MutateSpec MutateProofs InsertProofs HistoryProofs TextNodes TextSpec PreProofs.

Lemma rfold_flat {A B} (f : list B -> A -> res (list B)) (g : A -> list B) l :
  (forall acc x, In x l -> f acc x = Ok (acc ++ g x)) -> forall acc, rfold f l acc = Ok (acc ++ flat_map g l).
Proof.
  induction l as [|x l IH]; intros H acc; cbn; [rewrite app_nil_r; reflexivity|].
  rewrite (H acc x (or_introl eq_refl)). cbn. rewrite IH by (intros; apply H; right; assumption). rewrite app_assoc. reflexivity.
Qed.

Section Down.
  Variable h : heap.
  Hypothesis wf : WF h.

  Definition Dig (fuel : nat) (x : id) : Prop := S (length h) < length (key h x) + fuel.
  Lemma dig_pos f x : Dig f x -> exists g, f = S g.
  Proof. unfold Dig. pose proof (key_length h wf x). destruct f; [lia | exists f; reflexivity]. Qed.
  Lemma dig_child f x c : Dig (S f) x -> Child h x c -> Dig f c.
  Proof. unfold Dig. intros H (i & Hl). rewrite (key_listed h wf _ _ _ Hl), app_length. cbn [length]. lia. Qed.
  Lemma dig_full x : Dig (S (length h)) x.
  Proof. unfold Dig. pose proof (key_nonempty h wf x). destruct (key h x); [congruence | cbn; lia]. Qed.

  (** An ancestor of [t] below [x] is on the branch of [x] that leads to [t]. *)
  Lemma branch x c k t : Child h x c -> AncEq h c t -> Anc h x k -> AncEq h k t -> AncEq h c k.
  Proof.
    intros (i & Hi) Hct Hxk Hkt. apply anceq_path in Hct, Hkt. apply anc_path in Hxk.
    destruct Hct as (m & Hm), Hxk as (l & Hne & Hl), Hkt as (n & Hn).
    pose proof (key_path h wf _ _ _ (path_app h _ _ _ _ _ Hl Hn)) as K1.
    pose proof (key_path h wf _ _ _ (path_cons h _ _ _ _ _ Hi Hm)) as K2. rewrite K1 in K2. apply app_inv_head in K2.
    destruct l as [|j l]; [congruence|]. injection K2 as -> _. apply path_cons_inv in Hl. destruct Hl as (c' & Hc' & Hl).
    rewrite (listed_fun h _ _ _ _ Hc' Hi) in Hl. apply anceq_path. exists l. exact Hl.
  Qed.
  Lemma no_cycle x : ~ Anc h x x.
  Proof.
    intros H. apply anc_path in H. destruct H as (l & Hne & Hl). pose proof (key_path h wf _ _ _ Hl) as K.
    rewrite <- (app_nil_r (key h x)) in K at 1. apply app_inv_head in K. congruence.
  Qed.
  Lemma before_not_self x : ~ Before h x x.
  Proof.
    intros [H | (p & i & j & a & b & Ha & Hb & Hij & Hax & Hbx)]; [exact (no_cycle x H)|].
    apply anceq_path in Hax, Hbx. destruct Hax as (l & Hl), Hbx as (m & Hm).
    pose proof (key_path h wf _ _ _ (path_cons h _ _ _ _ _ Ha Hl)) as K1. rewrite (key_path h wf _ _ _ (path_cons h _ _ _ _ _ Hb Hm)) in K1.
    apply app_inv_head in K1. injection K1 as E _. lia.
  Qed.
  Lemma ordered_distinct l : Ordered h l -> NoDup l.
  Proof.
    induction l as [|x l IH]; intros H; constructor; [|exact (IH (proj2 H))]. intros Hi.
    destruct H as [H _]. rewrite Forall_forall in H. exact (before_not_self x (H x Hi)).
  Qed.
  Lemma kids_idx p l1 a l2 b l3 : kids h p = l1 ++ a :: l2 ++ b :: l3 ->
    exists i j, Listed h p i a /\ Listed h p j b /\ i < j.
  Proof.
    intros E. exists (length l1), (length l1 + S (length l2)). unfold Listed. rewrite E. split; [|split; [|lia]].
    - rewrite nth_error_app2, Nat.sub_diag by lia. reflexivity.
    - rewrite nth_error_app2 by lia. replace (length l1 + S (length l2) - length l1) with (S (length l2)) by lia. cbn.
      rewrite nth_error_app2, Nat.sub_diag by lia. reflexivity.
  Qed.
  Lemma flat_kids_ordered (f : id -> list id) x :
    (forall c, Child h x c -> Ordered h (f c) /\ forall y, In y (f c) -> AncEq h c y) -> Ordered h (flat_map f (kids h x)).
  Proof.
    intros H. apply ordered_flat_map.
    - intros c Hc. apply child_in in Hc. exact (proj1 (H c Hc)).
    - intros l1 a l2 b l3 E u v Hu Hv. destruct (kids_idx x l1 a l2 b l3 E) as (i & j & Hi & Hj & Hlt).
      right. exists x, i, j, a, b. repeat split; try assumption.
      + exact (proj2 (H a (ex_intro _ i Hi)) u Hu).
      + exact (proj2 (H b (ex_intro _ j Hj)) v Hv).
  Qed.
End Down.

Lemma is_text_spec h c : is_text h c = true <-> IsText h c.
Proof. unfold is_text, IsText. destruct (ntype_of h c); split; intros H; try discriminate; try tauto; destruct H; discriminate. Qed.

Section Texts.
  Variable o : oracles_dom.
  Variable h : heap.
  Hypothesis wf : WF h.
  Variable limit : option nat.
  Variable handle : nat -> id -> bool.
  Variable rec : id -> bool.

  Definition textual (c : id) : bool := is_text h c || is_element h c && content_el o h c.
  Lemma textual_spec c : textual c = true <-> Textual o h c.
  Proof. unfold textual, Textual, content_el. rewrite orb_true_iff, andb_true_iff, is_text_spec. reflexivity. Qed.

  Fixpoint tpre (fuel depth : nat) (x : id) : list id :=
    match fuel with
    | 0 => []
    | S f => flat_map (fun c =>
               if textual c then if handle depth c then [c] else []
               else if is_element h c && (deeper limit (S depth) && rec c) then tpre f (S depth) c else []) (kids h x)
    end.

  Lemma texts_loop_ok : forall fuel depth x, Dig h fuel x -> content_el o h x = false \/ kids h x <> [] ->
    texts_loop fuel o h limit handle rec depth x = Ok (tpre fuel depth x).
  Proof.
    induction fuel as [|f IH]; intros depth x Hd Hx; [destruct (dig_pos h wf _ _ Hd); discriminate|].
    cbn [texts_loop tpre]. destruct (kids h x) as [|k ks] eqn:Ek.
    - destruct Hx as [-> | Hx]; [reflexivity | congruence].
    - rewrite <- Ek in *. refine (rfold_flat _ _ _ _ []). intros acc c Hc. apply child_in in Hc. unfold textual.
      destruct (is_text h c) eqn:Et; cbn [orb andb].
      + destruct (handle depth c); [reflexivity | rewrite app_nil_r; reflexivity].
      + destruct (is_element h c) eqn:Ee; cbn [andb]; [|rewrite app_nil_r; reflexivity].
        destruct (content_el o h c) eqn:Ec.
        * destruct (handle depth c); [reflexivity | rewrite app_nil_r; reflexivity].
        * destruct (deeper limit (S depth) && rec c); [|rewrite app_nil_r; reflexivity].
          rewrite (IH (S depth) c (dig_child h wf _ _ _ Hd Hc) (or_introl Ec)). reflexivity.
  Qed.

  Lemma below_zero x t : TextBelow o h rec x 0 t <-> Child h x t /\ Textual o h t.
  Proof.
    split.
    - intros ((l & Hl & Hn) & Ht & _). destruct l as [|i [|]]; try discriminate. split; [|exact Ht]. exists i. apply path_one_inv. exact Hl.
    - intros [(i & Hi) Ht]. split; [exists [i]; split; [apply path_one; exact Hi | reflexivity]|]. split; [exact Ht|].
      intros c Hc Hct. exfalso.
      pose proof (branch h wf x t c t (ex_intro _ i Hi) (or_introl eq_refl) Hc (or_intror Hct)) as H.
      exact (no_cycle h wf t (anceq_anc h _ _ _ H Hct)).
  Qed.
  Lemma below_succ x d t : TextBelow o h rec x (S d) t <->
    exists c, Child h x c /\ is_element h c = true /\ content_el o h c = false /\ rec c = true /\ TextBelow o h rec c d t.
  Proof.
    split.
    - intros ((l & Hl & Hn) & Ht & Hb). destruct l as [|i l]; [discriminate|]. injection Hn as Hn.
      apply path_cons_inv in Hl. destruct Hl as (c & Hc & Hl). exists c.
      assert (Hxc : Anc h x c) by (apply Anc_child; exists i; exact Hc).
      assert (Hct : Anc h c t) by (apply anc_path; exists l; split; [destruct l; discriminate | exact Hl]).
      destruct (Hb c Hxc Hct) as (E1 & E2 & E3). split; [exists i; exact Hc|]. do 3 (split; [assumption|]).
      split; [exists l; split; assumption|]. split; [exact Ht|]. intros k Hk Hkt. apply Hb; [|exact Hkt]. exact (anc_trans h _ _ _ Hxc Hk).
    - intros (c & Hc & E1 & E2 & E3 & (l & Hl & Hn) & Ht & Hb). destruct Hc as (i & Hi). split; [|split; [exact Ht|]].
      + exists (i :: l). split; [exact (path_cons h _ _ _ _ _ Hi Hl) | cbn; rewrite Hn; reflexivity].
      + intros k Hxk Hkt.
        assert (Hct : AncEq h c t) by (apply anceq_path; exists l; exact Hl).
        destruct (branch h wf x c k t (ex_intro _ i Hi) Hct Hxk (or_intror Hkt)) as [<- | H]; [repeat split; assumption|].
        exact (Hb k H Hkt).
  Qed.

  Lemma deeper_le a b : a <= b -> deeper limit b = true -> deeper limit a = true.
  Proof. unfold deeper. destruct limit; [rewrite !Nat.ltb_lt; lia | reflexivity]. Qed.

  Lemma tpre_in : forall fuel depth x t, Dig h fuel x -> deeper limit depth = true ->
    (In t (tpre fuel depth x) <->
     exists d, TextBelow o h rec x d t /\ deeper limit (depth + d) = true /\ handle (depth + d) t = true).
  Proof.
    induction fuel as [|f IH]; intros depth x t Hd Hl; [destruct (dig_pos h wf _ _ Hd); discriminate|].
    cbn [tpre]. rewrite in_flat_map. split.
    - intros (c & Hc & Ht). apply child_in in Hc. destruct (textual c) eqn:Et.
      + destruct (handle depth c) eqn:Eh; [|destruct Ht]. destruct Ht as [<- | []]. exists 0. rewrite Nat.add_0_r.
        split; [apply below_zero; split; [exact Hc | apply textual_spec; exact Et] | split; assumption].
      + destruct (is_element h c && (deeper limit (S depth) && rec c)) eqn:Er; [|destruct Ht].
        rewrite !andb_true_iff in Er. destruct Er as (Ee & Ed & Er).
        apply (IH _ _ _ (dig_child h wf _ _ _ Hd Hc) Ed) in Ht. destruct Ht as (d & H1 & H2 & H3). exists (S d).
        rewrite <- plus_n_Sm. split; [|split; [exact H2 | exact H3]]. apply below_succ. exists c. split; [exact Hc|].
        unfold textual in Et. rewrite Ee in Et. apply orb_false_iff in Et. destruct Et as [_ Et]. cbn in Et. exact (conj Ee (conj Et (conj Er H1))).
    - intros (d & Hb & H2 & H3). destruct d as [|d].
      + apply below_zero in Hb. destruct Hb as [Hc Ht]. exists t. split; [apply child_in; exact Hc|].
        apply textual_spec in Ht. rewrite Ht. rewrite Nat.add_0_r in H3. rewrite H3. left. reflexivity.
      + apply below_succ in Hb. destruct Hb as (c & Hc & Ee & Ec & Er & Hb). exists c. split; [apply child_in; exact Hc|].
        rewrite <- plus_n_Sm in H2, H3. assert (Ed : deeper limit (S depth) = true) by (refine (deeper_le _ _ _ H2); lia).
        unfold textual. rewrite Ee, Ec, Ed, Er.
        assert (Etx : is_text h c = false) by (unfold is_element in Ee; unfold is_text; destruct (ntype_of h c); try discriminate; reflexivity).
        rewrite Etx. cbn [orb andb]. apply (IH _ _ _ (dig_child h wf _ _ _ Hd Hc) Ed). exists d. exact (conj Hb (conj H2 H3)).
  Qed.
  Lemma tpre_under fuel : forall depth x t, In t (tpre fuel depth x) -> Anc h x t.
  Proof.
    induction fuel as [|f IH]; intros depth x t H; [destruct H|]. cbn [tpre] in H. apply in_flat_map in H. destruct H as (c & Hc & H).
    apply child_in in Hc. destruct (textual c).
    - destruct (handle depth c); [|destruct H]. destruct H as [<- | []]. apply Anc_child. exact Hc.
    - destruct (is_element h c && (deeper limit (S depth) && rec c)); [|destruct H]. apply IH in H.
      exact (anc_trans h _ _ _ (Anc_child h _ _ Hc) H).
  Qed.
  Lemma tpre_ordered fuel : forall depth x, Ordered h (tpre fuel depth x).
  Proof.
    induction fuel as [|f IH]; intros depth x; [exact I|]. cbn [tpre]. apply flat_kids_ordered. intros c Hc. destruct (textual c).
    - destruct (handle depth c); [|split; [exact I | intros y []]]. split; [split; [constructor | exact I]|].
      intros y [<- | []]. left. reflexivity.
    - destruct (is_element h c && (deeper limit (S depth) && rec c)); [|split; [exact I | intros y []]].
      split; [apply IH|]. intros y Hy. right. exact (tpre_under _ _ _ _ Hy).
  Qed.
End Texts.

Lemma texts_by_rec_ok o h x limit handle rec : WF h -> exists l,
  texts_by_rec o h x limit handle rec = Ok l /\ Ordered h l /\
  forall t, In t l <->
    (exists d, TextBelow o h rec x d t /\ Within limit d /\ handle d t = true) \/
    (t = x /\ kids h x = [] /\ od_content_tag o (tag_names h x) = true /\ handle 0 x = true).
Proof.
  intros wf. unfold texts_by_rec. set (lim := match limit with 0 => None | n => Some n end).
  assert (HW : forall d, deeper lim d = true <-> Within limit d).
  { intros d. unfold lim, Within, deeper. destruct limit as [|n]; [split; [left; reflexivity | reflexivity]|].
    rewrite Nat.ltb_lt. split; [right; assumption | intros [H | H]; [discriminate | exact H]]. }
  assert (H0 : deeper lim 0 = true) by (apply HW; unfold Within; destruct limit; [left; reflexivity | right; lia]).
  destruct (content_el o h x) eqn:Ec; [destruct (kids h x) as [|k ks] eqn:Ek|].
  - exists (if handle 0 x then [x] else []). split; [|split].
    + cbn [texts_loop]. rewrite Ek, Ec. reflexivity.
    + destruct (handle 0 x); [split; [constructor | exact I] | exact I].
    + intros t. split.
      * intros H. right. destruct (handle 0 x); [|destruct H]. destruct H as [<- | []]. repeat split; assumption.
      * intros [(d & ((l & Hl & Hn) & _) & _) | (-> & _ & _ & H)]; [|rewrite H; left; reflexivity]. exfalso.
        destruct l as [|i l]; [discriminate|]. apply path_cons_inv in Hl. destruct Hl as (c & Hc & _). unfold Listed in Hc.
        rewrite Ek in Hc. destruct i; discriminate.
  - exists (tpre o h lim handle rec (S (length h)) 0 x). split; [|split; [exact (tpre_ordered o h lim handle rec _ _ _)|]].
    + apply texts_loop_ok; [exact wf | exact (dig_full h wf x) | right; rewrite Ek; discriminate].
    + intros t. rewrite (tpre_in o h wf lim handle rec _ _ _ _ (dig_full h wf x) H0). cbn [Nat.add]. split.
      * intros (d & H1 & H2 & H3). left. exists d. rewrite <- HW. exact (conj H1 (conj H2 H3)).
      * intros [(d & H1 & H2 & H3) | (_ & H & _)]; [|discriminate]. exists d. rewrite HW. exact (conj H1 (conj H2 H3)).
  - exists (tpre o h lim handle rec (S (length h)) 0 x). split; [|split; [exact (tpre_ordered o h lim handle rec _ _ _)|]].
    + apply texts_loop_ok; [exact wf | exact (dig_full h wf x) | left; exact Ec].
    + intros t. rewrite (tpre_in o h wf lim handle rec _ _ _ _ (dig_full h wf x) H0). cbn [Nat.add]. split.
      * intros (d & H1 & H2 & H3). left. exists d. rewrite <- HW. exact (conj H1 (conj H2 H3)).
      * unfold content_el in Ec. intros [(d & H1 & H2 & H3) | (_ & _ & H & _)]; [|congruence]. exists d. rewrite HW. exact (conj H1 (conj H2 H3)).
Qed.

(** * Removing texts *)
Lemma texts_remove_ok d : forall h, WF h -> NoDup d -> Forall (Placed h) d ->
  exists h', texts_remove h d = Ok h' /\ WF h' /\ TakenOutAll h h' d.
Proof.
  induction d as [|x d IH]; intros h wf Hn Hp.
  - exists h. split; [reflexivity|]. split; [exact wf|]. split; [apply same_nodes_refl|]. split; [|reflexivity].
    intros q. symmetry. apply without_all_nil.
  - inversion Hn as [|? ? Hx Hn']; subst. inversion Hp as [|? ? Px Hp']; subst.
    destruct (text_remove_ok h x wf Px) as (h1 & E1 & wf1 & T1).
    assert (Hp1 : Forall (Placed h1) d).
    { rewrite Forall_forall in Hp' |- *. intros y Hy. apply (takenout_placed h h1 x y T1); [|exact (Hp' y Hy)].
      intros ->. contradiction. }
    destruct (IH h1 wf1 Hn' Hp1) as (h' & E & wf' & (S' & K' & P')).
    exists h'. unfold texts_remove in *. cbn [rfold]. rewrite E1. cbn [rbind]. split; [exact E|]. split; [exact wf'|].
    destruct T1 as (S1 & K1 & P1). split; [exact (same_nodes_trans _ _ _ S1 S')|]. split.
    + intros q. rewrite K', K1, without_all_cons. reflexivity.
    + intros y. rewrite P'. apply P1.
Qed.

Section Taken.
  Variables h h' : heap.
  Variable d : list id.
  Hypothesis wf : WF h.
  Hypothesis T : TakenOutAll h h' d.

  Lemma taken_child p c : Child h' p c <-> Child h p c /\ ~ In c d.
  Proof.
    destruct T as (_ & K & _). rewrite !child_in, K. apply without_all_in.
  Qed.
  Lemma taken_anc x y : Anc h' x y -> Anc h x y.
  Proof.
    intros H. induction H as [p c H | p q c H IH Hc]; [apply Anc_child; apply taken_child in H; apply H|].
    apply taken_child in Hc. exact (Anc_step h _ _ _ IH (proj1 Hc)).
  Qed.
  Lemma taken_path x l y : Path h' x l y -> exists l', length l' = length l /\ Path h x l' y.
  Proof.
    intros H. induction H as [|l p i c H (l' & Hn & Hl) Hc]; [exists []; split; [reflexivity | constructor]|].
    assert (Hch : Child h' p c) by (exists i; exact Hc). apply taken_child in Hch. destruct Hch as [(j & Hj) _].
    exists (l' ++ [j]). rewrite !app_length, Hn. split; [reflexivity|]. exact (Path_down h x l' p j c Hl Hj).
  Qed.
  Lemma taken_between x l t : Path h' x l t -> forall c, Anc h x c -> Anc h c t -> Anc h' x c /\ Anc h' c t.
  Proof.
    intros H. induction H as [|l p i t H IH Hc]; intros c Hxc Hct.
    - exfalso. exact (no_cycle h wf x (anc_trans h _ _ _ Hxc Hct)).
    - assert (Hch : Child h' p t) by (exists i; exact Hc). pose proof (proj1 (proj1 (taken_child p t) Hch)) as (j & Hj).
      destruct (anc_inv h _ _ Hct) as (q & Hcq & (k & Hk)). pose proof (listed_parent h wf _ _ _ Hk) as E.
      rewrite (listed_parent h wf _ _ _ Hj) in E. injection E as <-. destruct Hcq as [-> | Hcp].
      + split; [|apply Anc_child; exact Hch]. apply anc_path. exists l. split; [|exact H].
        intros ->. inversion H as [E|]; subst; [exact (no_cycle h wf _ Hxc) | destruct l; discriminate].
      + destruct (IH c Hxc Hcp) as [H1 H2]. split; [exact H1|]. exact (Anc_step h' _ _ _ H2 Hch).
  Qed.
  Lemma taken_below o rec x e t : TextBelow o h' rec x e t -> TextBelow o h rec x e t /\ ~ In t d.
  Proof.
    intros ((l & Hl & Hn) & Ht & Hb).
    pose proof (proj1 T) as S.
    assert (Ee : forall y, is_element h' y = is_element h y) by (intros y; exact (same_element _ _ S y)).
    assert (Et : forall y, tag_names h' y = tag_names h y) by (intros y; exact (same_tag _ _ S y)).
    assert (Ex : forall y, IsText h' y <-> IsText h y) by (intros y; unfold IsText; unfold ntype_of; destruct (proj2 S y) as (-> & _); reflexivity).
    split.
    - split; [destruct (taken_path _ _ _ Hl) as (l' & H1 & H2); exists l'; split; [exact H2 | congruence]|].
      split; [unfold Textual in *; rewrite <- Ee, <- Et, <- Ex; exact Ht|].
      intros c H1 H2. destruct (taken_between _ _ _ Hl c H1 H2) as [H3 H4]. rewrite <- Ee, <- Et. exact (Hb c H3 H4).
    - assert (Ha : Anc h' x t) by (apply anc_path; exists l; split; [destruct l; discriminate | exact Hl]).
      destruct (anc_inv h' _ _ Ha) as (p & _ & Hc). apply taken_child in Hc. apply Hc.
  Qed.
End Taken.
