(** Property theorems: calls on whole sets (C26, C27, C39, C56). *)
From Verif Require Import Base Attr Dom DomSpec Order OrderSpec DomProofs OrderProofs NavProofs DomBuild DomBuildProofs
  Mutate MutateSpec MutateProofs InsertProofs HistoryProofs TextNodes TextSpec TextProofs PropsMutate PropsText SeveralProofs PropsSeveral.

(** * C56: the calls with receiver and argument exchanged *)
(** [nodes.append_to(targets)] and the like: the receiver [d] is what moves, the argument holds the targets. *)
Theorem C56_mirrored (o : oracles_dom) (h : heap) (r e : id) (ts d : list id) : WF h -> NoDup d ->
  (forall t, In t (ts ++ [e]) -> InTree h r t /\ is_element h t = true /\ Forall (Free h t) d /\
     Forall (fun x => od_allow_insert o (tag_names h t) (ntype_of h x) = true) d) ->
  (exists h', append_to o h d (ts ++ [e]) = Ok (h', []) /\ WF h' /\ MovedAllInto h h' e (without_all d (kids h e)) (rev d) []) /\
  (exists h', prepend_to o h d (ts ++ [e]) = Ok (h', []) /\ WF h' /\ MovedAllInto h h' e [] d (without_all d (kids h e))) /\
  (forall p l1 l2, (forall t, In t (ts ++ [e]) -> exists q, Child h q t) -> Child h p e -> without_all d (kids h p) = l1 ++ e :: l2 ->
     (exists h', insert_before o h d (ts ++ [e]) = Ok (h', []) /\ WF h' /\ MovedAllInto h h' p l1 (rev d) (e :: l2)) /\
     (exists h', insert_after o h d (ts ++ [e]) = Ok (h', []) /\ WF h' /\ MovedAllInto h h' p (l1 ++ [e]) d l2)).
Proof.
  intros wf Hn HT. split; [exact (C56_append o h r e ts d wf Hn HT)|]. split; [exact (C56_prepend o h r e ts d wf Hn HT)|]. intros p l1 l2 Hp Hc Ew.
  assert (HT' : forall t, In t (ts ++ [e]) -> InTree h r t /\ is_element h t = true /\ Forall (Free h t) d /\ exists q, Child h q t).
  { intros t Ht. destruct (HT t Ht) as (H1 & H2 & H3 & _). exact (conj H1 (conj H2 (conj H3 (Hp t Ht)))). }
  split; [exact (C56_before o h r p e ts d l1 l2 wf Hn HT' Hc Ew) | exact (C56_after o h r p e ts d l1 l2 wf Hn HT' Hc Ew)].
Qed.
Print Assumptions C56_mirrored.
(** The hypotheses are those of C56_ex. *)
Example C56_mirrored_ex : (exists h', append_to ex_od ex_row [2; 3] [4; 5] = Ok (h', []) /\ kids h' 4 = [] /\ kids h' 5 = [3; 2] /\ kids h' 1 = [4; 5]) /\
  (exists h', prepend_to ex_od ex_row [2; 3] [4; 5] = Ok (h', []) /\ kids h' 4 = [] /\ kids h' 5 = [2; 3] /\ kids h' 1 = [4; 5]) /\
  (exists h', insert_before ex_od ex_row [2; 3] [4; 5] = Ok (h', []) /\ kids h' 1 = [4; 3; 2; 5]) /\
  (exists h', insert_after ex_od ex_row [2; 3] [4; 5] = Ok (h', []) /\ kids h' 1 = [4; 5; 2; 3]).
Proof. repeat split; eexists; (split; [vm_compute; reflexivity|]); repeat split. Qed.

(** * C26: the texts of a set, with a handle and with none *)
(** What is listed for one element. *)
Definition TextsOf (o : oracles_dom) (h : heap) (limit : nat) (handle : nat -> id -> bool) (x : id) (l : list id) : Prop :=
  Ordered h l /\ forall t, In t l <->
    (exists d, TextBelow o h (fun _ => true) x d t /\ Within limit d /\ handle d t = true) \/
    (t = x /\ kids h x = [] /\ od_content_tag o (tag_names h x) = true /\ handle 0 x = true).
Theorem C26_set_texts_all (o : oracles_dom) (h : heap) (els : list id) (limit : nat) : WF h ->
  (forall handle, exists ls, set_texts_by o h els limit handle = Ok (concat ls) /\ Forall2 (TextsOf o h limit handle) els ls) /\
  (exists ls, set_texts o h els limit = Ok (concat ls) /\ Forall2 (TextsOf o h limit (fun _ _ => true)) els ls).
Proof.
  intros wf. assert (G : forall handle, exists ls, set_texts_by o h els limit handle = Ok (concat ls) /\ Forall2 (TextsOf o h limit handle) els ls).
  { intros handle. destruct (C26_set_texts o h els limit handle (fun _ => true) wf) as (ls & E & F). exists ls. split; [exact E|]. clear E. induction F as [|x l xs ms El F IH]; constructor; [|exact IH].
    destruct (C26_texts o h x limit handle (fun _ => true) wf) as (l' & El' & H1 & H2). rewrite El in El'. injection El' as <-. split; assumption. }
  split; [exact G | exact (G (fun _ _ => true))].
Qed.
Print Assumptions C26_set_texts_all.
Example C26_set_texts_ex : WF tdoc /\ set_texts tod tdoc [3; 1; 5] 1 = Ok [4; 5; 2; 11; 5] /\ set_texts_by tod tdoc [1] 0 (fun d _ => 2 <=? d) = Ok [7; 9].
Proof. split; [apply wf_check_sound; vm_compute; reflexivity | split; vm_compute; reflexivity]. Qed.

(** * C27: the text of every member *)
(** [set_text] with a text on a set of elements that hold child nodes, in any order, nested or repeated: each member has one new text node, of
    its own, as only child, and no other node of the document changes its children or its place. *)
Theorem C27_set_text_all (o : oracles_dom) (a : char) (s : str) (d : list id) : forall h, WF h ->
  Forall (fun x => is_element h x = true /\ od_content_tag o (tag_names h x) = false) d ->
  exists h', set_text_all o h d (a :: s) = (h', []) /\ WF h' /\ length h <= length h' /\
    (forall q, In q d -> exists t, length h <= t /\ kids h' q = [t] /\ ntype_of h' t = NText /\ n_content (node_of h' t) = Some (od_encode o (a :: s)) /\ kids h' t = []) /\
    (forall q, q < length h -> ~ In q d -> node_of h' q = node_of h q) /\
    (forall q, q < length h -> ntype_of h' q = ntype_of h q /\ n_meta (node_of h' q) = n_meta (node_of h q) /\ parent h' q = parent h q /\ index h' q = index h q).
Proof.
  unfold set_text_all. induction d as [|x d IH]; intros h wf Hd.
  - exists h. split; [reflexivity|]. split; [exact wf|]. split; [reflexivity|]. split; [intros q []|]. split; [reflexivity|]. repeat split.
  - inversion Hd as [|? ? [He Ht] Hd']; subst. destruct (C27_set_text_children o h x a s wf He Ht) as (h1 & E1 & wf1 & (L & _ & K & T & C & Kn & O & Tx & M & _ & P & I)).
    assert (Hx : x < length h) by exact (element_lt _ _ He).
    assert (S1 : forall q, q < length h -> ntype_of h1 q = ntype_of h q /\ n_meta (node_of h1 q) = n_meta (node_of h q) /\ parent h1 q = parent h q /\ index h1 q = index h q).
    { intros q Hq. destruct (Nat.eq_dec q x) as [->|N]; [auto|]. unfold ntype_of, parent, index. rewrite (O q N) by lia. auto. }
    assert (Hd1 : Forall (fun x => is_element h1 x = true /\ od_content_tag o (tag_names h1 x) = false) d).
    { eapply Forall_impl; [|exact Hd']. intros y [Hy Hty]. destruct (S1 y (element_lt _ _ Hy)) as (A1 & A2 & _). unfold tag_names, is_element in *. rewrite A1, A2. auto. }
    destruct (IH h1 wf1 Hd1) as (h' & E & W & L' & A & B & S2). exists h'. split.
    { cbn [fold_left fst snd]. rewrite E1. cbn [app]. exact E. }
    split; [exact W|]. split; [lia|]. split; [|split].
    + intros q Hq. destruct (in_dec Nat.eq_dec q d) as [Hi|Hi]; [destruct (A q Hi) as (t & Ht1 & Ht2); exists t; split; [lia | exact Ht2]|].
      destruct Hq as [<-|Hq]; [|contradiction]. exists (length h). split; [reflexivity|]. assert (Hn : ~ In (length h) d).
      { intros Hi'. rewrite Forall_forall in Hd'. pose proof (element_lt _ _ (proj1 (Hd' _ Hi'))). lia. }
      unfold kids, childs, ntype_of in *. rewrite (B x) by (lia || assumption). rewrite (B (length h)) by (lia || assumption). auto.
    + intros q Hq Hn. cbn in Hn. rewrite B by (lia || tauto). apply O; [intros ->; tauto | lia].
    + intros q Hq. destruct (S1 q Hq) as (-> & -> & -> & ->) || idtac. destruct (S2 q) as (A1 & A2 & A3 & A4); [lia|]. destruct (S1 q Hq) as (B1 & B2 & B3 & B4). rewrite A1, A2, A3, A4. auto.
Qed.
Print Assumptions C27_set_text_all.
Example C27_set_text_all_ex : WF ex_row /\ Forall (fun x => is_element ex_row x = true /\ od_content_tag ex_od (tag_names ex_row x) = false) [3; 1; 5] /\
  exists h', set_text_all ex_od ex_row [3; 1; 5] (lit "new") = (h', []) /\ kids h' 3 = [6] /\ kids h' 1 = [7] /\ kids h' 5 = [8] /\ kids h' 0 = [1].
Proof. split; [exact ex_row_wf|]. split; [repeat constructor|]. eexists. split; [vm_compute; reflexivity | repeat split]. Qed.

(** * C39: every refused member is reported *)
Lemma set_text_frame o h x c y : y < length h -> ntype_of (fst (set_text o h x c)) y = ntype_of h y /\ owner_document (fst (set_text o h x c)) y = owner_document h y.
Proof.
  intros Hy. assert (U : forall g, (forall n, n_type (g n) = n_type n /\ n_root (g n) = n_root n) -> ntype_of (upd h x g) y = ntype_of h y /\ owner_document (upd h x g) y = owner_document h y).
  { intros g Hg. unfold ntype_of, owner_document. destruct (Nat.eq_dec y x) as [->|N]; [rewrite node_upd_same by exact Hy; apply Hg | rewrite node_upd_other by congruence; auto]. }
  unfold set_text. destruct (ntype_of h x); cbn [fst]; auto.
  - destruct c as [|a s]; destruct (negb (od_content_tag o (tag_names h x))); cbn [fst]; try (apply U; intros n; split; reflexivity).
    unfold ntype_of, owner_document. unfold node_of at 1 3. rewrite app_nth1 by (rewrite upd_length; exact Hy). apply (U (set_ch (Some [length h]))). intros n. split; reflexivity.
  - destruct c; cbn [fst]; auto; apply U; intros n; split; reflexivity.
  - destruct c; cbn [fst]; auto; apply U; intros n; split; reflexivity.
  - destruct c; cbn [fst]; auto; apply U; intros n; split; reflexivity.
Qed.
(** [set_text("")] (that is [empty]) on any nodes: one report for each member that is a text or a comment, to its document, in the order of the
    set; with a text nothing is reported. *)
Theorem C39_set_text_reports (o : oracles_dom) (l : list id) (c : str) : forall h, Forall (fun x => x < length h) l ->
  snd (set_text_all o h l c) = match c with [] => flat_map (fun x => if is_text h x || is_comment h x || match ntype_of h x with NSpaces => true | _ => false end then halt h x else []) l | _ => [] end.
Proof.
  unfold set_text_all. assert (G : forall l h acc, Forall (fun x => x < length h) l ->
    snd (fold_left (fun s x => let '(h', e) := set_text o (fst s) x c in (h', snd s ++ e)) l (h, acc)) =
    acc ++ match c with [] => flat_map (fun x => if is_text h x || is_comment h x || match ntype_of h x with NSpaces => true | _ => false end then halt h x else []) l | _ => [] end).
  { clear l. induction l as [|x l IH]; intros h acc Hl; [cbn; destruct c; rewrite app_nil_r; reflexivity|]. inversion Hl as [|? ? Hx Hl']; subst. cbn [fold_left fst snd].
    pose proof (set_text_frame o h x c) as Fr. assert (Le : length h <= length (fst (set_text o h x c))).
    { unfold set_text. destruct (ntype_of h x); try destruct c; try destruct (negb _); cbn [fst]; rewrite ?app_length, ?upd_length; lia. }
    assert (Es : snd (set_text o h x c) = match c with [] => if is_text h x || is_comment h x || match ntype_of h x with NSpaces => true | _ => false end then halt h x else [] | _ => [] end).
    { unfold set_text, is_text, is_comment. destruct (ntype_of h x), c; try destruct (negb _); reflexivity. }
    destruct (set_text o h x c) as [h1 e1]. cbn [fst snd] in *. rewrite IH.
    - rewrite Es, <- app_assoc. f_equal. destruct c; [|reflexivity]. cbn [flat_map]. f_equal. rewrite !flat_map_concat_map. f_equal. apply map_ext_in. intros y Hy. rewrite Forall_forall in Hl'. destruct (Fr y (Hl' y Hy)) as [E1 E2].
      unfold is_text, is_comment, halt. rewrite E1, E2. reflexivity.
    - eapply Forall_impl; [|exact Hl']. intros y. cbn. lia. }
  intros h Hl. exact (G l h [] Hl).
Qed.
Print Assumptions C39_set_text_reports.
(** An insertion refused for every target and node: nothing changes and each refusal is reported, to the document of the target. *)
Theorem C39_refused_insertions (o : oracles_dom) (h : heap) (pos : position_) (l d : list id) : WF h ->
  (forall e x, In e l -> In x d -> is_element h e = false \/ is_document h x = true \/ AncEq h x e) ->
  insert_all o pos h l d = Ok (h, flat_map (fun e => concat (map (fun _ => halt h e) d)) l).
Proof.
  intros wf H. unfold insert_all.
  assert (S1 : forall e m acc, (forall x, In x m -> is_element h e = false \/ is_document h x = true \/ AncEq h x e) -> rfold (insert_step o pos e) m (h, acc) = Ok (h, acc ++ concat (map (fun _ => halt h e) m))).
  { intros e. induction m as [|x m IH]; intros acc Hm; [cbn; rewrite app_nil_r; reflexivity|]. cbn [rfold]. unfold insert_step at 1. cbn [fst snd]. rewrite (refused o h e pos x wf (Hm x (or_introl eq_refl))). cbn [rbind fst snd].
    rewrite IH by (intros y Hy; apply Hm; right; exact Hy). cbn [map concat]. rewrite app_assoc. reflexivity. }
  assert (S2 : forall l acc, (forall e x, In e l -> In x d -> is_element h e = false \/ is_document h x = true \/ AncEq h x e) ->
    rfold (fun s ele => rfold (insert_step o pos ele) (rev d) s) l (h, acc) = Ok (h, acc ++ flat_map (fun e => concat (map (fun _ => halt h e) d)) l)).
  { clear H l. induction l as [|e l IH]; intros acc H; [cbn; rewrite app_nil_r; reflexivity|]. cbn [rfold]. rewrite S1 by (intros x Hx; apply (H e x (or_introl eq_refl)); apply in_rev; exact Hx). cbn [rbind].
    rewrite IH by (intros e' x He Hx; apply H; [right; exact He | exact Hx]). cbn [flat_map]. rewrite <- app_assoc. do 2 f_equal. f_equal. f_equal.
    assert (Ec : forall (m : list id) (k : errors), concat (map (fun _ => k) (rev m)) = concat (map (fun _ => k) m)).
    { intros m k. rewrite map_rev. induction m as [|y m IHm]; [reflexivity|]. cbn [map rev concat]. rewrite concat_app. cbn [concat]. rewrite app_nil_r, IHm. clear. induction m as [|z m IH]; cbn; [rewrite app_nil_r; reflexivity|]. rewrite <- app_assoc, IH. reflexivity. }
    apply Ec. }
  exact (S2 l [] H).
Qed.
Print Assumptions C39_refused_insertions.
Example C39_reports_ex : WF tdoc /\ Forall (fun x => x < length tdoc) [2; 1; 10; 2] /\ snd (set_text_all tod tdoc [2; 1; 10; 2] []) = [0; 0; 0] /\
  (forall e x, In e [2; 6] -> In x [0; 1] -> is_element tdoc e = false \/ is_document tdoc x = true \/ AncEq tdoc x e) /\
  insert_all tod BeforeEnd tdoc [2; 6] [0; 1] = Ok (tdoc, [0; 0; 0; 0]).
Proof.
  split; [apply wf_check_sound; vm_compute; reflexivity|]. split; [apply Forall_forall; vm_compute; intuition lia|]. split; [vm_compute; reflexivity|].
  split; [|vm_compute; reflexivity]. intros e x [<-|[<-|[]]] [<-|[<-|[]]]; try (left; reflexivity); try (right; left; reflexivity). right; right.
  right. apply Anc_step with 3; [apply Anc_child; exists 1 | exists 2]; vm_compute; reflexivity.
Qed.
