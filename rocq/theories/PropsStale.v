(** Property theorems: the mutations for every node, also one that was removed before (C21, C22, C24, C25). *)
From Verif Require Import Base Utils Attr Dom DomSpec Order DomProofs Sets SetsProofs Mutate MutateSpec MutateProofs
  InsertProofs HistoryProofs DomBuild DomBuildProofs PropsSets PropsMutate StaleSpec StaleProofs.

(** C25: the removal of any node, element or text: exactly the node at the place it remembers is taken out (itself when
    it is listed, a former sibling when it was removed before, nothing when there is no such list); it panics exactly
    when the list is too short. *)
Theorem C25_remove_any (h : heap) (x : id) : WF h ->
  text_remove h x = remove_one h x /\
  (~ Dangling h x -> exists h', remove_one h x = Ok h' /\ WF h' /\ TakenOutAll h h' (occupant h x)) /\
  (Dangling h x -> remove_one h x = Panic) /\
  (Attached h x -> occupant h x = [x]) /\
  (forall z, In z (occupant h x) <-> exists p, parent h x = Some p /\ Listed h p (index h x) z).
Proof.
  intros wf. split; [exact (text_remove_any h x wf)|]. destruct (remove_any h x wf) as [H1 H2]. split; [|split; [exact H2|]].
  - intros Hd. destruct (H1 Hd) as (h' & E & R). exists h'. split; [exact E|]. split; [exact (rm_wf _ _ _ R) | exact (rm_out _ _ _ R)].
  - split; [exact (occupant_self h x wf) | intros z; apply occupant_some].
Qed.
Print Assumptions C25_remove_any.

(** The row b 2, c 3, d 4, e 5 under a 1, after c and then e were removed: c remembers the place of d, e one that is
    not there any more. *)
Definition ex_stale : heap := match run_ops ex_od ex_row [ORemove 3; ORemove 5] with Ok h => h | _ => [] end.
Lemma ex_stale_wf : WF ex_stale.
Proof. apply wf_check_sound. vm_compute. reflexivity. Qed.
Lemma ex_stale_dangling : ~ Dangling ex_stale 3 /\ Dangling ex_stale 5.
Proof.
  split.
  - intros (p & cs & Ep & Ec & Hle). vm_compute in Ep. injection Ep as <-. vm_compute in Ec. injection Ec as <-.
    vm_compute in Hle. lia.
  - exists 1, [2; 4]. split; [reflexivity|]. split; [reflexivity|]. vm_compute. lia.
Qed.
Example C25_any_ex : WF ex_stale /\ kids ex_stale 1 = [2; 4] /\ ~ Attached ex_stale 3 /\
  ~ Dangling ex_stale 3 /\ occupant ex_stale 3 = [4] /\ Dangling ex_stale 5 /\
  (exists h', remove_one ex_stale 3 = Ok h' /\ kids h' 1 = [2]) /\ remove_one ex_stale 5 = Panic.
Proof.
  split; [exact ex_stale_wf|]. split; [reflexivity|]. split.
  { intros (p & Hc). apply child_in in Hc. do 6 (destruct p as [|p]; [vm_compute in Hc; intuition discriminate|]).
    vm_compute in Hc. destruct p; exact Hc. }
  destruct ex_stale_dangling as [H1 H2]. split; [exact H1|]. split; [reflexivity|]. split; [exact H2|]. split.
  - eexists. split; [vm_compute; reflexivity|]. reflexivity.
  - vm_compute. reflexivity.
Qed.

(** C22: the insertion of any node that is neither the target nor above it.  The node at the place it remembers is
    taken out, then it is put where asked. *)
Theorem C22_inside_any (o : oracles_dom) (h : heap) (self x : id) (at_end : bool) : WF h -> Takes h self x ->
  let cs := without_all (occupant h x) (kids h self) in
  let pos := if at_end then BeforeEnd else AfterBegin in
  (Dangling h x -> insert_adjacent o h self pos x = Panic) /\
  (~ Dangling h x -> exists h', insert_adjacent o h self pos x = Ok (h', []) /\ WF h' /\
     (od_allow_insert o (tag_names h self) (ntype_of h x) = true ->
        PutInto h h' (occupant h x) self x (if at_end then cs else []) (if at_end then [] else cs)) /\
     (od_allow_insert o (tag_names h self) (ntype_of h x) = false -> TakenOutAll h h' (occupant h x))).
Proof.
  intros wf Tk cs pos. split; [exact (insert_dangling o h self pos x wf Tk)|]. intros Hd.
  destruct (od_allow_insert o (tag_names h self) (ntype_of h x)) eqn:Ea.
  - destruct (inside_any o h self at_end x wf Tk Hd Ea) as (h' & E & W & P). exists h'. split; [exact E|]. split; [exact W|].
    split; [intros _; exact P | discriminate].
  - destruct (inside_any_refused o h self at_end x wf Tk Hd Ea) as (h' & E & W & P). exists h'. split; [exact E|]. split; [exact W|].
    split; [discriminate | intros _; exact P].
Qed.
Print Assumptions C22_inside_any.
(** Beside a target that may have been removed as well: by its position in the list, or by the one it remembers.  The
    numbering of the tree survives exactly when that position is in the list. *)
Theorem C22_beside_any (o : oracles_dom) (h : heap) (self x : id) (after_ : bool) : WF h -> Takes h self x ->
  let pos := if after_ then AfterEnd else BeforeBegin in
  (Dangling h x -> insert_adjacent o h self pos x = Panic) /\
  (~ Dangling h x ->
     (forall p i, parent h self = Some p -> childs h p <> None ->
        let cs := without_all (occupant h x) (kids h p) in Place h cs self i ->
        let k := if after_ then S i else i in
        exists h', insert_adjacent o h self pos x = Ok (h', []) /\
          PutInto h h' (occupant h x) p x (firstn k cs) (skipn k cs) /\ (WF h' <-> k <= length cs)) /\
     ((forall p, parent h self = Some p -> childs h p = None) ->
        exists h', insert_adjacent o h self pos x = Ok (h', []) /\ WF h' /\ TakenOutAll h h' (occupant h x))).
Proof.
  intros wf Tk pos. split; [exact (insert_dangling o h self pos x wf Tk)|]. intros Hd. split.
  - intros p i Ep Hc cs Hi k. exact (beside_any o h self p after_ x i wf Tk Hd Ep Hc Hi).
  - exact (beside_any_lost o h self after_ x wf Tk Hd).
Qed.
Print Assumptions C22_beside_any.
Lemma up_check h a b : WF h -> parent_chain_has (S (length h)) h a b = Ok false -> ~ Up h a b.
Proof.
  intros wf E H. destruct (chain_has_ok h b wf (S (length h)) a) as (c & Ec & Hs).
  - pose proof (ups_length h wf (S (length h)) a). lia.
  - rewrite E in Ec. injection Ec as <-. apply Hs in H. discriminate.
Qed.
Example C22_any_ex : Takes ex_stale 2 3 /\ Takes ex_stale 5 3 /\ Place ex_stale (without_all [4] [2; 4]) 5 2 /\
  (exists h', insert_adjacent ex_od ex_stale 2 BeforeEnd 3 = Ok (h', []) /\ kids h' 1 = [2] /\ kids h' 2 = [3]) /\
  insert_adjacent ex_od ex_stale 2 BeforeEnd 5 = Panic /\
  (exists h', insert_adjacent ex_od ex_stale 2 BeforeBegin 3 = Ok (h', []) /\ kids h' 1 = [3; 2]) /\
  (exists h', insert_adjacent ex_od ex_stale 5 BeforeBegin 3 = Ok (h', []) /\ kids h' 1 = [2; 3] /\ index h' 3 = 2).
Proof.
  split; [split; [reflexivity | vm_compute; lia | reflexivity | discriminate | apply (up_check _ _ _ ex_stale_wf); vm_compute; reflexivity]|].
  split; [split; [reflexivity | vm_compute; lia | reflexivity | discriminate | apply (up_check _ _ _ ex_stale_wf); vm_compute; reflexivity]|].
  split; [right; split; [vm_compute; intuition discriminate | reflexivity]|].
  split; [eexists; split; [vm_compute; reflexivity | split; reflexivity]|]. split; [vm_compute; reflexivity|].
  split; [eexists; split; [vm_compute; reflexivity | reflexivity]|].
  eexists. split; [vm_compute; reflexivity|]. split; reflexivity.
Qed.

(** C24: the replacement of any node by any node that is neither itself nor above it. *)
Theorem C24_replace_any (h : heap) (self y : id) : WF h -> y < length h -> is_root h y = false -> self <> y -> ~ Up h self y ->
  (Dangling h y -> replace_with h self y = Panic) /\
  (~ Dangling h y ->
     (forall p i, parent h self = Some p -> childs h p <> None ->
        let cs := without_all (occupant h y) (kids h p) in Place h cs self i ->
        (i < length cs -> exists h', replace_with h self y = Ok (h', y) /\ WF h' /\
           PutInto h h' (occupant h y) p y (firstn i cs) (skipn (S i) cs)) /\
        (length cs <= i -> replace_with h self y = Panic)) /\
     ((forall p, parent h self = Some p -> childs h p = None) ->
        exists h', replace_with h self y = Ok (h', y) /\ WF h' /\ TakenOutAll h h' (occupant h y))).
Proof.
  intros wf Hy Hr Hne Hup. split; [exact (replace_dangling h self y wf Hr)|]. intros Hd. split.
  - intros p i Ep Hc cs Hi. exact (replace_any h p self y i wf Hy Hr Hne Hup Hd Ep Hc Hi).
  - exact (replace_any_lost h self y wf Hr Hd).
Qed.
Print Assumptions C24_replace_any.
Example C24_any_ex : ~ Up ex_stale 3 2 /\ Place ex_stale (without_all [2] [2; 4]) 3 1 /\
  replace_with ex_stale 3 2 = Panic /\
  (exists h', replace_with ex_stale 4 3 = Panic /\ replace_with ex_stale 2 3 = Ok (h', 3) /\ kids h' 1 = [3]).
Proof.
  split; [apply (up_check _ _ _ ex_stale_wf); vm_compute; reflexivity|].
  split; [right; split; [vm_compute; intuition discriminate | reflexivity]|]. split; [vm_compute; reflexivity|].
  eexists. split; [vm_compute; reflexivity|]. split; [vm_compute; reflexivity|]. reflexivity.
Qed.

(** C21: every history of calls that return, on any nodes, keeps the tree well formed as long as no node is put beside
    one whose remembered place is past the end of the list and no node is replaced by one above it.  Calls on nodes
    that are where their parent says are a special case. *)
Theorem C21_any (o : oracles_dom) (h h' : heap) (calls : list op) : WF h -> SoundAll o h calls ->
  run_ops o h calls = Ok h' -> WF h'.
Proof. intros wf Hs E. exact (sound_all_ok o calls h h' wf Hs E). Qed.
Print Assumptions C21_any.
Theorem C21_covered_sound (h : heap) (c : op) : WF h -> Covered h c -> Sound h c.
Proof. exact (covered_sound h c). Qed.
Print Assumptions C21_covered_sound.
(** c 3 is removed, e 5 put before it, c put into b 2 (which takes e out), e put before d 4 (which takes d out). *)
Definition ex_again : list op := [ORemove 3; OInsert 3 BeforeBegin 5; OInsert 2 BeforeEnd 3; OInsert 4 BeforeBegin 5].
Example C21_any_ex : WF ex_row /\ SoundAll ex_od ex_row ex_again /\
  exists h', run_ops ex_od ex_row ex_again = Ok h' /\ kids h' 1 = [2; 5] /\ kids h' 2 = [3] /\ WF h'.
Proof.
  split; [exact ex_row_wf|]. split.
  - unfold ex_again. cbn [SoundAll]. split; [exact I|]. intros h1 E1. vm_compute in E1. injection E1 as <-.
    split; [split; [vm_compute; lia|]; split; [reflexivity|]|].
    { intros p i _ Ep _ [Hi | [_ ->]]; vm_compute in Ep; injection Ep as <-; [|vm_compute; lia].
      do 3 (destruct i as [|i]; [vm_compute in Hi; discriminate|]). vm_compute in Hi. destruct i; discriminate. }
    intros h2 E2. vm_compute in E2. injection E2 as <-. split; [split; [vm_compute; lia|]; split; [reflexivity | exact I]|].
    intros h3 E3. vm_compute in E3. injection E3 as <-. split; [|intros h4 _; exact I].
    split; [vm_compute; lia|]. split; [reflexivity|].
    intros p i _ Ep _ [Hi | [_ ->]]; vm_compute in Ep; injection Ep as <-; [|vm_compute; lia].
    do 3 (destruct i as [|i]; [vm_compute in Hi; discriminate|]). vm_compute in Hi. destruct i; discriminate.
  - eexists. split; [vm_compute; reflexivity|]. split; [reflexivity|]. split; [reflexivity|].
    apply wf_check_sound. vm_compute. reflexivity.
Qed.

(** Putting a node beside one whose place is past the end of the list leaves a wrong number: the node just inserted
    cannot be removed. *)
Theorem C21_removed_refuted : exists o h calls h' x p, WF h /\ run_ops o h calls = Ok h' /\ ~ WF h' /\
  Child h' p x /\ remove_one h' x = Panic.
Proof.
  exists ex_od, ex_row, [ORemove 5; ORemove 4; OInsert 5 BeforeBegin 2]. eexists. exists 2, 1. split; [exact ex_row_wf|].
  split; [vm_compute; reflexivity|]. split; [|split; [exists 1; reflexivity | vm_compute; reflexivity]].
  intros wf. match type of wf with WF ?h => pose proof (listed_index h wf 1 1 2 eq_refl) as E end. vm_compute in E. discriminate.
Qed.
Print Assumptions C21_removed_refuted.

(** C25: [empty] on any list of nodes, in any order and with repetitions: elements lose their child nodes (or their text, where
    it is held directly), text and comment nodes report an error and stay, nothing else changes. *)
Definition holds_nodes (o : oracles_dom) (h : heap) (x : id) : bool := is_element h x && negb (od_content_tag o (tag_names h x)).
Definition holds_text (o : oracles_dom) (h : heap) (x : id) : bool := is_element h x && od_content_tag o (tag_names h x).
Definition among (x : id) (d : list id) : bool := existsb (Nat.eqb x) d.
Theorem C25_empty_any (o : oracles_dom) (h : heap) (d : list id) : WF h ->
  exists h', empty_all o h d = (h', flat_map (fun x => if is_text h x || is_comment h x then halt h x else []) d) /\ WF h' /\
    length h' = length h /\
    forall y, kids h' y = (if among y d && holds_nodes o h y then [] else kids h y) /\
      n_content (node_of h' y) = (if among y d && holds_text o h y then None else n_content (node_of h y)) /\
      parent h' y = parent h y /\ index h' y = index h y /\ ntype_of h' y = ntype_of h y /\
      n_meta (node_of h' y) = n_meta (node_of h y) /\ n_root (node_of h' y) = n_root (node_of h y).
Proof.
  unfold empty_all, set_text_all.
  assert (G : forall d h e, WF h -> exists h',
    fold_left (fun s x => let '(h', e) := set_text o (fst s) x [] in (h', snd s ++ e)) d (h, e) =
      (h', e ++ flat_map (fun x => if is_text h x || is_comment h x then halt h x else []) d) /\ WF h' /\
    length h' = length h /\
    forall y, kids h' y = (if among y d && holds_nodes o h y then [] else kids h y) /\
      n_content (node_of h' y) = (if among y d && holds_text o h y then None else n_content (node_of h y)) /\
      parent h' y = parent h y /\ index h' y = index h y /\ ntype_of h' y = ntype_of h y /\
      n_meta (node_of h' y) = n_meta (node_of h y) /\ n_root (node_of h' y) = n_root (node_of h y));
    [|intros wf; exact (G d h [] wf)].
  clear h d. induction d as [|x d IH]; intros h e wf.
  - exists h. split; [cbn; rewrite app_nil_r; reflexivity|]. split; [exact wf|]. split; [reflexivity|]. intros y. cbn. repeat split.
  - pose proof (set_text_wf o h x [] wf) as wf1.
    assert (S1 : snd (set_text o h x []) = (if is_text h x || is_comment h x then halt h x else []) /\
      length (fst (set_text o h x [])) = length h /\
      forall y, kids (fst (set_text o h x [])) y = (if Nat.eqb y x && holds_nodes o h x then [] else kids h y) /\
        n_content (node_of (fst (set_text o h x [])) y) = (if Nat.eqb y x && holds_text o h x then None else n_content (node_of h y)) /\
        parent (fst (set_text o h x [])) y = parent h y /\ index (fst (set_text o h x [])) y = index h y /\
        ntype_of (fst (set_text o h x [])) y = ntype_of h y /\
        n_meta (node_of (fst (set_text o h x [])) y) = n_meta (node_of h y) /\
        n_root (node_of (fst (set_text o h x [])) y) = n_root (node_of h y)).
    { unfold set_text, holds_nodes, holds_text, is_element, is_text, is_comment.
      destruct (ntype_of h x) eqn:Et; cbn [andb orb snd fst]; cbv zeta;
        try (split; [reflexivity|]; split; [reflexivity|]; intros y; rewrite ?Bool.andb_false_r; repeat split; fail).
      assert (Hx : x < length h).
      { destruct (lt_dec x (length h)) as [Hl|Hl]; [exact Hl|]. unfold ntype_of in Et. rewrite node_beyond in Et by lia. discriminate. }
      destruct (od_content_tag o (tag_names h x)); cbn [negb snd fst]; (split; [reflexivity|]); (split; [apply upd_length|]);
        intros y; rewrite ?Bool.andb_false_r, ?Bool.andb_true_r; destruct (Nat.eqb_spec y x) as [->|Hn];
        unfold kids, childs, parent, index, ntype_of; rewrite ?node_upd_same, ?node_upd_other by assumption; repeat split. }
    destruct (set_text o h x []) as [h1 e1] eqn:E1. cbn [fst snd] in *. destruct S1 as (-> & L1 & N1).
    destruct (IH h1 (e ++ (if is_text h x || is_comment h x then halt h x else [])) wf1) as (h' & E & W & L & N).
    exists h'. split; [|split; [exact W|]; split; [congruence|]].
    + cbn [fold_left fst snd]. rewrite E1. etransitivity; [exact E|]. cbn [flat_map]. rewrite <- app_assoc. f_equal. f_equal. f_equal.
      apply flat_map_ext. intros y. destruct (N1 y) as (_ & _ & _ & _ & T & _ & R). unfold is_text, is_comment, halt, owner_document.
      rewrite T, R. reflexivity.
    + intros y. destruct (N y) as (A1 & A2 & A3 & A4 & A5 & A6 & A7). destruct (N1 y) as (B1 & B2 & B3 & B4 & B5 & B6 & B7).
      assert (Ee : forall z, is_element h1 z = is_element h z).
      { intros z. unfold is_element. destruct (N1 z) as (_ & _ & _ & _ & T & _). rewrite T. reflexivity. }
      assert (Et : forall z, tag_names h1 z = tag_names h z).
      { intros z. unfold tag_names. rewrite Ee. destruct (N1 z) as (_ & _ & _ & _ & _ & M & _). rewrite M. reflexivity. }
      rewrite A1, A2, A3, A4, A5, A6, A7, B1, B2, B3, B4, B5, B6, B7. unfold holds_nodes, holds_text. rewrite Ee, Et.
      unfold among. cbn [existsb]. fold (among y d).
      destruct (Nat.eqb_spec y x) as [->|Hn]; cbn [orb andb]; repeat split;
        destruct (is_element h x), (od_content_tag o (tag_names h x)), (among x d); reflexivity.
Qed.
Print Assumptions C25_empty_any.
(** The paragraph, a text node (reports to the document) and the paragraph again. *)
Example C25_empty_any_ex : holds_nodes ex_od ex_doc 1 = true /\ is_text ex_doc 3 = true /\
  exists h', empty_all ex_od ex_doc [1; 3; 1] = (h', [0]) /\ kids h' 1 = [] /\ kids h' 0 = [1; 6] /\
    n_content (node_of h' 3) = n_content (node_of ex_doc 3).
Proof. split; [reflexivity|]. split; [reflexivity|]. eexists. split; [vm_compute; reflexivity|]. repeat split. Qed.
