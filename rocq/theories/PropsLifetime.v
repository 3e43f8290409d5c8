(** Property theorems: results that outlive their document (C66). *)
From Verif Require Import Base Attr Dom DomSpec Order OrderSpec DomProofs OrderProofs NavProofs DomBuild DomBuildProofs Sets SetsProofs TextNodes Form
  Engine Rules SelSpec FindSpec SelBuild RuleProofs Mutate Regex Parse Traverse Query Reports Lifetime LifetimeSpec LifetimeProofs LifetimeQuery LifetimeForward LifetimeBack
  PropsFilter PropsParse PropsTrav PropsReports MutateSpec MutateProofs PropsMutate.

(** Two divs; the first holds a paragraph, the second a paragraph of class [a] and an element of id [x]. *)
Definition ld := doc [E "div" [] [E "p" [] [Tx (lit "1")]]; E "div" [] [E "p" [at_ "class" "a"] [Tx (lit "2")]; E "b" [at_ "id" "x"] []]].
Definition lids (d : id) (n : str) : option id := if str_eqb n (lit "x") then Some 7 else None.
Definition ltx (x : id) : str := [].
Lemma ld_ok : DocOk ld 0.
Proof. apply docok_check_sound. vm_compute. reflexivity. Qed.
Lemma ld_wf : WF ld.
Proof. exact (do_wf ld 0 ld_ok). Qed.
Lemma alive_self h held docs x : In x held -> Alive h held docs x.
Proof. intros H. exists x. split; [left; exact H | left; reflexivity]. Qed.

(** * What is left *)
(** Exactly the nodes below something held are left.  Each can be read as before; its parent is known as long as that is
    left, its document as long as the document is held. *)
Theorem C66_left (h : heap) (held docs : list id) (x : id) : WF h ->
  (In x (alive h held docs) <-> Alive h held docs x) /\
  (Alive h held docs x ->
     ntype_of (drop h held docs) x = ntype_of h x /\ index (drop h held docs) x = index h x /\ kids (drop h held docs) x = kids h x /\
     n_content (node_of (drop h held docs) x) = n_content (node_of h x) /\ n_meta (node_of (drop h held docs) x) = n_meta (node_of h x) /\
     (forall p, parent (drop h held docs) x = Some p <-> parent h x = Some p /\ Alive h held docs p) /\
     (forall d, owner_document (drop h held docs) x = Some d <-> owner_document h x = Some d /\ In d docs)).
Proof.
  intros wf. split; [exact (alive_in h wf held docs x)|]. intros H. split; [exact (drop_type h wf held docs x H)|]. split; [exact (drop_index h wf held docs x H)|].
  split; [exact (drop_kids h wf held docs x H)|]. split; [rewrite (drop_alive h wf held docs x H); reflexivity|]. split; [exact (drop_meta h wf held docs x H)|].
  split; intros y; [exact (drop_parent h wf held docs x y H) | exact (drop_owner h wf held docs x y H)].
Qed.
Print Assumptions C66_left.
Example C66_left_ex : WF ld /\ Alive ld [5; 2] [] 6 /\ ~ Alive ld [5; 2] [] 4 /\ parent (drop ld [5; 2] []) 6 = Some 5 /\ parent ld 5 = Some 4 /\
  parent (drop ld [5; 2] []) 5 = None /\ owner_document ld 5 = Some 0 /\ owner_document (drop ld [5; 2] []) 5 = None /\ alive ld [5; 2] [] = [5; 6; 2; 3] /\
  alive ld [5] [0] = 5 :: 6 :: alive ld [] [0].
Proof.
  split; [exact ld_wf|]. split; [apply (alive_in ld ld_wf); vm_compute; tauto|]. split; [|vm_compute; repeat split].
  intros H. apply (alive_in ld ld_wf) in H. vm_compute in H. repeat destruct H as [H|H]; try discriminate; exact H.
Qed.

(** The trees that are left are well formed; every node is in the tree of its highest ancestor left, so document order and
    set operations on nodes below one node held are as before (C03 applies to that tree). *)
Theorem C66_trees (h : heap) (held docs : list id) : WF h ->
  WF (drop h held docs) /\
  (forall y x, Anc (drop h held docs) y x <-> Alive h held docs y /\ Anc h y x) /\
  (forall r x, InTree h r x -> Alive h held docs x -> exists t, InTree (drop h held docs) t x /\ InTree h r t /\ Alive h held docs t) /\
  (forall x y, Alive h held docs x -> Alive h held docs y -> Before (drop h held docs) x y -> Before h x y).
Proof.
  intros wf. split; [exact (drop_wf h wf held docs)|]. split; [exact (drop_anc h wf held docs)|]. split; [exact (drop_top h wf held docs)|].
  intros x y Hx Hy. exact (drop_before h wf held docs y x Hx Hy).
Qed.
Print Assumptions C66_trees.
Theorem C66_order (h : heap) (held docs : list id) (r t : id) (l : list id) : WF h -> AllIn h r l -> Forall (Alive h held docs) l -> AllIn (drop h held docs) t l ->
  (exists l', sort_and_unique (drop h held docs) l = Ok l' /\ sort_and_unique h l = Ok l') /\
  (Alive h held docs t -> forall a b, incl (a ++ b) l -> add (drop h held docs) a b = add h a b).
Proof.
  intros wf Ha HL Ht. split; [|intros Hat a b Hi; apply (drop_add h wf held docs t Hat); apply Forall_forall; intros x Hx; rewrite Forall_forall in Ht; apply Ht, Hi, in_app_iff; tauto]. pose proof (drop_wf h wf held docs) as wf'.
  destruct (sort_and_unique_ok _ wf' t l Ht) as (l' & E & [Ha' Ho] & HS). exists l'. split; [exact E|].
  destruct (sort_and_unique_ok h wf r l Ha) as (l2 & E2 & [Ha2 Ho2] & HS2). rewrite E2. f_equal.
  apply (ordered_unique h wf r); [exact Ha2 | exact Ho2 | | intros x; rewrite (HS x), (HS2 x); reflexivity].
  assert (HI : Forall (Alive h held docs) l') by (rewrite Forall_forall in *; intros x Hx; apply HL, HS; exact Hx). clear -wf Ho HI.
  induction l' as [|x l' IH]; [exact I|]. destruct Ho as [H1 H2]. split; [|exact (IH H2 (Forall_inv_tail HI))].
  apply Forall_forall. intros y Hy. rewrite Forall_forall in H1. apply (drop_before h wf held docs y x); [exact (Forall_inv HI) | | exact (H1 y Hy)].
  pose proof (Forall_inv_tail HI) as HT. rewrite Forall_forall in HT. exact (HT y Hy).
Qed.
Print Assumptions C66_order.
Example C66_order_ex : WF ld /\ AllIn ld 0 [7; 5; 6; 5] /\ Forall (Alive ld [4] []) [7; 5; 6; 5] /\ AllIn (drop ld [4] []) 4 [7; 5; 6; 5] /\
  sort_and_unique (drop ld [4] []) [7; 5; 6; 5] = Ok [5; 6; 7] /\ Alive ld [4] [] 4 /\ add (drop ld [4] []) [7] [5] = Ok [5; 7].
Proof.
  split; [exact ld_wf|]. split; [apply allin_check_sound; vm_compute; reflexivity|].
  split; [repeat constructor; apply (alive_in ld ld_wf); vm_compute; tauto|]. split; [apply allin_check_sound; vm_compute; reflexivity|].
  split; [vm_compute; reflexivity|]. split; [apply alive_self; left; reflexivity | vm_compute; reflexivity].
Qed.

(** A document that is held is whole: everything proved of documents applies to it as it stands. *)
Theorem C66_kept (h : heap) (held docs : list id) (r : id) : DocOk h r -> In r docs ->
  DocOk (drop h held docs) r /\ (forall x, InTree (drop h held docs) r x <-> InTree h r x) /\
  (forall x, InTree h r x -> Container h x -> node_of (drop h held docs) x = node_of h x).
Proof.
  intros D Hr. pose proof (do_wf h r D) as wf. split; [exact (kept_docok h wf held docs r Hr D)|].
  split; [intros x; exact (kept_intree h wf held docs r Hr x (wf_root h wf r (do_root h r D)))|].
  intros x Hx Hc. pose proof (kept_alive h held docs r Hr x Hx) as Ha. pose proof (kept_parent h wf held docs r Hr x Hx) as EP. unfold parent in EP.
  assert (EO : owner_document (drop h held docs) x = Some r) by (apply (drop_owner h wf held docs x r Ha); split; [exact (do_owner h r D x Hx Hc) | exact Hr]).
  pose proof (do_owner h r D x Hx Hc) as EO'. unfold owner_document in EO, EO'. rewrite (drop_alive h wf held docs x Ha) in *. cbn in EP, EO.
  unfold survivor. rewrite EP, EO, <- EO'. destruct (node_of h x); reflexivity.
Qed.
Print Assumptions C66_kept.
Example C66_kept_ex : DocOk ld 0 /\ In 0 [0] /\ DocOk (drop (ld ++ [empty_node]) [] [0]) 0 /\ drop ld [] [0] = ld.
Proof.
  split; [exact ld_ok|]. split; [left; reflexivity|]. split; [apply docok_check_sound; vm_compute; reflexivity | vm_compute; reflexivity].
Qed.
(** Holding everything changes nothing. *)
Theorem C66_all (h : heap) (held docs : list id) : WF h -> (forall x, x < length h -> In x held) -> (forall x p, parent h x = Some p -> p < length h) ->
  (forall x d, x < length h -> owner_document h x = Some d -> In d docs) -> drop h held docs = h.
Proof.
  intros wf HA HP HO. apply (drop_nothing h wf); [intros x Hx; apply alive_self, HA; exact Hx | intros x p Hp; apply alive_self, HA; exact (HP x p Hp) | exact HO].
Qed.
Print Assumptions C66_all.
Example C66_all_ex : WF ld /\ drop ld [7; 6; 5; 4; 3; 2; 1; 0] [0] = ld /\ drop ld [7; 6; 5; 4; 3; 2; 1; 0] [] <> ld.
Proof. split; [exact ld_wf|]. split; [vm_compute; reflexivity | vm_compute; discriminate]. Qed.

(** Dropping in several steps is dropping at once: what matters is what is held in the end. *)
Theorem C66_steps (h : heap) (held docs held' docs' : list id) : WF h -> (forall x, In x held' -> Alive h held docs x) -> incl docs' docs ->
  drop (drop h held docs) held' docs' = drop h held' docs'.
Proof. intros wf. exact (drop_twice h held docs held' docs' wf). Qed.
Print Assumptions C66_steps.
Example C66_steps_ex : WF ld /\ (forall x, In x [7; 5] -> Alive ld [4] [0] x) /\ incl [] [0] /\ drop (drop ld [4] [0]) [7; 5] [] = drop ld [7; 5] [] /\ drop ld [7; 5] [] <> drop ld [4] [].
Proof.
  split; [exact ld_wf|]. split; [intros x Hx; apply (alive_in ld ld_wf); destruct Hx as [<- | [<- | []]]; vm_compute; tauto|]. split; [intros x []|].
  vm_compute. split; [reflexivity | discriminate].
Qed.

(** * What a result still answers *)
(** Everything below it, its attributes, its text nodes and its form value are as before. *)
Theorem C66_below (h : heap) (held docs : list id) (x : id) : WF h -> Alive h held docs x ->
  children (drop h held docs) x = children h x /\ tag_names (drop h held docs) x = tag_names h x /\
  (forall k, node_attribute (drop h held docs) x k = node_attribute h x k) /\
  (forall o limit handle rec, texts_by_rec o (drop h held docs) x limit handle rec = texts_by_rec o h x limit handle rec) /\
  (forall text_of, value text_of (drop h held docs) x = value text_of h x) /\
  (forall l y, Path (drop h held docs) x l y <-> Path h x l y).
Proof.
  intros wf H. split; [exact (drop_children h wf held docs x H)|]. split; [exact (drop_tag h wf held docs x H)|].
  split; [exact (fun k => drop_attribute h wf held docs x k H)|]. split; [|split; [exact (fun t => drop_value h wf held docs t x H) | exact (fun l y => drop_path h wf held docs x l y H)]].
  intros o limit handle rec. unfold texts_by_rec. rewrite drop_length. apply (drop_texts h wf). exact H.
Qed.
Print Assumptions C66_below.
(** Its siblings are as before while its parent is left, afterwards it has none. *)
Theorem C66_sideways (h : heap) (held docs : list id) (x : id) : WF h -> Alive h held docs x ->
  (forall p, parent h x = Some p -> Alive h held docs p ->
     next_element_sibling (drop h held docs) x = next_element_sibling h x /\ next_element_siblings (drop h held docs) x = next_element_siblings h x /\
     previous_element_sibling (drop h held docs) x = previous_element_sibling h x /\ previous_element_siblings (drop h held docs) x = previous_element_siblings h x /\
     siblings (drop h held docs) x = siblings h x) /\
  ((forall p, parent h x = Some p -> ~ Alive h held docs p) ->
     next_element_sibling (drop h held docs) x = None /\ next_element_siblings (drop h held docs) x = Ok [] /\
     previous_element_sibling (drop h held docs) x = Ok None /\ previous_element_siblings (drop h held docs) x = Ok [] /\ siblings (drop h held docs) x = Ok []).
Proof.
  intros wf H. split; [intros p Hp Hl; exact (drop_sideways h wf held docs x p H Hp Hl)|]. intros HN. apply (drop_alone h held docs).
  destruct (parent (drop h held docs) x) as [p|] eqn:E; [|reflexivity]. apply (drop_parent_some h wf) in E. destruct E as (_ & E & Hl). destruct (HN p E Hl).
Qed.
Print Assumptions C66_sideways.
(** Its ancestors are those of before that are left. *)
Theorem C66_up (h : heap) (held docs : list id) (r x y : id) : WF h -> InTree h r x -> Alive h held docs x ->
  (Up (drop h held docs) x y <-> Anc h y x /\ Alive h held docs y).
Proof. intros wf Hr Hx. exact (drop_up h wf held docs r x y Hr Hx). Qed.
Print Assumptions C66_up.
Example C66_around_ex : WF ld /\ Alive ld [4] [] 5 /\ Alive ld [4] [] 4 /\ parent ld 5 = Some 4 /\ parent ld 4 = Some 0 /\ ~ Alive ld [4] [] 0 /\ InTree ld 0 5 /\
  next_element_sibling (drop ld [4] []) 5 = Some 7 /\ previous_element_siblings ld 4 = Ok [1] /\ previous_element_siblings (drop ld [4] []) 4 = Ok [] /\
  children (drop ld [4] []) 4 = [5; 7] /\ texts_by_rec (mkOD (fun _ _ => true) (fun _ => false) (fun s => s)) (drop ld [4] []) 4 0 (fun _ _ => true) (fun _ => true) = Ok [6].
Proof.
  split; [exact ld_wf|]. do 2 (split; [apply (alive_in ld ld_wf); vm_compute; tauto|]). do 2 (split; [reflexivity|]).
  split; [intros H; apply (alive_in ld ld_wf) in H; vm_compute in H; repeat destruct H as [H|H]; try discriminate; exact H|].
  split; [refine (Forall_inv (allin_check_sound ld 0 [5] _)); vm_compute; reflexivity|]. vm_compute. repeat split.
Qed.

(** * Queries *)
(** Whatever is asked: answers contain only nodes that are left, and only documents that are held are told of an error. *)
Theorem C66_queries (h : heap) (held docs : list id) text_of by_id wide_digit els q a rep : WF h ->
  (forall d n e, In d docs -> by_id d n = Some e -> Alive h held docs e) -> Forall (Alive h held docs) els ->
  wrun (drop h held docs) text_of by_id wide_digit els q = Ok (a, rep) -> (forall x, in_answer a x -> Alive h held docs x) /\ incl rep docs.
Proof.
  intros wf HI He E.
  assert (G : (forall x, in_answer a x -> Alive h held docs x) /\ Forall (fun d => In d docs) rep).
  { refine (run_stays (drop h held docs) (Alive h held docs) (fun d => In d docs) _ _ text_of by_id _ wide_digit els q He (or_introl _) a rep E).
    - intros x y Hx Hy. rewrite (drop_children h wf held docs x Hx) in Hy. apply filter_In in Hy. exact (kid_alive h held docs x y Hx (proj1 Hy)).
    - intros x p Hx Hp. exact (proj2 (proj2 (drop_parent_some h wf held docs x p Hp))).
    - intros x d n e Hx Hd Hn. apply (drop_owner h wf held docs x d Hx) in Hd. exact (HI d n e (proj2 Hd) Hn).
    - intros x Hx. unfold halt. destruct (owner_document (drop h held docs) x) as [d|] eqn:Ed; [|constructor].
      apply (drop_owner h wf held docs x d Hx) in Ed. constructor; [exact (proj2 Ed) | constructor]. }
  destruct G as [G1 G2]. split; [exact G1|]. intros d Hd. rewrite Forall_forall in G2. exact (G2 d Hd).
Qed.
Print Assumptions C66_queries.
Example C66_queries_ex : WF ld /\ Forall (Alive ld [4] []) [4] /\ wrun (drop ld [4] []) ltx lids ascii_only [4] (QFind (lit "p + b")) = Ok (ASet [7], []) /\
  wrun (drop ld [4] []) ltx lids ascii_only [4] (QFind (lit ":not(()")) = Ok (ASet [], []) /\ wrun (drop ld [4] [0]) ltx lids ascii_only [4] (QFind (lit "(")) = Ok (ASet [], [0]).
Proof. split; [exact ld_wf|]. split; [repeat constructor; apply alive_self; left; reflexivity|]. vm_compute. repeat split. Qed.

(** Full claim: a result answers every query as before.  Missing (refuted below): combinators, ids, positions; sets from different
    parents.  Here: any number of groups, each a compound of rules about an element itself.  [is] and [has] for
    every set that is left, the others for sets within one tree that is left. *)
Theorem C66_same_partial (h : heap) (held docs : list id) text_of by_id els cps : WF h ->
  (forall cp, In cp cps -> forallb (fun e : rule * comb => own_rule (fst e)) cp = true /\ comp_wf cp = true) -> Forall (Alive h held docs) els ->
  let gs := map (fun cp => [cp]) cps in
  is_ast (drop h held docs) text_of by_id els gs = is_ast h text_of by_id els gs /\
  has_ast (drop h held docs) text_of by_id els gs = has_ast h text_of by_id els gs /\
  (length cps = 1 \/ (exists t, AllIn (drop h held docs) t els /\ Alive h held docs t) ->
    filter_ast (drop h held docs) text_of by_id els gs = filter_ast h text_of by_id els gs /\
    not_ast (drop h held docs) text_of by_id els gs = not_ast h text_of by_id els gs /\
    is_all_ast (drop h held docs) text_of by_id els gs = is_all_ast h text_of by_id els gs) /\
  ((forall cp, In cp cps -> comp_comb cp = ChildrenAll) -> forall r x, In x els -> InTree h r x ->
    find_ast (drop h held docs) text_of by_id [x] gs = find_ast h text_of by_id [x] gs).
Proof.
  intros wf HC He gs. pose proof (fun cp H => proj1 (HC cp H)) as Ho. pose proof (fun cp H => proj2 (HC cp H)) as Hw.
  assert (K1 : forall x c, Alive h held docs x -> In c (children h x) -> Alive h held docs c).
  { intros x c Hx Hc. apply filter_In in Hc. exact (kid_alive h held docs x c Hx (proj1 Hc)). }
  assert (K2 : forall t x c, Alive h held docs x /\ InTree (drop h held docs) t x -> In c (children h x) -> Alive h held docs c /\ InTree (drop h held docs) t c).
  { intros t x c [Hx HT] Hc. split; [exact (K1 x c Hx Hc)|]. apply (children_intree _ t x c HT). rewrite (drop_children h wf held docs x Hx). exact Hc. }
  assert (SA : forall t, Alive h held docs t -> SameAdd h held docs (fun x => Alive h held docs x /\ InTree (drop h held docs) t x)).
  { intros t Ht a b Ha Hb. apply (drop_add h wf held docs t Ht); [exact (Forall_impl _ (fun x H => proj2 H) Ha) | exact (Forall_impl _ (fun x H => proj2 H) Hb)]. }
  split; [exact (drop_is h wf held docs text_of by_id (Alive h held docs) (fun x H => H) cps Ho Hw els He)|].
  split; [exact (drop_has_ast h wf held docs text_of by_id (Alive h held docs) (fun x H => H) K1 cps Ho Hw els He)|].
  split.
  - intros [H1 | (t & Ht & Hat)].
    + destruct cps as [|cp [|? ?]]; try discriminate. exact (drop_one h wf held docs text_of by_id cp (Ho cp (or_introl eq_refl)) (Hw cp (or_introl eq_refl)) els He).
    + apply (drop_filters h wf held docs text_of by_id (fun x => Alive h held docs x /\ InTree (drop h held docs) t x) (fun x H => proj1 H) cps Ho Hw els (SA t Hat)).
      rewrite Forall_forall in *. intros x Hx. split; [exact (He x Hx) | exact (Ht x Hx)].
  - intros HA r x Hx Hr. rewrite Forall_forall in He. destruct (drop_top h wf held docs r x Hr (He x Hx)) as (t & Ht & _ & Hat).
    exact (drop_find h wf held docs text_of by_id (fun y => Alive h held docs y /\ InTree (drop h held docs) t y) (fun y H => proj1 H) (K2 t) cps Ho Hw x (SA t Hat) (conj (He x Hx) Ht) HA).
Qed.
Print Assumptions C66_same_partial.
Definition lcps : list (list (rule * comb)) := [[(RName (lit "p"), ChildrenAll); (RClass (lit "a"), Chain)]; [(RName (lit "b"), ChildrenAll)]].
Example C66_same_ex : from_str ascii_only (lit "p.a, b") = Ok (Some (map (fun cp => [cp]) lcps)) /\
  find_ast (drop ld [4] []) ltx lids [4] (map (fun cp => [cp]) lcps) = Ok [5; 7] /\
  (forall cp, In cp lcps -> forallb (fun e : rule * comb => own_rule (fst e)) cp = true /\ comp_wf cp = true) /\ (forall cp, In cp lcps -> comp_comb cp = ChildrenAll) /\ WF ld /\
  Forall (Alive ld [4] []) [4; 5; 7] /\ AllIn (drop ld [4] []) 4 [4; 5; 7] /\ InTree ld 0 4 /\ filter_ast (drop ld [4] []) ltx lids [4; 5; 7] (map (fun cp => [cp]) lcps) = Ok [5; 7].
Proof.
  do 2 (split; [vm_compute; reflexivity|]). split; [intros cp [<- | [<- | []]]; vm_compute; split; reflexivity|]. split; [intros cp [<- | [<- | []]]; reflexivity|].
  split; [exact ld_wf|]. split; [repeat constructor; apply (alive_in ld ld_wf); vm_compute; tauto|]. split; [apply allin_check_sound; vm_compute; reflexivity|].
  split; [refine (Forall_inv (allin_check_sound ld 0 [4] _)); vm_compute; reflexivity | vm_compute; reflexivity].
Qed.

(** Full claim: as above.  Here also combinators, rules about the place among the siblings, [:checked] and nested rules, for what is strictly
    below a node that is left: [find] from a node left with groups of any number of compounds, walked forwards; the filters for sets below one
    node left, [has] for sets that may contain that node.  Missing: groups searched from a later compound (look-ups, below), ids, [:root], combinators
    in nested texts and in those given to the filters (refuted for places above and for ids). *)
Theorem C66_forward_partial (h : heap) (held docs : list id) text_of by_id (r t : id) : WF h -> InTree h r t -> Alive h held docs t ->
  (forall gs x, forallb group_forward gs = true -> AncEq h t x -> find_ast (drop h held docs) text_of by_id [x] gs = find_ast h text_of by_id [x] gs) /\
  (forall cps els, one_each cps = true -> let gs := map (fun cp => [cp]) cps in
     (Forall (Anc h t) els ->
        filter_ast (drop h held docs) text_of by_id els gs = filter_ast h text_of by_id els gs /\ not_ast (drop h held docs) text_of by_id els gs = not_ast h text_of by_id els gs /\
        is_ast (drop h held docs) text_of by_id els gs = is_ast h text_of by_id els gs /\ is_all_ast (drop h held docs) text_of by_id els gs = is_all_ast h text_of by_id els gs) /\
     (Forall (AncEq h t) els -> has_ast (drop h held docs) text_of by_id els gs = has_ast h text_of by_id els gs)).
Proof.
  intros wf Hr Ht. destruct (drop_top h wf held docs r t Hr Ht) as (T & [Hn HP] & _ & HT). apply anceq_path in HP. apply (drop_anceq h wf held docs T t HT) in HP.
  destruct (drop_keys h wf held docs T HT) as (pre & HK).
  assert (HI : forall x, AncEq h t x -> InTree (drop h held docs) T x).
  { intros x Hx. split; [exact Hn|]. apply anceq_path. apply (drop_anceq h wf held docs T x HT). exact (anceq_trans h T t x HP Hx). }
  pose proof (fun x H => alive_down h held docs t x Ht H) as PL.
  assert (QP : forall x, Anc h t x -> AncEq h t x) by (intros x H; right; exact H).
  assert (PK : forall x c, AncEq h t x -> In c (children h x) -> Anc h t c).
  { intros x c Hx Hc. apply filter_In in Hc. apply (anceq_anc h t x c Hx). apply Anc_child, child_in. exact (proj1 Hc). }
  assert (Qpar : forall x, Anc h t x -> exists p, parent h x = Some p /\ AncEq h t p).
  { intros x Hx. destruct (anc_inv h t x Hx) as (p & Hp & Hc). exists p. split; [exact (child_parent h wf p x Hc) | exact Hp]. }
  assert (SA : forall a b, Forall (AncEq h t) a -> Forall (AncEq h t) b -> add (drop h held docs) a b = add h a b).
  { intros a b Ha Hb. apply (drop_add h wf held docs T HT); [exact (Forall_impl _ HI Ha) | exact (Forall_impl _ HI Hb)]. }
  pose proof (fun x H => HK x (HI x H)) as keys. split; [|intros cps els Hc gs; split].
  - intros gs x Hg Hx. exact (fw_find h wf held docs text_of by_id (AncEq h t) (Anc h t) PL QP PK Qpar pre keys SA gs x Hg Hx).
  - intros He. exact (fw_filters h wf held docs text_of by_id (AncEq h t) (Anc h t) PL QP PK Qpar pre keys SA els cps Hc He).
  - intros He. exact (fw_has h wf held docs text_of by_id (AncEq h t) (Anc h t) PL QP PK Qpar pre keys SA els cps Hc He).
Qed.
Print Assumptions C66_forward_partial.
Definition lgs1 : ast := [[[(RNthOfType true (None, 1%Z), Children)]]; [[(RName (lit "p"), ChildrenAll); (RNot (NSel [[[(RFirstChild false, ChildrenAll)]]; [[(RClass (lit "c"), ChildrenAll)]]]), Chain); (RFirstChild true, Chain)]; [(RName (lit "b"), Next)]]].
Definition lgs2 : list (list (rule * comb)) := [[(RNthChild false (Some 2%Z, 1%Z), ChildrenAll)]; [(ROnlyOfType, ChildrenAll); (RClass (lit "a"), Chain)]].
Example C66_forward_ex : from_str ascii_only (lit ">:nth-of-type(1), p:not(:last-child, .c):first-child + b") = Ok (Some lgs1) /\ forallb group_forward lgs1 = true /\
  from_str ascii_only (lit ":nth-last-child(2n+1), :only-of-type.a") = Ok (Some (map (fun cp => [cp]) lgs2)) /\ one_each lgs2 = true /\
  WF ld /\ InTree ld 0 4 /\ Alive ld [4] [] 4 /\ AncEq ld 4 4 /\ Forall (Anc ld 4) [5; 7] /\
  find_ast (drop ld [4] []) ltx lids [4] lgs1 = Ok [5; 7] /\ filter_ast (drop ld [4] []) ltx lids [5; 7] (map (fun cp => [cp]) lgs2) = Ok [5; 7] /\
  filter_ast (drop ld [5] []) ltx lids [5] [[[(RNthChild false (Some 2%Z, 1%Z), ChildrenAll)]]] = Ok [].
Proof.
  do 4 (split; [vm_compute; reflexivity|]). split; [exact ld_wf|]. split; [refine (Forall_inv (allin_check_sound ld 0 [4] _)); vm_compute; reflexivity|].
  split; [apply alive_self; left; reflexivity|]. split; [left; reflexivity|].
  split; [repeat constructor; apply child_in; vm_compute; tauto|]. vm_compute. repeat split.
Qed.

(** Full claim: as above, for every selector text.  Here [find] from a node left, also with groups whose search starts at a later compound and
    looks back from what it found: the look back may leave what is below the start, and in the document it then meets nodes that are gone here, but
    none of them counts.  Missing: rules about places and nested rules in the compounds looked back at; ids, [:root]. *)
Theorem C66_back_partial (h : heap) (held docs : list id) text_of by_id (r t : id) (gs : ast) : DocOk h r -> InTree h r t -> Alive h held docs t ->
  forallb group_left gs = true -> find_ast (drop h held docs) text_of by_id [t] gs = find_ast h text_of by_id [t] gs.
Proof. intros D Hr Ht. exact (find_left h r D held docs text_of by_id t Hr Ht gs). Qed.
Print Assumptions C66_back_partial.
Definition lbd := doc [E "div" [] [E "i" [] []; E "ul" [] [E "li" [] [E "p" [] []; E "q" [] [E "b" [at_ "class" "c"] []]]; E "b" [at_ "class" "c"] []]]].
Definition lbgs : ast := [[[(RName (lit "li"), Children)]; [(RName (lit "p"), ChildrenAll)]; [(RName (lit "q"), Next)]; [(RClass (lit "c"), Children)]];
  [[(RName (lit "div"), ChildrenAll)]; [(RName (lit "b"), ChildrenAll); (RClass (lit "c"), Chain)]]; [[(RName (lit "i"), ChildrenAll)]; [(RClass (lit "c"), NextAll)]]].
Example C66_back_ex : from_str ascii_only (lit "> li p + q > .c, div b.c, i ~ .c") = Ok (Some lbgs) /\ DocOk lbd 0 /\ InTree lbd 0 3 /\ Alive lbd [3] [] 3 /\
  forallb group_left lbgs = true /\ forallb looks_up lbgs = true /\
  find_ast (drop lbd [3] []) ltx lids [3] lbgs = Ok [7] /\ find_ast lbd ltx lids [0] lbgs = Ok [7; 8].
Proof.
  split; [vm_compute; reflexivity|]. split; [apply docok_check_sound; vm_compute; reflexivity|]. split; [refine (Forall_inv (allin_check_sound lbd 0 [3] _)); vm_compute; reflexivity|].
  split; [apply alive_self; left; reflexivity | vm_compute; repeat split].
Qed.

(** With the document dropped a held element answers differently: about its place, about ids below it, about texts that are no selectors
    (nobody is told); and sets of elements from different parents lose members. *)
Theorem C66_refuted : exists h r text_of by_id wide_digit held, DocOk h r /\ Forall (ElIn h r) held /\
  (exists x s, In x held /\ wrun h text_of by_id wide_digit [x] (QIs s) = Ok (ABool true, []) /\ wrun (drop h held []) text_of by_id wide_digit [x] (QIs s) = Ok (ABool false, [])) /\
  (exists x s y, In x held /\ Anc h x y /\ wrun h text_of by_id wide_digit [x] (QFind s) = Ok (ASet [y], []) /\ wrun (drop h held []) text_of by_id wide_digit [x] (QFind s) = Ok (ASet [], [])) /\
  (exists x s, In x held /\ wrun h text_of by_id wide_digit [x] (QFind s) = Ok (ASet [], [r]) /\ wrun (drop h held []) text_of by_id wide_digit [x] (QFind s) = Ok (ASet [], [])).
Proof.
  exists ld, 0, ltx, lids, ascii_only, [4]. split; [exact ld_ok|].
  split; [constructor; [|constructor]; split; [refine (Forall_inv (allin_check_sound ld 0 [4] _)); vm_compute; reflexivity | reflexivity]|].
  split; [exists 4, (lit ":last-child"); split; [left; reflexivity|]; vm_compute; split; reflexivity|].
  split; [exists 4, (lit "#x"), 7; split; [left; reflexivity|]; split; [apply Anc_child, child_in; vm_compute; tauto|]; vm_compute; split; reflexivity|].
  exists 4, (lit "("). split; [left; reflexivity|]. vm_compute. split; reflexivity.
Qed.
Print Assumptions C66_refuted.
Theorem C66_sets_refuted : exists h r text_of by_id wide_digit held, DocOk h r /\ DocSet h r held /\
  (exists s, wrun h text_of by_id wide_digit held (QFilter s) = Ok (ASet held, []) /\
     exists l, wrun (drop h held []) text_of by_id wide_digit held (QFilter s) = Ok (ASet l, []) /\ length l < length held) /\
  (exists a b, held = [a; b] /\ add h [a] [b] = Ok held /\ add (drop h held []) [a] [b] = Ok [a]).
Proof.
  exists ld, 0, ltx, lids, ascii_only, [2; 5]. split; [exact ld_ok|]. split; [apply docset_check_sound; vm_compute; reflexivity|].
  split; [exists (lit ".a, p"); split; [vm_compute; reflexivity|]; exists [5]; split; [vm_compute; reflexivity | cbn; lia]|].
  exists 2, 5. split; [reflexivity|]. vm_compute. split; reflexivity.
Qed.
Print Assumptions C66_sets_refuted.

(** * Modifying calls *)
Lemma drop_free h held docs e x : WF h -> Alive h held docs e -> Alive h held docs x -> x < length h -> is_root h x = false -> ~ AncEq h x e ->
  Attached h x \/ (forall p, parent h x = Some p -> ~ Alive h held docs p) -> Free (drop h held docs) e x.
Proof.
  intros wf He Hx Hl Hr Hn HP. split; [|split].
  - split; [rewrite drop_length; exact Hl|]. destruct (parent (drop h held docs) x) as [p|] eqn:E; [|left; reflexivity]. right.
    apply (drop_parent_some h wf) in E. destruct E as (_ & E & Hp). destruct HP as [(q & i & Hq) | HP]; [|destruct (HP p E Hp)].
    exists p, i. apply (drop_listed h wf). split; [exact Hp|]. destruct (wf_listed h wf q i x Hq) as (_ & E' & _). rewrite E in E'. injection E' as <-. exact Hq.
  - rewrite (drop_is_root h wf held docs x Hx). exact Hr.
  - rewrite (drop_anceq h wf held docs x e Hx). exact Hn.
Qed.
(** Elements left over from dropped documents can be inserted into a held element like any others: also one that was removed before its
    parent was dropped (for one whose parent is left see C22_reinsert_refuted). *)
Theorem C66_insert (o : oracles_dom) (h : heap) (held docs : list id) (r e : id) (d : list id) : WF h -> ElIn h r e -> Alive h held docs e -> NoDup d ->
  (forall x, In x d -> Alive h held docs x /\ x < length h /\ is_root h x = false /\ ~ AncEq h x e /\ od_allow_insert o (tag_names h e) (ntype_of h x) = true /\
     (Attached h x \/ forall p, parent h x = Some p -> ~ Alive h held docs p)) ->
  (exists h', append o (drop h held docs) [e] d = Ok (h', []) /\ WF h' /\ kids h' e = without_all d (kids h e) ++ rev d /\ forall x, In x d -> parent h' x = Some e) /\
  (exists h', prepend o (drop h held docs) [e] d = Ok (h', []) /\ WF h' /\ kids h' e = d ++ without_all d (kids h e) /\ forall x, In x d -> parent h' x = Some e).
Proof.
  intros wf [Hr He] Ha Hn Hd. pose proof (drop_wf h wf held docs) as wf'. destruct (drop_top h wf held docs r e Hr Ha) as (t & Ht & _).
  assert (He' : is_element (drop h held docs) e = true) by (rewrite (drop_is_element h wf held docs e Ha); exact He).
  assert (HF : Forall (Free (drop h held docs) e) d).
  { apply Forall_forall. intros x Hx. destruct (Hd x Hx) as (H1 & H2 & H3 & H4 & _ & H5). exact (drop_free h held docs e x wf Ha H1 H2 H3 H4 H5). }
  assert (HA : Forall (fun x => od_allow_insert o (tag_names (drop h held docs) e) (ntype_of (drop h held docs) x) = true) d).
  { apply Forall_forall. intros x Hx. destruct (Hd x Hx) as (H1 & _ & _ & _ & H2 & _). rewrite (drop_tag h wf held docs e Ha), (drop_type h wf held docs x H1). exact H2. }
  split.
  - destruct (C22_append_partial o _ t e d wf' Ht He' Hn HF HA) as (h' & E & W & _ & _ & HK & _ & HP & _). exists h'. split; [exact E|]. split; [exact W|].
    rewrite (drop_kids h wf held docs e Ha), app_nil_r in HK. split; [exact HK|]. intros x Hx. apply HP. rewrite <- in_rev. exact Hx.
  - destruct (C22_prepend_partial o _ t e d wf' Ht He' Hn HF HA) as (h' & E & W & _ & _ & HK & _ & HP & _). exists h'. split; [exact E|]. split; [exact W|].
    rewrite (drop_kids h wf held docs e Ha) in HK. split; [exact HK | exact HP].
Qed.
Print Assumptions C66_insert.
(** Removing an element whose parent is gone changes nothing. *)
Theorem C66_remove (h : heap) (held docs : list id) (x : id) : WF h -> Alive h held docs x -> x < length h ->
  (forall p, parent h x = Some p -> ~ Alive h held docs p) ->
  exists h', remove_all (drop h held docs) [x] = Ok h' /\ SameNodes (drop h held docs) h' /\ (forall y, kids h' y = kids (drop h held docs) y /\ parent h' y = parent (drop h held docs) y).
Proof.
  intros wf Hx Hl HP. pose proof (drop_wf h wf held docs) as wf'.
  assert (EP : parent (drop h held docs) x = None).
  { destruct (parent (drop h held docs) x) as [p|] eqn:E; [|reflexivity]. apply (drop_parent_some h wf) in E. destruct E as (_ & E & Hp). destruct (HP p E Hp). }
  destruct (C25_remove_partial (drop h held docs) [x] wf') as (h' & E & _ & HS & HK & HQ).
  - constructor; [intros [] | constructor].
  - constructor; [|constructor]. split; [rewrite drop_length; exact Hl | left; exact EP].
  - exists h'. split; [exact E|]. split; [exact HS|]. intros y. split; [|exact (HQ y)]. rewrite (HK y).
    assert (HN : forall c, In c (kids (drop h held docs) y) -> c <> x).
    { intros c Hc ->. apply In_nth_error in Hc. destruct Hc as (i & Hi). destruct (wf_listed _ wf' y i x Hi) as (_ & E' & _). congruence. }
    clear -HN. induction (kids (drop h held docs) y) as [|c l IH]; [reflexivity|]. cbn. pose proof (HN c (or_introl eq_refl)) as Hc. apply Nat.eqb_neq in Hc. rewrite Hc. cbn.
    f_equal. apply IH. intros k Hk. apply HN. right. exact Hk.
Qed.
Print Assumptions C66_remove.
(** The paragraph removed from the first div, then everything dropped but it and the second div. *)
Definition lgone : heap := match remove_all ld [2] with Ok h => h | _ => [] end.
Definition lod : oracles_dom := mkOD (fun _ _ => true) (fun _ => false) (fun s => s).
Example C66_modify_ex : WF lgone /\ ElIn lgone 0 4 /\ Alive lgone [4; 2] [] 4 /\ Alive lgone [4; 2] [] 2 /\ parent lgone 2 = Some 1 /\ ~ Alive lgone [4; 2] [] 1 /\
  (exists h, append lod (drop lgone [4; 2] []) [4] [2] = Ok (h, []) /\ kids h 4 = [5; 7; 2]) /\ remove_all (drop lgone [4; 2] []) [2] = Ok (drop lgone [4; 2] []).
Proof.
  assert (wf : WF lgone) by (apply wf_check_sound; vm_compute; reflexivity). split; [exact wf|].
  split; [split; [refine (Forall_inv (allin_check_sound lgone 0 [4] _)); vm_compute; reflexivity | reflexivity]|].
  do 2 (split; [apply alive_self; vm_compute; tauto|]). split; [reflexivity|].
  split; [intros H; apply (alive_in lgone wf) in H; vm_compute in H; repeat destruct H as [H|H]; try discriminate; exact H|].
  split; [eexists; split; vm_compute; reflexivity | vm_compute; reflexivity].
Qed.
(** Inserting beside an element whose parent is gone loses what is inserted, although it was in a tree. *)
Theorem C66_beside_refuted : exists o h r held e x, DocOk h r /\ Forall (ElIn h r) held /\ In e held /\ Free h e x /\ Attached (drop h held []) x /\
  (exists h', before o h [e] [x] = Ok (h', []) /\ Attached h' x) /\ (exists h', before o (drop h held []) [e] [x] = Ok (h', []) /\ ~ Attached h' x).
Proof.
  exists lod, ld, 0, [2; 4], 2, 7. split; [exact ld_ok|].
  split; [repeat (constructor; [split; [refine (Forall_inv (allin_check_sound ld 0 [_] _)); vm_compute; reflexivity | reflexivity]|]); constructor|].
  split; [left; reflexivity|]. split; [|split; [exists 4, 1; vm_compute; reflexivity | split]].
  - split; [apply (placed_check _ _ 4); reflexivity|]. split; [reflexivity | apply leaf_not_above; [reflexivity | discriminate]].
  - eexists. split; [vm_compute; reflexivity|]. exists 1, 0. vm_compute. reflexivity.
  - eexists. split; [vm_compute; reflexivity|]. intros (p & Hc). apply child_in in Hc.
    do 9 (destruct p as [|p]; [vm_compute in Hc; intuition discriminate|]). vm_compute in Hc. destruct p; exact Hc.
Qed.
Print Assumptions C66_beside_refuted.
(** Where the parent is left, elements are inserted beside one, replaced and removed as if nothing had been dropped. *)
Theorem C66_beside (o : oracles_dom) (h : heap) (held docs : list id) (r p e : id) (d l1 l2 : list id) : WF h -> ElIn h r e -> Child h p e -> Alive h held docs p -> NoDup d ->
  (forall x, In x d -> Alive h held docs x /\ x < length h /\ is_root h x = false /\ ~ AncEq h x e /\
     (Attached h x \/ forall p, parent h x = Some p -> ~ Alive h held docs p)) ->
  without_all d (kids h p) = l1 ++ e :: l2 ->
  (exists h', before o (drop h held docs) [e] d = Ok (h', []) /\ WF h' /\ kids h' p = l1 ++ rev d ++ e :: l2 /\ forall x, In x d -> parent h' x = Some p) /\
  (exists h', after o (drop h held docs) [e] d = Ok (h', []) /\ WF h' /\ kids h' p = l1 ++ e :: d ++ l2 /\ forall x, In x d -> parent h' x = Some p).
Proof.
  intros wf [Hr He] (i & Hc) Hp Hn Hd Hk. pose proof (drop_wf h wf held docs) as wf'.
  assert (Ha : Alive h held docs e) by (exact (kid_alive h held docs p e Hp (nth_error_In _ _ Hc))).
  destruct (drop_top h wf held docs r e Hr Ha) as (t & Ht & _).
  assert (He' : is_element (drop h held docs) e = true) by (rewrite (drop_is_element h wf held docs e Ha); exact He).
  assert (Hc' : Child (drop h held docs) p e) by (exists i; apply (drop_listed h wf); split; [exact Hp | exact Hc]).
  assert (HF : Forall (Free (drop h held docs) e) d).
  { apply Forall_forall. intros x Hx. destruct (Hd x Hx) as (H1 & H2 & H3 & H4 & H5). exact (drop_free h held docs e x wf Ha H1 H2 H3 H4 H5). }
  rewrite <- (drop_kids h wf held docs p Hp) in Hk. split.
  - destruct (C22_before_partial o _ t p e d l1 l2 wf' Ht He' Hc' Hn HF Hk) as (h' & E & W & _ & _ & HK & _ & HP & _). exists h'. split; [exact E|]. split; [exact W|].
    split; [exact HK|]. intros x Hx. apply HP. rewrite <- in_rev. exact Hx.
  - destruct (C22_after_partial o _ t p e d l1 l2 wf' Ht He' Hc' Hn HF Hk) as (h' & E & W & _ & _ & HK & _ & HP & _). exists h'. split; [exact E|]. split; [exact W|].
    split; [rewrite <- app_assoc in HK; exact HK | exact HP].
Qed.
Print Assumptions C66_beside.
Theorem C66_replace (h : heap) (held docs : list id) (r p x y : id) : WF h -> InTree h r x -> Child h p x -> Alive h held docs p ->
  Alive h held docs y -> y < length h -> is_root h y = false -> ~ AncEq h y x -> Attached h y \/ (forall q, parent h y = Some q -> ~ Alive h held docs q) ->
  exists h' l1 l2, replace_all (drop h held docs) [x] [y] = Ok h' /\ WF h' /\ ReplacedBy (drop h held docs) h' p x y l1 l2 /\ ~ Attached h' x.
Proof.
  intros wf Hr (i & Hc) Hp Hy Hl Ho Hn HP. pose proof (drop_wf h wf held docs) as wf'.
  assert (Ha : Alive h held docs x) by (exact (kid_alive h held docs p x Hp (nth_error_In _ _ Hc))).
  destruct (drop_top h wf held docs r x Hr Ha) as (t & Ht & _).
  destruct (drop_free h held docs x y wf Ha Hy Hl Ho Hn HP) as (F1 & F2 & F3).
  apply (C24_replace_partial _ t p x y wf' Ht); [|exact F1 | exact F2 | exact F3].
  exists i. apply (drop_listed h wf). split; [exact Hp | exact Hc].
Qed.
Print Assumptions C66_replace.
Theorem C66_remove_many (h : heap) (held docs d : list id) : WF h -> NoDup d ->
  (forall x, In x d -> Alive h held docs x /\ x < length h /\ (Attached h x \/ forall p, parent h x = Some p -> ~ Alive h held docs p)) ->
  exists h', remove_all (drop h held docs) d = Ok h' /\ WF h' /\ forall y, Alive h held docs y -> kids h' y = without_all d (kids h y).
Proof.
  intros wf Hn Hd. pose proof (drop_wf h wf held docs) as wf'.
  destruct (C25_remove_partial (drop h held docs) d wf' Hn) as (h' & E & W & _ & HK & _).
  - apply Forall_forall. intros x Hx. destruct (Hd x Hx) as (H1 & H2 & HP). split; [rewrite drop_length; exact H2|].
    destruct (parent (drop h held docs) x) as [p|] eqn:E; [|left; reflexivity]. right.
    apply (drop_parent_some h wf) in E. destruct E as (_ & E & Hp). destruct HP as [(q & i & Hq) | HP]; [|destruct (HP p E Hp)].
    exists p, i. apply (drop_listed h wf). split; [exact Hp|]. destruct (wf_listed h wf q i x Hq) as (_ & E' & _). rewrite E in E'. injection E' as <-. exact Hq.
  - exists h'. split; [exact E|]. split; [exact W|]. intros y Hy. rewrite (HK y), (drop_kids h wf held docs y Hy). reflexivity.
Qed.
Print Assumptions C66_remove_many.
(** The second div and the removed paragraph are held: the paragraph goes beside or in place of a child of the div. *)
Example C66_beside_ex : WF lgone /\ ElIn lgone 0 5 /\ Child lgone 4 5 /\ Alive lgone [4; 2] [] 4 /\ Alive lgone [4; 2] [] 2 /\ ~ AncEq lgone 2 5 /\ ~ Alive lgone [4; 2] [] 1 /\ parent lgone 2 = Some 1 /\
  (exists h, before lod (drop lgone [4; 2] []) [5] [2] = Ok (h, []) /\ kids h 4 = [2; 5; 7]) /\ (exists h, after lod (drop lgone [4; 2] []) [5] [2] = Ok (h, []) /\ kids h 4 = [5; 2; 7]) /\
  (exists h, replace_all (drop lgone [4; 2] []) [5] [2] = Ok h /\ kids h 4 = [2; 7]) /\ (exists h, remove_all (drop lgone [4; 2] []) [5; 2] = Ok h /\ kids h 4 = [7]).
Proof.
  assert (wf : WF lgone) by (apply wf_check_sound; vm_compute; reflexivity). split; [exact wf|].
  split; [split; [refine (Forall_inv (allin_check_sound lgone 0 [5] _)); vm_compute; reflexivity | reflexivity]|].
  split; [exists 0; reflexivity|]. do 2 (split; [apply alive_self; vm_compute; tauto|]).
  split.
  { intros [F | F]; [discriminate|]. apply (anc_up lgone wf) in F. assert (U : forall x y, x = 5 -> Up lgone x y -> y = 4 \/ y = 0).
    { intros x y Ex H. induction H as [x q H | x q z _ IH H]; [rewrite Ex in H; vm_compute in H; injection H as <-; tauto|].
      destruct (IH Ex) as [-> | ->]; vm_compute in H; [injection H as <-; tauto | discriminate]. }
    destruct (U 5 2 eq_refl F); discriminate. }
  split; [intros H; apply (alive_in lgone wf) in H; vm_compute in H; repeat destruct H as [H|H]; try discriminate; exact H|]. split; [reflexivity|].
  repeat split; eexists; split; vm_compute; reflexivity.
Qed.
