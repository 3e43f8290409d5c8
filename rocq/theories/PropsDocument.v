(** Property theorems: the accessors of a document (C49). *)
From Verif Require Import Base Utils UtilsSpec UtilsProofs Nth NthSpec Attr AttrSpec AttrProofs ClassSpec Dom DomSpec Order OrderSpec DomProofs OrderProofs
  Sets SetsProofs DomBuild DomBuildProofs Mutate NavProofs Engine Rules Regex Parse Traverse SelSpec FindSpec TravSpec
  SelBuild FindProofs FindRules SelectProofs FindBuild TravProofs
  PropsParse PropsFilter PropsFind Query QueryProofs TextNodes TextSpec TextProofs Form PropsText Document DocumentSpec.

Definition named (n : str) : list (list (rule * comb)) := [[(RName n, ChildrenAll)]].
Lemma named_find wide_digit h r text_of by_id els n : DocOk h r -> IdCache h r by_id -> Starts h r els ->
  from_str wide_digit n = Ok (Some [named n]) ->
  exists l, find_text wide_digit h text_of by_id els n = Ok (l, []) /\ Ordered h l /\ forall y, In y l <-> exists x, In x els /\ Anc h x y /\ NameIs h y n.
Proof.
  intros D IC Hs Hp. assert (HS : Searching h r text_of by_id els (named n)).
  { split; [exact D | exact IC | | reflexivity | exact Hs]. intros cp [<- | []] rl c [E | []]. injection E as <- _. exact I. }
  destruct (C05_find_set_partial h r text_of by_id els (named n) SOrdered HS eq_refl) as (l & E & _ & Ho & Hi). exists l. split.
  - unfold find_text. rewrite (parsed_good wide_digit h [] els n [named n] (find_ast h text_of by_id els) Hp), E. reflexivity.
  - split; [apply Ho; discriminate|]. intros y. rewrite Hi. cbn. split.
    + intros [(s & Hin & [Ha Hy]) HC]. exists s. split; [exact Hin|]. split; [exact Ha|]. exact (HC _ _ (or_introl eq_refl)).
    + intros (x & Hin & Ha & Hn). split; [exists x; split; [exact Hin | split; [exact Ha | exact (proj1 Hn)]]|]. intros P c [E' | []]. injection E' as <- _. exact Hn.
Qed.
Lemma docok_intree h r : DocOk h r -> InTree h r r.
Proof. intros D. split; [exact (wf_root _ (do_wf _ _ D) r (do_root _ _ D)) | exists []; constructor]. Qed.
Lemma docok_start h r : DocOk h r -> Starts h r [r].
Proof. intros D. split; [|constructor; constructor]. constructor; [split; [exact (docok_intree h r D) | right; reflexivity] | constructor]. Qed.

Lemma first_of_all h r n l : DocOk h r -> Ordered h l -> (forall y, In y l <-> exists x, In x [r] /\ Anc h x y /\ NameIs h y n) ->
  match nth_error l 0 with Some x => FirstNamed h r n x | None => NoneNamed h r n end.
Proof.
  intros D Ho Hi. assert (G : forall y, ElIn h r y -> NameIs h y n -> In y l).
  { intros y [Hy He] Hn. apply Hi. exists r. split; [left; reflexivity|]. split; [|exact Hn]. destruct (intree_top h r y Hy) as [<- | Ha]; [|exact Ha].
    pose proof (do_root _ _ D) as Hr. unfold is_element, is_root in *. destruct (ntype_of h r); discriminate. }
  assert (G' : forall y, In y l -> ElIn h r y /\ NameIs h y n).
  { intros y Hy. apply Hi in Hy. destruct Hy as (x & [<- | []] & Ha & Hn). split; [|exact Hn]. split; [|exact (proj1 Hn)].
    exact (intree_down h r r y (docok_intree h r D) (or_intror Ha)). }
  destruct l as [|x l]; cbn [nth_error].
  - intros y Hy Hn. exact (G y Hy Hn).
  - destruct (G' x (or_introl eq_refl)) as [Hx Hn]. split; [exact Hx|]. split; [exact Hn|]. intros y Hy Hny. destruct (G y Hy Hny) as [<- | Hin]; [left; reflexivity|]. right.
    destruct Ho as [Ho _]. rewrite Forall_forall in Ho. exact (Ho y Hin).
Qed.

(** C49: the html, head and body element of a document are the first ones of that name in it, and there is no panic. *)
Theorem C49_named_element wide_digit h r text_of by_id : DocOk h r -> IdCache h r by_id ->
  (exists e, document_element wide_digit h text_of by_id r = Ok e /\ match e with Some x => FirstNamed h r (lit "html") x | None => NoneNamed h r (lit "html") end) /\
  (exists e, doc_head wide_digit h text_of by_id r = Ok e /\ match e with Some x => FirstNamed h r (lit "head") x | None => NoneNamed h r (lit "head") end) /\
  (exists e, doc_body wide_digit h text_of by_id r = Ok e /\ match e with Some x => FirstNamed h r (lit "body") x | None => NoneNamed h r (lit "body") end).
Proof.
  intros D IC.
  assert (G : forall n, from_str wide_digit n = Ok (Some [named n]) ->
    exists e, doc_first wide_digit h text_of by_id r n = Ok e /\ match e with Some x => FirstNamed h r n x | None => NoneNamed h r n end).
  { intros n Hp. unfold doc_first, root_element. rewrite (do_owner _ _ D r (docok_intree h r D) (or_intror (do_root _ _ D))).
    destruct (named_find wide_digit h r text_of by_id [r] n D IC (docok_start h r D) Hp) as (l & E & Ho & Hi). rewrite E. cbn [rbind fst]. eexists. split; [reflexivity|]. exact (first_of_all h r n l D Ho Hi). }
  split; [|split]; apply G; vm_compute; reflexivity.
Qed.
Print Assumptions C49_named_element.

(** The title is the text of the title elements inside the first head; [None] when there is none. *)
Theorem C49_title wide_digit h r text_of by_id : DocOk h r -> IdCache h r by_id ->
  exists t, doc_title wide_digit h text_of by_id r = Ok t /\
  match t with
  | Some s => exists x l, FirstNamed h r (lit "head") x /\ AllNamed h x (lit "title") l /\ l <> [] /\ s = concat (map text_of l)
  | None => NoneNamed h r (lit "head") \/ exists x, FirstNamed h r (lit "head") x /\ AllNamed h x (lit "title") []
  end.
Proof.
  intros D IC. unfold doc_title, root_element. rewrite (do_owner _ _ D r (docok_intree h r D) (or_intror (do_root _ _ D))).
  assert (Hp1 : from_str wide_digit (lit "head") = Ok (Some [named (lit "head")])) by (vm_compute; reflexivity).
  assert (Hp2 : from_str wide_digit (lit "title") = Ok (Some [named (lit "title")])) by (vm_compute; reflexivity).
  destruct (named_find wide_digit h r text_of by_id [r] _ D IC (docok_start h r D) Hp1) as (l & E & Ho & Hi). rewrite E. cbn [rbind fst].
  pose proof (first_of_all h r _ l D Ho Hi) as HF. unfold eq_.
  assert (HS : Starts h r match nth_error l 0 with Some x => [x] | None => [] end).
  { destruct (nth_error l 0) as [x|]; [|repeat constructor]. destruct HF as [[Hx He] _]. split; [constructor; [split; [exact Hx | left; exact He] | constructor] | constructor; constructor]. }
  destruct (named_find wide_digit h r text_of by_id _ _ D IC HS Hp2) as (l2 & E2 & Ho2 & Hi2). rewrite E2. cbn [rbind fst].
  assert (HT : forall x, nth_error l 0 = Some x -> AllNamed h x (lit "title") l2).
  { intros x Ex. split; [exact Ho2|]. intros y. rewrite Hi2, Ex. split; [intros (z & [<- | []] & H); exact H | intros H; exists x; split; [left; reflexivity | exact H]]. }
  destruct l2 as [|t l2]; eexists; (split; [reflexivity|]).
  - destruct (nth_error l 0) as [x|]; [right; exists x; split; [exact HF | exact (HT x eq_refl)] | left; exact HF].
  - destruct (nth_error l 0) as [x|].
    + exists x, (t :: l2). split; [exact HF|]. split; [exact (HT x eq_refl)|]. split; [discriminate|]. apply C26_set_text_partial.
    + exfalso. destruct (proj1 (Hi2 t) (or_introl eq_refl)) as (z & [] & _).
Qed.
Print Assumptions C49_title.

(** [document()] of a set. *)
Definition page_text_node : heap := [mkNode NText None 0 None (Some (lit "new")) None None].
Theorem C49_set_document h r els : DocOk h r -> Forall (fun x => InTree h r x /\ Container h x) els -> els <> [] -> set_document h els = Some r.
Proof.
  intros D He Hn. destruct els as [|x els]; [congruence|]. inversion He as [|? ? [Hx Hc] _]; subst. cbn. rewrite (do_owner _ _ D x Hx Hc). reflexivity.
Qed.
Print Assumptions C49_set_document.
(** Of any set: the document of the first element that has one. *)
Theorem C49_document_first h els : (set_document h els = None <-> Forall (fun x => owner_document h x = None) els) /\
  forall d, set_document h els = Some d <-> exists l1 x l2, els = l1 ++ x :: l2 /\ Forall (fun y => owner_document h y = None) l1 /\ owner_document h x = Some d.
Proof.
  induction els as [|x els [IH1 IH2]].
  - split; [split; [constructor | reflexivity]|]. intros d. split; [discriminate | intros (l1 & x & l2 & H & _); destruct l1; discriminate].
  - cbn [set_document]. destruct (owner_document h x) as [d0|] eqn:E.
    + split; [split; [discriminate | intros H; inversion H; congruence]|]. intros d. split.
      * intros H. injection H as <-. exists [], x, els. split; [reflexivity|]. split; [constructor | exact E].
      * intros (l1 & y & l2 & H & F & Ey). destruct l1 as [|z l1]; injection H as <- ->; [congruence|]. inversion F. congruence.
    + split; [rewrite IH1; split; [intros H; constructor; assumption | intros H; inversion H; assumption]|]. intros d. rewrite (IH2 d). split.
      * intros (l1 & y & l2 & -> & F & Ey). exists (x :: l1), y, l2. split; [reflexivity|]. split; [constructor; assumption | exact Ey].
      * intros (l1 & y & l2 & H & F & Ey). destruct l1 as [|z l1]; injection H as <- ->; [congruence|]. inversion F. exists l1, y, l2. repeat split; assumption.
Qed.
Print Assumptions C49_document_first.
Example C49_document_first_ex : set_document (page_text_node ++ [mkNode NTag None 0 None None None (Some 7)]) [0; 1] = Some 7 /\ set_document page_text_node [0] = None.
Proof. split; reflexivity. Qed.

(** A page with two heads and a title outside of the first one. *)
Definition page : heap := doc
  [E "html" [] [E "HEAD" [] [E "title" [] [Tx (lit "one")]; E "title" [] [Tx (lit "two")]]; E "body" [] [E "p" [] [Tx (lit "x")]]; E "head" [] [E "title" [] [Tx (lit "no")]]]].
Definition page_text (x : id) : str := match x with 3 => lit "one" | 5 => lit "two" | 8 => lit "x" | _ => lit "no" end.
Example C49_ex : DocOk page 0 /\ IdCache page 0 (ids_of page) /\
  document_element ascii_only page page_text (ids_of page) 0 = Ok (Some 1) /\ doc_head ascii_only page page_text (ids_of page) 0 = Ok (Some 2) /\
  doc_body ascii_only page page_text (ids_of page) 0 = Ok (Some 7) /\ doc_title ascii_only page page_text (ids_of page) 0 = Ok (Some (lit "onetwo")) /\
  set_document page [3; 8] = Some 0.
Proof.
  assert (D : DocOk page 0) by (apply docok_check_sound; vm_compute; reflexivity).
  split; [exact D|]. split; [apply (ids_check_sound page 0 D); vm_compute; reflexivity|]. repeat split; vm_compute; reflexivity.
Qed.
