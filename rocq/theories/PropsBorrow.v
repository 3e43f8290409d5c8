(** Property theorems: the run-time borrow checks of the modifying calls (C62). *)
From Verif Require Import Base Utils Attr Dom DomSpec DomProofs Sets SetsProofs Mutate MutateSpec MutateProofs InsertProofs HistoryProofs DomBuild DomBuildProofs
  PropsSets PropsMutate PropsAttr Html HtmlSpec Live LiveSpec LiveProofs PropsFilter PropsLive Borrow BorrowSpec BorrowProofs ClassOps BorrowSets BorrowSetsProofs.

(** * C62: which calls borrow a cell twice *)
(** Any nodes, removed ones with old parent pointers among them. *)
Theorem C62_exact o oa parse h c : WF h -> (b_call o oa parse c no_guards h = BClash <-> Clashes h c).
Proof.
  intros wf. destruct (call_cases o oa parse h c wf) as [(H & E) | (H & E)]; [tauto|].
  split; [|contradiction]. intros E'. exfalso. rewrite E in E'. exact (silent_not_clash _ E').
Qed.
Print Assumptions C62_exact.
(** Otherwise the borrow checks change nothing, neither the result nor other panics. *)
Theorem C62_same o oa parse h c : WF h -> ~ Clashes h c ->
  b_call o oa parse c no_guards h = silent (run_call o oa parse h (plain c)).
Proof. intros wf Hn. destruct (call_cases o oa parse h c wf) as [(H & E) | (_ & E)]; [contradiction | exact E]. Qed.
Print Assumptions C62_same.
(** In particular: *)
Theorem C62_never o oa parse h : WF h ->
  (forall self pos x, b_call o oa parse (BTree (OInsert self pos x)) no_guards h <> BClash) /\
  (forall x, b_call o oa parse (BTree (ORemove x)) no_guards h <> BClash) /\
  (forall x, b_call o oa parse (BTree (ORemoveText x)) no_guards h <> BClash) /\
  (forall x s, b_call o oa parse (BTree (OSetText x s)) no_guards h <> BClash) /\
  (forall x s, b_call o oa parse (BHtml x s) no_guards h <> BClash) /\
  (forall x name v, b_call o oa parse (BSetAttr x name v) no_guards h <> BClash) /\
  (forall x name, b_call o oa parse (BRemoveAttr x name) no_guards h <> BClash).
Proof.
  intros wf. repeat (split; [intros; rewrite (C62_exact o oa parse h _ wf); intros []|]).
  intros. rewrite (C62_exact o oa parse h _ wf). intros [].
Qed.
Print Assumptions C62_never.
(** A node in its place, or without a parent, replaces [x]. *)
Theorem C62_replace o oa parse h x y : WF h -> Placed h y ->
  (b_call o oa parse (BTree (OReplace x y)) no_guards h = BClash <-> BringsHolder h x y).
Proof.
  intros wf Hy. rewrite (C62_exact o oa parse h _ wf). cbn [Clashes]. split; [tauto|]. intros H. split; [|exact H].
  right. intros p Ep _. destruct Hy as (_ & [Hy | (q & i & Hy)]); [congruence|]. rewrite (listed_index h wf _ _ _ Hy).
  rewrite (listed_parent h wf _ _ _ Hy) in Ep. injection Ep as <-. apply nth_error_Some. unfold Listed in Hy. congruence.
Qed.
Print Assumptions C62_replace.
(** Reading is never a clash, also while other cells, or the same ones, are being read. *)
Theorem C62_reading h x name rs :
  b_get_attribute x name (mkGuards [] rs) h = as_b (do a <- node_attribute h x name; Ok (h, a)) /\
  b_parent x (mkGuards [] rs) h = BOk (h, parent h x) /\ b_index x (mkGuards [] rs) h = BOk (h, index h x) /\
  b_node_type x (mkGuards [] rs) h = BOk (h, ntype_of h x) /\ b_tag_names x (mkGuards [] rs) h = BOk (h, tag_names h x).
Proof.
  assert (E : b_get_attribute x name (mkGuards [] rs) h = as_b (do a <- node_attribute h x name; Ok (h, a))) by apply get_attribute_eq.
  split; [exact E|]. split; [apply parent_eq; reflexivity|]. split; [apply index_eq; reflexivity|]. split; [apply type_eq; reflexivity | apply tag_eq; reflexivity].
Qed.
Print Assumptions C62_reading.
(** Whole programs. *)
Theorem C62_program o oa parse h l : WF h -> CallsOk o oa parse h (map plain l) ->
  b_calls o oa parse l no_guards h = silent (run_calls o oa parse h (map plain l)).
Proof. exact (fun wf H => calls_eq o oa parse l h wf H). Qed.
Print Assumptions C62_program.

(** [ex_doc]: root 0, a 1, b 2, text 3, c 4, d 5, e 6.  Replacing c by its parent a, by itself; b by d; a text appended to
    an element.  The same by the definitions of the calls. *)
Example C62_ex : WF ex_doc /\ Placed ex_doc 1 /\ BringsHolder ex_doc 4 1 /\ BringsHolder ex_doc 4 4 /\ ~ BringsHolder ex_doc 2 5 /\ Clashes ex_doc (BTree (OAppendText 1 [])) /\
  b_call ex_od ex_oracle toy (BTree (OReplace 4 1)) no_guards ex_doc = BClash /\
  b_call ex_od ex_oracle toy (BTree (OReplace 4 4)) no_guards ex_doc = BClash /\
  b_call ex_od ex_oracle toy (BTree (OAppendText 1 [])) no_guards ex_doc = BClash /\
  (exists h', b_call ex_od ex_oracle toy (BTree (OReplace 2 5)) no_guards ex_doc = BOk (h', tt) /\ kids h' 1 = [5; 3; 4] /\ kids h' 4 = []) /\
  (exists h', b_call ex_od ex_oracle toy (BTree (OInsert 5 AfterEnd 2)) no_guards ex_doc = BOk (h', tt) /\ kids h' 1 = [3; 4] /\ kids h' 4 = [5; 2]) /\
  (exists h', b_call ex_od ex_oracle toy (BHtml 3 (lit "<i>x</i>y")) no_guards ex_doc = BOk (h', tt) /\ kids h' 1 = [2; 7; 9; 4]).
Proof.
  split; [exact ex_doc_wf|]. split; [apply (PropsMutate.placed_check _ _ 0); reflexivity|].
  split. { exists 1. split; [reflexivity|]. split; [discriminate|]. right. reflexivity. }
  split. { exists 1. split; [reflexivity|]. split; [discriminate|]. left. reflexivity. }
  split. { intros (p & E & _ & H). vm_compute in E. injection E as <-. destruct H as [H | H]; vm_compute in H; discriminate. }
  repeat (split; [vm_compute; reflexivity|]). repeat split; eexists; (split; [vm_compute; reflexivity | repeat split]).
Qed.
(** A fragment whose child is the parent: [ex_frag] has the document [<a><b/></a>] (0, 1, 2) and the fragment [<c/><d/>]
    (3, 4, 5); d is put into c first. *)
Definition ex_frag2 : heap := match run_op ex_od ex_frag (OInsert 4 BeforeEnd 5) with Ok h => h | _ => [] end.
Example C62_fragment_ex : WF ex_frag2 /\ is_fragment ex_frag2 3 = true /\ kids ex_frag2 3 = [4] /\ kids ex_frag2 4 = [5] /\
  BringsHolder ex_frag2 5 3 /\ BringsHolder ex_frag2 4 3 /\ b_call ex_od ex_oracle toy (BTree (OReplace 5 3)) no_guards ex_frag2 = BClash /\
  b_call ex_od ex_oracle toy (BTree (OReplace 4 3)) no_guards ex_frag2 = BClash /\
  b_call ex_od ex_oracle toy (BTree (OInsert 5 AfterEnd 3)) no_guards ex_frag2 = BOk (ex_frag2, tt) /\
  exists h', b_call ex_od ex_oracle toy (BTree (OReplace 2 3)) no_guards ex_frag2 = BOk (h', tt) /\ kids h' 1 = [4].
Proof.
  split; [apply wf_check_sound; vm_compute; reflexivity|]. do 3 (split; [vm_compute; reflexivity|]).
  split. { exists 4. split; [reflexivity|]. split; [vm_compute; discriminate|]. right. vm_compute. left. reflexivity. }
  split. { exists 3. split; [reflexivity|]. split; [vm_compute; discriminate|]. left. vm_compute. left. reflexivity. }
  do 3 (split; [vm_compute; reflexivity|]). eexists. split; vm_compute; reflexivity.
Qed.
Definition b_live : list bcall :=
  [BHtml 4 (lit "<i>x</i>y"); BTree (OInsert 2 BeforeEnd 7); BHtml 3 []; BSetAttr 6 (lit "id") (Some (lit "z")); BRemoveAttr 6 (lit "id")].
Example C62_program_ex : WF ex_doc /\ CallsOk ex_od ex_oracle toy ex_doc (map plain b_live) /\
  exists h', b_calls ex_od ex_oracle toy b_live no_guards ex_doc = BOk (h', tt) /\ kids h' 1 = [] /\ kids h' 2 = [7] /\ kids h' 4 = [9].
Proof.
  split; [exact ex_doc_wf|]. split.
  - unfold b_live. cbn [map plain CallsOk CallOk].
    split. { split; [discriminate|]. split; [intros q Eq; injection Eq as <-; discriminate|]. exact toy_parsed. }
    intros h1 E1. vm_compute in E1. injection E1 as <-.
    split; [split; [apply (PropsMutate.placed_check _ _ 1); reflexivity | split; [apply (PropsMutate.placed_check _ _ 4); reflexivity | reflexivity]]|].
    intros h2 E2. vm_compute in E2. injection E2 as <-. split.
    { split; [intros _; apply (PropsMutate.placed_check _ _ 1); reflexivity|]. split; [|exact I]. intros q Eq. vm_compute in Eq. injection Eq as <-. vm_compute. discriminate. }
    intros h3 E3. vm_compute in E3. injection E3 as <-. split; [repeat constructor|].
    intros h4 E4. vm_compute in E4. injection E4 as <-. split; [repeat constructor|]. intros h5 _. exact I.
  - eexists. split; [vm_compute; reflexivity|]. repeat split.
Qed.

(** * C62: attribute and class calls on sets *)
(** Any heap, any list of nodes, repeated ones and nodes without tag data among them: no cell is borrowed twice, and the
    outcome, other panics included, is the one without the checks. *)
Theorem C62_sets o oa parse h c : (forall c', c <> SOne c') ->
  s_call o oa parse c no_guards h <> BClash /\ s_call o oa parse c no_guards h = silent (run_call o oa parse h (plain_s c)).
Proof.
  intros H. rewrite (scall_cases o oa parse h c H). split; [apply silent_not_clash | reflexivity].
Qed.
Print Assumptions C62_sets.
(** Asking for classes, also while cells are being read. *)
Theorem C62_has_class l cls rs h : b_has_class_any l cls (mkGuards [] rs) h = as_b (do b <- has_class_any h l cls; Ok (h, b)).
Proof. apply has_class_eq. Qed.
Print Assumptions C62_has_class.
(** Whole programs with them. *)
Theorem C62_sets_program o oa parse h l : WF h -> CallsOk o oa parse h (map plain_s l) ->
  s_calls o oa parse l no_guards h = silent (run_calls o oa parse h (map plain_s l)).
Proof. exact (fun wf H => scalls_eq o oa parse l h wf H). Qed.
Print Assumptions C62_sets_program.

Definition s_live : list scall :=
  [SAddClass [2; 4; 2] (lit "u v"); SToggleClass [4; 5] (lit " v w "); SRemoveClass [2; 6] (lit "u"); SOne (BTree (OInsert 2 BeforeEnd 5));
   SSetAttr [5; 6] (lit "id") (Some (lit "z")); SRemoveAttr [6] (lit "id"); SAddClass [6] []].
Definition class_after (h : heap) (x : id) : res (option attr_value) := node_attribute h x ATTR_CLASS.
Example C62_sets_ex : WF ex_doc /\ CallsOk ex_od ex_oracle toy ex_doc (map plain_s s_live) /\
  (exists h', s_calls ex_od ex_oracle toy s_live no_guards ex_doc = BOk (h', tt) /\ kids h' 2 = [5] /\
    class_after h' 2 = Ok (Some (AV (lit "v") (Some 34%N))) /\ class_after h' 4 = Ok (Some (AV (lit "u w") (Some 34%N))) /\
    class_after h' 5 = Ok (Some (AV (lit "v w") (Some 34%N))) /\ class_after h' 6 = Ok None /\
    b_has_class_any [6; 2; 4] (lit "w u") (mkGuards [] [CNode 2; CMeta 4]) h' = BOk (h', true) /\
    b_has_class_any [2; 4] (lit "w v") no_guards h' = BOk (h', false)) /\
  s_call ex_od ex_oracle toy (SAddClass [2; 3] (lit "u")) no_guards ex_doc = BFault /\
  s_call ex_od ex_oracle toy (SAddClass [3] []) no_guards ex_doc = BOk (ex_doc, tt) /\
  b_has_class_any [2] (lit "u") (mkGuards [CMeta 2] []) ex_doc = BClash.
Proof.
  split; [exact ex_doc_wf|]. split.
  - unfold s_live. cbn [map plain_s plain CallsOk CallOk].
    split; [repeat constructor|]. intros h1 E1. vm_compute in E1. injection E1 as <-.
    split; [repeat constructor|]. intros h2 E2. vm_compute in E2. injection E2 as <-.
    split; [repeat constructor|]. intros h3 E3. vm_compute in E3. injection E3 as <-.
    split; [split; [apply (PropsMutate.placed_check _ _ 1); reflexivity | split; [apply (PropsMutate.placed_check _ _ 4); reflexivity | reflexivity]]|].
    intros h4 E4. vm_compute in E4. injection E4 as <-. split; [repeat constructor|].
    intros h5 E5. vm_compute in E5. injection E5 as <-. split; [repeat constructor|].
    intros h6 E6. vm_compute in E6. injection E6 as <-. split; [repeat constructor|]. intros h7 _. exact I.
  - split; [eexists; split; [vm_compute; reflexivity|]; repeat split|]. repeat split; vm_compute; reflexivity.
Qed.
