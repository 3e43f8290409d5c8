(** Property theorems: copies of sets (C40). *)
From Verif Require Import Base Utils Attr AttrSpec Dom DomSpec DomProofs Sets SetsProofs Mutate MutateSpec FrameProofs DomBuild DomBuildProofs Html HtmlSpec Live
  Load Clone CloneSpec CloneProofs PropsSets PropsMutate PropsAttr PropsLive.

(** C40: the copies are equal to the originals node by node, are made of new nodes, and nothing else changes, whatever document the
    copies are told they belong to. *)
Theorem C40_clone (owner : option id) (h : heap) (els : list id) : WF h -> Forall (Container h) els ->
  exists h' els', clone owner h els = Ok (h', els') /\ WF h' /\ Clones h h' els els'.
Proof. exact (clone_ok owner h els). Qed.
Print Assumptions C40_clone.

(** C40: no later program of modifying calls on the copies (and on nodes created later) shows in the originals, and none on the
    originals shows in the copies. *)
Theorem C40_later (owner : option id) (o : oracles_dom) (oa : oracles_attr) (parse : parser) (h h' h2 : heap) (els els' : list id) (calls : list call) :
  WF h -> Forall (Container h) els -> ParserOk parse -> clone owner h els = Ok (h', els') ->
  run_calls o oa parse h' calls = Ok h2 ->
  ((forall c x, In c calls -> In x (call_nodes c) -> length h <= x) -> forall y, y < length h -> node_of h2 y = node_of h y) /\
  ((forall c x, In c calls -> In x (call_nodes c) -> x < length h \/ length h' <= x) -> forall y, length h <= y < length h' -> node_of h2 y = node_of h' y).
Proof.
  intros wf He HP Ec Er. destruct (clone_ok owner h els wf He) as (h1 & els1 & E & wf' & C). rewrite Ec in E. injection E as <- <-.
  destruct (clones_sealed h h' els els' wf wf' C) as [S1 S2]. pose proof (cl_len _ _ _ _ C) as L. split.
  - intros Hn y Hy. assert (K : Kept (fun x => x < length h) h' h2).
    { apply (kept_calls _ o oa parse HP calls h' h2 S1); [intros b Hb; lia | | exact Er]. intros c x Hc Hx. specialize (Hn c x Hc Hx). lia. }
    destruct K as (K & _ & _). rewrite (K y Hy). exact (cl_old _ _ _ _ C y Hy).
  - intros Hn y Hy. assert (K : Kept (fun x => length h <= x < length h') h' h2).
    { apply (kept_calls _ o oa parse HP calls h' h2 S2); [intros b Hb; lia | | exact Er]. intros c x Hc Hx. specialize (Hn c x Hc Hx). lia. }
    destruct K as (K & _ & _). exact (K y Hy).
Qed.
Print Assumptions C40_later.

(** Copying two nested elements of a document, then changing the first copy. *)
Example C40_clone_ex : WF ex_doc /\ Forall (Container ex_doc) [1; 4] /\ ParserOk toy /\
  exists h' els', clone (Some 0) ex_doc [1; 4] = Ok (h', els') /\
    kids ex_doc 1 = [2; 3; 4] /\ els' = [7; 12] /\ kids h' 7 = [8; 9; 10] /\ parent h' 7 = None /\
    exists h2, run_calls ex_od ex_oracle toy h' [KTree (ORemove 8); KTree (OSetText 10 (lit "t")); KAddClass [7] (lit "z")] = Ok h2 /\
      kids h2 7 = [9; 10] /\ kids h2 1 = [2; 3; 4].
Proof.
  split; [exact ex_doc_wf|]. split; [repeat (constructor; [left; reflexivity|]); constructor|]. split.
  { intros s ts E. unfold toy in E. destruct (str_eqb s (lit "<i>x</i>y")); [injection E as <-; exact toy_parsed|].
    destruct (str_eqb s (lit "<!--c-->")); [injection E as <-; repeat constructor; discriminate|].
    destruct (str_eqb s []); discriminate. }
  eexists _, _. split; [vm_compute; reflexivity|]. do 4 (split; [reflexivity|]).
  eexists. split; [vm_compute; reflexivity|]. split; reflexivity.
Qed.
(** Copying the document node: the copy is a document of its own. *)
Example C40_clone_ex2 : Forall (Container ex_doc) [0; 4] /\
  exists h' els', clone None ex_doc [0; 4] = Ok (h', els') /\ els' = [7; 14] /\ is_root h' 7 = true /\ length h' = 16 /\
    kids ex_doc 0 = [1; 6] /\ kids h' 7 = [8; 13] /\ parent h' 8 = Some 7.
Proof.
  split; [constructor; [right; reflexivity | constructor; [left; reflexivity | constructor]]|].
  eexists _, _. split; [vm_compute; reflexivity|]. repeat split.
Qed.
