(** Attribute and class calls on the nodes of a document, and programs mixing all kinds of modifying calls. *)
From Verif Require Import Base Utils Attr ClassOps Dom Mutate Html.

(** The tag data of a node, changed in place (lib.rs:669 / 735: [if let Some(meta) = &self.borrow().meta]). *)
Definition set_meta (m : option meta) (n : node) : node :=
  mkNode (n_type n) (n_parent n) (n_index n) (n_childs n) (n_content n) m (n_root n).
Definition on_meta (h : heap) (x : id) (f : meta -> res meta) : res heap :=
  match n_meta (node_of h x) with
  | None => Ok h
  | Some m => do m' <- f m; Ok (upd h x (set_meta (Some m')))
  end.

(** elements.rs:3260-3265 [set_attr] and 3296-3301 [remove_attr]. *)
Definition set_attr_all (o : oracles_attr) (h : heap) (l : list id) (name : str) (value : option str) : res heap :=
  rfold (fun h x => on_meta h x (fun m => set_attribute o m name value)) l h.
Definition remove_attr_all (h : heap) (l : list id) (name : str) : res heap :=
  rfold (fun h x => on_meta h x (fun m => remove_attribute m name)) l h.
(** The class calls read the class attribute first (elements.rs:3384, 3438, 3492), which panics ([expect], lib.rs:611-617) on a
    node without tag data; [idle] when the text names no class and no element is looked at (elements.rs:3383, 3435, 3489). *)
Definition on_class (h : heap) (x : id) (idle : bool) (f : meta -> res meta) : res heap :=
  match n_meta (node_of h x) with
  | None => if idle then Ok h else Panic
  | Some m => do m' <- f m; Ok (upd h x (set_meta (Some m')))
  end.
Definition no_names {A} (l : list A) : bool := match l with [] => true | _ => false end.
(** elements.rs:3381-3403 [add_class], 3432-3457 [remove_class], 3486-3525 [toggle_class]. *)
Definition add_class_all (o : oracles_attr) (h : heap) (l : list id) (cls : str) : res heap :=
  rfold (fun h x => on_class h x (no_names (get_class_list cls)) (fun m => add_class o m cls)) l h.
Definition remove_class_all (o : oracles_attr) (h : heap) (l : list id) (cls : str) : res heap :=
  rfold (fun h x => on_class h x (no_names (trim cls)) (fun m => remove_class o m cls)) l h.
Definition toggle_class_all (o : oracles_attr) (h : heap) (l : list id) (cls : str) : res heap :=
  rfold (fun h x => on_class h x (no_names (trim cls)) (fun m => toggle_class o m cls)) l h.

(** A program of modifying calls, each on one node or (attributes, classes) on a set. *)
Inductive call :=
| KTree (c : op)
| KSetAttr (l : list id) (name : str) (value : option str)
| KRemoveAttr (l : list id) (name : str)
| KAddClass (l : list id) (cls : str)
| KRemoveClass (l : list id) (cls : str)
| KToggleClass (l : list id) (cls : str)
| KHtml (x : id) (s : str).
Definition run_call (o : oracles_dom) (oa : oracles_attr) (parse : parser) (h : heap) (c : call) : res heap :=
  match c with
  | KTree c => run_op o h c
  | KSetAttr l name value => set_attr_all oa h l name value
  | KRemoveAttr l name => remove_attr_all h l name
  | KAddClass l cls => add_class_all oa h l cls
  | KRemoveClass l cls => remove_class_all oa h l cls
  | KToggleClass l cls => toggle_class_all oa h l cls
  | KHtml x s => set_html o parse h x s
  end.
Definition run_calls (o : oracles_dom) (oa : oracles_attr) (parse : parser) (h : heap) (l : list call) : res heap :=
  rfold (run_call o oa parse) l h.

(** elements.rs:3191-3196 [attr]: the attribute of the first element. *)
Definition attr_first (h : heap) (l : list id) (name : str) : res (option attr_value) :=
  match l with
  | [] => Ok None
  | x :: _ => node_attribute h x name
  end.
(** elements.rs:3223-3230 [has_attr]. *)
Definition has_attr_any (h : heap) (l : list id) (name : str) : res bool :=
  rexists (fun x => node_has_attribute h x name) l.
(** elements.rs:3328-3353 [has_class] (lib.rs:611-633 on each element: [expect] on the tag data). *)
Definition has_class_any (h : heap) (l : list id) (cls : str) : res bool :=
  match trim cls with
  | [] => Ok false
  | _ => rexists (fun x => match n_meta (node_of h x) with Some m => has_class m cls | None => Panic end) l
  end.
