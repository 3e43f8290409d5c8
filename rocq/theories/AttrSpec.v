(** What users expect of attributes: an element carries a finite map from lower-case names to values. *)
From Verif Require Import Base Attr.

(** The abstract attribute map: [None] absent, [Some None] present without a value,
    [Some (Some v)] present with value [v]. *)
Definition attr_map := str -> option (option str).

Definition spec_set (f : attr_map) (name : str) (value : option str) : attr_map :=
  fun k => if str_eqb k (str_lower name) then Some value else f k.
Definition spec_remove (f : attr_map) (name : str) : attr_map :=
  fun k => if str_eqb k (str_lower name) then None else f k.
Definition spec_step (f : attr_map) (op : attr_op) : attr_map :=
  match op with
  | OpSet n v => spec_set f n v
  | OpRemove n => spec_remove f n
  end.
Definition spec_run (f : attr_map) (ops : list attr_op) : attr_map := fold_left spec_step ops f.

(** The value a reader sees, without the quote character. *)
Definition seen (a : option attr_value) : option (option str) :=
  match a with
  | None => None
  | Some (AV v _) => Some (Some v)
  | Some ATrue => Some None
  end.

(** [m] shows the abstract map [f]: under every spelling of every name. *)
Definition Shows (m : meta) (f : attr_map) : Prop :=
  forall name, exists a, get_attribute m name = Ok a /\ seen a = f (str_lower name).

(** An element as the parser builds it / as the operations keep it: every entry of the name map has a
    lower-case name and points at its own existing attribute. *)
Definition MetaOk (m : meta) : Prop :=
  (forall k i, amap_get (m_lc m) k = Some i -> str_lower k = k /\ i < length (m_attrs m)) /\
  (forall k k' i, amap_get (m_lc m) k = Some i -> amap_get (m_lc m) k' = Some i -> k = k').

(** The text written between the quotes can not end the attribute: it does not contain the quote
    character the attribute is stored with. *)
Definition QuoteSafe (a : attr) : Prop :=
  match a_value a, a_quote a with
  | Some v, Some q => ~ In q v
  | Some v, None => False
  | None, _ => True
  end.

(** The value contains both kinds of quotes. *)
Definition MixedQuotes (v : str) : Prop := In DQ v /\ In SQ v.

(** What we ask of the external entity encoder: quotes have an entity and it is free of quotes. *)
Definition EncoderOk (o : oracles_attr) : Prop :=
  forall q, q = DQ \/ q = SQ ->
  exists e, oa_encode o q = Some e /\ ~ In DQ e /\ ~ In SQ e.

(** [w] is [v] with some of its quotes (of one kind) written as entities. *)
Definition Escaped (o : oracles_attr) (q : char) (v w : str) : Prop :=
  exists ps, w = concat ps /\ Forall2 (fun ch p => p = [ch] \/ ch = q /\ oa_encode o ch = Some p) v ps.
(** How a value is stored in a new attribute: quoted with a quote that does not end it, and marked as needing quotes when
    one of its characters does. *)
Definition StoredAs (o : oracles_attr) (value : option str) (a : attr) : Prop :=
  match value with
  | None => a_value a = None /\ a_quote a = None /\ a_need_quote a = false
  | Some v => exists w q, a_value a = Some w /\ a_quote a = Some q /\ (q = DQ \/ q = SQ) /\ ~ In q w /\ Escaped o q v w /\
      (a_need_quote a = true <-> exists ch, In ch v /\ oa_need_quote o ch = true)
  end.

(** The attributes of the tag as it is written out: in order, each under the spelling of its name in the source, the
    removed ones (without a name) left out. *)
Definition markup (m : meta) : list (str * option str) :=
  flat_map (fun a => match a_key a with Some k => [(k, a_value a)] | None => [] end) (m_attrs m).
Definition same_name (n k : str) : bool := str_eqb (str_lower k) (str_lower n).
(** One call in terms of what is written: an existing attribute keeps its place and its spelling, a new one comes last. *)
Definition markup_step (l : list (str * option str)) (op : attr_op) : list (str * option str) :=
  match op with
  | OpSet n v =>
      if existsb (fun e => same_name n (fst e)) l
      then map (fun e => if same_name n (fst e) then (fst e, v) else e) l
      else l ++ [(n, v)]
  | OpRemove n => filter (fun e => negb (same_name n (fst e))) l
  end.
(** The name map and the written attributes agree (no name is written twice). *)
Definition KeysOk (m : meta) : Prop :=
  (forall i a k, nth_error (m_attrs m) i = Some a -> a_key a = Some k -> amap_get (m_lc m) (str_lower k) = Some i) /\
  (forall n i, amap_get (m_lc m) n = Some i -> exists a k, nth_error (m_attrs m) i = Some a /\ a_key a = Some k /\ str_lower k = n).
