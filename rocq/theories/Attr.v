(** Model of the attribute functions of an element: src/lib.rs:611-750.

    [rphtml]'s [NodeMeta] is modelled by the fields the code uses: [name], [attrs], [lc_name_map].
    [encode_char] and [need_quoted_char] are [rphtml]/[htmlentity] functions: oracles. *)
From Verif Require Import Base.

Definition DQ : char := 34%N.   (* double quote *)
Definition SQ : char := 39%N.   (* single quote *)

(** rphtml [Attr] (fields used in lib.rs:682-731). *)
Record attr := mkAttr {
  a_key : option str;
  a_value : option str;
  a_quote : option char;
  a_need_quote : bool
}.
Definition attr_default : attr := mkAttr None None None false.

(** The [HashMap<String, usize>] [lc_name_map]. *)
Definition amap := list (str * nat).
Fixpoint amap_get (m : amap) (k : str) : option nat :=
  match m with
  | [] => None
  | (k', v) :: m' => if str_eqb k' k then Some v else amap_get m' k
  end.
Definition amap_remove (m : amap) (k : str) : amap :=
  filter (fun e => negb (str_eqb (fst e) k)) m.
Definition amap_insert (m : amap) (k : str) (v : nat) : amap := (k, v) :: amap_remove m k.

Record meta := mkMeta {
  m_name : str;
  m_attrs : list attr;
  m_lc : amap
}.

(** src/mesdoc/interface/element.rs:12-17 [IAttrValue]. *)
Inductive attr_value :=
| AV (v : str) (q : option char)
| ATrue.

Record oracles_attr := mkOA {
  oa_encode : char -> option str;       (* encode_char(&ch, &EncodeType::Named) *)
  oa_need_quote : char -> bool          (* Attr::need_quoted_char *)
}.

(** lib.rs:622-629, 651-660: what an [Attr] is shown as. *)
Definition attr_show (a : attr) : attr_value :=
  match a_value a with
  | Some v => AV v (a_quote a)
  | None => ATrue
  end.

(** lib.rs:611-633 [get_attribute] ([meta] present; [attrs\[index\]] may panic). *)
Definition get_attribute (m : meta) (name : str) : res (option attr_value) :=
  match m_lc m with
  | [] => Ok None
  | _ =>
      match amap_get (m_lc m) (str_lower name) with
      | Some index => do a <- rnth (m_attrs m) index; Ok (Some (attr_show a))
      | None => Ok None
      end
  end.

(** lib.rs:635-663 [get_attributes]: the entries of the name map in the order of their index
    (via a [BTreeMap]).  Simplification: the entries are enumerated by looking up each index below
    [attrs.len()], so an index outside that range (on which the code would panic) gives no entry. *)
Definition amap_name_of (m : amap) (i : nat) : option str :=
  match find (fun e => Nat.eqb (snd e) i) m with
  | Some (k, _) => Some k
  | None => None
  end.
Fixpoint attrs_listing (m : amap) (l : list attr) (i : nat) : list (str * attr_value) :=
  match l with
  | [] => []
  | a :: l' =>
      match amap_name_of m i with
      | Some k => (k, attr_show a) :: attrs_listing m l' (S i)
      | None => attrs_listing m l' (S i)
      end
  end.
Definition get_attributes (m : meta) : list (str * attr_value) :=
  attrs_listing (m_lc m) (m_attrs m) 0.

(** lib.rs:669-704: the loop over the characters of the value.
    State: (content, find_quote, quote, need_quote). *)
Record qstate := mkQ { q_content : str; q_find : bool; q_quote : char; q_need : bool }.
Definition quote_step (o : oracles_attr) (s : qstate) (ch : char) : qstate :=
  let need := if q_need s then true else oa_need_quote o ch in
  if char_eqb ch DQ || char_eqb ch SQ then
    if q_find s then
      if char_eqb (q_quote s) ch then
        match oa_encode o ch with
        | Some entity => mkQ (q_content s ++ entity) true (q_quote s) need
        | None => mkQ (q_content s ++ [ch]) true (q_quote s) need
        end
      else mkQ (q_content s ++ [ch]) true (q_quote s) need
    else mkQ (q_content s ++ [ch]) true (if char_eqb ch DQ then SQ else q_quote s) need
  else mkQ (q_content s ++ [ch]) (q_find s) (q_quote s) need.
Definition quote_loop (o : oracles_attr) (v : str) : qstate :=
  fold_left (quote_step o) v (mkQ [] false DQ false).

(** Replacing the element at a position of a vector; [None] outside. *)
Fixpoint list_set {A} (l : list A) (i : nat) (x : A) : option (list A) :=
  match l, i with
  | [], _ => None
  | _ :: l', O => Some (x :: l')
  | y :: l', S i' => match list_set l' i' x with Some r => Some (y :: r) | None => None end
  end.
Definition rset {A} (l : list A) (i : nat) (x : A) : res (list A) :=
  match list_set l i x with Some r => Ok r | None => Panic end.

(** lib.rs:666-731 [set_attribute]. *)
Definition set_attribute (o : oracles_attr) (m : meta) (name : str) (value : option str) : res meta :=
  let st := match value with Some v => Some (quote_loop o v) | None => None end in
  let content := match st with Some s => Some (q_content s) | None => None end in
  let lc_name := str_lower name in
  match amap_get (m_lc m) lc_name with
  | Some index =>
      (* attrs[index].value = value; return *)
      do a <- rnth (m_attrs m) index;
      do attrs <- rset (m_attrs m) index (mkAttr (a_key a) content (a_quote a) (a_need_quote a));
      Ok (mkMeta (m_name m) attrs (m_lc m))
  | None =>
      let index := length (m_attrs m) in
      let quote := match st with Some s => Some (q_quote s) | None => None end in
      let need := match st with Some s => q_need s | None => false end in
      Ok (mkMeta (m_name m) (m_attrs m ++ [mkAttr (Some name) content quote need])
                 (amap_insert (m_lc m) lc_name index))
  end.

(** lib.rs:734-750 [remove_attribute].  Note line 748: the name is removed from the map as given,
    not in lower case. *)
Definition remove_attribute (m : meta) (name : str) : res meta :=
  let find_index := match m_lc m with [] => None | _ => amap_get (m_lc m) (str_lower name) end in
  match find_index with
  | Some index =>
      do attrs <- rset (m_attrs m) index attr_default;
      Ok (mkMeta (m_name m) attrs (amap_remove (m_lc m) name))
  | None => Ok m
  end.

(** One call of the API on an element. *)
Inductive attr_op :=
| OpSet (name : str) (value : option str)
| OpRemove (name : str).

Definition attr_step (o : oracles_attr) (m : meta) (op : attr_op) : res meta :=
  match op with
  | OpSet n v => set_attribute o m n v
  | OpRemove n => remove_attribute m n
  end.
Definition attr_run (o : oracles_attr) (m : meta) (ops : list attr_op) : res meta :=
  rfold (attr_step o) ops m.
