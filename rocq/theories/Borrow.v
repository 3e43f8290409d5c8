(** The modifying calls of src/lib.rs once more, statement by statement, with the run-time borrow checks of the cells
    ([Rc<RefCell<Node>>], and [RefCell] of the tag data): lib.rs:64-139, 149-225, 251-433, 439-460, 611-750, 786-992.
    [Mutate], [Html] and [Live] give the same calls without the checks, with a panic where a cell is borrowed twice.

    Guards are temporaries of the scrutinee of an [if let] (edition 2018: they live until the end of the whole
    [if let], its [else] included), of a condition (dropped after it) or of a statement, or local variables. *)
From Verif Require Import Base Utils Attr Dom Sets Mutate Html Live.

(** A node is a cell; its tag data is another one. *)
Inductive cell := CNode (x : id) | CMeta (x : id).
Definition cell_eqb (a b : cell) : bool :=
  match a, b with
  | CNode x, CNode y | CMeta x, CMeta y => Nat.eqb x y
  | _, _ => false
  end.
(** The guards alive: [borrow_mut] and [borrow]. *)
Record guards := mkGuards { g_mut : list cell; g_ref : list cell }.
Definition no_guards : guards := mkGuards [] [].

(** The outcome of a call: a value, a cell borrowed twice, another panic, fuel used up. *)
Inductive bres (A : Type) :=
| BOk (a : A)
| BClash
| BFault
| BFuel.
Arguments BOk {A}. Arguments BClash {A}. Arguments BFault {A}. Arguments BFuel {A}.
Definition B (A : Type) := guards -> heap -> bres (heap * A).

Definition ret {A} (a : A) : B A := fun _ h => BOk (h, a).
Definition fault {A} : B A := fun _ _ => BFault.
Definition bind {A C} (m : B A) (k : A -> B C) : B C :=
  fun g h => match m g h with
             | BOk (h', a) => k a g h'
             | BClash => BClash
             | BFault => BFault
             | BFuel => BFuel
             end.
Notation "'let!' x := m 'in' k" := (bind m (fun x => k)) (at level 200, x pattern, right associativity).
Notation "m ;; k" := (bind m (fun _ => k)) (at level 100, right associativity).
(** A computation without cells. *)
Definition pure {A} (r : res A) : B A :=
  fun _ h => match r with Ok a => BOk (h, a) | Panic => BFault | OutOfFuel => BFuel end.
(** [c.borrow_mut()] / [c.borrow()], the guard alive during [k]. *)
Definition holding_mut {A} (c : cell) (k : B A) : B A :=
  fun g h => if existsb (cell_eqb c) (g_mut g) || existsb (cell_eqb c) (g_ref g) then BClash
             else k (mkGuards (c :: g_mut g) (g_ref g)) h.
Definition holding_ref {A} (c : cell) (k : B A) : B A :=
  fun g h => if existsb (cell_eqb c) (g_mut g) then BClash else k (mkGuards (g_mut g) (c :: g_ref g)) h.
(** Through a guard. *)
Definition see {A} (x : id) (f : node -> A) : B A := fun _ h => BOk (h, f (node_of h x)).
Definition put (x : id) (f : node -> node) : B unit := fun _ h => BOk (upd h x f, tt).
(** A new cell; the cells of parsed trees. *)
Definition create (n : node) : B id := fun _ h => BOk (h ++ [n], length h).
Definition create_all (ts : list ptree) : B (list id) :=
  fun _ h => BOk (h ++ lay_list None 0 (length h) ts, roots_from (length h) ts).
(** [x.borrow().field], [x.borrow_mut().field = ..] as a whole statement. *)
Definition read {A} (x : id) (f : node -> A) : B A := holding_ref (CNode x) (see x f).
Definition write (x : id) (f : node -> node) : B unit := holding_mut (CNode x) (put x f).
Fixpoint each (l : list id) (k : id -> B unit) : B unit :=
  match l with
  | [] => ret tt
  | x :: l' => k x ;; each l' k
  end.

(** * Navigation *)
(** lib.rs:152-154 *)
Definition b_index (x : id) : B nat := read x n_index.
(** lib.rs:202-209 *)
Definition b_parent (x : id) : B (option id) := read x n_parent.
(** lib.rs:181-199: two statements; the second one only for a root. *)
Definition b_node_type (x : id) : B ntype :=
  let! t := read x n_type in
  match t with NRoot _ => read x n_type | _ => ret t end.
(** lib.rs:66-73 and 212-225: the node is borrowed while its root is. *)
Definition b_halt (x : id) : B errors :=
  holding_ref (CNode x) (
    let! r := see x n_root in
    match r with
    | Some r => holding_ref (CNode r) (ret [r])
    | None => ret []
    end).
(** lib.rs:439-460 (reports left out as in [Dom.tag_names]) *)
Definition b_tag_names (x : id) : B str :=
  let! t := b_node_type x in
  match t with
  | NTag =>
      holding_ref (CNode x) (
        let! m := see x n_meta in
        match m with
        | Some _ => holding_ref (CMeta x) (see x (fun n => match n_meta n with Some m => str_lower (m_name m) | None => [] end))
        | None => ret []
        end)
  | _ => ret []
  end.

(** * Changes of the tree *)
(** lib.rs:120-124 *)
Fixpoint b_reset (start : nat) (nodes : list id) : B unit :=
  match nodes with
  | [] => ret tt
  | x :: rest => write x (set_idx start) ;; b_reset (S start) rest
  end.
(** lib.rs:866, 890, 973, 357 *)
Definition b_set_parents (p : id) (nodes : list id) : B unit := each nodes (fun x => write x (set_par (Some p))).
(** lib.rs:126-139: the nodes left, and the flag. *)
Fixpoint b_not_allowed (o : oracles_dom) (tag : str) (i : nat) (nodes : list id) : B (list nat) :=
  match nodes with
  | [] => ret []
  | x :: rest =>
      let! t := read x n_type in
      let! l := b_not_allowed o tag (S i) rest in
      ret (if od_allow_insert o tag t then l else i :: l)
  end.
Definition b_remove_not_allowed (o : oracles_dom) (tag : str) (nodes : list id) : B (list id * bool) :=
  let! idx := b_not_allowed o tag 0 nodes in
  let! kept := (match idx with [] => ret nodes | _ => pure (retain_by_index nodes idx) end) in
  ret (kept, (0 <? length idx) && negb (Nat.eqb (length idx) (length nodes))).
(** lib.rs:77-116 *)
Fixpoint b_chain_has (fuel : nat) (x node : id) : B bool :=
  match fuel with
  | 0 => fun _ _ => BFuel
  | S f =>
      let! p := b_parent x in
      match p with
      | Some p => if Nat.eqb p node then ret true else b_chain_has f p node
      | None => ret false
      end
  end.
Definition b_validate (fuel : nat) (dom node : id) : B (bool * errors) :=
  let refuse := (let! e := b_halt dom in ret (false, e)) in
  let! t := read dom n_type in
  match t with
  | NTag =>
      let! t' := b_node_type node in
      match t' with
      | NRoot true => refuse
      | _ =>
          if Nat.eqb dom node then refuse
          else
            let! b := b_chain_has fuel dom node in
            if b then refuse else ret (true, [])
      end
  | _ => refuse
  end.
(** lib.rs:786-801: [self] is borrowed from line 790 to the end. *)
Definition b_remove_child (self ele : id) : B unit :=
  let! p := b_parent ele in
  match p with
  | Some p =>
      if Nat.eqb self p then
        holding_mut (CNode self) (
          let! cs := see self n_childs in
          match cs with
          | Some cs =>
              let! i := b_index ele in
              let! last := pure (rsub (length cs) 1) in
              (if Nat.eqb i last then ret tt
               else if S i <=? length cs then b_reset i (skipn (S i) cs) else fault) ;;
              let! cs' := pure (remove_at cs i) in
              put self (set_ch (Some cs'))
          | None => ret tt
          end)
      else ret tt
  | None => ret tt
  end.
(** lib.rs:816-831 and 933-953 *)
Definition b_nodes (node : id) : B (list id) :=
  let! t := b_node_type node in
  match t with
  | NRoot false => holding_ref (CNode node) (see node (fun n => match n_childs n with Some l => l | None => [] end))
  | _ =>
      let! p := b_parent node in
      (match p with Some p => b_remove_child p node | None => ret tt end) ;;
      ret [node]
  end.
(** lib.rs:844-888: two [if let] statements, each borrowing [self] and its parent. *)
Definition b_beside (self : id) (after : bool) (nodes : list id) : B unit :=
  let! i0 := b_index self in
  let i := if after then S i0 else i0 in
  b_reset i nodes ;;
  let! nexts := holding_mut (CNode self) (
    let! p := see self n_parent in
    match p with
    | Some p =>
        holding_mut (CNode p) (
          let! cs := see p n_childs in
          match cs with
          | Some cs =>
              let nexts := if i <? length cs then skipn i cs else [] in
              let prevs := if i <? length cs then firstn i cs else cs in
              b_set_parents p nodes ;;
              put p (set_ch (Some (prevs ++ nodes))) ;;
              ret nexts
          | None => ret []
          end)
    | None => ret []
    end) in
  match nexts with
  | [] => ret tt
  | _ =>
      b_reset (i + length nodes) nexts ;;
      holding_mut (CNode self) (
        let! p := see self n_parent in
        match p with
        | Some p =>
            holding_mut (CNode p) (
              let! cs := see p n_childs in
              match cs with
              | Some cs => put p (set_ch (Some (cs ++ nexts)))
              | None => ret tt
              end)
        | None => ret tt
        end)
  end.
(** lib.rs:889-915: [self] is borrowed until the [return]; without a child list the guard is dropped first. *)
Definition b_inside (self : id) (at_end : bool) (nodes : list id) : B unit :=
  b_set_parents self nodes ;;
  let! done := holding_mut (CNode self) (
    let! cs := see self n_childs in
    match cs with
    | Some cs =>
        (if at_end then b_reset (length cs) nodes ;; put self (set_ch (Some (cs ++ nodes)))
         else b_reset 0 nodes ;; b_reset (length nodes) cs ;; put self (set_ch (Some (nodes ++ cs)))) ;;
        ret true
    | None => ret false
    end) in
  if done : bool then ret tt
  else b_reset 0 nodes ;; write self (set_ch (Some nodes)).
(** lib.rs:806-925 *)
Definition b_insert_adjacent (o : oracles_dom) (fuel : nat) (self : id) (pos : position_) (node : id) : B errors :=
  let! v := b_validate fuel self node in
  if negb (fst v) then ret (snd v)
  else
    let! ns := b_nodes node in
    let! tag := b_tag_names self in
    let! nodes := (match pos with
                   | AfterBegin | BeforeEnd => let! r := b_remove_not_allowed o tag ns in ret (fst r)
                   | _ => ret ns
                   end) in
    match nodes with
    | [] => ret []
    | _ =>
        (match pos with
         | BeforeBegin => b_beside self false nodes
         | AfterEnd => b_beside self true nodes
         | AfterBegin => b_inside self false nodes
         | BeforeEnd => b_inside self true nodes
         end) ;;
        ret []
    end.
(** lib.rs:927-992: [self] and its parent are borrowed from 961 to 979. *)
Definition b_replace_with (self node : id) : B id :=
  let! t := b_node_type node in
  let! nodes := b_nodes node in
  let new_self := match t with NRoot false => match nodes with [x] => x | _ => self end | _ => node end in
  match nodes with
  | [] => ret self
  | _ =>
      let! i := b_index self in
      holding_mut (CNode self) (
        let! p := see self n_parent in
        match p with
        | Some p =>
            holding_mut (CNode p) (
              let! cs := see p n_childs in
              match cs with
              | Some cs =>
                  b_reset i nodes ;;
                  (if i <? length cs then b_reset (i + length nodes) (skipn (S i) cs) else ret tt) ;;
                  b_set_parents p nodes ;;
                  (if S i <=? length cs then put p (set_ch (Some (firstn i cs ++ nodes ++ skipn (S i) cs))) else fault)
              | None => ret tt
              end)
        | None => ret tt
        end) ;;
      ret new_self
  end.

(** * Texts *)
(** lib.rs:251-296: an element stays borrowed from line 256 on. *)
Definition b_set_text (o : oracles_dom) (self : id) (content : str) : B errors :=
  let! t := b_node_type self in
  match t with
  | NTag =>
      let! tag := b_tag_names self in
      let plain := negb (od_content_tag o tag) in
      holding_mut (CNode self) (
        (match content with
         | _ :: _ =>
             if plain then
               let! n := create (new_text self (od_encode o content)) in
               put self (set_ch (Some [n]))
             else put self (set_con (Some content))
         | [] => if plain then put self (set_ch None) else put self (set_con None)
         end) ;;
        ret [])
  | NText | NSpaces | NComment =>
      match content with
      | [] => b_halt self
      | _ => write self (set_con (Some content)) ;; ret []
      end
  | _ => ret []
  end.
(** lib.rs:399-411: the text and its parent stay borrowed. *)
Definition b_text_remove (self : id) : B unit :=
  let! i := b_index self in
  holding_mut (CNode self) (
    let! p := see self n_parent in
    match p with
    | Some p =>
        holding_mut (CNode p) (
          let! cs := see p n_childs in
          match cs with
          | Some cs =>
              let! cs' := pure (remove_at cs i) in
              put p (set_ch (Some cs')) ;;
              b_reset i (skipn i cs')
          | None => ret tt
          end)
    | None => ret tt
    end).
(** lib.rs:414-432: the guard of the scrutinee is alive in the [else]. *)
Definition b_append_text (self : id) (t : str) : B unit :=
  holding_mut (CNode self) (
    let! c := see self n_content in
    match c with
    | Some c => put self (set_con (Some (c ++ t)))
    | None => write self (set_con (Some t))
    end).
Definition b_prepend_text (self : id) (t : str) : B unit :=
  holding_mut (CNode self) (
    let! c := see self n_content in
    match c with
    | Some c => put self (set_con (Some (t ++ c)))
    | None => write self (set_con (Some t))
    end).

(** * [set_html] *)
(** lib.rs:316-327, 342-352: [target.borrow().meta.expect(..).borrow().name], both guards alive during [k]. *)
Definition with_name {A} (x : id) (k : str -> B A) : B A :=
  holding_ref (CNode x) (
    let! m := see x n_meta in
    match m with
    | Some m => holding_ref (CMeta x) (k (m_name m))
    | None => fault
    end).
(** lib.rs:298-393.  The root of the parsed document, borrowed from 341 to 387, is a cell of its own that no node
    touched here leads to; it is left out. *)
Definition b_set_html (o : oracles_dom) (parse : parser) (self : id) (content : str) : B unit :=
  let! t := b_node_type self in
  let! target := (match t with
                  | NTag => ret (Some (true, self))
                  | NText | NSpaces => holding_mut (CNode self) (see self (fun n => option_map (fun p => (false, p)) (n_parent n)))
                  | _ => ret None
                  end) in
  match target with
  | None => ret tt
  | Some (is_element, target) =>
      let! content_tag := with_name target (fun name => ret (od_content_tag o name)) in
      if content_tag : bool then write target (set_con (Some content))
      else
        match parse content with
        | None => fault
        | Some None => write target (set_ch None)
        | Some (Some trees) =>
            let! all := create_all trees in
            let! r := with_name target (fun name => b_remove_not_allowed o name all) in
            let nodes := fst r in
            let has_nodes := 0 <? length nodes in
            (if has_nodes then b_set_parents target nodes else ret tt) ;;
            if is_element : bool then
              (if snd r then b_reset 0 nodes else ret tt) ;;
              write target (set_ch (if has_nodes then Some nodes else None))
            else
              holding_mut (CNode target) (
                let! cs := see target n_childs in
                match cs with
                | Some cs =>
                    let! i := b_index self in
                    let! last := pure (rsub (length cs) 1) in
                    (if i <? last then b_reset (i + length nodes) (skipn (S i) cs) else ret tt) ;;
                    if has_nodes then
                      b_reset i nodes ;;
                      (if S i <=? length cs then put target (set_ch (Some (firstn i cs ++ nodes ++ skipn (S i) cs))) else fault)
                    else
                      let! cs' := pure (remove_at cs i) in
                      put target (set_ch (Some cs'))
                | None => ret tt
                end)
        end
  end.

(** * Attributes *)
Definition see_meta {A} (x : id) (d : A) (f : meta -> A) : B A := see x (fun n => match n_meta n with Some m => f m | None => d end).
Definition put_meta (x : id) (f : meta -> meta) : B unit := put x (fun n => set_meta (option_map f (n_meta n)) n).
(** lib.rs:666-731: the node stays borrowed; the tag data is borrowed statement by statement. *)
Definition b_set_attribute (o : oracles_attr) (x : id) (name : str) (value : option str) : B unit :=
  holding_ref (CNode x) (
    let! m := see x n_meta in
    match m with
    | None => ret tt
    | Some _ =>
        let st := option_map (quote_loop o) value in
        let content := option_map q_content st in
        let lc_name := str_lower name in
        let! found := holding_ref (CMeta x) (see_meta x None (fun m => amap_get (m_lc m) lc_name)) in
        match found with
        | Some i =>
            holding_mut (CMeta x) (
              let! attrs := see_meta x [] m_attrs in
              let! a := pure (rnth attrs i) in
              let! attrs' := pure (rset attrs i (mkAttr (a_key a) content (a_quote a) (a_need_quote a))) in
              put_meta x (fun m => mkMeta (m_name m) attrs' (m_lc m)))
        | None =>
            let! i := holding_ref (CMeta x) (see_meta x 0 (fun m => length (m_attrs m))) in
            holding_mut (CMeta x) (put_meta x (fun m => mkMeta (m_name m) (m_attrs m) (amap_insert (m_lc m) lc_name i))) ;;
            let a := mkAttr (Some name) content (option_map q_quote st) (match st with Some s => q_need s | None => false end) in
            holding_mut (CMeta x) (put_meta x (fun m => mkMeta (m_name m) (m_attrs m ++ [a]) (m_lc m)))
        end
    end).
(** lib.rs:734-750 *)
Definition b_remove_attribute (x : id) (name : str) : B unit :=
  holding_ref (CNode x) (
    let! m := see x n_meta in
    match m with
    | None => ret tt
    | Some _ =>
        let! none := holding_ref (CMeta x) (see_meta x true (fun m => match m_lc m with [] => true | _ => false end)) in
        let! found := (if none : bool then ret None
                       else holding_ref (CMeta x) (see_meta x None (fun m => amap_get (m_lc m) (str_lower name)))) in
        match found with
        | Some i =>
            holding_mut (CMeta x) (
              let! attrs := see_meta x [] m_attrs in
              let! attrs' := pure (rset attrs i attr_default) in
              put_meta x (fun m => mkMeta (m_name m) attrs' (m_lc m))) ;;
            holding_mut (CMeta x) (put_meta x (fun m => mkMeta (m_name m) (m_attrs m) (amap_remove (m_lc m) name)))
        | None => ret tt
        end
    end).
(** lib.rs:611-633: the tag data is borrowed a second time while it is borrowed. *)
Definition b_get_attribute (x : id) (name : str) : B (option attr_value) :=
  holding_ref (CNode x) (
    let! m := see x n_meta in
    match m with
    | None => fault
    | Some _ =>
        holding_ref (CMeta x) (
          let! lc := see_meta x [] m_lc in
          match lc with
          | [] => ret None
          | _ =>
              match amap_get lc (str_lower name) with
              | Some i => holding_ref (CMeta x) (let! attrs := see_meta x [] m_attrs in let! a := pure (rnth attrs i) in ret (Some (attr_show a)))
              | None => ret None
              end
          end)
    end).

(** * Programs *)
(** One call on one node. *)
Inductive bcall :=
| BTree (c : op)
| BSetAttr (x : id) (name : str) (value : option str)
| BRemoveAttr (x : id) (name : str)
| BHtml (x : id) (s : str).
(** elements.rs:3614-3620 [remove] on one element. *)
Definition b_remove_one (x : id) : B unit :=
  let! p := b_parent x in
  match p with Some p => b_remove_child p x | None => ret tt end.
Definition b_op (o : oracles_dom) (fuel : nat) (c : op) : B unit :=
  match c with
  | OInsert self pos x => b_insert_adjacent o fuel self pos x ;; ret tt
  | ORemove x => b_remove_one x
  | OReplace x y => b_replace_with x y ;; ret tt
  | OSetText x s => b_set_text o x s ;; ret tt
  | ORemoveText x => b_text_remove x
  | OAppendText x s => b_append_text x s
  | OPrependText x s => b_prepend_text x s
  end.
(** The fuel of the walk over the parents is given by the heap at the call. *)
Definition b_call (o : oracles_dom) (oa : oracles_attr) (parse : parser) (c : bcall) : B unit :=
  match c with
  | BTree c => fun g h => b_op o (S (length h)) c g h
  | BSetAttr x name value => b_set_attribute oa x name value
  | BRemoveAttr x name => b_remove_attribute x name
  | BHtml x s => b_set_html o parse x s
  end.
Fixpoint b_calls (o : oracles_dom) (oa : oracles_attr) (parse : parser) (l : list bcall) : B unit :=
  match l with
  | [] => ret tt
  | c :: l' => b_call o oa parse c ;; b_calls o oa parse l'
  end.
