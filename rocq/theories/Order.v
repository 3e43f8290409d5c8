(** Model of the ordering helpers: src/mesdoc/interface/elements.rs:31-89 and 367-493. *)
From Verif Require Import Base Dom.

(** elements.rs:31-41 [get_tree_indexs]: child positions from the top node down to the element.  The recursion
    over parents is bounded by the number of nodes. *)
Fixpoint tree_indexs_fuel (fuel : nat) (h : heap) (x : id) (acc : list nat) : res (list nat) :=
  match fuel with
  | 0 => OutOfFuel
  | S f =>
      let acc' := index h x :: acc in
      match parent h x with
      | Some p => tree_indexs_fuel f h p acc'
      | None => Ok acc'
      end
  end.
Definition get_tree_indexs (h : heap) (x : id) : res (list nat) :=
  tree_indexs_fuel (S (length h)) h x [].

(** elements.rs:44-57 [compare_indexs]. *)
Fixpoint compare_indexs (a b : list nat) : comparison :=
  match a, b with
  | x :: a', y :: b' =>
      match Nat.compare x y with
      | Eq => compare_indexs a' b'
      | c => c
      end
  | _, _ => Nat.compare (length a) (length b)
  end.

(** elements.rs:58-89 [ElementRelation], [relation_of]. *)
Inductive relation := RAncestor | REqual | RDescendant | RFeature.
Fixpoint relation_of (a b : list nat) : relation :=
  match a, b with
  | x :: a', y :: b' => if Nat.eqb x y then relation_of a' b' else RFeature
  | [], [] => REqual
  | _ :: _, [] => RDescendant
  | [], _ :: _ => RAncestor
  end.

Definition idx_eqb (a b : list nat) : bool :=
  match compare_indexs a b with Eq => true | _ => false end.

(** elements.rs:478-484 [sort]: the standard library's stable sort, here insertion sort (every stable sort gives
    the same list).  Keys are computed up front. *)
Fixpoint insert_key (k : list nat * id) (l : list (list nat * id)) : list (list nat * id) :=
  match l with
  | [] => [k]
  | k' :: l' =>
      match compare_indexs (fst k) (fst k') with
      | Gt => k' :: insert_key k l'
      | _ => k :: l
      end
  end.
Definition sort_keys (l : list (list nat * id)) : list (list nat * id) := fold_right insert_key [] l.
Definition with_key (h : heap) (x : id) : res (list nat * id) :=
  do k <- get_tree_indexs h x; Ok (k, x).
Definition sort (h : heap) (l : list id) : res (list id) :=
  do ks <- rmapl (with_key h) l;
  Ok (map snd (sort_keys ks)).

(** elements.rs:486-488 [unique]: [dedup_by] on consecutive elements. *)
Fixpoint dedup_from (x : id) (l : list id) : list id :=
  match l with
  | [] => []
  | y :: l' => if Nat.eqb y x then dedup_from x l' else y :: dedup_from y l'
  end.
Definition unique (l : list id) : list id :=
  match l with
  | [] => []
  | x :: l' => x :: dedup_from x l'
  end.
(** elements.rs:490-493 *)
Definition sort_and_unique (h : heap) (l : list id) : res (list id) :=
  do l' <- sort h l; Ok (unique l').

(** elements.rs:367-407 [unique_sibling], the loop: keeps the first visited element of every parent (parents are
    told apart by their index path), and the first element without a parent.
    State: paths of the parents seen, previous parent, [has_root], kept elements. *)
Record us_state := mkUS { us_paths : list (list nat); us_prev : option id; us_root : bool; us_keep : list id }.
Definition us_step (h : heap) (s : us_state) (x : id) : res us_state :=
  match parent h x with
  | Some p =>
      if match us_prev s with Some q => Nat.eqb p q | None => false end then Ok s
      else
        do path <- get_tree_indexs h p;
        if existsb (idx_eqb path) (us_paths s)
        then Ok (mkUS (us_paths s) (Some p) (us_root s) (us_keep s))
        else Ok (mkUS (path :: us_paths s) (Some p) (us_root s) (us_keep s ++ [x]))
  | None =>
      if us_root s then Ok s
      else Ok (mkUS (us_paths s) (us_prev s) true (us_keep s ++ [x]))
  end.
Definition us_init : us_state := mkUS [] None false [].
(** elements.rs:409-415 *)
Definition unique_sibling_first (h : heap) (l : list id) : res (list id) :=
  do s <- rfold (us_step h) l us_init; Ok (us_keep s).
Definition unique_sibling_last (h : heap) (l : list id) : res (list id) :=
  do s <- rfold (us_step h) (rev l) us_init; Ok (rev (us_keep s)).

(** elements.rs:417-449 [unique_all_siblings]: for each parent either its only listed child, or the parent
    itself with the flag.  State: per parent seen (path, position in the result, changed, parent). *)
Record ua_entry := mkUA { ua_path : list nat; ua_pos : nat; ua_changed : bool; ua_parent : id }.
Fixpoint ua_find (path : list nat) (l : list ua_entry) : option ua_entry :=
  match l with
  | [] => None
  | e :: l' => if idx_eqb path (ua_path e) then Some e else ua_find path l'
  end.
Definition ua_mark (path : list nat) (l : list ua_entry) : list ua_entry :=
  map (fun e => if idx_eqb path (ua_path e) then mkUA (ua_path e) (ua_pos e) true (ua_parent e) else e) l.
Fixpoint replace_at {A} (l : list A) (i : nat) (x : A) : list A :=
  match l, i with
  | [], _ => []
  | _ :: l', 0 => x :: l'
  | y :: l', S i' => y :: replace_at l' i' x
  end.
Definition ua_step (h : heap) (s : list ua_entry * list (id * bool)) (x : id) : res (list ua_entry * list (id * bool)) :=
  let '(seen, out) := s in
  match parent h x with
  | Some p =>
      do path <- get_tree_indexs h p;
      match ua_find path seen with
      | Some e =>
          if ua_changed e then Ok s
          else Ok (ua_mark path seen, replace_at out (ua_pos e) (ua_parent e, true))
      | None => Ok (mkUA path (length out) false p :: seen, out ++ [(x, false)])
      end
  | None => Ok s
  end.
Definition unique_all_siblings (h : heap) (l : list id) : res (list (id * bool)) :=
  do s <- rfold (ua_step h) l ([], []); Ok (snd s).

(** elements.rs:451-476 [unique_parents]: drops an element below the last kept one; an element equal to or above
    the last kept one hits [unreachable!]. *)
Definition up_step (h : heap) (s : list (list nat * id)) (x : id) : res (list (list nat * id)) :=
  do path <- get_tree_indexs h x;
  match rev s with
  | [] => Ok [(path, x)]
  | (top, _) :: _ =>
      match relation_of path top with
      | RFeature => Ok (s ++ [(path, x)])
      | RDescendant => Ok s
      | _ => Panic
      end
  end.
Definition unique_parents (h : heap) (l : list id) : res (list id) :=
  do s <- rfold (up_step h) l []; Ok (map snd s).
