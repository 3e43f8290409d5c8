(** Model of the operations on element sets that do not involve selectors:
    src/mesdoc/interface/elements.rs (positions, membership, filtering by another set or a closure, add). *)
From Verif Require Import Base Dom Order.

(** elements.rs:2793-2796 [includes]: pointer equality. *)
Definition includes (l : list id) (x : id) : bool := existsb (Nat.eqb x) l.

(** elements.rs:2798-2811 [index_of]. *)
Fixpoint pos_from (l : list id) (x : id) (i : nat) : option nat :=
  match l with
  | [] => None
  | y :: l' => if Nat.eqb x y then Some i else pos_from l' x (S i)
  end.
Definition index_of (l : list id) (x : id) (start_index : nat) : option nat :=
  if start_index <? length l then pos_from (skipn start_index l) x start_index else None.

(** elements.rs:2453-2530 [eq], [first], [last]; [last] computes [length - 1] on usize. *)
Definition eq_ (l : list id) (i : nat) : list id :=
  match nth_error l i with Some x => [x] | None => [] end.
Definition first (l : list id) : list id := eq_ l 0.
Definition last (l : list id) : res (list id) :=
  do i <- rsub (length l) 1; Ok (eq_ l i).

(** elements.rs:2558-2599 [slice] of any [RangeBounds<usize>].  [umax] is [usize::MAX]. *)
Inductive bound := Unbounded | Included (n : nat) | Excluded (n : nat).
Definition slice (umax : nat) (l : list id) (lo hi : bound) : res (list id) :=
  let total := length l in
  let go (start : nat) : res (list id) :=
    do stop <- (match hi with
                | Unbounded => Ok total
                | Excluded e => Ok (if e <? total then e else total)
                | Included e =>
                    if e <? umax then Ok (if S e <? total then S e else total) else Panic
                end);
    do n <- rsub stop start;
    Ok (firstn n (skipn start l)) in
  match lo with
  | Unbounded => go 0
  | Included s => if s <? total then go s else Ok []
  | Excluded _ => go 0
  end.

(** elements.rs:1172-1184, 2030-2042, 2153-2165, 2271-2282 [filter_by], [is_by], [is_all_by], [not_by];
    the handle gets the position and the element. *)
Fixpoint filter_by_from (f : nat -> id -> bool) (i : nat) (l : list id) : list id :=
  match l with
  | [] => []
  | x :: l' => if f i x then x :: filter_by_from f (S i) l' else filter_by_from f (S i) l'
  end.
Definition filter_by (f : nat -> id -> bool) (l : list id) : list id := filter_by_from f 0 l.
Fixpoint not_by_from (f : nat -> id -> bool) (i : nat) (l : list id) : list id :=
  match l with
  | [] => []
  | x :: l' => if f i x then not_by_from f (S i) l' else x :: not_by_from f (S i) l'
  end.
Definition not_by (f : nat -> id -> bool) (l : list id) : list id := not_by_from f 0 l.
Fixpoint is_by_from (f : nat -> id -> bool) (i : nat) (l : list id) : bool :=
  match l with
  | [] => false
  | x :: l' => if f i x then true else is_by_from f (S i) l'
  end.
Definition is_by (f : nat -> id -> bool) (l : list id) : bool := is_by_from f 0 l.
Fixpoint is_all_by_from (f : nat -> id -> bool) (i : nat) (l : list id) : bool :=
  match l with
  | [] => true
  | x :: l' => if f i x then is_all_by_from f (S i) l' else false
  end.
Definition is_all_by (f : nat -> id -> bool) (l : list id) : bool := is_all_by_from f 0 l.

(** elements.rs:1006-1063 [filter_in_handle], one function per [FilterType]. *)
Fixpoint filter_in_from (search : list id) (start_index : nat) (l : list id) : list id :=
  match l with
  | [] => []
  | x :: l' =>
      match index_of search x start_index with
      | Some i => x :: (if length search <=? S i then [] else filter_in_from search (S i) l')
      | None => filter_in_from search start_index l'
      end
  end.
Definition filter_in (l search : list id) : list id := filter_in_from search 0 l.
Fixpoint not_in_from (search : list id) (start_index : nat) (l : list id) : list id :=
  match l with
  | [] => []
  | x :: l' =>
      match index_of search x start_index with
      | Some i => not_in_from search (S i) l'
      | None => x :: not_in_from search start_index l'
      end
  end.
Definition not_in (l search : list id) : list id := not_in_from search 0 l.
Definition is_in (l search : list id) : bool := existsb (includes search) l.
Fixpoint is_all_in_from (search : list id) (start_index : nat) (l : list id) : bool :=
  match l with
  | [] => true
  | x :: l' =>
      match index_of search x start_index with
      | Some i => is_all_in_from search (S i) l'
      | None => false
      end
  end.
Definition is_all_in (l search : list id) : bool :=
  if length l <=? length search then is_all_in_from search 0 l else false.

(** elements.rs:2634-2790 [add].  Index paths are read through a cache in the code; here they are computed up
    front ([ka], [kb] for the first and the second set). *)

(** elements.rs:2692-2719, the binary search: returns [mid] and [find_equal]. *)
Fixpoint add_search (fuel : nat) (ka : list (list nat)) (k : list nat) (l r mid : nat) : res (nat * bool) :=
  match fuel with
  | 0 => OutOfFuel
  | S f =>
      if Nat.eqb mid l then Ok (mid, false)
      else
        do km <- rnth ka mid;
        match compare_indexs k km with
        | Gt => add_search f ka k mid r ((mid + r) / 2)
        | Lt => add_search f ka k l mid ((l + mid) / 2)
        | Eq => Ok (mid, true)
        end
  end.
(** [for index in a..=b { mids.push((index, at)) }] *)
Definition push_range (lo len at_ : nat) : list (nat * nat) := map (fun i => (i, at_)) (seq lo len).

(** elements.rs:2668-2757, the main loop; [fr], [sr] are the (constant) right ends. *)
Fixpoint add_loop (fuel : nat) (ka kb : list (list nat)) (fr sr fl sl : nat) (mids : list (nat * nat))
  : res (list (nat * nat)) :=
  match fuel with
  | 0 => OutOfFuel
  | S f =>
      if (fl <=? fr) && (sl <=? sr) then
        do k <- rnth kb sl;
        do kl <- rnth ka fl;
        match compare_indexs k kl with
        | Eq => add_loop f ka kb fr sr (S fl) (S sl) mids
        | Gt =>
            do kr <- rnth ka fr;
            match compare_indexs k kr with
            | Gt => Ok (mids ++ push_range sl (S sr - sl) (S fr))
            | Lt =>
                do m <- add_search (S fr) ka k fl fr ((fl + fr) / 2);
                add_loop f ka kb fr sr (fst m) (S sl)
                  (if snd m then mids else mids ++ [(sl, S (fst m))])
            | Eq => Ok (mids ++ push_range (S sl) (sr - sl) (S sr))
            end
        | Lt =>
            do kr <- rnth kb sr;
            match compare_indexs kr kl with
            | Lt => Ok (mids ++ push_range sl (S sr - sl) fl)
            | Gt => add_loop f ka kb fr sr fl (S sl) (mids ++ [(sl, fl)])
            | Eq => Ok (mids ++ push_range sl (sr - sl) fl)
            end
        end
      else Ok mids
  end.

(** elements.rs:2758-2788, building the result. *)
Fixpoint span_at (i : nat) (mids : list (nat * nat)) : list (nat * nat) * list (nat * nat) :=
  match mids with
  | m :: rest =>
      if Nat.eqb (snd m) i then let '(a, b) := span_at i rest in (m :: a, b) else ([], mids)
  | [] => ([], [])
  end.
Definition mid_ele (second : list id) (m : nat * nat) : res id := rnth second (fst m).
Fixpoint add_merge (second : list id) (i : nat) (first_ : list id) (mids : list (nat * nat)) : res (list id) :=
  match first_ with
  | [] => rmapl (mid_ele second) mids
  | x :: rest =>
      let '(now, later) := span_at i mids in
      do a <- rmapl (mid_ele second) now;
      do b <- add_merge second (S i) rest later;
      Ok (a ++ x :: b)
  end.
Definition add (h : heap) (a b : list id) : res (list id) :=
  match a, b with
  | [], _ => Ok b
  | _, [] => Ok a
  | _, _ =>
      do ka <- rmapl (get_tree_indexs h) a;
      do kb <- rmapl (get_tree_indexs h) b;
      do mids <- add_loop (S (length b)) ka kb (length a - 1) (length b - 1) 0 0 [];
      add_merge b 0 a mids
  end.
