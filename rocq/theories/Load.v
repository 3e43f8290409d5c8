(** Model of loading documents and of their error handlers: src/lib.rs:1098-1135, 1195-1275 and
    src/mesdoc/interface/document.rs:48-56. *)
From Verif Require Import Base Attr Dom Html.

(** rphtml's parser on a whole document ([Doc::parse], lib.rs:1224): [None] is an error, otherwise whether it found the
    markup of a full document, and the child list of the root.  The options given to it (lib.rs:1202-1212) are fixed. *)
Definition doc_parser := str -> option (bool * option (list ptree)).

(** A handler ([IErrorHandle]) is a closure of the caller: here a name, and a log of the calls in place of their effect.
    The message is not modelled, only whether it comes from the parser or from a call on a set. *)
Inductive report := ParseReport | CallReport.
(** Everything reachable: the nodes, the handler bound to each document (by root node), the calls of handlers so far.
    A document lives as long as one of its holders does; here all stay. *)
Record session := mkSession { s_heap : heap; s_onerror : id -> option nat; s_log : list (nat * report) }.

(** rphtml gives every node it parses a pointer to the root. *)
Definition owned (r : id) (n : node) : node :=
  mkNode (n_type n) (n_parent n) (n_index n) (n_childs n) (n_content n) (n_meta n) (Some r).
(** The nodes of a parsed document whose root is number [r]. *)
Definition doc_nodes (r : id) (is_document : bool) (cs : option (list ptree)) : list node :=
  map (owned r) (lay None 0 r (PT (NRoot is_document) None None cs)).

(** lib.rs:1218-1226 [parse_doc_with_options]; rphtml creates the document without a handler. *)
Definition parse_doc (parse : doc_parser) (s : session) (html : str) : option (session * id) :=
  match parse html with
  | None => None
  | Some (is_document, cs) =>
      let r := length (s_heap s) in
      Some (mkSession (s_heap s ++ doc_nodes r is_document cs) (fun d => if Nat.eqb d r then None else s_onerror s d) (s_log s), r)
  end.
(** lib.rs:1103-1105 [bind_error] *)
Definition bind_error (s : session) (r : id) (k : nat) : session :=
  mkSession (s_heap s) (fun d => if Nat.eqb d r then Some k else s_onerror s d) (s_log s).
(** lib.rs:1107-1110 [elements] *)
Definition doc_elements (r : id) : list id := [r].
(** lib.rs:1228-1234 [load_options], 1252-1254 [load]; an error is passed to the caller. *)
Definition load (parse : doc_parser) (s : session) (html : str) : option (session * list id) :=
  match parse_doc parse s html with
  | None => None
  | Some (s', r) => Some (s', doc_elements r)
  end.
(** lib.rs:1236-1249 [load_options_catch], 1256-1261 [load_catch] *)
Definition load_catch (parse : doc_parser) (s : session) (html : str) (k : nat) : session * list id :=
  match parse_doc parse s html with
  | Some (s', r) => (bind_error s' r k, doc_elements r)
  | None => (mkSession (s_heap s) (s_onerror s) (s_log s ++ [(k, ParseReport)]), [])
  end.
(** lib.rs:1263-1265 [Vis::dom] *)
Definition dom (x : id) : list id := [x].

(** document.rs:52-56 [trigger_error]; lib.rs:1132-1137 [onerror] *)
Definition trigger_error (s : session) (d : id) : session :=
  match s_onerror s d with
  | Some k => mkSession (s_heap s) (s_onerror s) (s_log s ++ [(k, CallReport)])
  | None => s
  end.
(** A query in a session: its value, and the handlers of the documents it reports to are called (elements.rs:110-137). *)
Definition ask {A} (s : session) (q : heap -> res (A * list id)) : res (A * session) :=
  do p <- q (s_heap s); Ok (fst p, fold_left trigger_error (snd p) s).

(** A program that loads documents, keeping the handler or not, and asks queries of them; the values of the queries are
    dropped. *)
Inductive act := ALoad (html : str) | ALoadCatch (html : str) (k : nat) | AAsk (q : heap -> res (list id * list id)).
Fixpoint run_acts (parse : doc_parser) (s : session) (l : list act) : res session :=
  match l with
  | [] => Ok s
  | ALoad html :: l' => run_acts parse (match load parse s html with Some (s', _) => s' | None => s end) l'
  | ALoadCatch html k :: l' => run_acts parse (fst (load_catch parse s html k)) l'
  | AAsk q :: l' => do p <- ask s q; run_acts parse (snd p) l'
  end.
