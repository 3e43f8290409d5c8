(** Property theorems: attributes (C18, C19, C20), class lists (C16, C17), strings (C38). *)
From Verif Require Import Base Utils UtilsSpec UtilsProofs Attr AttrSpec AttrProofs AttrOrderProofs AttrMarkup
  ClassOps ClassSpec ClassProofs ClassExact.

(** An element [<div id="x" class="a b">] as the parser builds it, and an oracle that knows the quotes. *)
Definition ex_attrs : list attr :=
  [mkAttr (Some (lit "id")) (Some (lit "x")) (Some DQ) false;
   mkAttr (Some (lit "class")) (Some (lit "a b")) (Some DQ) false].
Definition ex_meta : meta := mkMeta (lit "div") ex_attrs [(lit "id", 0); (lit "class", 1)].
Definition ex_oracle : oracles_attr :=
  mkOA (fun c => if char_eqb c DQ then Some (lit "&quot;") else if char_eqb c SQ then Some (lit "&apos;") else None)
       (fun c => is_ascii_ws c).
Lemma ex_meta_ok : MetaOk ex_meta.
Proof.
  split.
  - intros k i. cbn [amap_get ex_meta m_lc m_attrs ex_attrs length]. destruct (str_eqb (lit "id") k) eqn:E1; [|destruct (str_eqb (lit "class") k) eqn:E2].
    + intros [= <-]. apply str_eqb_spec in E1. subst k. split; [reflexivity | lia].
    + intros [= <-]. apply str_eqb_spec in E2. subst k. split; [reflexivity | lia].
    + discriminate.
  - intros k k' i. cbn [amap_get ex_meta m_lc m_attrs ex_attrs length].
    destruct (str_eqb (lit "id") k) eqn:E1; [|destruct (str_eqb (lit "class") k) eqn:E2]; try discriminate;
    (destruct (str_eqb (lit "id") k') eqn:E1'; [|destruct (str_eqb (lit "class") k') eqn:E2']); try discriminate;
    intros [= <-]; try discriminate; intros _.
    + apply str_eqb_spec in E1, E1'. congruence.
    + apply str_eqb_spec in E2, E2'. congruence.
Qed.
Lemma ex_meta_map_ok : MapOk ex_meta.
Proof. unfold MapOk. cbn. repeat constructor; cbn; intuition discriminate. Qed.
Lemma ex_oracle_ok : EncoderOk ex_oracle.
Proof. intros q [->| ->]; eexists; (split; [reflexivity|]); split; vm_compute; intuition discriminate. Qed.

(** C18/C19: over every history of calls with plain arguments, the element shows exactly the attribute
    map a user expects, under every spelling of every name. *)
Theorem C18_attr_history_partial (o : oracles_attr) (m : meta) (f : attr_map) (ops : list attr_op) :
  MetaOk m -> Shows m f -> Forall op_plain ops ->
  exists m', attr_run o m ops = Ok m' /\ MetaOk m' /\ Shows m' (spec_run f ops).
Proof. exact (attr_history o m f ops). Qed.
Print Assumptions C18_attr_history_partial.

Definition ex_ops : list attr_op :=
  [OpSet (lit "Data-X") (Some (lit "it's")); OpRemove (lit "class"); OpSet (lit "ID") (Some (lit "y")); OpSet (lit "hidden") None].
Example C18_ex : MetaOk ex_meta /\ (exists f, Shows ex_meta f) /\ Forall op_plain ex_ops /\
  exists m', attr_run ex_oracle ex_meta ex_ops = Ok m' /\
    get_attribute m' (lit "data-x") = Ok (Some (AV (lit "it's") (Some DQ))) /\
    get_attribute m' (lit "Class") = Ok None.
Proof.
  split; [apply ex_meta_ok|]. split; [exists (abs ex_meta); apply shows_abs, ex_meta_ok|].
  split; [repeat constructor; unfold op_plain, MixedQuotes; vm_compute; intuition discriminate|].
  eexists. split; [vm_compute; reflexivity|]. split; vm_compute; reflexivity.
Qed.

(** C18, the claim for one write. *)
Theorem C18_attr_write_read_partial (o : oracles_attr) (m : meta) (name v : str) :
  MetaOk m -> ~ MixedQuotes v ->
  exists m', set_attribute o m name (Some v) = Ok m' /\ MetaOk m' /\
    (forall k, str_lower k = str_lower name -> exists q, get_attribute m' k = Ok (Some (AV v q))) /\
    (forall k, str_lower k <> str_lower name ->
       exists a a', get_attribute m k = Ok a /\ get_attribute m' k = Ok a' /\ seen a' = seen a).
Proof.
  intros Hm Hq. destruct (set_attribute_ok o m name (Some v) Hm) as (m' & E & Hm' & _ & Ha).
  exists m'. split; [exact E|]. split; [exact Hm'|].
  unfold stored in Ha. rewrite quote_loop_plain in Ha by exact Hq. split; intros k Hk.
  - destruct (shows_abs m' Hm' k) as (a & Ea & Sa). rewrite Ha, Hk, str_eqb_refl in Sa.
    destruct a as [[w q|]|]; cbn in Sa; try discriminate. injection Sa as ->. exists q. exact Ea.
  - destruct (shows_abs m Hm k) as (a & Ea & Sa), (shows_abs m' Hm' k) as (a' & Ea' & Sa').
    exists a, a'. split; [exact Ea|]. split; [exact Ea'|]. rewrite Sa, Sa', Ha.
    destruct (str_eqb (str_lower k) (str_lower name)) eqn:Ek; [|reflexivity].
    apply str_eqb_spec in Ek. contradiction.
Qed.
Print Assumptions C18_attr_write_read_partial.

(** C18: the order of the attributes. *)
Theorem C18_attr_order (o : oracles_attr) (m : meta) (name : str) (value : option str) :
  MetaOk m -> MapOk m ->
  exists m', set_attribute o m name value = Ok m' /\ MetaOk m' /\ MapOk m' /\
    map fst (get_attributes m') =
      (if existsb (str_eqb (str_lower name)) (map fst (get_attributes m))
       then map fst (get_attributes m)
       else map fst (get_attributes m) ++ [str_lower name]).
Proof. exact (set_listing o m name value). Qed.
Print Assumptions C18_attr_order.
Example C18_order_ex : MetaOk ex_meta /\ MapOk ex_meta /\ map fst (get_attributes ex_meta) = [lit "id"; lit "class"].
Proof. split; [apply ex_meta_ok|]. split; [apply ex_meta_map_ok | vm_compute; reflexivity]. Qed.

(** C18/C19: what is written out. Over every history of plain calls the tag is written with exactly the attributes of a
    reader's list: an existing attribute keeps its place and its spelling, a new one comes last, a removed one goes. *)
Theorem C18_attr_markup_partial (o : oracles_attr) (m : meta) (ops : list attr_op) :
  KeysOk m -> Forall op_plain ops ->
  exists m', attr_run o m ops = Ok m' /\ KeysOk m' /\ MetaOk m' /\ markup m' = fold_left markup_step ops (markup m).
Proof.
  intros Hm Hp. destruct (run_markup o ops Hp m Hm) as (m' & E & Hm' & W). exists m'. split; [exact E|]. split; [exact Hm'|]. split; [exact (keys_meta m' Hm') | exact W].
Qed.
Print Assumptions C18_attr_markup_partial.
(** [<div ID=x class="a b">] *)
Definition ex_upper : meta :=
  mkMeta (lit "div") [mkAttr (Some (lit "ID")) (Some (lit "x")) None false; mkAttr (Some (lit "class")) (Some (lit "a b")) (Some DQ) false] [(lit "id", 0); (lit "class", 1)].
Example C18_markup_ex : KeysOk ex_upper /\ Forall op_plain ex_ops /\
  fold_left markup_step ex_ops (markup ex_upper) = [(lit "ID", Some (lit "y")); (lit "Data-X", Some (lit "it's")); (lit "hidden", None)].
Proof.
  split; [|split; [repeat constructor; unfold op_plain, MixedQuotes; vm_compute; intuition discriminate | vm_compute; reflexivity]]. split.
  - intros [|[|[|i]]] a k Ea Ek; try discriminate; injection Ea as <-; injection Ek as <-; reflexivity.
  - intros n i. cbn [amap_get ex_upper m_lc m_attrs]. destruct (str_eqb (lit "id") n) eqn:E1; [|destruct (str_eqb (lit "class") n) eqn:E2; [|discriminate]]; intros [= <-].
    + apply str_eqb_spec in E1. subst n. eexists _, (lit "ID"). repeat split.
    + apply str_eqb_spec in E2. subst n. eexists _, (lit "class"). repeat split.
Qed.

(** C18 is false for values containing both kinds of quotes: the second kind is entity-encoded in the
    stored value, and [attr] does not decode. *)
Theorem C18_attr_write_read_refuted :
  exists o m name v m', EncoderOk o /\ MetaOk m /\ set_attribute o m name (Some v) = Ok m' /\
    ~ exists q, get_attribute m' name = Ok (Some (AV v q)).
Proof.
  exists ex_oracle, ex_meta, (lit "title"), [SQ; DQ]. eexists.
  split; [apply ex_oracle_ok|]. split; [apply ex_meta_ok|].
  split; [vm_compute; reflexivity|]. vm_compute. intros (q & H). discriminate.
Qed.
Print Assumptions C18_attr_write_read_refuted.

(** C19: removal, for names spelled in lower case: absent under every spelling, the others keep value and order. *)
Theorem C19_attr_removal_partial (m : meta) (name : str) :
  MetaOk m -> MapOk m -> str_lower name = name ->
  exists m', remove_attribute m name = Ok m' /\ MetaOk m' /\ MapOk m' /\
    (forall k, str_lower k = name -> get_attribute m' k = Ok None) /\
    get_attributes m' = filter (fun e => negb (str_eqb (fst e) name)) (get_attributes m).
Proof.
  intros Hm Hk Hn. destruct (remove_listing m name Hm Hk Hn) as (m' & E & Hm' & Hk' & Hl).
  exists m'. split; [exact E|]. split; [exact Hm'|]. split; [exact Hk'|]. split; [|exact Hl].
  intros k Ek. destruct (remove_attribute_ok m name Hm Hn) as (m2 & E2 & _ & _ & Ha).
  rewrite E in E2. injection E2 as <-.
  destruct (shows_abs m' Hm' k) as (a & Ea & Sa). rewrite Ha, Ek, str_eqb_refl in Sa.
  destruct a as [[? ?|]|]; cbn in Sa; try discriminate. exact Ea.
Qed.
Print Assumptions C19_attr_removal_partial.
Example C19_ex : MetaOk ex_meta /\ MapOk ex_meta /\ str_lower (lit "class") = lit "class" /\
  exists m', remove_attribute ex_meta (lit "class") = Ok m' /\ map fst (get_attributes m') = [lit "id"].
Proof.
  split; [apply ex_meta_ok|]. split; [apply ex_meta_map_ok|]. split; [reflexivity|].
  eexists. split; vm_compute; reflexivity.
Qed.

(** C19 is false for a name with an upper-case letter: the attribute stays present (as a boolean). *)
Theorem C19_attr_removal_refuted :
  exists m name m', MetaOk m /\ MapOk m /\ remove_attribute m name = Ok m' /\
    get_attribute m' name <> Ok None.
Proof.
  exists ex_meta, (lit "ID"). eexists. split; [apply ex_meta_ok|]. split; [apply ex_meta_map_ok|].
  split; [vm_compute; reflexivity|]. vm_compute. discriminate.
Qed.
Print Assumptions C19_attr_removal_refuted.

(** C20: a new attribute is stored safely. *)
Theorem C20_new_attr_quoting_partial (o : oracles_attr) (m : meta) (name : str) (value : option str) :
  EncoderOk o -> amap_get (m_lc m) (str_lower name) = None ->
  exists m' a, set_attribute o m name value = Ok m' /\ m_attrs m' = m_attrs m ++ [a] /\ QuoteSafe a.
Proof. exact (set_new_attribute_safe o m name value). Qed.
Print Assumptions C20_new_attr_quoting_partial.
(** ... and it holds the value given, quotes of the chosen kind written as entities, and says whether quotes are needed. *)
Theorem C20_new_attr_stored (o : oracles_attr) (m : meta) (name : str) (value : option str) :
  EncoderOk o -> amap_get (m_lc m) (str_lower name) = None ->
  exists m' a, set_attribute o m name value = Ok m' /\ m_attrs m' = m_attrs m ++ [a] /\ a_key a = Some name /\ StoredAs o value a.
Proof. exact (set_new_attribute_stored o m name value). Qed.
Print Assumptions C20_new_attr_stored.
Example C20_ex : EncoderOk ex_oracle /\ amap_get (m_lc ex_meta) (str_lower (lit "Title")) = None.
Proof. split; [apply ex_oracle_ok | reflexivity]. Qed.

(** C20 is false when the attribute existed: the old quote character is kept. *)
Theorem C20_attr_quoting_refuted :
  exists o m name v m' a, EncoderOk o /\ MetaOk m /\ Forall QuoteSafe (m_attrs m) /\
    set_attribute o m name (Some v) = Ok m' /\ In a (m_attrs m') /\ ~ QuoteSafe a.
Proof.
  exists ex_oracle, ex_meta, (lit "id"), [DQ]. eexists. eexists.
  split; [apply ex_oracle_ok|]. split; [apply ex_meta_ok|].
  split; [repeat constructor; vm_compute; intuition discriminate|].
  split; [vm_compute; reflexivity|]. split; [left; reflexivity|].
  vm_compute. intros H. apply H. left. reflexivity.
Qed.
Print Assumptions C20_attr_quoting_refuted.

(** C17: reading a class text gives its words in order; there is exactly one such list. *)
Theorem C17_class_text_words (s : str) (l : list str) : Words s l <-> get_class_list s = l.
Proof. split; [apply get_class_list_words | intros <-; apply get_class_list_spec]. Qed.
Print Assumptions C17_class_text_words.
(** C17: writing and reading back. *)
Theorem C17_class_text_roundtrip (l : list str) :
  Forall Word l -> get_class_list (class_list_to_string l) = l.
Proof. exact (class_list_roundtrip l). Qed.
Print Assumptions C17_class_text_roundtrip.
Example C17_ex : Forall Word [lit "a"; lit "b-c"; lit "a"].
Proof. repeat constructor; discriminate. Qed.
Example C17_ex2 : get_class_list (lit "  a  b-c a ") = [lit "a"; lit "b-c"; lit "a"].
Proof. vm_compute. reflexivity. Qed.

(** C16: adding classes. *)
Theorem C16_add_class (o : oracles_attr) (m : meta) (arg : str) (names old : list str) :
  MetaOk m -> Words arg names -> HasClasses m old -> NoMix names old ->
  exists m' added, add_class o m arg = Ok m' /\ MetaOk m' /\ SameOthers m m' /\
    HasClasses m' (old ++ added) /\
    incl added names /\ (forall c, In c names -> In c (old ++ added)) /\
    (forall c, In c added -> ~ In c old) /\
    (HasClassValue m old -> NoDup added).
Proof. exact (add_class_ok o m arg names old). Qed.
Print Assumptions C16_add_class.
(** C16: removing classes listed once and in the order the element lists them. *)
Theorem C16_remove_class_partial (o : oracles_attr) (m : meta) (arg : str) (names old : list str) :
  MetaOk m -> AsciiSpaced arg -> Words arg names -> HasClasses m old -> NoDup old -> SameOrder old names ->
  NoMix [] old ->
  exists m', remove_class o m arg = Ok m' /\ MetaOk m' /\ SameOthers m m' /\
    HasClasses m' (filter (fun c => if in_dec str_dec c names then false else true) old).
Proof. exact (remove_class_ok o m arg names old). Qed.
Print Assumptions C16_remove_class_partial.
Theorem C16_toggle_class_partial (o : oracles_attr) (m : meta) (arg : str) (names old : list str) :
  MetaOk m -> AsciiSpaced arg -> Words arg names -> HasClasses m old -> NoDup old -> SameOrder old names ->
  NoMix names old ->
  exists m', toggle_class o m arg = Ok m' /\ MetaOk m' /\ SameOthers m m' /\
    HasClasses m' (filter (fun c => if in_dec str_dec c names then false else true) old ++
                   filter (fun c => if in_dec str_dec c old then false else true) names).
Proof. exact (toggle_class_ok o m arg names old). Qed.
Print Assumptions C16_toggle_class_partial.
Theorem C16_has_class (m : meta) (arg : str) (names old : list str) :
  AsciiSpaced arg -> Words arg names -> HasClasses m old ->
  exists b, has_class m arg = Ok b /\ (b = true <-> names <> [] /\ incl names old).
Proof. exact (has_class_ok m arg names old). Qed.
Print Assumptions C16_has_class.

Lemma ex_has_classes : HasClasses ex_meta [lit "a"; lit "b"].
Proof. left. exists (lit "a b"), (Some DQ). split; [reflexivity|]. apply C17_class_text_words. vm_compute. reflexivity. Qed.
Example C16_ex : MetaOk ex_meta /\ AsciiSpaced (lit " b c ") /\ Words (lit " b c ") [lit "b"; lit "c"] /\
  HasClasses ex_meta [lit "a"; lit "b"] /\ NoDup [lit "a"; lit "b"] /\
  SameOrder [lit "a"; lit "b"] [lit "b"; lit "c"] /\ NoMix [lit "b"; lit "c"] [lit "a"; lit "b"].
Proof.
  split; [apply ex_meta_ok|]. split; [intros c Hc; repeat (destruct Hc as [<-|Hc]; [vm_compute; tauto|]); destruct Hc|].
  split; [apply C17_class_text_words; vm_compute; reflexivity|].
  split; [apply ex_has_classes|]. split; [repeat constructor; cbn; intuition discriminate|].
  split; [vm_compute; reflexivity|]. unfold NoMix. vm_compute. intuition discriminate.
Qed.

(** The condition is exact: on a class list without repetition, the calls do what they should exactly when the names present are
    given once and in the order of the attribute; in every other case they panic or leave other classes. *)
Theorem C16_remove_class_iff (o : oracles_attr) (m : meta) (arg : str) (names old : list str) :
  MetaOk m -> AsciiSpaced arg -> Words arg names -> HasClasses m old -> NoDup old -> NoMix [] old ->
  (exists m', remove_class o m arg = Ok m' /\
     HasClasses m' (filter (fun c => if in_dec str_dec c names then false else true) old)) <-> SameOrder old names.
Proof.
  intros Hm Ha Hw Ho Hn Hx. split.
  - intros (m' & E & Hc). exact (remove_class_conv o m arg names old m' Hm Ha Hw Ho Hn Hx E Hc).
  - intros Hs. destruct (remove_class_ok o m arg names old Hm Ha Hw Ho Hn Hs Hx) as (m' & E & _ & _ & Hc). exists m'. auto.
Qed.
Print Assumptions C16_remove_class_iff.
Theorem C16_toggle_class_iff (o : oracles_attr) (m : meta) (arg : str) (names old : list str) :
  MetaOk m -> AsciiSpaced arg -> Words arg names -> HasClasses m old -> NoDup old -> NoMix names old ->
  (exists m', toggle_class o m arg = Ok m' /\
     HasClasses m' (filter (fun c => if in_dec str_dec c names then false else true) old ++
                    filter (fun c => if in_dec str_dec c old then false else true) names)) <-> SameOrder old names.
Proof.
  intros Hm Ha Hw Ho Hn Hx. split.
  - intros (m' & E & Hc). exact (toggle_class_conv o m arg names old m' Hm Ha Hw Ho Hn Hx E Hc).
  - intros Hs. destruct (toggle_class_ok o m arg names old Hm Ha Hw Ho Hn Hs Hx) as (m' & E & _ & _ & Hc). exists m'. auto.
Qed.
Print Assumptions C16_toggle_class_iff.
Example C16_iff_ex : SameOrder [lit "a"; lit "b"; lit "c"] [lit "x"; lit "a"; lit "c"] /\
  ~ SameOrder [lit "a"; lit "b"] [lit "b"; lit "a"] /\ ~ SameOrder [lit "a"; lit "b"] [lit "a"; lit "a"] /\
  (* with repetitions in the class list the calls can be right by accident *)
  remove_class ex_oracle (mkMeta (lit "div") [mkAttr (Some (lit "class")) (Some (lit "b b c")) (Some DQ) false] [(lit "class", 0)]) (lit "b c c")
    = Ok (mkMeta (lit "div") [mkAttr (Some (lit "class")) (Some []) (Some DQ) false] [(lit "class", 0)]).
Proof.
  split; [vm_compute; reflexivity|]. split; [vm_compute; discriminate|]. split; [vm_compute; discriminate|].
  vm_compute. reflexivity.
Qed.

(** C16 is false in general: removing two classes named in the opposite order panics ... *)
Theorem C16_remove_class_panics_refuted :
  exists o m arg, MetaOk m /\ HasClasses m [lit "a"; lit "b"] /\ remove_class o m arg = Panic.
Proof.
  exists ex_oracle, ex_meta, (lit "b a"). split; [apply ex_meta_ok|]. split; [apply ex_has_classes|].
  vm_compute. reflexivity.
Qed.
Print Assumptions C16_remove_class_panics_refuted.
(** ... or leaves a named class in place and removes another one. *)
Definition ex_meta3 : meta :=
  mkMeta (lit "div") [mkAttr (Some (lit "class")) (Some (lit "a b c d")) (Some DQ) false] [(lit "class", 0)].
Theorem C16_remove_class_wrong_refuted :
  exists o m arg m', HasClasses m [lit "a"; lit "b"; lit "c"; lit "d"] /\ Words arg [lit "c"; lit "b"] /\
    remove_class o m arg = Ok m' /\ HasClasses m' [lit "b"; lit "d"].
Proof.
  exists ex_oracle, ex_meta3, (lit "c b"). eexists.
  split. { left. eexists _, _. split; [reflexivity|]. apply C17_class_text_words. vm_compute. reflexivity. }
  split; [apply C17_class_text_words; vm_compute; reflexivity|].
  split; [vm_compute; reflexivity|].
  left. eexists _, _. split; [vm_compute; reflexivity|]. apply C17_class_text_words. vm_compute. reflexivity.
Qed.
Print Assumptions C16_remove_class_wrong_refuted.
(** Adding to an element without class value keeps repeated names. *)
Theorem C16_add_class_twice_refuted :
  exists o m arg m' l, HasClasses m [] /\ add_class o m arg = Ok m' /\ HasClasses m' l /\ ~ NoDup l.
Proof.
  exists ex_oracle, (mkMeta (lit "div") [] []), (lit "a a"). eexists. exists [lit "a"; lit "a"].
  split; [right; split; [left; reflexivity | reflexivity]|].
  split; [vm_compute; reflexivity|].
  split. { left. eexists _, _. split; [vm_compute; reflexivity|]. apply C17_class_text_words. vm_compute. reflexivity. }
  intros H. inversion H as [|? ? Hn _]; subst. apply Hn. left. reflexivity.
Qed.
Print Assumptions C16_add_class_twice_refuted.

(** C38: the substring test. *)
Theorem C38_substring (t s : str) : contains_chars t s = true <-> Substring s t.
Proof. exact (contains_chars_spec t s). Qed.
Print Assumptions C38_substring.
Example C38_ex : contains_chars (lit "aababc") (lit "abc") = true /\ contains_chars (lit "aabab") (lit "abc") = false.
Proof. vm_compute. split; reflexivity. Qed.
