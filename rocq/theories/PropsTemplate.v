(** Rule templates (C52) and the library's rule table (C53). *)
From Verif Require Import Base Utils Engine Regex Parse Template TemplateSpec TemplateProofs RegexText RegexSame TemplateRules.

(** C52.  [Rule::get_queues] accepts exactly the renderings of runs of items, and gives the queue of the items; on every other
    text it panics. *)
Theorem C52_template t q : get_queues t = Ok q <-> exists l, Forall ItemOk l /\ t = render l /\ q = queue_of [] l.
Proof.
  split; [apply template_sound|]. intros (l & Hl & -> & ->). apply template_complete. exact Hl.
Qed.
Theorem C52_template_panic t : get_queues t = Panic <-> ~ exists l, Forall ItemOk l /\ t = render l.
Proof.
  split.
  - intros H (l & Hl & ->). rewrite template_complete in H by exact Hl. discriminate.
  - intros H. destruct (get_queues t) as [q| |] eqn:E; [|reflexivity|destruct (get_queues_no_fuel _ E)].
    exfalso. apply template_sound in E as (l & Hl & -> & _). apply H. exists l. auto.
Qed.
(** The queue depends on the text only: two ways of reading a text give the same queue. *)
Theorem C52_template_unique l m : Forall ItemOk l -> Forall ItemOk m -> render l = render m -> queue_of [] l = queue_of [] m.
Proof.
  intros Hl Hm E. apply template_complete in Hl, Hm. rewrite E in Hl. rewrite Hl in Hm. inversion Hm. reflexivity.
Qed.

Definition raw_ok_example : RawOk 1 (lit "a#b").
Proof.
  constructor.
  - exists 97%N, (lit "#b"). repeat split; discriminate.
  - intros a b E. destruct a as [|a0 [|a1 [|a2 [|a3 a]]]]; cbn in E; inversion E. destruct a; discriminate.
  - intros [|[|[|i]]]; cbn; intros H; try discriminate; [lia|]. destruct i; discriminate.
  - cbn. lia.
Qed.
Example C52_ex_items : let l := [TLit 46%N; TLit LBRACE; TPat PnIdentity; TRaw 1 (lit "a#b") (lit " "); TLit RBRACE; TLit 41%N] in
  Forall ItemOk l /\ render l = lit ".{{{identity}{regexp##a#b## }}})" /\
  get_queues (lit ".{{{identity}{regexp##a#b## }}})") = Ok [QVec (lit ".{"); QNamed PnIdentity []; QNamed PnRegexp (lit "a#b"); QVec (lit "})")].
Proof.
  cbv zeta. split; [|split; reflexivity].
  repeat first [exact raw_ok_example | constructor].
Qed.
Example C52_ex_panic : get_queues (lit "a}b") = Panic /\ get_queues (lit "{identity") = Panic /\ get_queues (lit "{identity#x#}") = Panic /\
  get_queues (lit "{no_such}") = Panic /\ get_queues (lit "{regexp s}") = Panic /\ get_queues (lit "{regexp#a#x}") = Panic.
Proof. repeat split; reflexivity. Qed.

(** A raw text that is shorter than its hashes less one, or that has a hash early on, makes the scanner panic although the text
    is well delimited. *)
Theorem C52_raw_short_refuted : exists k raw, (exists c r, raw = c :: r /\ c <> HASH /\ c <> RBRACE) /\ NoRun (S k) (raw ++ repeat HASH k) /\
  get_queues (written (TRaw k raw [])) = Panic.
Proof.
  exists 2, (lit "a"). split; [exists 97%N, []; repeat split; discriminate|]. split; [|reflexivity].
  intros a b E. destruct a as [|a0 [|a1 [|a2 a]]]; cbn in E; inversion E. destruct a; discriminate.
Qed.

(** C53.  The table of rules used by the parser is what the library's templates stand for. *)
Definition pat_alike (w : char -> bool) (p q : pat) : Prop := forall s, pat_matched w p s = pat_matched w q s.
Lemma regex_alike w a b : re_same a b -> pat_alike w (PRegex a) (PRegex b).
Proof. intros H s. cbn [pat_matched]. rewrite (re_exec_same a b s H). reflexivity. Qed.
Section Texts.
  Variable w : char -> bool.
  Let d := is_d w.
  Let cls (neg : bool) (l : list citem) : re := RChr (class_has d neg l).
  Let chars (s : str) : list citem := map CChar s.
  Lemma chars_same s : re_same (cls false (chars s)) (one_of s).
  Proof.
    constructor. intros c. unfold class_has, chars. rewrite xorb_false_l. induction s as [|x s IH]; [reflexivity|].
    cbn [map existsb item_has]. rewrite IH. reflexivity.
  Qed.
  Lemma none_same pre s : re_same (cls true (chars pre ++ CSpace :: chars s)) (none_of (pre ++ s)).
  Proof.
    assert (G : forall l c, existsb (item_has d c) (chars l) = existsb (char_eqb c) l).
    { intros l c. unfold chars. induction l as [|x l IH]; [reflexivity|]. cbn [map existsb item_has]. rewrite IH. reflexivity. }
    constructor. intros c. unfold class_has. rewrite !existsb_app. cbn [existsb item_has]. rewrite !G.
    destruct (is_unicode_ws c), (existsb (char_eqb c) pre), (existsb (char_eqb c) s); reflexivity.
  Qed.
  Lemma same_refl a : re_same a a.
  Proof. induction a; constructor; auto. Qed.

  Lemma splitter_same : exists r, regex_of d (lit "(\s*[>,~+]\s*|\s+)") = Some r /\ re_same r re_splitter.
  Proof.
    exists (RGrp 1 (RAlt (rseqs [RStar true re_s; cls false (chars (lit ">,~+")); RStar true re_s]) (RPlus re_s))). split.
    - vm_compute. reflexivity.
    - unfold re_splitter. cbn [rseqs]. repeat first [apply same_refl | apply chars_same | constructor].
  Qed.
  Lemma attr_same : exists r, regex_of d (lit "(?:([*^$~|!]?)=\s*(?:'((?:\\?+.)*?)'|([^\s\]'""<>/=`]+)|""((?:\\?+.)*?)""))?") = Some r /\ re_same r re_attr.
  Proof.
    exists (ROpt (rseqs [RGrp 1 (ROpt (cls false (chars (lit "*^$~|!")))); chr 61%N; RStar true re_s;
                 ralts [rseqs [chr 39%N; RGrp 2 re_quoted; chr 39%N];
                        RGrp 3 (RPlus (cls true (chars [] ++ CSpace :: chars (93 :: 39 :: 34 :: lit "<>/=`")%N)));
                        rseqs [chr 34%N; RGrp 4 re_quoted; chr 34%N]]])). split.
    - vm_compute. reflexivity.
    - unfold re_attr, ROpt, RPlus. cbn [rseqs ralts]. repeat first [apply same_refl | apply chars_same | apply none_same | constructor].
  Qed.
  Lemma contains_same : exists r, regex_of d (lit "(?:'((?:\\?+.)*?)'|""((?:\\?+.)*?)""|([^)\s'""<>/=`]*))") = Some r /\ re_same r re_contains.
  Proof.
    exists (ralts [rseqs [chr 39%N; RGrp 1 re_quoted; chr 39%N];
           rseqs [chr 34%N; RGrp 2 re_quoted; chr 34%N];
           RGrp 3 (RStar true (cls true (chars [41%N] ++ CSpace :: chars (39 :: 34 :: lit "<>/=`")%N)))]). split.
    - vm_compute. reflexivity.
    - unfold re_contains, ROpt, RPlus. cbn [rseqs ralts]. repeat first [apply same_refl | apply chars_same | apply (none_same [41%N]) | constructor].
  Qed.
  Let num : re := RAlt (RSeq (cls false [CRange 49 57]%N) (RPlus (RChr d))) (cls false [CRange 48 57]%N).
  Lemma num_same : re_same num (re_num w).
  Proof.
    unfold num, re_num, RPlus, d. repeat first [apply same_refl | constructor]; intros c; unfold class_has; cbn [existsb item_has];
      rewrite orb_false_r, xorb_false_l; reflexivity.
  Qed.
  Lemma sign_same : re_same (cls false (chars [45; 43]%N)) re_sign.
  Proof.
    constructor. intros c. unfold class_has, chars. cbn [map existsb item_has]. rewrite xorb_false_l.
    destruct (char_eqb c 45%N), (char_eqb c 43%N); reflexivity.
  Qed.
  Lemma nth_same : exists r, regex_of d nth_text = Some r /\ re_same r (re_nth w).
  Proof.
    exists (RAlt
      (rseqs [ROpt (RGrp 1 (cls false (chars [45; 43]%N))); ROpt (RGrp 2 num); chr 110%N;
              ROpt (rseqs [RStar true re_s; RGrp 3 (cls false (chars [43; 45]%N)); RStar true re_s; RGrp 4 num])])
      (RSeq (ROpt (RGrp 5 (cls false (chars [45; 43]%N)))) (RGrp 6 num))). split.
    - vm_compute. reflexivity.
    - unfold re_nth, ROpt. cbn [rseqs].
      repeat first [apply num_same | apply sign_same | apply (chars_same [43; 45]%N) | apply same_refl | constructor].
  Qed.
End Texts.

(** Each row of the table: the template is accepted and its patterns match exactly what the patterns of the table match, with the
    same captures. *)
Theorem C53_rules w : Forall2 (fun kt kq => fst kt = fst kq /\
  exists qs, template_pats w (snd kt) = Some qs /\ Forall2 (pat_alike w) qs (snd kq)) lib_templates rules.
Proof.
  assert (R : forall p, pat_alike w p p) by (intros p s; reflexivity).
  destruct (attr_same w) as (ra & Ea & Sa). destruct (contains_same w) as (rc & Ec & Sc).
  unfold lib_templates, rules.
  repeat (apply Forall2_cons; [split; [reflexivity|]; cbn [snd]|]); [..|apply Forall2_nil].
  4: { exists [PVec (lit "["); PSpaces; PAttrKey; PSpaces; PRegex ra; PSpaces; PChar 93%N]. split.
       - unfold template_pats.
         replace (get_queues _) with (Ok [QVec (lit "["); QNamed PnSpaces []; QNamed PnAttrKey []; QNamed PnSpaces [];
           QNamed PnRegexp (lit "(?:([*^$~|!]?)=\s*(?:'((?:\\?+.)*?)'|([^\s\]'""<>/=`]+)|""((?:\\?+.)*?)""))?"); QNamed PnSpaces []; QChar 93%N]) by (vm_compute; reflexivity).
         cbn [items_pats item_pat]. rewrite Ea. reflexivity.
       - repeat first [apply R | apply (regex_alike w _ _ Sa) | constructor]. }
  17: { exists [PVec (lit ":contains("); PSpaces; PRegex rc; PSpaces; rparen]. split.
       - unfold template_pats.
         replace (get_queues _) with (Ok [QVec (lit ":contains("); QNamed PnSpaces [];
           QNamed PnRegexp (lit "(?:'((?:\\?+.)*?)'|""((?:\\?+.)*?)""|([^)\s'""<>/=`]*))"); QNamed PnSpaces []; QChar 41%N]) by (vm_compute; reflexivity).
         cbn [items_pats item_pat]. rewrite Ec. reflexivity.
       - repeat first [apply R | apply (regex_alike w _ _ Sc) | constructor]. }
  all: match goal with |- exists qs, _ /\ Forall2 _ qs ?l => exists l; split; [vm_compute; reflexivity|repeat first [apply R | constructor]] end.
Qed.
Theorem C53_splitter w : exists qs, template_pats w splitter_template = Some qs /\ Forall2 (pat_alike w) qs splitter.
Proof.
  destruct (splitter_same w) as (r & E & S0). exists [PRegex r]. split.
  - unfold template_pats. replace (get_queues _) with (Ok [QNamed PnRegexp (lit "(\s*[>,~+]\s*|\s+)")]) by (vm_compute; reflexivity).
    cbn [items_pats item_pat]. rewrite E. reflexivity.
  - repeat constructor. apply (regex_alike w _ _ S0).
Qed.
Theorem C53_nth w : exists r, regex_of (is_d w) nth_text = Some r /\ forall s, re_exec r s = re_exec (re_nth w) s.
Proof. destruct (nth_same w) as (r & E & S0). exists r. split; [exact E|]. intros s. apply re_exec_same. exact S0. Qed.
Example C53_ex_row : nth_error lib_templates 3 = Some (KAttr, lit "[{spaces}{attr_key}{spaces}{regexp#(?:([*^$~|!]?)=\s*(?:'((?:\\?+.)*?)'|([^\s\]'""<>/=`]+)|""((?:\\?+.)*?)""))?#}{spaces}]") /\
  length lib_templates = 24 /\
  (forall w, match template_pats w (lit "[{spaces}{attr_key}{spaces}{regexp#(?:([*^$~|!]?)=\s*(?:'((?:\\?+.)*?)'|([^\s\]'""<>/=`]+)|""((?:\\?+.)*?)""))?#}{spaces}]") with
   | Some qs => exec_queues w qs (lit "[ a ^= 'x y' ]z")
   | None => Panic
   end = Ok (Some ([plain (lit "["); plain (lit " "); plain (lit "a"); plain (lit " ");
     mkMatched (lit "^= 'x y'") 0 [(2, lit "x y"); (1, lit "^")] None None; plain (lit " "); plain (lit "]")], 14, 7))).
Proof. split; [reflexivity|]. split; [reflexivity|]. intros w. vm_compute. reflexivity. Qed.

Print Assumptions C52_template.
Print Assumptions C52_template_panic.
Print Assumptions C53_rules.
Print Assumptions C53_splitter.
Print Assumptions C53_nth.
(** Groups are numbered by their opening parentheses, also one inside another. *)
Example C53_ex_groups : match regex_of (is_d (fun _ => false)) (lit "((a)(?:b))(c)") with
  | Some r => match re_exec r (lit "abcd") with Some (m, c) => m = lit "abc" /\ cap c 1 = Some (lit "ab") /\ cap c 2 = Some (lit "a") /\ cap c 3 = Some (lit "c") | None => False end
  | None => False end.
Proof. repeat split. Qed.
