(** Property theorems: which texts the parser accepts (C65). *)
From Verif Require Import Base CharSpec Utils CharProofs Nth NthSpec Engine Rules Regex RegexProofs Parse ParseSpec TokenProofs ParseProofs LooseSpec TokenSound ParseOnly PropsParse.

(** Every text that is accepted is a text of the loose grammar, and it denotes the groups of the result.  [Escapes]: a
    backslash stands in front of a character that is no quote, closing parenthesis or ASCII white space. *)
Theorem C65_accepted (wide_digit : char -> bool) s gs : Escapes s -> from_str wide_digit s = Ok (Some gs) -> (s = [] /\ gs = []) \/ LWhole LPart gs s.
Proof.
  intros He H. destruct s as [|c s]; [left; cbn in H; injection H as <-; split; reflexivity | right]. apply (from_str_only wide_digit); [exact He | discriminate | exact H].
Qed.
Print Assumptions C65_accepted.
(** Every text of the loose grammar, with nested texts of the grammar of ParseSpec.v, is accepted. *)
Theorem C65_accepts (wide_digit : char -> bool) n s gs : LWhole (RText (inner n)) gs s -> from_str wide_digit s = Ok (Some gs).
Proof. apply from_str_loose. Qed.
Print Assumptions C65_accepts.
(** For results without nested pseudo classes both directions meet: the parser accepts exactly the loose grammar. *)
Theorem C65_exact (wide_digit : char -> bool) s gs : Escapes s -> s <> [] -> Forall Simple (all_rules gs) -> (from_str wide_digit s = Ok (Some gs) <-> LWhole PartText gs s).
Proof.
  intros He Hs Hg. split; intros H.
  - exact (whole_change LPart PartText Simple simple_part gs s (from_str_only wide_digit s gs He Hs H) Hg).
  - exact (from_str_loose wide_digit 0 gs s H).
Qed.
Print Assumptions C65_exact.
(** The loose grammar is unambiguous. *)
Theorem C65_unambiguous n m s gs gs' : LWhole (RText (inner n)) gs s -> LWhole (RText (inner m)) gs' s -> gs = gs'.
Proof. intros H H'. pose proof (from_str_loose (fun _ => false) n gs s H) as E. rewrite (from_str_loose (fun _ => false) m gs' s H') in E. congruence. Qed.
Print Assumptions C65_unambiguous.

Lemma escapes_free (s : str) : ~ In 92%N s -> Escapes s.
Proof. intros H u v ->. elim H. apply in_or_app. right. left. reflexivity. Qed.
Lemma ex_loose : LWhole PartText [[[(RAttr (lit "a") None, ChildrenAll); (RName (lit "b"), Chain); (RAll, Chain)]]] (lit " [a]b* ").
Proof.
  change (lit " [a]b* ") with (lit " " ++ (lit "[a]" ++ lit "b" ++ lit "*" ++ []) ++ lit " ").
  apply (LW _ ChildrenAll); [apply LE_blank; repeat constructor | | repeat constructor].
  change (lit "[a]" ++ lit "b" ++ lit "*" ++ []) with (((lit "[a]" ++ lit "b" ++ lit "*" ++ []) ++ []) ++ []). apply LB; [|constructor]. apply LG; [|constructor].
  apply LCP.
  - apply (RT_attr _ [] (lit "a") [] None [] []); [constructor | | constructor | constructor | constructor]. split; [discriminate|]. constructor; [apply key_char_ok; reflexivity | constructor].
  - apply LC_cons; [|discriminate|].
    + apply RT_name. apply id_text; [right; left; reflexivity | constructor].
    + apply LC_cons; [apply RT_all | reflexivity | constructor].
Qed.
Example C65_ex : Escapes (lit " [a]b* ") /\ Forall Simple (all_rules [[[(RAttr (lit "a") None, ChildrenAll); (RName (lit "b"), Chain); (RAll, Chain)]]]) /\
  LWhole PartText [[[(RAttr (lit "a") None, ChildrenAll); (RName (lit "b"), Chain); (RAll, Chain)]]] (lit " [a]b* ") /\
  from_str ascii_only (lit " [a]b* ") = Ok (Some [[[(RAttr (lit "a") None, ChildrenAll); (RName (lit "b"), Chain); (RAll, Chain)]]]).
Proof.
  split; [apply escapes_free; cbn; intros H; repeat (destruct H as [H | H]; [discriminate|]); exact H|]. split; [repeat constructor|]. split; [exact ex_loose | vm_compute; reflexivity].
Qed.
(** A name directly behind another part is accepted, although a selector has a name only in front. *)
Theorem C65_refuted : exists s gs, (forall wide_digit, from_str wide_digit s = Ok (Some gs)) /\ Escapes s /\ s <> [] /\ forall n gs', ~ Reads n gs' s.
Proof.
  exists (lit " [a]b* "), [[[(RAttr (lit "a") None, ChildrenAll); (RName (lit "b"), Chain); (RAll, Chain)]]]. split; [intros w; exact (C65_accepts w 0 _ _ ex_loose)|]. split; [apply C65_ex|]. split; [discriminate|].
  intros n gs' H. pose proof (from_str_reads ascii_only n gs' _ H) as E. rewrite (C65_accepts ascii_only 0 _ _ ex_loose) in E. injection E as <-.
  inversion H as [c l gs t w Hl Hb Hw E1 E2]; subst. inversion Hb as [g u ms v Hg Hm]; subst. inversion Hg as [cp x fs y Hc Hf]; subst. inversion Hc as [r z rs o Hr Hch]; subst.
  inversion Hch as [|r2 t2 rs2 u2 Hr2 Hh _]; subst. discriminate.
Qed.
Print Assumptions C65_refuted.
