(** Property C63: what the error of a rejected selector text says. *)
From Verif Require Import Base Utils Engine Rules Regex RegexProofs Parse ParseSpec PatProofs ParseProofs ParseTotal ParseErr ParseErrProofs.

Section Err.
  Variable wide_digit : char -> bool.
  Notation from_err := (from_err wide_digit).
  Notation first_rule := (first_rule wide_digit).

  (** The parser with error values accepts, rejects and panics like the one of the other properties. *)
  Theorem C63_same_outcome s : from_str wide_digit s =
    match from_err s with Ok (inl gs) => Ok (Some gs) | Ok (inr _) => Ok None | Panic => Panic | OutOfFuel => OutOfFuel end.
  Proof.
    unfold from_str, ParseErr.from_err. destruct s as [|x s]; [reflexivity|]. rewrite (forget_loop wide_digit _ _ 0). unfold forget.
    destruct (loop_err wide_digit (S (length (x :: s))) (x :: s) 0 [[]] ChildrenAll PBegin PBegin) as [[gs|e]| |]; reflexivity.
  Qed.

  (** Every error of a text, in terms of the text ([Report]): a combinator after a combinator, with its place; the end of the
      comma at the start; a text that no combinator and no complete rule begins; nothing after the last combinator, or
      nothing at all; or the place inside a nested text where its end is missing. *)
  Theorem C63_report s e : from_err s = Ok (inr e) -> Report wide_digit s e.
  Proof. apply from_report. Qed.

  (** The index of "Wrong combinator" is where the combinator quoted begins. *)
  Theorem C63_combinator s op i : from_err s = Ok (inr (EComb op i)) -> firstn (length op) (skipn i s) = op /\ op <> [] /\ i <> 0.
  Proof.
    intros H. destruct (C63_report _ _ H) as (a & o & w & v & -> & <- & -> & _ & _ & a' & o' & w' & -> & _). rewrite skipn_pre, firstn_app, Nat.sub_diag, firstn_all. cbn [firstn].
    rewrite app_nil_r. split; [reflexivity|]. split; [discriminate|]. rewrite app_length. cbn. lia.
  Qed.
  Lemma queues_of (s w : str) c : re_exec re_splitter s = Some (w, c) -> 0 < length w ->
    exec_queues wide_digit splitter s = Ok (Some ([mkMatched w 0 c None None], length w, 1)).
  Proof.
    intros H L. unfold exec_queues, splitter. cbn [exec Parse.pat_matched]. rewrite H. cbn [rbind m_chars m_ignore]. rewrite !Nat.add_0_r.
    destruct (Nat.ltb_spec 0 (length w)) as [_ | X]; [reflexivity | lia].
  Qed.
  Lemma begin_split (s w : str) c : re_exec re_splitter s = Some (w, c) -> 0 < length w -> s <> [] -> from_err s =
    if str_eqb (trim w) [44%N] then Ok (inr (EEmpty (length w)))
    else do cb <- comb_from (trim w); loop_err wide_digit (length s) (skipn (length w) s) (length w) [[]] cb PSplitter (if nonempty (trim w) then PSplitter else PBegin).
  Proof.
    intros H L Hn. pose proof (queues_of _ _ _ H L) as Eq. unfold ParseErr.from_err. destruct s as [|x s]; [congruence|]. cbn [ParseErr.loop_err]. rewrite Eq. reflexivity.
  Qed.
  (** "Wrong empty selector before ','": for the texts that start with a comma after blanks, and no others; the index is
      the end of the comma and its blanks. *)
  Theorem C63_empty_iff s i : from_err s = Ok (inr (EEmpty i)) <->
    exists w1 w2 v, s = w1 ++ 44%N :: w2 ++ v /\ i = length w1 + 1 + length w2 /\ Blank w1 /\ Blank w2 /\ heads is_unicode_ws v = false.
  Proof.
    split.
    - intros H. destruct (C63_report _ _ H) as (w1 & w2 & v & -> & <- & H1 & H2 & Hv). exists w1, w2, v. rewrite <- app_assoc. split; [reflexivity|]. split; [rewrite app_length; cbn; slia|].
      split; [exact H1|]. split; assumption.
    - intros (w1 & w2 & v & -> & -> & H1 & H2 & Hv). change (w1 ++ 44%N :: w2 ++ v) with (w1 ++ (44%N :: w2) ++ v). rewrite app_assoc.
      destruct (splitter_sign w1 44%N w2 v H1 eq_refl H2 Hv) as (c & Ec). set (w := w1 ++ 44%N :: w2) in *.
      assert (Hw : trim w = [44%N]) by (apply trim_sign; [exact H1 | reflexivity | exact H2]).
      assert (Lw : length w = length w1 + 1 + length w2) by (unfold w; rewrite app_length; cbn; slia).
      assert (L : 0 < length w) by slia. assert (Hn : w ++ v <> []) by (intros X; apply app_eq_nil in X; destruct X as [X _]; rewrite X in L; cbn in L; lia).
      etransitivity; [exact (begin_split _ w c Ec L Hn)|]. rewrite Hw. change (str_eqb [44%N] [44%N]) with true. cbv iota. do 3 f_equal. exact Lw.
  Qed.
  (** "Unrecognized selector": the text quoted is the rest of the text given; the index says where it begins exactly if no
      rule begins there, and lies behind its beginning otherwise. *)
  Theorem C63_unrecognized s t i : from_err s = Ok (inr (EUnknown t i)) ->
    (exists a, s = a ++ t) /\ t <> [] /\ i <= length s /\ (skipn i s = t <-> first_rule rules t = Ok None) /\ (first_rule rules t <> Ok None -> length s - length t < i).
  Proof.
    intros H. destruct (C63_report _ _ H) as (a & -> & Hn & [L1 L2] & _ & _ & Hi). split; [exists a; reflexivity|]. split; [exact Hn|]. split; [exact L2|].
    rewrite app_length in *. split.
    - rewrite <- Hi. split.
      + intros E. apply (f_equal (@length _)) in E. rewrite skipn_length, app_length in E. assert (length t <> 0) by (destruct t; [congruence | discriminate]). slia.
      + intros ->. apply skipn_pre.
    - rewrite <- Hi. intros N. slia.
  Qed.
  (** "Wrong selector rule at last": the text is blank or its last character that is not blank is a combinator. *)
  Theorem C63_last s : from_err s = Ok (inr ELast) -> Blank s \/ exists a o w, s = a ++ o :: w /\ In o (lit ">,~+") /\ Blank w.
  Proof.
    intros H. destruct (C63_report _ _ H) as [Hb | (a & o & w & E & Ho & Hw)]; [left; exact Hb|]. right. exists a, o, w. split; [exact E|]. split; [exact (existsb_char o _ Ho) | exact Hw].
  Qed.
  (** Blank texts are rejected so. *)
  Theorem C63_blank s : Blank s -> s <> [] -> from_err s = Ok (inr ELast).
  Proof.
    intros Hb Hn. destruct (splitter_blank s [] Hb Hn eq_refl eq_refl) as (c & Ec). rewrite app_nil_r in Ec.
    assert (L : 0 < length s) by (destruct s; [congruence | cbn; lia]). rewrite (begin_split _ _ c Ec L Hn), (trim_blank s Hb). cbn [comb_from rbind nonempty]. rewrite skipn_all.
    destruct s; [congruence | reflexivity].
  Qed.
  (** "Nested selector parse error": the text quoted is never the one given but a proper rest of it, and the index is
      always less than the place where that rest begins. *)
  Theorem C63_nested s c i : from_err s = Ok (inr (ENested c i)) -> (exists a, a <> [] /\ s = a ++ c) /\ i < length s - length c.
  Proof.
    intros H. destruct (C63_report _ _ H) as (a & b & -> & Ha & <- & _). assert (length a <> 0) by (destruct a; [congruence | discriminate]).
    split; [exists (a ++ b); split; [destruct a; [congruence | discriminate] | apply app_assoc]|]. rewrite !app_length. slia.
  Qed.
End Err.

(** ** Examples *)
Definition no_wide (_ : char) : bool := false.
(** One text for every kind of error. *)
Example C63_ex :
  from_err no_wide (lit "p > ~ b") = Ok (inr (EComb (lit "~ ") 4)) /\
  from_err no_wide (lit " , b") = Ok (inr (EEmpty 3)) /\
  from_err no_wide (lit "p !x") = Ok (inr (EUnknown (lit "!x") 2)) /\
  from_err no_wide (lit "p:nth-child(x)") = Ok (inr (EUnknown (lit ":nth-child(x)") 12)) /\
  from_err no_wide (lit "p, b +") = Ok (inr ELast) /\
  from_err no_wide (lit "  ") = Ok (inr ELast) /\
  from_err no_wide (lit "p:not(b !)") = Ok (inr (ENested (lit "!)") 2)) /\
  from_err no_wide (lit "p:not(b:has(c !))") = Ok (inr (ENested (lit "!))") 2)) /\
  exists gs, from_err no_wide (lit "p > b") = Ok (inl gs).
Proof. repeat (split; [vm_compute; reflexivity|]). eexists. vm_compute. reflexivity. Qed.
Example C63_empty_ex : exists w1 w2 v, lit " , b" = w1 ++ 44%N :: w2 ++ v /\ 3 = length w1 + 1 + length w2 /\ Blank w1 /\ Blank w2 /\ heads is_unicode_ws v = false.
Proof. exists (lit " "), (lit " "), (lit "b"). repeat split; repeat constructor. Qed.
Example C63_blank_ex : Blank (lit "  ") /\ lit "  " <> [].
Proof. split; [repeat constructor | discriminate]. Qed.

(** An index need not be where the text quoted begins. *)
Theorem C63_index_refuted : exists wide_digit s t i, from_err wide_digit s = Ok (inr (EUnknown t i)) /\ skipn i s <> t.
Proof. exists no_wide, (lit "p:nth-child(x)"), (lit ":nth-child(x)"), 12. split; [vm_compute; reflexivity | discriminate]. Qed.
(** An error need not name the text given, and its index need not be a place in that text where anything is wrong: here
    index 2 of [p:not(b !)] is the [n] of [not]. *)
Theorem C63_context_refuted : exists wide_digit s c i, from_err wide_digit s = Ok (inr (ENested c i)) /\ c <> s /\ firstn (length c) (skipn i s) <> c.
Proof. exists no_wide, (lit "p:not(b !)"), (lit "!)"), 2. split; [vm_compute; reflexivity | split; discriminate]. Qed.

Print Assumptions C63_same_outcome.
Print Assumptions C63_report.
Print Assumptions C63_combinator.
Print Assumptions C63_empty_iff.
Print Assumptions C63_unrecognized.
Print Assumptions C63_last.
Print Assumptions C63_blank.
Print Assumptions C63_nested.
Print Assumptions C63_index_refuted.
Print Assumptions C63_context_refuted.
