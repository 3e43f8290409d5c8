(** Proofs about [BorrowSets]. *)
From Verif Require Import Base Utils UtilsSpec UtilsProofs Attr ClassOps ClassProofs Dom DomSpec DomProofs Sets Mutate MutateSpec Html HtmlSpec Live LiveSpec LiveProofs
  Borrow BorrowSpec BorrowProofs BorrowSets.

Lemma each_eq (f : heap -> id -> res heap) (k : id -> B unit) l :
  (forall x h, k x no_guards h = silent (f h x)) -> forall h, each l k no_guards h = silent (rfold f l h).
Proof.
  intros Hk. induction l as [|x l IH]; intros h; cbn [each rfold]; [reflexivity|].
  rewrite bind_eq, Hk. unfold silent at 1. destruct (f h x) as [h'| |]; cbn [rbind as_b]; [apply IH | reflexivity..].
Qed.
Lemma upd_same h x m : n_meta (node_of h x) = Some m -> upd h x (set_meta (Some m)) = h.
Proof.
  intros Em. rewrite (upd_ext h x _ (fun n => n)).
  - clear. revert x. induction h as [|n h IH]; intros x; [reflexivity|]. destruct x; cbn [upd]; [reflexivity | rewrite IH; reflexivity].
  - unfold set_meta. rewrite <- Em. destruct (node_of h x); reflexivity.
Qed.
Lemma idle_eq (f : meta -> res meta) l : (forall m, f m = Ok m) -> forall h, rfold (fun h x => on_class h x true f) l h = Ok h.
Proof.
  intros Hf. induction l as [|x l IH]; intros h; cbn [rfold]; [reflexivity|]. unfold on_class at 1.
  destruct (n_meta (node_of h x)) as [m|] eqn:Em; [rewrite Hf; cbn [rbind]; rewrite (upd_same h x m Em)|]; cbn [rbind]; apply IH.
Qed.
(** One element: the value is read, then the element is changed or not. *)
Lemma class_eq (f : meta -> res meta) (k : option attr_value -> B unit) x h :
  (forall m cv, n_meta (node_of h x) = Some m -> get_attribute m ATTR_CLASS = Ok cv ->
     k cv no_guards h = silent (do m' <- f m; Ok (upd h x (set_meta (Some m'))))) ->
  (forall m, get_attribute m ATTR_CLASS = Panic -> f m = Panic) -> (forall m, get_attribute m ATTR_CLASS = OutOfFuel -> f m = OutOfFuel) ->
  (let! cv := b_get_attribute x ATTR_CLASS in k cv) no_guards h = silent (on_class h x false f).
Proof.
  intros Hk Hp Ho. rewrite bind_eq. unfold no_guards at 1. rewrite get_attribute_eq. unfold node_attribute, on_class.
  destruct (n_meta (node_of h x)) as [m|] eqn:Em; [|reflexivity].
  destruct (get_attribute m ATTR_CLASS) as [cv| |] eqn:Ea; cbn [rbind as_b].
  - exact (Hk m cv eq_refl Ea).
  - rewrite (Hp m Ea). reflexivity.
  - rewrite (Ho m Ea). reflexivity.
Qed.
Lemma set_some o x h m v : n_meta (node_of h x) = Some m ->
  b_set_attribute o x ATTR_CLASS v no_guards h = silent (do m' <- set_attribute o m ATTR_CLASS v; Ok (upd h x (set_meta (Some m')))).
Proof. intros Em. rewrite set_attribute_eq. unfold on_meta. rewrite Em. reflexivity. Qed.
Lemma kept_eq x h m : n_meta (node_of h x) = Some m -> ret tt no_guards h = silent (do m' <- Ok m; Ok (upd h x (set_meta (Some m')))).
Proof. intros Em. cbn [rbind]. rewrite (upd_same h x m Em). reflexivity. Qed.

Lemma add_class_eq o l cls h : b_add_class_all o l cls no_guards h = silent (add_class_all o h l cls).
Proof.
  unfold b_add_class_all, add_class_all. cbv zeta. destruct (get_class_list cls) as [|n0 ns] eqn:En; cbn [no_names].
  - rewrite idle_eq; [reflexivity|]. intros m. unfold add_class. rewrite En. reflexivity.
  - revert h. apply each_eq. intros x h. apply class_eq.
    + intros m cv Em Ea. unfold add_class. rewrite En, Ea. cbv zeta. cbn [rbind].
      destruct cv as [[c q |]|]; apply set_some; exact Em.
    + intros m Ea. unfold add_class. rewrite En, Ea. reflexivity.
    + intros m Ea. unfold add_class. rewrite En, Ea. reflexivity.
Qed.
Lemma remove_class_eq o l cls h : b_remove_class_all o l cls no_guards h = silent (remove_class_all o h l cls).
Proof.
  unfold b_remove_class_all, remove_class_all. cbv zeta. destruct (trim cls) as [|n0 ns] eqn:En; cbn [no_names].
  - rewrite idle_eq; [reflexivity|]. intros m. unfold remove_class. rewrite En. reflexivity.
  - revert h. apply each_eq. intros x h. apply class_eq.
    + intros m cv Em Ea. unfold remove_class. rewrite En, Ea. cbv zeta. cbn [rbind].
      destruct cv as [[c q |]|]; [| apply kept_eq; exact Em | apply kept_eq; exact Em].
      destruct (removed_positions (get_class_list c) (get_class_list (n0 :: ns))) as [|i is] eqn:Er; cbn [no_names]; [apply kept_eq; exact Em|].
      rewrite bind_eq. unfold pure. destruct (retain_by_index (get_class_list c) (i :: is)) as [kept| |]; cbn [rbind]; [|reflexivity..].
      apply set_some. exact Em.
    + intros m Ea. unfold remove_class. rewrite En, Ea. reflexivity.
    + intros m Ea. unfold remove_class. rewrite En, Ea. reflexivity.
Qed.
Lemma toggle_class_eq o l cls h : b_toggle_class_all o l cls no_guards h = silent (toggle_class_all o h l cls).
Proof.
  unfold b_toggle_class_all, toggle_class_all. cbv zeta. destruct (trim cls) as [|n0 ns] eqn:En; cbn [no_names].
  - rewrite idle_eq; [reflexivity|]. intros m. unfold toggle_class. rewrite En. reflexivity.
  - revert h. apply each_eq. intros x h. apply class_eq.
    + intros m cv Em Ea. unfold toggle_class. rewrite En, Ea. cbv zeta. cbn [rbind].
      destruct cv as [[c q |]|]; [| apply set_some; exact Em | apply set_some; exact Em].
      set (added := filter _ (get_class_list (n0 :: ns))).
      destruct (removed_positions (get_class_list c) (get_class_list (n0 :: ns))) as [|i is] eqn:Er; cbn [no_names andb].
      * rewrite bind_eq. unfold ret at 1. cbn [rbind]. destruct added; cbn [no_names]; [apply kept_eq | apply set_some]; exact Em.
      * rewrite bind_eq. unfold pure. destruct (retain_by_index (get_class_list c) (i :: is)) as [kept| |]; cbn [rbind]; [|reflexivity..].
        apply set_some. exact Em.
    + intros m Ea. unfold toggle_class. rewrite En, Ea. reflexivity.
    + intros m Ea. unfold toggle_class. rewrite En, Ea. reflexivity.
Qed.
Lemma has_class_eq l cls rs h : b_has_class_any l cls (mkGuards [] rs) h = as_b (do b <- has_class_any h l cls; Ok (h, b)).
Proof.
  unfold b_has_class_any, has_class_any. cbv zeta. destruct (trim cls) as [|n0 ns] eqn:En; cbn [no_names]; [reflexivity|].
  induction l as [|x l IH]; cbn [b_any rexists]; [reflexivity|].
  rewrite bind_eq, bind_eq, get_attribute_eq. unfold node_attribute.
  destruct (n_meta (node_of h x)) as [m|] eqn:Em; [|reflexivity].
  unfold has_class at 1. rewrite En. cbv zeta.
  destruct (get_attribute m ATTR_CLASS) as [cv| |]; cbn [rbind as_b]; [|reflexivity..].
  destruct cv as [[c q |]|]; unfold ret at 1; cbn [rbind]; [| exact IH | exact IH].
  destruct (forallb _ _); [reflexivity | exact IH].
Qed.

Lemma scall_cases o oa parse h c : (forall c', c <> SOne c') -> s_call o oa parse c no_guards h = silent (run_call o oa parse h (plain_s c)).
Proof.
  intros Hc. destruct c as [c | l n v | l n | l s | l s | l s]; cbn [s_call plain_s run_call].
  - exfalso. exact (Hc c eq_refl).
  - apply each_eq. intros x h'. apply set_attribute_eq.
  - apply each_eq. intros x h'. apply remove_attribute_eq.
  - apply add_class_eq.
  - apply remove_class_eq.
  - apply toggle_class_eq.
Qed.
Lemma scall_eq o oa parse h c : WF h -> CallOk parse h (plain_s c) -> s_call o oa parse c no_guards h = silent (run_call o oa parse h (plain_s c)).
Proof.
  intros wf H. destruct c as [c | l n v | l n | l s | l s | l s]; [|apply scall_cases; discriminate..].
  cbn [s_call plain_s] in *. destruct (call_cases o oa parse h c wf) as [(Hb & _) | (_ & E)]; [|exact E].
  exfalso. exact (covered_apart parse h c wf H Hb).
Qed.
Lemma scalls_eq o oa parse l : forall h, WF h -> CallsOk o oa parse h (map plain_s l) ->
  s_calls o oa parse l no_guards h = silent (run_calls o oa parse h (map plain_s l)).
Proof.
  induction l as [|c l IH]; intros h wf H; cbn [s_calls map]; [reflexivity|]. cbn [map CallsOk] in H. destruct H as (Hc & Hl).
  rewrite bind_eq, (scall_eq o oa parse h c wf Hc). unfold run_calls. cbn [rfold]. unfold silent at 1.
  destruct (run_call o oa parse h (plain_s c)) as [h'| |] eqn:Er; cbn [rbind as_b]; try reflexivity.
  exact (IH h' (call_wf o oa parse h (plain_s c) h' wf Hc Er) (Hl h' eq_refl)).
Qed.
