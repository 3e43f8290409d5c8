(** The engine with reports has the values of the engine without them. *)
From Verif Require Import Base Attr Dom Order Sets Mutate Engine Rules Regex Parse Traverse Query Reports.

Definition value {A} (x : wres A) : res A := do p <- x; Ok (fst p).
Lemma value_ok {A} (a : A) e : value (Ok (a, e)) = Ok a.
Proof. reflexivity. Qed.
Lemma value_silent {A} (r : res A) : value (silent r) = r.
Proof. destruct r; reflexivity. Qed.
Lemma value_say {A B} (x : wres A) (f : A -> wres B) : value (wbind x f) = do a <- value x; value (f a).
Proof. unfold value, wbind. destruct x as [[a e]| |]; cbn; [destruct (f a) as [[b e']| |]|reflexivity|reflexivity]; reflexivity. Qed.
Lemma value_do {A B} (x : res A) (f : A -> wres B) : value (rbind x f) = do a <- x; value (f a).
Proof. destruct x; reflexivity. Qed.
Lemma bind_ext {A B} (x y : res A) (f g : A -> res B) : x = y -> (forall a, f a = g a) -> rbind x f = rbind y g.
Proof. intros -> H. destruct y; cbn; auto. Qed.
Lemma value_flat {A B} (f : A -> wres (list B)) g : (forall x, value (f x) = g x) -> forall l, value (wflat f l) = rflat g l.
Proof.
  intros H. induction l as [|x l IH]; [reflexivity|]. cbn [wflat rflat]. rewrite value_say. apply bind_ext; [apply H|]. intros a.
  rewrite value_say. apply bind_ext; [exact IH|]. intros b. reflexivity.
Qed.
Lemma value_filter {A} (f : A -> wres bool) g : (forall x, value (f x) = g x) -> forall l, value (wfilter f l) = rfilter g l.
Proof.
  intros H. induction l as [|x l IH]; [reflexivity|]. cbn [wfilter rfilter]. rewrite value_say. apply bind_ext; [apply H|]. intros a.
  rewrite value_say. apply bind_ext; [exact IH|]. intros b. reflexivity.
Qed.
Lemma value_exists {A} (f : A -> wres bool) g : (forall x, value (f x) = g x) -> forall l, value (wexists f l) = rexists g l.
Proof.
  intros H. induction l as [|x l IH]; [reflexivity|]. cbn [wexists rexists]. rewrite value_say. apply bind_ext; [apply H|]. intros [|]; [reflexivity | exact IH].
Qed.
Lemma flat_ext {A B} (f g : A -> res (list B)) l : (forall x, f x = g x) -> rflat f l = rflat g l.
Proof. intros H. induction l as [|x l IH]; [reflexivity|]. cbn. rewrite H, IH. reflexivity. Qed.
Lemma filter_ext' {A} (f g : A -> res bool) l : (forall x, f x = g x) -> rfilter f l = rfilter g l.
Proof. intros H. induction l as [|x l IH]; [reflexivity|]. cbn. rewrite H, IH. reflexivity. Qed.

Definition plain_seg (s : rsegment) : segment := (fst (fst s), snd s).
Definition plain_comp (r : rcompound) : compound := map plain_seg r.
Definition plain_group (g : rgroup) : cgroup := map plain_comp g.
Definition plain_proc (p : rprocess) : process := mkProcess (option_map plain_group (r_in p)) (plain_group (r_query p)).
Definition plain_sel (s : rselector) : selector := map plain_proc s.

Section Engine.
  Variable h : heap.
  Lemma v_with m g els uc : value (with_reports m g els uc) = g els uc.
  Proof. unfold with_reports. rewrite value_do. destruct (g els uc); reflexivity. Qed.
  Lemma v_apply m els uc : value (wapply m els uc) = apply (fst m) els uc.
  Proof. unfold wapply. rewrite value_do. destruct (apply (fst m) els uc); reflexivity. Qed.
  Lemma v_dfs_all g k : (forall els uc, value (g els uc) = k els uc) -> forall f x, value (wdfs_all h f g x) = dfs_all h f k x.
  Proof.
    intros H. induction f as [|f IH]; intros x; [reflexivity|]. cbn [wdfs_all dfs_all]. destruct (nonempty (children h x)); [|reflexivity].
    rewrite value_say. apply bind_ext; [apply H|]. intros matched. revert matched. induction (children h x) as [|c cs IHc]; intros matched; [reflexivity|].
    rewrite value_say. apply bind_ext; [destruct (0 <? child_nodes_length h c); [apply IH | reflexivity]|]. intros sub.
    rewrite value_say. apply bind_ext; [apply IHc|]. intros rest. reflexivity.
  Qed.
  Lemma v_dfs m x : value (wdfs h m x) = dfs h (fst m) x.
  Proof.
    unfold wdfs, dfs. destruct (mt_one (fst m)); [apply value_silent|]. destruct (mt_spec (fst m)); [apply value_silent|].
    rewrite value_do. apply bind_ext; [reflexivity|]. intros g. apply v_dfs_all. intros els uc. apply v_with.
  Qed.
  Lemma v_rule els m c : value (wselect_by_rule h els m c) = select_by_rule h els (fst m) c.
  Proof.
    destruct c; cbn [wselect_by_rule select_by_rule].
    - rewrite value_do. apply bind_ext; [reflexivity|]. intros st. apply value_flat. apply v_dfs.
    - destruct (mt_one (fst m)); [apply value_silent|]. destruct (mt_spec (fst m)); [apply value_silent|].
      rewrite value_do. apply bind_ext; [reflexivity|]. intros g. apply value_flat. intros x. apply v_with.
    - rewrite value_do. apply bind_ext; [reflexivity|]. intros us. destruct (mt_one (fst m)); [apply value_silent|].
      rewrite value_do. apply bind_ext; [reflexivity|]. intros g. apply v_with.
    - destruct (mt_one (fst m)); [apply value_silent|]. rewrite value_do. apply bind_ext; [reflexivity|]. intros l. rewrite value_do. apply bind_ext; [reflexivity|]. intros l'.
      rewrite value_do. apply bind_ext; [reflexivity|]. intros g. apply v_with.
    - rewrite value_do. apply bind_ext; [reflexivity|]. intros us. apply value_flat. intros x. rewrite value_do. apply bind_ext; [reflexivity|]. intros ns. apply v_apply.
    - destruct (mt_one (fst m)); [apply value_silent | apply v_apply].
    - rewrite value_do. apply bind_ext; [reflexivity|]. intros us. apply value_flat. intros x. rewrite value_do. apply bind_ext; [reflexivity|]. intros ns. apply v_apply.
    - rewrite value_do. apply bind_ext; [reflexivity|]. intros ps. destruct (mt_one (fst m)); [apply value_silent | apply v_apply].
    - rewrite value_do. apply bind_ext; [reflexivity|]. intros us. apply value_flat. intros [x b]. rewrite value_do. apply bind_ext; [reflexivity|]. intros ns. apply v_apply.
    - apply v_apply.
  Qed.
  Lemma v_chain rules : forall els, value (wchain_rest h els rules) = chain_rest h els (plain_comp rules).
  Proof.
    induction rules as [|[m c] rules IH]; intros els; [reflexivity|]. cbn. destruct (nonempty els); [|reflexivity].
    rewrite value_say. apply bind_ext; [apply v_rule|]. exact IH.
  Qed.
  Lemma nth_plain {A B} (f : A -> B) l i : rnth (map f l) i = do x <- rnth l i; Ok (f x).
  Proof. unfold rnth. rewrite nth_error_map. destruct (nth_error l i); reflexivity. Qed.
  Lemma v_select els rules o : value (wselect h els rules o) = select h els (plain_comp rules) o.
  Proof.
    unfold wselect, select. rewrite value_do. unfold plain_comp. rewrite nth_plain. destruct (rnth rules 0) as [[m c1]| |]; cbn [rbind plain_seg fst snd]; [|reflexivity|reflexivity].
    rewrite value_say. apply bind_ext.
    - destruct (mt_cache (fst m) && comb_eqb (match o with Some c => c | None => c1 end) ChildrenAll); [|apply v_rule].
      rewrite value_say. apply bind_ext; [apply v_apply|]. intros l. destruct (nonempty l); [apply value_silent | reflexivity].
    - intros l. rewrite v_chain. unfold plain_comp. destruct rules; reflexivity.
  Qed.
  Lemma v_lookup look : forall els c, value (whas_lookup h els c look) = has_lookup h els c (plain_group look).
  Proof.
    induction look as [|r look IH]; intros els c; [reflexivity|]. cbn [whas_lookup has_lookup plain_group map]. rewrite value_say. apply bind_ext; [apply v_select|].
    intros l. destruct (nonempty l); [|reflexivity]. unfold plain_comp at 1. rewrite nth_plain, value_do. destruct (rnth r 0) as [[m c1]| |]; cbn [rbind plain_seg fst snd]; [|reflexivity|reflexivity].
    rewrite value_do. apply bind_ext; [reflexivity|]. intros c'. apply IH.
  Qed.
  Lemma v_has set x c look : value (whas_ele h set x c look) = has_ele h set x c (plain_group look).
  Proof.
    unfold whas_ele, has_ele. rewrite value_do. apply bind_ext; [reflexivity|]. intros rc. rewrite value_say. apply bind_ext.
    - rewrite v_lookup. unfold plain_group. rewrite map_rev. reflexivity.
    - intros [[els rc']|]; [apply value_silent | reflexivity].
  Qed.
  Lemma v_query q : forall g, value (wquery_rest h g q) = query_rest h g (plain_group q).
  Proof.
    induction q as [|r q IH]; intros g; [reflexivity|]. cbn [wquery_rest query_rest plain_group map]. rewrite value_say. apply bind_ext; [apply v_select|].
    intros l. destruct (nonempty l); [apply IH | reflexivity].
  Qed.
  Lemma v_first els p : value (wfind_first h els p) = find_first h els (plain_proc p).
  Proof.
    unfold wfind_first, find_first. cbn [plain_proc query should_in]. rewrite value_do. unfold plain_group at 1. rewrite nth_plain.
    destruct (rnth (r_query p) 0) as [fq| |]; cbn [rbind]; [|reflexivity|reflexivity]. destruct (r_in p) as [look|]; cbn [option_map]; [|apply v_select].
    rewrite value_say. apply bind_ext; [apply v_select|]. intros l. destruct (nonempty l); [|reflexivity]. unfold plain_comp. rewrite nth_plain, value_do.
    destruct (rnth fq 0) as [[m c1]| |]; cbn [rbind plain_seg fst snd]; [|reflexivity|reflexivity]. apply value_filter. intros x. apply v_has.
  Qed.
  Lemma v_process els p : value (wfind_process h els p) = find_process h els (plain_proc p).
  Proof.
    unfold wfind_process, find_process. rewrite value_say. apply bind_ext; [apply v_first|]. intros g. destruct (nonempty g); [|reflexivity].
    rewrite value_say. apply bind_ext; [|reflexivity]. rewrite v_query. cbn [plain_proc query]. destruct (r_query p); reflexivity.
  Qed.
  Lemma v_find els s : value (wfind_selector h els s) = find_selector h els (plain_sel s).
  Proof.
    unfold wfind_selector, find_selector. destruct (nonempty els); [|reflexivity]. generalize (@nil id). induction s as [|p s IH]; intros acc; [reflexivity|].
    cbn [wfold plain_sel map rfold]. rewrite value_say. apply bind_ext; [|exact IH]. rewrite value_say. apply bind_ext; [apply v_process|]. intros g. apply value_silent.
  Qed.
  Lemma v_filter_process els root p : value (wfilter_process h els root p) = filter_process h els root (plain_proc p).
  Proof.
    unfold wfilter_process, filter_process. cbn [plain_proc query]. unfold plain_group. rewrite <- map_rev. destruct (rev (r_query p)) as [|lq before]; [reflexivity|].
    cbn [map]. unfold plain_comp at 1. rewrite nth_plain, value_do. destruct (rnth lq 0) as [[m c1]| |]; cbn [rbind plain_seg fst snd]; [|reflexivity|reflexivity].
    rewrite value_say. apply bind_ext; [apply v_rule|]. intros f0. rewrite value_say. apply bind_ext; [rewrite v_chain; unfold plain_comp; destruct lq; reflexivity|].
    intros [|x l]; [reflexivity|]. destruct before as [|b before]; [reflexivity|]. cbn [map]. rewrite value_say. apply bind_ext; [|reflexivity].
    apply value_filter. intros y. rewrite v_has. unfold plain_group. rewrite map_rev. reflexivity.
  Qed.
  Lemma v_filter_loop els mode s : forall root acc, value (wfilter_loop h els mode root acc s) = filter_loop h els mode root acc (plain_sel s).
  Proof.
    induction s as [|p s IH]; intros root acc; [reflexivity|]. cbn [wfilter_loop filter_loop plain_sel map]. rewrite value_say. apply bind_ext; [apply v_filter_process|].
    intros [l root']. destruct (nonempty l); [|apply IH]. destruct mode; [reflexivity|]. rewrite value_do. apply bind_ext; [reflexivity|]. intros l'. apply IH.
  Qed.
  Lemma v_handle els s t : value (wfilter_type_handle h els s t) = filter_type_handle h els (plain_sel s) t.
  Proof. unfold wfilter_type_handle, filter_type_handle. rewrite value_say. apply bind_ext; [apply v_filter_loop|]. intros [l b]. reflexivity. Qed.
  Lemma v_filter_sel els s : value (wfilter_sel h els s) = filter_sel h els (plain_sel s).
  Proof. unfold wfilter_sel, filter_sel. destruct (nonempty els); [|reflexivity]. rewrite value_say. apply bind_ext; [apply v_handle | reflexivity]. Qed.
  Lemma v_not_sel els s : value (wnot_sel h els s) = not_sel h els (plain_sel s).
  Proof. unfold wnot_sel, not_sel. destruct (nonempty els); [|reflexivity]. rewrite value_say. apply bind_ext; [apply v_handle | reflexivity]. Qed.
  Lemma v_is_sel els s : value (wis_sel h els s) = is_sel h els (plain_sel s).
  Proof. unfold wis_sel, is_sel. destruct (nonempty els); [|reflexivity]. rewrite value_say. apply bind_ext; [apply v_handle | reflexivity]. Qed.
  Lemma v_is_all_sel els s : value (wis_all_sel h els s) = is_all_sel h els (plain_sel s).
  Proof. unfold wis_all_sel, is_all_sel. destruct (nonempty els); [|reflexivity]. rewrite value_say. apply bind_ext; [apply v_handle | reflexivity]. Qed.
  Lemma v_has_loop s : forall f x, value (whas_loop h f s x) = has_loop h f (plain_sel s) x.
  Proof.
    induction f as [|f IH]; intros x; [reflexivity|]. cbn [whas_loop has_loop]. destruct (nonempty (children h x)); [|reflexivity].
    rewrite value_say. apply bind_ext; [apply v_handle|]. intros [l [|]]; [reflexivity|]. cbn [snd]. apply value_exists. exact IH.
  Qed.
  Lemma v_has_sel els s : value (whas_sel h els s) = has_sel h els (plain_sel s).
  Proof. apply value_filter. apply v_has_loop. Qed.

  Lemma plain_from c : plain_sel (rfrom_segment (rmake_comb_all c)) = from_segment (make_comb_all c).
  Proof. reflexivity. Qed.
  Lemma plain_head_group c g : plain_group (rhead_group c g) = head_group c (plain_group g).
  Proof. destruct g as [|[|[m c0] rules] rest]; [reflexivity|reflexivity|]. cbn. destruct (comb_eqb c0 ChildrenAll); reflexivity. Qed.
  Lemma plain_head c s : plain_sel (rhead_combinator c s) = head_combinator c (plain_sel s).
  Proof.
    unfold plain_sel, rhead_combinator, head_combinator. rewrite !map_map. apply map_ext. intros p. destruct p as [[g|] q]; unfold plain_proc; cbn [r_in r_query should_in query option_map];
      rewrite plain_head_group; reflexivity.
  Qed.
  Lemma v_with_comb els s c : value (wselect_with_comb h els s c) = select_with_comb h els (option_map plain_sel s) c.
  Proof.
    destruct s as [s|]; cbn [wselect_with_comb select_with_comb option_map]; [|apply v_find]. destruct (nonempty els); [|reflexivity]. rewrite v_find, plain_head. reflexivity.
  Qed.
  Lemma v_siblings els s : value (wsiblings h els s) = el_siblings h els (option_map plain_sel s).
  Proof.
    unfold wsiblings, el_siblings. rewrite value_do. apply bind_ext; [reflexivity|]. intros us. cbv zeta. rewrite value_say. apply bind_ext.
    - apply value_flat. intros [x [|]]; rewrite v_find; destruct s as [s|]; cbn [option_map]; rewrite ?plain_head; reflexivity.
    - intros l. apply value_silent.
  Qed.
  Lemma v_split s els : value (wclosest_split h s els) =
    do a <- rfilter (fun x => do r <- filter_type_handle h [x] (plain_sel s) FIs; Ok (snd r)) els;
    do b <- rfilter (fun x => do r <- filter_type_handle h [x] (plain_sel s) FIs; Ok (negb (snd r))) els; Ok (a, b).
  Proof.
    induction els as [|x els IH]; [reflexivity|]. cbn [wclosest_split rfilter]. rewrite value_say, v_handle. destruct (filter_type_handle h [x] (plain_sel s) FIs) as [[l b]| |]; cbn [rbind snd]; [|reflexivity|reflexivity].
    rewrite value_say, IH. destruct (rfilter _ els) as [a| |]; cbn [rbind]; [|reflexivity|reflexivity]. destruct (rfilter _ els) as [a'| |]; cbn [rbind]; [|reflexivity|reflexivity].
    destruct b; reflexivity.
  Qed.
  Lemma v_closest_loop s : forall f x, value (wclosest_loop h f s x) = closest_loop h f (plain_sel s) x.
  Proof.
    induction f as [|f IH]; intros x; [reflexivity|]. cbn [wclosest_loop closest_loop]. rewrite value_say. apply bind_ext; [apply v_handle|]. intros [l [|]]; [reflexivity|].
    cbn [snd]. destruct (parent h x) as [p|]; [|reflexivity]. destruct (is_root h p); [reflexivity | apply IH].
  Qed.
  Lemma v_closest els s : value (wclosest h els s) = el_closest h els (plain_sel s).
  Proof.
    unfold wclosest, el_closest. rewrite value_say, v_split. destruct (rfilter _ els) as [a| |]; cbn [rbind]; [|reflexivity|reflexivity].
    destruct (rfilter _ els) as [b| |]; cbn [rbind fst snd]; [|reflexivity|reflexivity]. destruct (nonempty b); [|reflexivity].
    rewrite value_do. apply bind_ext; [reflexivity|]. intros us. rewrite value_say. apply bind_ext; [apply value_flat; apply v_closest_loop|]. intros ups. apply value_silent.
  Qed.
  Lemma v_until c s flt contains : forall f cur, value (wuntil_loop h f c s flt contains cur) = until_loop h f c (plain_sel s) (option_map plain_sel flt) contains cur.
  Proof.
    induction f as [|f IH]; intros cur; [reflexivity|]. cbn [wuntil_loop until_loop]. rewrite value_say. apply bind_ext; [apply v_find|]. intros [|y next]; [reflexivity|].
    rewrite value_say. apply bind_ext; [apply v_handle|]. intros [l meet]. cbn [snd]. destruct (meet && negb contains); [reflexivity|]. rewrite value_say. apply bind_ext.
    - destruct flt as [fs|]; cbn [option_map]; [|reflexivity]. rewrite value_say. apply bind_ext; [apply v_handle | reflexivity].
    - intros add_it. rewrite value_say. apply bind_ext; [destruct meet; [reflexivity | apply IH] | reflexivity].
  Qed.
  Lemma v_select_until els s flt contains c : value (wselect_until h els s flt contains c) = select_until h els (plain_sel s) (option_map plain_sel flt) contains c.
  Proof. apply value_flat. intros x. apply v_until. Qed.
End Engine.

(** * Compiling *)
Lemma plain_insert s l : plain_comp (rinsert_prio s l) = insert_prio (plain_seg s) (plain_comp l).
Proof. induction l as [|s' l IH]; [reflexivity|]. cbn. unfold rprio. destruct (mt_prio (fst (fst s')) <=? mt_prio (fst (fst s)))%N; [reflexivity|]. cbn. unfold plain_comp in IH. rewrite IH. reflexivity. Qed.
Lemma plain_sort l : plain_comp (rsort_prio l) = sort_prio (plain_comp l).
Proof. induction l as [|s l IH]; [reflexivity|]. cbn [rsort_prio fold_right plain_comp map sort_prio]. rewrite plain_insert. unfold rsort_prio in IH. rewrite IH. reflexivity. Qed.
Lemma plain_opt_comp r : plain_comp (roptimize_compound r) = optimize_compound (plain_comp r).
Proof.
  destruct r as [|[m c] [|s2 r]]; [reflexivity|reflexivity|].
  transitivity (match sort_prio (plain_comp ((m, c) :: s2 :: r)) with
                | [] => []
                | (m', c') :: rest => if comb_eqb c' c then (m', c') :: rest else (m', c) :: map (fun s => (fst s, Chain)) rest
                end); [|reflexivity].
  rewrite <- plain_sort. unfold roptimize_compound. unfold rcompound, rsegment in *.
  destruct (rsort_prio ((m, c) :: s2 :: r)) as [|[m' c'] rest]; [reflexivity|]. cbn. destruct (comb_eqb c' c); [reflexivity|]. cbn. rewrite !map_map. reflexivity.
Qed.
Lemma plain_total r : rtotal_prio r = total_prio (plain_comp r).
Proof. induction r as [|s r IH]; [reflexivity|]. cbn [rtotal_prio fold_right plain_comp map total_prio]. unfold rtotal_prio, total_prio in *. unfold plain_comp in IH. rewrite IH. reflexivity. Qed.
Lemma plain_max g : forall i best, rmax_index_from g i best = max_index_from (plain_group g) i best.
Proof. induction g as [|r g IH]; intros i best; [reflexivity|]. cbn [rmax_index_from max_index_from plain_group map]. rewrite plain_total. apply IH. Qed.
Lemma plain_opt_group b g : plain_proc (roptimize_group b g) = optimize_group b (plain_group g).
Proof.
  unfold roptimize_group, optimize_group. assert (Eg : map optimize_compound (plain_group g) = plain_group (map roptimize_compound g)).
  { unfold plain_group. rewrite !map_map. apply map_ext. intros r. symmetry. apply plain_opt_comp. }
  rewrite Eg. set (k := map roptimize_compound g). rewrite <- plain_max. cbv zeta.
  assert (Ec : match plain_group k with ((_, Children) :: _) :: _ | ((_, ChildrenAll) :: _) :: _ => true | _ => false end =
               match k with ((_, Children) :: _) :: _ | ((_, ChildrenAll) :: _) :: _ => true | _ => false end) by (destruct k as [|[|[m [| | | | | | | | |]] r] k']; reflexivity).
  rewrite Ec. destruct (b && _ && _); unfold plain_proc; cbn [r_in r_query option_map]; [|reflexivity]. unfold plain_group. rewrite firstn_map, skipn_map. reflexivity.
Qed.
Section Compile.
  Variable h : heap.
  Variable text_of : id -> str.
  Variable by_id : id -> str -> option id.
  Lemma plain_compile b gs : plain_sel (rcompile_selector h text_of by_id b gs) = compile_selector h text_of by_id b gs.
  Proof.
    unfold rcompile_selector, compile_selector, roptimize, optimize, plain_sel, rcompile_groups, compile_groups. rewrite !map_map. apply map_ext. intros g. rewrite plain_opt_group. f_equal.
    unfold plain_group, plain_comp. rewrite map_map. apply map_ext. intros cp. rewrite map_map. apply map_ext. intros [r' c]. reflexivity.
  Qed.
  Lemma v_find_ast els gs : value (wfind_ast h text_of by_id els gs) = find_ast h text_of by_id els gs.
  Proof. unfold wfind_ast, find_ast. rewrite v_find, plain_compile. reflexivity. Qed.
  Lemma v_filter_ast els gs : value (wfilter_ast h text_of by_id els gs) = filter_ast h text_of by_id els gs.
  Proof. unfold wfilter_ast, filter_ast. rewrite v_filter_sel, plain_compile. reflexivity. Qed.
  Lemma v_not_ast els gs : value (wnot_ast h text_of by_id els gs) = not_ast h text_of by_id els gs.
  Proof. unfold wnot_ast, not_ast. rewrite v_not_sel, plain_compile. reflexivity. Qed.
  Lemma v_is_ast els gs : value (wis_ast h text_of by_id els gs) = is_ast h text_of by_id els gs.
  Proof. unfold wis_ast, is_ast. rewrite v_is_sel, plain_compile. reflexivity. Qed.
  Lemma v_is_all_ast els gs : value (wis_all_ast h text_of by_id els gs) = is_all_ast h text_of by_id els gs.
  Proof. unfold wis_all_ast, is_all_ast. rewrite v_is_all_sel, plain_compile. reflexivity. Qed.
  Lemma v_has_ast els gs : value (whas_ast h text_of by_id els gs) = has_ast h text_of by_id els gs.
  Proof. unfold whas_ast, has_ast. rewrite v_has_sel, plain_compile. reflexivity. Qed.
  Lemma v_closest_ast els gs : value (wclosest_ast h text_of by_id els gs) = closest_ast h text_of by_id els gs.
  Proof. unfold wclosest_ast, closest_ast. rewrite v_closest, plain_compile. reflexivity. Qed.

  Variable wide_digit : char -> bool.
  Lemma v_parsed {A} dflt els s (run : ast -> wres A) run' : (forall gs, value (run gs) = run' gs) ->
    value (wparsed_or h wide_digit dflt els s run) = value (parsed_or wide_digit h dflt els s run').
  Proof.
    intros H. unfold wparsed_or, parsed_or. rewrite !value_do. apply bind_ext; [reflexivity|]. intros [gs|]; [|reflexivity]. rewrite H, value_do. destruct (run' gs); reflexivity.
  Qed.
  Lemma v_trigger {A} dflt els s (run : ast -> wres A) run' : (forall gs, value (run gs) = run' gs) ->
    value (wtrigger_method h wide_digit dflt els s run) = value (trigger_method wide_digit h dflt els s run').
  Proof. intros H. destruct els; [reflexivity|]. apply v_parsed. exact H. Qed.
  Lemma v_select_text us s c : value (wselect_text h text_of by_id wide_digit us s c) = value (select_text wide_digit h text_of by_id us s c).
  Proof.
    destruct s; cbn [wselect_text select_text].
    - rewrite v_with_comb, value_do. cbn [option_map]. destruct (select_with_comb h us None c); reflexivity.
    - apply v_trigger. intros gs. rewrite v_with_comb. cbn [option_map plain_text]. rewrite plain_compile. reflexivity.
  Qed.
  Lemma v_siblings_text els s : value (wsiblings_text h text_of by_id wide_digit els s) = value (siblings_text wide_digit h text_of by_id els s).
  Proof.
    unfold wsiblings_text, siblings_text. rewrite !value_do. apply bind_ext; [reflexivity|]. intros us. destruct (trim s).
    - rewrite v_siblings, value_do. cbn [option_map step_ast looked_text]. destruct (el_siblings h els None); reflexivity.
    - apply v_parsed. intros gs. rewrite v_siblings. cbn [option_map step_ast looked_text]. rewrite plain_compile. reflexivity.
  Qed.
  Lemma v_step_text c els s : value (wstep_text h text_of by_id wide_digit c els s) = value (step_text wide_digit h text_of by_id c els s).
  Proof.
    assert (G : value (do us <- uniques h c els; say r <- wselect_text h text_of by_id wide_digit us s c; silent (finish h c r)) =
                value (do us <- uniques h c els; do r <- select_text wide_digit h text_of by_id us s c; do l <- finish h c (fst r); Ok (l, snd r))).
    { rewrite !value_do. apply bind_ext; [reflexivity|]. intros us. rewrite value_say, v_select_text. destruct (select_text wide_digit h text_of by_id us s c) as [[l e]| |]; [|reflexivity|reflexivity].
      cbn [value rbind fst snd]. rewrite value_silent. destruct (finish h c l); reflexivity. }
    destruct c; first [exact G | apply v_siblings_text].
  Qed.
  Lemma v_until_text c els stop flt contains : value (wuntil_text h text_of by_id wide_digit c els stop flt contains) = value (until_text wide_digit h text_of by_id c els stop flt contains).
  Proof.
    unfold wuntil_text, until_text. rewrite !value_do. apply bind_ext; [reflexivity|]. intros us. rewrite !value_do. apply bind_ext; [reflexivity|]. intros p. rewrite value_say.
    assert (R : forall gs f, value (wselect_until h us (rcompile_selector h text_of by_id true gs) (option_map (rcompile_selector h text_of by_id true) f) contains c) =
                select_until h us (compile_selector h text_of by_id true gs) (looked_text h text_of by_id f) contains c).
    { intros gs f. rewrite v_select_until, plain_compile. f_equal. destruct f as [f|]; [|reflexivity]. cbn. rewrite plain_compile. reflexivity. }
    match goal with |- rbind (value ?a) _ = value (rbind ?b _) => assert (E : value a = value b) end.
    { destruct p as [gs|]; [|reflexivity]. cbv zeta. destruct flt.
      - rewrite R, value_do. destruct (select_until _ _ _ _ _ _); reflexivity.
      - apply v_parsed. intros f. apply R. }
    rewrite E. match goal with |- rbind (value ?b) _ = _ => destruct b as [[l e]| |] end; [|reflexivity|reflexivity]. cbn [value rbind fst snd]. rewrite value_silent. destruct (until_finish h c l); reflexivity.
  Qed.
End Compile.
