(** * PropLogging: property C80 (what optimize prints, and the configuration of the optimizer) *)
From Coq Require Import Permutation.
From Verif Require Import Base Pulp Params Optimizer Types Terms Accounting Assets EVs Site Constraints Objectives Extract Pipeline Logging Spec SpecReport SpecRun SpecNames SpecCost SpecTotals Emit Prim Lucky SampleSite SampleResults.
Open Scope string_scope.

(** ** Printing never changes the answer *)
Lemma snd_lbind {A B} (m : logged A) (f : A -> logged B) : snd (lbind m f) = rbind (snd m) (fun a => snd (f a)).
Proof. unfold lbind, rbind. destruct (snd m) as [a|e]; [destruct (f a)|]; reflexivity. Qed.
Lemma fst_lbind {A B} (m : logged A) (f : A -> logged B) : fst (lbind m f) = (fst m ++ match snd m with Ok a => fst (f a) | Err _ => [] end)%list.
Proof. unfold lbind. destruct (snd m) as [a|e]; [destruct (f a); reflexivity|cbn [fst]; now rewrite app_nil_r]. Qed.
Ltac ss := cbn [log lret snd rbind]; repeat (rewrite snd_lbind; cbn [log lret snd rbind]).
Ltac ff := cbn [log lret fst snd app]; repeat (rewrite fst_lbind; cbn [log lret fst snd app]).
Lemma objective_result obj iv d o : snd (get_objective_logged obj iv d o) = get_objective obj iv d o.
Proof.
  destruct obj as [s|terms]; [reflexivity|]. unfold get_objective_logged, get_objective, lift, bind, ret. rewrite snd_lbind. cbn [lret snd rbind].
  destruct (add_simple_terms iv d terms) as [simple|e]; [|reflexivity]. ss. destruct (add_two_variable_terms iv d terms o) as [[two o2]|e]; [|reflexivity]. cbn [rbind]. ss. destruct (add_many_variables_terms iv terms o2) as [[many o3]|e]; reflexivity.
Qed.
Lemma build_result v c assets cons obj fl o : snd (build_logged v c assets cons obj fl o) = build_program c assets cons obj fl o.
Proof.
  unfold build_logged, build_program, bind, ret. rewrite snd_lbind. cbn [lret snd]. unfold massert, ret, raise.
  destruct (nodup_str (map asset_name assets)) eqn:ND; cbn [rbind].
  2:{ unfold build_base, bind, massert, raise. now rewrite ND. }
  ss. destruct (build_base c assets fl o) as [[iv o1]|e]; [|reflexivity]. cbn [rbind]. ss. destruct (forM_ cons _ o1) as [[u o2]|e]; [|reflexivity]. cbn [rbind snd]. rewrite !snd_lbind, objective_result.
  destruct (get_objective obj iv (sc_idata c) o2) as [[e o3]|e]; reflexivity.
Qed.
Lemma solve_result v slv b o : snd (solve_logged v slv b o) = solve slv b o.
Proof.
  unfold solve_logged, solve. ss. destruct (assert_no_duplicate_variables o); [|reflexivity]. cbn [rbind].
  ss. reflexivity.
Qed.
Lemma check_result r cols m chk : (forall e, rmap (get_col r) cols = Err e -> chk = Err e) -> snd (check_logged r cols m chk) = chk.
Proof.
  intros H. unfold check_logged. rewrite !snd_lbind. cbn [lret snd]. destruct (rmap (get_col r) cols) as [l|e]; cbn [rbind]; [|now rewrite (H e)].
  ss. reflexivity.
Qed.
Lemma electricity_first r e : rmap (get_col r) electricity_columns = Err e -> check_electricity_balance r = Err e.
Proof.
  unfold electricity_columns, check_electricity_balance. cbn [rmap]. intros H.
  repeat (match goal with |- context [get_col r ?k] => destruct (get_col r k) as [?|?]; cbn [rbind] in *; [|injection H as ->; reflexivity] end). discriminate H.
Qed.
Lemma heat_first r g l e : rmap (get_col r) [g; l] = Err e -> check_heat_balance r g l = Err e.
Proof.
  unfold check_heat_balance. cbn [rmap]. intros H.
  repeat (match goal with |- context [get_col r ?k] => destruct (get_col r k) as [?|?]; cbn [rbind] in *; [|injection H as ->; reflexivity] end). discriminate H.
Qed.
Lemma checks_result v r b : snd (check_results_logged v r b) = check_results r b.
Proof.
  unfold check_results_logged. rewrite snd_lbind. cbn [log snd rbind]. rewrite !snd_lbind, (check_result r electricity_columns) by (apply electricity_first).
  unfold check_results at 2. destruct (check_electricity_balance r) eqn:E1; cbn [rbind]; [|reflexivity]. rewrite check_result by (intros e; apply heat_first).
  destruct (check_heat_balance r "total-high_temperature_generation_mwh" _) eqn:E2; cbn [rbind]; [|reflexivity]. rewrite check_result by (intros e; apply heat_first).
  destruct (check_heat_balance r "total-low_temperature_generation_mwh" _) eqn:E3; cbn [rbind lret snd]; [|reflexivity].
  unfold check_results. now rewrite E1, E2, E3.
Qed.
Lemma spills_result v r fl : snd (warn_spills_logged v r fl) = warn_spills r fl.
Proof.
  unfold warn_spills_logged. rewrite snd_lbind. cbn [lret snd]. destruct (warn_spills r fl) as [s|e]; [|reflexivity]. cbn [rbind]. rewrite snd_lbind.
  destruct (s && truthy v); reflexivity.
Qed.
Lemma extract_result v vals d assets iv st fl : snd (extract_logged v vals d assets iv st fl) = extract_results vals d assets iv st fl.
Proof.
  unfold extract_logged, extract_results. rewrite snd_lbind. cbn [log snd rbind]. rewrite snd_lbind. cbn [lret snd].
  destruct (rmap _ (seq 0 (id_n d))) as [rows|e]; [|reflexivity]. cbn [rbind]. rewrite snd_lbind. cbn [lret snd].
  destruct (check_array_lengths _) as [u|e]; [|reflexivity]. cbn [rbind]. rewrite snd_lbind. cbn [lret snd].
  destruct (add_totals _) as [r|e]; [|reflexivity]. cbn [rbind]. rewrite snd_lbind. cbn [log lret snd rbind]. rewrite snd_lbind.
  match goal with |- (let! _ := snd ?X in _) = _ => assert (snd X = (if st_feasible st then let! _ := validate_schema r in check_results r (existsb is_valve assets) else Ok tt)) as -> end.
  { destruct (st_feasible st); [|reflexivity]. rewrite snd_lbind. cbn [snd]. rewrite checks_result. reflexivity. }
  destruct (if st_feasible st then _ else _) as [u1|e]; [|reflexivity]. cbn [rbind]. rewrite snd_lbind, spills_result.
  destruct (warn_spills r fl); reflexivity.
Qed.
Theorem C80_same_result : forall v slv base c assets cons obj fl,
  snd (optimize_logged v slv base c assets cons obj fl) = optimize slv base c assets cons obj fl.
Proof.
  intros. unfold optimize_logged, optimize. rewrite snd_lbind, build_result. destruct (build_program _ _ _ _ _ _) as [[iv o]|e]; [|reflexivity]. cbn [rbind].
  rewrite snd_lbind, solve_result. destruct (solve slv (allow_infeasible fl) o) as [ss|e]; [|reflexivity]. cbn [rbind]. apply extract_result.
Qed.
Theorem C80_accounts_same_result : forall v results price_results custom_terms validate,
  snd (get_accounts_logged v results price_results custom_terms validate) = get_accounts results price_results custom_terms validate.
Proof.
  intros. unfold get_accounts_logged. rewrite snd_lbind. cbn [lret snd]. unfold get_accounts. destruct validate; [|reflexivity].
  rewrite snd_lbind, !checks_result. destruct (check_results results false); cbn [rbind]; [|reflexivity]. destruct (check_results _ false); reflexivity.
Qed.

(** ** The log of an optimization *)
Definition objective_message (m : message) : bool := match m with MSimpleTerms _ | MTwoTerms _ | MManyTerms _ => true | _ => false end.
(** only [v] is set *)
Definition uniform (v : verbosity) (es : list event) : Prop :=
  Forall (fun e => match e with ESet w => w = v | ELog m => objective_message m = false end) es.
Definition objective_log (es : list event) : Prop :=
  es = [] \/ exists ms, es = ESet (VInt 2) :: map ELog ms /\ Forall (fun m => objective_message m = true) ms.
Lemma objective_shape obj iv d o : objective_log (fst (get_objective_logged obj iv d o)).
Proof.
  destruct obj as [s|terms]; [left; reflexivity|]. unfold get_objective_logged. rewrite fst_lbind. cbn [lret fst snd app]. unfold lift.
  destruct (add_simple_terms iv d terms) as [simple|e]; [|left; reflexivity]. right. ff. destruct (add_two_variable_terms iv d terms o) as [[two o2]|e].
  2:{ exists [MSimpleTerms (List.length simple)]. split; [reflexivity|]. repeat constructor. }
  ff. destruct (add_many_variables_terms iv terms o2) as [[many o3]|e].
  2:{ eexists [_; _]. split; [reflexivity|]. repeat constructor. }
  ff. eexists [_; _; _]. split; [reflexivity|]. repeat constructor.
Qed.
Lemma build_shape v c assets cons obj fl o :
  (fst (build_logged v c assets cons obj fl o) = [] /\ exists e, snd (build_logged v c assets cons obj fl o) = Err e) \/
  exists os, fst (build_logged v c assets cons obj fl o) = ESet v :: ELog MSite :: ELog (MAssets (map asset_name assets)) :: os /\ objective_log os.
Proof.
  unfold build_logged. rewrite !fst_lbind, snd_lbind. cbn [lret snd fst app]. unfold massert, ret, raise. destruct (nodup_str (map asset_name assets)); [|left; split; [reflexivity|eexists; reflexivity]]. right.
  ff. destruct (build_base c assets fl o) as [[iv o1]|e]; [|exists []; split; [reflexivity|left; reflexivity]]. ff. destruct (forM_ cons _ o1) as [[u o2]|e]; [|exists []; split; [reflexivity|left; reflexivity]]. rewrite !fst_lbind. cbn [snd].
  exists (fst (get_objective_logged obj iv (sc_idata c) o2)). split; [|apply objective_shape].
  destruct (snd (get_objective_logged obj iv (sc_idata c) o2)) as [[e o3]|e]; [|now rewrite app_nil_r].
  rewrite fst_lbind. cbn [lret fst snd app set_objective]. now rewrite app_nil_r.
Qed.
Lemma uniform_app v a b : uniform v a -> uniform v b -> uniform v (a ++ b)%list.
Proof. intros A B. apply Forall_app. now split. Qed.
Lemma uniform_bind {A B} v (m : logged A) (f : A -> logged B) : uniform v (fst m) -> (forall a, uniform v (fst (f a))) -> uniform v (fst (lbind m f)).
Proof. intros U W. rewrite fst_lbind. apply uniform_app; auto. destruct (snd m); [apply W|constructor]. Qed.
Lemma uniform_ret {A} v (r : res A) : uniform v (fst (lret r)).
Proof. constructor. Qed.
Lemma uniform_set v : uniform v (fst (log (ESet v))).
Proof. repeat constructor. Qed.
Lemma uniform_log v m : objective_message m = false -> uniform v (fst (log (ELog m))).
Proof. intros. repeat constructor; auto. Qed.
Ltac uni := repeat first [apply uniform_ret | apply uniform_set | (apply uniform_log; reflexivity) | (apply uniform_bind; [|intro]) ].
Lemma uniform_checks v r b : uniform v (fst (check_results_logged v r b)).
Proof. unfold check_results_logged, check_logged. uni. Qed.
Lemma uniform_extract v vals d assets iv st fl : uniform v (fst (extract_logged v vals d assets iv st fl)).
Proof.
  unfold extract_logged. uni; [destruct (st_feasible st); uni; apply uniform_checks|]. unfold warn_spills_logged. uni. destruct (_ && _); uni.
Qed.
Lemma log_shape v slv base c assets cons obj fl (es := fst (optimize_logged v slv base c assets cons obj fl)) :
  (es = [] /\ exists e, optimize slv base c assets cons obj fl = Err e) \/
  exists os rest, es = (ESet v :: ELog MSite :: ELog (MAssets (map asset_name assets)) :: os ++ rest)%list /\ objective_log os /\
    ((rest = [] /\ exists e, optimize slv base c assets cons obj fl = Err e) \/ exists more, rest = ESet v :: more /\ uniform v more).
Proof.
  unfold es. rewrite <- (C80_same_result v). unfold optimize_logged. rewrite fst_lbind, snd_lbind. destruct (build_shape v c assets cons obj fl (new_optimizer base)) as [[-> (e & ->)]|(os & -> & OL)].
  { left. split; [reflexivity|]. eexists; reflexivity. }
  right. exists os. destruct (snd (build_logged v c assets cons obj fl (new_optimizer base))) as [[iv o]|e].
  2:{ exists []. rewrite !app_nil_r. splits; auto. left. split; [reflexivity|]. eexists; reflexivity. }
  eexists. split; [rewrite <- !app_comm_cons; reflexivity|]. split; [exact OL|]. right. rewrite fst_lbind. unfold solve_logged. rewrite fst_lbind. cbn [log fst snd app].
  eexists. split; [reflexivity|]. apply uniform_app; [|destruct (snd _); [apply uniform_extract|constructor]]. uni.
Qed.

Lemma printed_app l a b : printed l (a ++ b)%list = (printed l a ++ printed (level_after l a) b)%list.
Proof. revert l. induction a as [|[w|m] a IH]; intros l; cbn [app printed level_after]; auto. destruct (l <=? message_level m)%Z; rewrite IH; reflexivity. Qed.
Lemma after_app l a b : level_after l (a ++ b)%list = level_after (level_after l a) b.
Proof. revert l. induction a as [|[w|m] a IH]; intros l; cbn [app level_after]; auto. Qed.
Definition visible (v : verbosity) (m : message) : bool := (handler_level v <=? message_level m)%Z && negb (objective_message m).
Lemma uniform_printed v es : uniform v es -> printed (handler_level v) es = filter (visible v) (messages es) /\ level_after (handler_level v) es = handler_level v.
Proof.
  induction 1 as [|[w|m] es E _ [IH1 IH2]]; cbn [printed level_after messages flat_map app]; [split; reflexivity|subst w; auto|]. split; [|exact IH2].
  unfold messages in IH1. cbn [filter]. unfold visible at 1. rewrite E. cbn [negb]. rewrite andb_true_r, IH1. reflexivity.
Qed.
Lemma objective_printed v l es : objective_log es -> printed l es = filter (visible v) (messages es).
Proof.
  intros [->|(ms & -> & F)]; [reflexivity|]. cbn [printed messages flat_map app]. change (handler_level (VInt 2)) with 20%Z.
  induction F as [|m ms E _ IH]; [reflexivity|]. cbn [map printed messages flat_map app filter]. unfold visible at 1. rewrite E. cbn [negb]. rewrite andb_false_r.
  destruct m; try discriminate E; exact IH.
Qed.
(** What is printed: the messages from the level of [verbose] on, never those about the terms of the objective; at any level before. *)
Theorem C80_printed : forall v slv base c assets cons obj fl level,
  let es := fst (optimize_logged v slv base c assets cons obj fl) in
  printed level es = filter (visible v) (messages es).
Proof.
  intros v slv base c assets cons obj fl level es. unfold es. destruct (log_shape v slv base c assets cons obj fl) as [[-> _]|(os & rest & -> & OL & R)]; [reflexivity|].
  cbn [printed messages flat_map app]. change (flat_map _ (os ++ rest)%list) with (messages (os ++ rest)%list).
  assert (printed (handler_level v) (os ++ rest)%list = filter (visible v) (messages (os ++ rest)%list)) as E.
  { rewrite printed_app. unfold messages. rewrite flat_map_app, filter_app. change (flat_map _ os) with (messages os). change (flat_map _ rest) with (messages rest).
    rewrite (objective_printed v _ os OL). f_equal. destruct R as [[-> _]|(more & -> & U)]; [reflexivity|]. cbn [printed messages flat_map app]. apply (uniform_printed v more U). }
  cbn [filter]. rewrite E. unfold visible. cbn [message_level objective_message negb]. rewrite !andb_true_r. reflexivity.
Qed.
(** afterwards the handler is at the level of this call, whatever was called before *)
Theorem C80_level_after : forall v slv base c assets cons obj fl r level, optimize slv base c assets cons obj fl = Ok r ->
  level_after level (fst (optimize_logged v slv base c assets cons obj fl)) = handler_level v.
Proof.
  intros v slv base c assets cons obj fl r level R. destruct (log_shape v slv base c assets cons obj fl) as [[_ (e & E)]|(os & rest & -> & OL & S)]; [congruence|].
  destruct S as [[_ (e & E)]|(more & -> & U)]; [congruence|]. cbn [level_after]. rewrite after_app. cbn [level_after]. apply (uniform_printed v more U).
Qed.

(** ** verbose=False prints nothing, whether the call succeeds or fails *)
Theorem C80_false_prints_nothing : forall slv base c assets cons obj fl level,
  printed level (fst (optimize_logged (VBool false) slv base c assets cons obj fl)) = [].
Proof.
  intros. rewrite C80_printed. induction (messages _) as [|m ms IH]; [reflexivity|]. cbn [filter]. rewrite IH. destruct m; reflexivity.
Qed.

(** ** The spill warning *)
Definition plain_event (e : event) : Prop := match e with ELog (MSpills _ _) => False | _ => True end.
Lemma plain_bind {A B} (m : logged A) (f : A -> logged B) : Forall plain_event (fst m) -> (forall a, Forall plain_event (fst (f a))) -> Forall plain_event (fst (lbind m f)).
Proof. intros U W. rewrite fst_lbind. apply Forall_app. split; auto. destruct (snd m); [apply W|constructor]. Qed.
Lemma plain_ret {A} (r : res A) : Forall plain_event (fst (lret r)).
Proof. constructor. Qed.
Lemma plain_log e : plain_event e -> Forall plain_event (fst (log e)).
Proof. intros. repeat constructor. exact H. Qed.
Ltac pl := repeat first [apply plain_ret | (apply plain_log; exact Logic.I) | (apply plain_bind; [|intro])].
Lemma plain_build v c assets cons obj fl o : Forall plain_event (fst (build_logged v c assets cons obj fl o)).
Proof.
  destruct (build_shape v c assets cons obj fl o) as [[-> _]|(os & -> & [->|(ms & -> & F)])]; repeat (apply Forall_cons; [exact Logic.I|]); try constructor.
  induction F as [|m ms E _ IH]; [constructor|]. cbn [map]. apply Forall_cons; [|exact IH]. destruct m; try exact Logic.I. discriminate E.
Qed.
Lemma plain_solve v slv b o : Forall plain_event (fst (solve_logged v slv b o)).
Proof. unfold solve_logged. pl. Qed.
Lemma plain_checks v r b : Forall plain_event (fst (check_results_logged v r b)).
Proof. unfold check_results_logged, check_logged. pl. Qed.
Lemma plain_messages es s n : Forall plain_event es -> ~ In (MSpills s n) (messages es).
Proof.
  intros F I. unfold messages in I. apply in_flat_map in I. destruct I as (e & Ie & I). rewrite Forall_forall in F. specialize (F e Ie). destruct e as [w|m]; [destruct I|].
  destruct I as [->|[]]. exact F.
Qed.
Lemma messages_app a b : messages (a ++ b)%list = (messages a ++ messages b)%list.
Proof. apply flat_map_app. Qed.
(** the spill columns of a table whose entries add up to something positive, with their sums *)
Definition spilling (r : frame) : list (string * Q) := filter (fun kv => Qltb 0 (snd kv)) (map (fun nc => (fst nc, column_sum (snd nc))) (spill_columns r)).
Lemma spill_messages v r fl s : warn_spills r fl = Ok s ->
  forall x n, In (MSpills x n) (messages (fst (warn_spills_logged v r fl))) <-> s = true /\ truthy v = true /\ x = spilling r /\ n = List.length (spill_columns r).
Proof.
  intros W x n. unfold warn_spills_logged. rewrite fst_lbind. cbn [lret fst snd app]. rewrite W, fst_lbind.
  assert (column_sums r = map (fun nc => (fst nc, column_sum (snd nc))) (spill_columns r)) as E by reflexivity.
  destruct s, (truthy v); cbn [andb log lret fst snd app messages flat_map In]; split; try (intros [H|[]]; injection H as <- <-); try tauto; try (intros (H & K & _); discriminate).
  - splits; auto. now rewrite E, map_length.
  - intros (_ & _ & -> & ->). left. rewrite E, map_length. reflexivity.
Qed.
Lemma extract_spills v vals d assets iv st fl r : snd (extract_logged v vals d assets iv st fl) = Ok r ->
  forall x n, In (MSpills x n) (messages (fst (extract_logged v vals d assets iv st fl))) <->
    r_spill r = true /\ truthy v = true /\ x = spilling (r_results r) /\ n = List.length (spill_columns (r_results r)).
Proof.
  intros R x n. unfold extract_logged in *. rewrite snd_lbind in R. cbn [log snd rbind] in R. rewrite fst_lbind. cbn [log fst snd app]. 
  rewrite snd_lbind in R. cbn [lret snd] in R. rewrite fst_lbind. cbn [lret fst snd app]. destruct (rmap _ (seq 0 (id_n d))) as [rows|e]; [|discriminate R]. cbn [rbind] in R.
  rewrite snd_lbind in R. cbn [lret snd] in R. rewrite fst_lbind. cbn [lret fst snd app]. destruct (check_array_lengths _) as [u|e]; [|discriminate R]. cbn [rbind] in R.
  rewrite snd_lbind in R. cbn [lret snd] in R. rewrite fst_lbind. cbn [lret fst snd app]. destruct (add_totals _) as [f|e]; [|discriminate R]. cbn [rbind] in R.
  rewrite snd_lbind in R. cbn [log snd rbind] in R. rewrite fst_lbind. cbn [log fst snd app].
  rewrite snd_lbind in R. rewrite fst_lbind.
  match type of R with (let! _ := snd ?X in _) = _ => set (checks := X) in * end.
  assert (Forall plain_event (fst checks)) as P by (unfold checks; destruct (st_feasible st); [pl; apply plain_checks|constructor]).
  destruct (snd checks) as [u1|e]; [|discriminate R]. cbn [rbind] in R. rewrite snd_lbind, spills_result in R. rewrite fst_lbind, spills_result.
  destruct (warn_spills f fl) as [s|e] eqn:W; [|discriminate R]. cbn [rbind lret snd] in R. injection R as <-. cbn [r_spill r_results lret fst].
  rewrite app_nil_r. cbn [messages flat_map app]. change (flat_map _ (fst checks ++ ?y)%list) with (messages (fst checks ++ y)%list). cbn [In].
  rewrite messages_app, in_app_iff. rewrite <- (spill_messages v f fl s W x n). split; [|tauto]. intros [H|[H|H]]; [discriminate H| |exact H]. exfalso. exact (plain_messages _ _ _ P H).
Qed.
(** The warning about spills, with the columns concerned, is printed when something spilled, unless verbose is False or 0 or above 3. *)
Theorem C80_spill_warning : forall v slv base c assets cons obj fl r level, optimize slv base c assets cons obj fl = Ok r ->
  forall x n, In (MSpills x n) (printed level (fst (optimize_logged v slv base c assets cons obj fl))) <->
    (r_spill r = true /\ truthy v = true /\ (handler_level v <= 30)%Z /\ x = spilling (r_results r) /\ n = List.length (spill_columns (r_results r))).
Proof.
  intros v slv base c assets cons obj fl r level R x n. rewrite C80_printed, filter_In. unfold visible. cbn [message_level objective_message negb]. rewrite andb_true_r, Z.leb_le.
  assert (In (MSpills x n) (messages (fst (optimize_logged v slv base c assets cons obj fl))) <-> r_spill r = true /\ truthy v = true /\ x = spilling (r_results r) /\ n = List.length (spill_columns (r_results r))) as K; [|rewrite K; tauto].
  rewrite <- (C80_same_result v) in R. unfold optimize_logged in *. rewrite snd_lbind in R. rewrite fst_lbind. pose proof (plain_build v c assets cons obj fl (new_optimizer base)) as PB.
  destruct (snd (build_logged v c assets cons obj fl (new_optimizer base))) as [[iv o]|e]; [|discriminate R]. cbn [rbind] in R. rewrite snd_lbind in R. rewrite fst_lbind.
  pose proof (plain_solve v slv (allow_infeasible fl) o) as PS. destruct (snd (solve_logged v slv (allow_infeasible fl) o)) as [ss0|e]; [|discriminate R]. cbn [rbind] in R.
  rewrite !messages_app, !in_app_iff, <- (extract_spills _ _ _ _ _ _ _ _ R x n). pose proof (plain_messages _ x n PB). pose proof (plain_messages _ x n PS). tauto.
Qed.
Theorem C80_warned_columns : forall r k q, In (k, q) (spilling r) <->
  0 < q /\ exists col, In (k, col) r /\ contains "spill" k = true /\ contains "charge_binary" k = false /\ q = column_sum col.
Proof.
  intros r k q. unfold spilling. rewrite filter_In, in_map_iff. cbn [snd]. unfold Qltb. rewrite negb_true_iff.
  split.
  - intros [((k' & col) & E & I) P]. cbn [fst snd] in E. injection E as <- <-. unfold spill_columns in I. apply filter_In in I. destruct I as [I C]. cbn [fst] in C. apply andb_true_iff in C. destruct C as [C1 C2].
    split; [|exists col; splits; auto; now apply negb_true_iff]. destruct (Qlt_le_dec 0 (column_sum col)) as [L|L]; [exact L|]. apply Qle_bool_iff in L. congruence.
  - intros (P & col & I & C1 & C2 & ->). split; [exists (k, col); split; [reflexivity|]; unfold spill_columns; apply filter_In; split; [exact I|]; cbn [fst]; now rewrite C1, C2|].
    destruct (Qle_bool (column_sum col) 0) eqn:L; [|reflexivity]. apply Qle_bool_iff in L. exfalso. revert P L. apply Qlt_not_le.
Qed.

(** ** The levels: a lower level prints what a higher one prints, and more *)
Theorem C80_levels : forall v,
  (handler_level (VBool true) = handler_level (VInt 2)) /\ handler_level (VBool false) = 40%Z /\ handler_level (VInt 0) = 0%Z /\
  (forall z, (1 <= z < 10)%Z -> handler_level (VInt z) = (10 * z)%Z) /\ (forall z, (10 <= z)%Z -> handler_level (VInt z) = z) /\
  (forall m, visible v m = true <-> (handler_level v <= message_level m)%Z /\ objective_message m = false).
Proof.
  intros v. splits; try reflexivity.
  - intros z Z. unfold handler_level. destruct (Z.ltb_spec z 10); lia.
  - intros z Z. unfold handler_level. destruct (Z.ltb_spec z 10); lia.
  - intros m. unfold visible. rewrite andb_true_iff, Z.leb_le, negb_true_iff. reflexivity.
Qed.
(** the messages of two calls that differ in [verbose] alone *)
Definition same_log {A} (m m' : logged A) : Prop := messages (fst m) = messages (fst m') /\ snd m = snd m'.
Lemma same_bind {A B} (m m' : logged A) (f f' : A -> logged B) : same_log m m' -> (forall a, same_log (f a) (f' a)) -> same_log (lbind m f) (lbind m' f').
Proof.
  intros [H1 H2] F. unfold same_log. rewrite !fst_lbind, !snd_lbind, !messages_app, H1, H2. destruct (snd m') as [a|e]; [|split; reflexivity]. destruct (F a) as [G1 G2]. cbn [rbind]. now rewrite G1, G2.
Qed.
Lemma same_refl {A} (m : logged A) : same_log m m.
Proof. split; reflexivity. Qed.
Lemma same_set v w : same_log (log (ESet v)) (log (ESet w)).
Proof. split; reflexivity. Qed.
Ltac sm := repeat match goal with |- same_log ?x ?x => apply same_refl | |- same_log (log (ESet _)) (log (ESet _)) => apply same_set | |- same_log (lbind _ _) (lbind _ _) => apply same_bind; [|intro] end.
Lemma same_optimize v w slv base c assets cons obj fl : truthy v = truthy w ->
  same_log (optimize_logged v slv base c assets cons obj fl) (optimize_logged w slv base c assets cons obj fl).
Proof.
  intros T. unfold optimize_logged. apply same_bind.
  - unfold build_logged. sm.
  - intros [iv o]. apply same_bind; [unfold solve_logged; sm|]. intros ss0. unfold extract_logged. sm.
    + destruct (st_feasible _); [|apply same_refl]. sm. unfold check_results_logged. sm.
    + unfold warn_spills_logged. rewrite T. apply same_refl.
Qed.
(** verbose=1 prints all that verbose=2 prints and so on *)
Theorem C80_more_verbose : forall v w slv base c assets cons obj fl level,
  truthy v = true -> truthy w = true -> (handler_level v <= handler_level w)%Z ->
  incl (printed level (fst (optimize_logged w slv base c assets cons obj fl))) (printed level (fst (optimize_logged v slv base c assets cons obj fl))).
Proof.
  intros v w slv base c assets cons obj fl level V W L m. rewrite !C80_printed, !filter_In. destruct (same_optimize v w slv base c assets cons obj fl) as [E _]; [congruence|]. rewrite E.
  intros [I Vm]. split; [exact I|]. unfold visible in *. apply andb_true_iff in Vm. destruct Vm as [V1 V2]. rewrite V2, andb_true_r. apply Z.leb_le in V1. apply Z.leb_le. lia.
Qed.
Definition quiet_event (e : event) : Prop := match e with ELog m => message_level m = 10%Z | ESet _ => True end.
Lemma quiet_bind {A B} (m : logged A) (f : A -> logged B) : Forall quiet_event (fst m) -> (forall a, Forall quiet_event (fst (f a))) -> Forall quiet_event (fst (lbind m f)).
Proof. intros U W. rewrite fst_lbind. apply Forall_app. split; auto. destruct (snd m); [apply W|constructor]. Qed.
Lemma quiet_log e : quiet_event e -> Forall quiet_event (fst (log e)).
Proof. intros. repeat constructor. exact H. Qed.
Lemma quiet_checks v r b : Forall quiet_event (fst (check_results_logged v r b)).
Proof. unfold check_results_logged, check_logged. repeat first [apply Forall_nil | (apply quiet_log; first [exact Logic.I | reflexivity]) | (apply quiet_bind; [|intro])]. Qed.
Lemma quiet_hidden es : Forall quiet_event es -> filter (visible (VInt 2)) (messages es) = [].
Proof.
  induction 1 as [|[w|m] es Q _ IH]; [reflexivity|exact IH|]. cbn [messages flat_map app filter]. unfold visible at 1. cbn [quiet_event] in Q. rewrite Q. exact IH.
Qed.
Lemma extract_default vals d assets iv st fl r : snd (extract_logged (VInt 2) vals d assets iv st fl) = Ok r ->
  filter (visible (VInt 2)) (messages (fst (extract_logged (VInt 2) vals d assets iv st fl))) =
    (if r_spill r then [MSpills (spilling (r_results r)) (List.length (spill_columns (r_results r)))] else []) /\ r_status r = st.
Proof.
  intros R. unfold extract_logged in *. rewrite snd_lbind in R. cbn [log snd rbind] in R. rewrite fst_lbind. cbn [log fst snd app].
  rewrite snd_lbind in R. cbn [lret snd] in R. rewrite fst_lbind. cbn [lret fst snd app]. destruct (rmap _ (seq 0 (id_n d))) as [rows|e]; [|discriminate R]. cbn [rbind] in R.
  rewrite snd_lbind in R. cbn [lret snd] in R. rewrite fst_lbind. cbn [lret fst snd app]. destruct (check_array_lengths _) as [u|e]; [|discriminate R]. cbn [rbind] in R.
  rewrite snd_lbind in R. cbn [lret snd] in R. rewrite fst_lbind. cbn [lret fst snd app]. destruct (add_totals _) as [f|e]; [|discriminate R]. cbn [rbind] in R.
  rewrite snd_lbind in R. cbn [log snd rbind] in R. rewrite fst_lbind. cbn [log fst snd app].
  rewrite snd_lbind in R. rewrite fst_lbind.
  match type of R with (let! _ := snd ?X in _) = _ => set (checks := X) in * end.
  assert (Forall quiet_event (fst checks)) as P.
  { unfold checks. destruct (st_feasible st); [|constructor]. apply quiet_bind; [constructor|]. intros _. apply quiet_checks. }
  destruct (snd checks) as [u1|e]; [|discriminate R]. cbn [rbind] in R. rewrite snd_lbind, spills_result in R. rewrite fst_lbind, spills_result.
  destruct (warn_spills f fl) as [s|e] eqn:W; [|discriminate R]. cbn [rbind lret snd] in R. injection R as <-. cbn [r_spill r_results r_status lret fst]. split; [|reflexivity].
  rewrite app_nil_r. cbn [messages flat_map app]. change (flat_map _ (fst checks ++ ?y)%list) with (messages (fst checks ++ y)%list). cbn [filter]. change (visible (VInt 2) MTotals) with false. cbv iota.
  rewrite messages_app, filter_app, (quiet_hidden _ P). cbn [app]. unfold warn_spills_logged. rewrite fst_lbind. cbn [lret fst snd app]. rewrite W, fst_lbind.
  destruct s; cbn [truthy Z.eqb negb andb log lret fst snd app messages flat_map filter]; [|reflexivity].
  assert (column_sums f = map (fun nc => (fst nc, column_sum (snd nc))) (spill_columns f)) as E by reflexivity. rewrite E, map_length. reflexivity.
Qed.
(** verbose=2, the default: the site, the assets, the outcome and a warning if there is something to warn of; nothing else *)
Theorem C80_default : forall slv base c assets cons obj fl r, optimize slv base c assets cons obj fl = Ok r ->
  printed first_level (fst (optimize_logged (VInt 2) slv base c assets cons obj fl)) =
    ([MSite; MAssets (map asset_name assets); MSolved (st_status (r_status r)) (st_objective (r_status r))] ++
     (if r_spill r then [MSpills (spilling (r_results r)) (List.length (spill_columns (r_results r)))] else []))%list.
Proof.
  intros slv base c assets cons obj fl r R. rewrite C80_printed. rewrite <- (C80_same_result (VInt 2)) in R. unfold optimize_logged in *. rewrite snd_lbind in R. rewrite fst_lbind.
  destruct (build_shape (VInt 2) c assets cons obj fl (new_optimizer base)) as [[_ (e & E)]|(os & -> & OL)]; [rewrite E in R; discriminate R|].
  destruct (snd (build_logged _ c assets cons obj fl (new_optimizer base))) as [[iv o]|e]; [|discriminate R]. cbn [rbind] in R. rewrite snd_lbind in R. rewrite fst_lbind.
  destruct (snd (solve_logged (VInt 2) slv (allow_infeasible fl) o)) as [ss0|e] eqn:SS; [|discriminate R]. cbn [rbind] in R.
  rewrite !messages_app, !filter_app. cbn [messages flat_map app]. change (flat_map _ os) with (messages os).
  assert (filter (visible (VInt 2)) (messages os) = []) as O.
  { rewrite <- (objective_printed (VInt 2) 100 os OL). destruct OL as [->|(ms & -> & F)]; [reflexivity|]. cbn [printed]. change (handler_level (VInt 2)) with 20%Z.
    induction F as [|m ms E _ IH]; [reflexivity|]. cbn [map printed]. destruct m; try discriminate E; exact IH. }
  cbn [filter visible message_level objective_message andb negb Z.leb handler_level Z.ltb Z.compare Z.mul Pos.mul Pos.compare Pos.compare_cont CompOpp Pos.add]. rewrite O. cbn [app]. f_equal. f_equal.
  pose proof SS as SV. rewrite solve_result in SV. unfold solve in SV. unfold solve_logged in *. ff.
  destruct (assert_no_duplicate_variables o) as [u|e]; [|discriminate SV]. cbn [rbind] in SV. ff.
  match type of SV with (let! _ := ?X in _) = _ => destruct X as [u1|e]; [|discriminate SV] end. cbn [rbind] in SV. injection SV as <-. cbn [fst snd] in *.
  cbn [messages flat_map app filter].
  change (visible (VInt 2) (MProgram (List.length (variables o)) (List.length (o_cons o)))) with false.
  match goal with |- context [MSolved ?a ?b] => change (visible (VInt 2) (MSolved a b)) with true end. cbv iota.
  destruct (extract_default _ _ _ _ _ _ _ R) as [-> ->]. reflexivity.
Qed.

(** ** Findings *)
(** The documentation of Optimizer.solve promises "0 for no output": verbose=0 prints everything but the spill warning. *)
Theorem C80_zero_for_no_output_refuted : exists slv base c assets cons obj fl r,
  optimize slv base c assets cons obj fl = Ok r /\ r_spill r = true /\
  printed first_level (fst (optimize_logged (VInt 0) slv base c assets cons obj fl)) <> [] /\
  incl (printed first_level (fst (optimize_logged (VInt 0) slv base c assets cons obj fl)))
       (printed first_level (fst (optimize_logged (VInt 1) slv base c assets cons obj fl))) /\
  forall x n, ~ In (MSpills x n) (printed first_level (fst (optimize_logged (VInt 0) slv base c assets cons obj fl))).
Proof.
  exists w_solver, 0%nat, w_site, w_assets, [], w_objective, default_flags, w_result.
  split; [exact (fr_returns _ _ _ _ _ _ _ _ w_run)|]. split; [reflexivity|]. split; [vm_compute; discriminate|]. split.
  - assert (printed first_level (fst (optimize_logged (VInt 1) w_solver 0 w_site w_assets [] w_objective default_flags)) =
      (printed first_level (fst (optimize_logged (VInt 0) w_solver 0 w_site w_assets [] w_objective default_flags)) ++ [MSpills (spilling (r_results w_result)) 8])%list) as -> by (vm_compute; reflexivity).
    apply incl_appl, incl_refl.
  - intros x n H. destruct (proj1 (C80_spill_warning (VInt 0) w_solver 0 w_site w_assets [] w_objective default_flags w_result first_level (fr_returns _ _ _ _ _ _ _ _ w_run) x n) H) as (_ & T & _). discriminate T.
Qed.
(** The messages about the terms of a custom objective are printed at no verbosity: get_objective is not told about [verbose]. *)
Theorem C80_objective_terms_never_printed : forall v slv base c assets cons obj fl level m,
  In m (printed level (fst (optimize_logged v slv base c assets cons obj fl))) -> objective_message m = false.
Proof. intros v slv base c assets cons obj fl level m I. rewrite C80_printed in I. apply filter_In in I. destruct I as [_ V]. unfold visible in V. apply andb_true_iff in V. destruct V as [_ V]. now apply negb_true_iff. Qed.
Example C80_sample :
  printed first_level (fst (optimize_logged (VBool true) w_solver 0 w_site w_assets [] w_objective default_flags)) =
    [MSite; MAssets ["spill"]; MSolved Optimal (Some 0); MSpills [("spill-low_temperature_load_mwh", 2)] 8] /\
  In (MSimpleTerms 1) (messages (fst (optimize_logged (VInt 1) w_solver 0 w_site w_assets [] w_objective default_flags))) /\
  printed first_level (fst (optimize_logged (VInt 3) w_solver 0 w_site w_assets [] w_objective default_flags)) = [MSpills [("spill-low_temperature_load_mwh", 2)] 8] /\
  printed first_level (fst (optimize_logged (VInt 4) w_solver 0 w_site w_assets [] w_objective default_flags)) = [].
Proof. splits; vm_compute; tauto. Qed.

(** ** OptimizerConfig *)
Lemma assoc_in {A} (d : list (string * A)) k x : NoDup (map fst d) -> (assoc k d = Some x <-> In (k, x) d).
Proof.
  induction d as [|[k' y] d IH]; intros N; [split; [discriminate|intros []]|]. cbn [map fst] in N. inversion N as [|? ? N1 N2]; subst. cbn [assoc In]. destruct (String.eqb_spec k k') as [->|NE].
  - split; [intros H; injection H as ->; now left|]. intros [H|H]; [injection H as ->; reflexivity|]. exfalso. apply N1. now apply (in_map fst) in H.
  - rewrite (IH N2). split; [tauto|]. intros [H|H]; [injection H as -> _; congruence|exact H].
Qed.
Lemma assoc_missing {A} (d : list (string * A)) k : assoc k d = None <-> ~ In k (map fst d).
Proof.
  induction d as [|[k' y] d IH]; cbn [assoc map fst In]; [tauto|]. destruct (String.eqb_spec k k') as [->|NE]; [split; [discriminate|tauto]|]. rewrite IH. split; [intros H [E|I]; [congruence|tauto]|tauto].
Qed.
Definition config_field (k : string) (c : optimizer_config) : cfg_value :=
  if k =? "verbose" then oc_verbose c else if k =? "presolve" then oc_presolve c else if k =? "relative_tolerance" then oc_relative_tolerance c else oc_timeout c.
(** a dict is accepted when all its keys are fields; what it does not set has its default: no presolve switched off, no tolerance, three minutes *)
Theorem C80_config_dict : forall d, NoDup (map fst d) ->
  ((exists c, config_of (ADict d) = Ok c) <-> incl (map fst d) ["verbose"; "presolve"; "relative_tolerance"; "timeout"]) /\
  (forall e, config_of (ADict d) = Err e -> e = TypeErr) /\
  forall c, config_of (ADict d) = Ok c ->
    (forall k x, In (k, x) d -> config_field k c = x) /\
    (~ In "verbose" (map fst d) -> oc_verbose c = CfgBool false) /\ (~ In "presolve" (map fst d) -> oc_presolve c = CfgBool true) /\
    (~ In "relative_tolerance" (map fst d) -> oc_relative_tolerance c = CfgNumber 0) /\ (~ In "timeout" (map fst d) -> oc_timeout c = CfgNumber 180).
Proof.
  intros d N. unfold config_of.
  assert (forallb (fun kv => existsb (String.eqb (fst kv)) config_keys) d = true <-> incl (map fst d) ["verbose"; "presolve"; "relative_tolerance"; "timeout"]) as A.
  { rewrite forallb_forall. split.
    - intros H k I. apply in_map_iff in I. destruct I as (kv & <- & I). specialize (H kv I). apply existsb_exists in H. destruct H as (x & Ix & E). apply String.eqb_eq in E. rewrite E. exact Ix.
    - intros H kv I. apply existsb_exists. exists (fst kv). split; [apply H; now apply in_map|apply String.eqb_refl]. }
  destruct (forallb _ d) eqn:F.
  - split; [split; [intros _; now apply A|intros _; eexists; reflexivity]|]. split; [intros e H; discriminate H|]. intros c H. injection H as <-. cbn [oc_verbose oc_presolve oc_relative_tolerance oc_timeout]. unfold from_dict. split.
    + intros k x I. pose proof (proj1 A eq_refl k (in_map fst d (k, x) I)) as K. apply (assoc_in d k x N) in I. cbn [In] in K. destruct K as [<-|[<-|[<-|[<-|[]]]]]; cbn [config_field String.eqb Ascii.eqb Bool.eqb oc_verbose oc_presolve oc_relative_tolerance oc_timeout]; now rewrite I.
    + splits; intros M; apply assoc_missing in M; rewrite M; reflexivity.
  - split; [split; [intros (c & H); discriminate H|intros H; apply A in H; discriminate H]|]. split; [intros e H; now injection H as <-|]. intros c H. discriminate H.
Qed.
Theorem C80_config_order : forall d d', NoDup (map fst d) -> Permutation d d' -> config_of (ADict d') = config_of (ADict d).
Proof.
  intros d d' N P. unfold config_of.
  assert (forall k, assoc k d' = assoc k d) as E.
  { intros k. assert (NoDup (map fst d')) as N' by (eapply Permutation_NoDup; [apply Permutation_map; exact P|exact N]).
    destruct (assoc k d) as [x|] eqn:A.
    - apply (assoc_in d k x N) in A. apply (assoc_in d' k x N'). eapply Permutation_in; eauto.
    - apply assoc_missing in A. apply assoc_missing. intros I. apply A. eapply Permutation_in; [apply Permutation_map, Permutation_sym; exact P|exact I]. }
  unfold from_dict. rewrite !E. assert (forallb (fun kv : string * cfg_value => existsb (String.eqb (fst kv)) config_keys) d' = forallb (fun kv => existsb (String.eqb (fst kv)) config_keys) d) as ->; [|reflexivity].
  apply eq_true_iff_eq. rewrite !forallb_forall. split; intros H x I; apply H; (eapply Permutation_in; [|exact I]); auto. now apply Permutation_sym.
Qed.
(** the configuration reaches nothing but the solver; a wrong one is refused before anything is printed *)
Theorem C80_config_solver : forall cbc a v base c assets cons obj fl,
  match config_of a with
  | Ok cfg => snd (optimize_call cbc a v base c assets cons obj fl) = optimize (cbc cfg) base c assets cons obj fl /\
              forall level, printed level (fst (optimize_call cbc a v base c assets cons obj fl)) = printed level (fst (optimize_logged v (cbc cfg) base c assets cons obj fl))
  | Err e => optimize_call cbc a v base c assets cons obj fl = ([], Err e)
  end.
Proof.
  intros. unfold optimize_call. destruct (config_of a) as [cfg|e] eqn:E; [|reflexivity]. rewrite snd_lbind, fst_lbind. cbn [lret snd fst rbind app]. split; [apply C80_same_result|reflexivity].
Qed.
Example C80_config_sample :
  config_of (ADict []) = Ok default_config /\
  config_of (ADict [("timeout", CfgNumber 10); ("relative_tolerance", CfgNumber (1#100))]) = Ok (mkOptimizerConfig (CfgBool false) (CfgBool true) (CfgNumber (1#100)) (CfgNumber 10)) /\
  config_of (ADict [("time_limit", CfgNumber 10)]) = Err TypeErr.
Proof. splits; reflexivity. Qed.
