(** * PropChecks: the result checks, the spill flag and infeasible programs (C39, C40, C50) *)
From Coq Require Import Permutation.
From Verif Require Import Base Pulp Params Optimizer Types Assets EVs Site Constraints Objectives Extract Pipeline Emit Prim Spec SpecReport SpecRun SpecNames SpecTotals Layout Rows Sem SemEv SemSite SemProg SemObj SemCells SemRows SemTable SemResults RunFacts Builds ExtractOk Totals Totals2 Returns RowNames PropResults.
Open Scope Q_scope.
Open Scope string_scope.

(** the program, seen by the solver *)
Section solved.
Context (slv : solver) (base : nat) (c : site_cfg) (assets : list asset) (cons : list constraint) (obj : objective) (fl : flags) (iv : interval_vars) (o : opt).
Context (HB : build_program c assets cons obj fl (new_optimizer base) = Ok (iv, o)) (NV : NoDup (map v_name (variables o))).
Context (CF : Forall chp_fine assets) (OS : ordinary_site c assets) (RD : site_ready c assets).
Context (AN : forall v, occurs o v = true -> sol_value (slv o) (v_id v) <> None).

Lemma solve_ok : (is_optimal (sol_status (slv o)) = true /\ objective_has_value slv o \/ allow_infeasible fl = true) ->
  exists z, solve slv (allow_infeasible fl) o = Ok (mkStatus (sol_status (slv o)) (is_optimal (sol_status (slv o))) z, slv o).
Proof.
  intros H. unfold solve, assert_no_duplicate_variables. apply nodup_str_iff in NV. rewrite NV. cbn [rassert rbind]. cbv zeta.
  destruct (program_split _ _ _ _ _ _ _ _ HB) as (o1 & o2 & cs & extra & e & _ & _ & P & _ & _ & OE & CE). rewrite OE.
  destruct (allow_infeasible fl); [eexists; reflexivity|]. destruct H as [[H HV]|]; [|discriminate]. rewrite H.
  assert (exists x, expr_value o (slv o) e = Some x) as (x & EX); [|rewrite EX; eexists; reflexivity].
  { set (s := fun n => match sol_value (slv o) n with Some q => q | None => 0 end). unfold expr_value.
    assert ((is_constant e && match sol_dummy (slv o) with None => true | _ => false end)%bool = false) as ->.
    { destruct HV as [(v & Iv)|HV]; [|destruct (sol_dummy (slv o)); [apply andb_false_r|congruence]]. unfold objective_variables in Iv. rewrite OE in Iv. unfold is_constant, evars in *. destruct (e_terms e); [destruct Iv|reflexivity]. }
    destruct (terms_value_some o (slv o) (e_terms e) s) as (x & ->); [| |cbn; eauto].
    - intros v Ov. specialize (AN v Ov). unfold s. destruct (sol_value (slv o) (v_id v)); [reflexivity|congruence].
    - intros v Iv. unfold occurs. apply existsb_exists. exists v. split; [|apply Nat.eqb_refl]. unfold all_occurrences. rewrite OE. apply in_app_iff. left. exact Iv. }
Qed.
Lemma values_given row x v : In row iv -> In x row -> In v (must_vars x) \/ In v (bal_vars x) -> var_value o (slv o) v <> None.
Proof.
  destruct (program_split _ _ _ _ _ _ _ _ HB) as (o1 & o2 & cs & extra & e & _ & _ & P & _ & _ & OE & CE). intros Ir Ix Iv.
  assert (In v (cs_vars cs)) as IC by (eapply (pr_occurs _ _ _ _ _ _ _ P); eauto).
  assert (occurs o v = true) as OO by (apply occurs_cons; rewrite CE, cs_vars_app, in_app_iff; now left). unfold var_value. rewrite OO. auto.
Qed.
Lemma add_totals_any names rows lp d : names = map fst (row_cells c assets d 0) -> table_of names rows lp -> exists res, add_totals lp = Ok res.
Proof.
  intros EN TB. assert (forall n, In n (map fst lp) -> ~ In n reserved) as NR by (intros n; rewrite (to_names _ _ _ TB), EN; intros I; eapply not_reserved; [apply OS|exact I]).
  assert (forall nm, In nm ["site-import_power_mwh"; "site-export_power_mwh"] -> exists x, assoc nm lp = Some x) as K.
  { intros nm I. apply in_fst_assoc. rewrite (to_names _ _ _ TB), EN. unfold row_cells, site_cells. cbn [app map fst In] in *. tauto. }
  destruct (K "site-import_power_mwh") as (imp & A1); [now left|]. destruct (K "site-export_power_mwh") as (exp & A2); [right; now left|].
  eexists. eapply add_totals_ok; eauto. intros X. rewrite X in A1. discriminate.
Qed.

Lemma returns_infeasible : is_optimal (sol_status (slv o)) = false -> allow_infeasible fl = true -> fail_on_spill_asset_use fl = false ->
  exists r, optimize slv base c assets cons obj fl = Ok r /\ r_feasible r = false.
Proof.
  intros NO AI FF. destruct (solve_ok (or_intror AI)) as (z & SO). unfold optimize. rewrite HB, SO. cbn [rbind fst snd]. rewrite NO.
  destruct (program_split _ _ _ _ _ _ _ _ HB) as (o1 & o2 & cs & extra & e & _ & _ & P & _).
  destruct (any_table c assets fl iv _ _ cs P RD (os_data _ _ OS) (os_names _ _ OS) (os_distinct _ _ OS) (os_evs _ _ OS) (var_value o (slv o)) values_given) as (rows & HR & d & _ & TB & HL).
  unfold extract_results. rewrite HR. cbn [rbind]. cbv zeta. rewrite HL. cbn [rbind]. destruct (add_totals_any _ _ _ _ eq_refl TB) as (res & ->). cbn [rbind st_feasible]. unfold warn_spills. rewrite FF, andb_false_r. cbn [rbind]. eexists. split; reflexivity.
Qed.
Lemma returns_optimal : honest_solver slv -> objective_has_value slv o \/ allow_infeasible fl = true -> sol_status (slv o) = Optimal -> fail_on_spill_asset_use fl = false ->
  exists r, optimize slv base c assets cons obj fl = Ok r /\ r_feasible r = true.
Proof.
  intros SND HV ST FF. destruct solve_ok as (z & SO); [rewrite ST; tauto|]. unfold optimize. rewrite HB, SO. cbn [rbind fst snd]. rewrite ST. cbn [is_optimal].
  destruct (program_split _ _ _ _ _ _ _ _ HB) as (o1 & o2 & cs & extra & e & _ & _ & P & _ & _ & OE & CE).
  destruct (any_table c assets fl iv _ _ cs P RD (os_data _ _ OS) (os_names _ _ OS) (os_distinct _ _ OS) (os_evs _ _ OS) (var_value o (slv o)) values_given) as (rows & HR & d0 & NMS & TB0 & HL).
  destruct (SND o ST) as (s & FS & VS). pose proof FS as FS'. rewrite feasible_iff, CE, all_ok_app in FS'. destruct FS' as ((OK & _) & _).
  assert (vals_of (d_of s iv) s iv) as VO by (eapply d_of_vals; [apply (pr_names _ _ _ _ _ _ _ P)|apply (pr_shape _ _ _ _ _ _ _ P)|apply (pr_fine _ _ _ _ _ _ _ P)]).
  assert (physical c assets fl (d_of s iv)) as PH by (eapply (pr_sound _ _ _ _ _ _ _ P); eauto).
  assert (forall v x, var_value o (slv o) v = Some x -> x = s (v_id v)) as V by (intros; eapply var_value_sound; eauto).
  assert (Forall2 (fun t row => row_is row (row_cells c assets (d_of s iv) t)) (seq 0 (n_intervals c)) rows) as RW.
  { apply rmap_ok in HR. eapply Forall2_impl; [|exact HR]. cbv beta. intros t row _ K. eapply (full_row _ s); eauto; [|intros; eapply values_given; eauto|apply OS].
    intros a t' Ia Ht'. apply (at_clip a (sc_freq c) fl). destruct PH as [_ P2]. specialize (P2 a Ia). rewrite asset_physical_iff in P2. apply P2; auto. }
  assert (table_of (map fst (row_cells c assets (d_of s iv) 0)) rows (fold_left append_row rows [])) as TB by (rewrite (row_names c assets (d_of s iv) 0 d0 0); exact TB0).
  assert (Forall asset_fine assets) as AF. { apply (pr_fine _ _ _ _ _ _ _ P). intros X. pose proof (pr_len _ _ _ _ _ _ _ P) as L. rewrite X in L. destruct RD as (R1 & _). cbn in L. lia. }
  pose proof (proj1 RD) as NP.
  unfold extract_results. rewrite HR. cbn [rbind]. cbv zeta. rewrite HL. cbn [rbind]. destruct (add_totals_any _ _ _ _ eq_refl TB) as (res & HT). rewrite HT. cbn [rbind st_feasible].
  set (lp := fold_left append_row rows []) in *.
  destruct (add_totals_eq lp res) as (imp & exp & A1 & A2 & ->); [eapply lp_nonempty; eauto|eapply lp_reserved; eauto|exact HT|].
  pose proof (physical_acceptable _ _ _ _ (os_nonneg _ _ OS) AF PH) as AC.
  rewrite (passes_schema c assets (d_of s iv) rows lp RW TB OS AC AF NP). cbn [rbind]. rewrite (passes_checks c assets (d_of s iv) rows lp RW TB OS AC AF NP imp exp A1 A2). cbn [rbind].
  unfold warn_spills. rewrite FF, andb_false_r. cbn [rbind]. eexists. split; reflexivity.
Qed.
End solved.

(** ** C39 *)
(** A correct solution is never rejected: when the solver finds an optimum, optimize returns it. *)
Theorem C39_correct_solution_accepted slv base c assets cons obj fl iv o :
  honest_solver slv -> Forall chp_fine assets -> ordinary_site c assets -> site_ready c assets ->
  build_program c assets cons obj fl (new_optimizer base) = Ok (iv, o) -> NoDup (map v_name (variables o)) ->
  objective_has_value slv o \/ allow_infeasible fl = true ->
  sol_status (slv o) = Optimal -> fail_on_spill_asset_use fl = false ->
  exists r, optimize slv base c assets cons obj fl = Ok r /\ r_feasible r = true.
Proof.
  intros SND CF OS RD HB NV HV ST FF. eapply returns_optimal; eauto. intros v Ov. destruct (SND o ST) as (s & _ & VS). rewrite (VS v Ov). discriminate.
Qed.
(** An objective without variables (every price zero, no gas, no spill) has no value: optimize then raises an AssertionError although the
    solver found a solution, unless allow_infeasible. *)
Theorem C39_constant_objective slv base c assets cons obj fl iv o :
  build_program c assets cons obj fl (new_optimizer base) = Ok (iv, o) -> ~ objective_has_value slv o -> allow_infeasible fl = false ->
  optimize slv base c assets cons obj fl = Err AssertionErr.
Proof.
  intros HB NV AI. unfold optimize. rewrite HB. unfold solve, assert_no_duplicate_variables. destruct (nodup_str _); [|reflexivity]. cbn [rassert rbind]. cbv zeta. rewrite AI.
  assert (match o_obj o with Some e => expr_value o (slv o) e | None => None end = None) as ->; [|destruct (is_optimal _); reflexivity].
  unfold objective_has_value, objective_variables in NV. destruct (o_obj o) as [e|]; [|reflexivity]. unfold expr_value, is_constant. unfold evars in NV.
  destruct (e_terms e) as [|tt l]; [|exfalso; apply NV; left; exists (fst tt); left; reflexivity]. destruct (sol_dummy (slv o)); [|reflexivity]. exfalso. apply NV. right. discriminate.
Qed.

Lemma get_num (R : table) col cells t x : get_col R col = Ok cells -> nth_error cells t = Some (Some x) -> num R col t = x.
Proof.
  unfold get_col. intros H E. unfold num. change (assoc col R) with (@assoc (list cell) col R). destruct (@assoc (list cell) col R) as [y|]; [|discriminate]. cbn [of_option] in H. injection H as ->. erewrite nth_error_nth; [|exact E]. reflexivity.
Qed.
Lemma get_in (R : frame) col cells : get_col R col = Ok cells -> In (col, cells) R.
Proof. unfold get_col. destruct (assoc col R) as [y|] eqn:E; [|discriminate]. cbn [of_option]. intros H. injection H as ->. now apply assoc_in. Qed.
Lemma rassert_ok b u : rassert b = Ok u -> b = true.
Proof. destruct b; [reflexivity|discriminate]. Qed.
Lemma zip_at f a b t x y : nth_error a t = Some x -> nth_error b t = Some y -> nth_error (zip_cells f a b) t = Some (f x y).
Proof. revert b t. induction a as [|x' a IH]; intros [|y' b] [|t] H1 H2; cbn in *; try discriminate; [congruence|auto]. Qed.
Lemma small_abs b x : cell_abs_lt b (Some x) = true -> Qabs x < b.
Proof. unfold cell_abs_lt, Qltb. intros H. apply Bool.negb_true_iff in H. apply Qnot_le_lt. intros L. apply Qle_bool_iff in L. congruence. Qed.

(** Conversely, a table that passes the checks balances within 1e-3 (electricity) and 1e-4 (heat) in every interval, and its
    valve columns agree. *)
Theorem C39_accepted_table_balances (R : table) valve n : check_results R valve = Ok tt -> (forall col cells, In (col, cells) R -> List.length cells = n) ->
  (forall t, (t < n)%nat ->
    Qabs (num R "site-import_power_mwh" t + num R "total-electric_generation_mwh" t + num R "total-electric_discharge_mwh" t
          - num R "total-electric_charge_mwh" t - num R "site-export_power_mwh" t - num R "total-electric_load_mwh" t) < 1#1000 /\
    Qabs (num R "total-high_temperature_generation_mwh" t - num R "total-high_temperature_load_mwh" t) < 1#10000 /\
    Qabs (num R "total-low_temperature_generation_mwh" t - num R "total-low_temperature_load_mwh" t) < 1#10000) /\
  (valve = true -> forall t, (t < n)%nat -> num R "valve-low_temperature_generation_mwh" t == num R "valve-high_temperature_load_mwh" t).
Proof.
  intros H LN. unfold check_results in H. rewrite rbind_ok in H. destruct H as ([] & HE & H). rewrite rbind_ok in H. destruct H as ([] & HH & H). rewrite rbind_ok in H. destruct H as ([] & HL & HV).
  assert (forall col cells t, get_col R col = Ok cells -> (t < n)%nat -> exists x, nth_error cells t = Some x) as AT.
  { intros col cells t G Ht. apply nth_error_lt. pose proof (LN _ _ (get_in _ _ _ G)) as L. change (t < @List.length (option Q) cells)%nat. rewrite L. exact Ht. }
  assert (forall g l, check_heat_balance R g l = Ok tt -> forall t, (t < n)%nat -> Qabs (num R g t - num R l t) < 1#10000) as HB.
  { intros g l K t Ht. unfold check_heat_balance in K. binds K. apply rassert_ok in K. rewrite forallb_forall in K. destruct (AT _ _ _ K0 Ht) as (x & X), (AT _ _ _ K1 Ht) as (y & Y).
    pose proof (zip_at csub _ _ _ _ _ X Y) as Z. specialize (K _ (nth_error_In _ _ Z)). destruct x as [x|], y as [y|]; try discriminate. cbn [csub] in K. apply small_abs in K.
    rewrite (get_num _ _ _ _ _ K0 X), (get_num _ _ _ _ _ K1 Y). exact K. }
  split.
  - intros t Ht. splits; [|exact (HB _ _ HH t Ht)|exact (HB _ _ HL t Ht)].
    unfold check_electricity_balance in HE. binds HE. apply rassert_ok in HE. rewrite forallb_forall in HE.
    destruct (AT _ _ _ K Ht) as (x0 & X0), (AT _ _ _ K0 Ht) as (x1 & X1), (AT _ _ _ K1 Ht) as (x2 & X2), (AT _ _ _ K2 Ht) as (x3 & X3), (AT _ _ _ K3 Ht) as (x4 & X4), (AT _ _ _ K4 Ht) as (x5 & X5).
    pose proof (zip_at csub _ _ _ _ _ (zip_at cadd _ _ _ _ _ (zip_at cadd _ _ _ _ _ X0 X1) (zip_at csub _ _ _ _ _ X4 X5)) (zip_at cadd _ _ _ _ _ X2 X3)) as Z.
    specialize (HE _ (nth_error_In _ _ Z)). destruct x0 as [x0|], x1 as [x1|], x2 as [x2|], x3 as [x3|], x4 as [x4|], x5 as [x5|]; try discriminate. cbn [csub cadd] in HE. apply small_abs in HE.
    rewrite (get_num _ _ _ _ _ K X0), (get_num _ _ _ _ _ K0 X1), (get_num _ _ _ _ _ K1 X2), (get_num _ _ _ _ _ K2 X3), (get_num _ _ _ _ _ K3 X4), (get_num _ _ _ _ _ K4 X5).
    eapply Qle_lt_trans; [|exact HE]. apply Qle_lteq. right. apply Qabs_wd. ring.
  - intros -> t Ht. cbv beta iota in HV. rewrite rbind_ok in HV. destruct HV as (lt & GL & HV). rewrite rbind_ok in HV. destruct HV as (ht & GH & HV).
    destruct (all_zip cell_eqb lt ht) eqn:AZ; [|discriminate]. destruct (AT _ _ _ GL Ht) as (x & X), (AT _ _ _ GH Ht) as (y & Y).
    assert (cell_eqb x y = true) as CE.
    { clear -AZ X Y. revert ht t AZ X Y. induction lt as [|a l IH]; intros [|b h] [|t] AZ X Y; cbn in *; try discriminate; apply andb_true_iff in AZ; destruct AZ as [A1 A2]; [congruence|eauto]. }
    destruct x as [x|], y as [y|]; try discriminate. cbn [cell_eqb] in CE. apply Qeq_bool_iff in CE. rewrite (get_num _ _ _ _ _ GL X), (get_num _ _ _ _ _ GH Y). exact CE.
Qed.

(** ** C40 *)
Lemma optimize_parts slv base c assets cons obj fl r : optimize slv base c assets cons obj fl = Ok r ->
  exists iv o z, build_program c assets cons obj fl (new_optimizer base) = Ok (iv, o) /\ r_status r = mkStatus (sol_status (slv o)) (is_optimal (sol_status (slv o))) z /\
    r_feasible r = is_optimal (sol_status (slv o)) /\ warn_spills (r_results r) fl = Ok (r_spill r).
Proof.
  unfold optimize. destruct (build_program c assets cons obj fl (new_optimizer base)) as [[iv o]|]; [|discriminate]. intros H. exists iv, o.
  rewrite rbind_ok in H. destruct H as ([st sol] & HS & H). unfold solve in HS. rewrite rbind_ok in HS. destruct HS as (? & _ & HS). cbv zeta in HS. rewrite rbind_ok in HS. destruct HS as (? & _ & HS). injection HS as <- <-.
  cbn [fst snd] in H. unfold extract_results in H. rewrite rbind_ok in H. destruct H as (rows & _ & H). cbv zeta in H. rewrite rbind_ok in H. destruct H as (? & _ & H). rewrite rbind_ok in H. destruct H as (R & _ & H).
  rewrite rbind_ok in H. destruct H as (? & _ & H). rewrite rbind_ok in H. destruct H as (sp & W & H). injection H as <-. eexists. splits; try reflexivity; exact W.
Qed.
Lemma Qgtb_iff a b : Qgtb a b = true <-> b < a.
Proof. unfold Qgtb, Qltb. rewrite Bool.negb_true_iff. split; intros H; [apply Qnot_le_lt; intros L; apply Qle_bool_iff in L; congruence|]. destruct (Qle_bool a b) eqn:E; [|reflexivity]. apply Qle_bool_iff in E. lra. Qed.

(** The spill flag of any result of optimize: the sum of the spill columns over all intervals exceeds 1e-4. *)
Theorem C40_spill_flag slv base c assets cons obj fl r : optimize slv base c assets cons obj fl = Ok r ->
  (r_spill r = true <-> 1#10000 < Qsum (map (fun nc => column_sum (snd nc)) (spill_columns (r_results r)))) /\
  (fail_on_spill_asset_use fl = true -> r_spill r = false).
Proof.
  intros H. destruct (optimize_parts _ _ _ _ _ _ _ _ H) as (_ & _ & _ & _ & _ & _ & W). unfold warn_spills in W.
  assert (spill_sum (r_results r) = Qsum (map (fun nc => column_sum (snd nc)) (spill_columns (r_results r)))) as E by reflexivity. rewrite <- E.
  destruct (Qgtb (spill_sum (r_results r)) (Qabs d_epsilon)) eqn:G; cbn [andb] in W.
  - destruct (fail_on_spill_asset_use fl); [discriminate|]. injection W as <-. apply Qgtb_iff in G. split; [|discriminate]. split; [intros _; exact G|reflexivity].
  - injection W as <-. split; [|reflexivity]. split; [discriminate|]. intros L. change (1#10000) with (Qabs d_epsilon) in L. apply Qgtb_iff in L. congruence.
Qed.
Lemma site_intervals_fail c assets fl b b' idx : forall iv o, site_intervals c assets (with_fail b fl) iv idx o = site_intervals c assets (with_fail b' fl) iv idx o.
Proof.
  induction idx as [|i idx IH]; intros iv o; [reflexivity|]. cbn [site_intervals]. unfold bind.
  change (site_interval c assets (with_fail b fl) iv i o) with (site_interval c assets (with_fail b' fl) iv i o). destruct (site_interval c assets (with_fail b' fl) iv i o) as [[iv' o']|]; [apply IH|reflexivity].
Qed.
Lemma build_program_fail c assets cons obj fl b b' o : build_program c assets cons obj (with_fail b fl) o = build_program c assets cons obj (with_fail b' fl) o.
Proof.
  assert (forall o, build_base c assets (with_fail b fl) o = build_base c assets (with_fail b' fl) o) as E.
  { intros o'. unfold build_base. unfold bind at 1. unfold bind at 3. match goal with |- match ?m with _ => _ end = _ => destruct m as [[x o1]|]; [|reflexivity] end.
    unfold bind. now rewrite (site_intervals_fail c assets fl b b'). }
  unfold build_program. unfold bind at 1. unfold bind at 4. now rewrite E.
Qed.
(** With fail_on_spill_asset_use, optimize raises ValueError exactly in the case where the result has the spill flag, and changes
    nothing otherwise. *)
Theorem C40_fail_on_spill slv base c assets cons obj fl :
  optimize slv base c assets cons obj (with_fail true fl) =
  match optimize slv base c assets cons obj (with_fail false fl) with
  | Ok r => if r_spill r then Err ValueErr else Ok r
  | Err e => Err e
  end.
Proof.
  unfold optimize. rewrite (build_program_fail c assets cons obj fl true false).
  destruct (build_program c assets cons obj (with_fail false fl) (new_optimizer base)) as [[iv o]|]; [|reflexivity].
  cbn [allow_infeasible with_fail]. destruct (solve slv (allow_infeasible fl) o) as [[st sol]|]; [|reflexivity]. cbn [rbind fst snd]. unfold extract_results.
  destruct (rmap _ _) as [rows|]; [|reflexivity]. cbn [rbind]. cbv zeta. destruct (check_array_lengths _); [|reflexivity]. cbn [rbind]. destruct (add_totals _) as [R|]; [|reflexivity]. cbn [rbind].
  destruct (if st_feasible st then _ else _); [|reflexivity]. cbn [rbind]. unfold warn_spills. cbn [with_fail fail_on_spill_asset_use]. rewrite andb_false_r, andb_true_r.
  destruct (Qgtb (spill_sum R) (Qabs d_epsilon)); reflexivity.
Qed.

(** ** C50 *)
Theorem C50_feasible_means_optimal slv base c assets cons obj fl r : optimize slv base c assets cons obj fl = Ok r ->
  (r_feasible r = true <-> st_status (r_status r) = Optimal) /\ (r_feasible r = false -> allow_infeasible fl = true) /\
  exists iv o, build_program c assets cons obj fl (new_optimizer base) = Ok (iv, o) /\ sol_status (slv o) = st_status (r_status r).
Proof.
  intros H. destruct (optimize_parts _ _ _ _ _ _ _ _ H) as (iv & o & z & HB & -> & -> & _). cbn [st_status]. splits.
  - destruct (sol_status (slv o)); cbn; split; congruence.
  - intros NO. unfold optimize in H. rewrite HB in H. rewrite rbind_ok in H. destruct H as (ss & HS & _). unfold solve in HS. rewrite rbind_ok in HS. destruct HS as (? & _ & HS). cbv zeta in HS. rewrite rbind_ok in HS. destruct HS as (? & HS & _).
    destruct (allow_infeasible fl); [reflexivity|]. rewrite NO in HS. discriminate.
  - eauto.
Qed.
(** Without allow_infeasible an answer other than Optimal is an AssertionError. *)
Theorem C50_raises slv base c assets cons obj fl iv o : build_program c assets cons obj fl (new_optimizer base) = Ok (iv, o) ->
  sol_status (slv o) <> Optimal -> allow_infeasible fl = false -> optimize slv base c assets cons obj fl = Err AssertionErr.
Proof.
  intros HB NO AI. unfold optimize. rewrite HB. unfold solve, assert_no_duplicate_variables. destruct (nodup_str _); [|reflexivity]. cbn [rassert rbind]. cbv zeta. rewrite AI.
  assert (is_optimal (sol_status (slv o)) = false) as -> by (destruct (sol_status (slv o)); cbn; congruence). reflexivity.
Qed.
(** With allow_infeasible the table is returned, marked infeasible, whatever numbers the solver left in it. *)
Theorem C50_returns_infeasible slv base c assets cons obj fl iv o :
  answering_solver slv -> Forall chp_fine assets -> ordinary_site c assets -> site_ready c assets ->
  build_program c assets cons obj fl (new_optimizer base) = Ok (iv, o) -> NoDup (map v_name (variables o)) ->
  sol_status (slv o) <> Optimal -> allow_infeasible fl = true -> fail_on_spill_asset_use fl = false ->
  exists r, optimize slv base c assets cons obj fl = Ok r /\ r_feasible r = false.
Proof.
  intros AN CF OS RD HB NV NO AI FF. eapply returns_infeasible; eauto. destruct (sol_status (slv o)); cbn; congruence.
Qed.

(** *** what the flag measures *)
Lemma column_rows (cells : list cell) n : List.length cells = n -> Qsum (map zero_none cells) == Qsum (map (fun t => zero_none (cell_at cells t)) (seq 0 n)).
Proof.
  intros <-. apply Qsum_index. intros k x E. unfold cell_at. erewrite nth_error_nth; [|exact E]. reflexivity.
Qed.
Lemma spill_sum_rows (lp : frame) n : (forall col cells, In (col, cells) lp -> List.length cells = n) -> n_rows lp = n ->
  spill_sum lp == Qsum (map (fun t => zero_none (cell_at (sum_cols lp is_spill_col) t)) (seq 0 n)).
Proof.
  intros LN NR. unfold spill_sum. rewrite (Qsum_map_ext _ (fun nc => Qsum (map (fun t => zero_none (cell_at (snd nc) t)) (seq 0 n)))).
  2:{ intros [col cells] I. apply filter_In in I. apply column_rows. apply (LN col). apply I. }
  rewrite Qsum_exchange. apply Qsum_map_ext. intros t It. apply in_seq in It. unfold sum_cols. rewrite NR. unfold cell_at at 2. set (g := fun i => Some _).
  rewrite (nth_indep _ None (g 0%nat)) by (rewrite map_length, seq_length; lia). rewrite (map_nth g). rewrite seq_nth by lia. reflexivity.
Qed.

(** For ordinary names the flag measures what the Spill assets report plus twice what the EV spill chargers report (their
    energy is counted a second time through the column total-spills_mwh). *)
Theorem C40_spill_energy slv base c assets cons obj fl r : feasible_run slv base c assets cons obj fl r ->
  Forall ordinary_spill assets -> no_data_with "spill" c -> (forall a, In a assets -> contains "charge_binary" (asset_name a) = false) ->
  (r_spill r = true <-> 1#10000 < horizon c (fun t => total (fun a => r_dumped r t a + 2 * r_ev_spilled r t a) assets)).
Proof.
  intros FR OL ND CB. destruct (run_ctx _ _ _ _ _ _ _ _ FR) as (d & lp & rows & imp & exp & FA & RW & TB & E & NDR & NR).
  destruct (C40_spill_flag _ _ _ _ _ _ _ _ (fr_returns _ _ _ _ _ _ _ _ FR)) as [SF _]. rewrite SF. clear SF.
  assert (Qsum (map (fun nc => column_sum (snd nc)) (spill_columns (r_results r))) == horizon c (fun t => total (fun a => r_dumped r t a + 2 * r_ev_spilled r t a) assets)) as K; [|rewrite K; reflexivity].
  change (spill_sum (r_results r) == horizon c (fun t => total (fun a => r_dumped r t a + 2 * r_ev_spilled r t a) assets)). rewrite E.
  assert (spill_sum (lp ++ totals lp imp exp)%list == spill_sum lp + spill_sum (totals lp imp exp)) as ->.
  { unfold spill_sum. rewrite filter_app, map_app. apply Qsum_app. }
  assert (List.length rows = n_intervals c) as LR by (rewrite <- (Forall2_len _ _ _ RW), seq_length; reflexivity).
  rewrite (spill_sum_rows lp (n_intervals c)); [|intros col cells I; rewrite (to_len _ _ _ TB _ _ I); exact LR|exact NR].
  assert (spill_sum (totals lp imp exp) == Qsum (map (fun t => zero_none (cell_at (sum_cols lp is_spill_total_col) t)) (seq 0 (n_intervals c)))) as ->.
  { unfold spill_sum. change (filter (fun nc : string * list cell => is_spill_col (fst nc)) (totals lp imp exp)) with [("total-spills_mwh", sum_cols lp is_spill_total_col)]. cbn [map snd]. rewrite <- column_rows by (now rewrite sum_cols_length). cbn [Qsum fold_right]. ring. }
  rewrite <- Qsum_map_plus. unfold horizon. apply Qsum_map_ext. intros t It. apply in_seq in It. assert (t < n_intervals c)%nat as Ht by lia. clear It.
  rewrite Forall_forall in OL. pose proof (fa_fine _ _ _ _ _ FA) as AF. rewrite Forall_forall in AF.
  destruct (col_sum_at c assets d rows lp RW TB is_spill_total_col t Ht) as (x & X1 & X2).
  { intros n I. destruct (none_all _ _ _ _ _ I) as (a & Ia & J). destruct (none_cells_of _ _ _ _ J) as (y & attr & -> & At & W). unfold is_spill_total_col. rewrite binary_col' by exact At. now rewrite andb_false_r. }
  destruct (col_sum_at c assets d rows lp RW TB is_spill_col t Ht) as (x' & X1' & X2').
  { intros n I. destruct (none_all _ _ _ _ _ I) as (a & Ia & J). destruct (none_cells_of _ _ _ _ J) as (y & attr & -> & At & W). unfold is_spill_col. rewrite binary_col by exact At. now rewrite andb_false_r. }
  unfold cell_at. rewrite (nth_error_nth _ _ _ X1), (nth_error_nth _ _ _ X1'). cbn [zero_none]. rewrite X2, X2'.
  rewrite (cells_sum_assets is_spill_total_col c assets d t (ev_spilled d t)); [|apply no_spill_site; [intros n H; unfold is_spill_total_col; now rewrite H|exact ND]|intros a Ia; apply spill_total_asset; auto].
  rewrite (cells_sum_assets is_spill_col c assets d t (fun a => dumped d t a + ev_spilled d t a)); [|apply no_spill_site; [intros n H; unfold is_spill_col; now rewrite H|exact ND]|intros a Ia; apply spill_flag_asset; auto].
  unfold total. rewrite <- Qsum_map_plus. apply Qsum_map_ext. intros a Ia. rewrite (ev_spilled_bridge _ _ _ _ _ FA t a Ia Ht), (dumped_bridge _ _ _ _ _ FA t a Ia Ht). ring.
Qed.
