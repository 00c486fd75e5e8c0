(** * SemWithin: the result of a solver that meets the rows up to a tolerance (proofs) *)
From Verif Require Import Base Pulp Params Optimizer Types Assets EVs Site Constraints Objectives Extract Pipeline Emit Prim Spec SpecSwitch SpecReport SpecRun SpecWithin SpecCost SpecNames SpecTotals Layout Rows Sem SemEv SemNear SemSite SemProg SemObj SemCells SemRows SemTable SemResults RunFacts Builds Complete ExtractOk Totals Totals2 Returns RowNames PropResults PropChecks.
Open Scope Q_scope.
Open Scope string_scope.

(** ** The numbers of a table that reports a dispatch *)
Section Shown.
Context (r : sim_result) (c : site_cfg) (assets : list asset) (d : dispatch).
Hypothesis RP : reports (r_results r) c assets d.
Hypothesis FN0 : Forall asset_fine assets.

Lemma s_fa_fine_at (t : nat) a : (t < n_intervals c)%nat -> In a assets -> asset_fine a.
Proof. intros Ht Ia. pose proof FN0 as F. rewrite Forall_forall in F. auto. Qed.
Lemma s_rep_qty a t attr q : In a assets -> (t < n_intervals c)%nat ->
  In (column (asset_name a) attr, Some (d_qty d (asset_name a) q t)) (asset_cells d t a) -> rep r (asset_name a) attr t == d_qty d (asset_name a) q t.
Proof. intros Ia Ht I. unfold rep. eapply num_asset; eauto. Qed.
Lemma s_rep_zero a t attr : In a assets -> (t < n_intervals c)%nat -> In (column (asset_name a) attr, Some 0) (asset_cells d t a) -> rep r (asset_name a) attr t == 0.
Proof. intros Ia Ht I. unfold rep. eapply num_asset; eauto. Qed.
Lemma s_main_cell e t col q : In (AEVs e) assets -> (t < n_intervals c)%nat -> In (col, Some q) (ev_main_cells d t e) -> num (r_results r) col t == q.
Proof. intros Ia Ht I. eapply num_asset; eauto. cbn [asset_cells]. apply in_app_iff. now left. Qed.

Lemma s_charger_reported e k cc t : In (AEVs e) assets -> (t < n_intervals c)%nat -> nth_error (ev_chargers e) k = Some cc ->
  let over f := Qsum (map f (seq 0 (List.length (ev_event_cfgs e)))) in
  rep_part r e (cg_name cc) "electric_charge_mwh" t == over (fun i => d_ev_charge d (ev_name e) i k t) /\
  rep_part r e (cg_name cc) "electric_discharge_mwh" t == over (fun i => d_ev_discharge d (ev_name e) i k t) /\
  rep_part r e (cg_name cc) "electric_loss_mwh" t == over (fun i => d_ev_loss d (ev_name e) i k t).
Proof.
  intros Ia Ht E over. unfold rep_part, rep. splits; (eapply s_main_cell; [eauto|auto|]); unfold ev_main_cells; apply in_app_iff; left; apply in_flat_map; exists (k, cc); (split; [now apply enumerate_in|]); cbn [ev_charger_report fst snd In]; tauto.
Qed.
Lemma s_event_reported e i ec t : In (AEVs e) assets -> (t < n_intervals c)%nat -> nth_error (ev_event_cfgs e) i = Some ec ->
  let over f := Qsum (map f (seq 0 (List.length (ev_chargers e)))) in
  rep_part r e (ce_name ec) "electric_charge_mwh" t == over (fun k => d_ev_charge d (ev_name e) i k t) /\
  rep_part r e (ce_name ec) "electric_discharge_mwh" t == over (fun k => d_ev_discharge d (ev_name e) i k t) /\
  rep_part r e (ce_name ec) "electric_loss_mwh" t == over (fun k => d_ev_loss d (ev_name e) i k t).
Proof.
  intros Ia Ht E over. unfold rep_part, rep. splits; (eapply s_main_cell; [eauto|auto|]); unfold ev_main_cells; apply in_app_iff; right; apply in_app_iff; left; apply in_flat_map; exists (i, ec); (split; [now apply enumerate_in|]); cbn [ev_event_report fst snd In]; tauto.
Qed.
Lemma s_soc_reported e i t : In (AEVs e) assets -> (t < n_intervals c)%nat -> (i < List.length (ev_event_cfgs e))%nat ->
  rep_event_soc r e i "initial_soc_mwh" t == d_ev_soc0 d (ev_name e) i t /\ rep_event_soc r e i "final_soc_mwh" t == d_ev_soc1 d (ev_name e) i t.
Proof.
  intros Ia Ht Hi. unfold rep_event_soc, rep. splits; (eapply s_main_cell; [eauto|auto|]); unfold ev_main_cells; apply in_app_iff; right; apply in_app_iff; right; unfold ev_soc_report; cbv zeta; apply in_app_iff;
    [left|right]; apply in_map_iff; exists i; (split; [reflexivity|apply in_seq; lia]).
Qed.
Lemma s_spill_reported e cc t : In (AEVs e) assets -> (t < n_intervals c)%nat -> In cc (ev_spill_chargers e) ->
  let over f := Qsum (map f (seq 0 (List.length (ev_event_cfgs e)))) in
  rep_part r e (cg_name cc) "electric_charge_mwh" t == over (fun i => d_spill_charge d (ev_name e) i t) /\
  rep_part r e (cg_name cc) "electric_discharge_mwh" t == 0 /\
  rep_part r e (cg_name cc) "electric_loss_mwh" t == over (fun i => d_spill_loss d (ev_name e) i t).
Proof.
  intros Ia Ht E over. unfold rep_part, rep. splits; (eapply num_asset; [exact RP|eauto|auto|]); cbn [asset_cells]; apply in_app_iff; right; unfold ev_spill_columns; apply in_flat_map; exists cc; (split; [exact E|]); cbn [ev_spill_report In]; tauto.
Qed.

Lemma s_evs_charge_reported e t : In (AEVs e) assets -> (t < n_intervals c)%nat ->
  rep_chargers r e (ev_chargers e ++ ev_spill_chargers e) "electric_charge_mwh" t == ev_total_charge d t e + ev_spill_total d t e /\
  rep_chargers r e (ev_chargers e ++ ev_spill_chargers e) "electric_discharge_mwh" t == ev_total_discharge d t e.
Proof.
  intros Ia Ht. pose proof (s_fa_fine_at t _ Ht Ia) as FN. cbn in FN. destruct FN as (L1 & _ & _).
  destruct (ev_spill_chargers e) as [|cc [|? ?]] eqn:SP; try discriminate.
  destruct (s_spill_reported e cc t Ia Ht) as (S1 & S2 & _); [rewrite SP; now left|].
  unfold rep_chargers. rewrite !map_app. split; rewrite Qsum_app; cbn [map Qsum fold_right].
  - rewrite S1. rewrite (Qsum_index (ev_chargers e) _ (fun k => Qsum (map (fun i => d_ev_charge d (ev_name e) i k t) (seq 0 (List.length (ev_event_cfgs e)))))).
    + unfold ev_total_charge, ev_spill_total. rewrite (Qsum_exchange (fun i k => d_ev_charge d (ev_name e) i k t)). ring.
    + intros k x E. apply (s_charger_reported e k x t Ia Ht E).
  - rewrite S2. rewrite (Qsum_index (ev_chargers e) _ (fun k => Qsum (map (fun i => d_ev_discharge d (ev_name e) i k t) (seq 0 (List.length (ev_event_cfgs e)))))).
    + unfold ev_total_discharge. rewrite (Qsum_exchange (fun i k => d_ev_discharge d (ev_name e) i k t)). ring.
    + intros k x E. apply (s_charger_reported e k x t Ia Ht E).
Qed.

Lemma s_bridge t a : In a assets -> (t < n_intervals c)%nat ->
  (r_elec_gen r t a == elec_gen d t a /\ r_elec_load r t a == elec_load d t a /\ r_charge r t a == charge d t a /\ r_discharge r t a == discharge d t a) /\
  (r_ht_gen r t a == ht_gen d t a /\ r_ht_load r t a == ht_load d t a /\ r_lt_gen r t a == lt_gen d t a /\ r_lt_load r t a == lt_load d t a) /\
  r_gas r t a == gas_use d t a.
Proof.
  intros Ia Ht.
  destruct a as [b|b|b|b|b|b|nm|nm]; cbn [r_elec_gen r_elec_load r_charge r_discharge r_ht_gen r_ht_load r_lt_gen r_lt_load r_gas
     elec_gen elec_load charge discharge ht_gen ht_load lt_gen lt_load gas_use];
  repeat match goal with |- _ /\ _ => split end; try reflexivity;
  try (apply (s_evs_charge_reported b t Ia Ht));
  try (apply s_rep_qty; auto; cbn [asset_cells In asset_name]; tauto);
  try (apply s_rep_zero; auto; cbn [asset_cells In asset_name]; tauto).
Qed.
Lemma s_import t : (t < n_intervals c)%nat -> r_import r t == d_import d t.
Proof. intros Ht. eapply num_import; eauto. Qed.
Lemma s_export t : (t < n_intervals c)%nat -> r_export r t == d_export d t.
Proof. intros Ht. eapply num_export; eauto. Qed.
Lemma s_spilled_bridge t a : In a assets -> (t < n_intervals c)%nat -> r_spilled r t a == spilled d t a.
Proof.
  intros Ia Ht. destruct a as [b|b|b|b|b|b|nm|nm]; cbn [r_spilled spilled]; try reflexivity.
  - pose proof (s_fa_fine_at t _ Ht Ia) as FN. cbn in FN. destruct FN as (L1 & _ & _).
    destruct (ev_spill_chargers b) as [|cc [|? ?]] eqn:SP; try discriminate.
    destruct (s_spill_reported b cc t Ia Ht) as (S1 & _); [rewrite SP; now left|].
    unfold rep_chargers. cbn [map Qsum fold_right]. rewrite S1. unfold ev_spill_total. ring.
  - idtac.
    pose proof (s_rep_qty (ASpill nm) t "electric_generation_mwh" ElecGen Ia Ht ltac:(cbn [asset_cells In asset_name]; tauto)) as E1.
    pose proof (s_rep_qty (ASpill nm) t "high_temperature_generation_mwh" HtGen Ia Ht ltac:(cbn [asset_cells In asset_name]; tauto)) as E2.
    pose proof (s_rep_qty (ASpill nm) t "electric_load_mwh" ElecLoad Ia Ht ltac:(cbn [asset_cells In asset_name]; tauto)) as E3.
    now rewrite E1, E2, E3.
Qed.
Lemma s_reported_cost_eq :
  reported_cost c assets r == dispatch_cost c assets d /\ reported_emissions c assets r == dispatch_emissions c assets d.
Proof.
  split; apply Qsum_map_ext; intros t It; apply in_seq in It; assert (t < n_intervals c)%nat as Ht by lia;
    unfold interval_cost, interval_emissions; rewrite (s_import t Ht), (s_export t Ht);
    rewrite (bridge_total assets (r_gas r) (gas_use d) t) by (intros a Ia; apply (s_bridge t a Ia Ht));
    rewrite (bridge_total assets (r_spilled r) (spilled d) t) by (intros a Ia; eapply s_spilled_bridge; eauto); reflexivity.
Qed.

Lemma s_battery b t : In (ABattery b) assets -> (t < n_intervals c)%nat ->
  rep r (b_name b) "electric_charge_mwh" t == d_qty d (b_name b) Charge t /\
  rep r (b_name b) "electric_discharge_mwh" t == d_qty d (b_name b) Discharge t /\
  rep r (b_name b) "electric_loss_mwh" t == d_qty d (b_name b) Loss t /\
  rep r (b_name b) "electric_initial_charge_mwh" t == d_qty d (b_name b) Soc0 t /\
  rep r (b_name b) "electric_final_charge_mwh" t == d_qty d (b_name b) Soc1 t.
Proof.
  intros Ia Ht. splits; (apply (s_rep_qty (ABattery b)); auto; cbn [asset_cells In asset_name]; tauto).
Qed.

Lemma s_balances eps t : (t < n_intervals c)%nat -> site_upto eps c assets d t ->
  within eps (r_import r t + total (r_elec_gen r t) assets + total (r_discharge r t) assets)
   (r_export r t + data (id_electric_load_mwh (sc_idata c)) t + total (r_elec_load r t) assets + total (r_charge r t) assets) /\
  within eps (total (r_ht_gen r t) assets) (total (r_ht_load r t) assets + data (id_high_temperature_load_mwh (sc_idata c)) t) /\
  within eps (total (r_lt_gen r t) assets + data (id_low_temperature_generation_mwh (sc_idata c)) t)
    (total (r_lt_load r t) assets + data (id_low_temperature_load_mwh (sc_idata c)) t).
Proof.
  intros Ht (_ & B1 & B2 & B3). unfold within in *.
  rewrite s_import, s_export by auto.
  repeat match goal with |- context[total (?g r t) assets] =>
    match g with
    | r_elec_gen => rewrite (bridge_total assets (r_elec_gen r) (elec_gen d) t) by (intros a Ia; apply (s_bridge t a Ia Ht))
    | r_elec_load => rewrite (bridge_total assets (r_elec_load r) (elec_load d) t) by (intros a Ia; apply (s_bridge t a Ia Ht))
    | r_charge => rewrite (bridge_total assets (r_charge r) (charge d) t) by (intros a Ia; apply (s_bridge t a Ia Ht))
    | r_discharge => rewrite (bridge_total assets (r_discharge r) (discharge d) t) by (intros a Ia; apply (s_bridge t a Ia Ht))
    | r_ht_gen => rewrite (bridge_total assets (r_ht_gen r) (ht_gen d) t) by (intros a Ia; apply (s_bridge t a Ia Ht))
    | r_ht_load => rewrite (bridge_total assets (r_ht_load r) (ht_load d) t) by (intros a Ia; apply (s_bridge t a Ia Ht))
    | r_lt_gen => rewrite (bridge_total assets (r_lt_gen r) (lt_gen d) t) by (intros a Ia; apply (s_bridge t a Ia Ht))
    | r_lt_load => rewrite (bridge_total assets (r_lt_load r) (lt_load d) t) by (intros a Ia; apply (s_bridge t a Ia Ht))
    end end.
  auto.
Qed.
End Shown.

(** ** The table built from rows that report a dispatch *)
Lemma table_reports c assets d rows lp imp exp : names_ok c assets ->
  Forall2 (fun t row => row_is row (row_cells c assets d t)) (seq 0 (n_intervals c)) rows ->
  table_of (map fst (row_cells c assets d 0)) rows lp ->
  assoc "site-import_power_mwh" lp = Some imp -> assoc "site-export_power_mwh" lp = Some exp ->
  reports (lp ++ totals lp imp exp)%list c assets d.
Proof.
  intros NM RW TB A1 A2.
  assert (List.length rows = n_intervals c) as LR by (rewrite <- (Forall2_len _ _ _ RW), seq_length; reflexivity).
  assert (forall col cells, In (col, cells) lp -> List.length cells = n_intervals c) as LL by (intros col cells I; rewrite (to_len _ _ _ TB _ _ I); exact LR).
  assert (n_rows lp = n_intervals c) as NRW.
  { destruct lp as [|[n cl] lp']; [discriminate|]. cbn. apply (LL n cl). now left. }
  unfold reports. splits.
  - intros col cells I. apply in_app_iff in I. destruct I as [I|I]; [eauto|]. unfold totals in I. apply in_app_iff in I. destruct I as [I|I].
    + apply in_map_iff in I. destruct I as (q & E & _). injection E as <- <-. now rewrite sum_cols_length.
    + cbn [In] in I. destruct I as [I|[I|[I|[]]]]; injection I as <- <-; try (now rewrite sum_cols_length).
      apply assoc_in in A1, A2. rewrite zip_cells_length; [eauto|]. now rewrite (LL _ _ A1), (LL _ _ A2).
  - rewrite map_app.
    assert (forall l l' : list string, NoDup l -> NoDup l' -> (forall n, In n l -> ~ In n l') -> NoDup (l ++ l')%list) as NDA.
    { induction l as [|x l IH]; intros l' H1 H2 H3; [exact H2|]. inversion H1; subst. cbn [app]. constructor; [|apply IH; auto; intros; apply H3; now right].
      rewrite in_app_iff. intros [I|I]; [tauto|]. eapply H3; eauto. now left. }
    apply NDA.
    + change (NoDup (map fst lp)). rewrite (to_names _ _ _ TB). apply TB.
    + change (NoDup reserved). apply nodup_str_iff. reflexivity.
    + intros n I. change (In n (map fst lp)) in I. rewrite (to_names _ _ _ TB) in I. change (~ In n reserved). eapply not_reserved; eauto.
  - intros t col oq Ht I. apply all_in_row in I. destruct (nth_error_lt rows t) as (row & E); [lia|].
    assert (row_is row (row_cells c assets d t)) as RI.
    { assert (nth_error (seq 0 (n_intervals c)) t = Some t) as S1.
      { rewrite nth_error_nth' with (d := 0%nat) by (rewrite seq_length; exact Ht). now rewrite seq_nth by exact Ht. }
      exact (Forall2_nth _ _ _ _ _ _ RW S1 E). }
    destruct (row_is_in _ _ _ _ RI I) as (q & J & Q). destruct (to_cell _ _ _ TB _ _ _ _ E J) as (cells & C1 & C2).
    destruct oq as [p|]; exists cells, q; splits; auto; apply in_app_iff; now left.
Qed.

(** ** The run *)
Record near_run (eps : Q) (slv : solver) (base : nat) (c : site_cfg) (assets : list asset) (cons : list constraint) (obj : objective) (fl : flags) (r : sim_result)
    (iv : interval_vars) (o : opt) (s : assignment) : Prop := mkNearRun {
  nr_built : build_program c assets cons obj fl (new_optimizer base) = Ok (iv, o);
  nr_feasible : feasible_within eps s o;
  nr_answer : forall v, occurs o v = true -> sol_value (slv o) (v_id v) = Some (s (v_id v));
  nr_status : exists x, objective_is fl r x /\ x == objective_value s o;
  nr_optimal : sol_status (slv o) = Optimal;
  nr_n : (0 < n_intervals c)%nat;
  nr_fine : Forall asset_fine assets;
  nr_physical : physical_upto eps c assets fl (d_of s iv);
  nr_reports : reports (r_results r) c assets (d_of s iv) }.

Lemma upto_clip eps a f fl d t : asset_upto eps a f fl d t -> clip_ok d t a.
Proof. destruct a; cbn [clip_ok]; auto. cbn [asset_upto]. unfold battery_upto, between. cbv zeta. tauto. Qed.

Theorem tolerant_run eps slv base c assets cons obj fl r : 0 <= eps < 1 -> tolerant_solver eps slv -> Forall chp_fine assets -> names_ok c assets ->
  optimize slv base c assets cons obj fl = Ok r -> r_feasible r = true ->
  exists iv o s, near_run eps slv base c assets cons obj fl r iv o s.
Proof.
  intros EP SND CF NM H FE. unfold optimize in H. destruct (build_program c assets cons obj fl (new_optimizer base)) as [[iv o]|] eqn:HB; [|discriminate].
  destruct (program_split _ _ _ _ _ _ _ _ HB) as (o1 & o2 & cs & extra & e & _ & _ & P & _ & _ & OE & CE).
  rewrite rbind_ok in H. destruct H as ([st sol] & HS & H). cbn [fst snd] in H.
  unfold solve in HS. rewrite rbind_ok in HS. destruct HS as (u1 & _ & HS). cbv zeta in HS. rewrite rbind_ok in HS. destruct HS as (u2 & HOB & HS). injection HS as HS1 HS2.
  unfold extract_results in H. rewrite rbind_ok in H. destruct H as (rows & HR & H). cbv zeta in H. rewrite rbind_ok in H. destruct H as (u3 & HL & H).
  rewrite rbind_ok in H. destruct H as (res & HT & H). rewrite rbind_ok in H. destruct H as (u4 & HC & H). rewrite rbind_ok in H. destruct H as (sp & HW & H). injection H as <-.
  cbn [r_feasible] in FE. rewrite FE in HC. rewrite rbind_ok in HC. destruct HC as ([] & HSC & HC). destruct u4.
  rewrite <- HS1 in FE. cbn [st_feasible] in FE. assert (sol_status (slv o) = Optimal) as ST by (destruct (sol_status (slv o)); cbn in FE; congruence).
  destruct (SND o ST) as (s & FS & VS). rewrite HS2 in *.
  pose proof FS as FS'. rewrite near_iff, CE, near_app in FS'. destruct FS' as ((OK & _) & _).
  assert (vals_of (d_of s iv) s iv) as VO by (eapply d_of_vals; [apply (pr_names _ _ _ _ _ _ _ P)|apply (pr_shape _ _ _ _ _ _ _ P)|apply (pr_fine _ _ _ _ _ _ _ P)]).
  assert (physical_upto eps c assets fl (d_of s iv)) as PH by (eapply (pr_near _ _ _ _ _ _ _ P); eauto).
  assert (forall v x, var_value o sol v = Some x -> x = s (v_id v)) as V by (intros; eapply var_value_sound; eauto).
  assert (forall row x v, In row iv -> In x row -> In v (must_vars x) -> var_value o sol v <> None) as OC.
  { intros row x v Ir Ix Iv. assert (In v (cs_vars cs)) as IC by (eapply (pr_occurs _ _ _ _ _ _ _ P); eauto).
    assert (occurs o v = true) as OO by (apply occurs_cons; rewrite CE, cs_vars_app, in_app_iff; now left).
    unfold var_value. rewrite OO, (VS v OO). congruence. }
  destruct NM as (N1 & N2 & N3). pose proof (conj N1 (conj N2 N3)) as NM.
  assert (Forall2 (fun t row => row_is row (row_cells c assets (d_of s iv) t)) (seq 0 (n_intervals c)) rows) as RW.
  { pose proof (proj1 (rmap_ok _ _ _) HR) as HR'. eapply Forall2_impl; [|exact HR']. cbv beta. intros t row _ K. eapply (full_row _ s); eauto. intros a t' Ia Ht'. apply (upto_clip eps a (sc_freq c) fl). destruct PH as [_ P2]. apply (P2 a Ia); auto. }
  assert (forall row, In row rows -> map fst row = map fst (row_cells c assets (d_of s iv) 0)) as NMS.
  { intros row I. destruct (Forall2_in_r _ _ _ _ RW I) as (t & _ & K). rewrite (row_is_names _ _ K). apply row_names. }
  pose proof (build_table _ rows _ _ NMS (prices_once c assets (d_of s iv) 0 NM) HL) as TB.
  set (lp := fold_left append_row rows []) in *.
  assert (lp <> []) as NE by (intros X; unfold check_array_lengths in HL; rewrite X in HL; discriminate).
  destruct (add_totals_eq lp res NE) as (imp & exp & A1 & A2 & A3); [|exact HT|].
  { intros n I. rewrite (to_names _ _ _ TB) in I. eapply not_reserved; eauto. }
  assert (0 < n_intervals c)%nat as HN by (destruct (n_intervals c) eqn:N0; [|lia]; exfalso; apply NE; subst lp; apply Forall2_len in RW; destruct rows; [reflexivity|discriminate]).
  assert (Forall asset_fine assets) as AF by (apply (pr_fine _ _ _ _ _ _ _ P); intros X; pose proof (pr_len _ _ _ _ _ _ _ P) as L; rewrite X in L; cbn in L; lia).
  exists iv, o, s. constructor; cbn [r_status r_results]; auto.
  - intros v Ov. rewrite HS2. now apply VS.
  - rewrite ST, OE in HOB. cbn [is_optimal rassert rbind] in HOB. unfold objective_is. cbn [r_status]. rewrite <- HS1, OE. cbn [st_objective]. unfold expr_value in *.
    destruct (is_constant e && _)%bool eqn:CO.
    { exists (objective_value s o). split; [|reflexivity]. right. split; [reflexivity|]. destruct (allow_infeasible fl); [reflexivity|]. discriminate HOB. }
    destruct (terms_value_some o sol (e_terms e) s VS) as (x & TV).
    { intros v Iv. unfold occurs. apply existsb_exists. exists v. split; [|apply Nat.eqb_refl]. unfold all_occurrences. rewrite OE. apply in_app_iff. left. exact Iv. }
    rewrite TV. eexists. split; [left; reflexivity|]. rewrite (terms_value_eval _ _ _ _ VS _ TV). unfold objective_value. rewrite OE. unfold eval. reflexivity.
  - rewrite HS2. exact ST.
  - rewrite A3. eapply table_reports; eauto.
Qed.
