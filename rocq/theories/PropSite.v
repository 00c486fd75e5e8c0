(** * PropSite: properties C07 - C15 and C23 - C27 of every feasible result *)
From Verif Require Import Base Pulp Params Optimizer Types Assets EVs Site Constraints Objectives Extract Pipeline Emit Prim Spec SpecReport SpecRun SemSite RunFacts SampleSite.
Open Scope Q_scope.
Open Scope string_scope.

Section Facts.
Context (r : sim_result) (c : site_cfg) (assets : list asset) (fl : flags) (d : dispatch).
Hypothesis FA : facts (r_results r) c assets fl d.
Lemma phys_asset a : In a assets -> asset_physical a (sc_freq c) fl (n_intervals c) d.
Proof. apply (fa_physical _ _ _ _ _ FA). Qed.
Lemma r_import_eq t : (t < n_intervals c)%nat -> r_import r t == d_import d t.
Proof. intros Ht. eapply num_import; eauto. apply FA. Qed.
Lemma r_export_eq t : (t < n_intervals c)%nat -> r_export r t == d_export d t.
Proof. intros Ht. eapply num_export; eauto. apply FA. Qed.

Lemma balances t : (t < n_intervals c)%nat ->
  (r_import r t + total (r_elec_gen r t) assets + total (r_discharge r t) assets ==
   r_export r t + data (id_electric_load_mwh (sc_idata c)) t + total (r_elec_load r t) assets + total (r_charge r t) assets) /\
  total (r_ht_gen r t) assets == total (r_ht_load r t) assets + data (id_high_temperature_load_mwh (sc_idata c)) t /\
  total (r_lt_gen r t) assets + data (id_low_temperature_generation_mwh (sc_idata c)) t ==
  total (r_lt_load r t) assets + data (id_low_temperature_load_mwh (sc_idata c)) t.
Proof.
  intros Ht. destruct (fa_physical _ _ _ _ _ FA) as [SP _]. destruct (SP t Ht) as (_ & B1 & B2 & B3).
  unfold electricity_balanced, high_temperature_balanced, low_temperature_balanced in *.
  rewrite r_import_eq, r_export_eq by auto.
  repeat match goal with |- context[total (?g r t) assets] =>
    match g with
    | r_elec_gen => rewrite (bridge_total assets (r_elec_gen r) (elec_gen d) t) by (intros a Ia; apply (bridge r c assets fl d FA t a Ia Ht))
    | r_elec_load => rewrite (bridge_total assets (r_elec_load r) (elec_load d) t) by (intros a Ia; apply (bridge r c assets fl d FA t a Ia Ht))
    | r_charge => rewrite (bridge_total assets (r_charge r) (charge d) t) by (intros a Ia; apply (bridge r c assets fl d FA t a Ia Ht))
    | r_discharge => rewrite (bridge_total assets (r_discharge r) (discharge d) t) by (intros a Ia; apply (bridge r c assets fl d FA t a Ia Ht))
    | r_ht_gen => rewrite (bridge_total assets (r_ht_gen r) (ht_gen d) t) by (intros a Ia; apply (bridge r c assets fl d FA t a Ia Ht))
    | r_ht_load => rewrite (bridge_total assets (r_ht_load r) (ht_load d) t) by (intros a Ia; apply (bridge r c assets fl d FA t a Ia Ht))
    | r_lt_gen => rewrite (bridge_total assets (r_lt_gen r) (lt_gen d) t) by (intros a Ia; apply (bridge r c assets fl d FA t a Ia Ht))
    | r_lt_load => rewrite (bridge_total assets (r_lt_load r) (lt_load d) t) by (intros a Ia; apply (bridge r c assets fl d FA t a Ia Ht))
    end end.
  auto.
Qed.
Lemma grid t : (t < n_intervals c)%nat ->
  between 0 (r_import r t) (energy (sc_freq c) (sc_import_limit_mw c)) /\
  between 0 (r_export r t) (energy (sc_freq c) (sc_export_limit_mw c)) /\ (r_import r t == 0 \/ r_export r t == 0).
Proof.
  intros Ht. destruct (fa_physical _ _ _ _ _ FA) as [SP _]. destruct (SP t Ht) as (G & _). unfold grid_limits, between in *.
  rewrite r_import_eq, r_export_eq by auto. exact G.
Qed.

Lemma battery_rep b t : In (ABattery b) assets -> (t < n_intervals c)%nat ->
  rep r (b_name b) "electric_charge_mwh" t == d_qty d (b_name b) Charge t /\
  rep r (b_name b) "electric_discharge_mwh" t == d_qty d (b_name b) Discharge t /\
  rep r (b_name b) "electric_loss_mwh" t == d_qty d (b_name b) Loss t /\
  rep r (b_name b) "electric_initial_charge_mwh" t == d_qty d (b_name b) Soc0 t /\
  rep r (b_name b) "electric_final_charge_mwh" t == d_qty d (b_name b) Soc1 t.
Proof.
  intros Ia Ht. splits; (apply (rep_qty r c assets fl d FA (ABattery b)); auto; cbn [asset_cells In asset_name]; tauto).
Qed.

(** telescoping sums *)
Lemma telescope (n : nat) (s0 s1 g : nat -> Q) : (0 < n)%nat -> (forall t, (t < n)%nat -> s1 t == s0 t + g t) ->
  (forall t, (S t < n)%nat -> s0 (S t) == s1 t) -> s1 (n - 1)%nat == s0 0%nat + Qsum (map g (seq 0 n)).
Proof.
  intros Hn H1 H2. destruct n as [|n]; [lia|]. clear Hn. replace (S n - 1)%nat with n by lia. induction n as [|n IH].
  - cbn [seq map Qsum fold_right]. rewrite (H1 0%nat) by lia. ring.
  - rewrite seq_S, map_app, Qsum_app. cbn [map Qsum fold_right Nat.add]. rewrite (H1 (S n)) by lia. rewrite (H2 n) by lia. rewrite IH by (intros; first [apply H1|apply H2]; lia). ring.
Qed.
End Facts.

(** ** C07 - C09: the three balances of every interval, each asset counted once *)
Theorem C07_electricity_balance : forall slv base c assets cons obj fl r, feasible_run slv base c assets cons obj fl r ->
  forall t, (t < n_intervals c)%nat ->
  r_import r t + total (r_elec_gen r t) assets + total (r_discharge r t) assets ==
  r_export r t + data (id_electric_load_mwh (sc_idata c)) t + total (r_elec_load r t) assets + total (r_charge r t) assets.
Proof. intros slv base c assets cons obj fl r R t Ht. destruct (run_facts _ _ _ _ _ _ _ _ R) as (d & _ & FA). apply (balances r c assets fl d FA t Ht). Qed.

Theorem C08_high_temperature_balance : forall slv base c assets cons obj fl r, feasible_run slv base c assets cons obj fl r ->
  forall t, (t < n_intervals c)%nat ->
  total (r_ht_gen r t) assets == total (r_ht_load r t) assets + data (id_high_temperature_load_mwh (sc_idata c)) t.
Proof. intros slv base c assets cons obj fl r R t Ht. destruct (run_facts _ _ _ _ _ _ _ _ R) as (d & _ & FA). apply (balances r c assets fl d FA t Ht). Qed.

Theorem C09_low_temperature_balance : forall slv base c assets cons obj fl r, feasible_run slv base c assets cons obj fl r ->
  forall t, (t < n_intervals c)%nat ->
  total (r_lt_gen r t) assets + data (id_low_temperature_generation_mwh (sc_idata c)) t ==
  total (r_lt_load r t) assets + data (id_low_temperature_load_mwh (sc_idata c)) t.
Proof. intros slv base c assets cons obj fl r R t Ht. destruct (run_facts _ _ _ _ _ _ _ _ R) as (d & _ & FA). apply (balances r c assets fl d FA t Ht). Qed.

(** a site with every kind of asset: 5 + 1 = 1 + 1 + 2 + 2 in interval 0 *)
Example C07_sample : feasible_run x_solver 0 x_site x_assets [] (ObjName "price") default_flags x_result /\
  total (r_elec_gen x_result 0) x_assets == 6 /\ total (r_charge x_result 0) x_assets == 4 /\ r_export x_result 1 == 1 /\
  total (r_ht_gen x_result 0) x_assets == 6 /\ total (r_lt_load x_result 0) x_assets == 2.
Proof. split; [exact x_run|]. splits; vm_compute; reflexivity. Qed.

(** ** C10 *)
Theorem C10_grid_limits : forall slv base c assets cons obj fl r, feasible_run slv base c assets cons obj fl r ->
  forall t, (t < n_intervals c)%nat ->
  between 0 (r_import r t) (energy (sc_freq c) (sc_import_limit_mw c)) /\
  between 0 (r_export r t) (energy (sc_freq c) (sc_export_limit_mw c)) /\
  (r_import r t == 0 \/ r_export r t == 0).
Proof. intros slv base c assets cons obj fl r R t Ht. destruct (run_facts _ _ _ _ _ _ _ _ R) as (d & _ & FA). apply (grid r c assets fl d FA t Ht). Qed.

(** ** C11 - C15: batteries *)
Theorem C11_battery_within_capacity : forall slv base c assets cons obj fl r b, feasible_run slv base c assets cons obj fl r ->
  In (ABattery b) assets -> forall t, (t < n_intervals c)%nat ->
  between 0 (rep r (b_name b) "electric_initial_charge_mwh" t) (b_capacity_mwh b) /\
  between 0 (rep r (b_name b) "electric_final_charge_mwh" t) (b_capacity_mwh b).
Proof.
  intros slv base c assets cons obj fl r b R Ib t Ht. destruct (run_facts _ _ _ _ _ _ _ _ R) as (d & _ & FA).
  destruct (battery_rep r c assets fl d FA b t Ib Ht) as (_ & _ & _ & E4 & E5). destruct (phys_asset r c assets fl d FA _ Ib) as (P & _). destruct (P t Ht) as (_ & _ & _ & _ & _ & _ & _ & P8 & P9 & _).
  unfold between in *. rewrite E4, E5. auto.
Qed.

Theorem C12_battery_never_both : forall slv base c assets cons obj fl r b, feasible_run slv base c assets cons obj fl r ->
  In (ABattery b) assets -> forall t, (t < n_intervals c)%nat ->
  rep r (b_name b) "electric_charge_mwh" t == 0 \/ rep r (b_name b) "electric_discharge_mwh" t == 0.
Proof.
  intros slv base c assets cons obj fl r b R Ib t Ht. destruct (run_facts _ _ _ _ _ _ _ _ R) as (d & _ & FA).
  destruct (battery_rep r c assets fl d FA b t Ib Ht) as (E1 & E2 & _). destruct (phys_asset r c assets fl d FA _ Ib) as (P & _). destruct (P t Ht) as (_ & _ & _ & _ & P5 & _).
  rewrite E1, E2. exact P5.
Qed.

Theorem C13_battery_accounting : forall slv base c assets cons obj fl r b, feasible_run slv base c assets cons obj fl r ->
  In (ABattery b) assets ->
  let n := n_intervals c in
  let first := rep r (b_name b) "electric_initial_charge_mwh" 0%nat in
  let last := rep r (b_name b) "electric_final_charge_mwh" (n - 1)%nat in
  first == b_initial_charge_mwh b /\ last == b_final_charge_mwh b /\
  (forall t, (S t < n)%nat -> rep r (b_name b) "electric_initial_charge_mwh" (S t) == rep r (b_name b) "electric_final_charge_mwh" t) /\
  last == first + horizon c (rep r (b_name b) "electric_charge_mwh") - horizon c (rep r (b_name b) "electric_discharge_mwh")
          - horizon c (rep r (b_name b) "electric_loss_mwh").
Proof.
  intros slv base c assets cons obj fl r b R Ib n first last. destruct (run_facts _ _ _ _ _ _ _ _ R) as (d & _ & FA).
  pose proof (fa_n _ _ _ _ _ FA) as Hn. pose proof (battery_rep r c assets fl d FA b) as E. destruct (phys_asset r c assets fl d FA _ Ib) as (P & L & F0 & F1).
  assert (forall t, (S t < n)%nat -> rep r (b_name b) "electric_initial_charge_mwh" (S t) == rep r (b_name b) "electric_final_charge_mwh" t) as LK.
  { intros t Ht. destruct (E (S t) Ib Ht) as (_ & _ & _ & E4 & _). destruct (E t Ib ltac:(subst n; lia)) as (_ & _ & _ & _ & E5). rewrite E4, E5. now apply L. }
  splits; auto.
  - subst first. destruct (E 0%nat Ib Hn) as (_ & _ & _ & E4 & _). now rewrite E4.
  - subst last. destruct (E (n - 1)%nat Ib ltac:(subst n; lia)) as (_ & _ & _ & _ & E5). now rewrite E5.
  - subst first last. rewrite (telescope n (rep r (b_name b) "electric_initial_charge_mwh") (rep r (b_name b) "electric_final_charge_mwh")
      (fun t => rep r (b_name b) "electric_charge_mwh" t - rep r (b_name b) "electric_discharge_mwh" t - rep r (b_name b) "electric_loss_mwh" t) Hn); auto.
    + rewrite !Qsum_map_minus. unfold horizon. fold n. ring.
    + intros t Ht. destruct (E t Ib Ht) as (E1 & E2 & E3 & E4 & E5). destruct (P t Ht) as (_ & _ & _ & _ & _ & _ & _ & _ & _ & P10). rewrite E1, E2, E3, E4, E5, P10. ring.
Qed.

Theorem C14_battery_losses : forall slv base c assets cons obj fl r b, feasible_run slv base c assets cons obj fl r ->
  In (ABattery b) assets ->
  (forall t, (t < n_intervals c)%nat ->
     rep r (b_name b) "electric_loss_mwh" t == rep r (b_name b) "electric_charge_mwh" t * (1 - b_efficiency_pct b) /\
     0 <= rep r (b_name b) "electric_loss_mwh" t) /\
  (b_initial_charge_mwh b == b_final_charge_mwh b ->
     horizon c (rep r (b_name b) "electric_discharge_mwh") == b_efficiency_pct b * horizon c (rep r (b_name b) "electric_charge_mwh")).
Proof.
  intros slv base c assets cons obj fl r b R Ib. pose proof (C13_battery_accounting _ _ _ _ _ _ _ _ b R Ib) as (A1 & A2 & _ & A4). destruct (run_facts _ _ _ _ _ _ _ _ R) as (d & _ & FA).
  pose proof (battery_rep r c assets fl d FA b) as E. destruct (phys_asset r c assets fl d FA _ Ib) as (P & _).
  assert (forall t, (t < n_intervals c)%nat -> rep r (b_name b) "electric_loss_mwh" t == rep r (b_name b) "electric_charge_mwh" t * (1 - b_efficiency_pct b) /\ 0 <= rep r (b_name b) "electric_loss_mwh" t) as LS.
  { intros t Ht. destruct (E t Ib Ht) as (E1 & _ & E3 & _ & _). destruct (P t Ht) as (_ & _ & _ & _ & _ & P6 & P7 & _). rewrite E1, E3. auto. }
  split; [exact LS|]. intros EQ.
  assert (horizon c (rep r (b_name b) "electric_loss_mwh") == (1 - b_efficiency_pct b) * horizon c (rep r (b_name b) "electric_charge_mwh")) as HL.
  { unfold horizon. rewrite <- Qsum_map_scale. apply Qsum_map_ext. intros t I. apply in_seq in I. destruct (LS t) as [L1 _]; [lia|]. rewrite L1. ring. }
  rewrite A1, A2, EQ, HL in A4. lra.
Qed.

Theorem C15_battery_power_limits : forall slv base c assets cons obj fl r b, feasible_run slv base c assets cons obj fl r ->
  In (ABattery b) assets -> forall t, (t < n_intervals c)%nat ->
  between 0 (rep r (b_name b) "electric_charge_mwh" t) (energy (sc_freq c) (b_charge_power_mw b)) /\
  between 0 (rep r (b_name b) "electric_discharge_mwh" t) (energy (sc_freq c) (b_discharge_power_mw b)) /\
  rep r (b_name b) "electric_charge_mwh" t <= b_capacity_mwh b /\ rep r (b_name b) "electric_discharge_mwh" t <= b_capacity_mwh b.
Proof.
  intros slv base c assets cons obj fl r b R Ib t Ht. destruct (run_facts _ _ _ _ _ _ _ _ R) as (d & _ & FA).
  destruct (battery_rep r c assets fl d FA b t Ib Ht) as (E1 & E2 & _). destruct (phys_asset r c assets fl d FA _ Ib) as (P & _). destruct (P t Ht) as (P1 & P2 & P3 & P4 & _).
  unfold between in *. rewrite E1, E2. auto.
Qed.

Example C11_C15_sample : In (ABattery x_battery) x_assets /\
  rep x_result "battery" "electric_charge_mwh" 0 == 2 /\ rep x_result "battery" "electric_loss_mwh" 0 == 1 /\
  rep x_result "battery" "electric_discharge_mwh" 1 == 1 /\ rep x_result "battery" "electric_final_charge_mwh" 0 == 1.
Proof. split; [now left|]. splits; vm_compute; reflexivity. Qed.

(** ** C23 - C27: thermal assets and renewables *)
Theorem C23_chp : forall slv base c assets cons obj fl r k, feasible_run slv base c assets cons obj fl r ->
  In (ACHP k) assets -> forall t, (t < n_intervals c)%nat ->
  let elec := rep r (ch_name k) "electric_generation_mwh" t in
  let gas := rep r (ch_name k) "gas_consumption_mwh" t in
  between 0 elec (energy (sc_freq c) (ch_max_mw k)) /\
  (elec == 0 \/ energy (sc_freq c) (ch_min_mw k) <= elec) /\
  (0 < ch_electric_efficiency_pct k -> gas == elec / ch_electric_efficiency_pct k) /\
  rep r (ch_name k) "high_temperature_generation_mwh" t == gas * ch_ht_efficiency_pct k /\
  rep r (ch_name k) "low_temperature_generation_mwh" t == gas * ch_lt_efficiency_pct k /\ 0 <= gas.
Proof.
  intros slv base c assets cons obj fl r k R Ik t Ht elec gas. destruct (run_facts _ _ _ _ _ _ _ _ R) as (d & _ & FA).
  assert (elec == d_qty d (ch_name k) ElecGen t) as E1 by (apply (rep_qty r c assets fl d FA (ACHP k)); auto; cbn [asset_cells In asset_name]; tauto).
  assert (gas == d_qty d (ch_name k) Gas t) as E2 by (apply (rep_qty r c assets fl d FA (ACHP k)); auto; cbn [asset_cells In asset_name]; tauto).
  assert (rep r (ch_name k) "high_temperature_generation_mwh" t == d_qty d (ch_name k) HtGen t) as E3 by (apply (rep_qty r c assets fl d FA (ACHP k)); auto; cbn [asset_cells In asset_name]; tauto).
  assert (rep r (ch_name k) "low_temperature_generation_mwh" t == d_qty d (ch_name k) LtGen t) as E4 by (apply (rep_qty r c assets fl d FA (ACHP k)); auto; cbn [asset_cells In asset_name]; tauto).
  destruct (phys_asset r c assets fl d FA _ Ik t Ht) as (P1 & P2 & P3 & P4 & P5 & P6 & _). unfold between in *. rewrite E1, E2, E3, E4. auto 10.
Qed.

Theorem C24_boiler : forall slv base c assets cons obj fl r k, feasible_run slv base c assets cons obj fl r ->
  In (ABoiler k) assets -> forall t, (t < n_intervals c)%nat ->
  let heat := rep r (bo_name k) "high_temperature_generation_mwh" t in
  rep r (bo_name k) "gas_consumption_mwh" t == heat / bo_efficiency_pct k /\
  between (energy (sc_freq c) (bo_min_mw k)) heat (energy (sc_freq c) (bo_max_mw k)) /\
  (0 < energy (sc_freq c) (bo_min_mw k) -> ~ heat == 0).
Proof.
  intros slv base c assets cons obj fl r k R Ik t Ht heat. destruct (run_facts _ _ _ _ _ _ _ _ R) as (d & _ & FA).
  assert (heat == d_qty d (bo_name k) HtGen t) as E1 by (apply (rep_qty r c assets fl d FA (ABoiler k)); auto; cbn [asset_cells In asset_name]; tauto).
  assert (rep r (bo_name k) "gas_consumption_mwh" t == d_qty d (bo_name k) Gas t) as E2 by (apply (rep_qty r c assets fl d FA (ABoiler k)); auto; cbn [asset_cells In asset_name]; tauto).
  destruct (phys_asset r c assets fl d FA _ Ik t Ht) as (P1 & P2 & P3). unfold between in *. rewrite E1, E2. splits; auto; try apply P1. intros H0 H1. rewrite H1 in P1. lra.
Qed.

Theorem C25_heat_pump : forall slv base c assets cons obj fl r k, feasible_run slv base c assets cons obj fl r ->
  In (AHeatPump k) assets -> forall t, (t < n_intervals c)%nat ->
  let elec := rep r (hp_name k) "electric_load_mwh" t in
  let heat := rep r (hp_name k) "high_temperature_generation_mwh" t in
  heat == hp_cop k * elec /\ rep r (hp_name k) "low_temperature_load_mwh" t + elec == heat /\
  between 0 elec (energy (sc_freq c) (hp_power_mw k)) /\ 0 <= rep r (hp_name k) "low_temperature_load_mwh" t.
Proof.
  intros slv base c assets cons obj fl r k R Ik t Ht elec heat. destruct (run_facts _ _ _ _ _ _ _ _ R) as (d & _ & FA).
  assert (elec == d_qty d (hp_name k) ElecLoad t) as E1 by (apply (rep_qty r c assets fl d FA (AHeatPump k)); auto; cbn [asset_cells In asset_name]; tauto).
  assert (heat == d_qty d (hp_name k) HtGen t) as E2 by (apply (rep_qty r c assets fl d FA (AHeatPump k)); auto; cbn [asset_cells In asset_name]; tauto).
  assert (rep r (hp_name k) "low_temperature_load_mwh" t == d_qty d (hp_name k) LtLoad t) as E3 by (apply (rep_qty r c assets fl d FA (AHeatPump k)); auto; cbn [asset_cells In asset_name]; tauto).
  destruct (phys_asset r c assets fl d FA _ Ik t Ht) as (P1 & P2 & P3 & P4 & _). unfold between in *. rewrite E1, E2, E3. splits; auto; try apply P1. rewrite P2. ring.
Qed.

Theorem C26_renewable : forall slv base c assets cons obj fl r k, feasible_run slv base c assets cons obj fl r ->
  In (ARenewable k) assets -> forall t, (t < n_intervals c)%nat ->
  let available := data (rg_available_mwh k) t in
  between (rg_lower_pct k * available) (rep r (rg_name k) "electric_generation_mwh" t) available.
Proof.
  intros slv base c assets cons obj fl r k R Ik t Ht available. destruct (run_facts _ _ _ _ _ _ _ _ R) as (d & _ & FA).
  assert (rep r (rg_name k) "electric_generation_mwh" t == d_qty d (rg_name k) ElecGen t) as E1 by (apply (rep_qty r c assets fl d FA (ARenewable k)); auto; cbn [asset_cells In asset_name]; tauto).
  destruct (phys_asset r c assets fl d FA _ Ik t Ht) as (P1 & P2). unfold between in *. rewrite E1. fold (data (rg_available_mwh k) t) in *. fold available in P1, P2. split; auto. lra.
Qed.

Theorem C27_valve : forall slv base c assets cons obj fl r nm, feasible_run slv base c assets cons obj fl r ->
  In (AValve nm) assets -> forall t, (t < n_intervals c)%nat ->
  rep r nm "high_temperature_load_mwh" t == rep r nm "low_temperature_generation_mwh" t /\ 0 <= rep r nm "high_temperature_load_mwh" t.
Proof.
  intros slv base c assets cons obj fl r k R Ik t Ht. destruct (run_facts _ _ _ _ _ _ _ _ R) as (d & _ & FA).
  assert (rep r k "high_temperature_load_mwh" t == d_qty d k HtLoad t) as E1 by (apply (rep_qty r c assets fl d FA (AValve k)); auto; cbn [asset_cells In asset_name]; tauto).
  assert (rep r k "low_temperature_generation_mwh" t == d_qty d k LtGen t) as E2 by (apply (rep_qty r c assets fl d FA (AValve k)); auto; cbn [asset_cells In asset_name]; tauto).
  destruct (phys_asset r c assets fl d FA _ Ik t Ht) as (P1 & P2). rewrite E1, E2. split; auto. rewrite P1. auto.
Qed.

Theorem C28_spill_quantities : forall slv base c assets cons obj fl r nm, feasible_run slv base c assets cons obj fl r ->
  In (ASpill nm) assets -> forall t, (t < n_intervals c)%nat ->
  (0 <= rep r nm "electric_generation_mwh" t /\ 0 <= rep r nm "high_temperature_generation_mwh" t /\
   0 <= rep r nm "electric_load_mwh" t /\ 0 <= rep r nm "low_temperature_load_mwh" t) /\
  (rep r nm "low_temperature_generation_mwh" t == 0 /\ rep r nm "high_temperature_load_mwh" t == 0 /\ rep r nm "gas_consumption_mwh" t == 0).
Proof.
  intros slv base c assets cons obj fl r k R Ik t Ht. destruct (run_facts _ _ _ _ _ _ _ _ R) as (d & _ & FA).
  destruct (phys_asset r c assets fl d FA _ Ik t Ht) as (P1 & P2 & P3 & P4). splits.
  - rewrite (rep_qty r c assets fl d FA (ASpill k) t _ ElecGen); auto. cbn [asset_cells In asset_name]; tauto.
  - rewrite (rep_qty r c assets fl d FA (ASpill k) t _ HtGen); auto. cbn [asset_cells In asset_name]; tauto.
  - rewrite (rep_qty r c assets fl d FA (ASpill k) t _ ElecLoad); auto. cbn [asset_cells In asset_name]; tauto.
  - rewrite (rep_qty r c assets fl d FA (ASpill k) t _ LtLoad); auto. cbn [asset_cells In asset_name]; tauto.
  - apply (rep_zero r c assets fl d FA (ASpill k)); auto. cbn [asset_cells In asset_name]; tauto.
  - apply (rep_zero r c assets fl d FA (ASpill k)); auto. cbn [asset_cells In asset_name]; tauto.
  - apply (rep_zero r c assets fl d FA (ASpill k)); auto. cbn [asset_cells In asset_name]; tauto.
Qed.

Example C23_C28_sample : incl [ACHP x_chp; ABoiler x_boiler; AHeatPump x_hp; ARenewable x_solar; AValve "valve"; ASpill "spill"] x_assets /\
  rep x_result "chp" "gas_consumption_mwh" 0 == 4 /\ rep x_result "boiler" "gas_consumption_mwh" 1 == 2 /\
  rep x_result "heat-pump" "high_temperature_generation_mwh" 0 == 3 /\ rep x_result "solar" "electric_generation_mwh" 1 == 3 /\
  rep x_result "valve" "high_temperature_load_mwh" 0 == 4.
Proof. split; [intros a H; cbn in H; cbn; tauto|]. splits; vm_compute; reflexivity. Qed.
