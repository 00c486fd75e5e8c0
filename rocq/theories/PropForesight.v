(** * PropForesight: property C64 (accounts of different optimizations of one site compared: forecasts against perfect foresight, price against carbon) *)
From Verif Require Import Base Pulp Params Optimizer Types Pipeline Constraints Objectives Extract Lucky Certified Check Spec SpecReport SpecRun SpecNames SpecCost SpecTerms SpecCompare Emit Prim Rows SemEv SemSite SemResults RunFacts Complete Bounded SampleSite PropSite PropResults PropObjective PropTerms PropCompare PropCtors Terms Accounting SpecAccounts PropAccounts PropAccountRun SampleFunctions SampleCompare.
Open Scope Q_scope.
Open Scope string_scope.

(** ** What get_accounts says about a run valued at the prices of another run *)
Theorem C64_account_at_other_prices : forall slv base c assets cons obj fl r slv' base' c' assets' cons' obj' fl' r' v,
  feasible_run slv base c assets cons obj fl r -> ordinary_names c assets ->
  feasible_run slv' base' c' assets' cons' obj' fl' r' -> n_intervals c' = n_intervals c ->
  exists a, get_accounts (r_results r) (Some (r_results r')) None v = Ok a /\
    as_cost a == grid_cost c' assets r /\ as_profit a == - grid_cost c' assets r /\ as_emissions a == grid_emissions c' assets r.
Proof.
  intros slv base c assets cons obj fl r slv' base' c' assets' cons' obj' fl' r' v FR ON FR' N.
  assert (exists a, get_accounts (r_results r) (Some (r_results r')) None v = Ok a /\ ac_cost (as_custom a) = 0) as (a & A & CU).
  { unfold get_accounts.
    assert ((if v then let! _ := check_results (r_results r) false in check_results (r_results r') false else Ok tt) = Ok tt) as ->.
    { destruct (acc_ctx _ _ _ _ _ _ _ _ FR) as (? & ? & ? & ? & ? & _ & _ & _ & _ & _ & _ & ->).
      destruct (acc_ctx _ _ _ _ _ _ _ _ FR') as (? & ? & ? & ? & ? & _ & _ & _ & _ & _ & _ & K). destruct v; [cbn [rbind]; exact K|reflexivity]. }
    cbn [rbind]. unfold get_one_electricity_account, get_one_gas_account.
    destruct (site_col_present _ _ _ _ _ _ _ _ FR' "electricity_prices") as (p & P); [cbn; tauto|]. destruct (site_col_present _ _ _ _ _ _ _ _ FR "import_power_mwh") as (i & Hi); [cbn; tauto|].
    destruct (site_col_present _ _ _ _ _ _ _ _ FR "export_power_mwh") as (e & He); [cbn; tauto|]. destruct (site_col_present _ _ _ _ _ _ _ _ FR' "electricity_carbon_intensities") as (ca & Hc); [cbn; tauto|].
    destruct (site_col_present _ _ _ _ _ _ _ _ FR' "gas_prices") as (g & Hg); [cbn; tauto|]. destruct (total_col_present _ _ _ _ _ _ _ _ FR) as (tg & Ht). cbn [append] in *.
    rewrite P, Hi, He, Hc, Hg, Ht. cbn [rbind custom_costs]. eexists. split; [reflexivity|reflexivity]. }
  exists a. split; auto.
  destruct (C41_accounts _ _ _ _ _ _ A (full_results _ _ _ _ _ _ _ _ FR)) as (A1 & A2 & A3 & A4 & A5 & A6 & A7 & A8 & A9 & A10 & A11 & A12).
  assert (as_cost a == grid_cost c' assets r /\ as_emissions a == grid_emissions c' assets r) as [X Y].
  { rewrite A10, A12, A3, A6, A1, A2, A4, A5, A7, A8, CU. unfold value_of_energy, energy_sum, grid_cost, grid_emissions, horizon. rewrite N.
    assert (forall f : nat -> Q, - Qsum (map f (seq 0 (n_intervals c))) == Qsum (map (fun t => - f t) (seq 0 (n_intervals c)))) as NG.
    { intros f. setoid_replace (- Qsum (map f (seq 0 (n_intervals c)))) with ((-1) * Qsum (map f (seq 0 (n_intervals c)))) by ring. rewrite <- Qsum_map_scale.
      apply Qsum_map_ext. intros; ring. }
    rewrite <- Qsum_map_scale. rewrite !NG. rewrite Qplus_0_r. rewrite <- !Qsum_map_plus.
    assert (forall n l t, In t (seq 0 (n_intervals c)) -> In (n, l) (id_columns (sc_idata c')) -> num (r_results r') ("site-" ++ n) t == data l t) as SN.
    { intros n l t It. apply in_seq in It. apply (site_num _ _ _ _ _ _ _ _ FR'). rewrite N. lia. }
    assert (forall t, In t (seq 0 (n_intervals c)) -> num (r_results r) "total-gas_consumption_mwh" t == total (r_gas r t) assets) as G.
    { intros t It. apply in_seq in It. apply (C38_total_columns _ _ _ _ _ _ _ _ FR ON t). lia. }
    split; apply Qsum_map_ext; intros t It; rewrite (G t It).
    - rewrite (SN "electricity_prices" (id_electricity_prices (sc_idata c')) t It) by (cbn; tauto).
      rewrite (SN "gas_prices" (id_gas_prices (sc_idata c')) t It) by (cbn; tauto). unfold r_import, r_export. ring.
    - rewrite (SN "electricity_carbon_intensities" (id_electricity_carbon_intensities (sc_idata c')) t It) by (cbn; tauto). unfold r_import, r_export. ring. }
  splits; auto. now rewrite A11, X.
Qed.

(** ** No foresight beats perfect foresight *)
(** [c'] is a site as [c], with other prices and intensities *)
Lemma same_site_physical c c' assets fl d : site_at_least c c' -> physical c assets fl d -> physical c' assets fl d.
Proof.
  intros (N & F & D1 & D2 & D3 & D4 & LI & LE) [PT PA]. unfold physical. rewrite N, F. split; [|exact PA].
  intros t Ht. destruct (PT t Ht) as (G & E & H & L).
  unfold grid_limits, electricity_balanced, high_temperature_balanced, low_temperature_balanced, between in *.
  rewrite (D1 t Ht), (D2 t Ht), (D3 t Ht), (D4 t Ht), F. splits; auto; lra.
Qed.
Definition nothing_spilled (c : site_cfg) (assets : list asset) (r : sim_result) : Prop :=
  forall t a, (t < n_intervals c)%nat -> In a assets -> r_spilled r t a == 0.
Definition exports_at_import_price (c : site_cfg) : Prop :=
  forall t, (t < n_intervals c)%nat -> data (id_export_electricity_prices (sc_idata c)) t == data (id_electricity_prices (sc_idata c)) t.

Lemma cost_parts c assets r : reported_cost c assets r ==
  grid_cost c assets r + horizon c (fun t => r_export r t * (data (id_electricity_prices (sc_idata c)) t - data (id_export_electricity_prices (sc_idata c)) t))
  + horizon c (fun t => total (r_spilled r t) assets * spill_penalty).
Proof. unfold reported_cost, grid_cost, horizon. rewrite <- !Qsum_map_plus. apply Qsum_map_ext. intros t _. ring. Qed.
Lemma emission_parts c assets r : reported_emissions c assets r == grid_emissions c assets r + horizon c (fun t => total (r_spilled r t) assets * spill_penalty).
Proof. unfold reported_emissions, grid_emissions, horizon. rewrite <- !Qsum_map_plus. apply Qsum_map_ext. intros t _. ring. Qed.
Lemma spill_part_zero c assets r : nothing_spilled c assets r -> horizon c (fun t => total (r_spilled r t) assets * spill_penalty) == 0.
Proof. intros NS. unfold horizon. apply Qsum_map_zero. intros t It. apply in_seq in It. unfold total. rewrite Qsum_map_zero; [ring|]. intros x Ix. apply NS; [lia|auto]. Qed.
Lemma spill_part_nonneg slv base c assets cons obj fl r : feasible_run slv base c assets cons obj fl r ->
  0 <= horizon c (fun t => total (r_spilled r t) assets * spill_penalty).
Proof.
  intros FR. destruct (run_facts _ _ _ _ _ _ _ _ FR) as (d & _ & FA). unfold horizon. apply Qsum_nonneg. intros t It. apply in_seq in It.
  apply Qmult_le_0_compat; [|discriminate]. apply Qsum_nonneg. intros a Ia. assert (t < n_intervals c)%nat as Ht by lia. rewrite (spilled_bridge _ _ _ _ _ FA t a Ia Ht).
  pose proof (proj2 (fa_physical _ _ _ _ _ FA) a Ia) as P. pose proof (fa_fine _ _ _ _ _ FA) as FI. rewrite Forall_forall in FI. specialize (FI a Ia).
  destruct a; cbn [spilled asset_physical asset_fine] in *; try lra.
  - destruct FI as (L & _). destruct (nth_error_lt (ev_spill_chargers c0) 0 ltac:(lia)) as (cc & E). destruct P as (_ & P & _). apply Qsum_nonneg. intros e I. apply in_seq in I.
    destruct (nth_error_lt (ev_event_cfgs c0) e ltac:(lia)) as (ec & Ee). destruct (P t e ec cc Ht Ee E). auto.
  - destruct (P t Ht) as (A & B & C & D). cbn [asset_name] in *. lra.
Qed.

Lemma no_export_margin c r : exports_at_import_price c ->
  horizon c (fun t => r_export r t * (data (id_electricity_prices (sc_idata c)) t - data (id_export_electricity_prices (sc_idata c)) t)) == 0.
Proof. intros XP. unfold exports_at_import_price in XP. unfold horizon. apply Qsum_map_zero. intros t It. apply in_seq in It. rewrite XP by lia. ring. Qed.
(** a dispatch valued at the prices of another site *)
Lemma value_elsewhere c c' assets fl r d : facts (r_results r) c' assets fl d -> n_intervals c = n_intervals c' ->
  dispatch_cost c assets d == reported_cost c assets r /\ dispatch_emissions c assets d == reported_emissions c assets r.
Proof.
  intros FA N.
  assert (forall t, In t (seq 0 (n_intervals c)) -> (t < n_intervals c')%nat) as B by (intros t It; apply in_seq in It; lia).
  unfold dispatch_cost, dispatch_emissions, over_horizon, reported_cost, reported_emissions, horizon.
  split; apply Qsum_map_ext; intros t It; specialize (B t It); unfold interval_cost, interval_emissions;
    rewrite (r_import_eq _ _ _ _ _ FA t B), (r_export_eq _ _ _ _ _ FA t B);
    rewrite (bridge_total assets (r_gas r) (gas_use d) t) by (intros x Ix; apply (bridge _ _ _ _ _ FA t x Ix B));
    rewrite (bridge_total assets (r_spilled r) (spilled d) t) by (intros x Ix; eapply spilled_bridge; eauto); reflexivity.
Qed.

(** The site [c] is optimized with the actual prices; [c'] is the same site (with a grid connection that is no wider) with forecast
    prices, optimized for anything.  Valued at the actual prices, the forecast result is no cheaper. *)
Theorem C64_perfect_foresight : forall gap slv base c assets fl actual slv' base' c' cons' obj' forecast v,
  best_run gap slv base c assets [] (ObjName "price") fl actual -> ordinary_names c assets -> exports_at_import_price c ->
  feasible_run slv' base' c' assets cons' obj' fl forecast -> ordinary_names c' assets -> site_at_least c' c ->
  nothing_spilled c' assets forecast ->
  exists perfect other, get_accounts (r_results actual) None None v = Ok perfect /\
    get_accounts (r_results forecast) (Some (r_results actual)) None v = Ok other /\
    as_cost perfect <= as_cost other + gap /\ as_profit other <= as_profit perfect + gap /\
    ac_cost (account_sub (of_accounts perfect) (of_accounts other)) <= gap.
Proof.
  intros gap slv base c assets fl actual slv' base' c' cons' obj' forecast v B ON XP FR' ON' SL NS. destruct B as (FR & SW & SN).
  pose proof SL as (N & _).
  destruct (C42_account _ _ _ _ _ _ _ _ v FR ON) as (a & A & AC & AP & _).
  destruct (C64_account_at_other_prices _ _ _ _ _ _ _ _ _ _ _ _ _ _ _ _ v FR' ON' FR N) as (b & Bb & BC & BP & _).
  assert (grid_cost c assets actual <= grid_cost c assets forecast + gap) as K.
  { destruct (run_facts _ _ _ _ _ _ _ _ FR') as (d & _ & FA).
    pose proof (C53_price_within _ _ _ _ _ _ _ FR SW SN d (same_site_physical _ _ _ _ _ SL (fa_physical _ _ _ _ _ FA))) as W.
    rewrite (proj1 (value_elsewhere _ _ _ _ _ _ FA N)) in W.
    pose proof (spill_part_nonneg _ _ _ _ _ _ _ _ FR). pose proof (cost_parts c assets actual). pose proof (cost_parts c assets forecast).
    pose proof (no_export_margin c actual XP). pose proof (no_export_margin c forecast XP).
    assert (nothing_spilled c assets forecast) as NS' by (intros t x Ht; apply NS; lia). pose proof (spill_part_zero _ _ _ NS'). lra. }
  exists a, b. cbn [account_sub of_accounts ac_cost]. rewrite AC, BC, AP, BP. splits; auto; lra.
Qed.
(** The same for emissions. *)
Theorem C64_perfect_foresight_carbon : forall gap slv base c assets fl actual slv' base' c' cons' obj' forecast v,
  best_run gap slv base c assets [] (ObjName "carbon") fl actual -> ordinary_names c assets ->
  feasible_run slv' base' c' assets cons' obj' fl forecast -> ordinary_names c' assets -> site_at_least c' c ->
  nothing_spilled c' assets forecast ->
  exists perfect other, get_accounts (r_results actual) None None v = Ok perfect /\
    get_accounts (r_results forecast) (Some (r_results actual)) None v = Ok other /\
    as_emissions perfect <= as_emissions other + gap /\
    ac_emissions (account_sub (of_accounts perfect) (of_accounts other)) <= gap.
Proof.
  intros gap slv base c assets fl actual slv' base' c' cons' obj' forecast v B ON FR' ON' SL NS. destruct B as (FR & SW & SN).
  pose proof SL as (N & _).
  destruct (C42_account _ _ _ _ _ _ _ _ v FR ON) as (a & A & _ & _ & AE).
  destruct (C64_account_at_other_prices _ _ _ _ _ _ _ _ _ _ _ _ _ _ _ _ v FR' ON' FR N) as (b & Bb & _ & _ & BE).
  assert (grid_emissions c assets actual <= grid_emissions c assets forecast + gap) as K.
  { destruct (run_facts _ _ _ _ _ _ _ _ FR') as (d & _ & FA).
    pose proof (C53_carbon_within _ _ _ _ _ _ _ FR SW SN d (same_site_physical _ _ _ _ _ SL (fa_physical _ _ _ _ _ FA))) as W.
    rewrite (proj2 (value_elsewhere _ _ _ _ _ _ FA N)) in W.
    pose proof (spill_part_nonneg _ _ _ _ _ _ _ _ FR). pose proof (emission_parts c assets actual). pose proof (emission_parts c assets forecast).
    assert (nothing_spilled c assets forecast) as NS' by (intros t x Ht; apply NS; lia). pose proof (spill_part_zero _ _ _ NS'). lra. }
  exists a, b. cbn [account_sub of_accounts ac_emissions]. rewrite AE, BE. splits; auto; lra.
Qed.
(** Optimizing for price and for carbon under the same constraints (price-carbon how-to): the accounts are ordered as they should be. *)
Theorem C64_price_carbon_accounts : forall slv base slv' base' c assets cons fl rp rc v, Forall plain_constraint cons ->
  best_run 0 slv base c assets cons (ObjName "price") fl rp -> best_run 0 slv' base' c assets cons (ObjName "carbon") fl rc ->
  ordinary_names c assets -> exports_at_import_price c -> nothing_spilled c assets rp -> nothing_spilled c assets rc ->
  exists p k, get_accounts (r_results rp) None None v = Ok p /\ get_accounts (r_results rc) None None v = Ok k /\
    as_cost p <= as_cost k /\ as_profit k <= as_profit p /\ as_emissions k <= as_emissions p.
Proof.
  intros slv base slv' base' c assets cons fl rp rc v PC P C ON XP NP NC. destruct (C58_price_or_carbon _ _ _ _ _ _ _ _ _ _ PC P C) as [L1 L2].
  destruct (C42_account _ _ _ _ _ _ _ _ v (proj1 P) ON) as (p & A & AC & AP & AE). destruct (C42_account _ _ _ _ _ _ _ _ v (proj1 C) ON) as (k & B & BC & BP & BE).
  exists p, k. rewrite AC, BC, AP, BP, AE, BE. pose proof (cost_parts c assets rp). pose proof (cost_parts c assets rc). pose proof (emission_parts c assets rp). pose proof (emission_parts c assets rc).
  pose proof (no_export_margin c rp XP). pose proof (no_export_margin c rc XP). pose proof (spill_part_zero _ _ _ NP). pose proof (spill_part_zero _ _ _ NC). splits; auto; lra.
Qed.

(** ** A battery of 1 MWh: forecast prices 20 and 10 keep it idle, the actual prices are 10 and 20 *)
Definition q_site (p1 p2 x1 x2 : Q) : site_cfg := mkSiteCfg (mkIdata [p1; p2] [x1; x2] [2#10; 1#10] [0; 0] [1; 1] [0; 0] [0; 0] [0; 0] 2 []) 60%Z 100 50.
Definition q_actual_site := q_site 10 20 10 20.
Definition q_forecast_site := q_site 20 10 20 10.
Definition q_solver := certified (h_values 1) [10; 0; 0; 0; 0; 0; 0; 0; 0; 10; 0; 20; 0; 0; 0; 0; 0; 0; -10; -10; 10; 0; 10; -10; 0].
Definition q_actual := run_of q_solver q_actual_site [h_battery 1] [] (ObjName "price").
Lemma q_actual_run : best_run 0 q_solver 0 q_actual_site [h_battery 1] [] (ObjName "price") default_flags q_actual.
Proof. best. Qed.
Definition q_other := certified (h_values 0) [20; 0; 0; 0; 0; 0; 0; 0; 0; 20; 0; 10; 0; 0; 0; 0; 0; 0; 0; 0; 10; 0; 10; -20; 0].
Definition q_forecast := run_of q_other q_forecast_site [h_battery 1] [] (ObjName "price").
Lemma q_forecast_run : feasible_run q_other 0 q_forecast_site [h_battery 1] [] (ObjName "price") default_flags q_forecast.
Proof. run. Qed.
Definition cost_of (a : res accounts) : Q := match a with Ok a => as_cost a | Err _ => 0 end.
Ltac named := split; [|intros col []]; intros a Ia; repeat (destruct Ia as [<-|Ia]; [cbn [ordinary_asset asset_name h_battery b_name rg_name]; split; [reflexivity|intros q Iq; cbn in Iq; repeat (destruct Iq as [<-|Iq]; [reflexivity|]); destruct Iq]|]); destruct Ia.
Lemma q_names p1 p2 x1 x2 : ordinary_names (q_site p1 p2 x1 x2) [h_battery 1].
Proof. named. Qed.
Example C64_sample :
  cost_of (get_accounts (r_results q_actual) None None true) == 20 /\
  cost_of (get_accounts (r_results q_forecast) (Some (r_results q_actual)) None true) == 30 /\
  exists perfect other, get_accounts (r_results q_actual) None None true = Ok perfect /\
  get_accounts (r_results q_forecast) (Some (r_results q_actual)) None true = Ok other /\
  as_cost perfect <= as_cost other + 0 /\ as_profit other <= as_profit perfect + 0 /\
  ac_cost (account_sub (of_accounts perfect) (of_accounts other)) <= 0.
Proof.
  splits; [vm_compute; reflexivity|vm_compute; reflexivity|].
  refine (C64_perfect_foresight 0 _ _ _ _ _ _ _ _ _ _ _ _ true q_actual_run (q_names _ _ _ _) _ q_forecast_run (q_names _ _ _ _) _ _).
  - intros t Ht. reflexivity.
  - unfold site_at_least, same_data. cbv zeta. splits; intros; try reflexivity; vm_compute; congruence.
  - intros t a Ht [<-|[]]. reflexivity.
Qed.
(** ** The hypothesis on the export prices is needed: a solar plant, import price 10, actual export price -1, forecast export price 1.
    Optimizing with the actual prices the plant is switched off; the account of the plant that runs for the forecast is better,
    because accounts value exports at the import price. *)
Definition v_site (x : Q) : site_cfg := mkSiteCfg (mkIdata [10] [x] [0] [0] [0] [0] [0] [0] 1 []) 60%Z 100 50.
Definition v_solar := ARenewable (mkRgCfg "solar" 0 [1] true).
Definition v_actual := run_of (certified [0; 0; 1; 0; 0] []) (v_site (-1)) [v_solar] [] (ObjName "price").
Lemma v_actual_run : best_run 0 (certified [0; 0; 1; 0; 0] []) 0 (v_site (-1)) [v_solar] [] (ObjName "price") default_flags v_actual.
Proof. best. Qed.
Definition v_forecast := run_of (stopped 1000 [0; 1; 0; 1; 1] [0; 0; -1; -50]) (v_site 1) [v_solar] [] (ObjName "price").
Lemma v_forecast_run : feasible_run (stopped 1000 [0; 1; 0; 1; 1] [0; 0; -1; -50]) 0 (v_site 1) [v_solar] [] (ObjName "price") default_flags v_forecast.
Proof. run. Qed.
Theorem C64_export_price_refuted : exists slv base c assets fl actual slv' base' c' forecast perfect other,
  best_run 0 slv base c assets [] (ObjName "price") fl actual /\ ordinary_names c assets /\
  feasible_run slv' base' c' assets [] (ObjName "price") fl forecast /\ ordinary_names c' assets /\ site_at_least c' c /\
  nothing_spilled c' assets forecast /\
  get_accounts (r_results actual) None None true = Ok perfect /\
  get_accounts (r_results forecast) (Some (r_results actual)) None true = Ok other /\
  as_cost other < as_cost perfect.
Proof.
  exists (certified [0; 0; 1; 0; 0] []), 0%nat, (v_site (-1)), [v_solar], default_flags, v_actual, (stopped 1000 [0; 1; 0; 1; 1] [0; 0; -1; -50]), 0%nat, (v_site 1), v_forecast.
  eexists. eexists. splits; [exact v_actual_run|named|exact v_forecast_run|named| | |vm_compute; reflexivity|vm_compute; reflexivity|vm_compute; reflexivity].
  - unfold site_at_least, same_data. cbv zeta. splits; intros; try reflexivity; vm_compute; congruence.
  - intros t a Ht [<-|[]]. reflexivity.
Qed.
