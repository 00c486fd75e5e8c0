(** * SampleMoves: the hypotheses of C69, C70 and C71 are met *)
From Verif Require Import Base Pulp Params Optimizer Types Pipeline Constraints Objectives Extract Spec SpecReport SpecRun SpecCost SpecTerms Prim Check Lucky Certified Capped SampleSite SpecCompare PropCompare SampleCompare PropForesight SpecMoves PropMoves PropTrades.
Open Scope Q_scope.
Open Scope string_scope.

Ltac capped_run := constructor; [apply capped_honest|vm_compute; reflexivity|vm_compute; reflexivity|repeat constructor|split; [|split]; [intros a Ia E; cbn in Ia; repeat (destruct Ia as [<-|Ia]; [discriminate|]); destruct Ia|intros col []|intros e Ie; cbn in Ie; repeat (destruct Ie as [H|Ie]; [discriminate|]); destruct Ie]].
Ltac capped_best := split; [capped_run|split; [intros iv o _; apply capped_within|repeat constructor]].
Ltac number := vm_compute; try discriminate; reflexivity.

(** ** A result far from the best (a gap of 10^12): every change is possible in it *)
Definition a_site := mkSiteCfg (mkIdata [10] [0] [1#10] [5] [10] [10] [2] [4] 1 []) 60%Z 100 50.
Definition a_chp := mkChpCfg "chp" 2 0 (1#2) (1#4) (1#4).
Definition a_boiler := mkBoilerCfg "boiler" 10 0 (4#5).
Definition a_old := mkBoilerCfg "old-boiler" 10 0 (1#2).
Definition a_hp := mkHpCfg "heat-pump" 3 2.
Definition a_solar := mkRgCfg "solar" 0 [2] true.
Definition a_assets := [ACHP a_chp; ABoiler a_boiler; ABoiler a_old; AHeatPump a_hp; ARenewable a_solar; AValve "valve"; ASpill "spill"].
Definition a_gap : Q := 1000000000000.
Definition a_solver : solver := stopped a_gap [9; 0; 1; 0; 1; 1; 2; 1#2; 1#2; 5; 1; 25#4; 9#4; 1; 9#2; 1; 1; 2; 3; 1; 1; 1; 1#4; 1#4; 1#4; 3#2] [].
Definition a_result := run_of a_solver a_site a_assets [] (ObjName "price").
Lemma a_run : best_run a_gap a_solver 0 a_site a_assets [] (minimises Price) default_flags a_result.
Proof. best. Qed.
Lemma a_absorbs : absorbs Price a_site a_result 0 (1#4) 10.
Proof. left. split; number. Qed.
Lemma a_provides : provides Price a_site a_result 0 (1#4) 10.
Proof. right. splits; number. Qed.
Ltac here := cbn [In a_assets]; tauto.
Example C69_sample :
  (1#4) * 10 <= a_gap /\ - a_gap <= (1#4) * 10 /\ (1#4) * (spill_penalty - 10) <= a_gap /\ (1#4) * (spill_penalty + 10) <= a_gap /\ (1#4) * spill_penalty <= a_gap.
Proof.
  splits.
  - apply (C69_curtailment a_gap _ _ _ _ _ _ Price a_solar 0 (1#4) 10 a_run); [here|unfold n_intervals; cbn; lia|lra|number|exact a_absorbs].
  - apply (C69_running_down a_gap _ _ _ _ _ _ Price a_solar 0 (1#4) 10 a_run); [here|unfold n_intervals; cbn; lia|lra|number|exact a_provides].
  - apply (C69_spilled_generation a_gap _ _ _ _ _ _ Price "spill" 0 (1#4) 10 a_run); [here|unfold n_intervals; cbn; lia|lra|number|exact a_provides].
  - apply (C69_spilled_load a_gap _ _ _ _ _ _ Price "spill" 0 (1#4) 10 a_run); [here|unfold n_intervals; cbn; lia|lra|number|exact a_absorbs].
  - apply (C69_curtail_before_spilling a_gap _ _ _ _ _ _ Price "spill" a_solar 0 (1#4) a_run); [here|here|unfold n_intervals; cbn; lia|lra|number|number].
Qed.
Example C69_sample_run_before_spilling : (1#4) * spill_penalty <= a_gap.
Proof. apply (C69_run_before_spilling a_gap _ _ _ _ _ _ Price "spill" a_solar 0 (1#4) a_run); [here|here|unfold n_intervals; cbn; lia|lra|number|number]. Qed.
Example C70_sample :
  (1#4) * (spill_penalty - gas_price Price a_site 0 / (4#5)) <= a_gap /\
  (1#4) * gas_price Price a_site 0 / (1#2) <= (1#4) * gas_price Price a_site 0 / (4#5) + a_gap /\
  (1#4) * gas_price Price a_site 0 / (4#5) <= a_gap /\
  (1#4) * 3 / (4#5) * gas_price Price a_site 0 <= (1#4) * 10 + a_gap /\
  (1#4) * 10 <= (1#4) * 3 / (4#5) * gas_price Price a_site 0 + a_gap /\
  (1#4) * 10 + (1#4) / (1#2) * (1#4) / (4#5) * gas_price Price a_site 0 <= (1#4) / (1#2) * gas_price Price a_site 0 + a_gap /\
  (1#4) / (1#2) * gas_price Price a_site 0 <= (1#4) * 10 + (1#4) / (1#2) * (1#4) / (4#5) * gas_price Price a_site 0 + a_gap.
Proof.
  splits.
  - apply (C70_spilled_heat a_gap _ _ _ _ _ _ Price "spill" a_boiler 0 (1#4) a_run); [here|here|unfold n_intervals; cbn; lia|lra|number|number|number].
  - apply (C70_boiler_merit_order a_gap _ _ _ _ _ _ Price a_boiler a_old 0 (1#4) a_run); [here|here|discriminate|unfold n_intervals; cbn; lia|lra|number|number|number|number|number].
  - apply (C70_valve a_gap _ _ _ _ _ _ Price "spill" "valve" a_boiler 0 (1#4) a_run); [here|here|here|unfold n_intervals; cbn; lia|lra|number|number|number|number|number].
  - apply (C70_heat_pump_idle a_gap _ _ _ _ _ _ Price "spill" a_hp a_boiler 0 (1#4) 10 a_run); [here|here|here|unfold n_intervals; cbn; lia|lra|number|number|number|number|number|number|exact a_provides].
  - apply (C70_heat_pump_running a_gap _ _ _ _ _ _ Price "spill" a_hp a_boiler 0 (1#4) 10 a_run); [here|here|here|unfold n_intervals; cbn; lia|lra|number|number|number|number|exact a_absorbs].
  - apply (C70_chp_idle a_gap _ _ _ _ _ _ Price "spill" a_chp a_boiler 0 (1#4) 10 a_run); [here|here|here|unfold n_intervals; cbn; lia|lra|number|number|number|number|number|number|number|number|exact a_absorbs].
  - apply (C70_chp_running a_gap _ _ _ _ _ _ Price "spill" a_chp a_boiler 0 (1#4) 10 a_run); [here|here|here|unfold n_intervals; cbn; lia|lra|number|number|number|number|right; split; number|number|number|exact a_provides].
Qed.

(** ** The best results *)
(** a solar plant of 2 MWh behind an export limit of 1 MWh *)
Definition e_site := mkSiteCfg (mkIdata [10] [5] [1#10] [5] [0] [0] [0] [0] 1 []) 60%Z 100 1.
Definition e_solver : solver := capped 0 [0; 1; 0; 1; 1] [] [(1%nat, (-5, 0))].
Definition e_result := run_of e_solver e_site [ARenewable a_solar] [] (ObjName "price").
Lemma e_run : best_run 0 e_solver 0 e_site [ARenewable a_solar] [] (minimises Price) default_flags e_result.
Proof. capped_best. Qed.
Example C69_sample_curtailed : elec_made e_result (ARenewable a_solar) 0 == 1 /\ r_import e_result 0 == 0 /\ r_export e_result 0 == energy (sc_freq e_site) (sc_export_limit_mw e_site).
Proof.
  split; [number|]. apply (C69_no_needless_curtailment _ _ _ _ _ _ Price a_solar 0 e_run); [now left|unfold n_intervals; cbn; lia|number|number|number].
Qed.
(** too much load in the first hour, solar power that cannot be turned down in the second *)
Definition f_site := mkSiteCfg (mkIdata [10; 10] [5; 5] [1#10; 1#10] [5; 5] [3; 0] [0; 0] [0; 0] [0; 0] 2 []) 60%Z 1 1.
Definition f_assets := [ARenewable (mkRgCfg "solar" 1 [0; 3] true); ASpill "spill"].
Definition f_p : Q := 100000000000.
Definition f_solver : solver := capped 0 [1; 0; 1; 0; 0; 2; 0; 0; 0; 0; 1; 0; 1; 3; 0; 0; 2; 0] [f_p; 0; 0; 0; 0; 0; - f_p]
  [(0%nat, (10 - f_p, 0)); (4%nat, (- f_p, 0)); (10%nat, (-5 - f_p, 0)); (13%nat, (0, f_p))].
Definition f_result := run_of f_solver f_site f_assets [] (ObjName "price").
Lemma f_run : best_run 0 f_solver 0 f_site f_assets [] (minimises Price) default_flags f_result.
Proof. capped_best. Qed.
Example C69_sample_spilled :
  elec_made f_result (ASpill "spill") 0 == 2 /\ (r_export f_result 0 == 0 /\ r_import f_result 0 == energy (sc_freq f_site) (sc_import_limit_mw f_site)) /\
  elec_used f_result (ASpill "spill") 1 == 2 /\ (r_import f_result 1 == 0 /\ r_export f_result 1 == energy (sc_freq f_site) (sc_export_limit_mw f_site)).
Proof.
  split; [number|]. split; [|split; [number|]].
  - apply (C69_no_needless_spill _ _ _ _ _ _ Price "spill" 0 f_run); [cbn [In f_assets]; tauto|unfold n_intervals; cbn; lia|number|number|number|number|number].
  - apply (C69_no_needless_spill _ _ _ _ _ _ Price "spill" 1 f_run); [cbn [In f_assets]; tauto|unfold n_intervals; cbn; lia|number|number|number|number|number].
Qed.
(** two boilers, 12 MWh of heat *)
Definition b_site := mkSiteCfg (mkIdata [10] [0] [1#10] [5] [0] [12] [0] [0] 1 []) 60%Z 100 50.
Definition b_solver : solver := capped 0 [0; 0; 1; 0; 10; 1; 25#2; 2; 1; 4] [0; 0; 0; 0; 10; 0; 5; 0; 0; 5] [(4%nat, (-15#4, 0))].
Definition b_result := run_of b_solver b_site [ABoiler a_boiler; ABoiler a_old] [] (ObjName "price").
Lemma b_run : best_run 0 b_solver 0 b_site [ABoiler a_boiler; ABoiler a_old] [] (minimises Price) default_flags b_result.
Proof. capped_best. Qed.
Example C70_sample_boilers : heat_made b_result (ABoiler a_old) 0 == 2 /\ heat_made b_result (ABoiler a_boiler) 0 == energy (sc_freq b_site) (bo_max_mw a_boiler).
Proof.
  split; [number|]. apply (C70_efficient_boiler_first _ _ _ _ _ _ Price a_boiler a_old 0 b_run); [now left|right; now left|unfold n_intervals; cbn; lia|number|number|number|number|number].
Qed.

(** the battery of C57 buys at 10 and saves 20; for carbon (0.2, then 0.1) it stands still *)
Definition t_battery := mkBatteryCfg "battery" 1 1 1 1 0 0.
Example C71_sample_pays : 1 * 10 <= 1 * 1 * 20 + 0.
Proof.
  apply (C71_trades_pay 0 _ _ _ _ _ _ Price t_battery 0 1 1 10 20 h_with_run); [now left|unfold n_intervals; cbn; lia|unfold n_intervals; cbn; lia|lia|unfold between; cbn; lra|lra|number|number| | |left; split; number|right; splits; number].
  - intros t Ht. assert (t = 0%nat) as -> by lia. number.
  - intros t Ht. lia.
Qed.
Example C71_sample_low : import_price Price h_site 0 <= 1 * import_price Price h_site 1.
Proof.
  apply (C71_buy_low _ _ _ _ _ _ Price t_battery 0 1 h_with_run); [now left|unfold n_intervals; cbn; lia|cbn; lra|number|number| |number|number|number].
  intros t Ht. assert (t = 0%nat) as -> by lia. number.
Qed.
Example C71_sample_none_left : 1 * 1 * (1#10) <= 1 * (2#10) + 0.
Proof.
  apply (C71_no_trade_left 0 _ _ _ _ _ _ Carbon t_battery 0 1 1 (2#10) (1#10) h_clean_run); [now left|unfold n_intervals; cbn; lia|unfold n_intervals; cbn; lia|lia|unfold between; cbn; lra|lra|number|number|number|number|number|number| | |right; splits; number|left; split; number].
  - intros t Ht. assert (t = 0%nat) as -> by lia. number.
  - intros t Ht. lia.
Qed.
