(** * SampleScale: cases for C67 and C68 *)
From Coq Require Import Permutation.
From Verif Require Import Base Pulp Params Optimizer Types Pipeline Constraints Objectives Extract Check Lucky Certified Spec SpecReport SpecRun SpecCost SampleSite Prim SpecCompare SampleCompare SpecScale PropScale.
Open Scope Q_scope.
Open Scope string_scope.

(** the two hours and the battery of SampleCompare, twice as big *)
Definition s_site : site_cfg := mkSiteCfg (mkIdata [10; 20] [0; 0] [2#10; 1#10] [0; 0] [2; 2] [0; 0] [0; 0] [0; 0] 2 []) 60%Z 200 100.
Definition s_battery : asset := ABattery (mkBatteryCfg "battery" 2 2 2 1 0 0).
Definition s_values : list Q := [4; 0; 1; 0;  2; 0; 1; 0; 0; 0; 2;  0; 0; 1; 0;  0; 2; 0; 1; 0; 2; 0].
Definition s_solver : solver := certified s_values [10; 0; 0; 0; 0; 0; 0; 0; 0; 10; 0; 10; 0; 0; 0; 0; 0; 0; 0; 0; 10; 0; 10; -(10); 0].
Definition s_result := run_of s_solver s_site [s_battery] [] (ObjName "price").
Lemma s_run : best_run 0 s_solver 0 s_site [s_battery] [] (ObjName "price") default_flags s_result.
Proof. best. Qed.
Lemma s_scaled : site_scaled 2 h_site s_site.
Proof. unfold site_scaled, scaled_data, same_data. cbv zeta. splits; try reflexivity; (intros t Ht; destruct t as [|[|t]]; [reflexivity|reflexivity|cbn in Ht; lia]). Qed.
Example C67_sample : reported_cost s_site [s_battery] s_result == 2 * reported_cost h_site [h_battery 1] (h_with 1) /\ reported_cost s_site [s_battery] s_result == 40.
Proof.
  split; [|vm_compute; reflexivity].
  refine (C67_scale 2 (h_solver 1 1) 0 h_site [h_battery 1] default_flags (h_with 1) s_solver 0 s_site [s_battery] s_result _ h_with_run s_run s_scaled _); [reflexivity|].
  constructor; [|constructor]. cbn [asset_scaled h_battery s_battery b_name b_charge_power_mw b_discharge_power_mw b_capacity_mwh b_efficiency_pct b_initial_charge_mwh b_final_charge_mwh]. splits; reflexivity.
Qed.

(** the first hour in two half hours *)
Definition hh_site : site_cfg := mkSiteCfg (mkIdata [10; 10] [0; 0] [2#10; 2#10] [0; 0] [1#2; 1#2] [0; 0] [0; 0] [0; 0] 2 []) 30%Z 100 50.
Definition hh_solver : solver := certified [1#2; 0; 1; 0;  0; 0; 1; 0; 0; 0; 0;  1#2; 0; 1; 0;  0; 0; 0; 1; 0; 0; 0] [10; 0; 0; 0; 0; 0; 0; 0; 0; 10; 0; 10; 0; 0; 0; 0; 0; 0; 0; 0; 10; 0; 10; -(10); 0].
Definition hh_result := run_of hh_solver hh_site [h_battery 1] [] (ObjName "price").
Lemma hh_run : best_run 0 hh_solver 0 hh_site [h_battery 1] [] (ObjName "price") default_flags hh_result.
Proof. best. Qed.
Lemma hh_refined : site_refined 2 h_first hh_site.
Proof.
  unfold site_refined, data_shared, data_repeated. cbv zeta. splits; try reflexivity; (intros t j Ht Hj; destruct t as [|t]; [destruct j as [|[|j]]; [reflexivity|reflexivity|lia]|cbn in Ht; lia]).
Qed.
Example C68_sample : reported_cost hh_site [h_battery 1] hh_result <= reported_cost h_first [h_battery 1] (hour_result h_first 10) + 0 /\ reported_cost hh_site [h_battery 1] hh_result == 10.
Proof.
  split; [|vm_compute; reflexivity].
  refine (C68_finer_steps_no_dearer 0 2 (hour_solver 10) 0 h_first [h_battery 1] [] (ObjName "price") default_flags (hour_result h_first 10) hh_solver 0 hh_site [h_battery 1] hh_result _ (proj1 h_first_run) hh_run hh_refined _); [lia|].
  constructor; [reflexivity|constructor].
Qed.
