(** * SampleData: names of custom interval data that disturb the report (C39, C40, C42) *)
From Verif Require Import Base Pulp Params Optimizer Types Objectives Constraints Extract Pipeline Emit Prim Spec SpecReport SpecRun SpecNames SpecTotals SemResults Certified Accounting SpecAccounts SampleSite SpecCompare SampleFunctions SampleCompare.
Open Scope Q_scope.
Open Scope string_scope.

(** the first hour of the sample site, with a column of custom data of this name *)
Definition hour_with (name : string) : site_cfg :=
  mkSiteCfg (mkIdata [10] [0] [2#10] [1] [1] [0] [0] [0] 1 [(name, [5])]) 60%Z 100 50.
Definition hour_answer : solver := any_solver [1; 0; 1; 0].

(** The same solver and answer: with data named "forecast" the simulation is returned, feasible; with data named
    "electric_load_mwh_forecast" its column is counted as load, the balance check fails and [optimize] raises. *)
Theorem C39_data_name_refuted :
  honest_solver hour_answer /\
  (exists r, optimize hour_answer 0 (hour_with "forecast") [] [] (ObjName "price") default_flags = Ok r /\ r_feasible r = true) /\
  optimize hour_answer 0 (hour_with "electric_load_mwh_forecast") [] [] (ObjName "price") default_flags = Err AssertionErr /\
  (forall iv o, build_program (hour_with "forecast") [] [] (ObjName "price") default_flags (new_optimizer 0) = Ok (iv, o) ->
   build_program (hour_with "electric_load_mwh_forecast") [] [] (ObjName "price") default_flags (new_optimizer 0) = Ok (iv, o)).
Proof.
  split; [apply stopped_honest|]. split; [eexists; split; [vm_compute; reflexivity|reflexivity]|]. split; [vm_compute; reflexivity|].
  intros iv o H. rewrite <- H. vm_compute. reflexivity.
Qed.
(** Data named "oil_spills_nearby" sets the spill flag of a simulation without anything that could spill, and with
    [fail_on_spill_asset_use] the simulation raises. *)
Theorem C40_data_name_refuted : exists r,
  optimize hour_answer 0 (hour_with "oil_spills_nearby") [] [] (ObjName "price") default_flags = Ok r /\ r_feasible r = true /\ r_spill r = true /\
  optimize hour_answer 0 (hour_with "oil_spills_nearby") [] [] (ObjName "price") (mkFlags true false false false) = Err ValueErr.
Proof. eexists. splits; vm_compute; reflexivity. Qed.
(** Data named "gas_consumption_mwh_forecast" is counted as gas consumed: the simulation of a site without any gas
    equipment is returned, feasible, with the account billing the gas and its emissions. *)
Theorem C42_data_name_refuted : exists r z a z' r' a',
  optimize hour_answer 0 (hour_with "forecast") [] [] (ObjName "price") default_flags = Ok r /\ r_feasible r = true /\
  st_objective (r_status r) = Some z /\ get_accounts (r_results r) None None true = Ok a /\ ac_cost (as_gas a) == 0 /\ as_cost a == z /\
  optimize hour_answer 0 (hour_with "gas_consumption_mwh_forecast") [] [] (ObjName "price") default_flags = Ok r' /\ r_feasible r' = true /\
  st_objective (r_status r') = Some z' /\ z' == z /\ get_accounts (r_results r') None None true = Ok a' /\
  ac_cost (as_gas a') == 5 /\ ac_emissions (as_gas a') == 37 # 40 /\ as_cost a' == z' + 5.
Proof. do 6 eexists. splits; vm_compute; reflexivity. Qed.
