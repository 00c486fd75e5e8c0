(** * SampleSite: one site with every kind of asset and its optimal result

    Used beside the theorems to show that their hypotheses are met by a non trivial case. *)
From Verif Require Import Base Pulp Params Optimizer Types Assets EVs Site Constraints Objectives Extract Pipeline Check Lucky Spec SpecReport SpecRun.
Open Scope Q_scope.
Open Scope string_scope.

Definition x_data : idata Q := mkIdata [10; 20] [0; 0] [(1#10); (1#10)] [0; 0] [1; 1] [2; 1] [3; 0] [0; 0] 2 [].
Definition x_site : site_cfg := mkSiteCfg x_data 60%Z 100 50.
Definition x_evs : evs_cfg := mkEvsCfg "evs" [mkChargerCfg "charger-0" 2 1] [mkChargerCfg "charger-spill-evs" 10000 0]
  [mkEventCfg "charge-event-0" 1 (1#2); mkEventCfg "charge-event-1" 1 (1#2)] [[1; 0]; [0; 1]].
Definition x_battery : battery_cfg := mkBatteryCfg "battery" 2 2 4 (1#2) 0 0.
Definition x_solar : rg_cfg := mkRgCfg "solar" (1#4) [5; 3] true.
Definition x_chp : chp_cfg := mkChpCfg "chp" 4 1 (1#4) (1#2) (1#4).
Definition x_boiler : boiler_cfg := mkBoilerCfg "boiler" 10 1 (1#2).
Definition x_hp : hp_cfg := mkHpCfg "heat-pump" 3 2.
Definition x_assets : list asset :=
  [ABattery x_battery; ARenewable x_solar; ACHP x_chp; ABoiler x_boiler; AHeatPump x_hp; AValve "valve"; ASpill "spill"; AEVs x_evs].
(** interval 0: solar 5, CHP on (1 MWh electricity from 4 gas), heat pump 1, battery charges 2 and loses 1,
    the first car charges 2; the valve moves 4 of heat down.  Interval 1: solar 3, battery discharges 1, the second
    car charges 2, export 1.  The boiler runs at its minimum 1 (gas 2) throughout; nothing is imported. *)
Definition x_values : list Q :=
  [0; 0; 1; 0; 2; 0; 1; 0; 1; 0; 1; 5; 1; 1; 4; 2; 1; 1; 1; 2; 1; 1; 2; 3; 4;
   4; 0; 0; 0; 0; 0; 1; 2; 1; 1; 0; 0; 0; 0; 0; 0; 0; 0; 0; 0; 0; 0; 1; 0; 1;
   0; 1; 0; 1; 0; 1; 0; 3; 0; 0; 0; 0; 0; 1; 1; 2; 0; 0; 0; 0; 0; 0; 0; 0; 0;
   0; 1; 1; 0; 0; 0; 0; 1; 2; 1; 1; 0; 0; 0; 0; 0; 0].
Definition x_solver : solver := lucky x_values.
Definition result_of (c : res sim_result) : sim_result :=
  match c with Ok r => r | Err _ => mkResult [] false false (mkStatus Infeasible false None) end.
(** the result, computed *)
Definition x_result : sim_result :=
  Eval vm_compute in result_of (optimize x_solver 0 x_site x_assets [] (ObjName "price") default_flags).
Lemma x_returns : optimize x_solver 0 x_site x_assets [] (ObjName "price") default_flags = Ok x_result.
Proof. vm_compute. reflexivity. Qed.
Lemma x_feasible : r_feasible x_result = true.
Proof. reflexivity. Qed.
Lemma x_run : feasible_run x_solver 0 x_site x_assets [] (ObjName "price") default_flags x_result.
Proof.
  constructor.
  - apply sound_honest, lucky_sound.
  - exact x_returns.
  - exact x_feasible.
  - repeat constructor.
  - split; [|split].
    + intros a H E. cbn in H. intuition (subst; discriminate).
    + intros col [].
    + intros e H. cbn in H. repeat destruct H as [H|H]; try discriminate; [|destruct H]. injection H as <-. reflexivity.
Qed.
