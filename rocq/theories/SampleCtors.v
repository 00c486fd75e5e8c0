(** * SampleCtors: the sample site built by the constructors, and the theorems of PropInput and PropCtors at work *)
From Verif Require Import Base Pulp Params Optimizer Types Assets EVs Site Constraints Objectives Extract Pipeline Check Lucky Spec SpecReport SpecRun SampleSite
  IntervalData Ctors SpecInput Emit Prim SemProg SemSite PropInput PropCtors.
Open Scope Q_scope.
Open Scope string_scope.

Definition w_evs : evs_cfg := mkEvsCfg "evs" [mkChargerCfg "charger-0" 2 (2 * (1#2))] [mkChargerCfg "charger-spill-evs" 10000 0]
  [mkEventCfg "charge-event-0" 1 (1#2); mkEventCfg "charge-event-1" 1 (1#2)] [[1; 0]; [0; 1]].
Definition w_assets : list asset :=
  [ABattery x_battery; ARenewable x_solar; ACHP x_chp; ABoiler x_boiler; AHeatPump x_hp; AValve "valve"; ASpill "spill"; AEVs w_evs].
Definition w_input : site_input :=
  mkInput (Series [Num 10; Num 20]) (Scalar (Num 0)) Missing (Scalar (Num 0)) (Scalar (Num 1)) (Series [Num 2; Num 1]) (Series [Num 3; Num 0]) Missing.
Definition w_data : idata pynum :=
  mkIdata [Num 10; Num 20] [Num 0; Num 0] [Num (1#10); Num (1#10)] [Num 0; Num 0] [Num 1; Num 1] [Num 2; Num 1] [Num 3; Num 0] [Num 0; Num 0] 2 [].

Example w_battery : battery_init 2 None 4 (1#2) 0 None "battery" = Ok x_battery.
Proof. vm_compute. reflexivity. Qed.
Example w_battery_capped : battery_init 2 (Some 3) 4 (1#2) 9 (Some 7) "my-battery" = Ok (mkBatteryCfg "my-battery" 2 3 4 (1#2) 4 4).
Proof. vm_compute. reflexivity. Qed.
Example w_battery_no_power : battery_init 0 None 4 (1#2) 0 None "battery" = Err AssertionErr.
Proof. vm_compute. reflexivity. Qed.
Example w_battery_misnamed : battery_init 1 None 4 (1#2) 0 None "storage" = Err ValidationErr.
Proof. vm_compute. reflexivity. Qed.
Example w_solar : renewable_init (Series [Num 5; Num 3]) (1#4) "solar" = Ok x_solar.
Proof. vm_compute. reflexivity. Qed.
Example w_solar_nan : renewable_init (Series [Num 5; NaN]) (1#4) "solar" = Err ValidationErr.
Proof. vm_compute. reflexivity. Qed.
Example w_chp : chp_init (1#4) 4 1 (1#2) (1#4) "chp" = Ok x_chp.
Proof. vm_compute. reflexivity. Qed.
Example w_boiler : boiler_init "boiler" 10 1 (1#2) = Ok x_boiler.
Proof. vm_compute. reflexivity. Qed.
Example w_boiler_lossless : boiler_init "boiler" 10 1 1 = Ok (mkBoilerCfg "boiler" 10 1 1) /\ boiler_init "boiler" 10 1 0 = Err ValidationErr.
Proof. splits; vm_compute; reflexivity. Qed.
Example w_hp : heat_pump_init 3 2 "heat-pump" = Ok x_hp /\ heat_pump_init 1 2 "hp" = Ok (mkHpCfg "hp" 1 2) /\ heat_pump_init (1#2) 2 "hp" = Err ValidationErr.
Proof. splits; vm_compute; reflexivity. Qed.
Lemma w_evs_made : evs_init [[1; 0]; [0; 1]] [2] [1; 1] (1#2) (1#2) "evs" = Ok w_evs.
Proof. vm_compute. reflexivity. Qed.
Example w_evs_ragged : evs_init [[1; 0]; [0]] [2] [1; 1] (1#2) (1#2) "evs" = Err ValueErr /\ evs_init [] [2] [] (1#2) (1#2) "evs" = Err IndexErr /\
  evs_init [[1; 0]] [2] [1; 1] (1#2) (1#2) "evs" = Err ValidationErr.
Proof. splits; vm_compute; reflexivity. Qed.

Lemma w_constructed : Forall constructed w_assets.
Proof.
  unfold w_assets. repeat apply Forall_cons.
  - exact (made_battery _ _ _ _ _ _ _ _ w_battery).
  - exact (made_renewable _ _ _ _ w_solar).
  - exact (made_chp _ _ _ _ _ _ _ w_chp).
  - exact (made_boiler _ _ _ _ _ w_boiler).
  - exact (made_heat_pump _ _ _ _ (proj1 w_hp)).
  - eapply (made_valve "valve"). reflexivity.
  - eapply (made_spill "spill"). reflexivity.
  - exact (made_evs _ _ _ _ _ _ _ w_evs_made).
  - constructor.
Qed.
Lemma w_site_made : site_init w_assets w_input [] = Ok (w_data, w_assets).
Proof. vm_compute. reflexivity. Qed.
Lemma w_numbers : data_numbers w_data = Some x_data.
Proof. vm_compute. reflexivity. Qed.
(** the theorems about sites of constructed assets apply *)
Example w_ready : site_ready x_site w_assets /\ names_ok x_site w_assets.
Proof.
  split.
  - eapply (C48_site_ready w_assets w_input [] w_data); [exact w_constructed| |exact w_site_made|exact w_numbers|cbn; lia| |].
    + apply nodup_str_iff. reflexivity.
    + intros g Hg. cbn in Hg. intuition (try discriminate).
    + intros e He. cbn in He. repeat (destruct He as [He|He]; [first [discriminate He|injection He as <-; cbn; split; [discriminate|]; intros row [<-|[<-|[]]]; cbn; lia]|]). destruct He.
  - eapply (C48_names_ok w_assets w_input [] w_data); [exact w_constructed|exact w_site_made|exact w_numbers| |].
    + intros h Hh. cbn in Hh. repeat (destruct Hh as [Hh|Hh]; [try discriminate Hh; injection Hh as <-; discriminate|]). destruct Hh.
    + intros name k [].
Qed.
Definition w_result : sim_result :=
  Eval vm_compute in result_of (optimize x_solver 0 x_site w_assets [] (ObjName "price") default_flags).
Lemma w_run : feasible_run x_solver 0 x_site w_assets [] (ObjName "price") default_flags w_result.
Proof.
  constructor.
  - apply sound_honest, lucky_sound.
  - vm_compute. reflexivity.
  - reflexivity.
  - repeat constructor.
  - exact (proj2 w_ready).
Qed.
(** C13, C25, C20 from the arguments *)
Example w_c13 := C13_from_arguments _ _ _ _ _ _ _ _ _ _ _ _ _ _ _ _ w_battery w_run (or_introl eq_refl).
Example w_c25 := C25_from_arguments _ _ _ _ _ _ _ _ _ _ _ _ (proj1 w_hp) w_run ltac:(cbn; tauto).
Example w_c20 := C20_from_arguments _ _ _ _ _ _ _ _ _ _ _ _ _ _ _ w_evs_made w_run ltac:(cbn; tauto).
Example w_c20_numbers : rep_part w_result w_evs "charger-0" "electric_charge_mwh" 0 == 2.
Proof. vm_compute. reflexivity. Qed.

(** custom data and renewable generators are repeated *)
Example w_repeat :
  site_init [ARenewable (mkRgCfg "wind" 1 [7] false)] (mkInput (Series [Num 1; Num 2; Num 3]) Missing Missing Missing Missing Missing Missing Missing)
    [("extra", KwSeq [Num 4; Num 5]); ("other", KwIgnored)] =
  Ok (mkIdata [Num 1; Num 2; Num 3] [Num 1; Num 2; Num 3] [Num (1#10); Num (1#10); Num (1#10)] [Num 20; Num 20; Num 20] [Num 0; Num 0; Num 0]
        [Num 0; Num 0; Num 0] [Num 0; Num 0; Num 0] [Num 0; Num 0; Num 0] 3 [("extra", [Num 4; Num 5; Num 4])],
      [ARenewable (mkRgCfg "wind" 1 [7; 7; 7] true)]).
Proof. vm_compute. reflexivity. Qed.
(** the hypotheses of [C48_single_number_single_interval_fails] are met *)
Example w_single : exists g d assets q, renewable_init (Scalar (Num 5)) 1 "wind" = Ok g /\
  renewable_site g false (mkInput (Series [Num 1]) Missing Missing Missing Missing Missing Missing Missing) [] = Ok (Some (d, assets)) /\
  id_n d = 1%nat /\ data_numbers d = Some q.
Proof. do 4 eexists. splits; vm_compute; reflexivity. Qed.
(** standalone assets *)
Example w_standalone :
  battery_site x_battery true (mkInput (Series [Num 1]) Missing Missing Missing Missing Missing Missing Missing) [] =
    Ok (Some (mkIdata [Num 1] [Num 1] [Num (1#10)] [Num 20] [Num 0] [Num 0] [Num 0] [Num 0] 1 [], [ABattery x_battery; ASpill "spill"])) /\
  battery_site x_battery true no_input [] = Ok None /\
  chp_site x_chp false no_input [] = Ok None /\
  (exists d, heat_pump_site x_hp true true (mkInput (Series [Num 1]) Missing Missing Missing Missing Missing Missing Missing) [] =
     Ok (Some (d, [AHeatPump x_hp; ABoiler (mkBoilerCfg "boiler" 10000 0 (8#10)); ASpill "spill"; AValve "valve"]))) /\
  (exists d, evs_site w_evs false (mkInput (Series [Num 1; Num 2]) Missing Missing Missing Missing Missing Missing Missing) [] = Ok (Some (d, [AEVs w_evs]))) /\
  evs_site w_evs false (mkInput (Series [Num 1]) Missing Missing Missing Missing Missing Missing Missing) [] = Err AssertionErr.
Proof. splits; try (eexists; vm_compute; reflexivity); vm_compute; reflexivity. Qed.
