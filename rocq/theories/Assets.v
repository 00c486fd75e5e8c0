(** * Assets: one_interval and constrain_* of every asset except EVs and Site *)
From Verif Require Import Base Pulp Params Optimizer Types.
Open Scope Q_scope.
Open Scope string_scope.

(** ** Battery *)
(** energypylinear/assets/battery.py:260-305 *)
Definition battery_one_interval (c : battery_cfg) (i : nat) (f : freq) : M oneint :=
  charge <- continuous (b_name c ++ "-electric_charge_mwh-" ++ show i) (Some 0) (Some (mw_to_mwh f (b_charge_power_mw c))) ;;
  discharge <- continuous (b_name c ++ "-electric_discharge_mwh-" ++ show i) (Some 0) (Some (mw_to_mwh f (b_discharge_power_mw c))) ;;
  cbin <- binary (b_name c ++ "-electric_charge_binary-" ++ show i) ;;
  dbin <- binary (b_name c ++ "-electric_discharge_binary-" ++ show i) ;;
  loss <- continuous (b_name c ++ "-electric_loss_mwh-" ++ show i) (Some 0) None ;;
  initial <- continuous (b_name c ++ "-electric_initial_charge_mwh-" ++ show i) (Some 0) (Some (b_capacity_mwh c)) ;;
  final <- continuous (b_name c ++ "-electric_final_charge_mwh-" ++ show i) (Some 0) (Some (b_capacity_mwh c)) ;;
  ret (OIBattery (mkBatteryOI c charge cbin discharge dbin loss initial final)).

(** [assert isinstance(x, BatteryOneInterval)] *)
Definition as_battery (x : oneint) : res battery_oi :=
  match x with OIBattery r => Ok r | _ => Err AssertionErr end.

(** energypylinear/assets/battery.py:81-105 *)
Definition constrain_only_charge_or_discharge (r : battery_oi) : M unit :=
  constrain_max (FVar (boi_charge r)) (FVar (boi_charge_bin r)) (b_capacity_mwh (boi_cfg r)) ;;;
  constrain_max (FVar (boi_discharge r)) (FVar (boi_discharge_bin r)) (b_capacity_mwh (boi_cfg r)) ;;;
  constrain (cle (eadd (evar (boi_charge_bin r)) (evar (boi_discharge_bin r))) (econst 1)).

(** energypylinear/assets/battery.py:108-130 *)
Definition constrain_battery_electricity_balance (r : battery_oi) : M unit :=
  constrain (ceq (esub (esub (eadd (evar (boi_initial r)) (evar (boi_charge r)))
                             (evar (boi_discharge r))) (evar (boi_loss r)))
                 (evar (boi_final r))) ;;;
  constrain (ceq (evar (boi_loss r))
                 (escale (evar (boi_charge r)) (1 - b_efficiency_pct (boi_cfg r)))).

(** [zip(old, new, strict=True)] loop body, energypylinear/assets/battery.py:147-154 *)
Fixpoint connect_batteries (old new : list oneint) : M unit :=
  match old, new with
  | [], [] => ret tt
  | a :: old', b :: new' =>
      ra <- lift (as_battery a) ;;
      rb <- lift (as_battery b) ;;
      constrain (ceq (evar (boi_final ra)) (evar (boi_initial rb))) ;;;
      connect_batteries old' new'
  | _, _ => raise ValueErr              (* zip(strict=True) *)
  end.
(** energypylinear/assets/battery.py:133-154 *)
Definition constrain_connection_batteries_between_intervals (all : list (list oneint)) : M unit :=
  if Nat.ltb (List.length all) 2 then ret tt
  else old <- lift (py_index all (-2)) ;; new <- lift (py_index all (-1)) ;; connect_batteries old new.

(** energypylinear/assets/battery.py:307-336 *)
Definition battery_constrain_within (c : battery_cfg) (iv : interval_vars) : M unit :=
  found <- lift (filter_objective_variables iv (-1) (Some KBattery) (Some (b_name c))) ;;
  x <- lift (hd_res found) ;;
  r <- lift (as_battery x) ;;
  constrain_only_charge_or_discharge r ;;;
  constrain_battery_electricity_balance r ;;;
  constrain_connection_batteries_between_intervals (filter_all_intervals iv (Some KBattery) (Some (b_name c))).

(** energypylinear/assets/battery.py:157-172 and 338-358 *)
Definition battery_constrain_after (c : battery_cfg) (iv : interval_vars) : M unit :=
  l0 <- lift (filter_objective_variables iv 0 (Some KBattery) (Some (b_name c))) ;;
  x0 <- lift (hd_res l0) ;;
  l1 <- lift (filter_objective_variables iv (-1) (Some KBattery) (Some (b_name c))) ;;
  x1 <- lift (hd_res l1) ;;
  initial <- lift (as_battery x0) ;;
  final <- lift (as_battery x1) ;;
  constrain (ceq (evar (boi_initial initial)) (econst (b_initial_charge_mwh (boi_cfg initial)))) ;;;
  constrain (ceq (evar (boi_final final)) (econst (b_final_charge_mwh (boi_cfg final)))).

(** ** Boiler *)
(** energypylinear/assets/boiler.py:58-75 *)
Definition boiler_one_interval (c : boiler_cfg) (i : nat) (f : freq) : M oneint :=
  ht <- continuous (bo_name c ++ "-high_temperature_generation_mwh-" ++ show i)
          (Some (mw_to_mwh f (bo_min_mw c))) (Some (mw_to_mwh f (bo_max_mw c))) ;;
  bin <- binary (bo_name c ++ "-binary_mwh-" ++ show i) ;;
  gas <- continuous (bo_name c ++ "-gas_consumption_mwh-" ++ show i) (Some 0) None ;;
  ret (OIBoiler (mkBoilerOI c ht gas bin)).

(** energypylinear/assets/boiler.py:77-104; 1 / efficiency raises ZeroDivisionError for 0
    (excluded by the field constraint gt=0) *)
Definition boiler_constrain_within (c : boiler_cfg) (iv : interval_vars) (f : freq) : M unit :=
  found <- lift (filter_objective_variables iv (-1) (Some KBoiler) (Some (bo_name c))) ;;
  x <- lift (hd_res found) ;;
  match x with
  | OIBoiler r =>
      (if Qeq_bool (bo_efficiency_pct (kboi_cfg r)) 0 then raise ZeroDivErr else ret tt) ;;;
      constrain (ceq (evar (kboi_gas r)) (escale (evar (kboi_ht r)) (1 / bo_efficiency_pct (kboi_cfg r)))) ;;;
      constrain_max (FVar (kboi_ht r)) (FVar (kboi_bin r)) (mw_to_mwh f (bo_max_mw (kboi_cfg r))) ;;;
      constrain_min (FVar (kboi_ht r)) (FVar (kboi_bin r)) (mw_to_mwh f (bo_min_mw (kboi_cfg r)))
  | _ => raise AssertionErr
  end.

(** ** CHP *)
(** energypylinear/assets/chp.py:137-162 *)
Definition chp_one_interval (c : chp_cfg) (i : nat) (f : freq) : M oneint :=
  elec <- continuous (ch_name c ++ "-electric_generation_mwh-" ++ show i) (Some 0) (Some (mw_to_mwh f (ch_max_mw c))) ;;
  bin <- binary (ch_name c ++ "-binary_mwh-" ++ show i) ;;
  gas <- continuous (ch_name c ++ "-gas_consumption_mwh-" ++ show i) (Some 0) None ;;
  ht <- continuous (ch_name c ++ "-high_temperature_generation_mwh-" ++ show i) (Some 0) None ;;
  lt <- continuous (ch_name c ++ "-low_temperature_generation_mwh-" ++ show i) (Some 0) None ;;
  ret (OICHP (mkChpOI c bin elec gas ht lt)).

(** energypylinear/assets/chp.py:164-200 *)
Definition chp_constrain_within (c : chp_cfg) (iv : interval_vars) (i : nat) (f : freq) : M unit :=
  found <- lift (filter_objective_variables iv (Z.of_nat i) (Some KCHP) (Some (ch_name c))) ;;
  x <- lift (hd_res found) ;;
  match x with
  | OICHP r =>
      (if Qgtb (ch_electric_efficiency_pct (coi_cfg r)) 0
       then constrain (ceq (evar (coi_gas r))
                           (escale (evar (coi_elec r)) (1 / ch_electric_efficiency_pct (coi_cfg r))))
       else ret tt) ;;;
      constrain (ceq (evar (coi_ht r)) (escale (evar (coi_gas r)) (ch_ht_efficiency_pct (coi_cfg r)))) ;;;
      constrain (ceq (evar (coi_lt r)) (escale (evar (coi_gas r)) (ch_lt_efficiency_pct (coi_cfg r)))) ;;;
      constrain_max (FVar (coi_elec r)) (FVar (coi_bin r)) (mw_to_mwh f (ch_max_mw (coi_cfg r))) ;;;
      constrain_min (FVar (coi_elec r)) (FVar (coi_bin r)) (mw_to_mwh f (ch_min_mw (coi_cfg r)))
  | _ => raise AssertionErr
  end.

(** ** Heat pump *)
(** energypylinear/assets/heat_pump.py:128-151 *)
Definition hp_one_interval (c : hp_cfg) (i : nat) (f : freq) : M oneint :=
  let name := "i:" ++ show i ++ ",asset:" ++ hp_name c in
  elec <- continuous ("electric_load_mwh," ++ name) (Some 0) (Some (mw_to_mwh f (hp_power_mw c))) ;;
  bin <- binary ("electric_load_binary," ++ name) ;;
  lt <- continuous ("low_temperature_load_mwh," ++ name) (Some 0) None ;;
  ht <- continuous ("high_temperature_generation_mwh," ++ name) (Some 0) None ;;
  ret (OIHeatPump (mkHpOI c elec bin lt ht)).

(** energypylinear/assets/heat_pump.py:153-178 *)
Definition hp_constrain_within (c : hp_cfg) (iv : interval_vars) (i : nat) (f : freq) : M unit :=
  found <- lift (filter_objective_variables iv (Z.of_nat i) (Some KHeatPump) (Some (hp_name c))) ;;
  x <- lift (hd_res found) ;;
  match x with
  | OIHeatPump r =>
      constrain_max (FVar (hoi_elec r)) (FVar (hoi_bin r)) (mw_to_mwh f (hp_power_mw (hoi_cfg r))) ;;;
      constrain (ceq (evar (hoi_ht r)) (escale (evar (hoi_elec r)) (hp_cop (hoi_cfg r)))) ;;;
      constrain (ceq (eadd (evar (hoi_lt r)) (evar (hoi_elec r))) (evar (hoi_ht r)))
  | _ => raise AssertionErr
  end.

(** ** Renewable generator: energypylinear/assets/renewable_generator.py:186-211.
    Lines 213-245 add no constraint. *)
Definition rg_one_interval (c : rg_cfg) (i : nat) : M oneint :=
  let name := "i:" ++ show i ++ ",asset:" ++ rg_name c in
  massert (rg_is_array c) ;;;
  avail <- lift (nth_res (rg_available_mwh c) i) ;;
  elec <- continuous ("electric_generation_mwh," ++ name) (Some (avail * rg_lower_pct c)%Q) (Some avail) ;;
  ret (OIRenewable (mkRgOI c elec)).

(** ** Spill: energypylinear/assets/spill.py:51-73.  Lines 75-85 add no constraint. *)
Definition spill_one_interval (n : string) (i : nat) : M oneint :=
  eg <- continuous (n ++ "-electric_generation_mwh-" ++ show i) (Some 0) None ;;
  hg <- continuous (n ++ "-high_temperature_generation_mwh-" ++ show i) (Some 0) None ;;
  el <- continuous (n ++ "-electric_load_mwh-" ++ show i) (Some 0) None ;;
  ll <- continuous (n ++ "-low_temperature_load_mwh-" ++ show i) (Some 0) None ;;
  ret (OISpill (mkSpillOI n eg el hg ll)).

(** ** Valve: energypylinear/assets/valve.py:45-57 *)
Definition valve_one_interval (n : string) (i : nat) : M oneint :=
  hl <- continuous (n ++ "-high_temperature_load_mwh-" ++ show i) (Some 0) None ;;
  lg <- continuous (n ++ "-low_temperature_generation_mwh-" ++ show i) (Some 0) None ;;
  ret (OIValve (mkValveOI n hl lg)).
(** energypylinear/assets/valve.py:59-74 *)
Definition valve_constrain_within (n : string) (iv : interval_vars) : M unit :=
  found <- lift (filter_objective_variables iv (-1) (Some KValve) (Some n)) ;;
  x <- lift (hd_res found) ;;
  match x with
  | OIValve r => constrain (ceq (evar (voi_ht_load r)) (evar (voi_lt_gen r)))
  | _ => raise AssertionErr
  end.
