(** * SpecScale: the same site in other units, and with finer time steps *)
From Verif Require Import Base Params Types Spec SpecCompare.
Open Scope Q_scope.

(** ** Everything k times as big *)
Definition charger_scaled (k : Q) (x x' : charger_cfg) : Prop := cg_min_mw x' == k * cg_min_mw x /\ cg_max_mw x' == k * cg_max_mw x.
Definition event_scaled (k : Q) (x x' : charge_event_cfg) : Prop := ce_capacity_mwh x' == k * ce_capacity_mwh x /\ ce_efficiency_pct x' == ce_efficiency_pct x.
Definition asset_scaled (k : Q) (n : nat) (a a' : asset) : Prop :=
  match a, a' with
  | ABattery b, ABattery b' =>
      b_name b' = b_name b /\ b_charge_power_mw b' == k * b_charge_power_mw b /\ b_discharge_power_mw b' == k * b_discharge_power_mw b /\
      b_capacity_mwh b' == k * b_capacity_mwh b /\ b_efficiency_pct b' == b_efficiency_pct b /\
      b_initial_charge_mwh b' == k * b_initial_charge_mwh b /\ b_final_charge_mwh b' == k * b_final_charge_mwh b
  | ABoiler b, ABoiler b' => bo_name b' = bo_name b /\ bo_min_mw b' == k * bo_min_mw b /\ bo_max_mw b' == k * bo_max_mw b /\ bo_efficiency_pct b' == bo_efficiency_pct b
  | ACHP b, ACHP b' =>
      ch_name b' = ch_name b /\ ch_min_mw b' == k * ch_min_mw b /\ ch_max_mw b' == k * ch_max_mw b /\
      ch_electric_efficiency_pct b' == ch_electric_efficiency_pct b /\ ch_ht_efficiency_pct b' == ch_ht_efficiency_pct b /\ ch_lt_efficiency_pct b' == ch_lt_efficiency_pct b
  | AHeatPump b, AHeatPump b' => hp_name b' = hp_name b /\ hp_power_mw b' == k * hp_power_mw b /\ hp_cop b' == hp_cop b
  | ARenewable b, ARenewable b' => rg_name b' = rg_name b /\ rg_lower_pct b' == rg_lower_pct b /\ scaled_data n k (rg_available_mwh b) (rg_available_mwh b')
  | AEVs b, AEVs b' =>
      ev_name b' = ev_name b /\ Forall2 (event_scaled k) (ev_event_cfgs b) (ev_event_cfgs b') /\ Forall2 (charger_scaled k) (ev_chargers b) (ev_chargers b') /\
      Forall2 (charger_scaled k) (ev_spill_chargers b) (ev_spill_chargers b') /\
      forall e t, (e < List.length (ev_event_cfgs b))%nat -> (t < n)%nat -> presence b' e t == presence b e t
  | ASpill x, ASpill x' | AValve x, AValve x' => x' = x
  | _, _ => False
  end.
(** demands and grid limits k times as big, the prices the same *)
Definition site_scaled (k : Q) (c c' : site_cfg) : Prop :=
  let n := n_intervals c in let i := sc_idata c in let i' := sc_idata c' in
  n_intervals c' = n /\ sc_freq c' = sc_freq c /\ sc_import_limit_mw c' == k * sc_import_limit_mw c /\ sc_export_limit_mw c' == k * sc_export_limit_mw c /\
  scaled_data n k (id_electric_load_mwh i) (id_electric_load_mwh i') /\
  scaled_data n k (id_high_temperature_load_mwh i) (id_high_temperature_load_mwh i') /\
  scaled_data n k (id_low_temperature_load_mwh i) (id_low_temperature_load_mwh i') /\
  scaled_data n k (id_low_temperature_generation_mwh i) (id_low_temperature_generation_mwh i') /\
  same_data n (id_electricity_prices i) (id_electricity_prices i') /\
  same_data n (id_export_electricity_prices i) (id_export_electricity_prices i') /\
  same_data n (id_gas_prices i) (id_gas_prices i') /\
  same_data n (id_electricity_carbon_intensities i) (id_electricity_carbon_intensities i').

(** ** Every interval split into k shorter ones *)
Definition parts (k : nat) : Q := inject_Z (Z.of_nat k).
(** energies are shared out, prices are repeated *)
Definition data_shared (n k : nat) (l l' : list Q) : Prop := forall t j, (t < n)%nat -> (j < k)%nat -> data l' (t * k + j) == data l t / parts k.
Definition data_repeated (n k : nat) (l l' : list Q) : Prop := forall t j, (t < n)%nat -> (j < k)%nat -> data l' (t * k + j) == data l t.
Definition asset_refined (n k : nat) (a a' : asset) : Prop :=
  match a, a' with
  | ARenewable b, ARenewable b' => rg_name b' = rg_name b /\ rg_lower_pct b' == rg_lower_pct b /\ data_shared n k (rg_available_mwh b) (rg_available_mwh b')
  | AEVs b, AEVs b' =>
      ev_name b' = ev_name b /\ ev_event_cfgs b' = ev_event_cfgs b /\ ev_chargers b' = ev_chargers b /\ ev_spill_chargers b' = ev_spill_chargers b /\
      forall e t j, (e < List.length (ev_event_cfgs b))%nat -> (t < n)%nat -> (j < k)%nat -> presence b' e (t * k + j) == presence b e t
  | _, _ => a' = a
  end.
Definition site_refined (k : nat) (c c' : site_cfg) : Prop :=
  let n := n_intervals c in let i := sc_idata c in let i' := sc_idata c' in
  n_intervals c' = (n * k)%nat /\ sc_freq c = (Z.of_nat k * sc_freq c')%Z /\ sc_import_limit_mw c' == sc_import_limit_mw c /\ sc_export_limit_mw c' == sc_export_limit_mw c /\
  data_shared n k (id_electric_load_mwh i) (id_electric_load_mwh i') /\
  data_shared n k (id_high_temperature_load_mwh i) (id_high_temperature_load_mwh i') /\
  data_shared n k (id_low_temperature_load_mwh i) (id_low_temperature_load_mwh i') /\
  data_shared n k (id_low_temperature_generation_mwh i) (id_low_temperature_generation_mwh i') /\
  data_repeated n k (id_electricity_prices i) (id_electricity_prices i') /\
  data_repeated n k (id_export_electricity_prices i) (id_export_electricity_prices i') /\
  data_repeated n k (id_gas_prices i) (id_gas_prices i') /\
  data_repeated n k (id_electricity_carbon_intensities i) (id_electricity_carbon_intensities i').
