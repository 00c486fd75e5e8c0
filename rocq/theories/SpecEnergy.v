(** * SpecEnergy: energy over the horizon *)
From Verif Require Import Base Params Types Spec SpecReport SpecRun SpecCompare Extract Pipeline.
Open Scope Q_scope.
Open Scope string_scope.

(** the energy an asset holds at the end and did not hold at the start: the charge events of EVs leave with full batteries *)
Definition stored (a : asset) : Q :=
  match a with
  | ABattery b => b_final_charge_mwh b - b_initial_charge_mwh b
  | AEVs c => Qsum (map ce_capacity_mwh (ev_event_cfgs c))
  | _ => 0
  end.
(** the reported losses of an asset in one interval; those reported for the spill charger of EVs are not real *)
Definition r_loss (r : sim_result) (t : nat) (a : asset) : Q :=
  match a with
  | ABattery _ => rep r (asset_name a) "electric_loss_mwh" t
  | AEVs c => rep_chargers r c (ev_chargers c) "electric_loss_mwh" t
  | _ => 0
  end.
(** all reported losses *)
Definition r_all_loss (r : sim_result) (t : nat) (a : asset) : Q :=
  match a with AEVs c => rep_chargers r c (ev_chargers c ++ ev_spill_chargers c) "electric_loss_mwh" t | _ => r_loss r t a end.

(** the second site has the demands of the first, and a grid connection bigger by all the batteries *)
Definition bigger_by (bs : list battery_cfg) (c c' : site_cfg) : Prop :=
  let n := n_intervals c in let i := sc_idata c in let i' := sc_idata c' in
  n_intervals c' = n /\ sc_freq c' = sc_freq c /\
  same_data n (id_electric_load_mwh i) (id_electric_load_mwh i') /\
  same_data n (id_high_temperature_load_mwh i) (id_high_temperature_load_mwh i') /\
  same_data n (id_low_temperature_load_mwh i) (id_low_temperature_load_mwh i') /\
  same_data n (id_low_temperature_generation_mwh i) (id_low_temperature_generation_mwh i') /\
  energy (sc_freq c) (sc_import_limit_mw c) + Qsum (map (fun b => energy (sc_freq c) (b_discharge_power_mw b)) bs) <= energy (sc_freq c) (sc_import_limit_mw c') /\
  energy (sc_freq c) (sc_export_limit_mw c) + Qsum (map (fun b => energy (sc_freq c) (b_charge_power_mw b)) bs) <= energy (sc_freq c) (sc_export_limit_mw c').
(** one price all the time, for imports and exports alike, and the same gas prices *)
Definition flat_prices (p : Q) (c c' : site_cfg) : Prop :=
  forall t, (t < n_intervals c)%nat ->
    data (id_electricity_prices (sc_idata c)) t == p /\ data (id_export_electricity_prices (sc_idata c)) t == p /\
    data (id_electricity_prices (sc_idata c')) t == p /\ data (id_export_electricity_prices (sc_idata c')) t == p /\
    data (id_gas_prices (sc_idata c')) t == data (id_gas_prices (sc_idata c)) t.
Definition flat_intensity (p : Q) (c c' : site_cfg) : Prop :=
  forall t, (t < n_intervals c)%nat ->
    data (id_electricity_carbon_intensities (sc_idata c)) t == p /\ data (id_electricity_carbon_intensities (sc_idata c')) t == p.
(** batteries that are not emptier at the end than at the start *)
Definition not_run_down (b : battery_cfg) : Prop := b_initial_charge_mwh b <= b_final_charge_mwh b.
