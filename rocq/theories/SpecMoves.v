(** * SpecMoves: changes to a result that would be worth making

    A result is examined interval by interval: what would happen if one asset did a little more, another a little less,
    and the grid took up the rest. *)
From Verif Require Import Base Params Types Spec SpecReport Objectives SpecRun Extract Pipeline.
Open Scope Q_scope.
Open Scope string_scope.

(** what the site is optimized for *)
Inductive goal := Price | Carbon.
Definition minimises (g : goal) : objective := ObjName (match g with Price => "price" | Carbon => "carbon" end).
(** what a MWh costs in interval t: money, or tonnes of carbon *)
Definition import_price (g : goal) (c : site_cfg) (t : nat) : Q :=
  data (match g with Price => id_electricity_prices (sc_idata c) | Carbon => id_electricity_carbon_intensities (sc_idata c) end) t.
Definition export_price (g : goal) (c : site_cfg) (t : nat) : Q :=
  data (match g with Price => id_export_electricity_prices (sc_idata c) | Carbon => id_electricity_carbon_intensities (sc_idata c) end) t.
Definition gas_price (g : goal) (c : site_cfg) (t : nat) : Q :=
  match g with Price => data (id_gas_prices (sc_idata c)) t | Carbon => gas_intensity end.

(** [e] MWh more of electricity could be used in interval t, each worth [v]: by importing less, or, when nothing is imported, by exporting more *)
Definition absorbs (g : goal) (c : site_cfg) (r : sim_result) (t : nat) (e v : Q) : Prop :=
  (e <= r_import r t /\ v == import_price g c t) \/
  (r_import r t == 0 /\ r_export r t + e <= energy (sc_freq c) (sc_export_limit_mw c) /\ v == export_price g c t).
(** [e] MWh more of electricity could be had in interval t, each costing [v]: by exporting less, or, when nothing is exported, by importing more *)
Definition provides (g : goal) (c : site_cfg) (r : sim_result) (t : nat) (e v : Q) : Prop :=
  (e <= r_export r t /\ v == export_price g c t) \/
  (r_export r t == 0 /\ r_import r t + e <= energy (sc_freq c) (sc_import_limit_mw c) /\ v == import_price g c t).

(** the numbers of an asset in the results table *)
Definition elec_made (r : sim_result) (a : asset) (t : nat) : Q := rep r (asset_name a) "electric_generation_mwh" t.
Definition elec_used (r : sim_result) (a : asset) (t : nat) : Q := rep r (asset_name a) "electric_load_mwh" t.
Definition heat_made (r : sim_result) (a : asset) (t : nat) : Q := rep r (asset_name a) "high_temperature_generation_mwh" t.
Definition heat_used (r : sim_result) (a : asset) (t : nat) : Q := rep r (asset_name a) "high_temperature_load_mwh" t.
(** low temperature heat an asset takes: for the spill asset, heat thrown away *)
Definition low_heat_used (r : sim_result) (a : asset) (t : nat) : Q := rep r (asset_name a) "low_temperature_load_mwh" t.
Definition charged (r : sim_result) (b : battery_cfg) (t : nat) : Q := rep r (b_name b) "electric_charge_mwh" t.
Definition discharged (r : sim_result) (b : battery_cfg) (t : nat) : Q := rep r (b_name b) "electric_discharge_mwh" t.
Definition level (r : sim_result) (b : battery_cfg) (t : nat) : Q := rep r (b_name b) "electric_final_charge_mwh" t.
