(** * SpecCost: cost and emissions as they can be recomputed from a results table *)
From Verif Require Import Base Params Types Spec SpecReport Extract Pipeline SpecRun.
Open Scope Q_scope.
Open Scope string_scope.

(** spilled energy reported in interval t *)
Definition r_spilled (r : sim_result) (t : nat) (a : asset) : Q :=
  match a with
  | ASpill nm => rep r nm "electric_generation_mwh" t + rep r nm "high_temperature_generation_mwh" t + rep r nm "electric_load_mwh" t
  | AEVs c => rep_chargers r c (ev_spill_chargers c) "electric_charge_mwh" t
  | _ => 0
  end.
Definition reported_cost (c : site_cfg) (assets : list asset) (r : sim_result) : Q :=
  horizon c (fun t =>
    r_import r t * data (id_electricity_prices (sc_idata c)) t
    - r_export r t * data (id_export_electricity_prices (sc_idata c)) t
    + total (r_gas r t) assets * data (id_gas_prices (sc_idata c)) t
    + total (r_spilled r t) assets * spill_penalty).
Definition reported_emissions (c : site_cfg) (assets : list asset) (r : sim_result) : Q :=
  horizon c (fun t =>
    (r_import r t - r_export r t) * data (id_electricity_carbon_intensities (sc_idata c)) t
    + total (r_gas r t) assets * gas_intensity
    + total (r_spilled r t) assets * spill_penalty).

(** gas cannot make the cost arbitrarily low *)
Definition gas_tied (c : site_cfg) (assets : list asset) : Prop :=
  (forall t, (t < n_intervals c)%nat -> 0 <= data (id_gas_prices (sc_idata c)) t) \/
  (forall a, In (ACHP a) assets -> 0 < ch_electric_efficiency_pct a).

(** A solver that answers Optimal whenever the program has a solution and its objective is bounded from below. *)
From Verif Require Import Pulp Optimizer.
Definition decisive_solver (slv : solver) : Prop :=
  forall o s b, feasible s o -> (forall s', feasible s' o -> b <= objective_value s' o) -> sol_status (slv o) = Optimal.
(** flags that differ in limit_charge_variables_to_valid_events only *)
Definition with_limit (fl : flags) (b : bool) : flags :=
  mkFlags (fail_on_spill_asset_use fl) (allow_infeasible fl) (allow_evs_discharge fl) b.
Definition zero_one_events (a : asset) : Prop :=
  match a with AEVs c => forall e t, presence c e t == 0 \/ presence c e t == 1 | _ => True end.
