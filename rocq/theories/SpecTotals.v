(** * SpecTotals: reported losses and spills, and the spill flag *)
From Verif Require Import Base Pulp Params Optimizer Types Spec SpecReport SpecRun SpecNames Extract.
Open Scope Q_scope.
Open Scope string_scope.

(** energy lost while charging, as reported by the battery or by the chargers (without the spill charger) *)
Definition r_lost (r : sim_result) (t : nat) (a : asset) : Q :=
  match a with
  | ABattery _ => rep r (asset_name a) "electric_loss_mwh" t
  | AEVs c => rep_chargers r c (ev_chargers c) "electric_loss_mwh" t
  | _ => 0
  end.
(** what the spill charger of an EVs asset reports: energy and losses *)
Definition r_ev_spilled (r : sim_result) (t : nat) (a : asset) : Q :=
  match a with
  | AEVs c => rep_chargers r c (ev_spill_chargers c) "electric_charge_mwh" t + rep_chargers r c (ev_spill_chargers c) "electric_loss_mwh" t
  | _ => 0
  end.
(** everything a Spill asset reports *)
Definition r_dumped (r : sim_result) (t : nat) (a : asset) : Q :=
  match a with
  | ASpill n => rep r n "electric_generation_mwh" t + rep r n "electric_load_mwh" t + rep r n "high_temperature_generation_mwh" t + rep r n "low_temperature_load_mwh" t
  | _ => 0
  end.
(** the sum of a column *)
Definition column_sum (cells : list (option Q)) : Q := Qsum (map (fun x => match x with Some q => q | None => 0 end) cells).
(** the columns of the table that mention a spill (on/off columns excluded) *)
Definition spill_columns (r : table) : table :=
  filter (fun nc => contains "spill" (fst nc) && negb (contains "charge_binary" (fst nc)))%bool r.

Definition with_fail (b : bool) (fl : flags) : flags :=
  mkFlags b (allow_infeasible fl) (allow_evs_discharge fl) (limit_charge_variables_to_valid_events fl).

(** every variable of the program gets a number, whatever the status *)
Definition answering_solver (slv : solver) : Prop := forall o v, occurs o v = true -> sol_value (slv o) (v_id v) <> None.
