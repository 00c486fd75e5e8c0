(** * SpecNames: when names do not confuse the results table

    The table is addressed by column names ("<asset>-<quantity>"), and totals are
    collected by looking for "-<quantity>" inside the names.  [ordinary_names] says that
    the names given by the user do not themselves look like such columns. *)
From Verif Require Import Base Types Spec SpecReport.
Open Scope string_scope.

(** the nine quantities that have a total, results/schema.py:26-36 *)
Definition quantity_names : list string :=
  [ "electric_generation_mwh"; "electric_load_mwh"; "high_temperature_generation_mwh";
    "low_temperature_generation_mwh"; "high_temperature_load_mwh"; "low_temperature_load_mwh";
    "gas_consumption_mwh"; "electric_charge_mwh"; "electric_discharge_mwh" ].

(** no "-<quantity>" and no "charge-event" inside *)
Definition clean (x : string) : Prop :=
  contains "charge-event" x = false /\ forall q, In q quantity_names -> contains ("-" ++ q) x = false.

Definition ordinary_asset (a : asset) : Prop :=
  match a with
  | AEVs c =>
      (forall cc, In cc (ev_chargers c) \/ In cc (ev_spill_chargers c) -> clean (column (ev_name c) (cg_name cc))) /\
      (forall ec, In ec (ev_event_cfgs c) -> contains "charge-event" (column (ev_name c) (ce_name ec)) = true)
  | _ => clean (asset_name a)
  end.
(** custom interval data *)
Definition ordinary_data (n : string) : Prop :=
  forall q, In q quantity_names -> starts_with q n = false /\ contains ("-" ++ q) n = false.
Definition ordinary_names (c : site_cfg) (assets : list asset) : Prop :=
  (forall a, In a assets -> ordinary_asset a) /\ (forall col, In col (id_custom (sc_idata c)) -> ordinary_data (fst col)).

(** The same for the loss and spill totals, which look for "electric_loss_mwh", "evs-charger", "spill",
    "charger-" and "binary". *)
Definition parts (c : evs_cfg) : list charger_cfg := (ev_chargers c ++ ev_spill_chargers c)%list.
Definition ordinary_loss (a : asset) : Prop :=
  match a with
  | AEVs c =>
      (forall cc, In cc (parts c) -> let x := column (ev_name c) (cg_name cc) in contains "electric_loss_mwh" x = false /\ contains "evs-charger" x = true) /\
      (forall ec, In ec (ev_event_cfgs c) -> let x := column (ev_name c) (ce_name ec) in contains "electric_loss_mwh" x = false /\ contains "evs-charger" x = false) /\
      contains "electric_loss_mwh" (ev_name c) = false
  | _ => contains "electric_loss_mwh" (asset_name a) = false /\ contains "evs-charger" (asset_name a) = false
  end.
Definition ordinary_spill (a : asset) : Prop :=
  match a with
  | AEVs c =>
      (forall cc, In cc (ev_chargers c) -> contains "spill" (column (ev_name c) (cg_name cc)) = false) /\
      (forall cc, In cc (ev_spill_chargers c) -> let x := column (ev_name c) (cg_name cc) in
         contains "spill" x = true /\ contains "charger-" x = true /\ contains "binary" x = false) /\
      (forall ec, In ec (ev_event_cfgs c) -> contains "spill" (column (ev_name c) (ce_name ec)) = false) /\
      contains "spill" (ev_name c) = false
  | ASpill n => contains "spill" n = true /\ contains "charger-" n = false /\ ends_with "charger" n = false
  | _ => contains "spill" (asset_name a) = false
  end.
Definition no_data_with (w : string) (c : site_cfg) : Prop :=
  forall col, In col (id_custom (sc_idata c)) -> contains w (fst col) = false.

(** energy lost while charging: batteries and EV chargers (spill charger excluded) *)
Definition lost (d : dispatch) (t : nat) (a : asset) : Q :=
  match a with
  | ABattery c => d_qty d (b_name c) Loss t
  | AEVs c => Qsum (map (fun e => Qsum (map (fun k => d_ev_loss d (ev_name c) e k t) (seq 0 (List.length (ev_chargers c))))) (seq 0 (List.length (ev_event_cfgs c))))
  | _ => 0%Q
  end.
(** what goes through the EV spill chargers *)
Definition ev_spilled (d : dispatch) (t : nat) (a : asset) : Q :=
  match a with
  | AEVs c => (Qsum (map (fun e => d_spill_charge d (ev_name c) e t) (seq 0 (List.length (ev_event_cfgs c))))
               + Qsum (map (fun e => d_spill_loss d (ev_name c) e t) (seq 0 (List.length (ev_event_cfgs c)))))%Q
  | _ => 0%Q
  end.
(** everything a Spill asset did in an interval *)
Definition dumped (d : dispatch) (t : nat) (a : asset) : Q :=
  match a with
  | ASpill n => (d_qty d n ElecGen t + d_qty d n ElecLoad t + d_qty d n HtGen t + d_qty d n LtLoad t)%Q
  | _ => 0%Q
  end.

(** No two quantities of the site and its assets have the same column name. *)
Definition distinct_columns (c : site_cfg) (assets : list asset) : Prop :=
  forall d t, NoDup (map fst (all_cells c assets d t)).
(** Loads, generation and availability are not negative (negative numbers are rejected by the result checks). *)
Definition nonneg_asset (a : asset) : Prop :=
  match a with
  | ABoiler c => (0 < bo_efficiency_pct c)%Q
  | ARenewable c => (0 <= rg_lower_pct c)%Q /\ Forall (fun x => 0 <= x)%Q (rg_available_mwh c)
  | _ => True
  end.
Definition nonneg_site (c : site_cfg) (assets : list asset) : Prop :=
  let pos l := Forall (fun x => 0 <= x)%Q l in
  pos (id_electric_load_mwh (sc_idata c)) /\ pos (id_high_temperature_load_mwh (sc_idata c)) /\
  pos (id_low_temperature_load_mwh (sc_idata c)) /\ pos (id_low_temperature_generation_mwh (sc_idata c)) /\
  Forall nonneg_asset assets.
(** every column of the interval data has one value per interval *)
Definition full_data (d : idata Q) : Prop := forall col, In col (id_columns d) -> List.length (snd col) = id_n d.
(** A site whose results can be read without confusion. *)
Record ordinary_site (c : site_cfg) (assets : list asset) : Prop := mkOrdinary {
  os_names : names_ok c assets;
  os_ordinary : ordinary_names c assets;
  os_distinct : distinct_columns c assets;
  os_evs : forall a, In a assets -> contains "evs" (asset_name a) = true -> exists e, a = AEVs e;
  os_valve : forall n, In (AValve n) assets -> n = "valve";
  os_data : full_data (sc_idata c);
  os_nonneg : nonneg_site c assets }.
