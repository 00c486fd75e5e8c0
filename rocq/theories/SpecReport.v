(** * SpecReport: what the results table of a simulation says

    The table is a list of named columns of cells (a cell is a number or nothing).
    [site_cells] and [asset_cells] list, for a dispatch and an interval, every column
    of the table with the number it should contain; [None] marks the on/off columns
    ([..._binary]), whose value is not part of a dispatch. *)
From Verif Require Import Base Params Types Spec.
Open Scope Q_scope.
Open Scope string_scope.

Definition table := list (string * list (option Q)).

(** column [col] has a number in interval [t] *)
Definition has_cell (r : table) (col : string) (t : nat) : Prop :=
  exists c x, In (col, c) r /\ nth_error c t = Some (Some x).
(** column [col] shows the number [q] in interval [t] *)
Definition shows (r : table) (col : string) (t : nat) (q : Q) : Prop :=
  exists c x, In (col, c) r /\ nth_error c t = Some (Some x) /\ x == q.
(** the number in a cell (0 if there is none) *)
Definition num (r : table) (col : string) (t : nat) : Q :=
  match assoc col r with
  | Some c => match nth t c None with Some x => x | None => 0 end
  | None => 0
  end.

Definition site_cells (c : site_cfg) (d : dispatch) (t : nat) : list (string * option Q) :=
  ("site-import_power_mwh", Some (d_import d t)) :: ("site-export_power_mwh", Some (d_export d t))
  :: map (fun col => ("site-" ++ fst col, Some (data (snd col) t))) (id_columns (sc_idata c)).

Definition column (name attr : string) : string := name ++ "-" ++ attr.

(** EV chargers: sums over the charge events *)
Definition ev_charger_report (d : dispatch) (t : nat) (c : evs_cfg) (k : nat) (cc : charger_cfg) : list (string * option Q) :=
  let over f := Qsum (map f (seq 0 (List.length (ev_event_cfgs c)))) in
  let col := column (column (ev_name c) (cg_name cc)) in
  [ (col "electric_charge_mwh", Some (over (fun e => d_ev_charge d (ev_name c) e k t)));
    (col "electric_charge_binary", None);
    (col "electric_discharge_mwh", Some (over (fun e => d_ev_discharge d (ev_name c) e k t)));
    (col "electric_discharge_binary", None);
    (col "electric_loss_mwh", Some (over (fun e => d_ev_loss d (ev_name c) e k t))) ].
(** charge events: sums over the chargers *)
Definition ev_event_report (d : dispatch) (t : nat) (c : evs_cfg) (e : nat) (ec : charge_event_cfg) : list (string * option Q) :=
  let over f := Qsum (map f (seq 0 (List.length (ev_chargers c)))) in
  let col := column (column (ev_name c) (ce_name ec)) in
  [ (col "electric_charge_mwh", Some (over (fun k => d_ev_charge d (ev_name c) e k t)));
    (col "electric_discharge_mwh", Some (over (fun k => d_ev_discharge d (ev_name c) e k t)));
    (col "electric_loss_mwh", Some (over (fun k => d_ev_loss d (ev_name c) e k t))) ].
(** states of charge *)
Definition ev_soc_report (d : dispatch) (t : nat) (c : evs_cfg) : list (string * option Q) :=
  let col e := column (column (column (ev_name c) "charge-event") (show e)) in
  let es := seq 0 (List.length (ev_event_cfgs c)) in
  (map (fun e => (col e "initial_soc_mwh", Some (d_ev_soc0 d (ev_name c) e t))) es
   ++ map (fun e => (col e "final_soc_mwh", Some (d_ev_soc1 d (ev_name c) e t))) es)%list.
(** the spill charger *)
Definition ev_spill_report (d : dispatch) (t : nat) (c : evs_cfg) (cc : charger_cfg) : list (string * option Q) :=
  let over f := Qsum (map f (seq 0 (List.length (ev_event_cfgs c)))) in
  let col := column (column (ev_name c) (cg_name cc)) in
  [ (col "electric_charge_mwh", Some (over (fun e => d_spill_charge d (ev_name c) e t)));
    (col "electric_charge_binary", None);
    (col "electric_discharge_mwh", Some 0);
    (col "electric_discharge_binary", None);
    (col "electric_loss_mwh", Some (over (fun e => d_spill_loss d (ev_name c) e t))) ].
Definition ev_main_cells (d : dispatch) (t : nat) (c : evs_cfg) : list (string * option Q) :=
  (flat_map (fun kc : nat * charger_cfg => ev_charger_report d t c (fst kc) (snd kc)) (enumerate (ev_chargers c))
   ++ flat_map (fun ee : nat * charge_event_cfg => ev_event_report d t c (fst ee) (snd ee)) (enumerate (ev_event_cfgs c))
   ++ ev_soc_report d t c)%list.
Definition ev_spill_columns (d : dispatch) (t : nat) (c : evs_cfg) : list (string * option Q) :=
  flat_map (ev_spill_report d t c) (ev_spill_chargers c).

(** the columns of one asset *)
Definition asset_cells (d : dispatch) (t : nat) (a : asset) : list (string * option Q) :=
  let col attr q := (column (asset_name a) attr, Some (d_qty d (asset_name a) q t)) in
  let off attr := (column (asset_name a) attr, None) in
  let zero attr := (column (asset_name a) attr, Some 0) in
  match a with
  | ABattery _ =>
      [ col "electric_charge_mwh" Charge; off "electric_charge_binary";
        col "electric_discharge_mwh" Discharge; off "electric_discharge_binary"; col "electric_loss_mwh" Loss;
        col "electric_initial_charge_mwh" Soc0; col "electric_final_charge_mwh" Soc1 ]
  | ABoiler _ => [ col "high_temperature_generation_mwh" HtGen; col "gas_consumption_mwh" Gas ]
  | ACHP _ => [ col "electric_generation_mwh" ElecGen; col "gas_consumption_mwh" Gas;
                col "high_temperature_generation_mwh" HtGen; col "low_temperature_generation_mwh" LtGen ]
  | AEVs c => (ev_main_cells d t c ++ ev_spill_columns d t c)%list
  | AHeatPump _ => [ col "electric_load_mwh" ElecLoad; col "low_temperature_load_mwh" LtLoad;
                     col "high_temperature_generation_mwh" HtGen ]
  | ARenewable _ => [ col "electric_generation_mwh" ElecGen ]
  | ASpill _ => [ col "electric_generation_mwh" ElecGen; col "electric_load_mwh" ElecLoad;
                  col "high_temperature_generation_mwh" HtGen; zero "low_temperature_generation_mwh";
                  zero "high_temperature_load_mwh"; col "low_temperature_load_mwh" LtLoad;
                  zero "gas_consumption_mwh" ]
  | AValve _ => [ col "high_temperature_load_mwh" HtLoad; col "low_temperature_generation_mwh" LtGen ]
  end.
Definition all_cells (c : site_cfg) (assets : list asset) (d : dispatch) (t : nat) : list (string * option Q) :=
  (site_cells c d t ++ flat_map (asset_cells d t) assets)%list.

(** The table reports the dispatch: one value per interval in every column, no column twice, and every
    quantity of the dispatch and of the site data in its column. *)
Definition reports (r : table) (c : site_cfg) (assets : list asset) (d : dispatch) : Prop :=
  (forall col cells, In (col, cells) r -> List.length cells = n_intervals c) /\
  NoDup (map fst r) /\
  (forall t col oq, (t < n_intervals c)%nat -> In (col, oq) (all_cells c assets d t) ->
     match oq with Some q => shows r col t q | None => has_cell r col t end).

(** Names that do not clash with the columns added after the solve. *)
Definition names_ok (c : site_cfg) (assets : list asset) : Prop :=
  (forall a, In a assets -> asset_name a <> "total") /\
  (forall col, In col (id_custom (sc_idata c)) -> fst col <> "electricity_prices" /\ fst col <> "electricity_balance_mwh") /\
  (forall e, In (AEVs e) assets -> contains "evs" (ev_name e) = true).
