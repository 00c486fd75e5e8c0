(** * Types: asset configurations, one-interval objects, getattr, IntervalVars *)
From Verif Require Import Base Pulp Params Optimizer.
Open Scope Q_scope.

(** ** Configurations (the asset's own [freq_mins] is stored by the code but never
    used when optimizing, so it is left out) *)

(** energypylinear/assets/battery.py:40-64; final charge is always a number after
    setup_initial_final_charge *)
Record battery_cfg := mkBatteryCfg {
  b_name : string; b_charge_power_mw : Q; b_discharge_power_mw : Q;
  b_capacity_mwh : Q; b_efficiency_pct : Q;
  b_initial_charge_mwh : Q; b_final_charge_mwh : Q }.
(** energypylinear/assets/boiler.py:11-24 *)
Record boiler_cfg := mkBoilerCfg {
  bo_name : string; bo_max_mw : Q; bo_min_mw : Q; bo_efficiency_pct : Q }.
(** energypylinear/assets/chp.py:17-35 *)
Record chp_cfg := mkChpCfg {
  ch_name : string; ch_max_mw : Q; ch_min_mw : Q;
  ch_electric_efficiency_pct : Q; ch_ht_efficiency_pct : Q; ch_lt_efficiency_pct : Q }.
(** energypylinear/assets/heat_pump.py:15-37 (include_valve only matters to the constructor) *)
Record hp_cfg := mkHpCfg { hp_name : string; hp_cop : Q; hp_power_mw : Q }.
(** energypylinear/assets/renewable_generator.py:18-66, 69-89.  [rg_is_array]: whether the data is
    already an np.ndarray (a single float stays a Python list until it is repeated). *)
Record rg_cfg := mkRgCfg {
  rg_name : string; rg_lower_pct : Q; rg_available_mwh : list Q; rg_is_array : bool }.
(** energypylinear/assets/evs.py:40-89.  [ev_events] keeps one row per charge event
    (the code stores the transpose and reads charge_events[i, event]). *)
Record charge_event_cfg := mkEventCfg { ce_name : string; ce_capacity_mwh : Q; ce_efficiency_pct : Q }.
Record charger_cfg := mkChargerCfg { cg_name : string; cg_max_mw : Q; cg_min_mw : Q }.
Record evs_cfg := mkEvsCfg {
  ev_name : string;
  ev_chargers : list charger_cfg;
  ev_spill_chargers : list charger_cfg;
  ev_event_cfgs : list charge_event_cfg;
  ev_events : list (list Q) }.

(** Assets of a site.  Spill: assets/spill.py:14-24, 43-45; Valve: assets/valve.py:13-23. *)
Inductive asset :=
| ABattery (c : battery_cfg)
| ABoiler (c : boiler_cfg)
| ACHP (c : chp_cfg)
| AEVs (c : evs_cfg)
| AHeatPump (c : hp_cfg)
| ARenewable (c : rg_cfg)
| ASpill (name : string)
| AValve (name : string).

(** [asset.cfg.name] *)
Definition asset_name (a : asset) : string :=
  match a with
  | ABattery c => b_name c | ABoiler c => bo_name c | ACHP c => ch_name c
  | AEVs c => ev_name c | AHeatPump c => hp_name c | ARenewable c => rg_name c
  | ASpill n => n | AValve n => n
  end.

(** ** One-interval objects *)

(** energypylinear/assets/battery.py:67-78 *)
Record battery_oi := mkBatteryOI {
  boi_cfg : battery_cfg;
  boi_charge : lpvar; boi_charge_bin : lpvar;
  boi_discharge : lpvar; boi_discharge_bin : lpvar;
  boi_loss : lpvar; boi_initial : lpvar; boi_final : lpvar }.
(** energypylinear/assets/boiler.py:27-33 *)
Record boiler_oi := mkBoilerOI {
  kboi_cfg : boiler_cfg; kboi_ht : lpvar; kboi_gas : lpvar; kboi_bin : lpvar }.
(** energypylinear/assets/chp.py:38-47 *)
Record chp_oi := mkChpOI {
  coi_cfg : chp_cfg; coi_bin : lpvar; coi_elec : lpvar; coi_gas : lpvar; coi_ht : lpvar; coi_lt : lpvar }.
(** energypylinear/assets/heat_pump.py:40-47 *)
Record hp_oi := mkHpOI {
  hoi_cfg : hp_cfg; hoi_elec : lpvar; hoi_bin : lpvar; hoi_lt : lpvar; hoi_ht : lpvar }.
(** energypylinear/assets/renewable_generator.py:92-96 *)
Record rg_oi := mkRgOI { roi_cfg : rg_cfg; roi_elec : lpvar }.
(** energypylinear/assets/spill.py:27-37 *)
Record spill_oi := mkSpillOI {
  soi_name : string; soi_elec_gen : lpvar; soi_elec_load : lpvar; soi_ht_gen : lpvar; soi_lt_load : lpvar }.
(** energypylinear/assets/valve.py:26-31 *)
Record valve_oi := mkValveOI { voi_name : string; voi_ht_load : lpvar; voi_lt_gen : lpvar }.
(** energypylinear/assets/evs.py:92-149: EVOneInterval and EVSpillOneInterval have the same fields *)
Record ev_oi := mkEvOI {
  eoi_cfg : evs_cfg; eoi_i : nat;
  eoi_event : nat; eoi_event_cfg : charge_event_cfg;
  eoi_charger : nat; eoi_charger_cfg : charger_cfg;
  eoi_charge : fval; eoi_charge_bin : fval;
  eoi_discharge : fval; eoi_discharge_bin : fval;
  eoi_soc0 : fval; eoi_soc1 : fval; eoi_loss : fval }.
(** energypylinear/assets/site.py:193-225 *)
Record site_oi := mkSiteOI {
  tio_name : string;
  tio_import : lpvar; tio_export : lpvar; tio_import_bin : lpvar; tio_export_bin : lpvar;
  tio_import_limit : Q; tio_export_limit : Q }.

Inductive oneint :=
| OISite (r : site_oi)
| OIBattery (r : battery_oi)
| OIBoiler (r : boiler_oi)
| OICHP (r : chp_oi)
| OIEv (r : ev_oi)
| OIEvSpill (r : ev_oi)
| OIHeatPump (r : hp_oi)
| OIRenewable (r : rg_oi)
| OISpill (r : spill_oi)
| OIValve (r : valve_oi).

(** [one_interval.cfg.name] *)
Definition oi_name (x : oneint) : string :=
  match x with
  | OISite r => tio_name r | OIBattery r => b_name (boi_cfg r) | OIBoiler r => bo_name (kboi_cfg r)
  | OICHP r => ch_name (coi_cfg r) | OIEv r => ev_name (eoi_cfg r) | OIEvSpill r => ev_name (eoi_cfg r)
  | OIHeatPump r => hp_name (hoi_cfg r) | OIRenewable r => rg_name (roi_cfg r)
  | OISpill r => soi_name r | OIValve r => voi_name r
  end.

(** The classes used for [isinstance] filters *)
Inductive kind := KSite | KBattery | KBoiler | KCHP | KEv | KEvSpill | KHeatPump | KRenewable | KSpill | KValve.
Definition kind_of (x : oneint) : kind :=
  match x with
  | OISite _ => KSite | OIBattery _ => KBattery | OIBoiler _ => KBoiler | OICHP _ => KCHP
  | OIEv _ => KEv | OIEvSpill _ => KEvSpill | OIHeatPump _ => KHeatPump | OIRenewable _ => KRenewable
  | OISpill _ => KSpill | OIValve _ => KValve
  end.
Definition kind_eqb (a b : kind) : bool :=
  match a, b with
  | KSite, KSite | KBattery, KBattery | KBoiler, KBoiler | KCHP, KCHP | KEv, KEv | KEvSpill, KEvSpill
  | KHeatPump, KHeatPump | KRenewable, KRenewable | KSpill, KSpill | KValve, KValve => true
  | _, _ => false
  end.

(** The balance quantities every one-interval object has: AssetOneInterval, assets/asset.py:86-96.
    Missing ones are the class default int 0, the site's are None (assets/site.py:221-225). *)
Definition electric_generation_mwh (x : oneint) : fval :=
  match x with
  | OISite _ => FNone | OICHP r => FVar (coi_elec r) | OIRenewable r => FVar (roi_elec r)
  | OISpill r => FVar (soi_elec_gen r) | _ => FInt 0
  end.
Definition high_temperature_generation_mwh (x : oneint) : fval :=
  match x with
  | OISite _ => FNone | OIBoiler r => FVar (kboi_ht r) | OICHP r => FVar (coi_ht r)
  | OIHeatPump r => FVar (hoi_ht r) | OISpill r => FVar (soi_ht_gen r) | _ => FInt 0
  end.
Definition low_temperature_generation_mwh (x : oneint) : fval :=
  match x with
  | OISite _ => FNone | OICHP r => FVar (coi_lt r) | OIValve r => FVar (voi_lt_gen r) | _ => FInt 0
  end.
Definition electric_load_mwh (x : oneint) : fval :=
  match x with
  | OIHeatPump r => FVar (hoi_elec r) | OISpill r => FVar (soi_elec_load r) | _ => FInt 0
  end.
Definition high_temperature_load_mwh (x : oneint) : fval :=
  match x with OIValve r => FVar (voi_ht_load r) | _ => FInt 0 end.
Definition low_temperature_load_mwh (x : oneint) : fval :=
  match x with
  | OIHeatPump r => FVar (hoi_lt r) | OISpill r => FVar (soi_lt_load r) | _ => FInt 0
  end.
Definition electric_charge_mwh (x : oneint) : fval :=
  match x with
  | OISite _ => FNone | OIBattery r => FVar (boi_charge r)
  | OIEv r => eoi_charge r | OIEvSpill r => eoi_charge r
  | OISpill _ => FFloat 0 | _ => FInt 0
  end.
Definition electric_discharge_mwh (x : oneint) : fval :=
  match x with
  | OISite _ => FNone | OIBattery r => FVar (boi_discharge r)
  | OIEv r => eoi_discharge r | OIEvSpill r => eoi_discharge r
  | OISpill _ => FFloat 0 | _ => FInt 0
  end.
Definition gas_consumption_mwh (x : oneint) : fval :=
  match x with OIBoiler r => FVar (kboi_gas r) | OICHP r => FVar (coi_gas r) | _ => FInt 0 end.
(** the [binary] attribute, assets/asset.py:98 *)
Definition binary_attr (x : oneint) : fval :=
  match x with OIBoiler r => FVar (kboi_bin r) | OICHP r => FVar (coi_bin r) | _ => FInt 0 end.

Open Scope string_scope.
(** [getattr(one_interval, attr)] for the numeric attributes; the non numeric attributes
    (cfg, charge_event_cfg, charger_cfg) are outside of the model. *)
Definition getattr_base (x : oneint) (attr : string) : option fval :=
  if attr =? "electric_generation_mwh" then Some (electric_generation_mwh x)
  else if attr =? "high_temperature_generation_mwh" then Some (high_temperature_generation_mwh x)
  else if attr =? "low_temperature_generation_mwh" then Some (low_temperature_generation_mwh x)
  else if attr =? "electric_load_mwh" then Some (electric_load_mwh x)
  else if attr =? "high_temperature_load_mwh" then Some (high_temperature_load_mwh x)
  else if attr =? "low_temperature_load_mwh" then Some (low_temperature_load_mwh x)
  else if attr =? "electric_charge_mwh" then Some (electric_charge_mwh x)
  else if attr =? "electric_discharge_mwh" then Some (electric_discharge_mwh x)
  else if attr =? "gas_consumption_mwh" then Some (gas_consumption_mwh x)
  else if attr =? "binary" then Some (binary_attr x)
  else None.
Definition getattr_extra (x : oneint) (attr : string) : option fval :=
  match x with
  | OISite r =>
      if attr =? "import_power_mwh" then Some (FVar (tio_import r))
      else if attr =? "export_power_mwh" then Some (FVar (tio_export r))
      else if attr =? "import_power_bin" then Some (FVar (tio_import_bin r))
      else if attr =? "export_power_bin" then Some (FVar (tio_export_bin r))
      else if attr =? "import_limit_mwh" then Some (FFloat (tio_import_limit r))
      else if attr =? "export_limit_mwh" then Some (FFloat (tio_export_limit r))
      else None
  | OIBattery r =>
      if attr =? "electric_charge_binary" then Some (FVar (boi_charge_bin r))
      else if attr =? "electric_discharge_binary" then Some (FVar (boi_discharge_bin r))
      else if attr =? "electric_loss_mwh" then Some (FVar (boi_loss r))
      else if attr =? "electric_initial_charge_mwh" then Some (FVar (boi_initial r))
      else if attr =? "electric_final_charge_mwh" then Some (FVar (boi_final r))
      else if attr =? "efficiency_pct" then Some (FFloat (b_efficiency_pct (boi_cfg r)))
      else None
  | OIEv r | OIEvSpill r =>
      if attr =? "electric_charge_binary" then Some (eoi_charge_bin r)
      else if attr =? "electric_discharge_binary" then Some (eoi_discharge_bin r)
      else if attr =? "initial_soc_mwh" then Some (eoi_soc0 r)
      else if attr =? "final_soc_mwh" then Some (eoi_soc1 r)
      else if attr =? "electric_loss_mwh" then Some (eoi_loss r)
      else if attr =? "i" then Some (FInt (Z.of_nat (eoi_i r)))
      else if attr =? "charge_event_idx" then Some (FInt (Z.of_nat (eoi_event r)))
      else if attr =? "charger_idx" then Some (FInt (Z.of_nat (eoi_charger r)))
      else None
  | OIHeatPump r =>
      if attr =? "electric_load_binary" then Some (FVar (hoi_bin r)) else None
  | _ => None
  end.
Definition getattr (x : oneint) (attr : string) : res fval :=
  match getattr_base x attr with
  | Some f => Ok f
  | None =>
      match getattr_extra x attr with
      | Some f => Ok f
      | None => if existsb (String.eqb attr) ["cfg"; "charge_event_cfg"; "charger_cfg"; "is_spill"; "model_config"]
                then Err Unmodelled else Err AttributeErr
      end
  end.
Close Scope string_scope.

(** ** IntervalVars: energypylinear/interval_data.py:15-113 *)
Definition interval_vars := list (list oneint).

(** energypylinear/interval_data.py:51-63 (and 85-97) *)
Definition type_mapper (t : string) : res (option kind) :=
  (if t =? "battery" then Ok (Some KBattery)
   else if t =? "boiler" then Ok (Some KBoiler)
   else if t =? "chp" then Ok (Some KCHP)
   else if t =? "evs" then Ok (Some KEv)
   else if t =? "heat-pump" then Ok (Some KHeatPump)
   else if t =? "renewable-generator" then Ok (Some KRenewable)
   else if t =? "site" then Ok (Some KSite)
   else if t =? "spill" then Ok (Some KSpill)
   else if t =? "spill_evs" then Ok (Some KEvSpill)
   else if t =? "*" then Ok None
   else Err KeyErr)%string.
Definition map_type (t : option string) : res (option kind) :=
  match t with None => Ok None | Some s => type_mapper s end.

(** energypylinear/interval_data.py:69-74: the filter condition *)
Definition matches (k : option kind) (name : option string) (x : oneint) : bool :=
  match k with Some k' => kind_eqb (kind_of x) k' | None => true end
  && match name with Some n => String.eqb (oi_name x) n | None => true end.

(** energypylinear/interval_data.py:43-74, called with a class or None *)
Definition filter_objective_variables (iv : interval_vars) (i : Z) (k : option kind) (name : option string)
  : res (list oneint) :=
  let! assets := py_index iv i in Ok (filter (matches k name) assets).
(** same, called with a type string *)
Definition filter_objective_variables_str (iv : interval_vars) (i : Z) (t name : option string)
  : res (list oneint) :=
  let! k := map_type t in filter_objective_variables iv i k name.
(** energypylinear/interval_data.py:76-113 *)
Definition filter_all_intervals (iv : interval_vars) (k : option kind) (name : option string)
  : list (list oneint) :=
  map (filter (matches k name)) iv.
Definition filter_all_intervals_str (iv : interval_vars) (t name : option string)
  : res (list (list oneint)) :=
  match iv with
  | [] => Ok []                      (* the lookup happens inside the loop *)
  | _ => let! k := map_type t in Ok (filter_all_intervals iv k name)
  end.

(** ** Site interval data after validation: energypylinear/assets/site.py:92-105 *)
Record idata (A : Type) := mkIdata {
  id_electricity_prices : list A;
  id_export_electricity_prices : list A;
  id_electricity_carbon_intensities : list A;
  id_gas_prices : list A;
  id_electric_load_mwh : list A;
  id_high_temperature_load_mwh : list A;
  id_low_temperature_load_mwh : list A;
  id_low_temperature_generation_mwh : list A;
  id_n : nat;                                  (* idx = arange(n) *)
  id_custom : list (string * list A)           (* extra attributes set from kwargs *)
}.
Arguments mkIdata {A}.
Arguments id_electricity_prices {A}.
Arguments id_export_electricity_prices {A}.
Arguments id_electricity_carbon_intensities {A}.
Arguments id_gas_prices {A}.
Arguments id_electric_load_mwh {A}.
Arguments id_high_temperature_load_mwh {A}.
Arguments id_low_temperature_load_mwh {A}.
Arguments id_low_temperature_generation_mwh {A}.
Arguments id_n {A}.
Arguments id_custom {A}.

(** the attributes of the interval data, in [model_dump()] order without idx *)
Definition id_columns {A} (d : idata A) : list (string * list A) :=
  [ ("electricity_prices"%string, id_electricity_prices d);
    ("export_electricity_prices"%string, id_export_electricity_prices d);
    ("electricity_carbon_intensities"%string, id_electricity_carbon_intensities d);
    ("gas_prices"%string, id_gas_prices d);
    ("electric_load_mwh"%string, id_electric_load_mwh d);
    ("high_temperature_load_mwh"%string, id_high_temperature_load_mwh d);
    ("low_temperature_load_mwh"%string, id_low_temperature_load_mwh d);
    ("low_temperature_generation_mwh"%string, id_low_temperature_generation_mwh d) ]
  ++ id_custom d.

(** [data[i]] for an ndarray and a natural index *)
Definition nth_res {A} (l : list A) (i : nat) : res A := of_option IndexErr (nth_error l i).

(** [getattr(interval_data, name)[i]] for numeric data *)
Definition id_get (d : idata Q) (name : string) (i : nat) : res Q :=
  if String.eqb name "idx" then
    (if Nat.ltb i (id_n d) then Ok (inject_Z (Z.of_nat i)) else Err IndexErr)
  else
    match assoc name (id_columns d) with
    | Some l => nth_res l i
    | None => Err AttributeErr
    end.

(** energypylinear/assets/site.py:161-176 and Site attributes 377-402 *)
Record site_cfg := mkSiteCfg {
  sc_idata : idata Q;
  sc_freq : freq;
  sc_import_limit_mw : Q;
  sc_export_limit_mw : Q }.
