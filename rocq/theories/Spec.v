(** * Spec: what the sites and assets are supposed to mean, written without any
    linear program, solver variable or binary.

    Only the configuration records (Types.v) and the flags are shared with the model.
    A [dispatch] gives, for every asset name and interval, the energy quantities of
    that asset; [physical] says which dispatches are possible. *)
From Verif Require Import Base Params Types.
Open Scope Q_scope.

(** energy (MWh) of a power (MW) over one interval of [f] minutes *)
Definition energy (f : freq) (mw : Q) : Q := mw * (inject_Z f / 60).

Inductive qty := ElecGen | ElecLoad | HtGen | HtLoad | LtGen | LtLoad | Gas | Charge | Discharge | Loss | Soc0 | Soc1.

(** All times are interval numbers; events and chargers are numbered from 0. *)
Record dispatch := mkDispatch {
  d_import : nat -> Q;
  d_export : nat -> Q;
  d_qty : string -> qty -> nat -> Q;                    (* asset, quantity, interval *)
  d_ev_charge : string -> nat -> nat -> nat -> Q;       (* asset, event, charger, interval *)
  d_ev_discharge : string -> nat -> nat -> nat -> Q;
  d_ev_loss : string -> nat -> nat -> nat -> Q;
  d_spill_charge : string -> nat -> nat -> Q;           (* asset, event, interval *)
  d_spill_loss : string -> nat -> nat -> Q;
  d_ev_soc0 : string -> nat -> nat -> Q;                (* asset, event, interval *)
  d_ev_soc1 : string -> nat -> nat -> Q }.

Definition between (lo x hi : Q) : Prop := lo <= x /\ x <= hi.

(** ** Batteries *)
Definition battery_physical (c : battery_cfg) (f : freq) (n : nat) (d : dispatch) : Prop :=
  let q := d_qty d (b_name c) in
  (forall t, (t < n)%nat ->
    between 0 (q Charge t) (energy f (b_charge_power_mw c)) /\
    between 0 (q Discharge t) (energy f (b_discharge_power_mw c)) /\
    q Charge t <= b_capacity_mwh c /\ q Discharge t <= b_capacity_mwh c /\
    (q Charge t == 0 \/ q Discharge t == 0) /\
    q Loss t == q Charge t * (1 - b_efficiency_pct c) /\ 0 <= q Loss t /\
    between 0 (q Soc0 t) (b_capacity_mwh c) /\ between 0 (q Soc1 t) (b_capacity_mwh c) /\
    q Soc1 t == q Soc0 t + q Charge t - q Discharge t - q Loss t) /\
  (forall t, (S t < n)%nat -> q Soc0 (S t) == q Soc1 t) /\
  q Soc0 0%nat == b_initial_charge_mwh c /\
  q Soc1 (n - 1)%nat == b_final_charge_mwh c.

(** ** Boilers, CHP, heat pumps, renewables, spills, valves *)
Definition boiler_physical (c : boiler_cfg) (f : freq) (n : nat) (d : dispatch) : Prop :=
  let q := d_qty d (bo_name c) in
  forall t, (t < n)%nat ->
    between (energy f (bo_min_mw c)) (q HtGen t) (energy f (bo_max_mw c)) /\
    q Gas t == q HtGen t / bo_efficiency_pct c /\ 0 <= q Gas t.

Definition chp_physical (c : chp_cfg) (f : freq) (n : nat) (d : dispatch) : Prop :=
  let q := d_qty d (ch_name c) in
  forall t, (t < n)%nat ->
    between 0 (q ElecGen t) (energy f (ch_max_mw c)) /\
    (q ElecGen t == 0 \/ energy f (ch_min_mw c) <= q ElecGen t) /\
    (0 < ch_electric_efficiency_pct c -> q Gas t == q ElecGen t / ch_electric_efficiency_pct c) /\
    q HtGen t == q Gas t * ch_ht_efficiency_pct c /\
    q LtGen t == q Gas t * ch_lt_efficiency_pct c /\
    0 <= q Gas t /\ 0 <= q HtGen t /\ 0 <= q LtGen t.

Definition hp_physical (c : hp_cfg) (f : freq) (n : nat) (d : dispatch) : Prop :=
  let q := d_qty d (hp_name c) in
  forall t, (t < n)%nat ->
    between 0 (q ElecLoad t) (energy f (hp_power_mw c)) /\
    q HtGen t == q ElecLoad t * hp_cop c /\
    q LtLoad t + q ElecLoad t == q HtGen t /\
    0 <= q LtLoad t /\ 0 <= q HtGen t.

Definition rg_physical (c : rg_cfg) (n : nat) (d : dispatch) : Prop :=
  forall t, (t < n)%nat ->
    let avail := nth t (rg_available_mwh c) 0 in
    between (avail * rg_lower_pct c) (d_qty d (rg_name c) ElecGen t) avail.

Definition spill_physical (name : string) (n : nat) (d : dispatch) : Prop :=
  let q := d_qty d name in
  forall t, (t < n)%nat -> 0 <= q ElecGen t /\ 0 <= q ElecLoad t /\ 0 <= q HtGen t /\ 0 <= q LtLoad t.

Definition valve_physical (name : string) (n : nat) (d : dispatch) : Prop :=
  let q := d_qty d name in
  forall t, (t < n)%nat -> q HtLoad t == q LtGen t /\ 0 <= q LtGen t.

(** ** Electric vehicles *)
Definition at_most_one_nonzero (l : list Q) : Prop :=
  forall i j x y, nth_error l i = Some x -> nth_error l j = Some y -> ~ x == 0 -> ~ y == 0 -> i = j.

(** is the charge event present in interval t? [ev_events] has one row per charge event *)
Definition presence (c : evs_cfg) (e t : nat) : Q := nth t (nth e (ev_events c) []) 0.
Definition can_charge (fl : flags) (c : evs_cfg) (e t : nat) : Prop :=
  if limit_charge_variables_to_valid_events fl then presence c e t == 1 else 1 <= presence c e t.

Definition evs_physical (c : evs_cfg) (f : freq) (fl : flags) (n : nat) (d : dispatch) : Prop :=
  let nm := ev_name c in
  let ks := seq 0 (List.length (ev_chargers c)) in
  let es := seq 0 (List.length (ev_event_cfgs c)) in
  let ch := d_ev_charge d nm in
  let dc := d_ev_discharge d nm in
  let lo := d_ev_loss d nm in
  (* each charge event / charger pair *)
  (forall t e ec k cc, (t < n)%nat -> nth_error (ev_event_cfgs c) e = Some ec -> nth_error (ev_chargers c) k = Some cc ->
    0 <= ch e k t /\
    (ch e k t == 0 \/ (between (energy f (cg_min_mw cc)) (ch e k t) (energy f (cg_max_mw cc)) /\ can_charge fl c e t)) /\
    (if allow_evs_discharge fl
     then 0 <= dc e k t /\
          (dc e k t == 0 \/ (between (energy f (cg_min_mw cc)) (dc e k t) (energy f (cg_max_mw cc)) /\ 1 <= presence c e t))
     else dc e k t == 0) /\
    lo e k t == ch e k t * (1 - ce_efficiency_pct ec) /\ 0 <= lo e k t) /\
  (* the spill charger *)
  (forall t e ec cc, (t < n)%nat -> nth_error (ev_event_cfgs c) e = Some ec -> nth_error (ev_spill_chargers c) 0 = Some cc ->
    0 <= d_spill_charge d nm e t /\
    (d_spill_charge d nm e t == 0 \/
       (between (energy f (cg_min_mw cc)) (d_spill_charge d nm e t) (energy f (cg_max_mw cc)) /\ can_charge fl c e t)) /\
    d_spill_loss d nm e t == d_spill_charge d nm e t * (1 - ce_efficiency_pct ec) /\ 0 <= d_spill_loss d nm e t) /\
  (* an event uses one charger in one direction, a charger serves one event *)
  (forall t e, (t < n)%nat -> In e es ->
    at_most_one_nonzero (map (fun k => ch e k t) ks ++ map (fun k => dc e k t) ks)) /\
  (forall t k, (t < n)%nat -> In k ks ->
    at_most_one_nonzero (map (fun e => ch e k t) es ++ map (fun e => dc e k t) es)) /\
  (* state of charge *)
  (forall t e ec, (t < n)%nat -> nth_error (ev_event_cfgs c) e = Some ec ->
    between 0 (d_ev_soc0 d nm e t) (ce_capacity_mwh ec) /\ between 0 (d_ev_soc1 d nm e t) (ce_capacity_mwh ec) /\
    d_ev_soc1 d nm e t == d_ev_soc0 d nm e t + Qsum (map (fun k => ch e k t) ks) + d_spill_charge d nm e t
                          - Qsum (map (fun k => dc e k t) ks) - Qsum (map (fun k => lo e k t) ks)) /\
  (forall t e, (S t < n)%nat -> In e es -> d_ev_soc0 d nm e (S t) == d_ev_soc1 d nm e t) /\
  (forall e ec, nth_error (ev_event_cfgs c) e = Some ec ->
    d_ev_soc0 d nm e 0%nat == 0 /\ d_ev_soc1 d nm e (n - 1)%nat == ce_capacity_mwh ec).

Definition asset_physical (a : asset) (f : freq) (fl : flags) (n : nat) (d : dispatch) : Prop :=
  match a with
  | ABattery c => battery_physical c f n d
  | ABoiler c => boiler_physical c f n d
  | ACHP c => chp_physical c f n d
  | AEVs c => evs_physical c f fl n d
  | AHeatPump c => hp_physical c f n d
  | ARenewable c => rg_physical c n d
  | ASpill nm => spill_physical nm n d
  | AValve nm => valve_physical nm n d
  end.

(** ** What one asset contributes to the site networks in interval t *)
Definition elec_gen (d : dispatch) (t : nat) (a : asset) : Q :=
  match a with ACHP _ | ARenewable _ | ASpill _ => d_qty d (asset_name a) ElecGen t | _ => 0 end.
Definition elec_load (d : dispatch) (t : nat) (a : asset) : Q :=
  match a with AHeatPump _ | ASpill _ => d_qty d (asset_name a) ElecLoad t | _ => 0 end.
Definition ev_total_charge (d : dispatch) (t : nat) (c : evs_cfg) : Q :=
  Qsum (map (fun e => Qsum (map (fun k => d_ev_charge d (ev_name c) e k t) (seq 0 (List.length (ev_chargers c)))))
            (seq 0 (List.length (ev_event_cfgs c)))).
Definition ev_total_discharge (d : dispatch) (t : nat) (c : evs_cfg) : Q :=
  Qsum (map (fun e => Qsum (map (fun k => d_ev_discharge d (ev_name c) e k t) (seq 0 (List.length (ev_chargers c)))))
            (seq 0 (List.length (ev_event_cfgs c)))).
Definition ev_spill_total (d : dispatch) (t : nat) (c : evs_cfg) : Q :=
  Qsum (map (fun e => d_spill_charge d (ev_name c) e t) (seq 0 (List.length (ev_event_cfgs c)))).
Definition charge (d : dispatch) (t : nat) (a : asset) : Q :=
  match a with
  | ABattery c => d_qty d (b_name c) Charge t
  | AEVs c => ev_total_charge d t c + ev_spill_total d t c
  | _ => 0
  end.
Definition discharge (d : dispatch) (t : nat) (a : asset) : Q :=
  match a with
  | ABattery c => d_qty d (b_name c) Discharge t
  | AEVs c => ev_total_discharge d t c
  | _ => 0
  end.
Definition ht_gen (d : dispatch) (t : nat) (a : asset) : Q :=
  match a with ABoiler _ | ACHP _ | AHeatPump _ | ASpill _ => d_qty d (asset_name a) HtGen t | _ => 0 end.
Definition ht_load (d : dispatch) (t : nat) (a : asset) : Q :=
  match a with AValve _ => d_qty d (asset_name a) HtLoad t | _ => 0 end.
Definition lt_gen (d : dispatch) (t : nat) (a : asset) : Q :=
  match a with ACHP _ | AValve _ => d_qty d (asset_name a) LtGen t | _ => 0 end.
Definition lt_load (d : dispatch) (t : nat) (a : asset) : Q :=
  match a with AHeatPump _ | ASpill _ => d_qty d (asset_name a) LtLoad t | _ => 0 end.
Definition gas_use (d : dispatch) (t : nat) (a : asset) : Q :=
  match a with ABoiler _ | ACHP _ => d_qty d (asset_name a) Gas t | _ => 0 end.

Definition total (g : asset -> Q) (assets : list asset) : Q := Qsum (map g assets).
Definition data (l : list Q) (t : nat) : Q := nth t l 0.

(** ** The site *)
Definition electricity_balanced (c : site_cfg) (assets : list asset) (d : dispatch) (t : nat) : Prop :=
  d_import d t + total (elec_gen d t) assets + total (discharge d t) assets ==
  d_export d t + data (id_electric_load_mwh (sc_idata c)) t + total (elec_load d t) assets + total (charge d t) assets.
Definition high_temperature_balanced (c : site_cfg) (assets : list asset) (d : dispatch) (t : nat) : Prop :=
  total (ht_gen d t) assets == total (ht_load d t) assets + data (id_high_temperature_load_mwh (sc_idata c)) t.
Definition low_temperature_balanced (c : site_cfg) (assets : list asset) (d : dispatch) (t : nat) : Prop :=
  total (lt_gen d t) assets + data (id_low_temperature_generation_mwh (sc_idata c)) t ==
  total (lt_load d t) assets + data (id_low_temperature_load_mwh (sc_idata c)) t.
Definition grid_limits (c : site_cfg) (d : dispatch) (t : nat) : Prop :=
  between 0 (d_import d t) (energy (sc_freq c) (sc_import_limit_mw c)) /\
  between 0 (d_export d t) (energy (sc_freq c) (sc_export_limit_mw c)) /\
  (d_import d t == 0 \/ d_export d t == 0).

Definition n_intervals (c : site_cfg) : nat := id_n (sc_idata c).

(** The physically possible dispatches of a site. *)
Definition physical (c : site_cfg) (assets : list asset) (fl : flags) (d : dispatch) : Prop :=
  (forall t, (t < n_intervals c)%nat ->
     grid_limits c d t /\ electricity_balanced c assets d t /\
     high_temperature_balanced c assets d t /\ low_temperature_balanced c assets d t) /\
  (forall a, In a assets -> asset_physical a (sc_freq c) fl (n_intervals c) d).

(** ** Cost and emissions of a dispatch *)
Definition spill_penalty : Q := inject_Z 100000000000.    (* 1e11 per MWh, defaults.spill_objective_penalty *)
Definition gas_intensity : Q := 185 # 1000.               (* defaults.gas_carbon_intensity *)
(** spilled energy that is penalised *)
Definition spilled (d : dispatch) (t : nat) (a : asset) : Q :=
  match a with
  | ASpill nm => d_qty d nm ElecGen t + d_qty d nm HtGen t + d_qty d nm ElecLoad t
  | AEVs c => ev_spill_total d t c
  | _ => 0
  end.
Definition interval_cost (c : site_cfg) (assets : list asset) (d : dispatch) (t : nat) : Q :=
  d_import d t * data (id_electricity_prices (sc_idata c)) t
  - d_export d t * data (id_export_electricity_prices (sc_idata c)) t
  + total (gas_use d t) assets * data (id_gas_prices (sc_idata c)) t
  + total (spilled d t) assets * spill_penalty.
Definition interval_emissions (c : site_cfg) (assets : list asset) (d : dispatch) (t : nat) : Q :=
  (d_import d t - d_export d t) * data (id_electricity_carbon_intensities (sc_idata c)) t
  + total (gas_use d t) assets * gas_intensity
  + total (spilled d t) assets * spill_penalty.
Definition over_horizon (c : site_cfg) (g : nat -> Q) : Q := Qsum (map g (seq 0 (n_intervals c))).
Definition dispatch_cost (c : site_cfg) (assets : list asset) (d : dispatch) : Q :=
  over_horizon c (interval_cost c assets d).
Definition dispatch_emissions (c : site_cfg) (assets : list asset) (d : dispatch) : Q :=
  over_horizon c (interval_emissions c assets d).
