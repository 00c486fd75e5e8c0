(** * Ctors: the asset constructors *)
From Verif Require Import Base Pulp Params Optimizer Types IntervalData.
Open Scope Q_scope.
Open Scope string_scope.

(** Python [min(a, b)] on floats: the first of the two unless the second is smaller. *)
Definition py_min (a b : Q) : Q := if Qltb b a then b else a.
(** a field validator that asserts [b] *)
Definition pyd_assert (b : bool) : res unit := pyd (rassert b).

(** energypylinear/assets/battery.py:18-38 [setup_initial_final_charge] *)
Definition setup_initial_final_charge (initial : Q) (final : option Q) (capacity : Q) : Q * Q :=
  let initial' := py_min initial capacity in
  (initial', match final with None => initial' | Some f => py_min f capacity end).

(** energypylinear/assets/battery.py:178-233, 41-64 [Battery.__init__] up to the site. A float is true iff it is not 0. *)
Definition battery_init (power : Q) (discharge : option Q) (capacity efficiency initial : Q) (final : option Q) (name : string)
  : res battery_cfg :=
  let '(initial', final') := setup_initial_final_charge initial final capacity in
  let discharge' := match discharge with None => power | Some x => x end in
  check negb (Qeq_bool discharge' 0) ;;
  let! _ := pyd_assert (contains "battery" name) in
  Ok (mkBatteryCfg name power discharge' capacity efficiency initial' final').

(** energypylinear/assets/boiler.py:11-24, 38-53 *)
Definition boiler_init (name : string) (max_mw min_mw efficiency : Q) : res boiler_cfg :=
  let! _ := pyd_assert (contains "boiler" name && (Qltb 0 efficiency && Qle_bool efficiency 1)) in
  Ok (mkBoilerCfg name max_mw min_mw efficiency).
(** [epl.Boiler()] *)
Definition default_boiler : res boiler_cfg :=
  boiler_init "boiler" d_boiler_high_temperature_generation_max_mw 0 d_boiler_efficiency_pct.

(** energypylinear/assets/chp.py:17-36, 98-106 *)
Definition chp_init (electric_efficiency max_mw min_mw ht_efficiency lt_efficiency : Q) (name : string) : res chp_cfg :=
  let! _ := pyd_assert (contains "chp" name) in
  Ok (mkChpCfg name max_mw min_mw electric_efficiency ht_efficiency lt_efficiency).

(** energypylinear/assets/heat_pump.py:15-38, 90-96 *)
Definition heat_pump_init (cop power : Q) (name : string) : res hp_cfg :=
  let! _ := pyd (if Qltb cop 1 then Err ValueErr else Ok tt) in
  Ok (mkHpCfg name cop power).

(** energypylinear/assets/renewable_generator.py:18-90, 149-157.  [electric_generation_mwh] is required ([Missing] cannot
    happen); np.array([]).min() raises ValueError; a NaN minimum is not >= 0. *)
Definition not_negative (x : pynum) : bool := match x with Num q => Qle_bool 0 q | NaN => false end.
Definition renewable_init (available : field) (lower_pct : Q) (name : string) : res rg_cfg :=
  let! data := pyd (match available with
                    | Missing => Err ValueErr
                    | Scalar x => check not_negative x ;; of_option AssertionErr (numbers [x])
                    | Series [] => Err ValueErr
                    | Series l => check forallb not_negative l ;; of_option AssertionErr (numbers l)
                    end) in
  let! _ := pyd_assert ((contains "wind" name || contains "solar" name || contains "renewable-generator" name)
                        && (Qle_bool 0 lower_pct && Qle_bool lower_pct 1)) in
  Ok (mkRgCfg name lower_pct data (match available with Scalar _ => false | _ => true end)).

(** energypylinear/assets/spill.py:14-24, 43-45 *)
Definition spill_init (name : string) : res string :=
  let! _ := pyd_assert (contains "spill" name) in Ok name.
(** energypylinear/assets/valve.py:13-23, 38-40 *)
Definition valve_init (name : string) : res string :=
  let! _ := pyd_assert (contains "valve" name) in Ok name.

(** np.array(rows) of nested lists: rows of different lengths raise ValueError *)
Definition rectangular (rows : list (list Q)) : bool :=
  match rows with [] => true | r :: rs => forallb (fun r' => Nat.eqb (List.length r') (List.length r)) rs end.

(** energypylinear/assets/evs.py:26-36, 57-89, 623-665 [EVs.__init__] up to the site. [rows]: one list per charge event;
    without any, np.array([]) has one dimension and shape[1] raises IndexError inside the model validator. *)
Definition evs_init (rows : list (list Q)) (chargers_power capacities : list Q) (efficiency turndown : Q) (name : string)
  : res evs_cfg :=
  let chargers := map (fun kp => mkChargerCfg ("charger-" ++ show (fst kp)) (snd kp) (snd kp * turndown)) (enumerate chargers_power) in
  let spill := [mkChargerCfg ("charger-spill-" ++ name) d_spill_charge_max_mw 0] in
  let events := map (fun kp => mkEventCfg ("charge-event-" ++ show (fst kp)) (snd kp) efficiency) (enumerate capacities) in
  if negb (rectangular rows) then Err ValueErr else
  let! _ := pyd_assert (contains "evs" name) in
  match rows with
  | [] => Err IndexErr
  | _ => let! _ := pyd_assert (Nat.eqb (List.length events) (List.length rows)) in
         Ok (mkEvsCfg name chargers spill events rows)
  end.

(** energypylinear/assets/evs.py:17-27 [validate_ev_interval_data], called by a standalone EVs (evs.py:682-686) *)
Definition validate_ev_interval_data (n : nat) (rows : list (list Q)) : res unit :=
  check (match rows with [] => true | r :: _ => Nat.eqb n (List.length r) end) ;;
  check forallb (fun r => Qltb 0 (Qsum r)) rows ;; Ok tt.

(** ** The site a single asset builds for itself when prices or carbon intensities are given *)
Definition has_site (i : site_input) : bool :=
  match in_electricity_prices i, in_electricity_carbon_intensities i with Missing, Missing => false | _, _ => true end.
Definition own_site (assets : list asset) (i : site_input) (kw : list (string * kwarg)) : res (option (idata pynum * list asset)) :=
  if has_site i then let! s := site_init assets i kw in Ok (Some s) else Ok None.
Definition spill_if (b : bool) : list asset := if b then [ASpill "spill"] else [].
Definition valve_if (b : bool) : list asset := if b then [AValve "valve"] else [].

(** energypylinear/assets/battery.py:235-248 *)
Definition battery_site (c : battery_cfg) (include_spill : bool) :=
  own_site (ABattery c :: spill_if include_spill).
(** energypylinear/assets/chp.py:108-125 *)
Definition chp_site (c : chp_cfg) (include_spill : bool) i kw : res (option (idata pynum * list asset)) :=
  if has_site i then
    let! b := default_boiler in
    own_site ([ACHP c; AValve "valve"; ABoiler b] ++ spill_if include_spill)%list i kw
  else Ok None.
(** energypylinear/assets/heat_pump.py:98-121 *)
Definition heat_pump_site (c : hp_cfg) (include_spill include_valve : bool) i kw : res (option (idata pynum * list asset)) :=
  if has_site i then
    let! b := default_boiler in
    own_site ([AHeatPump c; ABoiler b] ++ spill_if include_spill ++ valve_if include_valve)%list i kw
  else Ok None.
(** energypylinear/assets/renewable_generator.py:159-173 *)
Definition renewable_site (c : rg_cfg) (include_spill : bool) :=
  own_site (ARenewable c :: spill_if include_spill).
(** energypylinear/assets/evs.py:667-687 *)
Definition evs_site (c : evs_cfg) (include_spill : bool) i kw : res (option (idata pynum * list asset)) :=
  let! s := own_site (AEVs c :: spill_if include_spill) i kw in
  match s with
  | None => Ok None
  | Some s => let! _ := validate_ev_interval_data (id_n (fst s)) (ev_events c) in Ok (Some s)
  end.
