(** * SpecRun: vocabulary of the statements about whole optimizations

    What "a feasible result" is, which numbers of the results table belong to which
    asset, and when a solution of the linear program realises a dispatch. *)
From Verif Require Import Base Pulp Params Optimizer Types SpecOpt Spec SpecReport Extract Pipeline Constraints Objectives.
Open Scope Q_scope.
Open Scope string_scope.

(** A CHP whose gas appears somewhere: otherwise (all efficiencies zero) the solver never sees
    its gas variable. *)
Definition chp_fine (a : asset) : Prop :=
  match a with
  | ACHP c => 0 < ch_electric_efficiency_pct c \/ ~ ch_ht_efficiency_pct c == 0 \/ ~ ch_lt_efficiency_pct c == 0
  | _ => True
  end.
(** charger sizes and presence flags are not negative *)
Definition evs_sane (c : evs_cfg) (f : freq) : Prop :=
  (forall cc, In cc (ev_chargers c) \/ In cc (ev_spill_chargers c) -> 0 <= energy f (cg_max_mw cc)) /\
  (forall e t, 0 <= presence c e t).
Definition asset_sane (f : freq) (a : asset) : Prop :=
  match a with AEVs c => evs_sane c f | _ => True end.

(** [site.optimize(...)] returned the result [r], feasible, using a solver whose answer "Optimal" can
    be trusted this far: the numbers satisfy the program.  That no other assignment is better is not
    part of it (a time limit or a relative tolerance may have stopped the solver early): the theorems
    about the least cost add [sound_solver], or [solved_within] for an answer within a gap. *)
Record feasible_run (slv : solver) (base : nat) (c : site_cfg) (assets : list asset) (cons : list constraint)
    (obj : objective) (fl : flags) (r : sim_result) : Prop := mkFeasibleRun {
  fr_solver : honest_solver slv;
  fr_returns : optimize slv base c assets cons obj fl = Ok r;
  fr_feasible : r_feasible r = true;
  fr_chp : Forall chp_fine assets;
  fr_names : names_ok c assets }.

(** The objective value reported with the result.  None is possible only with allow_infeasible (see C39_constant_objective). *)
Definition objective_is (fl : flags) (r : sim_result) (z : Q) : Prop :=
  st_objective (r_status r) = Some z \/ st_objective (r_status r) = None /\ allow_infeasible fl = true.

(** pulp.value(objective) gives a number when the objective mentions a variable, or else when pulp's __dummy got a value *)
Definition objective_variables (o : opt) : list lpvar := match o_obj o with Some e => evars e | None => [] end.
Definition objective_has_value (slv : solver) (o : opt) : Prop := (exists v, In v (objective_variables o)) \/ sol_dummy (slv o) <> None.

(** the solver's answer for this call is within [gap] of the best solution of the program *)
Definition solved_within (gap : Q) (slv : solver) (base : nat) (c : site_cfg) (assets : list asset) (cons : list constraint) (obj : objective) (fl : flags) : Prop :=
  forall iv o, build_program c assets cons obj fl (new_optimizer base) = Ok (iv, o) -> answered_within gap slv o.

(** The numbers of dispatch [d] are the values the variables of the interval objects have under [s]. *)
Definition oi_reads (d : dispatch) (t : nat) (s : assignment) (x : oneint) : Prop :=
  let is v q := s (v_id v) == q in
  match x with
  | OISite r => is (tio_import r) (d_import d t) /\ is (tio_export r) (d_export d t)
  | OIBattery r => let q := d_qty d (b_name (boi_cfg r)) in
      is (boi_charge r) (q Charge t) /\ is (boi_discharge r) (q Discharge t) /\
      is (boi_loss r) (q Loss t) /\ is (boi_initial r) (q Soc0 t) /\ is (boi_final r) (q Soc1 t)
  | OIBoiler r => let q := d_qty d (bo_name (kboi_cfg r)) in is (kboi_ht r) (q HtGen t) /\ is (kboi_gas r) (q Gas t)
  | OICHP r => let q := d_qty d (ch_name (coi_cfg r)) in
      is (coi_elec r) (q ElecGen t) /\ is (coi_gas r) (q Gas t) /\ is (coi_ht r) (q HtGen t) /\ is (coi_lt r) (q LtGen t)
  | OIEv r => let nm := ev_name (eoi_cfg r) in let e := eoi_event r in let k := eoi_charger r in
      fv s (eoi_charge r) == d_ev_charge d nm e k t /\ fv s (eoi_discharge r) == d_ev_discharge d nm e k t /\
      fv s (eoi_loss r) == d_ev_loss d nm e k t /\
      fv s (eoi_soc0 r) == d_ev_soc0 d nm e t /\ fv s (eoi_soc1 r) == d_ev_soc1 d nm e t
  | OIEvSpill r => let nm := ev_name (eoi_cfg r) in let e := eoi_event r in
      fv s (eoi_charge r) == d_spill_charge d nm e t /\ fv s (eoi_discharge r) == 0 /\
      fv s (eoi_loss r) == d_spill_loss d nm e t
  | OIHeatPump r => let q := d_qty d (hp_name (hoi_cfg r)) in
      is (hoi_elec r) (q ElecLoad t) /\ is (hoi_lt r) (q LtLoad t) /\ is (hoi_ht r) (q HtGen t)
  | OIRenewable r => is (roi_elec r) (d_qty d (rg_name (roi_cfg r)) ElecGen t)
  | OISpill r => let q := d_qty d (soi_name r) in
      is (soi_elec_gen r) (q ElecGen t) /\ is (soi_elec_load r) (q ElecLoad t) /\
      is (soi_ht_gen r) (q HtGen t) /\ is (soi_lt_load r) (q LtLoad t)
  | OIValve r => let q := d_qty d (voi_name r) in is (voi_ht_load r) (q HtLoad t) /\ is (voi_lt_gen r) (q LtGen t)
  end.
Definition reads (d : dispatch) (s : assignment) (iv : interval_vars) : Prop :=
  forall t row, nth_error iv t = Some row -> Forall (oi_reads d t s) row.

(** [d] is the dispatch the solver found for this call of optimize *)
Definition solution_of (slv : solver) (base : nat) (c : site_cfg) (assets : list asset) (cons : list constraint)
    (obj : objective) (fl : flags) (d : dispatch) : Prop :=
  exists iv o s, build_program c assets cons obj fl (new_optimizer base) = Ok (iv, o) /\
    feasible s o /\ (forall v, occurs o v = true -> sol_value (slv o) (v_id v) = Some (s (v_id v))) /\ reads d s iv.

(** ** The numbers of the results table *)
Definition rep (r : sim_result) (name attr : string) (t : nat) : Q := num (r_results r) (column name attr) t.
(** charger and charge event columns of an EVs asset *)
Definition rep_part (r : sim_result) (c : evs_cfg) (part attr : string) (t : nat) : Q :=
  rep r (column (ev_name c) part) attr t.
Definition rep_event_soc (r : sim_result) (c : evs_cfg) (e : nat) (attr : string) (t : nat) : Q :=
  rep r (column (column (ev_name c) "charge-event") (show e)) attr t.
Definition rep_chargers (r : sim_result) (c : evs_cfg) (ccs : list charger_cfg) (attr : string) (t : nat) : Q :=
  Qsum (map (fun cc => rep_part r c (cg_name cc) attr t) ccs).

(** what each asset reports to the site's balances *)
Definition r_elec_gen (r : sim_result) (t : nat) (a : asset) : Q :=
  match a with ACHP _ | ARenewable _ | ASpill _ => rep r (asset_name a) "electric_generation_mwh" t | _ => 0 end.
Definition r_elec_load (r : sim_result) (t : nat) (a : asset) : Q :=
  match a with AHeatPump _ | ASpill _ => rep r (asset_name a) "electric_load_mwh" t | _ => 0 end.
Definition r_charge (r : sim_result) (t : nat) (a : asset) : Q :=
  match a with
  | ABattery _ => rep r (asset_name a) "electric_charge_mwh" t
  | AEVs c => rep_chargers r c (ev_chargers c ++ ev_spill_chargers c) "electric_charge_mwh" t
  | _ => 0
  end.
Definition r_discharge (r : sim_result) (t : nat) (a : asset) : Q :=
  match a with
  | ABattery _ => rep r (asset_name a) "electric_discharge_mwh" t
  | AEVs c => rep_chargers r c (ev_chargers c ++ ev_spill_chargers c) "electric_discharge_mwh" t
  | _ => 0
  end.
Definition r_ht_gen (r : sim_result) (t : nat) (a : asset) : Q :=
  match a with
  | ABoiler _ | ACHP _ | AHeatPump _ | ASpill _ => rep r (asset_name a) "high_temperature_generation_mwh" t | _ => 0 end.
Definition r_ht_load (r : sim_result) (t : nat) (a : asset) : Q :=
  match a with AValve _ | ASpill _ => rep r (asset_name a) "high_temperature_load_mwh" t | _ => 0 end.
Definition r_lt_gen (r : sim_result) (t : nat) (a : asset) : Q :=
  match a with ACHP _ | AValve _ | ASpill _ => rep r (asset_name a) "low_temperature_generation_mwh" t | _ => 0 end.
Definition r_lt_load (r : sim_result) (t : nat) (a : asset) : Q :=
  match a with AHeatPump _ | ASpill _ => rep r (asset_name a) "low_temperature_load_mwh" t | _ => 0 end.
Definition r_gas (r : sim_result) (t : nat) (a : asset) : Q :=
  match a with ABoiler _ | ACHP _ | ASpill _ => rep r (asset_name a) "gas_consumption_mwh" t | _ => 0 end.
Definition r_import (r : sim_result) (t : nat) : Q := num (r_results r) "site-import_power_mwh" t.
Definition r_export (r : sim_result) (t : nat) : Q := num (r_results r) "site-export_power_mwh" t.

(** sum of a reported quantity over the intervals *)
Definition horizon (c : site_cfg) (g : nat -> Q) : Q := Qsum (map g (seq 0 (n_intervals c))).

(** ** Well formed sites: what the constructors guarantee (site.py:92-158, 329-402) *)
Definition asset_ready (n : nat) (a : asset) : Prop :=
  match a with
  | ABoiler c => ~ bo_efficiency_pct c == 0
  | ARenewable c => rg_is_array c = true /\ (n <= List.length (rg_available_mwh c))%nat
  | AEVs c => List.length (ev_spill_chargers c) = 1%nat /\ (0 < List.length (ev_event_cfgs c))%nat /\ (0 < List.length (ev_chargers c))%nat /\
      forall e, (e < List.length (ev_event_cfgs c))%nat -> (n <= List.length (nth e (ev_events c) []))%nat
  | _ => True
  end.
Definition data_ready (d : idata Q) : Prop :=
  let full l := List.length l = id_n d in
  full (id_electricity_prices d) /\ full (id_export_electricity_prices d) /\ full (id_electricity_carbon_intensities d) /\
  full (id_gas_prices d) /\ full (id_electric_load_mwh d) /\ full (id_high_temperature_load_mwh d) /\
  full (id_low_temperature_load_mwh d) /\ full (id_low_temperature_generation_mwh d).
Definition site_ready (c : site_cfg) (assets : list asset) : Prop :=
  (0 < n_intervals c)%nat /\ data_ready (sc_idata c) /\ NoDup (map asset_name assets) /\ Forall (asset_ready (n_intervals c)) assets.

(** The program [optimize] hands to the solver allows the dispatch [d]: some feasible solution has the numbers of [d]. *)
Definition allowed (base : nat) (c : site_cfg) (assets : list asset) (cons : list constraint) (obj : objective) (fl : flags)
    (d : dispatch) : Prop :=
  exists iv o s, build_program c assets cons obj fl (new_optimizer base) = Ok (iv, o) /\ feasible s o /\ reads d s iv.
(** the objective value of a solution with the numbers of [d] *)
Definition valued (base : nat) (c : site_cfg) (assets : list asset) (cons : list constraint) (obj : objective) (fl : flags)
    (d : dispatch) (z : Q) : Prop :=
  exists iv o s, build_program c assets cons obj fl (new_optimizer base) = Ok (iv, o) /\ feasible s o /\ reads d s iv /\
    objective_value s o == z.
