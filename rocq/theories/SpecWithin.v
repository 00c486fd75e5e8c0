(** * SpecWithin: solvers that meet the rows of the program only up to a tolerance (specification)

    CBC works in floating point: it accepts a solution when every row of the program is met up to a feasibility tolerance.
    Here a tolerance [eps] is allowed in every row; bounds and integrality of the variables are exact. *)
From Verif Require Import Base Pulp Params Optimizer Types Spec SpecReport SpecRun.
Open Scope Q_scope.

(** ** The solver *)
Definition sense_within (eps : Q) (k : sense) (x : Q) : Prop :=
  match k with LE => x <= eps | EQ => - eps <= x /\ x <= eps | GE => - eps <= x end.
Definition constr_within (eps : Q) (s : assignment) (c : constr) : Prop :=
  sense_within eps (c_sense c) (eval s (c_expr c)) /\ Forall (var_ok s) (evars (c_expr c)).
Definition feasible_within (eps : Q) (s : assignment) (o : opt) : Prop :=
  Forall (fun nc => constr_within eps s (snd nc)) (o_cons o) /\
  match o_obj o with Some e => Forall (var_ok s) (evars e) | None => True end.
(** when it answers Optimal, its values meet every row up to [eps] *)
Definition tolerant_solver (eps : Q) (slv : solver) : Prop :=
  forall o, sol_status (slv o) = Optimal ->
    exists s, feasible_within eps s o /\ (forall v, occurs o v = true -> sol_value (slv o) (v_id v) = Some (s (v_id v))).

(** ** Dispatches that are physical up to [eps] *)
Definition within (eps x y : Q) : Prop := x - y <= eps /\ y - x <= eps.

(** One interval of each asset. *)
Definition battery_upto (eps : Q) (c : battery_cfg) (f : freq) (d : dispatch) (t : nat) : Prop :=
  let q := d_qty d (b_name c) in
  between 0 (q Charge t) (energy f (b_charge_power_mw c)) /\
  between 0 (q Discharge t) (energy f (b_discharge_power_mw c)) /\
  q Charge t <= b_capacity_mwh c + eps /\ q Discharge t <= b_capacity_mwh c + eps /\
  (q Charge t <= eps \/ q Discharge t <= eps) /\
  within eps (q Loss t) (q Charge t * (1 - b_efficiency_pct c)) /\ 0 <= q Loss t /\
  between 0 (q Soc0 t) (b_capacity_mwh c) /\ between 0 (q Soc1 t) (b_capacity_mwh c) /\
  within eps (q Soc1 t) (q Soc0 t + q Charge t - q Discharge t - q Loss t).
Definition boiler_upto (eps : Q) (c : boiler_cfg) (f : freq) (d : dispatch) (t : nat) : Prop :=
  let q := d_qty d (bo_name c) in
  between (energy f (bo_min_mw c)) (q HtGen t) (energy f (bo_max_mw c)) /\
  within eps (q Gas t) (q HtGen t / bo_efficiency_pct c) /\ 0 <= q Gas t.
Definition chp_upto (eps : Q) (c : chp_cfg) (f : freq) (d : dispatch) (t : nat) : Prop :=
  let q := d_qty d (ch_name c) in
  between 0 (q ElecGen t) (energy f (ch_max_mw c)) /\
  (q ElecGen t <= eps \/ energy f (ch_min_mw c) - eps <= q ElecGen t) /\
  (0 < ch_electric_efficiency_pct c -> within eps (q Gas t) (q ElecGen t / ch_electric_efficiency_pct c)) /\
  within eps (q HtGen t) (q Gas t * ch_ht_efficiency_pct c) /\
  within eps (q LtGen t) (q Gas t * ch_lt_efficiency_pct c) /\
  0 <= q Gas t /\ 0 <= q HtGen t /\ 0 <= q LtGen t.
Definition hp_upto (eps : Q) (c : hp_cfg) (f : freq) (d : dispatch) (t : nat) : Prop :=
  let q := d_qty d (hp_name c) in
  between 0 (q ElecLoad t) (energy f (hp_power_mw c)) /\
  within eps (q HtGen t) (q ElecLoad t * hp_cop c) /\
  within eps (q LtLoad t + q ElecLoad t) (q HtGen t) /\
  0 <= q LtLoad t /\ 0 <= q HtGen t.
Definition rg_exact (c : rg_cfg) (d : dispatch) (t : nat) : Prop :=
  let avail := nth t (rg_available_mwh c) 0 in between (avail * rg_lower_pct c) (d_qty d (rg_name c) ElecGen t) avail.
Definition spill_exact (nm : string) (d : dispatch) (t : nat) : Prop :=
  let q := d_qty d nm in 0 <= q ElecGen t /\ 0 <= q ElecLoad t /\ 0 <= q HtGen t /\ 0 <= q LtLoad t.
Definition valve_upto (eps : Q) (name : string) (d : dispatch) (t : nat) : Prop :=
  let q := d_qty d name in within eps (q HtLoad t) (q LtGen t) /\ 0 <= q HtLoad t /\ 0 <= q LtGen t.

(** no two of the quantities are above [eps] *)
Definition at_most_one_above (eps : Q) (l : list Q) : Prop :=
  forall i j x y, nth_error l i = Some x -> nth_error l j = Some y -> eps < x -> eps < y -> i = j.
(** is the vehicle there? *)
Definition can_charge_upto (eps : Q) (fl : flags) (c : evs_cfg) (e t : nat) : Prop :=
  if limit_charge_variables_to_valid_events fl then presence c e t == 1 else 1 - eps <= presence c e t.
(** a charger is off (up to [eps]) or above its minimum power (up to [eps]) *)
Definition charger_upto (eps : Q) (f : freq) (cc : charger_cfg) (x : Q) (there : Prop) : Prop :=
  0 <= x /\ (x <= eps \/ (energy f (cg_min_mw cc) - eps <= x /\ x <= energy f (cg_max_mw cc) /\ there)).
Definition evs_upto (eps : Q) (c : evs_cfg) (f : freq) (fl : flags) (d : dispatch) (t : nat) : Prop :=
  let nm := ev_name c in
  let ks := seq 0 (List.length (ev_chargers c)) in
  let es := seq 0 (List.length (ev_event_cfgs c)) in
  let ch := d_ev_charge d nm in
  let dc := d_ev_discharge d nm in
  let lo := d_ev_loss d nm in
  (forall e ec k cc, nth_error (ev_event_cfgs c) e = Some ec -> nth_error (ev_chargers c) k = Some cc ->
    charger_upto eps f cc (ch e k t) (can_charge_upto eps fl c e t) /\
    (if allow_evs_discharge fl then charger_upto eps f cc (dc e k t) (1 - eps <= presence c e t) else dc e k t == 0) /\
    within eps (lo e k t) (ch e k t * (1 - ce_efficiency_pct ec)) /\ 0 <= lo e k t) /\
  (forall e ec cc, nth_error (ev_event_cfgs c) e = Some ec -> nth_error (ev_spill_chargers c) 0 = Some cc ->
    charger_upto eps f cc (d_spill_charge d nm e t) (can_charge_upto eps fl c e t) /\
    within eps (d_spill_loss d nm e t) (d_spill_charge d nm e t * (1 - ce_efficiency_pct ec)) /\ 0 <= d_spill_loss d nm e t) /\
  (forall e, In e es -> at_most_one_above eps (map (fun k => ch e k t) ks ++ map (fun k => dc e k t) ks)) /\
  (forall k, In k ks -> at_most_one_above eps (map (fun e => ch e k t) es ++ map (fun e => dc e k t) es)) /\
  (forall e ec, nth_error (ev_event_cfgs c) e = Some ec ->
    between 0 (d_ev_soc0 d nm e t) (ce_capacity_mwh ec) /\ between 0 (d_ev_soc1 d nm e t) (ce_capacity_mwh ec) /\
    within eps (d_ev_soc1 d nm e t) (d_ev_soc0 d nm e t + Qsum (map (fun k => ch e k t) ks) + d_spill_charge d nm e t
                                     - Qsum (map (fun k => dc e k t) ks) - Qsum (map (fun k => lo e k t) ks))).
Definition asset_upto (eps : Q) (a : asset) (f : freq) (fl : flags) (d : dispatch) (t : nat) : Prop :=
  match a with
  | ABattery c => battery_upto eps c f d t
  | ABoiler c => boiler_upto eps c f d t
  | ACHP c => chp_upto eps c f d t
  | AEVs c => evs_upto eps c f fl d t
  | AHeatPump c => hp_upto eps c f d t
  | ARenewable c => rg_exact c d t
  | ASpill nm => spill_exact nm d t
  | AValve nm => valve_upto eps nm d t
  end.
(** What a battery or a vehicle holds at the start of an interval is what it held at the end of the one before. *)
Definition link_upto (eps : Q) (a : asset) (d : dispatch) (t : nat) : Prop :=
  match a with
  | ABattery c => within eps (d_qty d (b_name c) Soc0 (S t)) (d_qty d (b_name c) Soc1 t)
  | AEVs c => forall e, In e (seq 0 (List.length (ev_event_cfgs c))) -> within eps (d_ev_soc0 d (ev_name c) e (S t)) (d_ev_soc1 d (ev_name c) e t)
  | _ => True
  end.
(** What it holds at the start and at the end of the horizon. *)
Definition ends_upto (eps : Q) (a : asset) (d : dispatch) (n : nat) : Prop :=
  match a with
  | ABattery c => within eps (d_qty d (b_name c) Soc0 0%nat) (b_initial_charge_mwh c) /\ within eps (d_qty d (b_name c) Soc1 (n - 1)%nat) (b_final_charge_mwh c)
  | AEVs c => forall e ec, nth_error (ev_event_cfgs c) e = Some ec ->
      within eps (d_ev_soc0 d (ev_name c) e 0%nat) 0 /\ within eps (d_ev_soc1 d (ev_name c) e (n - 1)%nat) (ce_capacity_mwh ec)
  | _ => True
  end.

(** imports and exports respect their limits exactly, and are not both above [eps]; the balances close up to [eps] *)
Definition site_upto (eps : Q) (c : site_cfg) (assets : list asset) (d : dispatch) (t : nat) : Prop :=
  (between 0 (d_import d t) (energy (sc_freq c) (sc_import_limit_mw c)) /\
   between 0 (d_export d t) (energy (sc_freq c) (sc_export_limit_mw c)) /\ (d_import d t <= eps \/ d_export d t <= eps)) /\
  within eps (d_import d t + total (elec_gen d t) assets + total (discharge d t) assets)
    (d_export d t + data (id_electric_load_mwh (sc_idata c)) t + total (elec_load d t) assets + total (charge d t) assets) /\
  within eps (total (ht_gen d t) assets) (total (ht_load d t) assets + data (id_high_temperature_load_mwh (sc_idata c)) t) /\
  within eps (total (lt_gen d t) assets + data (id_low_temperature_generation_mwh (sc_idata c)) t)
    (total (lt_load d t) assets + data (id_low_temperature_load_mwh (sc_idata c)) t).

Definition physical_upto (eps : Q) (c : site_cfg) (assets : list asset) (fl : flags) (d : dispatch) : Prop :=
  (forall t, (t < n_intervals c)%nat -> site_upto eps c assets d t) /\
  (forall a, In a assets ->
     (forall t, (t < n_intervals c)%nat -> asset_upto eps a (sc_freq c) fl d t) /\
     (forall t, (S t < n_intervals c)%nat -> link_upto eps a d t) /\ ends_upto eps a d (n_intervals c)).
