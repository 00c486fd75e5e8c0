(** * SpecSwitch: the on/off switches of a site

    Beside the energy flows a linear program decides on/off switches (0 or 1), which custom constraints and
    custom objective terms can read.  This file says when switches fit a dispatch. *)
From Verif Require Import Base Pulp Params Optimizer Types Spec.
Open Scope Q_scope.

Record switches := mkSwitches {
  w_import : nat -> Q; w_export : nat -> Q;                       (* the grid connection, by interval *)
  w_on : string -> nat -> Q;                                      (* boilers, CHPs, heat pumps *)
  w_charge : string -> nat -> Q; w_discharge : string -> nat -> Q;  (* batteries *)
  w_ev_charge : string -> nat -> nat -> nat -> Q;                 (* EVs: charge event, charger, interval *)
  w_ev_discharge : string -> nat -> nat -> nat -> Q;
  w_spill_charge : string -> nat -> nat -> Q }.                   (* the spill charger: charge event, interval *)

Definition bit (b : Q) : Prop := b == 0 \/ b == 1.
(** a switch of a flow: while it is off the flow is zero *)
Definition switch_for (b x : Q) : Prop := bit b /\ (b == 0 -> x == 0).

Definition site_switched (d : dispatch) (w : switches) (t : nat) : Prop :=
  switch_for (w_import w t) (d_import d t) /\ switch_for (w_export w t) (d_export d t) /\ w_import w t + w_export w t == 1.
Definition battery_switched (c : battery_cfg) (d : dispatch) (w : switches) (t : nat) : Prop :=
  switch_for (w_charge w (b_name c) t) (d_qty d (b_name c) Charge t) /\
  switch_for (w_discharge w (b_name c) t) (d_qty d (b_name c) Discharge t) /\
  w_charge w (b_name c) t + w_discharge w (b_name c) t <= 1.
Definition boiler_switched (c : boiler_cfg) (d : dispatch) (w : switches) (t : nat) : Prop :=
  switch_for (w_on w (bo_name c) t) (d_qty d (bo_name c) HtGen t).
(** a CHP that is on runs at its minimum or above *)
Definition chp_switched (c : chp_cfg) (f : freq) (d : dispatch) (w : switches) (t : nat) : Prop :=
  switch_for (w_on w (ch_name c) t) (d_qty d (ch_name c) ElecGen t) /\
  (w_on w (ch_name c) t == 1 -> energy f (ch_min_mw c) <= d_qty d (ch_name c) ElecGen t).
Definition hp_switched (c : hp_cfg) (d : dispatch) (w : switches) (t : nat) : Prop :=
  switch_for (w_on w (hp_name c) t) (d_qty d (hp_name c) ElecLoad t).
(** a charger that is on for a charge event charges at its minimum or above, and the charge event is there *)
Definition charger_switched (f : freq) (there : Prop) (cc : charger_cfg) (b x : Q) : Prop :=
  switch_for b x /\ (b == 1 -> energy f (cg_min_mw cc) <= x /\ there).
Definition evs_switched (c : evs_cfg) (f : freq) (fl : flags) (d : dispatch) (w : switches) (t : nat) : Prop :=
  let nm := ev_name c in
  let ks := seq 0 (List.length (ev_chargers c)) in
  let es := seq 0 (List.length (ev_event_cfgs c)) in
  (forall e ec k cc, nth_error (ev_event_cfgs c) e = Some ec -> nth_error (ev_chargers c) k = Some cc ->
    charger_switched f (can_charge fl c e t) cc (w_ev_charge w nm e k t) (d_ev_charge d nm e k t) /\
    (if allow_evs_discharge fl
     then charger_switched f (1 <= presence c e t) cc (w_ev_discharge w nm e k t) (d_ev_discharge d nm e k t)
     else w_ev_discharge w nm e k t == 0)) /\
  (forall e ec cc, nth_error (ev_event_cfgs c) e = Some ec -> nth_error (ev_spill_chargers c) 0 = Some cc ->
    charger_switched f (can_charge fl c e t) cc (w_spill_charge w nm e t) (d_spill_charge d nm e t)) /\
  (* a charge event has one charger switched on in one direction, a charger is switched on for one charge event *)
  (forall e, In e es -> Qsum (map (fun k => w_ev_charge w nm e k t) ks ++ map (fun k => w_ev_discharge w nm e k t) ks) <= 1) /\
  (forall k, In k ks -> Qsum (map (fun e => w_ev_charge w nm e k t) es ++ map (fun e => w_ev_discharge w nm e k t) es) <= 1).
Definition asset_switched (a : asset) (f : freq) (fl : flags) (d : dispatch) (w : switches) (t : nat) : Prop :=
  match a with
  | ABattery c => battery_switched c d w t
  | ABoiler c => boiler_switched c d w t
  | ACHP c => chp_switched c f d w t
  | AEVs c => evs_switched c f fl d w t
  | AHeatPump c => hp_switched c d w t
  | _ => True
  end.
(** switches that fit a dispatch of a site *)
Definition switched (c : site_cfg) (assets : list asset) (fl : flags) (d : dispatch) (w : switches) : Prop :=
  forall t, (t < n_intervals c)%nat -> site_switched d w t /\ forall a, In a assets -> asset_switched a (sc_freq c) fl d w t.
