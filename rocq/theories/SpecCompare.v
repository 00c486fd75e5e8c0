(** * SpecCompare: comparing the results of two optimizations

    When one site, one list of assets, one set of flags is at least as good as another. *)
From Coq Require Import Permutation.
From Verif Require Import Base Pulp Params Optimizer Types Spec SpecReport Extract Pipeline Constraints Objectives SpecRun SpecCost SpecTerms.
Open Scope Q_scope.

(** A feasible result, at most [gap] above the best value of the program ([gap] is 0 when the solver ran to the end).
    Charger sizes and presence flags are not negative. *)
Definition best_run (gap : Q) (slv : solver) (base : nat) (c : site_cfg) (assets : list asset) (cons : list constraint)
    (obj : objective) (fl : flags) (r : sim_result) : Prop :=
  feasible_run slv base c assets cons obj fl r /\ solved_within gap slv base c assets cons obj fl /\
  Forall (asset_sane (sc_freq c)) assets.

(** ** Assets that can stand idle over n intervals of f minutes *)
Definition can_idle (f : freq) (n : nat) (a : asset) : Prop :=
  match a with
  | ABattery c => 0 <= energy f (b_charge_power_mw c) /\ 0 <= energy f (b_discharge_power_mw c) /\
      between 0 (b_initial_charge_mwh c) (b_capacity_mwh c) /\ b_final_charge_mwh c == b_initial_charge_mwh c
  | ABoiler c => between (energy f (bo_min_mw c)) 0 (energy f (bo_max_mw c))
  | ACHP c => 0 <= energy f (ch_max_mw c)
  | AHeatPump c => 0 <= energy f (hp_power_mw c)
  | ARenewable c => forall t, (t < n)%nat -> between (data (rg_available_mwh c) t * rg_lower_pct c) 0 (data (rg_available_mwh c) t)
  | ASpill _ | AValve _ => True
  | AEVs _ => False    (* the cars must be charged *)
  end.

(** ** [a'] can do at least what [a] can (its name may differ) *)
Definition wider_charger (f : freq) (k k' : charger_cfg) : Prop :=
  energy f (cg_min_mw k') <= energy f (cg_min_mw k) /\ energy f (cg_max_mw k) <= energy f (cg_max_mw k').
Definition same_event (e e' : charge_event_cfg) : Prop :=
  ce_capacity_mwh e' == ce_capacity_mwh e /\ ce_efficiency_pct e' == ce_efficiency_pct e.
Definition at_least (f : freq) (n : nat) (a a' : asset) : Prop :=
  match a, a' with
  | ABattery b, ABattery b' =>
      energy f (b_charge_power_mw b) <= energy f (b_charge_power_mw b') /\
      energy f (b_discharge_power_mw b) <= energy f (b_discharge_power_mw b') /\
      b_capacity_mwh b <= b_capacity_mwh b' /\ b_efficiency_pct b' == b_efficiency_pct b /\
      b_initial_charge_mwh b' == b_initial_charge_mwh b /\ b_final_charge_mwh b' == b_final_charge_mwh b
  | ABoiler b, ABoiler b' =>
      energy f (bo_min_mw b') <= energy f (bo_min_mw b) /\ energy f (bo_max_mw b) <= energy f (bo_max_mw b') /\
      bo_efficiency_pct b' == bo_efficiency_pct b
  | ACHP b, ACHP b' =>
      energy f (ch_min_mw b') <= energy f (ch_min_mw b) /\ energy f (ch_max_mw b) <= energy f (ch_max_mw b') /\
      ch_electric_efficiency_pct b' == ch_electric_efficiency_pct b /\
      ch_ht_efficiency_pct b' == ch_ht_efficiency_pct b /\ ch_lt_efficiency_pct b' == ch_lt_efficiency_pct b
  | AHeatPump b, AHeatPump b' => energy f (hp_power_mw b) <= energy f (hp_power_mw b') /\ hp_cop b' == hp_cop b
  | ARenewable b, ARenewable b' => forall t, (t < n)%nat ->
      data (rg_available_mwh b) t <= data (rg_available_mwh b') t /\
      data (rg_available_mwh b') t * rg_lower_pct b' <= data (rg_available_mwh b) t * rg_lower_pct b
  | AEVs b, AEVs b' =>
      Forall2 same_event (ev_event_cfgs b) (ev_event_cfgs b') /\
      Forall2 (wider_charger f) (ev_chargers b) (ev_chargers b') /\
      Forall2 (wider_charger f) (ev_spill_chargers b) (ev_spill_chargers b') /\
      forall e t, (e < List.length (ev_event_cfgs b))%nat -> (t < n)%nat -> presence b' e t == presence b e t
  | ASpill _, ASpill _ | AValve _, AValve _ => True
  | _, _ => False
  end.
(** the assets of the second site: those of the first, each at least as able, and further ones that can idle; in any order *)
Definition assets_at_least (f : freq) (n : nat) (assets assets' : list asset) : Prop :=
  exists better extra, Forall2 (at_least f n) assets better /\ Forall (can_idle f n) extra /\ Permutation assets' (better ++ extra).

(** discharging electric vehicles may be switched on *)
Definition flags_at_least (fl fl' : flags) : Prop :=
  (allow_evs_discharge fl = true -> allow_evs_discharge fl' = true) /\
  limit_charge_variables_to_valid_events fl' = limit_charge_variables_to_valid_events fl.

(** ** The same demands, and a grid connection at least as big *)
Definition same_data (n : nat) (l l' : list Q) : Prop := forall t, (t < n)%nat -> data l' t == data l t.
Definition lower_data (n : nat) (l l' : list Q) : Prop := forall t, (t < n)%nat -> data l' t <= data l t.
Definition site_at_least (c c' : site_cfg) : Prop :=
  let n := n_intervals c in let i := sc_idata c in let i' := sc_idata c' in
  n_intervals c' = n /\ sc_freq c' = sc_freq c /\
  same_data n (id_electric_load_mwh i) (id_electric_load_mwh i') /\
  same_data n (id_high_temperature_load_mwh i) (id_high_temperature_load_mwh i') /\
  same_data n (id_low_temperature_load_mwh i) (id_low_temperature_load_mwh i') /\
  same_data n (id_low_temperature_generation_mwh i) (id_low_temperature_generation_mwh i') /\
  energy (sc_freq c) (sc_import_limit_mw c) <= energy (sc_freq c) (sc_import_limit_mw c') /\
  energy (sc_freq c) (sc_export_limit_mw c) <= energy (sc_freq c) (sc_export_limit_mw c').
(** prices at least as good: buying no dearer, selling no cheaper *)
Definition prices_at_least (c c' : site_cfg) : Prop :=
  let n := n_intervals c in let i := sc_idata c in let i' := sc_idata c' in
  lower_data n (id_electricity_prices i) (id_electricity_prices i') /\
  lower_data n (id_export_electricity_prices i') (id_export_electricity_prices i) /\
  lower_data n (id_gas_prices i) (id_gas_prices i').
Definition same_intensities (c c' : site_cfg) : Prop :=
  same_data (n_intervals c) (id_electricity_carbon_intensities (sc_idata c)) (id_electricity_carbon_intensities (sc_idata c')).

(** ** One horizon after another *)
Definition data_joined (n1 n2 : nat) (l1 l2 l : list Q) : Prop :=
  same_data n1 l1 l /\ forall t, (t < n2)%nat -> data l (n1 + t) == data l2 t.
Definition site_joined (c1 c2 c : site_cfg) : Prop :=
  let j (get : idata Q -> list Q) := data_joined (n_intervals c1) (n_intervals c2) (get (sc_idata c1)) (get (sc_idata c2)) (get (sc_idata c)) in
  n_intervals c = (n_intervals c1 + n_intervals c2)%nat /\ sc_freq c1 = sc_freq c /\ sc_freq c2 = sc_freq c /\
  sc_import_limit_mw c1 == sc_import_limit_mw c /\ sc_import_limit_mw c2 == sc_import_limit_mw c /\
  sc_export_limit_mw c1 == sc_export_limit_mw c /\ sc_export_limit_mw c2 == sc_export_limit_mw c /\
  j id_electricity_prices /\ j id_export_electricity_prices /\ j id_electricity_carbon_intensities /\ j id_gas_prices /\
  j id_electric_load_mwh /\ j id_high_temperature_load_mwh /\ j id_low_temperature_load_mwh /\ j id_low_temperature_generation_mwh.
Definition with_charges (b : battery_cfg) (initial final : Q) : battery_cfg :=
  mkBatteryCfg (b_name b) (b_charge_power_mw b) (b_discharge_power_mw b) (b_capacity_mwh b) (b_efficiency_pct b) initial final.
(** the same asset, over the first part, the second part and the whole; a battery hands its charge over *)
Definition asset_joined (n1 n2 : nat) (a1 a2 a : asset) : Prop :=
  match a1, a2, a with
  | ABattery b1, ABattery b2, ABattery b =>
      exists handed_over, b1 = with_charges b (b_initial_charge_mwh b) handed_over /\ b2 = with_charges b handed_over (b_final_charge_mwh b)
  | ARenewable g1, ARenewable g2, ARenewable g =>
      rg_name g1 = rg_name g /\ rg_name g2 = rg_name g /\ rg_lower_pct g1 == rg_lower_pct g /\ rg_lower_pct g2 == rg_lower_pct g /\
      data_joined n1 n2 (rg_available_mwh g1) (rg_available_mwh g2) (rg_available_mwh g)
  | AEVs _, _, _ => False
  | _, _, _ => a1 = a /\ a2 = a
  end.
Definition assets_joined (n1 n2 : nat) (l1 l2 l : list asset) : Prop :=
  List.length l1 = List.length l /\ List.length l2 = List.length l /\
  forall i a1 a2 a, nth_error l1 i = Some a1 -> nth_error l2 i = Some a2 -> nth_error l i = Some a -> asset_joined n1 n2 a1 a2 a.
Definition no_storage (a : asset) : Prop := match a with ABattery _ | AEVs _ => False | _ => True end.
(** nothing that is penalised *)
Definition no_spills (a : asset) : Prop := match a with ASpill _ | AEVs _ => False | _ => True end.

(** all prices k times those of [c] *)
Definition scaled_data (n : nat) (k : Q) (l l' : list Q) : Prop := forall t, (t < n)%nat -> data l' t == k * data l t.
Definition prices_scaled (k : Q) (c c' : site_cfg) : Prop :=
  let n := n_intervals c in let i := sc_idata c in let i' := sc_idata c' in
  scaled_data n k (id_electricity_prices i) (id_electricity_prices i') /\
  scaled_data n k (id_export_electricity_prices i) (id_export_electricity_prices i') /\
  scaled_data n k (id_gas_prices i) (id_gas_prices i').
