(** * SpecPossible: when a named objective depends on what the site does *)
From Verif Require Import Base Params Types Spec.
Open Scope Q_scope.
Open Scope string_scope.

Definition burns_gas (a : asset) : Prop := match a with ABoiler _ | ACHP _ => True | _ => False end.
Definition is_spill_asset (a : asset) : Prop := match a with ASpill _ => True | _ => False end.
(** some interval of the site has a number that is not zero in this data *)
Definition nonzero_somewhere (c : site_cfg) (l : list Q) : Prop := exists t, (t < n_intervals c)%nat /\ ~ data l t == 0.
(** something the site can do has a price *)
Definition price_matters (c : site_cfg) (assets : list asset) : Prop :=
  nonzero_somewhere c (id_electricity_prices (sc_idata c)) \/ nonzero_somewhere c (id_export_electricity_prices (sc_idata c)) \/
  Exists is_spill_asset assets \/ (Exists burns_gas assets /\ nonzero_somewhere c (id_gas_prices (sc_idata c))).
(** something the site can do has emissions *)
Definition carbon_matters (c : site_cfg) (assets : list asset) : Prop :=
  nonzero_somewhere c (id_electricity_carbon_intensities (sc_idata c)) \/ Exists is_spill_asset assets \/ Exists burns_gas assets.

(** ** Sites that can always be operated *)
From Verif Require Import SpecCompare.
(** The spill charger can serve every charge event: the car is there in some interval, and the spill charger is big enough to
    charge it in one interval. *)
Definition spill_charger_serves (f : freq) (fl : flags) (n : nat) (c : evs_cfg) : Prop :=
  forall e ec, nth_error (ev_event_cfgs c) e = Some ec ->
    0 <= ce_capacity_mwh ec /\ ce_efficiency_pct ec <= 1 /\ (exists t, (t < n)%nat /\ can_charge fl c e t) /\
    forall k, nth_error (ev_spill_chargers c) 0 = Some k -> between (energy f (cg_min_mw k)) (ce_capacity_mwh ec) (energy f (cg_max_mw k)).
(** the asset needs nothing but electricity for its charge events *)
Definition undemanding (f : freq) (fl : flags) (n : nat) (a : asset) : Prop :=
  match a with AEVs c => spill_charger_serves f fl n c | _ => can_idle f n a end.
(** all the charge of all the charge events *)
Definition ev_demand (assets : list asset) : Q :=
  total (fun a => match a with AEVs c => Qsum (map ce_capacity_mwh (ev_event_cfgs c)) | _ => 0 end) assets.
Definition limits_not_negative (c : site_cfg) : Prop :=
  0 <= energy (sc_freq c) (sc_import_limit_mw c) /\ 0 <= energy (sc_freq c) (sc_export_limit_mw c).
(** low temperature heat that has to come from somewhere else *)
Definition lt_shortage (c : site_cfg) (t : nat) : Q :=
  data (id_low_temperature_load_mwh (sc_idata c)) t - data (id_low_temperature_generation_mwh (sc_idata c)) t.

(** The solver answers Optimal for the program of this call if the program has a solution and its objective is bounded from below. *)
From Verif Require Import Pulp Optimizer Constraints Objectives Pipeline.
Definition decides (slv : solver) (base : nat) (c : site_cfg) (assets : list asset) (cons : list constraint) (obj : objective) (fl : flags) : Prop :=
  forall iv o s b, build_program c assets cons obj fl (new_optimizer base) = Ok (iv, o) ->
    feasible s o -> (forall s', feasible s' o -> b <= objective_value s' o) -> sol_status (slv o) = Optimal.

(** ** Names that cannot be confused with anything *)
From Verif Require Import SpecNames SpecColumns.
(** no quantity, no comma, no equality sign, no "evs" inside, and not one of the words of the results table *)
Definition plain_name (s : string) : Prop :=
  clean s /\ unmarked s /\ contains "evs" s = false /\ s <> "site" /\ s <> "total".
(** EVs have their default name, valves too, and the names stay different when pulp replaces special characters *)
Record plain_names (assets : list asset) : Prop := mkPlain {
  pn_distinct : NoDup (map (fun a => sanitize (asset_name a)) assets);
  pn_name : forall a, In a assets -> match a with AEVs c => ev_name c = "evs" | AValve v => v = "valve" | _ => plain_name (asset_name a) end }.

(** ** Arguments of a site *)
From Verif Require Import IntervalData.
(** no number of this argument is negative *)
Definition never_negative (f : field) : Prop :=
  match f with Missing => True | Scalar x => forall q, x = Num q -> 0 <= q | Series l => forall q, In (Num q) l -> 0 <= q end.
Definition loads_not_negative (i : site_input) : Prop :=
  never_negative (in_electric_load_mwh i) /\ never_negative (in_high_temperature_load_mwh i) /\
  never_negative (in_low_temperature_load_mwh i) /\ never_negative (in_low_temperature_generation_mwh i).
(** The data of a site has no NaN and at least one interval, no load and no grid limit is negative, and using the Spill asset is no error. *)
Record sensible_call (i : site_input) (d : idata pynum) (q : idata Q) (f : freq) (il el : Q) (fl : flags) : Prop := mkCall {
  sb_numbers : data_numbers d = Some q;
  sb_some : (0 < id_n q)%nat;
  sb_freq : (0 <= f)%Z;
  sb_loads : loads_not_negative i;
  sb_import : 0 <= il;
  sb_export : 0 <= el;
  sb_spill : fail_on_spill_asset_use fl = false }.
