(** * SpecTerms: the meaning of custom constraints and custom objective terms

    A term picks some parts of the site by asset type and by asset name, reads one quantity of each
    of them, and multiplies it by interval data and a coefficient. *)
From Verif Require Import Base Pulp Params Optimizer Types Spec SpecReport Extract SpecRun Constraints Objectives.
Open Scope Q_scope.
Open Scope string_scope.

(** The parts of a site a term can pick: the grid connection, each asset; an EVs asset has two parts, its
    chargers and its spill charger. *)
Inductive piece := PSite | PAsset (a : asset) | PEv (c : evs_cfg) | PEvSpill (c : evs_cfg).
Definition pieces_of (a : asset) : list piece :=
  match a with AEVs c => [PEv c; PEvSpill c] | _ => [PAsset a] end.
Definition pieces (assets : list asset) : list piece := PSite :: flat_map pieces_of assets.

(** the documented type names; a valve has none *)
Definition piece_type (p : piece) : option string :=
  match p with
  | PSite => Some "site"
  | PEv _ => Some "evs"
  | PEvSpill _ => Some "spill_evs"
  | PAsset (ABattery _) => Some "battery"
  | PAsset (ABoiler _) => Some "boiler"
  | PAsset (ACHP _) => Some "chp"
  | PAsset (AHeatPump _) => Some "heat-pump"
  | PAsset (ARenewable _) => Some "renewable-generator"
  | PAsset (ASpill _) => Some "spill"
  | PAsset _ => None
  end.
Definition piece_name (p : piece) : string :=
  match p with PSite => "site" | PEv c | PEvSpill c => ev_name c | PAsset a => asset_name a end.

(** picked by type and name: a missing type or "*" picks every type, a missing name picks every name *)
Definition type_picks (ty : option string) (p : piece) : bool :=
  match ty with
  | None => true
  | Some ty => (ty =? "*") || match piece_type p with Some u => ty =? u | None => false end
  end.
Definition name_picks (name : option string) (p : piece) : bool :=
  match name with None => true | Some n => n =? piece_name p end.
Definition picked (ty name : option string) (p : piece) : bool := type_picks ty p && name_picks name p.

(** The quantities of a part. The ones a part does not have count as zero. *)
Definition plain_quantities : list string :=
  [ "electric_generation_mwh"; "electric_load_mwh"; "electric_charge_mwh"; "electric_discharge_mwh";
    "high_temperature_generation_mwh"; "high_temperature_load_mwh"; "low_temperature_generation_mwh"; "low_temperature_load_mwh";
    "gas_consumption_mwh"; "import_power_mwh"; "export_power_mwh"; "electric_loss_mwh";
    "electric_initial_charge_mwh"; "electric_final_charge_mwh"; "initial_soc_mwh"; "final_soc_mwh" ].
Definition over_events (c : evs_cfg) (f : nat -> Q) : Q := Qsum (map f (seq 0 (List.length (ev_event_cfgs c)))).
Definition over_chargers (c : evs_cfg) (f : nat -> Q) : Q := Qsum (map f (seq 0 (List.length (ev_chargers c)))).
(** The state of charge of a charge event belongs to every (event, charger) pair, so a term over it counts it once
    per charger. *)
Definition quantity (d : dispatch) (t : nat) (attr : string) (p : piece) : Q :=
  match p with
  | PSite =>
      if attr =? "import_power_mwh" then d_import d t
      else if attr =? "export_power_mwh" then d_export d t else 0
  | PEv c =>
      if attr =? "electric_charge_mwh" then ev_total_charge d t c
      else if attr =? "electric_discharge_mwh" then ev_total_discharge d t c
      else if attr =? "electric_loss_mwh" then over_events c (fun e => over_chargers c (fun k => d_ev_loss d (ev_name c) e k t))
      else if attr =? "initial_soc_mwh" then over_events c (fun e => over_chargers c (fun _ => d_ev_soc0 d (ev_name c) e t))
      else if attr =? "final_soc_mwh" then over_events c (fun e => over_chargers c (fun _ => d_ev_soc1 d (ev_name c) e t)) else 0
  | PEvSpill c =>
      if attr =? "electric_charge_mwh" then ev_spill_total d t c
      else if attr =? "electric_loss_mwh" then over_events c (fun e => d_spill_loss d (ev_name c) e t) else 0
  | PAsset a =>
      if attr =? "electric_generation_mwh" then elec_gen d t a
      else if attr =? "electric_load_mwh" then elec_load d t a
      else if attr =? "electric_charge_mwh" then charge d t a
      else if attr =? "electric_discharge_mwh" then discharge d t a
      else if attr =? "high_temperature_generation_mwh" then ht_gen d t a
      else if attr =? "high_temperature_load_mwh" then ht_load d t a
      else if attr =? "low_temperature_generation_mwh" then lt_gen d t a
      else if attr =? "low_temperature_load_mwh" then lt_load d t a
      else if attr =? "gas_consumption_mwh" then gas_use d t a
      else match a with
           | ABattery b =>
               if attr =? "electric_loss_mwh" then d_qty d (b_name b) Loss t
               else if attr =? "electric_initial_charge_mwh" then d_qty d (b_name b) Soc0 t
               else if attr =? "electric_final_charge_mwh" then d_qty d (b_name b) Soc1 t else 0
           | _ => 0
           end
  end.
(** the same quantities, read from the results table *)
Definition reported (r : sim_result) (t : nat) (attr : string) (p : piece) : Q :=
  match p with
  | PSite =>
      if attr =? "import_power_mwh" then r_import r t
      else if attr =? "export_power_mwh" then r_export r t else 0
  | PEv c =>
      if existsb (String.eqb attr) ["electric_charge_mwh"; "electric_discharge_mwh"; "electric_loss_mwh"]
      then rep_chargers r c (ev_chargers c) attr t
      else if existsb (String.eqb attr) ["initial_soc_mwh"; "final_soc_mwh"]
      then over_events c (fun e => over_chargers c (fun _ => rep_event_soc r c e attr t)) else 0
  | PEvSpill c =>
      if existsb (String.eqb attr) ["electric_charge_mwh"; "electric_loss_mwh"]
      then rep_chargers r c (ev_spill_chargers c) attr t else 0
  | PAsset a =>
      if attr =? "electric_generation_mwh" then r_elec_gen r t a
      else if attr =? "electric_load_mwh" then r_elec_load r t a
      else if attr =? "electric_charge_mwh" then r_charge r t a
      else if attr =? "electric_discharge_mwh" then r_discharge r t a
      else if attr =? "high_temperature_generation_mwh" then r_ht_gen r t a
      else if attr =? "high_temperature_load_mwh" then r_ht_load r t a
      else if attr =? "low_temperature_generation_mwh" then r_lt_gen r t a
      else if attr =? "low_temperature_load_mwh" then r_lt_load r t a
      else if attr =? "gas_consumption_mwh" then r_gas r t a
      else match a with
           | ABattery b =>
               if existsb (String.eqb attr) ["electric_loss_mwh"; "electric_initial_charge_mwh"; "electric_final_charge_mwh"]
               then rep r (b_name b) attr t else 0
           | _ => 0
           end
  end.

(** interval data by name: no name counts as 1, "idx" is the interval number *)
Definition data_value (d : idata Q) (name : option string) (t : nat) : Q :=
  match name with
  | None => 1
  | Some n => if n =? "idx" then inject_Z (Z.of_nat t)
              else match assoc n (id_columns d) with Some l => data l t | None => 0 end
  end.

(** [q t attr p] is the quantity of a part in interval t: [quantity d] or [reported r] *)
Definition readings := nat -> string -> piece -> Q.
Definition amount (q : readings) (assets : list asset) (t : nat) (attr : string) (pick : piece -> bool) : Q :=
  Qsum (map (q t attr) (filter pick (pieces assets))).

(** ** Custom constraints *)
Definition entry_at (q : readings) (c : site_cfg) (assets : list asset) (t : nat) (e : centry) : Q :=
  match e with
  | CNumber x => x
  | CTermOf k => amount q assets t (ct_variable k) (picked (ct_asset_type k) (ct_asset_name k))
                 * data_value (sc_idata c) (ct_interval_data k) t * ct_coefficient k
  end.
Definition side_at (q : readings) (c : site_cfg) (assets : list asset) (t : nat) (side : list centry) : Q :=
  Qsum (map (entry_at q c assets t) side).
(** the same, summed over the intervals; a number counts once *)
Definition entry_sum (q : readings) (c : site_cfg) (assets : list asset) (e : centry) : Q :=
  match e with
  | CNumber x => x
  | CTermOf _ => horizon c (fun t => entry_at q c assets t e)
  end.
Definition side_sum (q : readings) (c : site_cfg) (assets : list asset) (side : list centry) : Q :=
  Qsum (map (entry_sum q c assets) side).
Definition compares (s : sense) (l r : Q) : Prop := match s with LE => l <= r | GE => r <= l | EQ => l == r end.
Definition holds_at (q : readings) (c : site_cfg) (assets : list asset) (k : constraint) (t : nat) : Prop :=
  compares (cn_sense k) (side_at q c assets t (cn_lhs k)) (side_at q c assets t (cn_rhs k)).
Definition holds_in_total (q : readings) (c : site_cfg) (assets : list asset) (k : constraint) : Prop :=
  compares (cn_sense k) (side_sum q c assets (cn_lhs k)) (side_sum q c assets (cn_rhs k)).
Definition satisfied (q : readings) (c : site_cfg) (assets : list asset) (k : constraint) : Prop :=
  if cn_sum k then holds_in_total q c assets k else forall t, (t < n_intervals c)%nat -> holds_at q c assets k t.

(** all terms of the constraint read one of the quantities above *)
Definition plain_entry (e : centry) : Prop :=
  match e with CNumber _ => True | CTermOf k => In (ct_variable k) plain_quantities end.
Definition plain_constraint (k : constraint) : Prop := Forall plain_entry (cn_lhs k ++ cn_rhs k)%list.

(** ** Custom objectives made of simple terms *)
(** with asset type "*" the name is not looked at *)
Definition term_picks (k : term) (p : piece) : bool :=
  match t_asset_type k with
  | Some ty => (ty =? "*") || picked (Some ty) (t_asset_name k) p
  | None => picked None (t_asset_name k) p
  end.
Definition term_at (q : readings) (c : site_cfg) (assets : list asset) (k : term) (t : nat) : Q :=
  amount q assets t (t_variable k) (term_picks k) * data_value (sc_idata c) (t_interval_data k) t * t_coefficient k.
Definition terms_sum (q : readings) (c : site_cfg) (assets : list asset) (ks : list term) : Q :=
  Qsum (map (fun k => horizon c (term_at q c assets k)) ks).
Definition plain_term (k : term) : Prop := t_type k = "simple" /\ In (t_variable k) plain_quantities.
(** the objective: "price", "carbon" or a list of simple terms *)
Definition simple_terms (ks : list term) : objective := ObjTerms (map TSimple ks).
Definition plain_objective (obj : objective) : Prop :=
  (exists n, obj = ObjName n) \/ exists ks, obj = simple_terms ks /\ Forall plain_term ks.
