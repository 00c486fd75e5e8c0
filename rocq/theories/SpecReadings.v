(** * SpecReadings: everything a custom constraint or a custom objective term can read

    Beside the energy quantities of [SpecTerms] a term can name the on/off switches and a few fixed numbers of a
    part of the site.  Anything else counts as zero. *)
From Verif Require Import Base Pulp Params Optimizer Types Spec SpecSwitch SpecReport Extract SpecRun Constraints Objectives SpecTerms.
Open Scope Q_scope.
Open Scope string_scope.

(** the switches and fixed numbers of a part; of an EVs asset they are summed over the charge events and chargers *)
Definition switch_quantities : list string :=
  [ "binary"; "import_power_bin"; "export_power_bin"; "import_limit_mwh"; "export_limit_mwh"; "electric_charge_binary"; "electric_discharge_binary";
    "electric_load_binary"; "efficiency_pct"; "i"; "charge_event_idx"; "charger_idx" ].
Definition count (n : nat) : Q := inject_Z (Z.of_nat n).
Definition switch_quantity (c : site_cfg) (w : switches) (t : nat) (attr : string) (p : piece) : Q :=
  match p with
  | PSite =>
      if attr =? "import_power_bin" then w_import w t
      else if attr =? "export_power_bin" then w_export w t
      else if attr =? "import_limit_mwh" then energy (sc_freq c) (sc_import_limit_mw c)
      else if attr =? "export_limit_mwh" then energy (sc_freq c) (sc_export_limit_mw c) else 0
  | PAsset (ABattery b) =>
      if attr =? "electric_charge_binary" then w_charge w (b_name b) t
      else if attr =? "electric_discharge_binary" then w_discharge w (b_name b) t
      else if attr =? "efficiency_pct" then b_efficiency_pct b else 0
  | PAsset (ABoiler b) => if attr =? "binary" then w_on w (bo_name b) t else 0
  | PAsset (ACHP b) => if attr =? "binary" then w_on w (ch_name b) t else 0
  | PAsset (AHeatPump b) => if attr =? "electric_load_binary" then w_on w (hp_name b) t else 0
  | PAsset _ => 0
  | PEv b =>
      let over f := over_events b (fun e => over_chargers b (fun k => f e k)) in
      if attr =? "electric_charge_binary" then over (fun e k => w_ev_charge w (ev_name b) e k t)
      else if attr =? "electric_discharge_binary" then over (fun e k => w_ev_discharge w (ev_name b) e k t)
      else if attr =? "i" then over (fun _ _ => count t)
      else if attr =? "charge_event_idx" then over (fun e _ => count e)
      else if attr =? "charger_idx" then over (fun _ k => count k) else 0
  | PEvSpill b =>
      if attr =? "electric_charge_binary" then over_events b (fun e => w_spill_charge w (ev_name b) e t)
      else if attr =? "i" then over_events b (fun _ => count t)
      else if attr =? "charge_event_idx" then over_events b count else 0
  end.
(** all that a term can read of a dispatch with its switches *)
Definition full_quantity (c : site_cfg) (d : dispatch) (w : switches) : readings := fun t attr p =>
  if existsb (String.eqb attr) switch_quantities then switch_quantity c w t attr p else quantity d t attr p.
(** the same, the energy quantities read from the results table *)
Definition full_reported (c : site_cfg) (r : sim_result) (w : switches) : readings := fun t attr p =>
  if existsb (String.eqb attr) switch_quantities then switch_quantity c w t attr p else reported r t attr p.
(** a custom objective of simple terms over anything *)
Definition simple_term (k : term) : Prop := t_type k = "simple".
(** "price", "carbon" or any list of simple terms *)
Definition any_kind (obj : objective) : Prop := (exists n, obj = ObjName n) \/ exists ks, obj = simple_terms ks /\ Forall simple_term ks.

(** ** How often an asset runs *)
(** the flow an on/off switch of an asset belongs to, and the column it is reported in *)
Definition switch_flow (a : asset) (attr : string) : option (qty * string) :=
  match a with
  | ABattery _ =>
      if attr =? "electric_charge_binary" then Some (Charge, "electric_charge_mwh")
      else if attr =? "electric_discharge_binary" then Some (Discharge, "electric_discharge_mwh") else None
  | ABoiler _ => if attr =? "binary" then Some (HtGen, "high_temperature_generation_mwh") else None
  | ACHP _ => if attr =? "binary" then Some (ElecGen, "electric_generation_mwh") else None
  | AHeatPump _ => if attr =? "electric_load_binary" then Some (ElecLoad, "electric_load_mwh") else None
  | _ => None
  end.
(** the number of intervals in which a flow is not zero *)
Definition running (n : nat) (flow : nat -> Q) : nat := List.length (filter (fun t => negb (Qeq_bool (flow t) 0)) (seq 0 n)).
(** "asset [a] is switched on in at most [k] intervals": the sum of its switch over the intervals is at most [k] *)
Record run_limit := mkRunLimit { rl_asset : asset; rl_switch : string; rl_most : nat }.
Definition limit_constraint (l : run_limit) : constraint :=
  mkConstraint [CTermOf (mkCterm (rl_switch l) (piece_type (PAsset (rl_asset l))) None (Some (asset_name (rl_asset l))) 1)] [CNumber (count (rl_most l))] LE true.
Definition limit_valid (assets : list asset) (l : run_limit) : Prop := In (rl_asset l) assets /\ switch_flow (rl_asset l) (rl_switch l) <> None.
(** a dispatch keeps the limit; the results table keeps it *)
Definition limit_kept (c : site_cfg) (d : dispatch) (l : run_limit) : Prop :=
  forall q col, switch_flow (rl_asset l) (rl_switch l) = Some (q, col) -> (running (n_intervals c) (d_qty d (asset_name (rl_asset l)) q) <= rl_most l)%nat.
Definition limit_reported (c : site_cfg) (r : sim_result) (l : run_limit) : Prop :=
  forall q col, switch_flow (rl_asset l) (rl_switch l) = Some (q, col) -> (running (n_intervals c) (rep r (asset_name (rl_asset l)) col) <= rl_most l)%nat.
(** "the CHP is switched on in every interval" *)
Definition must_run (b : chp_cfg) : constraint :=
  mkConstraint [CTermOf (mkCterm "binary" (Some "chp") None (Some (ch_name b)) 1)] [CNumber 1] EQ false.
(** "the site imports (exports) in at most [k] intervals" *)
Definition grid_limit (out : bool) (k : nat) : constraint :=
  mkConstraint [CTermOf (mkCterm (if out then "export_power_bin" else "import_power_bin") (Some "site") None None 1)] [CNumber (count k)] LE true.
(** "the boiler (heat pump) is switched on in every interval" *)
Definition always_on (a : asset) (attr : string) : constraint :=
  mkConstraint [CTermOf (mkCterm attr (piece_type (PAsset a)) None (Some (asset_name a)) 1)] [CNumber 1] EQ false.

(** ** The on/off columns of the results table *)
(** a battery shows its two switches; a charger of an EVs asset shows the sum over the charge events *)
Definition switch_columns (w : switches) (t : nat) (a : asset) : list (string * Q) :=
  match a with
  | ABattery b => [ (column (b_name b) "electric_charge_binary", w_charge w (b_name b) t);
                    (column (b_name b) "electric_discharge_binary", w_discharge w (b_name b) t) ]
  | AEVs e =>
      (flat_map (fun kc : nat * charger_cfg => let col := column (column (ev_name e) (cg_name (snd kc))) in
         [ (col "electric_charge_binary", over_events e (fun v => w_ev_charge w (ev_name e) v (fst kc) t));
           (col "electric_discharge_binary", over_events e (fun v => w_ev_discharge w (ev_name e) v (fst kc) t)) ]) (enumerate (ev_chargers e))
       ++ flat_map (fun cc => let col := column (column (ev_name e) (cg_name cc)) in
         [ (col "electric_charge_binary", over_events e (fun v => w_spill_charge w (ev_name e) v t)); (col "electric_discharge_binary", 0) ]) (ev_spill_chargers e))%list
  | _ => []
  end.
Definition shows_switches (r : table) (c : site_cfg) (assets : list asset) (w : switches) : Prop :=
  forall a t col q, In a assets -> (t < n_intervals c)%nat -> In (col, q) (switch_columns w t a) -> shows r col t q.
