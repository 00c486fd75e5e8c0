(** * SpecColumns: the columns of the linear program
    What the columns (variables) of the program of a site are called, and what makes the names different. *)
From Verif Require Import Base Pulp Params Optimizer Types EVs Constraints Objectives.
Open Scope string_scope.

(** ** The names, before pulp replaces the characters -+[] >/ by underscores *)
Definition site_columns (t : nat) : list string :=
  ["import_power_mw-" ++ show t; "export_power_mw-" ++ show t; "import_power_bin-" ++ show t; "export_power_bin-" ++ show t].
(** name-quantity-interval *)
Definition dashed (n : string) (qs : list string) (t : nat) : list string := map (fun q => n ++ "-" ++ q ++ "-" ++ show t) qs.
(** quantity,i:interval,asset:name and what follows *)
Definition tagged (qs : list string) (t : nat) (n : string) (rest : string) : list string :=
  map (fun q => q ++ ",i:" ++ show t ++ ",asset:" ++ n ++ rest) qs.
Definition pair_columns (c : evs_cfg) (t e : nat) (cc : charger_cfg) (spill : bool) (qs : list string) : list string :=
  tagged qs t (ev_name c) (",charge-event:" ++ show e ++ ",charger:" ++ cg_name cc ++ ",is_spill:" ++ (if spill then "True" else "False")).
Definition asset_columns (a : asset) (t : nat) : list string :=
  match a with
  | ABattery c => dashed (b_name c) ["electric_charge_mwh"; "electric_discharge_mwh"; "electric_charge_binary"; "electric_discharge_binary";
                                     "electric_loss_mwh"; "electric_initial_charge_mwh"; "electric_final_charge_mwh"] t
  | ABoiler c => dashed (bo_name c) ["high_temperature_generation_mwh"; "binary_mwh"; "gas_consumption_mwh"] t
  | ACHP c => dashed (ch_name c) ["electric_generation_mwh"; "binary_mwh"; "gas_consumption_mwh"; "high_temperature_generation_mwh"; "low_temperature_generation_mwh"] t
  | AEVs c =>
      (flat_map (fun ee => tagged ["initial_soc_mwh"; "final_soc_mwh"] t (ev_name c) (",charge_event:" ++ ce_name (snd ee))
          ++ flat_map (fun cc => pair_columns c t (fst ee) cc false
               ["electric_charge_mwh"; "electric_charge_binary"; "electric_discharge_mwh"; "electric_discharge_binary"; "electric_loss_mwh"]) (ev_chargers c))
        (enumerate (ev_event_cfgs c))
      ++ flat_map (fun ee => flat_map (fun cc => pair_columns c t (fst ee) cc true ["electric_charge_mwh"; "electric_charge_binary"; "electric_loss_mwh"]) (ev_spill_chargers c))
        (enumerate (ev_event_cfgs c)))%list
  | AHeatPump c => tagged ["electric_load_mwh"; "electric_load_binary"; "low_temperature_load_mwh"; "high_temperature_generation_mwh"] t (hp_name c) ""
  | ARenewable c => tagged ["electric_generation_mwh"] t (rg_name c) ""
  | ASpill n => dashed n ["electric_generation_mwh"; "high_temperature_generation_mwh"; "electric_load_mwh"; "low_temperature_load_mwh"] t
  | AValve n => dashed n ["high_temperature_load_mwh"; "low_temperature_generation_mwh"] t
  end.
Definition base_columns (assets : list asset) (n : nat) : list string :=
  flat_map (fun t => site_columns t ++ flat_map (fun a => asset_columns a t) assets)%list (seq 0 n).
(** The columns of the function terms of an objective: [n] intervals, [operands] is the number of values a
    term over many variables compares. *)
Definition two_label (w : two_term) (t : nat) : string :=
  w_function w ++ "-i=" ++ show t ++ "-term.a=" ++ repr_tn (w_a w) ++ "-term.b=" ++ repr_tn (w_b w).
Definition many_label (m : many_term) : string := m_function m ++ "-term=" ++ repr_many m.
Definition one_of (s : string) (l : list string) : bool := existsb (String.eqb s) l.
Definition two_added (w : two_term) : bool := one_of (w_function w) ["max_two_variables"; "min_two_variables"].
Definition many_added (m : many_term) : bool := one_of (m_function m) ["max_many_variables"; "min_many_variables"].
Definition two_columns (n : nat) (k : one_term) : list string :=
  match k with
  | TTwo w => if two_added w then flat_map (fun t => [two_label w t ++ "-continuous"; two_label w t ++ "-binary"]) (seq 0 n) else []
  | _ => []
  end.
Definition many_columns (operands : many_term -> nat) (k : one_term) : list string :=
  match k with
  | TMany m => if many_added m then (many_label m ++ "-continuous") :: map (fun j => many_label m ++ "-binary-" ++ show j) (seq 0 (operands m)) else []
  | _ => []
  end.
Definition objective_columns (n : nat) (operands : many_term -> nat) (obj : objective) : list string :=
  match obj with
  | ObjName _ => []
  | ObjTerms ks => flat_map (two_columns n) ks ++ flat_map (many_columns operands) ks
  end%list.

(** ** Names that keep the columns apart *)
(** a name without commas and equality signs *)
Definition unmarked (s : string) : Prop := contains "," s = false /\ contains "=" s = false.
Record separate (assets : list asset) : Prop := mkSeparate {
  sp_unmarked : Forall (fun a => unmarked (asset_name a)) assets;
  sp_names : NoDup (map (fun a => sanitize (asset_name a)) assets);
  sp_evs : forall c, In (AEVs c) assets ->
     NoDup (map (fun cc => sanitize (cg_name cc)) (ev_chargers c)) /\ NoDup (map (fun cc => sanitize (cg_name cc)) (ev_spill_chargers c)) /\
     NoDup (map (fun ec => sanitize (ce_name ec)) (ev_event_cfgs c)) }.
(** No two function terms of the objective have the same label. *)
Definition term_label (k : one_term) : list string :=
  match k with
  | TSimple _ => []
  | TTwo w => if two_added w then [sanitize (two_label w 0)] else []
  | TMany m => if many_added m then [sanitize (many_label m)] else []
  end.
Definition separate_terms (obj : objective) : Prop :=
  match obj with ObjName _ => True | ObjTerms ks => NoDup (flat_map term_label ks) end.
