(** * Extract: energypylinear/results/ (extract.py, schema.py, checks.py, warnings.py)
    A pandas DataFrame is a list of named columns; a cell is a number or None/NaN. *)
From Verif Require Import Base Pulp Params Optimizer Types EVs.
Open Scope Q_scope.
Open Scope string_scope.

Definition cell := option Q.
Definition frame := list (string * list cell).

(** [results[name].append(v)] on a defaultdict(list) (insertion ordered) *)
Fixpoint append_cell (r : frame) (n : string) (v : cell) : frame :=
  match r with
  | [] => [(n, [v])]
  | (m, c) :: r' => if n =? m then (m, (c ++ [v])%list) :: r' else (m, c) :: append_cell r' n v
  end.
Definition append_row (r : frame) (row : list (string * cell)) : frame :=
  fold_left (fun r nv => append_cell r (fst nv) (snd nv)) row r.

(** [results[name] = column] on a DataFrame: replaces or adds *)
Fixpoint set_col (r : frame) (n : string) (c : list cell) : frame :=
  match r with
  | [] => [(n, c)]
  | (m, x) :: r' => if n =? m then (m, c) :: r' else (m, x) :: set_col r' n c
  end.
Definition columns (r : frame) : list string := map fst r.
(** [results[name]] *)
Definition get_col (r : frame) (n : string) : res (list cell) := of_option KeyErr (assoc n r).

(** The values of the solved program *)
Definition values := lpvar -> option Q.

(** [optimizer.value(x)], energypylinear/optimizer.py:312-331 *)
Definition value_of (vals : values) (f : fval) (clip : bool) : res Q :=
  let! x := match f with
            | FVar v => of_option AssertionErr (vals v)
            | FFloat q => Ok q
            | FInt z => Ok (inject_Z z)
            | FNone => Err TypeErr
            end in
  Ok (if clip then Qmax x 0 else x).
(** [x.value()]: only variables have it *)
Definition dot_value (vals : values) (f : fval) : res cell :=
  match f with FVar v => Ok (vals v) | _ => Err AttributeErr end.

(** columns [f"{name}-{attr}"] of one object, with optimizer.value *)
Definition attr_cells (vals : values) (name : string) (clip : bool) (attrs : list (string * fval))
  : res (list (string * cell)) :=
  rmap (fun a => let! q := value_of vals (snd a) clip in Ok (name ++ "-" ++ fst a, Some q)) attrs.
(** the same with x.value() *)
Definition attr_cells_raw (vals : values) (name : string) (attrs : list (string * fval))
  : res (list (string * cell)) :=
  rmap (fun a => let! q := dot_value vals (snd a) in Ok (name ++ "-" ++ fst a, q)) attrs.

(** extract.py:51-71 *)
Definition extract_site (vals : values) (d : idata Q) (iv : interval_vars) (i : nat) : res (list (string * cell)) :=
  let! sites := filter_objective_variables iv (Z.of_nat i) (Some KSite) (Some "site") in
  match sites with
  | [OISite r] =>
      let! data := rmap (fun c => let! q := nth_res (snd c) i in Ok ("site-" ++ fst c, Some q)) (id_columns d) in
      Ok ([("site-import_power_mwh", vals (tio_import r)); ("site-export_power_mwh", vals (tio_export r))] ++ data)%list
  | _ => Err AssertionErr
  end.

(** the attributes reported for one object: extract.py:83-95 (spill), 106-115 (chp), 125-129 (boiler),
    140-147 (valve), 158-172 (battery), 276-283 (heat pump), 297-301 (renewable) *)
Definition spill_attrs (r : spill_oi) : list (string * fval) :=
  let x := OISpill r in
  [ ("electric_generation_mwh", electric_generation_mwh x); ("electric_load_mwh", electric_load_mwh x);
    ("high_temperature_generation_mwh", high_temperature_generation_mwh x);
    ("low_temperature_generation_mwh", low_temperature_generation_mwh x);
    ("high_temperature_load_mwh", high_temperature_load_mwh x);
    ("low_temperature_load_mwh", low_temperature_load_mwh x);
    ("gas_consumption_mwh", gas_consumption_mwh x) ].
Definition battery_attrs (r : battery_oi) : list (string * fval) :=
  [ ("electric_charge_mwh", FVar (boi_charge r)); ("electric_charge_binary", FVar (boi_charge_bin r));
    ("electric_discharge_mwh", FVar (boi_discharge r)); ("electric_discharge_binary", FVar (boi_discharge_bin r));
    ("electric_loss_mwh", FVar (boi_loss r));
    ("electric_initial_charge_mwh", FVar (boi_initial r)); ("electric_final_charge_mwh", FVar (boi_final r)) ].
Definition chp_attrs (r : chp_oi) : list (string * fval) :=
  [ ("electric_generation_mwh", FVar (coi_elec r)); ("gas_consumption_mwh", FVar (coi_gas r));
    ("high_temperature_generation_mwh", FVar (coi_ht r)); ("low_temperature_generation_mwh", FVar (coi_lt r)) ].
Definition boiler_attrs (r : boiler_oi) : list (string * fval) :=
  [ ("high_temperature_generation_mwh", FVar (kboi_ht r)); ("gas_consumption_mwh", FVar (kboi_gas r)) ].
Definition valve_attrs (r : valve_oi) : list (string * fval) :=
  [ ("high_temperature_load_mwh", FVar (voi_ht_load r)); ("low_temperature_generation_mwh", FVar (voi_lt_gen r)) ].
Definition hp_attrs (r : hp_oi) : list (string * fval) :=
  [ ("electric_load_mwh", FVar (hoi_elec r)); ("low_temperature_load_mwh", FVar (hoi_lt r));
    ("high_temperature_generation_mwh", FVar (hoi_ht r)) ].
Definition rg_attrs (r : rg_oi) : list (string * fval) := [ ("electric_generation_mwh", FVar (roi_elec r)) ].

(** One object of a given class: extract.py:74-173, 264-304 *)
Definition extract_object (vals : values) (x : oneint) : res (list (string * cell)) :=
  match x with
  | OISpill r => attr_cells vals (soi_name r) false (spill_attrs r)
  | OIBattery r => attr_cells vals (b_name (boi_cfg r)) true (battery_attrs r)
  | OICHP r => attr_cells_raw vals (ch_name (coi_cfg r)) (chp_attrs r)
  | OIBoiler r => attr_cells_raw vals (bo_name (kboi_cfg r)) (boiler_attrs r)
  | OIValve r => attr_cells vals (voi_name r) false (valve_attrs r)
  | OIHeatPump r => attr_cells vals (hp_name (hoi_cfg r)) false (hp_attrs r)
  | OIRenewable r => attr_cells vals (rg_name (roi_cfg r)) false (rg_attrs r)
  | _ => Ok []
  end.
Definition extract_kind (vals : values) (iv : interval_vars) (i : nat) (k : kind) : res (list (string * cell)) :=
  let! l := filter_objective_variables iv (Z.of_nat i) (Some k) None in
  let! rows := rmap (extract_object vals) l in
  Ok (List.concat rows).

(** extract.py:194-211, 249-261: a charger, summed across the charge events *)
Definition ev_charger_attrs (a : evs_array) : list (string * (nat -> nat -> fval)) :=
  [ ("electric_charge_mwh", ea_charge a); ("electric_charge_binary", ea_charge_bin a);
    ("electric_discharge_mwh", ea_discharge a); ("electric_discharge_binary", ea_discharge_bin a);
    ("electric_loss_mwh", ea_loss a) ].
Definition ev_event_attrs (a : evs_array) : list (string * (nat -> nat -> fval)) :=
  [ ("electric_charge_mwh", ea_charge a); ("electric_discharge_mwh", ea_discharge a);
    ("electric_loss_mwh", ea_loss a) ].
Definition sum_values (vals : values) (fs : list fval) : res Q :=
  let! qs := rmap (fun f => value_of vals f false) fs in Ok (Qsum qs).
Definition ev_charger_cells (vals : values) (a : evs_array) (kc : nat * charger_cfg) : res (list (string * cell)) :=
  let c := ea_cfg a in
  if Nat.ltb (fst kc) (n_chargers c) then
    rmap (fun at_ =>
            let! q := sum_values vals (map (fun e => snd at_ e (fst kc)) (seq 0 (n_events c))) in
            Ok (ev_name c ++ "-" ++ cg_name (snd kc) ++ "-" ++ fst at_, Some q)) (ev_charger_attrs a)
  else Err IndexErr.
(** extract.py:213-232: a charge event, summed across the chargers *)
Definition ev_event_cells (vals : values) (a : evs_array) (ee : nat * charge_event_cfg) : res (list (string * cell)) :=
  let c := ea_cfg a in
  rmap (fun at_ =>
          let! q := sum_values vals (map (fun k => snd at_ (fst ee) k) (seq 0 (n_chargers c))) in
          Ok (ev_name c ++ "-" ++ ce_name (snd ee) ++ "-" ++ fst at_, Some q)) (ev_event_attrs a).
(** extract.py:234-247: states of charge *)
Definition ev_soc_cells (vals : values) (a : evs_array) (at_ : string * (nat -> fval)) : res (list (string * cell)) :=
  let c := ea_cfg a in
  rmap (fun e =>
          let! q := dot_value vals (snd at_ e) in
          Ok (ev_name c ++ "-charge-event-" ++ show e ++ "-" ++ fst at_, q)) (seq 0 (n_events c)).
Definition ev_cells (vals : values) (a : evs_array) : res (list (string * cell)) :=
  let c := ea_cfg a in
  let! l1 := rmap (ev_charger_cells vals a) (enumerate (ev_chargers c)) in
  let! l2 := rmap (ev_event_cells vals a) (enumerate (ev_event_cfgs c)) in
  let! l3 := rmap (ev_soc_cells vals a) [("initial_soc_mwh", ea_soc0 a); ("final_soc_mwh", ea_soc1 a)] in
  Ok (List.concat l1 ++ List.concat l2 ++ List.concat l3)%list.
Definition ev_spill_cells (vals : values) (a : evs_array) : res (list (string * cell)) :=
  let! l := rmap (ev_charger_cells vals a) (enumerate (ev_spill_chargers (ea_cfg a))) in
  Ok (List.concat l).
(** extract.py:176-261.  [asset_names] is a Python set: its unspecified order is replaced by the
    order of the assets (only the order of the columns depends on it). *)
Definition extract_evs (vals : values) (names : list string) (iv : interval_vars) (i : nat) : res (list (string * cell)) :=
  let! evs := filter_objective_variables iv (Z.of_nat i) (Some KEv) None in
  match evs with
  | [] => Ok []
  | _ =>
      let ns := filter (contains "evs") names in
      let! pkg := rmap (fun n => create_evs_array iv (Z.of_nat i) n false) ns in
      let! l1 := rmap (ev_cells vals) pkg in
      let! pkg2 := rmap (fun n => create_evs_array iv (Z.of_nat i) n true) ns in
      let! l2 := rmap (ev_spill_cells vals) pkg2 in
      Ok (List.concat l1 ++ List.concat l2)%list
  end.

(** One pass of the loop extract.py:388-406 *)
Definition extract_row (vals : values) (d : idata Q) (names : list string) (iv : interval_vars) (i : nat)
  : res (list (string * cell)) :=
  let! r1 := extract_site vals d iv i in
  let! r2 := extract_kind vals iv i KSpill in
  let! r3 := extract_kind vals iv i KBattery in
  let! r4 := extract_kind vals iv i KCHP in
  let! r5 := extract_kind vals iv i KBoiler in
  let! r6 := extract_kind vals iv i KValve in
  let! r7 := extract_evs vals names iv i in
  let! r8 := extract_kind vals iv i KHeatPump in
  let! r9 := extract_kind vals iv i KRenewable in
  Ok (r1 ++ r2 ++ r3 ++ r4 ++ r5 ++ r6 ++ r7 ++ r8 ++ r9)%list.

(** ** Totals: extract.py:307-338 *)
(** results/schema.py:26-36 *)
Definition quantities : list string :=
  [ "electric_generation_mwh"; "electric_load_mwh"; "high_temperature_generation_mwh";
    "low_temperature_generation_mwh"; "high_temperature_load_mwh"; "low_temperature_load_mwh";
    "gas_consumption_mwh"; "electric_charge_mwh"; "electric_discharge_mwh" ].
Definition n_rows (r : frame) : nat := match r with [] => 0 | (_, c) :: _ => List.length c end.
Definition zero_none (c : cell) : Q := match c with Some q => q | None => 0 end.
(** [results[cols].sum(axis=1)] (skipna) *)
Definition cell_at (c : list cell) (i : nat) : cell := nth i c None.
Definition sum_cols (r : frame) (p : string -> bool) : list cell :=
  map (fun i => Some (Qsum (map (fun nc => zero_none (cell_at (snd nc) i)) (filter (fun nc => p (fst nc)) r))))
      (seq 0 (n_rows r)).
Definition is_quantity_col (q c : string) : bool := contains ("-" ++ q) c && negb (contains "charge-event" c).
Definition is_spill_total_col (c : string) : bool :=
  contains "spill" c && negb (contains "binary" c) && contains "charger-" c.
Definition is_loss_col (c : string) : bool := contains "electric_loss_mwh" c && negb (contains "evs-charger" c).
Definition csub (a b : cell) : cell := match a, b with Some x, Some y => Some (x - y)%Q | _, _ => None end.
Definition cadd (a b : cell) : cell := match a, b with Some x, Some y => Some (x + y)%Q | _, _ => None end.
Fixpoint zip_cells (f : cell -> cell -> cell) (a b : list cell) : list cell :=
  match a, b with x :: a', y :: b' => f x y :: zip_cells f a' b' | _, _ => [] end.
Definition add_total (r : frame) (q : string) : frame := set_col r ("total-" ++ q) (sum_cols r (is_quantity_col q)).
Definition add_totals (r : frame) : res frame :=
  let r1 := fold_left add_total quantities r in
  let r2 := set_col r1 "total-spills_mwh" (sum_cols r1 is_spill_total_col) in
  let r3 := set_col r2 "total-electric_loss_mwh" (sum_cols r2 is_loss_col) in
  let! imp := get_col r3 "site-import_power_mwh" in
  let! exp := get_col r3 "site-export_power_mwh" in
  Ok (set_col r3 "site-electricity_balance_mwh" (zip_cells csub imp exp)).

(** ** Schema: results/schema.py.  pandera matches a regex column with re.match (start
    anchored).  Word characters: ascii letters, digits and underscore. *)
Definition is_word (c : ascii) : bool :=
  let n := nat_of_ascii c in
  ((48 <=? n) && (n <=? 57) || (65 <=? n) && (n <=? 90) || (97 <=? n) && (n <=? 122) || (n =? 95))%nat%bool.
Fixpoint word_dash_prefix (q s : string) : bool :=
  match s with
  | EmptyString => false
  | String c s' => is_word c && (starts_with ("-" ++ q) s' || word_dash_prefix q s')
  end.
Definition schema_col (c : string) : bool :=
  (c =? "site-import_power_mwh") || (c =? "site-export_power_mwh")
  || existsb (fun q => word_dash_prefix q c || starts_with ("total-" ++ q) c) quantities.
Definition cell_ge (b : Q) (c : cell) : bool := match c with Some q => Qle_bool b q | None => false end.
(** results/schema.py:11-51, [simulation_schema.validate(results)] *)
Definition validate_schema (r : frame) : res unit :=
  if forallb (fun q => existsb (word_dash_prefix q) (columns r)) quantities
     && existsb (String.eqb "site-import_power_mwh") (columns r)
     && existsb (String.eqb "site-export_power_mwh") (columns r)
     && forallb (fun nc => negb (schema_col (fst nc)) || forallb (cell_ge d_epsilon) (snd nc)) r
  then Ok tt else Err SchemaErr.

(** ** Checks: results/checks.py *)
Definition cell_abs_lt (b : Q) (c : cell) : bool := match c with Some q => Qltb (Qabs q) b | None => false end.
(** checks.py:28-68 *)
Definition check_electricity_balance (r : frame) : res unit :=
  let! imp := get_col r "site-import_power_mwh" in
  let! gen := get_col r "total-electric_generation_mwh" in
  let! exp := get_col r "site-export_power_mwh" in
  let! load := get_col r "total-electric_load_mwh" in
  let! dis := get_col r "total-electric_discharge_mwh" in
  let! cha := get_col r "total-electric_charge_mwh" in
  let! _ := get_col r "total-electric_loss_mwh" in
  let! _ := get_col r "total-spills_mwh" in
  let inp := zip_cells cadd imp gen in
  let out := zip_cells cadd exp load in
  let acc := zip_cells csub dis cha in
  rassert (forallb (cell_abs_lt (1 # 1000)) (zip_cells csub (zip_cells cadd inp acc) out)).
(** checks.py:71-98 and 101-128 *)
Definition check_heat_balance (r : frame) (gen load : string) : res unit :=
  let! inp := get_col r gen in
  let! out := get_col r load in
  rassert (forallb (cell_abs_lt (1 # 10000)) (zip_cells csub inp out)).
Definition cell_eqb (a b : cell) : bool := match a, b with Some x, Some y => Qeq_bool x y | _, _ => false end.
Fixpoint all_zip (f : cell -> cell -> bool) (a b : list cell) : bool :=
  match a, b with x :: a', y :: b' => f x y && all_zip f a' b' | _, _ => true end.
Definition cell_le (b : Q) (c : cell) : bool := match c with Some q => Qle_bool q b | None => false end.
(** checks.py:131-187 (what it returns is in CheckFrames, what it logs in Logging) *)
Definition check_results (r : frame) (check_valve : bool) : res unit :=
  let! _ := check_electricity_balance r in
  let! _ := check_heat_balance r "total-high_temperature_generation_mwh" "total-high_temperature_load_mwh" in
  let! _ := check_heat_balance r "total-low_temperature_generation_mwh" "total-low_temperature_load_mwh" in
  if check_valve then
    let! lt := get_col r "valve-low_temperature_generation_mwh" in
    let! ht := get_col r "valve-high_temperature_load_mwh" in
    check all_zip cell_eqb lt ht ;;
    rassert (forallb (fun nc => negb (starts_with "charger-" (fst nc) && ends_with "-charge_binary" (fst nc)
                                      && negb (contains "spill" (fst nc)))
                                || forallb (cell_le 1) (snd nc)) r)
  else Ok tt.

(** ** Spill warning: results/warnings.py:12-36 *)
Definition is_spill_col (c : string) : bool := contains "spill" c && negb (contains "charge_binary" c).
Definition spill_sum (r : frame) : Q :=
  Qsum (map (fun nc => Qsum (map zero_none (snd nc))) (filter (fun nc => is_spill_col (fst nc)) r)).
Definition warn_spills (r : frame) (fl : flags) : res bool :=
  let spill := Qgtb (spill_sum r) (Qabs d_epsilon) in
  if spill && fail_on_spill_asset_use fl then Err ValueErr else Ok spill.

(** extract.py:24-40 *)
Record sim_result := mkResult {
  r_results : frame; r_feasible : bool; r_spill : bool; r_status : opt_status }.

Definition is_valve (a : asset) : bool := match a with AValve _ => true | _ => false end.

(** extract.py:341-434 *)
Definition extract_results (vals : values) (d : idata Q) (assets : list asset) (iv : interval_vars)
    (st : opt_status) (fl : flags) : res sim_result :=
  let! rows := rmap (extract_row vals d (map asset_name assets) iv) (seq 0 (id_n d)) in
  let lp := fold_left append_row rows [] in
  let! _ := check_array_lengths lp in
  let! r := add_totals lp in
  let! _ := (if st_feasible st then
               let! _ := validate_schema r in
               check_results r (existsb is_valve assets)
             else Ok tt) in
  let! spill := warn_spills r fl in
  Ok (mkResult r (st_feasible st) spill st).
