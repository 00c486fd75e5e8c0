(** * Plot: energypylinear/plot.py and energypylinear/debug.py, as far as they read and change the results table

    The plot functions write helper columns into the results table they are given, and one of them rounds columns in place, so
    they are functions from a table to the table afterwards and an outcome: the table is changed up to the statement that raises.
    Drawing (matplotlib, seaborn: the colours, the size and content of the figures, writing the file) is not modelled. *)
From Coq Require Import Qround.
From Verif Require Import Base Params Types Extract.
Open Scope Q_scope.
Open Scope string_scope.

Definition plotting (A : Type) : Type := frame -> frame * res A.
Definition pret {A} (a : A) : plotting A := fun r => (r, Ok a).
Definition pbind {A B} (m : plotting A) (f : A -> plotting B) : plotting B :=
  fun r => match m r with (r', Ok a) => f a r' | (r', Err e) => (r', Err e) end.
Notation "x <~ m ;; f" := (pbind m (fun x => f)) (at level 61, m at next level, right associativity).
(** [results[name]] *)
Definition look (n : string) : plotting (list cell) := fun r => (r, get_col r n).
(** [results[name] = column] *)
Definition put (n : string) (col : list cell) : plotting unit := fun r => (set_col r n col, Ok tt).
(** [results.plot(x="Index", y=name)]: both columns are needed *)
Definition draw (x y : string) : plotting unit := _ <~ look x ;; _ <~ look y ;; pret tt.
Definition praise {A} (e : pyerr) : plotting A := fun r => (r, Err e).
(** [np.arange(results.shape[0]).tolist()] *)
Definition row_numbers (r : frame) : list cell := map (fun k => Some (inject_Z (Z.of_nat k))) (seq 0 (n_rows r)).
Definition number_rows (n : string) : plotting unit := fun r => put n (row_numbers r) r.

(** plot.py:15-21 [find_column] *)
Definition find_column (start stop : string) : plotting string := fun r =>
  match filter (fun c => starts_with start c && ends_with stop c) (columns r) with
  | [c] => (r, Ok c)
  | _ => (r, Err AssertionErr)
  end.
(** [results[a] - results[b]] *)
Definition difference (a b : string) : plotting (list cell) := x <~ look a ;; y <~ look b ;; pret (zip_cells csub x y).

(** plot.py:24-92 [plot_battery]; the name of a site is "site" (assets/site.py:151) *)
Definition plot_battery : plotting unit :=
  _ <~ number_rows "Index" ;;
  b <~ difference "site-import_power_mwh" "site-export_power_mwh" ;;
  _ <~ put "import-export-balance" b ;;
  _ <~ draw "Index" "import-export-balance" ;;
  c <~ find_column "battery-" "-electric_charge_mwh" ;;
  c <~ look c ;;
  d <~ find_column "battery-" "-electric_discharge_mwh" ;;
  d <~ look d ;;
  _ <~ put "net-battery-charge" (zip_cells csub c d) ;;
  _ <~ draw "Index" "net-battery-charge" ;;
  _ <~ draw "Index" "battery-electric_final_charge_mwh" ;;
  _ <~ draw "Index" "site-electricity_prices" ;;
  draw "Index" "site-electricity_carbon_intensities".

(** plot.py:95-254 [plot_evs]: the columns that are read; [simulation.assets] is searched for the asset *)
Definition charger_column (stop c : string) : bool := contains "charger-" c && ends_with stop c.
Definition event_column (stop c : string) : bool := contains "charge-event-" c && ends_with stop c.
Definition count_columns (p : string -> bool) (r : frame) : nat := List.length (filter p (columns r)).
(** numpy subtracts tables of the same shape, or of one column (which is repeated) *)
Definition fitting (a b : nat) : bool := (Nat.eqb a b || Nat.eqb a 1 || Nat.eqb b 1)%bool.
Definition nothing (ab : nat * nat) : bool := (Nat.eqb (fst ab) 0 || Nat.eqb (snd ab) 0)%bool.
Definition plot_evs (assets : list asset) (name : string) : plotting unit := fun r =>
  let usage := (count_columns (charger_column "-electric_charge_mwh") r, count_columns (charger_column "-electric_discharge_mwh") r) in
  let events := (count_columns (event_column "electric_charge_mwh") r, count_columns (event_column "electric_discharge_mwh") r) in
  if negb (fitting (fst usage) (snd usage) && fitting (fst events) (snd events)) then praise ValueErr r
  else if Nat.eqb (n_rows r) 0 || (nothing usage && nothing events) then praise ValueErr r   (* np.min of nothing *)
  else match filter (fun a => asset_name a =? name) assets with
       | [a] => (_ <~ look (name ++ "-charger-spill-evs-electric_charge_mwh") ;; _ <~ look "site-electricity_prices" ;; pret tt) r
       | _ => praise AssertionErr r
       end.

(** plot.py:257-303 [plot_chp] *)
Definition plot_chp : plotting unit :=
  _ <~ number_rows "Index" ;;
  b <~ difference "site-import_power_mwh" "site-export_power_mwh" ;;
  _ <~ put "import-export-balance" b ;;
  _ <~ draw "Index" "import-export-balance" ;;
  _ <~ draw "Index" "boiler-high_temperature_generation_mwh" ;;
  _ <~ draw "Index" "spill-low_temperature_load_mwh" ;;
  _ <~ draw "Index" "site-electricity_prices" ;;
  draw "Index" "site-electricity_carbon_intensities".

(** [Series.round(4)]: to the nearest multiple of 0.0001, halves to the even one *)
Definition nearest (q : Q) : Z :=
  let f := Qfloor q in
  let d := q - inject_Z f in
  if Qltb d (1 # 2) then f else if Qltb (1 # 2) d then (f + 1)%Z else if Z.even f then f else (f + 1)%Z.
Definition round4 (q : Q) : Q := inject_Z (nearest (q * 10000)) / 10000.
Definition round_column (n : string) : plotting unit := c <~ look n ;; put n (map (option_map round4) c).
Fixpoint each (f : string -> plotting unit) (l : list string) : plotting unit :=
  match l with [] => pret tt | x :: l => _ <~ f x ;; each f l end.
(** plot.py:306-377 [plot_heat_pump] *)
Definition heat_columns_out (name : string) : list string :=
  ["spill-low_temperature_load_mwh"; "site-low_temperature_load_mwh"; name ++ "-low_temperature_load_mwh"].
Definition heat_columns_in : list string :=
  ["site-low_temperature_generation_mwh"; "spill-low_temperature_generation_mwh"; "valve-low_temperature_generation_mwh"].
Definition plot_heat_pump (name : string) : plotting unit :=
  _ <~ number_rows "index" ;;
  _ <~ draw "index" "site-high_temperature_load_mwh" ;;
  _ <~ draw "index" (name ++ "-high_temperature_generation_mwh") ;;
  _ <~ each round_column (heat_columns_out name) ;;
  _ <~ each round_column heat_columns_in ;;
  _ <~ draw "index" "site-electricity_prices" ;;
  draw "index" "site-electricity_carbon_intensities".

(** the [plot] methods of the assets: assets/battery.py:385-395, evs.py:826-828 (with the assets of the simulation and the asset's
    name), chp.py:234-236, heat_pump.py:213-217 *)
Inductive plot_call : Type :=
  | PlotBattery
  | PlotEvs (assets : list asset) (name : string)
  | PlotChp
  | PlotHeatPump (name : string).
Definition plot (p : plot_call) : plotting unit :=
  match p with
  | PlotBattery => plot_battery
  | PlotEvs assets name => plot_evs assets name
  | PlotChp => plot_chp
  | PlotHeatPump name => plot_heat_pump name
  end.

(** debug.py:22-39 [debug_simulation]: prints; three columns must exist.  [_debug_column] (debug.py:12-19) never raises. *)
Definition debug_simulation (r : frame) : res unit :=
  let! _ := get_col r "site-import_power_mwh" in
  let! _ := get_col r "site-export_power_mwh" in
  let! _ := get_col r "site-electricity_carbon_intensities" in Ok tt.
(** debug.py:42-46 [debug_balances] *)
Definition debug_balances (r : frame) : res unit :=
  let! _ := check_electricity_balance r in
  let! _ := check_heat_balance r "total-high_temperature_generation_mwh" "total-high_temperature_load_mwh" in
  check_heat_balance r "total-low_temperature_generation_mwh" "total-low_temperature_load_mwh".
(** debug.py:48-52 [debug_asset] *)
Definition debug_asset (r : frame) (name : string) : frame := filter (fun nc => contains name (fst nc)) r.
