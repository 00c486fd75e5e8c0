(** * CheckFrames: what [epl.check_results] returns (results/checks.py) and the mapper it is given (results/extract.py:301-330)

    Extract.check_results is the same function with what it returns left out. *)
From Verif Require Import Base Pulp Params Types Extract.
Open Scope Q_scope.
Open Scope string_scope.

(** A frame a check returns: its columns and its column "balance", which holds booleans.  In the code "balance" stands
    among the others; here it is apart, so a mapper that names a column "balance" is not modelled. *)
Record check_frame := mkCheckFrame { cf_columns : frame; cf_balance : list bool }.
(** [debug[new] = simulation[old]] for every pair *)
Definition copy_cols (r : frame) (pairs : list (string * string)) (start : frame) : res frame :=
  fold_left (fun acc no => let! f := acc in let! cells := get_col r (snd no) in Ok (set_col f (fst no) cells)) pairs (Ok start).
(** checks.py:37, [simulation[[c for c in simulation.columns if "final_soc" in c]].sum(axis=1)] *)
Definition is_soc_col (c : string) : bool := contains "final_soc" c.

(** checks.py:26-68.  The aggregates that are logged are in Logging. *)
Definition electricity_frame (r : frame) : res check_frame :=
  let! imp := get_col r "site-import_power_mwh" in
  let! gen := get_col r "total-electric_generation_mwh" in
  let! exp := get_col r "site-export_power_mwh" in
  let! load := get_col r "total-electric_load_mwh" in
  let! dis := get_col r "total-electric_discharge_mwh" in
  let! cha := get_col r "total-electric_charge_mwh" in
  let inp := zip_cells cadd imp gen in
  let out := zip_cells cadd exp load in
  let acc := zip_cells csub dis cha in
  let balance := map (cell_abs_lt (1 # 1000)) (zip_cells csub (zip_cells cadd inp acc) out) in
  let soc := sum_cols r is_soc_col in
  let! loss := get_col r "total-electric_loss_mwh" in
  let! spills := get_col r "total-spills_mwh" in
  check forallb (fun b => b) balance ;;
  Ok (mkCheckFrame
        [("input", inp); ("accumulation", acc); ("output", out); ("import", imp); ("generation", gen); ("export", exp);
         ("load", load); ("charge", cha); ("discharge", dis); ("loss", loss); ("spills", spills); ("soc", soc)] balance).

(** [total_mapper]: for each quantity the columns its total is the sum of; the empty one is also [None] *)
Definition mapper := list (string * list string).
(** checks.py:71-98 (and 101-122 with the low temperature columns); [q] is "high" or "low" *)
Definition heat_frame (r : frame) (m : mapper) (q : string) : res check_frame :=
  let generation := q ++ "_temperature_generation_mwh" in
  let load := q ++ "_temperature_load_mwh" in
  let! inp := get_col r ("total-" ++ generation) in
  let! out := get_col r ("total-" ++ load) in
  let balance := map (cell_abs_lt (1 # 10000)) (zip_cells csub inp out) in
  let start := [("in", inp); ("out", out)] in
  let! cols :=
    (match m with
     | [] => Ok start
     | _ => let! g := of_option KeyErr (assoc generation m) in
            let! f := copy_cols r (map (fun c => (c, c)) g) start in
            let! l := of_option KeyErr (assoc load m) in
            copy_cols r (map (fun c => (c, c)) l) f
     end) in
  check forallb (fun b => b) balance ;;
  Ok (mkCheckFrame cols balance).

(** checks.py:125-190: "electricity-balance", "high-temperature-heat-balance", "low-temperature-heat-balance".
    [verbose] only sets the log level (Logging); [check_evs] is not read by the code. *)
Record checked_frames := mkChecked { ck_electricity : check_frame; ck_high : check_frame; ck_low : check_frame }.
Definition check_results_frames (r : frame) (m : mapper) (check_valve : bool) : res checked_frames :=
  let! e := electricity_frame r in
  let! h := heat_frame r m "high" in
  let! l := heat_frame r m "low" in
  let! _ :=
    (if check_valve then
       let! lt := get_col r "valve-low_temperature_generation_mwh" in
       let! ht := get_col r "valve-high_temperature_load_mwh" in
       check all_zip cell_eqb lt ht ;;
       rassert (forallb (fun nc => negb (starts_with "charger-" (fst nc) && ends_with "-charge_binary" (fst nc)
                                         && negb (contains "spill" (fst nc)))
                                   || forallb (cell_le 1) (snd nc)) r)
     else Ok tt) in
  Ok (mkChecked e h l).

(** extract.py:301-330: the mapper [add_totals] returns, filled while the totals are added *)
Definition mapper_step (rm : frame * mapper) (q : string) : frame * mapper :=
  (add_total (fst rm) q, (snd rm ++ [(q, filter (is_quantity_col q) (columns (fst rm)))])%list).
Definition total_mapper (r : frame) : mapper :=
  let rm := fold_left mapper_step quantities (r, []) in
  let r1 := fst rm in
  let r2 := set_col r1 "total-spills_mwh" (sum_cols r1 is_spill_total_col) in
  (snd rm ++ [("spills", filter is_spill_total_col (columns r1)); ("losses", filter is_loss_col (columns r2))])%list.
