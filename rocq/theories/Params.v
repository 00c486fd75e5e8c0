(** * Params: freq.py, flags.py, defaults.py, utils.py *)
From Verif Require Import Base.
Open Scope Q_scope.

(** energypylinear/freq.py:4-23.  [Freq(mins)]; mins is an int. *)
Definition freq := Z.
(** energypylinear/freq.py:11-13 *)
Definition mw_to_mwh (f : freq) (mw : Q) : Q := mw * inject_Z f / 60.
(** energypylinear/freq.py:15-17; Python raises ZeroDivisionError for mins = 0 *)
Definition mwh_to_mw (f : freq) (mwh : Q) : res Q :=
  if (f =? 0)%Z then Err ZeroDivErr else Ok (mwh * 60 / inject_Z f).

(** energypylinear/flags.py:5-14 *)
Record flags := mkFlags {
  fail_on_spill_asset_use : bool;
  allow_infeasible : bool;
  allow_evs_discharge : bool;
  limit_charge_variables_to_valid_events : bool
}.
Definition default_flags := mkFlags false false false false.

(** energypylinear/defaults.py:5-38 *)
Definition d_electricity_prices : Q := 100.
Definition d_export_electricity_prices : Q := 100.
Definition d_electricity_carbon_intensities : Q := 1 # 10.
Definition d_gas_prices : Q := 20.
Definition d_freq_mins : Z := 60%Z.
Definition d_high_temperature_load_mwh : Q := 0.
Definition d_low_temperature_load_mwh : Q := 0.
Definition d_low_temperature_generation_mwh : Q := 0.
Definition d_electric_load_mwh : Q := 0.
Definition d_spill_objective_penalty : Q := inject_Z 100000000000.   (* 1e11 *)
Definition d_boiler_efficiency_pct : Q := 8 # 10.
Definition d_boiler_high_temperature_generation_max_mw : Q := inject_Z 10000.
Definition d_gas_carbon_intensity : Q := 185 # 1000.
Definition d_spill_charge_max_mw : Q := inject_Z 10000.
Definition d_epsilon : Q := - (1 # 10000).                            (* -1e-4 *)

(** energypylinear/utils.py:5-8: [repeat_to_match_length(a, b)], only len(b) matters.
    np.tile(a, q) followed by a[:remainder]; divmod by len(a) = 0 raises. *)
Fixpoint tile {A} (a : list A) (q : nat) : list A :=
  match q with O => [] | S q' => a ++ tile a q' end.
Definition repeat_to_match_length {A} (a : list A) (n : nat) : res (list A) :=
  match a with
  | [] => Err ZeroDivErr
  | _ => Ok (tile a (Nat.div n (List.length a)) ++ firstn (Nat.modulo n (List.length a)) a)
  end.

(** energypylinear/utils.py:11-26: [len(set(lens)) == 1]: at least one column, all of one length. *)
Definition check_array_lengths {A} (results : list (string * list A)) : res unit :=
  match results with
  | [] => Err AssertionErr
  | (_, c) :: r =>
      if forallb (fun kv => Nat.eqb (List.length (snd kv)) (List.length c)) r
      then Ok tt else Err AssertionErr
  end.
