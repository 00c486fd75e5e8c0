(** * DataGen: energypylinear/data_generation.py *)
From Verif Require Import Base.
Open Scope Q_scope.

(** Numpy's global random state is an unknown source of numbers. For each use, the k-th number drawn by one call; [normal]:
    a standard normal sample, [uniform]: a sample of [0, 1).  [seed] fixes the source. *)
Record draws := mkDraws {
  dr_price : nat -> Q; dr_intensity : nat -> Q; dr_power : nat -> Z -> Z -> Z;
  dr_length : nat -> Z -> Z -> Z; dr_start : nat -> Z -> Z -> Z;
  dr_normal : nat -> Q; dr_uniform : nat -> Q }.

Record ev_data := mkEvData {
  gd_electricity_prices : list Q; gd_electricity_carbon_intensities : list Q; gd_chargers_power_mw : list Q;
  gd_charge_events_capacity_mwh : list Q; gd_charge_events : list (list Q) }.

(** [np.random.normal(mu, std, n)]: a negative deviation or size is a ValueError *)
Definition np_normal (z : nat -> Q) (mu std : Q) (n : Z) : res (list Q) :=
  if Qltb std 0 then Err ValueErr
  else if (n <? 0)%Z then Err ValueErr
  else Ok (map (fun k => mu + std * z k) (seq 0 (Z.to_nat n))).
(** [np.random.uniform(low, high, n)] *)
Definition np_uniform (u : nat -> Q) (low high : Q) (n : Z) : res (list Q) :=
  if (n <? 0)%Z then Err ValueErr else Ok (map (fun k => low + (high - low) * u k) (seq 0 (Z.to_nat n))).
(** [np.random.randint(low, high)]: ValueError when there is no integer in [low, high) *)
Definition np_randint (d : nat -> Z -> Z -> Z) (k : nat) (low high : Z) : res Z :=
  if (low <? high)%Z then Ok (d k low high) else Err ValueErr.
(** [np.random.randint(low, high, n)] *)
Definition np_randints (d : nat -> Z -> Z -> Z) (low high n : Z) : res (list Z) :=
  if (n <? 0)%Z then Err ValueErr else rmap (fun k => np_randint d k low high) (seq 0 (Z.to_nat n)).

(** data_generation.py:34-37: one row of the matrix; a slice past the end is cut *)
Definition event_row (r : draws) (idx_length charge_length : Z) (step : nat) : res (list Q) :=
  let! length := np_randint (dr_length r) step 1 charge_length in
  let! start := np_randint (dr_start r) step 0 (idx_length - length - 1) in
  Ok (map (fun i => if ((start <=? Z.of_nat i) && (Z.of_nat i <? start + length))%Z%bool then 1 else 0)
          (seq 0 (Z.to_nat idx_length))).

(** data_generation.py:5-48. [np.zeros] of a negative shape is a ValueError too. *)
Definition generate_random_ev_input_data (r : draws) (idx_length n_chargers charge_length : Z) (normal_mu normal_std uniform_min uniform_max : Q)
    (n_charge_events : Z) (prices_mu prices_std intensity_mu intensity_std : Q) : res ev_data :=
  let! electricity_prices := np_normal (dr_price r) prices_mu prices_std idx_length in
  let! electricity_carbon_intensities := np_normal (dr_intensity r) intensity_mu intensity_std idx_length in
  let! charger_mws := np_randints (dr_power r) 10 100 n_chargers in
  if (n_charge_events <? 0)%Z then Err ValueErr else
  let charge_length := Z.min (idx_length - 2) charge_length in
  let! charge_events := rmap (event_row r idx_length charge_length) (seq 0 (Z.to_nat n_charge_events)) in
  let! a := np_normal (dr_normal r) normal_mu normal_std n_charge_events in
  let! b := np_uniform (dr_uniform r) uniform_min uniform_max n_charge_events in
  let charge_event_mwh := map (fun xy => Qmax (fst xy + snd xy) 0) (combine a b) in
  Ok (mkEvData electricity_prices electricity_carbon_intensities (map inject_Z charger_mws) charge_event_mwh charge_events).
