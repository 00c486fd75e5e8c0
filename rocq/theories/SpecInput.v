(** * SpecInput: what arguments mean (interval data and asset constructors) *)
From Verif Require Import Base Pulp Params Optimizer Types IntervalData.
Open Scope Q_scope.
Open Scope string_scope.

(** the word [w] occurs in [name] *)
Definition mentions (w name : string) : Prop := exists before after, name = before ++ w ++ after.

(** what an argument says about interval [t] when [default] is used for a missing argument *)
Definition says (default : Q) (f : field) (t : nat) : pynum :=
  match f with Missing => Num default | Scalar x => x | Series l => nth t l NaN end.
(** arguments that can be used for a site with [n] intervals *)
Definition usable (n : nat) (f : field) : Prop :=
  match f with
  | Missing => True
  | Scalar x => n = 0%nat \/ x <> NaN
  | Series l => List.length l = n /\ ~ In NaN l
  end.
(** a column that has exactly the numbers the argument says *)
Definition holds_what (default : Q) (f : field) (n : nat) (col : list pynum) : Prop :=
  List.length col = n /\ forall t, (t < n)%nat -> nth t col NaN = says default f t.
Definition loads_usable (n : nat) (i : site_input) : Prop :=
  usable n (in_gas_prices i) /\ usable n (in_electric_load_mwh i) /\ usable n (in_high_temperature_load_mwh i) /\
  usable n (in_low_temperature_load_mwh i) /\ usable n (in_low_temperature_generation_mwh i).
(** The arguments a site accepts: a series of prices, or without prices a series of carbon intensities, fixes the number of
    intervals; nothing is asked of its numbers. *)
Definition acceptable (i : site_input) : Prop :=
  (exists l, in_electricity_prices i = Series l /\ usable (List.length l) (in_export_electricity_prices i) /\
     usable (List.length l) (in_electricity_carbon_intensities i) /\ loads_usable (List.length l) i) \/
  (in_electricity_prices i = Missing /\ exists l, in_electricity_carbon_intensities i = Series l /\
     usable (List.length l) (in_export_electricity_prices i) /\ loads_usable (List.length l) i).
(** The interval data of the site. *)
Definition contents (i : site_input) (d : idata pynum) : Prop :=
  let n := id_n d in
  match in_electricity_prices i with
  | Missing => exists l, in_electricity_carbon_intensities i = Series l /\ n = List.length l
  | Series l => n = List.length l
  | Scalar _ => False
  end /\
  holds_what 100 (in_electricity_prices i) n (id_electricity_prices d) /\
  holds_what 100 (match in_export_electricity_prices i with Missing => in_electricity_prices i | f => f end) n (id_export_electricity_prices d) /\
  holds_what (1 # 10) (in_electricity_carbon_intensities i) n (id_electricity_carbon_intensities d) /\
  holds_what 20 (in_gas_prices i) n (id_gas_prices d) /\
  holds_what 0 (in_electric_load_mwh i) n (id_electric_load_mwh d) /\
  holds_what 0 (in_high_temperature_load_mwh i) n (id_high_temperature_load_mwh d) /\
  holds_what 0 (in_low_temperature_load_mwh i) n (id_low_temperature_load_mwh d) /\
  holds_what 0 (in_low_temperature_generation_mwh i) n (id_low_temperature_generation_mwh d).

(** the sequence [l] repeated again and again, cut after [n] numbers *)
Definition repeats {A} (l : list A) (n : nat) (col : list A) : Prop :=
  List.length col = n /\ forall t, (t < n)%nat -> nth_error col t = nth_error l (t mod List.length l).
(** the custom columns: every keyword argument that is a sequence, in the order given *)
Definition sequences (kw : list (string * kwarg)) : list (string * list pynum) :=
  flat_map (fun nk => match snd nk with KwSeq l => [(fst nk, l)] | _ => [] end) kw.
(** the asset after it became part of a site with [n] intervals *)
Definition fits (n : nat) (a a' : asset) : Prop :=
  match a with
  | ARenewable c => exists c', a' = ARenewable c' /\ rg_name c' = rg_name c /\ rg_lower_pct c' = rg_lower_pct c /\
      repeats (rg_available_mwh c) n (rg_available_mwh c')
  | _ => a' = a
  end.
