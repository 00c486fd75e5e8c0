(** * IntervalData: the Site constructor (assets/site.py:20-158, 329-402) *)
From Verif Require Import Base Pulp Params Optimizer Types.
Open Scope Q_scope.
Open Scope string_scope.

(** Floats of the interval data: a number or not-a-number. *)
Inductive pynum := Num (q : Q) | NaN.
(** np.isnan *)
Definition is_nan (x : pynum) : bool := match x with NaN => true | Num _ => false end.

(** An argument [np.ndarray | list[float] | float | None]; arrays are one dimensional. *)
Inductive field := Missing | Scalar (x : pynum) | Series (l : list pynum).

(** The interval data arguments of [Site] (site.py:336-351). *)
Record site_input := mkInput {
  in_electricity_prices : field;
  in_export_electricity_prices : field;
  in_electricity_carbon_intensities : field;
  in_gas_prices : field;
  in_electric_load_mwh : field;
  in_high_temperature_load_mwh : field;
  in_low_temperature_load_mwh : field;
  in_low_temperature_generation_mwh : field }.
Definition no_input : site_input := mkInput Missing Missing Missing Missing Missing Missing Missing Missing.

(** pydantic turns AssertionError and ValueError raised by a validator into ValidationError *)
Definition pyd {A} (m : res A) : res A :=
  match m with
  | Err AssertionErr | Err ValueErr => Err ValidationErr
  | _ => m
  end.

(** site.py:136-156: one round of the loop over the remaining fields *)
Definition fill (default : Q) (n : nat) (f : field) : res (list pynum) :=
  let! l := match f with
            | Scalar x => Ok (repeat x n)
            | Missing => Ok (repeat (Num default) n)
            | Series l => check Nat.eqb (List.length l) n ;; Ok l
            end in
  check negb (existsb is_nan l) ;; Ok l.

(** site.py:110-134: the field that fixes the number of intervals; it must be a list or an array *)
Definition anchor (f : field) : res (list pynum) :=
  match f with Series l => Ok l | _ => Err AssertionErr end.

(** site.py:107-158 [validate_all_things] *)
Definition validate_all_things (i : site_input) : res (idata pynum) :=
  match in_electricity_prices i, in_electricity_carbon_intensities i with
  | Missing, Missing => Err ValueErr
  | Missing, _ =>
      let! carbon := anchor (in_electricity_carbon_intensities i) in
      let n := List.length carbon in
      let! prices := fill d_electricity_prices n (in_electricity_prices i) in
      let! export := fill d_export_electricity_prices n (in_export_electricity_prices i) in
      let! gas := fill d_gas_prices n (in_gas_prices i) in
      let! eload := fill d_electric_load_mwh n (in_electric_load_mwh i) in
      let! htload := fill d_high_temperature_load_mwh n (in_high_temperature_load_mwh i) in
      let! ltload := fill d_low_temperature_load_mwh n (in_low_temperature_load_mwh i) in
      let! ltgen := fill d_low_temperature_generation_mwh n (in_low_temperature_generation_mwh i) in
      Ok (mkIdata prices export carbon gas eload htload ltload ltgen n [])
  | _, _ =>
      let! prices := anchor (in_electricity_prices i) in
      let n := List.length prices in
      let! export := match in_export_electricity_prices i with
                     | Missing => Ok prices                                   (* site.py:116-118, not looked at again *)
                     | f => fill d_export_electricity_prices n f
                     end in
      let! carbon := fill d_electricity_carbon_intensities n (in_electricity_carbon_intensities i) in
      let! gas := fill d_gas_prices n (in_gas_prices i) in
      let! eload := fill d_electric_load_mwh n (in_electric_load_mwh i) in
      let! htload := fill d_high_temperature_load_mwh n (in_high_temperature_load_mwh i) in
      let! ltload := fill d_low_temperature_load_mwh n (in_low_temperature_load_mwh i) in
      let! ltgen := fill d_low_temperature_generation_mwh n (in_low_temperature_generation_mwh i) in
      Ok (mkIdata prices export carbon gas eload htload ltload ltgen n [])
  end.

(** site.py:92-158 [SiteIntervalData(...)] *)
Definition site_interval_data (i : site_input) : res (idata pynum) := pyd (validate_all_things i).

(** Extra keyword arguments (site.py:20-41, 71-86).  A sequence of numbers becomes custom interval data; nested
    sequences of equal lengths, scalars, strings and None are ignored; ragged nested lists make np.array raise. *)
Inductive kwarg := KwSeq (l : list pynum) | KwIgnored | KwRagged.

(** site.py:71-86.  Names are Python identifiers that are not arguments of [Site]. An "idx" argument would replace the
    index of the site: not modelled. *)
Fixpoint custom_data (n : nat) (kw : list (string * kwarg)) : res (list (string * list pynum)) :=
  match kw with
  | [] => Ok []
  | (name, KwSeq l) :: kw' =>
      if name =? "idx" then Err Unmodelled
      else let! l' := repeat_to_match_length l n in
           let! rest := custom_data n kw' in
           Ok ((name, l') :: rest)
  | (_, KwIgnored) :: kw' => custom_data n kw'
  | (_, KwRagged) :: _ => Err ValueErr
  end.

(** site.py:53-69: only renewable generators have interval data of their own. Their data is repeated or cut to the number
    of intervals of the site, unless it already has that length; np.tile returns an array. *)
Definition fit_asset (n : nat) (a : asset) : res asset :=
  match a with
  | ARenewable c =>
      if Nat.eqb (List.length (rg_available_mwh c)) n then Ok a
      else let! l := repeat_to_match_length (rg_available_mwh c) n in
           Ok (ARenewable (mkRgCfg (rg_name c) (rg_lower_pct c) l true))
  | _ => Ok a
  end.

(** site.py:88-91: the closing assertion *)
Definition fitted (n : nat) (a : asset) : bool :=
  match a with ARenewable c => Nat.eqb (List.length (rg_available_mwh c)) n | _ => true end.

Definition with_custom {A} (d : idata A) (custom : list (string * list A)) : idata A :=
  mkIdata (id_electricity_prices d) (id_export_electricity_prices d) (id_electricity_carbon_intensities d) (id_gas_prices d)
    (id_electric_load_mwh d) (id_high_temperature_load_mwh d) (id_low_temperature_load_mwh d)
    (id_low_temperature_generation_mwh d) (id_n d) custom.

(** site.py:44-91 [validate_interval_data] *)
Definition validate_interval_data (assets : list asset) (d : idata pynum) (kw : list (string * kwarg))
  : res (idata pynum * list asset) :=
  let! assets' := rmap (fit_asset (id_n d)) assets in
  let! custom := custom_data (id_n d) kw in
  check forallb (fitted (id_n d)) assets' ;;
  Ok (with_custom d custom, assets').

(** site.py:336-402 [Site.__init__]: the interval data of the new site, and the assets after the call (the constructor
    changes the asset objects it is given).  freq_mins and the two limits are stored unchanged. *)
Definition site_init (assets : list asset) (i : site_input) (kw : list (string * kwarg)) : res (idata pynum * list asset) :=
  let! d := site_interval_data i in
  validate_interval_data assets d kw.

(** ** Data without not-a-number, as used by the linear program *)
Definition num_of (x : pynum) : option Q := match x with Num q => Some q | NaN => None end.
Fixpoint all_some {A} (l : list (option A)) : option (list A) :=
  match l with
  | [] => Some []
  | Some x :: r => match all_some r with Some r' => Some (x :: r') | None => None end
  | None :: _ => None
  end.
Definition numbers (l : list pynum) : option (list Q) := all_some (map num_of l).
Definition obind {A B} (o : option A) (f : A -> option B) : option B := match o with Some x => f x | None => None end.
(** The interval data with plain numbers, when there is no NaN. *)
Definition data_numbers (d : idata pynum) : option (idata Q) :=
  obind (numbers (id_electricity_prices d)) (fun p =>
  obind (numbers (id_export_electricity_prices d)) (fun e =>
  obind (numbers (id_electricity_carbon_intensities d)) (fun c =>
  obind (numbers (id_gas_prices d)) (fun g =>
  obind (numbers (id_electric_load_mwh d)) (fun l =>
  obind (numbers (id_high_temperature_load_mwh d)) (fun h =>
  obind (numbers (id_low_temperature_load_mwh d)) (fun lt =>
  obind (numbers (id_low_temperature_generation_mwh d)) (fun lg =>
  obind (all_some (map (fun col => obind (numbers (snd col)) (fun l => Some (fst col, l))) (id_custom d))) (fun cu =>
  Some (mkIdata p e c g l h lt lg (id_n d) cu)))))))))).
