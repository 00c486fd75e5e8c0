(** * Accounting: energypylinear/accounting/accounting.py
    A missing or None cell is a NaN: arithmetic with it gives NaN, and the pandas [.sum()] skips it. *)
From Verif Require Import Base Params Types Constraints Objectives Extract Terms.
Open Scope Q_scope.
Open Scope string_scope.

(** accounting.py:18-50 *)
Record account := mkAccount { ac_cost : Q; ac_emissions : Q }.
(** accounting.py:53-69 *)
Record electricity_account := mkElec {
  el_import_cost : Q; el_export_cost : Q; el_cost : Q; el_import_emissions : Q; el_export_emissions : Q; el_emissions : Q }.
(** accounting.py:84-101 *)
Record accounts := mkAccounts {
  as_electricity : electricity_account; as_gas : account; as_custom : account; as_cost : Q; as_profit : Q; as_emissions : Q }.
(** accounting.py:32-50 [Account.__sub__]: every kind of account is an Account, and the difference is a plain one.
    Subtracting something else (NotImplementedError) is not modelled. *)
Definition of_electricity (a : electricity_account) : account := mkAccount (el_cost a) (el_emissions a).
Definition of_accounts (a : accounts) : account := mkAccount (as_cost a) (as_emissions a).
Definition account_sub (a b : account) : account := mkAccount (ac_cost a - ac_cost b) (ac_emissions a - ac_emissions b).

Definition cmul (a b : cell) : cell := match a, b with Some x, Some y => Some (x * y) | _, _ => None end.
(** [column.sum()] *)
Definition col_sum (l : list cell) : Q := Qsum (map zero_none l).
(** [(a * b).sum()] of two columns: rows without a partner are NaN *)
Definition dot (a b : list cell) : Q := col_sum (zip_cells cmul a b).

(** accounting.py:104-121 *)
Definition get_one_gas_account (results price_results : frame) : res account :=
  let! p := get_col price_results "site-gas_prices" in
  let! g := get_col results "total-gas_consumption_mwh" in
  Ok (mkAccount (dot p g) (col_sum (map (cmul (Some d_gas_carbon_intensity)) g))).
(** accounting.py:124-152: exported electricity is valued at the import price *)
Definition get_one_electricity_account (results price_results : frame) : res electricity_account :=
  let! p := get_col price_results "site-electricity_prices" in
  let! i := get_col results "site-import_power_mwh" in
  let import_cost := dot p i in
  let! e := get_col results "site-export_power_mwh" in
  let export_cost := - dot p e in
  let! c := get_col price_results "site-electricity_carbon_intensities" in
  let import_emissions := dot c i in
  let export_emissions := - dot c e in
  Ok (mkElec import_cost export_cost (import_cost + export_cost) import_emissions export_emissions (import_emissions + export_emissions)).

(** ** Columns picked by a term *)
(** accounting.py:231-233 *)
Definition find_all_assets_with_variable (r : frame) (t : term) : frame :=
  filter (fun nc => ends_with (t_variable t) (fst nc)) r.
(** ["-".join(col.split("-")[:-1])]: what is before the last "-", nothing if there is none *)
Fixpoint before_last_dash (s : string) : option string :=
  match s with
  | EmptyString => None
  | String c s' =>
      match before_last_dash s' with
      | Some p => Some (String c p)
      | None => if Ascii.eqb c "-" then Some "" else None
      end
  end.
Definition type_part (s : string) : string := match before_last_dash s with Some p => p | None => "" end.
(** accounting.py:236-261; only called with an asset type *)
Definition find_asset_type_with_variables (r : frame) (t : term) (asset_type : string) : frame :=
  let type_ids := if asset_type =? "renewable-generator" then ["solar"; "wind"; "renewable-generator"] else [asset_type] in
  filter (fun nc => ends_with (t_variable t) (fst nc) && existsb (String.eqb (type_part (fst nc))) type_ids) r.
(** accounting.py:264-272; a missing name is printed as "None" *)
Definition find_asset_by_name (r : frame) (t : term) : frame :=
  let name := match t_asset_name t with Some n => n | None => "None" end in
  filter (fun nc => ends_with (t_variable t) (fst nc) && starts_with (name ++ "-") (fst nc)) r.

(** ** accounting.py:155-178 *)
Definition by_type_only (t : term) : bool :=
  match t_asset_type t with
  | Some ty => (ty =? "*") || match t_asset_name t with None => true | Some _ => false end
  | None => false
  end.
Definition simple_columns (r : frame) (t : term) : frame :=
  if by_type_only t then find_all_assets_with_variable r t else find_asset_by_name r t.
Definition simple_cost (r : frame) (t : term) : res Q :=
  let vs := simple_columns r t in
  let! factor := match t_interval_data t with
                 | Some n => get_col r ("site-" ++ n)
                 | None => Ok (repeat (Some 1) (n_rows r))
                 end in
  Ok (Qsum (map (fun nc => col_sum (map (fun x => cmul x (Some (t_coefficient t))) (zip_cells cmul (snd nc) factor))) vs)).
Definition one_simple (r : frame) (t : one_term) : res Q :=
  if one_term_type t =? "simple" then
    match t with TSimple t => simple_cost r t | _ => Err AttributeErr end
  else Ok 0.
Definition add_simple_terms (r : frame) (terms : list one_term) : res Q := let! l := rmap (one_simple r) terms in Ok (Qsum l).

(** ** accounting.py:181-228 *)
(** an array of integers keeps the integer part of a number (numpy full_like on the integer index) *)
Definition truncate (q : Q) : Q := inject_Z (Z.quot (Qnum q) (Zpos (Qden q))).
Definition find_values_for_term (r : frame) (x : term_or_number) : res (list cell) :=
  match x with
  | TNumber q => Ok (repeat (Some (truncate q)) (n_rows r))
  | TTerm t =>
      check (match t_asset_type t with Some ty => ty =? "site" | None => false end) ;;
      check (match t_asset_name t with Some n => n =? "site" | None => true end) ;;
      get_col r ("site-" ++ t_variable t)
  end.
Definition two_function (f : string) : option (Q -> Q -> Q) :=
  if f =? "max_two_variables" then Some Qmax else if f =? "min_two_variables" then Some Qmin else None.
(** numpy, unlike pandas, does not skip a NaN: the account would be NaN *)
Definition no_nan (l : list cell) : res (list Q) := rmap (fun c => of_option Unmodelled c) l.
Definition two_cost (r : frame) (t : two_term) (g : Q -> Q -> Q) : res Q :=
  let! a := find_values_for_term r (w_a t) in
  let! b := find_values_for_term r (w_b t) in
  check Nat.eqb (List.length a) (List.length b) ;;
  let! a := no_nan a in
  let! b := no_nan b in
  (* an interval data name is a string: it cannot be multiplied with numbers *)
  match w_interval_data t with
  | Some (String _ _) => Err TypeErr
  | _ => Ok (Qsum (map (fun xy => g (fst xy) (snd xy) * w_coefficient t) (combine a b)))
  end.
Definition one_two (r : frame) (t : one_term) : res Q :=
  if one_term_type t =? "complex" then
    let! f := one_term_function t in
    match two_function f with
    | Some g => match t with TTwo t => two_cost r t g | _ => Err AssertionErr end
    | None => Ok 0
    end
  else Ok 0.
Definition add_two_variable_terms (r : frame) (terms : list one_term) : res Q := let! l := rmap (one_two r) terms in Ok (Qsum l).

(** ** accounting.py:275-311 *)
Definition many_function (f : string) : option (Q -> Q -> Q) :=
  if f =? "max_many_variables" then Some Qmax else if f =? "min_many_variables" then Some Qmin else None.
Definition many_columns (r : frame) (t : term) : frame :=
  match t_asset_type t with
  | Some ty => if ty =? "*" then find_all_assets_with_variable r t
               else match t_asset_name t with None => find_asset_type_with_variables r t ty | Some _ => find_asset_by_name r t end
  | None => find_asset_by_name r t
  end.
Definition fold1 (g : Q -> Q -> Q) (l : list Q) : res Q :=
  match l with [] => Err ValueErr | x :: l => Ok (fold_left g l x) end.
Definition many_cost (r : frame) (t : many_term) (g : Q -> Q -> Q) : res Q :=
  let vs := List.concat (map snd (many_columns r (m_variables t))) in
  let! vs := no_nan vs in
  let! x := fold1 g (vs ++ repeat (truncate (m_constant t)) (n_rows r))%list in
  Ok (x * m_coefficient t).
Definition one_many (r : frame) (t : one_term) : res Q :=
  if one_term_type t =? "complex" then
    let! f := one_term_function t in
    match many_function f with
    | Some g => match t with TMany t => many_cost r t g | _ => Err AssertionErr end
    | None => Ok 0
    end
  else Ok 0.
Definition add_many_variable_terms (r : frame) (terms : list one_term) : res Q := let! l := rmap (one_many r) terms in Ok (Qsum l).

(** accounting.py:342-347 *)
Definition custom_costs (r : frame) (terms : option (list term_arg)) : res Q :=
  match terms with
  | None => Ok 0
  | Some args =>
      let! ts := rmap term_factory args in
      let ts := map fst ts in
      let! a := add_simple_terms r ts in
      let! b := add_two_variable_terms r ts in
      let! c := add_many_variable_terms r ts in
      Ok (a + b + c)
  end.
(** accounting.py:314-358 [get_accounts] *)
Definition get_accounts (results : frame) (price_results : option frame) (custom_terms : option (list term_arg)) (validate : bool)
  : res accounts :=
  let prices := match price_results with Some p => p | None => results end in
  let! _ := (if validate then let! _ := check_results results false in check_results prices false else Ok tt) in
  let! electricity := get_one_electricity_account results prices in
  let! gas := get_one_gas_account results prices in
  let! custom_cost := custom_costs results custom_terms in
  let custom := mkAccount custom_cost 0 in
  Ok (mkAccounts electricity gas custom
        (el_cost electricity + ac_cost gas + ac_cost custom)
        (- (el_cost electricity + ac_cost gas + ac_cost custom))
        (el_emissions electricity + ac_emissions gas + ac_emissions custom)).
