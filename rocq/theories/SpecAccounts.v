(** * SpecAccounts: what accounts of result tables should say *)
From Verif Require Import Base Params Types Spec SpecReport Extract SpecRun Objectives SpecTerms Terms Accounting.
Open Scope Q_scope.
Open Scope string_scope.

(** every column of the table has [n] rows *)
Definition full_table (r : table) (n : nat) : Prop := forall col cells, In (col, cells) r -> List.length cells = n.
(** the sum of the products of a price column of one table and an energy column of another one *)
Definition value_of_energy (n : nat) (prices : table) (price : string) (energies : table) (energy : string) : Q :=
  Qsum (map (fun t => num prices price t * num energies energy t) (seq 0 n)).
Definition energy_sum (n : nat) (r : table) (col : string) : Q := Qsum (map (num r col) (seq 0 n)).

(** the rows of one table below the rows of another one with the same columns (pandas [concat]) *)
Fixpoint stack (r1 r2 : table) : table :=
  match r1, r2 with
  | (n, c1) :: r1', (_, c2) :: r2' => (n, (c1 ++ c2)%list) :: stack r1' r2'
  | _, _ => []
  end.
Definition same_columns (r1 r2 : table) : Prop := map fst r1 = map fst r2.
(** all parts of an account of the whole are sums of the parts *)
Definition electricity_sum (a b s : electricity_account) : Prop :=
  el_import_cost s == el_import_cost a + el_import_cost b /\ el_export_cost s == el_export_cost a + el_export_cost b /\
  el_cost s == el_cost a + el_cost b /\
  el_import_emissions s == el_import_emissions a + el_import_emissions b /\ el_export_emissions s == el_export_emissions a + el_export_emissions b /\
  el_emissions s == el_emissions a + el_emissions b.
Definition account_sum (a b s : account) : Prop :=
  ac_cost s == ac_cost a + ac_cost b /\ ac_emissions s == ac_emissions a + ac_emissions b.
Definition accounts_sum (a b s : accounts) : Prop :=
  electricity_sum (as_electricity a) (as_electricity b) (as_electricity s) /\
  account_sum (as_gas a) (as_gas b) (as_gas s) /\ account_sum (as_custom a) (as_custom b) (as_custom s) /\
  as_cost s == as_cost a + as_cost b /\ as_profit s == as_profit a + as_profit b /\ as_emissions s == as_emissions a + as_emissions b.
(** a term over the maximum or minimum of the whole simulation *)
Definition over_time (t : one_term) : bool := match t with TMany _ => true | _ => false end.

(** what the site paid and emitted, valued at the site's own (import) prices *)
Definition grid_cost (c : site_cfg) (assets : list asset) (r : sim_result) : Q :=
  horizon c (fun t => (r_import r t - r_export r t) * data (id_electricity_prices (sc_idata c)) t
                      + total (r_gas r t) assets * data (id_gas_prices (sc_idata c)) t).
Definition grid_emissions (c : site_cfg) (assets : list asset) (r : sim_result) : Q :=
  horizon c (fun t => (r_import r t - r_export r t) * data (id_electricity_carbon_intensities (sc_idata c)) t
                      + total (r_gas r t) assets * gas_intensity).
(** no name is a "-"-separated beginning of the other *)
Definition apart (n m : string) : Prop :=
  n <> m /\ starts_with (n ++ "-") m = false /\ starts_with (m ++ "-") n = false.

(** ** Custom terms whose account is their part of the objective *)
(** the interval data of the term is one of the site's data columns (or not given) *)
Definition known_data (c : site_cfg) (k : term) : Prop :=
  match t_interval_data k with
  | None => True
  | Some n => n <> "idx" /\ In n (map fst (id_columns (sc_idata c)))
  end.
(** the grid connection's import or export *)
Definition grid_term (c : site_cfg) (k : term) : Prop :=
  In (t_variable k) ["import_power_mwh"; "export_power_mwh"] /\
  t_asset_type k = Some "site" /\ (t_asset_name k = None \/ t_asset_name k = Some "site") /\
  forall col, In col (id_custom (sc_idata c)) -> ends_with (t_variable k) (fst col) = false.
(** one named asset, not an EVs asset, whose name is not the beginning of another one's *)
Definition named_term (assets : list asset) (k : term) : Prop :=
  exists a, In a assets /\ (forall e, a <> AEVs e) /\ t_asset_name k = Some (asset_name a) /\
    (t_asset_type k = None \/ t_asset_type k = piece_type (PAsset a)) /\
    apart (asset_name a) "site" /\ apart (asset_name a) "total" /\
    forall b, In b assets -> b = a \/ apart (asset_name a) (asset_name b).
Definition accountable (c : site_cfg) (assets : list asset) (k : term) : Prop :=
  plain_term k /\ known_data c k /\ (grid_term c k \/ named_term assets k).
(** the custom terms as an argument of get_accounts *)
Definition as_custom_terms (ks : list term) : option (list term_arg) := Some (map (fun k => ArgTerm (TSimple k)) ks).

(** the chargers of EVs assets *)
Definition chargers_only (p : piece) : bool := match p with PEv _ => true | _ => false end.

(** ** Terms over a maximum or minimum *)
(** one side of a term over two variables: a whole number, or a quantity or a data column of the grid connection *)
Definition site_side (c : site_cfg) (x : term_or_number) : Prop :=
  match x with
  | TNumber q => exists z : Z, q = inject_Z z
  | TTerm k => t_asset_type k = Some "site" /\ (t_asset_name k = None \/ t_asset_name k = Some "site") /\
               In (t_variable k) ("import_power_mwh" :: "export_power_mwh" :: map fst (id_columns (sc_idata c)))
  end.
Definition side_value (r : sim_result) (x : term_or_number) (t : nat) : Q :=
  match x with TNumber q => q | TTerm k => num (r_results r) ("site-" ++ t_variable k) t end.

(** the import or the export of the grid connection, selected by type, by name, or with "*" *)
Definition over_grid (c : site_cfg) (k : term) : Prop :=
  In (t_variable k) ["import_power_mwh"; "export_power_mwh"] /\
  (t_asset_type k = Some "*" \/ (t_asset_type k = Some "site" /\ t_asset_name k = None)
   \/ ((t_asset_type k = Some "site" \/ t_asset_type k = None) /\ t_asset_name k = Some "site")) /\
  forall col, In col (id_custom (sc_idata c)) -> ends_with (t_variable k) (fst col) = false.
(** [m] is the largest (smallest) of a constant and the values of a function in all intervals *)
Definition largest (m const : Q) (n : nat) (f : nat -> Q) : Prop :=
  const <= m /\ (forall t, (t < n)%nat -> f t <= m) /\ (m == const \/ exists t, (t < n)%nat /\ m == f t).
Definition smallest (m const : Q) (n : nat) (f : nat -> Q) : Prop :=
  m <= const /\ (forall t, (t < n)%nat -> m <= f t) /\ (m == const \/ exists t, (t < n)%nat /\ m == f t).
