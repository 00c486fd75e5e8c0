(** * Site: energypylinear/assets/site.py:193-533 (construction of the linear program) *)
From Verif Require Import Base Pulp Params Optimizer Types Assets EVs.
Open Scope Q_scope.
Open Scope string_scope.

(** assets/site.py:408-424 *)
Definition site_one_interval (c : site_cfg) (i : nat) : M oneint :=
  imp <- continuous ("import_power_mw-" ++ show i) (Some 0) (Some (mw_to_mwh (sc_freq c) (sc_import_limit_mw c))) ;;
  exp <- continuous ("export_power_mw-" ++ show i) (Some 0) (Some (mw_to_mwh (sc_freq c) (sc_export_limit_mw c))) ;;
  ib <- binary ("import_power_bin-" ++ show i) ;;
  eb <- binary ("export_power_bin-" ++ show i) ;;
  ret (OISite (mkSiteOI "site" imp exp ib eb
         (mw_to_mwh (sc_freq c) (sc_import_limit_mw c)) (mw_to_mwh (sc_freq c) (sc_export_limit_mw c)))).

(** the lookup of assets/site.py:242-245, 269-272 *)
Definition find_site (iv : interval_vars) : M site_oi :=
  found <- lift (filter_objective_variables iv (-1) (Some KSite) (Some "site")) ;;
  x <- lift (hd_res found) ;;
  match x with OISite r => ret r | _ => raise AssertionErr end.

Definition sum_attr (attr : oneint -> fval) (l : list oneint) : aexpr := esum (map (fun x => fexpr (attr x)) l).

(** assets/site.py:228-260 *)
Definition constrain_site_electricity_balance (d : idata Q) (iv : interval_vars) (i : nat) : M unit :=
  assets <- lift (py_index iv (-1)) ;;
  site <- find_site iv ;;
  load <- lift (nth_res (id_electric_load_mwh d) i) ;;
  constrain_named
    (ceq (eadd (esub (esub (eadd (esub (esub (evar (tio_import site)) (evar (tio_export site))) (econst load))
                                 (sum_attr electric_generation_mwh assets))
                           (sum_attr electric_load_mwh assets))
                     (sum_attr electric_charge_mwh assets))
               (sum_attr electric_discharge_mwh assets))
         (econst 0))
    (Some ("site_electricity_balance,i:" ++ show i)).

(** assets/site.py:263-279 *)
Definition constrain_site_import_export (iv : interval_vars) : M unit :=
  site <- find_site iv ;;
  constrain (cle (esub (evar (tio_import site)) (escale (evar (tio_import_bin site)) (tio_import_limit site))) (econst 0)) ;;;
  constrain (cle (esub (evar (tio_export site)) (escale (evar (tio_export_bin site)) (tio_export_limit site))) (econst 0)) ;;;
  constrain (ceq (eadd (evar (tio_import_bin site)) (evar (tio_export_bin site))) (econst 1)).

(** assets/site.py:282-302 *)
Definition constrain_site_high_temperature_heat_balance (d : idata Q) (iv : interval_vars) (i : nat) : M unit :=
  assets <- lift (py_index iv (-1)) ;;
  load <- lift (nth_res (id_high_temperature_load_mwh d) i) ;;
  constrain (ceq (esub (esub (sum_attr high_temperature_generation_mwh assets)
                             (sum_attr high_temperature_load_mwh assets)) (econst load))
                 (econst 0)).

(** assets/site.py:305-327 *)
Definition constrain_site_low_temperature_heat_balance (d : idata Q) (iv : interval_vars) (i : nat) : M unit :=
  assets <- lift (py_index iv (-1)) ;;
  load <- lift (nth_res (id_low_temperature_load_mwh d) i) ;;
  gen <- lift (nth_res (id_low_temperature_generation_mwh d) i) ;;
  constrain (ceq (eadd (esub (esub (sum_attr low_temperature_generation_mwh assets)
                                   (sum_attr low_temperature_load_mwh assets)) (econst load))
                       (econst gen))
                 (econst 0)).

(** assets/site.py:426-441 *)
Definition site_constrain_within (d : idata Q) (iv : interval_vars) (i : nat) : M unit :=
  constrain_site_electricity_balance d iv i ;;;
  constrain_site_import_export iv ;;;
  constrain_site_high_temperature_heat_balance d iv i ;;;
  constrain_site_low_temperature_heat_balance d iv i.

(** ** Dispatch over the asset classes: asset.one_interval / constrain_within_interval /
    constrain_after_intervals, as called in assets/site.py:481-502 *)
Definition asset_one_interval (a : asset) (i : nat) (f : freq) (fl : flags) : M (list oneint) :=
  match a with
  | ABattery c => x <- battery_one_interval c i f ;; ret [x]
  | ABoiler c => x <- boiler_one_interval c i f ;; ret [x]
  | ACHP c => x <- chp_one_interval c i f ;; ret [x]
  | AEVs c => evs_one_interval c i f fl
  | AHeatPump c => x <- hp_one_interval c i f ;; ret [x]
  | ARenewable c => x <- rg_one_interval c i ;; ret [x]
  | ASpill n => x <- spill_one_interval n i ;; ret [x]
  | AValve n => x <- valve_one_interval n i ;; ret [x]
  end.
Definition asset_constrain_within (a : asset) (iv : interval_vars) (i : nat) (f : freq) (fl : flags) : M unit :=
  match a with
  | ABattery c => battery_constrain_within c iv
  | ABoiler c => boiler_constrain_within c iv f
  | ACHP c => chp_constrain_within c iv i f
  | AEVs c => evs_constrain_within c iv i f fl
  | AHeatPump c => hp_constrain_within c iv i f
  | ARenewable _ => ret tt
  | ASpill _ => ret tt
  | AValve n => valve_constrain_within n iv
  end.
Definition asset_constrain_after (a : asset) (iv : interval_vars) : M unit :=
  match a with
  | ABattery c => battery_constrain_after c iv
  | AEVs c => evs_constrain_after c iv
  | _ => ret tt
  end.

(** One pass of the loop of assets/site.py:478-496 *)
Definition site_interval (c : site_cfg) (assets : list asset) (fl : flags) (iv : interval_vars) (i : nat)
  : M interval_vars :=
  s <- site_one_interval c i ;;
  xs <- forM assets (fun a => asset_one_interval a i (sc_freq c) fl) ;;
  let iv' := (iv ++ [s :: List.concat xs])%list in
  site_constrain_within (sc_idata c) iv' i ;;;
  forM_ assets (fun a => asset_constrain_within a iv' i (sc_freq c) fl) ;;;
  ret iv'.

(** the loop over [interval_data.idx] *)
Fixpoint site_intervals (c : site_cfg) (assets : list asset) (fl : flags) (iv : interval_vars) (idx : list nat)
  : M interval_vars :=
  match idx with
  | [] => ret iv
  | i :: r => iv' <- site_interval c assets fl iv i ;; site_intervals c assets fl iv' r
  end.

(** assets/site.py:462-502: names check, intervals, after-interval constraints *)
Definition build_base (c : site_cfg) (assets : list asset) (fl : flags) : M interval_vars :=
  massert (nodup_str (map asset_name assets)) ;;;
  iv <- site_intervals c assets fl [] (seq 0 (id_n (sc_idata c))) ;;
  forM_ assets (fun a => asset_constrain_after a iv) ;;;
  ret iv.
