(** * Logging: what a call to optimize prints, and the configuration of the optimizer

    Models energypylinear/logger.py, the calls of logger.info/debug/warning made by an optimization, and
    energypylinear/optimizer.py:24-65. *)
From Verif Require Import Base Pulp Params Optimizer Types Terms Accounting Assets EVs Site Constraints Objectives Extract Pipeline.
Open Scope string_scope.

(** the argument [verbose: int | bool] *)
Inductive verbosity := VBool (b : bool) | VInt (z : Z).
(** Python's truth value *)
Definition truthy (v : verbosity) : bool := match v with VBool b => b | VInt z => negb (Z.eqb z 0) end.

(** defaults.py:34 [log_level] *)
Definition d_log_level : Z := 2.
(** logger.py:26-44: the level given to the (one) handler of the logger, logger.py:15-22 *)
Definition handler_level (v : verbosity) : Z :=
  let level := match v with VBool true => d_log_level | VBool false => 4%Z | VInt z => z end in
  if Z.ltb level 10 then (level * 10)%Z else level.
(** logger.py:21: before the first call *)
Definition first_level : Z := (d_log_level * 10)%Z.

(** ** Messages.  The numbers and names reported are kept, the texts around them are not. *)
Inductive message :=
| MSite                                                   (* site.py:473 *)
| MAssets (names : list string)                           (* site.py:474 *)
| MSimpleTerms (n : nat)                                  (* objectives.py:640 *)
| MTwoTerms (n : nat)                                     (* objectives.py:644 *)
| MManyTerms (n : nat)                                    (* objectives.py:650 *)
| MProgram (variables constraints : nat)                  (* optimizer.py:129 *)
| MSolved (status : lp_status) (objective : option Q)     (* optimizer.py:137 *)
| MTotals                                                 (* extract.py:407 *)
| MElectricity                                            (* checks.py:64 *)
| MHighTemperature                                        (* checks.py:92 *)
| MLowTemperature                                         (* checks.py:120 *)
| MSpills (spills : list (string * Q)) (spill_columns : nat). (* warnings.py:33 *)
(** logging.DEBUG, INFO, WARNING *)
Definition message_level (m : message) : Z :=
  match m with
  | MSite | MAssets _ | MSolved _ _ => 20
  | MSpills _ _ => 30
  | _ => 10
  end.

(** what happens to the logger: set_logging_level or a message *)
Inductive event := ESet (v : verbosity) | ELog (m : message).
Definition logged A : Type := list event * res A.
Definition lret {A} (r : res A) : logged A := ([], r).
Definition lbind {A B} (m : logged A) (f : A -> logged B) : logged B :=
  match snd m with
  | Ok a => let (es, r) := f a in (fst m ++ es, r)%list
  | Err e => (fst m, Err e)
  end.
Definition log (e : event) : logged unit := ([e], Ok tt).

(** logger.py:15 sets the logger itself to DEBUG, so that all messages reach the handler; the handler drops those below its level *)
Fixpoint printed (level : Z) (es : list event) : list message :=
  match es with
  | [] => []
  | ESet v :: es => printed (handler_level v) es
  | ELog m :: es => if Z.leb level (message_level m) then m :: printed level es else printed level es
  end.
(** the level of the handler afterwards *)
Fixpoint level_after (level : Z) (es : list event) : Z :=
  match es with
  | [] => level
  | ESet v :: es => level_after (handler_level v) es
  | ELog _ :: es => level_after level es
  end.
Definition messages (es : list event) : list message := flat_map (fun e => match e with ELog m => [m] | ESet _ => [] end) es.

(** objectives.py:584-654 with its log.  Site.optimize does not hand on [verbose] (site.py:516): it is 2 here.
    Line 649 counts all but the simple terms. *)
Definition get_objective_logged (obj : objective) (iv : interval_vars) (d : idata Q) (o : opt) : logged (aexpr * opt) :=
  match obj with
  | ObjName _ => lret (get_objective obj iv d o)
  | ObjTerms terms =>
      lbind (lret (lift (add_simple_terms iv d terms) o)) (fun so => let (simple, o1) := so : list aexpr * opt in
      lbind (log (ESet (VInt 2))) (fun _ =>
      lbind (log (ELog (MSimpleTerms (List.length simple)))) (fun _ =>
      lbind (lret (add_two_variable_terms iv d terms o1)) (fun to => let (two, o2) := to : list aexpr * opt in
      lbind (log (ELog (MTwoTerms (List.length two)))) (fun _ =>
      lbind (lret (add_many_variables_terms iv terms o2)) (fun mo => let (many, o3) := mo : list aexpr * opt in
      lbind (log (ELog (MManyTerms (List.length two + List.length many)))) (fun _ =>
      lret (Ok (esum (simple ++ two ++ many)%list, o3)))))))))
  end.
(** assets/site.py:462-519 with its log *)
Definition build_logged (v : verbosity) (c : site_cfg) (assets : list asset) (cons : list constraint) (obj : objective) (fl : flags)
    (o : opt) : logged (interval_vars * opt) :=
  lbind (lret (massert (nodup_str (map asset_name assets)) o)) (fun uo =>
  lbind (log (ESet v)) (fun _ =>
  lbind (log (ELog MSite)) (fun _ =>
  lbind (log (ELog (MAssets (map asset_name assets)))) (fun _ =>
  lbind (lret (build_base c assets fl (snd uo))) (fun io => let (iv, o1) := io : interval_vars * opt in
  lbind (lret (forM_ cons (fun k => add_custom_constraint k iv (sc_idata c)) o1)) (fun ko =>
  lbind (get_objective_logged obj iv (sc_idata c) (snd ko)) (fun eo => let (e, o2) := eo : aexpr * opt in
  lbind (lret (set_objective e o2)) (fun fo =>
  lret (Ok (iv, snd fo)))))))))).
(** optimizer.py:118-145 with its log *)
Definition solve_logged (v : verbosity) (slv : solver) (allow_inf : bool) (o : opt) : logged (opt_status * solution) :=
  lbind (log (ESet v)) (fun _ =>
  lbind (log (ELog (MProgram (List.length (variables o)) (List.length (o_cons o))))) (fun _ =>
  lbind (lret (assert_no_duplicate_variables o)) (fun _ =>
  let sol := slv o in
  let objective := match o_obj o with Some e => expr_value o sol e | None => None end in
  let feas := is_optimal (sol_status sol) in
  lbind (log (ELog (MSolved (sol_status sol) objective))) (fun _ =>
  lbind (lret (if allow_inf then Ok tt
               else check feas ;; rassert (match objective with Some _ => true | None => false end))) (fun _ =>
  lret (Ok (mkStatus (sol_status sol) feas objective, sol))))))).
(** checks.py:27-121 with their log: the message comes after the columns were read and before the assertion *)
Definition check_logged (r : frame) (cols : list string) (m : message) (chk : res unit) : logged unit :=
  lbind (lret (rmap (get_col r) cols)) (fun _ => lbind (log (ELog m)) (fun _ => lret chk)).
Definition electricity_columns : list string :=
  ["site-import_power_mwh"; "total-electric_generation_mwh"; "site-export_power_mwh"; "total-electric_load_mwh";
   "total-electric_discharge_mwh"; "total-electric_charge_mwh"; "total-electric_loss_mwh"; "total-spills_mwh"].
(** checks.py:131-187 *)
Definition check_results_logged (v : verbosity) (r : frame) (check_valve : bool) : logged unit :=
  lbind (log (ESet v)) (fun _ =>
  lbind (check_logged r electricity_columns MElectricity (check_electricity_balance r)) (fun _ =>
  let ht := ["total-high_temperature_generation_mwh"; "total-high_temperature_load_mwh"] in
  lbind (check_logged r ht MHighTemperature (check_heat_balance r "total-high_temperature_generation_mwh" "total-high_temperature_load_mwh")) (fun _ =>
  let lt := ["total-low_temperature_generation_mwh"; "total-low_temperature_load_mwh"] in
  lbind (check_logged r lt MLowTemperature (check_heat_balance r "total-low_temperature_generation_mwh" "total-low_temperature_load_mwh")) (fun _ =>
  (* the balances hold: what is left is the check of valves and chargers *)
  lret (check_results r check_valve))))).
(** warnings.py:12-36 with its log *)
Definition column_sums (r : frame) : list (string * Q) :=
  map (fun nc => (fst nc, Qsum (map zero_none (snd nc)))) (filter (fun nc => is_spill_col (fst nc)) r).
Definition warn_spills_logged (v : verbosity) (r : frame) (fl : flags) : logged bool :=
  lbind (lret (warn_spills r fl)) (fun spill =>
  lbind (if spill && truthy v then log (ELog (MSpills (filter (fun kv => Qltb 0 (snd kv)) (column_sums r)) (List.length (column_sums r)))) else lret (Ok tt)) (fun _ =>
  lret (Ok spill))).
(** extract.py:341-434 with its log *)
Definition extract_logged (v : verbosity) (vals : values) (d : idata Q) (assets : list asset) (iv : interval_vars)
    (st : opt_status) (fl : flags) : logged sim_result :=
  lbind (log (ESet v)) (fun _ =>
  lbind (lret (rmap (extract_row vals d (map asset_name assets) iv) (seq 0 (id_n d)))) (fun rows =>
  let lp := fold_left append_row rows [] in
  lbind (lret (check_array_lengths lp)) (fun _ =>
  lbind (lret (add_totals lp)) (fun r =>
  lbind (log (ELog MTotals)) (fun _ =>
  lbind (if st_feasible st then
           lbind (lret (validate_schema r)) (fun _ => check_results_logged v r (existsb is_valve assets))
         else lret (Ok tt)) (fun _ =>
  lbind (warn_spills_logged v r fl) (fun spill =>
  lret (Ok (mkResult r (st_feasible st) spill st))))))))).
(** assets/site.py:443-533 with its log *)
Definition optimize_logged (v : verbosity) (slv : solver) (base : nat) (c : site_cfg) (assets : list asset) (cons : list constraint)
    (obj : objective) (fl : flags) : logged sim_result :=
  lbind (build_logged v c assets cons obj fl (new_optimizer base)) (fun io => let (iv, o) := io : interval_vars * opt in
  lbind (solve_logged v slv (allow_infeasible fl) o) (fun ss =>
  extract_logged v (var_value o (snd ss)) (sc_idata c) assets iv (fst ss) fl)).
(** accounting.py:314-358 with its log *)
Definition get_accounts_logged (v : verbosity) (results : frame) (price_results : option frame) (custom_terms : option (list term_arg)) (validate : bool)
  : logged accounts :=
  let prices := match price_results with Some p => p | None => results end in
  lbind (if validate then lbind (check_results_logged v results false) (fun _ => check_results_logged v prices false) else lret (Ok tt)) (fun _ =>
  lret (get_accounts results price_results custom_terms validate)).

(** ** OptimizerConfig, optimizer.py:24-65.  A dataclass: no argument is converted or checked. *)
Inductive cfg_value := CfgBool (b : bool) | CfgNumber (q : Q) | CfgOther (s : string).
Record optimizer_config := mkOptimizerConfig { oc_verbose : cfg_value; oc_presolve : cfg_value; oc_relative_tolerance : cfg_value; oc_timeout : cfg_value }.
Definition default_config : optimizer_config := mkOptimizerConfig (CfgBool false) (CfgBool true) (CfgNumber 0) (CfgNumber 180).
(** a dict has each key once *)
Inductive config_arg := AConfig (c : optimizer_config) | ADict (d : list (string * cfg_value)).
Definition config_keys : list string := ["verbose"; "presolve"; "relative_tolerance"; "timeout"].
Definition from_dict (d : list (string * cfg_value)) (k : string) (def : cfg_value) : cfg_value :=
  match assoc k d with Some v => v | None => def end.
(** optimizer.py:53-54 [OptimizerConfig( **cfg)] *)
Definition config_of (a : config_arg) : res optimizer_config :=
  match a with
  | AConfig c => Ok c
  | ADict d =>
      if forallb (fun kv => existsb (String.eqb (fst kv)) config_keys) d
      then Ok (mkOptimizerConfig (from_dict d "verbose" (oc_verbose default_config)) (from_dict d "presolve" (oc_presolve default_config))
                 (from_dict d "relative_tolerance" (oc_relative_tolerance default_config)) (from_dict d "timeout" (oc_timeout default_config)))
      else Err TypeErr
  end.
(** assets/site.py:443-533 with every argument; [cbc] is the solver for a configuration.  Optimizer(optimizer_config) is made first. *)
Definition optimize_call (cbc : optimizer_config -> solver) (a : config_arg) (v : verbosity) (base : nat) (c : site_cfg) (assets : list asset)
    (cons : list constraint) (obj : objective) (fl : flags) : logged sim_result :=
  lbind (lret (config_of a)) (fun cfg => optimize_logged v (cbc cfg) base c assets cons obj fl).
