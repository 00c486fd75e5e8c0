(** * Objectives: energypylinear/objectives.py *)
From Verif Require Import Base Pulp Params Optimizer Types Constraints.
Open Scope Q_scope.

(** energypylinear/objectives.py:15-76.  [type] is not validated at run time, so it is a string. *)
Record term := mkTerm {
  t_variable : string;
  t_asset_type : option string;
  t_interval_data : option string;
  t_asset_name : option string;
  t_coefficient : Q;
  t_type : string }.
Inductive term_or_number := TTerm (t : term) | TNumber (q : Q).
(** energypylinear/objectives.py:83-137 *)
Record two_term := mkTwo {
  w_function : string; w_a : term_or_number; w_b : term_or_number; w_M : Q;
  w_interval_data : option string; w_coefficient : Q; w_type : string }.
Record many_term := mkMany {
  m_function : string; m_variables : term; m_M : Q; m_constant : Q; m_coefficient : Q; m_type : string }.
Inductive one_term := TSimple (t : term) | TTwo (t : two_term) | TMany (t : many_term).

(** [term.type] *)
Definition one_term_type (t : one_term) : string :=
  match t with TSimple t => t_type t | TTwo t => w_type t | TMany t => m_type t end.
(** [term.function]: a simple Term has no such attribute *)
Definition one_term_function (t : one_term) : res string :=
  match t with TSimple _ => Err AttributeErr | TTwo t => Ok (w_function t) | TMany t => Ok (m_function t) end.

(** Python reprs, used only in variable names; floats are rendered as reduced fractions
    instead of Python's float repr (simplification: same equality pattern). *)
Open Scope string_scope.
Definition repr_Z (z : Z) : string :=
  match z with Z0 => "0" | Zpos p => show (Pos.to_nat p) | Zneg p => "-" ++ show (Pos.to_nat p) end.
Definition repr_Q (q : Q) : string :=
  let r := Qred q in repr_Z (Qnum r) ++ "/" ++ show (Pos.to_nat (Qden r)).
Definition repr_opt (o : option string) : string :=
  match o with None => "None" | Some s => "'" ++ s ++ "'" end.
Definition repr_term (t : term) : string :=
  "Term(variable='" ++ t_variable t ++ "', asset_type=" ++ repr_opt (t_asset_type t)
  ++ ", interval_data=" ++ repr_opt (t_interval_data t) ++ ", asset_name=" ++ repr_opt (t_asset_name t)
  ++ ", coefficient=" ++ repr_Q (t_coefficient t) ++ ", type='" ++ t_type t ++ "')".
Definition repr_tn (t : term_or_number) : string :=
  match t with TTerm t => repr_term t | TNumber q => repr_Q q end.
Definition repr_many (t : many_term) : string :=
  "FunctionTermManyVariables(function='" ++ m_function t ++ "', variables=" ++ repr_term (m_variables t)
  ++ ", M=" ++ repr_Q (m_M t) ++ ", constant=" ++ repr_Q (m_constant t)
  ++ ", coefficient=" ++ repr_Q (m_coefficient t) ++ ", type='" ++ m_type t ++ "')".

Definition opt_eqb (o : option string) (s : string) : bool :=
  match o with Some x => x =? s | None => false end.
Definition is_none {A} (o : option A) : bool := match o with None => true | Some _ => false end.

(** objectives.py:210-241: variable * data * coefficient for each asset *)
Definition simple_terms_for (assets : list oneint) (i : nat) (d : idata Q) (t : term) : res (list aexpr) :=
  rmap (fun x =>
          let! f := getattr x (t_variable t) in
          let! q := data_factor d (t_interval_data t) i in
          Ok (escale (escale (fexpr (none_to_zero f)) q) (t_coefficient t))) assets.

(** objectives.py:258-271 for one term and one interval *)
Definition simple_term_at (iv : interval_vars) (d : idata Q) (t : term) (i : nat) : res (list aexpr) :=
  let! assets := (if opt_eqb (t_asset_type t) "*" then py_index iv (Z.of_nat i)
                  else filter_objective_variables_str iv (Z.of_nat i) (t_asset_type t) (t_asset_name t)) in
  simple_terms_for assets i d t.
(** objectives.py:244-271.  [term.type == "simple"] on a function term whose type was overridden
    would fail on the missing attributes: outside of the model. *)
Definition simple_term_all (iv : interval_vars) (d : idata Q) (t : one_term) : res (list aexpr) :=
  if one_term_type t =? "simple" then
    match t with
    | TSimple t => let! ls := rmap (simple_term_at iv d t) (seq 0 (id_n d)) in Ok (List.concat ls)
    | _ => Err Unmodelled
    end
  else Ok [].
Definition add_simple_terms (iv : interval_vars) (d : idata Q) (terms : list one_term) : res (list aexpr) :=
  let! ls := rmap (simple_term_all iv d) terms in Ok (List.concat ls).

(** objectives.py:317-322 *)
Definition two_term_checks (x : term_or_number) : res unit :=
  match x with
  | TNumber _ => Ok tt
  | TTerm t =>
      check (is_none (t_asset_type t) || opt_eqb (t_asset_type t) "site")%bool ;;
      check (is_none (t_asset_name t) || opt_eqb (t_asset_name t) "site")%bool ;;
      check negb (opt_eqb (t_asset_type t) "*") ;;
      rassert (is_none (t_interval_data t))
  end.
(** objectives.py:324-346 *)
Definition two_term_operand (iv : interval_vars) (i : nat) (x : term_or_number) : res fval :=
  match x with
  | TNumber q => Ok (FFloat q)
  | TTerm t =>
      let! l := filter_objective_variables iv (Z.of_nat i) None (t_asset_name t) in
      let! o := hd_res l in
      getattr o (t_variable t)
  end.
(** objectives.py:290-293 *)
Definition is_two_function (s : string) : bool := (s =? "max_two_variables") || (s =? "min_two_variables").
(** objectives.py:297-359 for one interval *)
Definition two_term_at (iv : interval_vars) (d : idata Q) (t : two_term) (i : nat) : M aexpr :=
  lift (two_term_checks (w_a t)) ;;;
  lift (two_term_checks (w_b t)) ;;;
  a <- lift (two_term_operand iv i (w_a t)) ;;
  b <- lift (two_term_operand iv i (w_b t)) ;;
  let name := w_function t ++ "-i=" ++ show i ++ "-term.a=" ++ repr_tn (w_a t) ++ "-term.b=" ++ repr_tn (w_b t) in
  c <- (if w_function t =? "max_two_variables" then max_two_variables name a b (w_M t)
        else min_two_variables name a b (w_M t)) ;;
  q <- lift (data_factor d (w_interval_data t) i) ;;
  ret (escale (escale (evar c) q) (w_coefficient t)).
(** objectives.py:274-359 *)
Definition add_two_variable_term (iv : interval_vars) (d : idata Q) (t : one_term) : M (list aexpr) :=
  if one_term_type t =? "complex" then
    fn <- lift (one_term_function t) ;;
    if is_two_function fn then
      match t with
      | TTwo t => forM (seq 0 (id_n d)) (two_term_at iv d t)
      | _ => raise AssertionErr
      end
    else ret []
  else ret [].
Definition add_two_variable_terms (iv : interval_vars) (d : idata Q) (terms : list one_term) : M (list aexpr) :=
  ls <- forM terms (add_two_variable_term iv d) ;; ret (List.concat ls).

(** objectives.py:376-379 *)
Definition is_many_function (s : string) : bool := (s =? "max_many_variables") || (s =? "min_many_variables").
(** objectives.py:385-397 *)
Definition many_assets (iv : interval_vars) (v : term) : res (list (list oneint)) :=
  if opt_eqb (t_asset_type v) "*" then filter_all_intervals_str iv (t_asset_type v) None
  else if is_none (t_asset_name v) then filter_all_intervals_str iv (t_asset_type v) None
  else Ok (filter_all_intervals iv None (t_asset_name v)).
(** objectives.py:399-406 *)
Definition not_none (f : fval) : bool := match f with FNone => false | _ => true end.
Definition many_operands (iv : interval_vars) (t : many_term) : res (list fval) :=
  let! assets := many_assets iv (m_variables t) in
  let! vs := rmap (fun a => getattr a (t_variable (m_variables t))) (List.concat assets) in
  Ok (filter not_none vs ++ [FFloat (m_constant t)])%list.
(** objectives.py:380-413 *)
Definition add_many_variables_term (iv : interval_vars) (t : one_term) : M (list aexpr) :=
  if one_term_type t =? "complex" then
    fn <- lift (one_term_function t) ;;
    if is_many_function fn then
      match t with
      | TMany t =>
          massert (is_none (t_interval_data (m_variables t))) ;;;
          vs <- lift (many_operands iv t) ;;
          let name := m_function t ++ "-term=" ++ repr_many t in
          c <- (if m_function t =? "max_many_variables" then max_many_variables name vs (m_M t)
                else min_many_variables name vs (m_M t)) ;;
          ret [escale (evar c) (m_coefficient t)]
      | _ => raise AssertionErr
      end
    else ret []
  else ret [].
Definition add_many_variables_terms (iv : interval_vars) (terms : list one_term) : M (list aexpr) :=
  ls <- forM terms (add_many_variables_term iv) ;; ret (List.concat ls).
Close Scope string_scope.

(** [expr * number] for the attribute of a one-interval object; None * number is a TypeError *)
Definition fmul (f : fval) (q : Q) : res aexpr :=
  match f with FNone => Err TypeErr | _ => Ok (escale (fexpr f) q) end.
Definition fmul_sum (fs : list fval) (q : Q) : res aexpr :=
  let! es := rmap (fun f => fmul f q) fs in Ok (esum es).

(** objectives.py:467-494, interval i *)
Definition price_site (d : idata Q) (i : nat) (x : oneint) : res aexpr :=
  match x with
  | OISite r =>
      let! p := nth_res (id_electricity_prices d) i in
      let! ep := nth_res (id_export_electricity_prices d) i in
      Ok (esub (escale (evar (tio_import r)) p) (escale (evar (tio_export r)) ep))
  | _ => Err Unmodelled
  end.
Definition price_spill (x : oneint) : res aexpr :=
  fmul_sum [electric_generation_mwh x; high_temperature_generation_mwh x;
            electric_load_mwh x; high_temperature_load_mwh x] d_spill_objective_penalty.
Definition price_spill_ev (x : oneint) : res aexpr :=
  fmul_sum [electric_charge_mwh x; electric_discharge_mwh x] d_spill_objective_penalty.
Definition price_gas (d : idata Q) (i : nat) (x : oneint) : res aexpr :=
  let! p := nth_res (id_gas_prices d) i in fmul (gas_consumption_mwh x) p.

Definition at_interval {A} (l : list (list A)) (i : nat) : res (list A) := py_index l (Z.of_nat i).

Definition price_at (iv : interval_vars) (d : idata Q) (i : nat) : res (list aexpr) :=
  let! sites := at_interval (filter_all_intervals iv (Some KSite) (Some "site"%string)) i in
  let! spills := at_interval (filter_all_intervals iv (Some KSpill) None) i in
  let! spill_evs := at_interval (filter_all_intervals iv (Some KEvSpill) None) i in
  let! generators := at_interval (filter_all_intervals iv (Some KCHP) None) i in
  let! boilers := at_interval (filter_all_intervals iv (Some KBoiler) None) i in
  let! l1 := rmap (price_site d i) sites in
  let! l2 := rmap price_spill spills in
  let! l3 := rmap price_spill_ev spill_evs in
  let! l4 := rmap (price_gas d i) generators in
  let! l5 := rmap (price_gas d i) boilers in
  Ok (l1 ++ l2 ++ l3 ++ l4 ++ l5).
(** objectives.py:416-495 *)
Definition price_objective (iv : interval_vars) (d : idata Q) : res aexpr :=
  let! ls := rmap (price_at iv d) (seq 0 (id_n d)) in Ok (esum (List.concat ls)).

(** objectives.py:546-580, interval i *)
Definition carbon_site (d : idata Q) (i : nat) (x : oneint) : res aexpr :=
  match x with
  | OISite r =>
      let! c := nth_res (id_electricity_carbon_intensities d) i in
      Ok (esub (escale (evar (tio_import r)) c) (escale (evar (tio_export r)) c))
  | _ => Err Unmodelled
  end.
Definition carbon_spill (x : oneint) : res aexpr :=
  fmul_sum [electric_generation_mwh x; high_temperature_generation_mwh x; electric_load_mwh x;
            electric_charge_mwh x; electric_discharge_mwh x] d_spill_objective_penalty.
Definition carbon_gas (x : oneint) : res aexpr := fmul (gas_consumption_mwh x) d_gas_carbon_intensity.
Definition carbon_at (iv : interval_vars) (d : idata Q) (i : nat) : res (list aexpr) :=
  let! sites := at_interval (filter_all_intervals iv (Some KSite) (Some "site"%string)) i in
  let! spills := at_interval (filter_all_intervals iv (Some KSpill) None) i in
  let! spill_evs := at_interval (filter_all_intervals iv (Some KEvSpill) None) i in
  let! generators := at_interval (filter_all_intervals iv (Some KCHP) None) i in
  let! boilers := at_interval (filter_all_intervals iv (Some KBoiler) None) i in
  let! l1 := rmap (carbon_site d i) sites in
  let! l2 := rmap carbon_spill spills in
  let! l3 := rmap carbon_spill spill_evs in
  let! l4 := rmap carbon_gas generators in
  let! l5 := rmap carbon_gas boilers in
  Ok (l1 ++ l2 ++ l3 ++ l4 ++ l5).
(** objectives.py:498-581 *)
Definition carbon_objective (iv : interval_vars) (d : idata Q) : res aexpr :=
  let! ls := rmap (carbon_at iv d) (seq 0 (id_n d)) in Ok (esum (List.concat ls)).

(** The [objective] argument: a string or a CustomObjectiveFunction (dicts: see Terms.v) *)
Inductive objective := ObjName (s : string) | ObjTerms (terms : list one_term).

(** objectives.py:584-654 *)
Definition get_objective (obj : objective) (iv : interval_vars) (d : idata Q) : M aexpr :=
  match obj with
  | ObjName s =>
      if String.eqb s "price" then lift (price_objective iv d)
      else if String.eqb s "carbon" then lift (carbon_objective iv d)
      else raise ValueErr
  | ObjTerms terms =>
      simple <- lift (add_simple_terms iv d terms) ;;
      two <- add_two_variable_terms iv d terms ;;
      many <- add_many_variables_terms iv terms ;;
      ret (esum (simple ++ two ++ many))
  end.
