(** * Terms: objective terms given as dictionaries (objectives.py:156-207, 607-626) *)
From Verif Require Import Base Pulp Params Optimizer Types Constraints Objectives.
Open Scope Q_scope.
Open Scope string_scope.

(** Values in a term dictionary. Other Python values, and values of the wrong type, are outside of the model (a dataclass
    stores them unchecked): they give [Unmodelled]. *)
Inductive pyval := VNone | VStr (s : string) | VNum (q : Q) | VTerm (t : term) | VDict (d : list (string * pyval)).
Definition dict := list (string * pyval).

(** [d[k] = v] *)
Fixpoint dict_set (d : dict) (k : string) (v : pyval) : dict :=
  match d with
  | [] => [(k, v)]
  | (m, x) :: d' => if k =? m then (m, v) :: d' else (m, x) :: dict_set d' k v
  end.
Definition has_key (d : dict) (k : string) : bool := existsb (fun kv => fst kv =? k) d.
(** keyword arguments: an unexpected name is a TypeError *)
Definition only_keys (fields : list string) (d : dict) : bool := forallb (fun kv => existsb (String.eqb (fst kv)) fields) d.
Definition kw_str (d : dict) (k : string) (default : option string) : res string :=
  match assoc k d with
  | Some (VStr s) => Ok s
  | Some _ => Err Unmodelled
  | None => of_option TypeErr default
  end.
Definition kw_opt (d : dict) (k : string) : res (option string) :=
  match assoc k d with
  | Some (VStr s) => Ok (Some s)
  | Some VNone | None => Ok None
  | Some _ => Err Unmodelled
  end.
Definition kw_num (d : dict) (k : string) (default : option Q) : res Q :=
  match assoc k d with
  | Some (VNum q) => Ok q
  | Some _ => Err Unmodelled
  | None => of_option TypeErr default
  end.
Definition kw_tn (d : dict) (k : string) : res term_or_number :=
  match assoc k d with
  | Some (VNum q) => Ok (TNumber q)
  | Some (VTerm t) => Ok (TTerm t)
  | Some _ => Err Unmodelled
  | None => Err TypeErr
  end.
Definition kw_term (d : dict) (k : string) : res term :=
  match assoc k d with
  | Some (VTerm t) => Ok t
  | Some _ => Err Unmodelled
  | None => Err TypeErr
  end.

(** [Term( **d)], objectives.py:69-74 *)
Definition term_fields : list string := ["variable"; "asset_type"; "interval_data"; "asset_name"; "coefficient"; "type"].
Definition term_kwargs (d : dict) : res term :=
  if negb (only_keys term_fields d) then Err TypeErr else
  let! variable := kw_str d "variable" None in
  let! asset_type := kw_opt d "asset_type" in
  let! interval_data := kw_opt d "interval_data" in
  let! asset_name := kw_opt d "asset_name" in
  let! coefficient := kw_num d "coefficient" (Some 1) in
  let! type := kw_str d "type" (Some "simple") in
  Ok (mkTerm variable asset_type interval_data asset_name coefficient type).
(** [FunctionTermTwoVariables( **d)], objectives.py:101-107 *)
Definition two_fields : list string := ["function"; "a"; "b"; "M"; "interval_data"; "coefficient"; "type"].
Definition two_kwargs (d : dict) : res two_term :=
  if negb (only_keys two_fields d) then Err TypeErr else
  let! function := kw_str d "function" None in
  let! a := kw_tn d "a" in
  let! b := kw_tn d "b" in
  let! m := kw_num d "M" None in
  let! interval_data := kw_opt d "interval_data" in
  let! coefficient := kw_num d "coefficient" (Some 1) in
  let! type := kw_str d "type" (Some "complex") in
  Ok (mkTwo function a b m interval_data coefficient type).
(** [FunctionTermManyVariables( **d)], objectives.py:129-134 *)
Definition many_fields : list string := ["function"; "variables"; "M"; "constant"; "coefficient"; "type"].
Definition many_kwargs (d : dict) : res many_term :=
  if negb (only_keys many_fields d) then Err TypeErr else
  let! function := kw_str d "function" None in
  let! variables := kw_term d "variables" in
  let! m := kw_num d "M" None in
  let! constant := kw_num d "constant" (Some 0) in
  let! coefficient := kw_num d "coefficient" (Some 1) in
  let! type := kw_str d "type" (Some "complex") in
  Ok (mkMany function variables m constant coefficient type).

(** [dataclasses.asdict]: nested terms become dictionaries too *)
Definition opt_val (o : option string) : pyval := match o with None => VNone | Some s => VStr s end.
Definition term_dict (t : term) : dict :=
  [ ("variable", VStr (t_variable t)); ("asset_type", opt_val (t_asset_type t)); ("interval_data", opt_val (t_interval_data t));
    ("asset_name", opt_val (t_asset_name t)); ("coefficient", VNum (t_coefficient t)); ("type", VStr (t_type t)) ].
Definition tn_val (x : term_or_number) : pyval := match x with TTerm t => VDict (term_dict t) | TNumber q => VNum q end.
Definition as_dict (t : one_term) : dict :=
  match t with
  | TSimple t => term_dict t
  | TTwo t => [ ("function", VStr (w_function t)); ("a", tn_val (w_a t)); ("b", tn_val (w_b t)); ("M", VNum (w_M t));
      ("interval_data", opt_val (w_interval_data t)); ("coefficient", VNum (w_coefficient t)); ("type", VStr (w_type t)) ]
  | TMany t => [ ("function", VStr (m_function t)); ("variables", VDict (term_dict (m_variables t))); ("M", VNum (m_M t));
      ("constant", VNum (m_constant t)); ("coefficient", VNum (m_coefficient t)); ("type", VStr (m_type t)) ]
  end.

(** objectives.py:156-173 [term_or_float]; strings that read as numbers are not modelled *)
Definition term_or_float (v : pyval) : res pyval :=
  match v with
  | VTerm t => Ok (VTerm t)
  | VDict d => let! t := term_kwargs d in Ok (VTerm t)
  | VNum q => Ok (VNum q)
  | VNone => Err TypeErr
  | VStr _ => Err Unmodelled
  end.
(** [float(v)] *)
Definition to_float (v : pyval) : res pyval :=
  match v with VNum q => Ok (VNum q) | VStr _ => Err Unmodelled | _ => Err TypeErr end.

(** objectives.py:192-207 on a dictionary: the term and the dictionary after the call (it is rewritten in place) *)
Definition factory_dict (d : dict) : res (one_term * dict) :=
  match assoc "function" d with
  | None => let! t := term_kwargs d in Ok (TSimple t, d)
  | Some (VStr f) =>
      if contains "two_variables" f then
        let! a := of_option KeyErr (assoc "a" d) in
        let! a' := term_or_float a in
        let d1 := dict_set d "a" a' in
        let! b := of_option KeyErr (assoc "b" d1) in
        let! b' := term_or_float b in
        let d2 := dict_set d1 "b" b' in
        let! m := of_option KeyErr (assoc "M" d2) in
        let! m' := to_float m in
        let d3 := dict_set d2 "M" m' in
        let! t := two_kwargs d3 in
        Ok (TTwo t, d3)
      else
        check contains "many_variables" f ;;
        let! v := of_option KeyErr (assoc "variables" d) in
        let! vd := match v with
                   | VDict vd => Ok vd
                   | VTerm t => Ok (term_dict t)
                   | _ => Err TypeErr
                   end in
        let! t := term_kwargs vd in
        let d1 := dict_set d "variables" (VTerm t) in
        let! m := of_option KeyErr (assoc "M" d1) in
        let! m' := to_float m in
        let d2 := dict_set d1 "M" m' in
        let! t := many_kwargs d2 in
        Ok (TMany t, d2)
  | Some _ => Err Unmodelled
  end.
(** A term argument: a dictionary or a term object. *)
Inductive term_arg := ArgDict (d : dict) | ArgTerm (t : one_term).
(** objectives.py:176-207 [term_factory], with the argument as it is after the call *)
Definition term_factory (x : term_arg) : res (one_term * term_arg) :=
  match x with
  | ArgDict d => let! r := factory_dict d in Ok (fst r, ArgDict (snd r))
  | ArgTerm t => let! r := factory_dict (as_dict t) in Ok (fst r, ArgTerm t)
  end.

(** The [objective] argument of [optimize]: a string, a dictionary (its "terms", if there are any) or a
    CustomObjectiveFunction. *)
Inductive objective_arg := OName (s : string) | ODict (terms : option (list term_arg)) | OTerms (terms : list one_term).
(** objectives.py:607-632: the objective that is used, and the argument after the call *)
Definition resolve_objective (x : objective_arg) : res (objective * objective_arg) :=
  match x with
  | OName s => Ok (ObjName s, x)
  | OTerms ts => Ok (ObjTerms ts, x)
  | ODict None => Err KeyErr
  | ODict (Some args) =>
      let! rs := rmap term_factory args in
      Ok (ObjTerms (map fst rs), ODict (Some (map snd rs)))
  end.
(** objectives.py:584-654 [get_objective] for any argument *)
Definition get_objective_arg (x : objective_arg) (iv : interval_vars) (d : idata Q) : M aexpr :=
  r <- lift (resolve_objective x) ;; get_objective (fst r) iv d.
