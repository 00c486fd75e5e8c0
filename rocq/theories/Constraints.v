(** * Constraints: energypylinear/constraints.py *)
From Verif Require Import Base Pulp Params Optimizer Types.
Open Scope Q_scope.

(** energypylinear/constraints.py:12-61 *)
Record cterm := mkCterm {
  ct_variable : string;
  ct_asset_type : option string;
  ct_interval_data : option string;
  ct_asset_name : option string;
  ct_coefficient : Q }.
Inductive centry := CNumber (q : Q) | CTermOf (t : cterm).

(** energypylinear/constraints.py:67-87.  A side that is a single float or term behaves as
    the list of this one element (constraints.py:191-211). *)
Record constraint := mkConstraint {
  cn_lhs : list centry;
  cn_rhs : list centry;
  cn_sense : sense;
  cn_sum : bool                   (* interval_aggregation == "sum" *)
}.

(** energypylinear/constraints.py:117-139: validate_all *)
Definition all_floats (l : list centry) : bool :=
  forallb (fun e => match e with CNumber _ => true | CTermOf _ => false end) l.
Definition make_constraint (lhs rhs : list centry) (s : sense) (agg : bool) : res constraint :=
  if (all_floats lhs && all_floats rhs)%bool then Err ValueErr else Ok (mkConstraint lhs rhs s agg).

(** The value of an attribute, None replaced by 0 (constraints.py:168, objectives.py:228-229) *)
Definition none_to_zero (f : fval) : fval := match f with FNone => FInt 0 | _ => f end.

(** interval data factor, constraints.py:169-173 *)
Definition data_factor (d : idata Q) (name : option string) (i : nat) : res Q :=
  match name with Some n => id_get d n i | None => Ok 1 end.

(** constraints.py:142-176 *)
Definition resolve_constraint_term (t : centry) (iv : interval_vars) (d : idata Q) (i : nat) (divide : bool)
  : res (list aexpr) :=
  match t with
  | CNumber q =>
      if divide then
        if Nat.eqb (id_n d) 0 then Err ZeroDivErr
        else Ok [econst (q / inject_Z (Z.of_nat (id_n d)))]
      else Ok [econst (q / 1)]
  | CTermOf t =>
      let! vars := filter_objective_variables_str iv (Z.of_nat i) (ct_asset_type t) (ct_asset_name t) in
      rmap (fun v =>
              let! f := getattr v (ct_variable t) in
              let! x := data_factor d (ct_interval_data t) i in
              Ok (escale (escale (fexpr (none_to_zero f)) x) (ct_coefficient t))) vars
  end.

(** constraints.py:179-211 *)
Definition add_terms (side : list centry) (iv : interval_vars) (d : idata Q) (i : nat) (divide : bool)
  : res (list aexpr) :=
  let! ls := rmap (fun t => resolve_constraint_term t iv d i divide) side in Ok (List.concat ls).

(** The loop of constraints.py:239-270 *)
Fixpoint custom_loop (c : constraint) (iv : interval_vars) (d : idata Q) (lhs rhs : list aexpr) (idx : list nat)
  : M (list aexpr * list aexpr) :=
  match idx with
  | [] => ret (lhs, rhs)
  | i :: r =>
      l <- lift (add_terms (cn_lhs c) iv d i (cn_sum c)) ;;
      g <- lift (add_terms (cn_rhs c) iv d i (cn_sum c)) ;;
      let lhs' := (lhs ++ l)%list in
      let rhs' := (rhs ++ g)%list in
      massert (negb (Nat.eqb (List.length lhs') 0)) ;;;
      massert (negb (Nat.eqb (List.length rhs') 0)) ;;;
      if cn_sum c then custom_loop c iv d lhs' rhs' r
      else
        constrain (mkC (esub (esum lhs') (esum rhs')) (cn_sense c)) ;;;
        custom_loop c iv d [] [] r
  end.
(** constraints.py:214-277 *)
Definition add_custom_constraint (c : constraint) (iv : interval_vars) (d : idata Q) : M unit :=
  sides <- custom_loop c iv d [] [] (seq 0 (id_n d)) ;;
  if cn_sum c
  then constrain (mkC (esub (esum (fst sides)) (esum (snd sides))) (cn_sense c))
  else ret tt.
