(** * Optimizer: energypylinear/optimizer.py

    The optimizer object is a state: the next fresh variable identity, the
    constraints added so far and the objective.  A method that may raise and
    changes the optimizer is a value of [M A]. *)
From Verif Require Import Base Pulp.
Open Scope Q_scope.

(** energypylinear/optimizer.py:50-65 (the solver settings and the problem name are not modelled) *)
Record opt := mkOpt {
  o_next : nat;
  o_cons : list (option string * constr);
  o_obj : option aexpr
}.
(** [Optimizer()]: [pulp.LpProblem]. Identities start at [base]: a Python process
    may have created other variables before. *)
Definition new_optimizer (base : nat) : opt := mkOpt base [] None.

Definition M (A : Type) : Type := opt -> res (A * opt).
Definition ret {A} (a : A) : M A := fun o => Ok (a, o).
Definition bind {A B} (m : M A) (f : A -> M B) : M B :=
  fun o => match m o with Ok (a, o') => f a o' | Err e => Err e end.
Definition raise {A} (e : pyerr) : M A := fun _ => Err e.
Definition lift {A} (r : res A) : M A := fun o => match r with Ok a => Ok (a, o) | Err e => Err e end.
Definition massert (b : bool) : M unit := if b then ret tt else raise AssertionErr.

Notation "x <- m ;; f" := (bind m (fun x => f)) (at level 61, m at next level, right associativity).
Notation "m ;;; f" := (bind m (fun _ => f)) (at level 61, right associativity).

(** [for x in l: f(x)] *)
Fixpoint forM_ {A} (l : list A) (f : A -> M unit) : M unit :=
  match l with [] => ret tt | x :: xs => f x ;;; forM_ xs f end.
(** list comprehension [[f(x) for x in l]] *)
Fixpoint forM {A B} (l : list A) (f : A -> M B) : M (list B) :=
  match l with [] => ret [] | x :: xs => y <- f x ;; ys <- forM xs f ;; ret (y :: ys) end.

(** energypylinear/optimizer.py:71-81 *)
Definition continuous (name : string) (low up : option Q) : M lpvar :=
  fun o => Ok (mkVar (o_next o) (sanitize name) false low up,
               mkOpt (S (o_next o)) (o_cons o) (o_obj o)).
(** energypylinear/optimizer.py:83-89 *)
Definition binary (name : string) : M lpvar :=
  fun o => Ok (mkVar (o_next o) (sanitize name) true (Some 0) (Some 1),
               mkOpt (S (o_next o)) (o_cons o) (o_obj o)).
(** energypylinear/optimizer.py:101-108; pulp raises on overlapping constraint names,
    unnamed constraints get an unused automatic name. *)
Definition constrain_named (c : constr) (name : option string) : M unit :=
  fun o =>
    match name with
    | Some n =>
        if existsb (fun nc => match fst nc with Some m => String.eqb n m | None => false end) (o_cons o)
        then Err PulpErr
        else Ok (tt, mkOpt (o_next o) (o_cons o ++ [(name, c)]) (o_obj o))
    | None => Ok (tt, mkOpt (o_next o) (o_cons o ++ [(None, c)]) (o_obj o))
    end.
Definition constrain (c : constr) : M unit := constrain_named c None.
(** energypylinear/optimizer.py:110-116 *)
Definition set_objective (e : aexpr) : M unit :=
  fun o => Ok (tt, mkOpt (o_next o) (o_cons o) (Some e)).

(** Numbers or variables, as found in the attributes of one-interval objects
    ([pulp.LpVariable | float], sometimes int 0 or None). *)
Inductive fval := FVar (v : lpvar) | FFloat (q : Q) | FInt (z : Z) | FNone.

(** Use of a value as a summand: pulp adds numbers to the constant and ignores None. *)
Definition fexpr (f : fval) : aexpr :=
  match f with
  | FVar v => evar v
  | FFloat q => econst q
  | FInt z => econst (inject_Z z)
  | FNone => econst 0
  end.
Definition is_float (f : fval) : bool := match f with FFloat _ => true | _ => false end.

(** energypylinear/optimizer.py:173-183: continuous - binary * max <= 0 *)
Definition constrain_max (c b : fval) (mx : Q) : M unit :=
  constrain (cle (esub (fexpr c) (escale (fexpr b) mx)) (econst 0)).
(** energypylinear/optimizer.py:185-195: -continuous + binary * min <= 0 *)
Definition constrain_min (c b : fval) (mn : Q) : M unit :=
  constrain (cle (eadd (eneg (fexpr c)) (escale (fexpr b) mn)) (econst 0)).

(** energypylinear/optimizer.py:197-221 *)
Definition min_two_variables (name : string) (a b : fval) (bigM : Q) : M lpvar :=
  massert (negb (is_float a && is_float b)) ;;;
  massert (contains "min" name) ;;;
  cv <- continuous (name ++ "-continuous") None None ;;
  cb <- binary (name ++ "-binary") ;;
  constrain (cge (fexpr a) (evar cv)) ;;;
  constrain (cge (fexpr b) (evar cv)) ;;;
  constrain (cge (evar cv) (esub (fexpr a) (escale (esub (econst 1) (evar cb)) bigM))) ;;;
  constrain (cge (evar cv) (esub (fexpr b) (escale (evar cb) bigM))) ;;;
  ret cv.

(** energypylinear/optimizer.py:223-251 *)
Definition max_two_variables (name : string) (a b : fval) (bigM : Q) : M lpvar :=
  massert (negb (is_float a && is_float b)) ;;;
  massert (contains "max" name) ;;;
  cv <- continuous (name ++ "-continuous") None None ;;
  cb <- binary (name ++ "-binary") ;;
  constrain (cge (evar cv) (fexpr a)) ;;;
  constrain (cge (evar cv) (fexpr b)) ;;;
  constrain (cge (eadd (fexpr a) (escale (evar cb) bigM)) (evar cv)) ;;;
  constrain (cge (eadd (fexpr b) (escale (esub (econst 1) (evar cb)) bigM)) (evar cv)) ;;;
  ret cv.

(** energypylinear/optimizer.py:269-273 and 300-304: the sign assertion *)
Definition nonneg_check (v : fval) : M unit :=
  match v with
  | FVar x => match v_low x with
              | Some l => massert (Qle_bool 0 l)
              | None => raise TypeErr          (* None >= 0 *)
              end
  | FFloat q => massert (Qle_bool 0 q)
  | FInt z => massert (0 <=? z)%Z
  | FNone => raise TypeErr
  end.

(** energypylinear/optimizer.py:267, 298: one binary per variable *)
Fixpoint many_binaries (name : string) (i : nat) {A} (l : list A) : M (list lpvar) :=
  match l with
  | [] => ret []
  | _ :: xs => b <- binary (name ++ "-binary-" ++ show i) ;;
               bs <- many_binaries name (S i) xs ;;
               ret (b :: bs)
  end.

(** energypylinear/optimizer.py:253-280 *)
Definition min_many_variables (name : string) (vs : list fval) (bigM : Q) : M lpvar :=
  massert (contains "min_many" name) ;;;
  mv <- continuous (name ++ "-continuous") None None ;;
  bs <- many_binaries name 0 vs ;;
  forM_ vs nonneg_check ;;;
  forM_ (combine vs bs) (fun vb =>
    constrain (cle (evar mv) (fexpr (fst vb))) ;;;
    constrain (cle (esub (fexpr (fst vb)) (escale (evar (snd vb)) bigM)) (evar mv))) ;;;
  constrain (cle (esum (map evar bs)) (econst (inject_Z (Z.of_nat (List.length vs) - 1)))) ;;;
  ret mv.

(** energypylinear/optimizer.py:282-310 *)
Definition max_many_variables (name : string) (vs : list fval) (bigM : Q) : M lpvar :=
  massert (contains "max_many" name) ;;;
  mv <- continuous (name ++ "-continuous") None None ;;
  bs <- many_binaries name 0 vs ;;
  forM_ vs nonneg_check ;;;
  forM_ (combine vs bs) (fun vb =>
    constrain (cge (evar mv) (fexpr (fst vb))) ;;;
    match fst vb with
    | FVar v =>
        constrain (cge (eadd (evar v) (escale (esub (econst 1) (evar (snd vb))) bigM)) (evar mv))
    | _ => ret tt
    end) ;;;
  ret mv.

(** [LpProblem.variables()]: variables of the objective and of the constraints, each object once. *)
Definition all_occurrences (o : opt) : list lpvar :=
  (match o_obj o with Some e => evars e | None => [] end)
  ++ flat_map (fun nc => evars (c_expr (snd nc))) (o_cons o).
Fixpoint dedup_id (seen : list nat) (l : list lpvar) : list lpvar :=
  match l with
  | [] => []
  | v :: r => if existsb (Nat.eqb (v_id v)) seen then dedup_id seen r
              else v :: dedup_id (v_id v :: seen) r
  end.
Definition variables (o : opt) : list lpvar := dedup_id [] (all_occurrences o).

(** Feasibility of the program handed to the solver. *)
Definition feasible (s : assignment) (o : opt) : Prop :=
  Forall (fun nc => constr_ok s (snd nc)) (o_cons o) /\
  match o_obj o with Some e => Forall (var_ok s) (evars e) | None => True end.
Definition objective_value (s : assignment) (o : opt) : Q :=
  match o_obj o with Some e => eval s e | None => 0 end.

(** ** Solving.  CBC is an oracle: given the program it answers a status and,
    for each variable identity, a value or None. *)
Inductive lp_status := NotSolved | Optimal | Infeasible | Unbounded | Undefined.
Definition is_optimal (s : lp_status) : bool := match s with Optimal => true | _ => false end.
(** For the solve PuLP (LpProblem.fixObjective) adds a variable __dummy to an objective that has no variable, and takes it
    out again with coefficient 0: the objective then has a value only if __dummy has one.  In PuLP 2.9.0, the version of
    poetry.lock, it has none; the model leaves it to the oracle ([sol_dummy]). *)
Record solution := mkSol { sol_status : lp_status; sol_value : nat -> option Q; sol_dummy : option Q }.
Definition solver := opt -> solution.

(** [LpVariable.value()] after the solve: variables that are not part of the program keep None. *)
Definition occurs (o : opt) (v : lpvar) : bool :=
  existsb (fun w => Nat.eqb (v_id v) (v_id w)) (all_occurrences o).
Definition var_value (o : opt) (sol : solution) (v : lpvar) : option Q :=
  if occurs o v then sol_value sol (v_id v) else None.

(** Assumed behaviour of the solver (trusted base), in two strengths.  The solver is PuLP's CBC as configured by
    OptimizerConfig (energypylinear/optimizer.py:24-38 and 50-65: presolve, gapRel, timeLimit).
    First: when it answers Optimal, the values are a feasible solution.  PuLP also answers Optimal for the best solution found
    when the time limit strikes, and with a relative tolerance for one close to the optimum. *)
Definition honest_solver (slv : solver) : Prop :=
  forall o, sol_status (slv o) = Optimal ->
    exists s, feasible s o /\ (forall v, occurs o v = true -> sol_value (slv o) (v_id v) = Some (s (v_id v))).
(** for one program: no feasible solution is better than the answer by more than [gap] *)
Definition answered_within (gap : Q) (slv : solver) (o : opt) : Prop :=
  sol_status (slv o) = Optimal -> forall s, (forall v, occurs o v = true -> sol_value (slv o) (v_id v) = Some (s (v_id v))) ->
  forall s', feasible s' o -> objective_value s o <= objective_value s' o + gap.
(** Second: (relative_tolerance = 0, no time limit reached) the values are a feasible solution minimising the objective. *)
Definition sound_solver (slv : solver) : Prop :=
  forall o, sol_status (slv o) = Optimal ->
    exists s, feasible s o /\
      (forall v, occurs o v = true -> sol_value (slv o) (v_id v) = Some (s (v_id v))) /\
      (forall s', feasible s' o -> objective_value s o <= objective_value s' o).

Lemma sound_honest slv : sound_solver slv -> honest_solver slv.
Proof. intros H o ST. destruct (H o ST) as (s & F & V & _). eauto. Qed.

(** and it does not answer Infeasible on a feasible program. *)
Definition complete_solver (slv : solver) : Prop :=
  forall o s, feasible s o -> sol_status (slv o) <> Infeasible.

Record opt_status := mkStatus { st_status : lp_status; st_feasible : bool; st_objective : option Q }.

(** pulp.value(objective): None as soon as one variable has no value *)
Fixpoint terms_value (o : opt) (sol : solution) (l : list (lpvar * Q)) : option Q :=
  match l with
  | [] => Some 0
  | (v, k) :: r => match var_value o sol v, terms_value o sol r with
                   | Some x, Some y => Some (k * x + y)
                   | _, _ => None
                   end
  end.
Definition is_constant (e : aexpr) : bool := match e_terms e with [] => true | _ => false end.
Definition expr_value (o : opt) (sol : solution) (e : aexpr) : option Q :=
  if (is_constant e && match sol_dummy sol with None => true | _ => false end)%bool then None
  else match terms_value o sol (e_terms e) with Some x => Some (x + e_const e) | None => None end.

(** energypylinear/optimizer.py:147-154 *)
Definition assert_no_duplicate_variables (o : opt) : res unit :=
  rassert (nodup_str (map v_name (variables o))).

(** energypylinear/optimizer.py:118-145 (its log: Logging.v) *)
Definition solve (slv : solver) (allow_inf : bool) (o : opt) : res (opt_status * solution) :=
  let! _ := assert_no_duplicate_variables o in
  let sol := slv o in
  let objective := match o_obj o with Some e => expr_value o sol e | None => None end in
  let feas := is_optimal (sol_status sol) in
  let! _ := (if allow_inf then Ok tt
             else check feas ;; rassert (match objective with Some _ => true | None => false end)) in
  Ok (mkStatus (sol_status sol) feas objective, sol).

(** energypylinear/optimizer.py:312-331: [Optimizer.value] *)
Definition opt_value (o : opt) (sol : solution) (f : fval) (clip : bool) : res Q :=
  let! x := match f with
            | FVar v => of_option AssertionErr (var_value o sol v)
            | FFloat q => Ok q
            | FInt z => Ok (inject_Z z)
            | FNone => Err TypeErr           (* float(None) *)
            end in
  Ok (if clip then Qmax x 0 else x).
