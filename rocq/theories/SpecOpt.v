(** * SpecOpt: vocabulary of the statements about single linear programs (C01 - C06) *)
From Verif Require Import Base Pulp Optimizer.
Open Scope Q_scope.

(** the number a value (variable or constant) stands for under an assignment *)
Definition fv (s : assignment) (f : fval) : Q :=
  match f with FVar v => s (v_id v) | FFloat q => q | FInt z => inject_Z z | FNone => 0 end.
(** the variable of a value, if it is one *)
Definition fvars (f : fval) : list lpvar := match f with FVar v => [v] | _ => [] end.

(** A program whose variables were all created before its fresh-identity counter. *)
Definition wf_opt (o : opt) : Prop := forall v, In v (all_occurrences o) -> (v_id v < o_next o)%nat.
(** [s'] gives the same value as [s] to every variable created before identity [n] *)
Definition agree_below (n : nat) (s s' : assignment) : Prop := forall id, (id < n)%nat -> s' id = s id.
(** an operand that existed when the method was called; [s] respects its bounds *)
Definition operand_ok (s : assignment) (o : opt) (f : fval) : Prop :=
  forall v, In v (fvars f) -> (v_id v < o_next o)%nat /\ var_ok s v.
Definition is_binary_var (v : lpvar) : Prop := v_low v = Some 0 /\ v_up v = Some 1 /\ v_int v = true.
(** minimum / maximum of a list of numbers *)
Definition is_min (x : Q) (l : list Q) : Prop := (exists y, In y l /\ y == x) /\ (forall y, In y l -> x <= y).
Definition is_max (x : Q) (l : list Q) : Prop := (exists y, In y l /\ y == x) /\ (forall y, In y l -> y <= x).

(** [s'] extends the solution [s] of program [o] to program [o'] without changing existing variables *)
Definition extends_to (s : assignment) (o o' : opt) : Prop :=
  exists s', agree_below (o_next o) s s' /\ feasible s' o'.

(** change the value of one variable *)
Definition with_value (s : assignment) (v : lpvar) (q : Q) : assignment :=
  fun j => if Nat.eqb j (v_id v) then q else s j.
(** the total coefficient of a variable in an expression *)
Definition coefficient (e : aexpr) (v : lpvar) : Q :=
  Qsum (map (fun t => if Nat.eqb (v_id (fst t)) (v_id v) then snd t else 0) (e_terms e)).
(** [s] solves the program to optimality *)
Definition optimal (s : assignment) (o : opt) : Prop :=
  feasible s o /\ forall s', feasible s' o -> objective_value s o <= objective_value s' o.
(** a program with more constraints and an objective *)
Definition finish (o : opt) (later : list constr) (e : aexpr) : opt :=
  mkOpt (o_next o) (o_cons o ++ map (fun c => (None, c)) later) (Some e).
