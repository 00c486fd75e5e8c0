(** * Pulp: the fragment of the third party library [pulp] that the code uses.

    Not code of /repo: this file is the (trusted) contract of pulp objects
    that /repo/energypylinear/optimizer.py:10,81,89,99,108,116 relies on.

    - [LpVariable]: identity [v_id] (Python object identity), a name in which
      the characters - + [ ] space > / are replaced by an underscore, integrality and bounds;
    - [LpAffineExpression]: a finite sum of coefficient * variable plus a
      constant.  pulp merges repeated variables in a dict, we keep a list:
      same value, same set of occurring variables.  Multiplying an expression
      by the number 0 drops all its terms, as pulp does;
    - [LpConstraint]: expression compared with 0. *)
From Verif Require Import Base.
Open Scope Q_scope.

Record lpvar := mkVar {
  v_id : nat;
  v_name : string;
  v_int : bool;             (* cat == Integer; "Binary" is Integer with bounds 0, 1 *)
  v_low : option Q;         (* lowBound, None is -oo *)
  v_up : option Q           (* upBound, None is +oo *)
}.

Record aexpr := mkExpr { e_terms : list (lpvar * Q); e_const : Q }.

Inductive sense := LE | EQ | GE.

Record constr := mkC { c_expr : aexpr; c_sense : sense }.

(** pulp.LpElement.setName: characters that are illegal in an lp file. *)
Definition sanitize_char (c : ascii) : ascii :=
  if existsb (Ascii.eqb c) ["-"; "+"; "["; "]"; " "; ">"; "/"]%char then "_"%char else c.
Fixpoint sanitize (s : string) : string :=
  match s with EmptyString => EmptyString | String c s' => String (sanitize_char c) (sanitize s') end.

(** Expression algebra. *)
Definition evar (v : lpvar) : aexpr := mkExpr [(v, 1)] 0.
Definition econst (q : Q) : aexpr := mkExpr [] q.
Definition eadd (a b : aexpr) : aexpr :=
  mkExpr (e_terms a ++ e_terms b) (e_const a + e_const b).
Definition escale (a : aexpr) (q : Q) : aexpr :=
  if Qeq_bool q 0 then econst 0
  else mkExpr (map (fun t => (fst t, snd t * q)) (e_terms a)) (e_const a * q).
Definition eneg (a : aexpr) : aexpr := mkExpr (map (fun t => (fst t, - snd t)) (e_terms a)) (- e_const a).
Definition esub (a b : aexpr) : aexpr := eadd a (eneg b).
(** pulp.lpSum *)
Definition esum (l : list aexpr) : aexpr := fold_left eadd l (econst 0).

(** a <= b, a >= b, a == b *)
Definition cle (a b : aexpr) : constr := mkC (esub a b) LE.
Definition cge (a b : aexpr) : constr := mkC (esub a b) GE.
Definition ceq (a b : aexpr) : constr := mkC (esub a b) EQ.

(** ** Semantics of a linear program *)
Definition assignment := nat -> Q.

Definition tval (s : assignment) (t : lpvar * Q) : Q := snd t * s (v_id (fst t)).
Definition eval (s : assignment) (e : aexpr) : Q := Qsum (map (tval s) (e_terms e)) + e_const e.

Definition sense_holds (k : sense) (x : Q) : Prop :=
  match k with LE => x <= 0 | EQ => x == 0 | GE => 0 <= x end.

(** A variable respects its bounds and its integrality. *)
Definition var_ok (s : assignment) (v : lpvar) : Prop :=
  (forall l, v_low v = Some l -> l <= s (v_id v)) /\
  (forall u, v_up v = Some u -> s (v_id v) <= u) /\
  (v_int v = true -> exists z : Z, s (v_id v) == inject_Z z).

(** The variables pulp knows about are those occurring in a constraint or in
    the objective ([LpProblem.variables()]); only their bounds are enforced. *)
Definition evars (e : aexpr) : list lpvar := map fst (e_terms e).

Definition constr_ok (s : assignment) (c : constr) : Prop :=
  sense_holds (c_sense c) (eval s (c_expr c)) /\ Forall (var_ok s) (evars (c_expr c)).
