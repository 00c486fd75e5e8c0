(** * ConstraintArgs: custom constraints and objectives as the user gives them (constraints.py:65-139, 232-236; assets/site.py:443-533) *)
From Verif Require Import Base Pulp Params Optimizer Types Assets EVs Site Constraints Objectives Extract Pipeline Terms.
Open Scope Q_scope.
Open Scope string_scope.

(** Values in a constraint dictionary.  pydantic may read a text as a number: a text where a number is possible gives
    [Unmodelled]. *)
Inductive cvalue := CvNone | CvStr (s : string) | CvNum (q : Q) | CvTerm (t : cterm) | CvDict (d : list (string * cvalue)) | CvList (l : list cvalue).
Definition cdict := list (string * cvalue).

(** The fields of a ConstraintTerm (constraints.py:57-61) read by pydantic; other keys are ignored. *)
Definition cv_text (d : cdict) (k : string) : res string :=
  match assoc k d with Some (CvStr s) => Ok s | _ => Err ValidationErr end.
Definition cv_opt (d : cdict) (k : string) : res (option string) :=
  match assoc k d with Some (CvStr s) => Ok (Some s) | Some CvNone | None => Ok None | Some _ => Err ValidationErr end.
Definition cv_num (d : cdict) (k : string) (default : Q) : res Q :=
  match assoc k d with Some (CvNum q) => Ok q | None => Ok default | Some (CvStr _) => Err Unmodelled | Some _ => Err ValidationErr end.
Definition cterm_of (d : cdict) : res cterm :=
  let! variable := cv_text d "variable" in
  let! asset_type := cv_opt d "asset_type" in
  let! interval_data := cv_opt d "interval_data" in
  let! asset_name := cv_opt d "asset_name" in
  let! coefficient := cv_num d "coefficient" 1 in
  Ok (mkCterm variable asset_type interval_data asset_name coefficient).
(** constraints.py:82-83, 90-115: one entry of a side.  A dictionary that is no ConstraintTerm stays a dictionary and fails the
    assertion of the validator, which pydantic reports as a ValidationError. *)
Definition entry_of (v : cvalue) : res centry :=
  match v with
  | CvNum q => Ok (CNumber q)
  | CvTerm t => Ok (CTermOf t)
  | CvDict d => let! t := cterm_of d in Ok (CTermOf t)
  | CvStr _ => Err Unmodelled
  | CvNone | CvList _ => Err ValidationErr
  end.
(** a side: one entry or a list of entries *)
Definition side_of (v : option cvalue) : res (list centry) :=
  match v with
  | None => Err ValidationErr
  | Some (CvList l) => rmap entry_of l
  | Some v => let! e := entry_of v in Ok [e]
  end.
(** constraints.py:84 *)
Definition sense_of (v : option cvalue) : res sense :=
  match v with
  | Some (CvStr s) => if s =? "le" then Ok LE else if s =? "eq" then Ok EQ else if s =? "ge" then Ok GE else Err ValidationErr
  | _ => Err ValidationErr
  end.
(** constraints.py:85 *)
Definition aggregation_of (v : option cvalue) : res bool :=
  match v with
  | None | Some CvNone => Ok false
  | Some (CvStr s) => if s =? "sum" then Ok true else Err ValidationErr
  | _ => Err ValidationErr
  end.
(** [Constraint( **d)]: constraints.py:65-139; other keys are ignored; the ValueError of validate_all becomes a ValidationError *)
Definition constraint_of (d : cdict) : res constraint :=
  let! lhs := side_of (assoc "lhs" d) in
  let! rhs := side_of (assoc "rhs" d) in
  let! s := sense_of (assoc "sense" d) in
  let! agg := aggregation_of (assoc "interval_aggregation" d) in
  match make_constraint lhs rhs s agg with Ok k => Ok k | Err _ => Err ValidationErr end.

(** The elements of the [constraints] argument: dictionaries or Constraint objects *)
Inductive constraint_arg := ConDict (d : cdict) | ConObject (k : constraint).
Definition read_constraint (x : constraint_arg) : res constraint :=
  match x with ConDict d => constraint_of d | ConObject k => Ok k end.
(** constraints.py:214-277 for any argument: dictionaries are read when the program is built, not when the site is *)
Definition add_constraint_arg (x : constraint_arg) (iv : interval_vars) (d : idata Q) : M unit :=
  k <- lift (read_constraint x) ;; add_custom_constraint k iv d.

(** Site.optimize (assets/site.py:443-533) with the arguments as the user gives them: [constraints] of the site (None or a list) and
    the [objective]. *)
Definition build_program_args (c : site_cfg) (assets : list asset) (cons : option (list constraint_arg)) (obj : objective_arg) (fl : flags)
  : M interval_vars :=
  iv <- build_base c assets fl ;;
  match cons with None => ret tt | Some l => forM_ l (fun x => add_constraint_arg x iv (sc_idata c)) end ;;;
  e <- get_objective_arg obj iv (sc_idata c) ;;
  set_objective e ;;;
  ret iv.
Definition optimize_args (slv : solver) (base : nat) (c : site_cfg) (assets : list asset) (cons : option (list constraint_arg))
    (obj : objective_arg) (fl : flags) : res sim_result :=
  match build_program_args c assets cons obj fl (new_optimizer base) with
  | Err e => Err e
  | Ok (iv, o) =>
      let! ss := solve slv (allow_infeasible fl) o in
      extract_results (var_value o (snd ss)) (sc_idata c) assets iv (fst ss) fl
  end.
