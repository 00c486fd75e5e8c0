(** * Pipeline: Site.optimize, energypylinear/assets/site.py:443-533 *)
From Verif Require Import Base Pulp Params Optimizer Types Assets EVs Site Constraints Objectives Extract.

(** assets/site.py:462-519: the program of one optimize call *)
Definition build_program (c : site_cfg) (assets : list asset) (cons : list constraint) (obj : objective) (fl : flags)
  : M interval_vars :=
  iv <- build_base c assets fl ;;
  forM_ cons (fun k => add_custom_constraint k iv (sc_idata c)) ;;;
  e <- get_objective obj iv (sc_idata c) ;;
  set_objective e ;;;
  ret iv.

(** assets/site.py:443-533.  [base]: identities already used in the process. *)
Definition optimize (slv : solver) (base : nat) (c : site_cfg) (assets : list asset) (cons : list constraint)
    (obj : objective) (fl : flags) : res sim_result :=
  match build_program c assets cons obj fl (new_optimizer base) with
  | Err e => Err e
  | Ok (iv, o) =>
      let! ss := solve slv (allow_infeasible fl) o in
      extract_results (var_value o (snd ss)) (sc_idata c) assets iv (fst ss) fl
  end.
