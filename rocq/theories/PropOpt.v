(** * PropOpt: properties C01 - C06 (the Optimizer's building blocks) *)
From Verif Require Import Base Pulp Params Optimizer Types SpecOpt Check Emit Prim OptFacts.
Open Scope Q_scope.

(** ** C01: min_two_variables is exact, and cuts off exactly the assignments with |a - b| > M *)
Theorem C01_min_two_exact : forall name a b M o cv o',
  min_two_variables name a b M o = Ok (cv, o') -> wf_opt o ->
  (forall s, feasible s o' -> s (v_id cv) == Qmin (fv s a) (fv s b)) /\
  (forall s, feasible s o -> operand_ok s o a -> operand_ok s o b ->
     (extends_to s o o' <-> Qabs (fv s a - fv s b) <= M)).
Proof. exact min_two_exact. Qed.

Example C01_sample :
  (exists cv o', min_two_variables "some-min" (FVar va) (FFloat 3) 10 ab_program = Ok (cv, o') /\
     feasible (of_list [1; 4; 1; 1]) o' /\ ~ feasible (of_list [1; 4; 3; 1]) o') /\
  wf_opt ab_program /\ feasible (of_list [1; 4]) ab_program /\ operand_ok (of_list [1; 4]) ab_program (FVar va).
Proof.
  splits; [|exact ab_wf|apply ab_feasible|apply ab_operands].
  do 2 eexists. splits; [reflexivity|apply feasibleb_iff; reflexivity|rewrite <- feasibleb_iff; discriminate].
Qed.

(** ** C02 *)
Theorem C02_max_two_exact : forall name a b M o cv o',
  max_two_variables name a b M o = Ok (cv, o') -> wf_opt o ->
  (forall s, feasible s o' -> s (v_id cv) == Qmax (fv s a) (fv s b)) /\
  (forall s, feasible s o -> operand_ok s o a -> operand_ok s o b ->
     (extends_to s o o' <-> Qabs (fv s a - fv s b) <= M)).
Proof. exact max_two_exact. Qed.

Example C02_sample :
  exists cv o', max_two_variables "some-max" (FVar va) (FVar vb) 10 ab_program = Ok (cv, o') /\
     feasible (of_list [1; 4; 4; 1]) o' /\ ~ feasible (of_list [1; 4; 5; 1]) o'.
Proof. do 2 eexists. splits; [reflexivity|apply feasibleb_iff; reflexivity|rewrite <- feasibleb_iff; discriminate]. Qed.

(** ** C03: min_many_variables.  Feasible exactly when M covers the gap of every non-minimal element;
    in particular never for the empty list. *)
Theorem C03_min_many_exact : forall name vs M o mv o',
  min_many_variables name vs M o = Ok (mv, o') -> wf_opt o ->
  (forall s, feasible s o' -> is_min (s (v_id mv)) (map (fv s) vs)) /\
  (forall s, feasible s o -> Forall (operand_ok s o) vs ->
     (extends_to s o o' <->
      exists m, is_min m (map (fv s) vs) /\ forall v, In v vs -> fv s v == m \/ fv s v - m <= M)).
Proof. exact min_many_exact. Qed.

Example C03_sample :
  exists cv o', min_many_variables "min_many" [FVar va; FVar vb; FFloat 2] 10 ab_program = Ok (cv, o') /\
     feasible (of_list [1; 4; 1; 0; 1; 1]) o' /\ ~ feasible (of_list [1; 4; (1#2); 0; 1; 1]) o'.
Proof. do 2 eexists. splits; [reflexivity|apply feasibleb_iff; reflexivity|rewrite <- feasibleb_iff; discriminate]. Qed.

(** ** C04: max_many_variables gives an upper bound in every feasible solution ... *)
Theorem C04_max_many_upper_bound : forall name vs M o mv o',
  max_many_variables name vs M o = Ok (mv, o') ->
  forall s, feasible s o' -> forall v, In v vs -> fv s v <= s (v_id mv).
Proof. exact Prim.max_many_meaning. Qed.

(** ... and the maximum in every solution that minimises an objective where it has a positive
    coefficient (other constraints and objective terms are arbitrary as long as they do not use it) *)
Theorem C04_max_many_exact_when_minimised : forall name vs M o mv o',
  max_many_variables name vs M o = Ok (mv, o') -> wf_opt o -> o_obj o = None ->
  (forall v w, In v vs -> In w (fvars v) -> (v_id w < o_next o)%nat) -> vs <> [] ->
  forall later e, (forall w, In w (flat_map (fun c => evars (c_expr c)) later) -> v_id w <> v_id mv) ->
  (forall w, In w (evars e) -> v_id w = v_id mv -> w = mv) ->
  0 < coefficient e mv ->
  forall s, optimal s (finish o' later e) -> is_max (s (v_id mv)) (map (fv s) vs).
Proof. exact max_many_exact. Qed.

Example C04_sample : exists s, optimal s (finish mm_opt [] (evar mm_var)) /\ 0 < coefficient (evar mm_var) mm_var /\
  max_many_variables "max_many" [FVar va; FVar vb] 10 ab_program = Ok (mm_var, mm_opt) /\ s (v_id mm_var) == 4.
Proof. exact max_many_positive_sample. Qed.

(** ... but with a negative coefficient nothing keeps it at the maximum: minimising
    - max_many([1, 4], M = 10) returns 11 *)
Theorem C04_max_many_negative_coefficient_refuted :
  exists name vs M o mv o' later e s,
    max_many_variables name vs M o = Ok (mv, o') /\ wf_opt o /\ o_obj o = None /\ vs <> [] /\
    (forall v w, In v vs -> In w (fvars v) -> (v_id w < o_next o)%nat) /\
    (forall w, In w (flat_map (fun c => evars (c_expr c)) later) -> v_id w <> v_id mv) /\
    optimal s (finish o' later e) /\ coefficient e mv == - (1) /\
    ~ is_max (s (v_id mv)) (map (fv s) vs).
Proof. exact max_many_negative. Qed.

(** ** C05: constrain_max and constrain_min with one (otherwise unused) binary *)
Theorem C05_semicontinuous : forall x b mx mn o o1 o2,
  constrain_max (FVar x) (FVar b) mx o = Ok (tt, o1) -> constrain_min (FVar x) (FVar b) mn o1 = Ok (tt, o2) ->
  is_binary_var b -> v_low x = Some 0 -> v_id b <> v_id x -> mn <= mx ->
  (forall v, In v (all_occurrences o) -> v_id v <> v_id b) ->
  (forall s, feasible s o2 -> s (v_id x) == 0 \/ (mn <= s (v_id x) /\ s (v_id x) <= mx)) /\
  (forall s, feasible s o -> var_ok s x ->
    ((exists q, feasible (with_value s b q) o2) <-> s (v_id x) == 0 \/ (mn <= s (v_id x) /\ s (v_id x) <= mx))).
Proof. exact semicontinuous_exact. Qed.

Example C05_sample : let b := mkVar 2 "b" true (Some 0) (Some 1) in
  exists o1 o2, constrain_max (FVar va) (FVar b) 5 ab_program = Ok (tt, o1) /\
    constrain_min (FVar va) (FVar b) (1#2) o1 = Ok (tt, o2) /\ is_binary_var b /\ v_low va = Some 0 /\
    (forall v, In v (all_occurrences ab_program) -> v_id v <> v_id b) /\
    feasible (of_list [1; 4; 1]) o2 /\ ~ feasible (of_list [1; 4; 0]) o2.
Proof.
  do 2 eexists. splits; [reflexivity|reflexivity|repeat split|reflexivity| | |].
  - intros v [<-|[<-|[]]]; discriminate.
  - apply feasibleb_iff; reflexivity.
  - rewrite <- feasibleb_iff; discriminate.
Qed.

(** ** C06: a solved program has pairwise different variable names ... *)
Theorem C06_unique_names : forall slv allow_inf o r, solve slv allow_inf o = Ok r ->
  forall v w, In v (all_occurrences o) -> In w (all_occurrences o) -> v_name v = v_name w ->
  (forall x y, In x (all_occurrences o) -> In y (all_occurrences o) -> v_id x = v_id y -> v_name x = v_name y) ->
  v_id v = v_id w.
Proof. exact solve_unique_names. Qed.

(** ... and any two different variables with names equal after pulp's character replacement are
    refused by an AssertionError, whatever the solver *)
Theorem C06_clash_rejected : forall slv allow_inf n1 n2 l1 u1 l2 u2 o v o1 w o2 c later e,
  continuous n1 l1 u1 o = Ok (v, o1) -> continuous n2 l2 u2 o1 = Ok (w, o2) ->
  wf_opt o -> sanitize n1 = sanitize n2 ->
  In v (evars (c_expr c)) -> In w (evars (c_expr c)) ->
  (* an identity denotes one Python object *)
  (forall x, In x (all_occurrences (finish o2 (c :: later) e)) -> (v_id x = v_id v -> x = v) /\ (v_id x = v_id w -> x = w)) ->
  solve slv allow_inf (finish o2 (c :: later) e) = Err AssertionErr.
Proof. exact clash_rejected. Qed.

Example C06_sample : sanitize "battery-1" = sanitize "battery/1" /\
  (forall slv, exists o, solve slv false o = Err AssertionErr /\ variables o = [va; mkVar 5 "a" false None None]).
Proof.
  split; [reflexivity|]. intros slv.
  exists (mkOpt 6 [(None, cle (evar va) (evar (mkVar 5 "a" false None None)))] None). split; reflexivity.
Qed.
