(** * SampleHistory: C47 at work, and the case it excludes *)
From Verif Require Import Base Pulp Params Optimizer Types Assets EVs Site Constraints Objectives Extract Pipeline IntervalData Process Check Lucky Prim Emit Mono Shift ShiftRun Blind PropHistory.
Open Scope Q_scope.
Open Scope string_scope.

(** one solar asset with three numbers, used by two sites *)
Definition h_solar : asset := ARenewable (mkRgCfg "solar" 0 [1; 2; 3] true).
Definition h_input (n : nat) : site_input := mkInput (Series (repeat (Num 1) n)) (Scalar (Num 0)) Missing Missing Missing Missing Missing Missing.
Definition h_site (n : nat) : call := NewSite [0%nat] (h_input n) [] 60%Z 100 100 [].
Definition h_run (k : nat) : call := Optimize k (ObjName "price") default_flags.
(** a solver that always exports the sun *)
Definition h_solver : solver := blindly (lucky [0; 1; 0; 1; 1;  0; 2; 0; 1; 2;  0; 3; 0; 1; 3;  0; 1; 0; 1; 1]).
Lemma h_sound : sound_solver h_solver.
Proof. apply blindly_sound, lucky_sound. Qed.
Lemma h_blind : blind h_solver.
Proof. apply blindly_blind. Qed.

Definition h0 : process := mkProcess 0 [h_solar] [].
Definition h1 : process := fst (new_site h0 [0%nat] (h_input 4) [] 60%Z 100 100 []).
Definition h_result : res sim_result :=
  match nth_error (p_sites h1) 0 with
  | Some s => match data_numbers (so_data s) with
              | Some d => optimize h_solver 0 (mkSiteCfg d 60%Z 100 100) (p_assets h1) [] (ObjName "price") default_flags
              | None => Err Unmodelled end
  | None => Err Unmodelled end.
(** the first site sees the sun for four intervals *)
Example h_first : exists r, h_result = Ok r /\ r_feasible r = true /\ p_assets h1 = [ARenewable (mkRgCfg "solar" 0 [1; 2; 3; 1] true)].
Proof. eexists. splits; vm_compute; reflexivity. Qed.

Lemma h_make : steps h_solver fresh_process [(Make h_solar, Done)] h0.
Proof. econstructor; [apply step_make|constructor]. Qed.
Lemma h_built : step h_solver h0 (h_site 4) h1 Done.
Proof. apply step_site; [repeat constructor|vm_compute; reflexivity]. Qed.


Definition h_cfg : site_cfg := mkSiteCfg (mkIdata [1; 1; 1; 1] [0; 0; 0; 0] [1#10; 1#10; 1#10; 1#10] [20; 20; 20; 20] [0; 0; 0; 0] [0; 0; 0; 0] [0; 0; 0; 0] [0; 0; 0; 0] 4 []) 60%Z 100 100.
Definition h_assets : list asset := [ARenewable (mkRgCfg "solar" 0 [1; 2; 3; 1] true)].
(** running the first site, in any state where it and the solar asset are as built *)
Lemma h_optimize p sites next : p_assets p = h_assets -> p_sites p = (p_sites h1 ++ sites)%list ->
  match build_program h_cfg h_assets [] (ObjName "price") default_flags (new_optimizer (p_next p)) with Ok (_, o) => next = o_next o | Err _ => False end ->
  step h_solver p (h_run 0) (mkProcess next (p_assets p) (p_sites p)) (as_outcome (optimize h_solver (p_next p) h_cfg h_assets [] (ObjName "price") default_flags)).
Proof.
  intros A S B. assert (nth_error (p_sites p) 0 = nth_error (p_sites h1) 0) as N by (rewrite S; reflexivity).
  destruct (nth_error (p_sites h1) 0) as [s|] eqn:E; [|vm_compute in E; discriminate E].
  assert (data_numbers (so_data s) = Some (sc_idata h_cfg) /\ so_freq s = 60%Z /\ so_import_limit s = 100 /\ so_export_limit s = 100 /\ so_refs s = [0%nat] /\ so_constraints s = []) as (D & F & IL & EL & R & C).
  { vm_compute in E. injection E as <-. splits; vm_compute; reflexivity. }
  pose proof (step_optimize h_solver p 0 (ObjName "price") default_flags s (sc_idata h_cfg) next N D) as K. rewrite F, IL, EL, R, C in K. rewrite A in *. cbn [resolve flat_map nth_error h_assets app] in K.
  apply K. fold h_assets. change (mkSiteCfg (sc_idata h_cfg) 60%Z 100 100) with h_cfg. destruct (build_program h_cfg h_assets [] _ _ _) as [[? ?]|]; [exact B|contradiction].
Qed.

(** a history between building the site and running it: it is run, another site of four intervals is built on the same asset and run *)
Definition h2 : process := mkProcess 20 h_assets (p_sites h1).
Definition h3 : process := fst (new_site h2 [0%nat] (h_input 4) [] 30%Z 50 50 []).
Definition h4 : process := mkProcess 1000 (p_assets h3) (p_sites h3).
Lemma h_history : exists out, steps h_solver h1 [(h_run 0, out); (NewSite [0%nat] (h_input 4) [] 30%Z 50 50 [], Done); (Other, Done)] h4.
Proof.
  eexists. eapply steps_cons; [apply (h_optimize h1 [] 20%nat); [vm_compute; reflexivity|vm_compute; reflexivity|vm_compute; reflexivity]|].
  eapply steps_cons; [apply (step_site h_solver _ [0%nat] (h_input 4) [] 30%Z 50 50 [] h3); [repeat constructor|vm_compute; reflexivity]|].
  eapply steps_cons; [apply (step_other h_solver h3 1000); vm_compute; lia|constructor].
Qed.
Example h_same : exists p3 out, step h_solver h4 (h_run 0) p3 out /\ out = as_outcome h_result.
Proof.
  eexists. eexists. split.
  - apply (h_optimize h4 (skipn 1 (p_sites h3)) 1020%nat); vm_compute; reflexivity.
  - destruct h_history as [o H].
    assert (step h_solver h4 (h_run 0) (mkProcess 1020 (p_assets h4) (p_sites h4)) (as_outcome (optimize h_solver (p_next h4) h_cfg h_assets [] (ObjName "price") default_flags))) as S
      by (apply (h_optimize h4 (skipn 1 (p_sites h3)) 1020%nat); vm_compute; reflexivity).
    assert (forall d, site_interval_data (h_input 4) = Ok d -> Forall (fun co => harmless (p_assets h1) [0%nat] (id_n d) (fst co))
      [(h_run 0, o); (NewSite [0%nat] (h_input 4) [] 30%Z 50 50 [], Done); (Other, Done)]) as HH.
    { intros d D. vm_compute in D. injection D as <-. repeat constructor. cbn [fst harmless]. intros r c d _ _ _ D. vm_compute in D. injection D as <-. reflexivity. }
    destruct (C47_history h_solver h0 [0%nat] (h_input 4) [] 60%Z 100 100 [] h1 _ h4 (ObjName "price") default_flags _ _ h_blind h_built H HH S) as (d & assets & E & K).
    vm_compute in E. injection E as <- <-. apply (K (sc_idata h_cfg)). vm_compute. reflexivity.
Qed.

(** The excluded case: the second site has two intervals.  The constructor cuts the sun of the shared asset to two numbers,
    and the first site, that was fine, can not be optimised any more. *)
Definition h5 : process := fst (new_site h1 [0%nat] (h_input 2) [] 60%Z 100 100 []).
Theorem C47_shared_asset_refuted : exists slv p1 p2 q1 q2 r, sound_solver slv /\ blind slv /\
  step slv h0 (h_site 4) p1 Done /\ step slv p1 (h_run 0) q1 (Returned r) /\ r_feasible r = true /\
  step slv p1 (h_site 2) p2 Done /\ step slv p2 (h_run 0) q2 (Raised IndexErr).
Proof.
  assert (exists r, optimize h_solver 0 h_cfg h_assets [] (ObjName "price") default_flags = Ok r /\ r_feasible r = true) as (r & R & F) by (eexists; split; vm_compute; reflexivity).
  exists h_solver, h1, h5, (mkProcess 20 (p_assets h1) (p_sites h1)), (mkProcess 20 (p_assets h5) (p_sites h5)), r. splits; auto.
  - exact h_sound.
  - exact h_blind.
  - exact h_built.
  - pose proof (h_optimize h1 [] 20%nat) as K. change (p_next h1) with 0%nat in K. rewrite R in K. apply K; vm_compute; reflexivity.
  - apply step_site; [repeat constructor|vm_compute; reflexivity].
  - destruct (nth_error (p_sites h5) 0) as [s|] eqn:E; [|vm_compute in E; discriminate E].
    assert (data_numbers (so_data s) = Some (sc_idata h_cfg) /\ so_freq s = 60%Z /\ so_import_limit s = 100 /\ so_export_limit s = 100 /\ so_refs s = [0%nat] /\ so_constraints s = []) as (D & Fr & IL & EL & Rf & C).
    { vm_compute in E. injection E as <-. splits; vm_compute; reflexivity. }
    pose proof (step_optimize h_solver h5 0 (ObjName "price") default_flags s (sc_idata h_cfg) 20 E D) as K. rewrite Fr, IL, EL, Rf, C in K.
    assert (optimize h_solver (p_next h5) (mkSiteCfg (sc_idata h_cfg) 60%Z 100 100) (resolve (p_assets h5) [0%nat]) [] (ObjName "price") default_flags = Err IndexErr) as X by (vm_compute; reflexivity).
    rewrite X in K. apply K. vm_compute. lia.
Qed.
