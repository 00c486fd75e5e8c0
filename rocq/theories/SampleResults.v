(** * SampleResults: the hypotheses of C37-C40 and C50 hold for the sample site *)
From Verif Require Import Base Pulp Params Optimizer Types Assets EVs Site Constraints Objectives Extract Pipeline Check Lucky Emit Prim Spec SpecReport SpecRun SpecNames SpecTotals Totals SampleSite PropObjective PropResults PropChecks.
Open Scope Q_scope.
Open Scope string_scope.

Ltac in_list H := cbn [x_assets In] in H; repeat (destruct H as [<-|H]; [|]); [..|destruct H].
Ltac quant H := cbn [quantity_names In] in H; repeat (destruct H as [<-|H]; [vm_compute; auto|]); destruct H.

Lemma x_ordinary_names : ordinary_names x_site x_assets.
Proof.
  split; [|intros col []]. intros a I. in_list I; cbn [ordinary_asset asset_name]; try (split; [reflexivity|intros q Iq; quant Iq]). 
  split.
  - intros cc [[<-|[]]|[<-|[]]]; (split; [reflexivity|intros q Iq; quant Iq]).
  - intros ec [<-|[<-|[]]]; reflexivity.
Qed.
Lemma x_distinct : distinct_columns x_site x_assets.
Proof. intros d t. apply nodup_str_iff. vm_compute. reflexivity. Qed.
Lemma x_ordinary : ordinary_site x_site x_assets.
Proof.
  constructor.
  - exact (fr_names _ _ _ _ _ _ _ _ x_run).
  - exact x_ordinary_names.
  - exact x_distinct.
  - intros a I H. in_list I; try discriminate H. eauto.
  - intros n I. cbn [x_assets In] in I. repeat (destruct I as [I|I]; [first [discriminate I|injection I as <-; reflexivity]|]). destruct I.
  - intros col I. cbn in I. repeat (destruct I as [<-|I]; [reflexivity|]). destruct I.
  - unfold nonneg_site. cbv zeta. splits; try (repeat constructor; discriminate).
Qed.
Lemma x_loss : Forall ordinary_loss x_assets.
Proof.
  apply Forall_forall. intros a I. in_list I; cbn [ordinary_loss]; try (split; reflexivity). splits; [| |reflexivity].
  - intros cc [<-|[<-|[]]]; split; reflexivity.
  - intros ec [<-|[<-|[]]]; split; reflexivity.
Qed.
Lemma x_spills : Forall ordinary_spill x_assets.
Proof.
  apply Forall_forall. intros a I. in_list I; cbn [ordinary_spill]; try (splits; reflexivity). splits; [| | |reflexivity].
  - intros cc [<-|[]]. reflexivity.
  - intros cc [<-|[]]. splits; reflexivity.
  - intros ec [<-|[<-|[]]]; reflexivity.
Qed.
(** C38 on the sample: the first interval loses 1 MWh in the battery and 1 MWh in the charger *)
Example C38_sample : num (r_results x_result) "total-electric_loss_mwh" 0 == 2 /\ total (r_lost x_result 0) x_assets == 2 /\
  num (r_results x_result) "total-electric_load_mwh" 0 == 2 /\ num (r_results x_result) "total-high_temperature_generation_mwh" 0 == 6.
Proof. splits; vm_compute; reflexivity. Qed.

(** a site that must spill: 3 MWh of heat load at low temperature surplus *)
Definition w_site : site_cfg := mkSiteCfg (mkIdata [10] [10] [(1#10)] [20] [1] [0] [0] [2] 1 []) 60%Z 100 50.
Definition w_assets : list asset := [ASpill "spill"].
Definition w_solver : solver := lucky [1; 0; 1; 0; 0; 0; 0; 2].
Definition w_objective : objective := ObjTerms [TSimple (mkTerm "export_power_mwh" (Some "site") None None 1 "simple")].
Definition w_result : sim_result := Eval vm_compute in result_of (optimize w_solver 0 w_site w_assets [] w_objective default_flags).
Lemma w_run : feasible_run w_solver 0 w_site w_assets [] w_objective default_flags w_result.
Proof.
  constructor; [apply sound_honest, lucky_sound|vm_compute; reflexivity|reflexivity|repeat constructor|]. split; [|split].
  - intros a [<-|[]]. discriminate.
  - intros col [].
  - intros e [H|[]]. discriminate H.
Qed.
Lemma w_spills : Forall ordinary_spill w_assets.
Proof. repeat constructor. Qed.
(** C40 on both samples: nothing spilled, 2 MWh spilled; with the fail flag the latter raises *)
Example C40_sample : r_spill x_result = false /\ horizon x_site (fun t => total (fun a => r_dumped x_result t a + 2 * r_ev_spilled x_result t a) x_assets) == 0 /\
  r_spill w_result = true /\ horizon w_site (fun t => total (fun a => r_dumped w_result t a + 2 * r_ev_spilled w_result t a) w_assets) == 2 /\
  optimize w_solver 0 w_site w_assets [] w_objective (with_fail true default_flags) = Err ValueErr.
Proof. splits; vm_compute; reflexivity. Qed.
(** The column total-spills_mwh shows nothing of what a Spill asset does. *)
Theorem C38_spill_total_omits_spill_assets_refuted : exists slv base c assets cons obj fl r,
  feasible_run slv base c assets cons obj fl r /\ Forall ordinary_spill assets /\ no_data_with "spill" c /\
  num (r_results r) "total-spills_mwh" 0 == 0 /\ total (r_dumped r 0) assets == 2.
Proof.
  exists w_solver, 0%nat, w_site, w_assets, [], w_objective, default_flags, w_result. split; [exact w_run|]. split; [exact w_spills|]. split; [intros col []|]. split; vm_compute; reflexivity.
Qed.

(** C39: all the hypotheses hold for the sample *)
Definition x_built : interval_vars * opt :=
  match build_program x_site x_assets [] (ObjName "price") default_flags (new_optimizer 0) with Ok p => p | Err _ => ([], new_optimizer 0) end.
Example C39_sample : honest_solver x_solver /\ Forall chp_fine x_assets /\ ordinary_site x_site x_assets /\ site_ready x_site x_assets /\
  build_program x_site x_assets [] (ObjName "price") default_flags (new_optimizer 0) = Ok x_built /\ nodup_str (map v_name (variables (snd x_built))) = true /\
  objective_has_value x_solver (snd x_built) /\ sol_status (x_solver (snd x_built)) = Optimal /\ check_results (r_results x_result) true = Ok tt.
Proof.
  split; [apply sound_honest, lucky_sound|]. split; [apply x_run|]. split; [exact x_ordinary|]. split; [exact x_ready|]. splits; try (vm_compute; reflexivity).
  left. assert (exists v l, objective_variables (snd x_built) = v :: l) as (v & l & E) by (vm_compute; eauto). exists v. rewrite E. now left.
Qed.
(** a site where nothing has a price: the solver says Optimal, optimize raises *)
Definition free_site : site_cfg := mkSiteCfg (mkIdata [0] [0] [(1#10)] [20] [1] [0] [0] [0] 1 []) 60%Z 100 50.
Definition free_solver : solver := fun _ => mkSol Optimal (fun i => Some (if Nat.eqb i 0 then 1 else 0)) None.
Example C39_constant_sample : optimize free_solver 0 free_site [] [] (ObjName "price") default_flags = Err AssertionErr /\
  match optimize free_solver 0 free_site [] [] (ObjName "carbon") default_flags with Ok r => r_feasible r = true /\ num (r_results r) "site-import_power_mwh" 0 == 1 | Err _ => False end.
Proof. split; vm_compute; [reflexivity|]. splits; reflexivity. Qed.
(** C50: a solver that always gives up, leaving 7 everywhere *)
Definition quitter : solver := fun _ => mkSol Infeasible (fun _ => Some 7) None.
Definition lenient : flags := mkFlags false true false false.
Example C50_sample : answering_solver quitter /\ optimize quitter 0 x_site x_assets [] (ObjName "price") default_flags = Err AssertionErr /\
  match optimize quitter 0 x_site x_assets [] (ObjName "price") lenient with
  | Ok r => r_feasible r = false /\ r_spill r = true /\ num (r_results r) "battery-electric_charge_mwh" 1 == 7
  | Err _ => False
  end.
Proof. split; [intros o v _; discriminate|]. split; [vm_compute; reflexivity|]. vm_compute. splits; reflexivity. Qed.
