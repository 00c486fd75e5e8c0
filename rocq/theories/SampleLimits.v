(** * SampleLimits: concrete cases for C72 and C73 *)
From Verif Require Import Base Pulp Params Optimizer Types Extract Pipeline Lucky SpecOpt Spec SpecSwitch SpecReport SpecRun SpecCost SpecTerms SpecReadings Emit Prim Constraints Objectives SemResults RunFacts SampleSite PropSite PropObjective PropTerms PropSwitch SpecFunctions Certified PropFunctions PropLimits.
Open Scope Q_scope.
Open Scope string_scope.

(** the battery charges, and the CHP runs, in at most one of the two intervals; the battery discharges in at most one *)
Definition li_limits : list run_limit := [mkRunLimit (ABattery x_battery) "electric_charge_binary" 1; mkRunLimit (ACHP x_chp) "binary" 1; mkRunLimit (ABattery x_battery) "electric_discharge_binary" 1].
Definition li_rest : list constraint := [mkConstraint [CTermOf (mkCterm "export_power_mwh" (Some "site") None None 1)] [CNumber 1] LE false].
Definition li_cons : list constraint := (map limit_constraint li_limits ++ li_rest)%list.
Definition li_result : sim_result := Eval vm_compute in result_of (optimize x_solver 0 x_site x_assets li_cons (ObjName "price") default_flags).
Lemma li_run : feasible_run x_solver 0 x_site x_assets li_cons (ObjName "price") default_flags li_result.
Proof.
  constructor.
  - apply sound_honest, lucky_sound.
  - vm_compute. reflexivity.
  - reflexivity.
  - exact (fr_chp _ _ _ _ _ _ _ _ x_run).
  - exact (fr_names _ _ _ _ _ _ _ _ x_run).
Qed.
Lemma li_valid : Forall (limit_valid x_assets) li_limits.
Proof. unfold li_limits. repeat (apply Forall_cons || apply Forall_nil); split; try discriminate; cbn [rl_asset]; unfold x_assets; cbn [In]; auto 6. Qed.
Example C73_sample : limit_reported x_site li_result (mkRunLimit (ACHP x_chp) "binary" 1) /\ running 2 (rep li_result "chp" "electric_generation_mwh") = 1%nat /\ running 2 (rep li_result "battery" "electric_charge_mwh") = 1%nat.
Proof.
  splits; [|vm_compute; reflexivity|vm_compute; reflexivity].
  apply (C73_limit_kept x_solver 0 x_site x_assets li_cons (ObjName "price") default_flags li_result _ li_run).
  - unfold li_cons. apply in_or_app. left. apply in_map. unfold li_limits. right. now left.
  - apply (proj1 (Forall_forall _ _) li_valid). unfold li_limits. right. now left.
Qed.
Example C73_within_sample : forall d, physical x_site x_assets default_flags d -> Forall (limit_kept x_site d) li_limits -> Forall (satisfied (quantity d) x_site x_assets) li_rest -> reported_cost x_site x_assets li_result <= dispatch_cost x_site x_assets d + 0.
Proof.
  assert (Forall plain_constraint li_rest) as PC.
  { apply Forall_cons; [|apply Forall_nil]. unfold plain_constraint. cbn [cn_lhs cn_rhs app]. apply Forall_cons; [|apply Forall_cons; [exact Logic.I|apply Forall_nil]].
    cbn [plain_entry ct_variable]. unfold plain_quantities. cbn [In]. auto 15. }
  intros d. apply (C73_price_within 0 x_solver 0 x_site x_assets li_limits li_rest default_flags li_result li_run (fun _ o _ => sound_within x_solver o (lucky_sound x_values)) x_sane li_valid PC).
Qed.

(** an objective over switches *)
Definition mr_terms : list term := [mkTerm "binary" (Some "chp") (Some "electricity_prices") None 7 "simple"; mkTerm "electric_charge_binary" (Some "battery") None None 3 "simple"; mkTerm "import_power_bin" (Some "site") None None 2 "simple"].
Definition mr_cons : list constraint := [grid_limit true 1; grid_limit false 1; limit_constraint (mkRunLimit (ABattery x_battery) "electric_charge_binary" 2)].
Definition mr_solver : solver := stopped 1000 x_values [].
Definition mr_result : sim_result := Eval vm_compute in result_of (optimize mr_solver 0 x_site x_assets mr_cons (simple_terms mr_terms) default_flags).
Lemma mr_run : feasible_run mr_solver 0 x_site x_assets mr_cons (simple_terms mr_terms) default_flags mr_result.
Proof.
  constructor.
  - exact (stopped_honest 1000 x_values []).
  - vm_compute. reflexivity.
  - reflexivity.
  - exact (fr_chp _ _ _ _ _ _ _ _ x_run).
  - exact (fr_names _ _ _ _ _ _ _ _ x_run).
Qed.
Example C72_sample : st_objective (r_status mr_result) = Some 75.
Proof. vm_compute. reflexivity. Qed.

(** a CHP that must run beside a boiler that is always switched on: its minimum 1 of electricity with 2 of heat *)
Definition mu_chp : chp_cfg := mkChpCfg "chp" 4 1 (1#4) (1#2) 0.
Definition mu_boiler : boiler_cfg := mkBoilerCfg "boiler" 10 0 (1#2).
Definition mu_site : site_cfg := mkSiteCfg (mkIdata [10] [0] [1#10] [5] [3] [3] [0] [0] 1 []) 60%Z 100 50.
Definition mu_assets : list asset := [ACHP mu_chp; ABoiler mu_boiler; ASpill "spill"].
Definition mu_cons : list constraint := [must_run mu_chp; always_on (ABoiler mu_boiler) "binary"].
Definition mu_solver : solver := stopped 1000 [2; 0; 1; 0; 1; 1; 4; 2; 0; 1; 1; 2; 0; 0; 0; 0] [].
Definition mu_result : sim_result := Eval vm_compute in result_of (optimize mu_solver 0 mu_site mu_assets mu_cons (ObjName "price") default_flags).
Lemma mu_run : feasible_run mu_solver 0 mu_site mu_assets mu_cons (ObjName "price") default_flags mu_result.
Proof.
  constructor.
  - exact (stopped_honest 1000 [2; 0; 1; 0; 1; 1; 4; 2; 0; 1; 1; 2; 0; 0; 0; 0] []).
  - vm_compute. reflexivity.
  - reflexivity.
  - repeat (apply Forall_cons || apply Forall_nil); cbn; try exact Logic.I. left. reflexivity.
  - split; [|split].
    + intros a H E. cbn in H. intuition (subst; discriminate).
    + intros col [].
    + intros e H. cbn in H. repeat destruct H as [H|H]; try discriminate. destruct H.
Qed.
Example C73_must_run_sample : rep mu_result "chp" "electric_generation_mwh" 0 = 1.
Proof. vm_compute. reflexivity. Qed.
