(** * SampleCompare: concrete optimizations the theorems C56 to C60 compare *)
From Coq Require Import Permutation.
From Verif Require Import Base Pulp Params Optimizer Types Pipeline Constraints Objectives Extract Lucky Certified Check Spec SpecReport SpecRun SpecCost SpecTerms Emit Prim Rows SemResults RunFacts SampleSite SampleFunctions SpecCompare PropCompare PropHorizon.
Open Scope Q_scope.
Open Scope string_scope.

(** a load of 1 MWh in two hours, with prices 10 and 20, carbon intensities 0.2 and 0.1 *)
Definition hour (price intensity : Q) : site_cfg := mkSiteCfg (mkIdata [price] [0] [intensity] [0] [1] [0] [0] [0] 1 []) 60%Z 100 50.
Definition h_first := hour 10 (2#10).
Definition h_second := hour 20 (1#10).
Definition two_hours (k : Q) : site_cfg := mkSiteCfg (mkIdata [k * 10; k * 20] [0; 0] [2#10; 1#10] [0; 0] [1; 1] [0; 0] [0; 0] [0; 0] 2 []) 60%Z 100 50.
Definition h_site := two_hours 1.
Definition h_battery (capacity : Q) := ABattery (mkBatteryCfg "battery" 1 1 capacity 1 0 0).
Definition h_values (x : Q) : list Q := [1 + x; 0; 1; 0;  x; 0; 1; 0; 0; 0; x;  1 - x; 0; 1; 0;  0; x; 0; 1; 0; x; 0].
Definition h_solver (k x : Q) : solver := certified (h_values x) [k*10; 0; 0; 0; 0; 0; 0; 0; 0; k*10; 0; k*10; 0; 0; 0; 0; 0; 0; 0; 0; k*10; 0; k*10; -(k*10); 0].
Definition any_solver (vals : list Q) : solver := stopped 1000 vals [].
Definition run_of (slv : solver) c assets cons obj := result_of (optimize slv 0 c assets cons obj default_flags).
Ltac run := constructor; [apply stopped_honest|vm_compute; reflexivity|vm_compute; reflexivity|repeat constructor|split; [|split]; [intros a Ia E; cbn in Ia; repeat (destruct Ia as [<-|Ia]; [discriminate|]); destruct Ia|intros col []|intros e Ie; cbn in Ie; repeat (destruct Ie as [H|Ie]; [discriminate|]); destruct Ie]].
Ltac best := split; [run|split; [intros iv o _; apply stopped_within|repeat constructor]].

(** no assets at all *)
Definition h_none := run_of (certified [1; 0; 1; 0; 1; 0; 1; 0] [10; 0; 0; 0; 0; 0; 20]) h_site [] [] (ObjName "price").
Lemma h_none_run : best_run 0 (certified [1; 0; 1; 0; 1; 0; 1; 0] [10; 0; 0; 0; 0; 0; 20]) 0 h_site [] [] (ObjName "price") default_flags h_none.
Proof. best. Qed.
(** with a battery of 1 MWh; the same with prices in another currency *)
Definition h_with (k : Q) := run_of (h_solver k 1) (two_hours k) [h_battery 1] [] (ObjName "price").
Lemma h_with_run : best_run 0 (h_solver 1 1) 0 h_site [h_battery 1] [] (ObjName "price") default_flags (h_with 1).
Proof. best. Qed.
Lemma h_double_run : best_run 0 (h_solver 2 1) 0 (two_hours 2) [h_battery 1] [] (ObjName "price") default_flags (h_with 2).
Proof. best. Qed.
(** with a battery of half a MWh *)
Definition h_half := run_of (any_solver (h_values (1#2))) h_site [h_battery (1#2)] [] (ObjName "price").
Lemma h_half_run : feasible_run (any_solver (h_values (1#2))) 0 h_site [h_battery (1#2)] [] (ObjName "price") default_flags h_half.
Proof. run. Qed.
(** no more than 1.5 MWh imported per hour *)
Definition h_cons : list constraint := [mkConstraint [CTermOf (mkCterm "import_power_mwh" (Some "site") None None 1)] [CNumber (3#2)] LE false].
Definition h_limited := run_of (any_solver (h_values (1#2))) h_site [h_battery 1] h_cons (ObjName "price").
Lemma h_limited_run : feasible_run (any_solver (h_values (1#2))) 0 h_site [h_battery 1] h_cons (ObjName "price") default_flags h_limited.
Proof. run. Qed.
(** for carbon *)
Definition h_clean_solver := certified (h_values 0) [2#10; 0; 0; 0; 0; 0; 0; 0; 0; 2#10; 0; 1#10; 0; 0; 0; 0; 0; 0; 0; 0; 1#10; 0; 1#10; -(2#10); 0].
Definition h_clean := run_of h_clean_solver h_site [h_battery 1] [] (ObjName "carbon").
Lemma h_clean_run : best_run 0 h_clean_solver 0 h_site [h_battery 1] [] (ObjName "carbon") default_flags h_clean.
Proof. best. Qed.
(** hour by hour *)
Definition hour_solver (p : Q) := certified [1; 0; 1; 0; 0; 0; 0; 0; 0; 0; 0] [p; 0; 0; 0; 0; 0; 0; 0; 0; p; 0; -p].
Definition hour_result (c : site_cfg) (p : Q) := run_of (hour_solver p) c [h_battery 1] [] (ObjName "price").
Lemma h_first_run : best_run 0 (hour_solver 10) 0 h_first [h_battery 1] [] (ObjName "price") default_flags (hour_result h_first 10).
Proof. best. Qed.
Lemma h_second_run : best_run 0 (hour_solver 20) 0 h_second [h_battery 1] [] (ObjName "price") default_flags (hour_result h_second 20).
Proof. best. Qed.
Definition bare_solver (p : Q) := certified [1; 0; 1; 0] [p].
Definition bare_result (c : site_cfg) (p : Q) := run_of (bare_solver p) c [] [] (ObjName "price").
Lemma h_first_bare : best_run 0 (bare_solver 10) 0 h_first [] [] (ObjName "price") default_flags (bare_result h_first 10).
Proof. best. Qed.
Lemma h_second_bare : best_run 0 (bare_solver 20) 0 h_second [] [] (ObjName "price") default_flags (bare_result h_second 20).
Proof. best. Qed.

(** ** The theorems apply, and say something *)
Lemma h_idle : can_idle 60%Z 2 (h_battery 1).
Proof. cbn [can_idle h_battery]. unfold between. splits; vm_compute; congruence || reflexivity. Qed.
Example C56_sample : reported_cost h_site [h_battery 1] (h_with 1) <= reported_cost h_site [] h_none + 0 /\
  reported_cost h_site [h_battery 1] (h_with 1) == 20 /\ reported_cost h_site [] h_none == 30.
Proof.
  splits; [|vm_compute; reflexivity..]. exact (C56_more_assets_no_dearer _ _ _ _ _ _ _ _ _ _ _ _ _ _ (proj1 h_none_run) h_with_run (Permutation_refl _) (Forall_cons _ h_idle (Forall_nil _))).
Qed.
Example C57_sample : reported_cost h_site [h_battery 1] (h_with 1) <= reported_cost h_site [h_battery (1#2)] h_half + 0 /\ reported_cost h_site [h_battery (1#2)] h_half == 25.
Proof.
  split; [|vm_compute; reflexivity]. refine (C57_better_site_no_dearer _ _ _ _ _ _ _ _ _ _ _ _ _ _ _ h_half_run h_with_run (site_at_least_refl _) (prices_at_least_refl _) (flags_at_least_refl _) _).
  exists [h_battery 1], []. splits; [|constructor|apply Permutation_refl]. constructor; [|constructor]. cbn [at_least h_battery]. splits; vm_compute; congruence || reflexivity.
Qed.
Example C58_sample : reported_cost h_site [h_battery 1] (h_with 1) <= reported_cost h_site [h_battery 1] h_limited + 0 /\ reported_cost h_site [h_battery 1] h_limited == 25.
Proof.
  split; [|vm_compute; reflexivity]. refine (C58_price _ _ _ _ _ _ _ _ _ _ _ _ _ h_limited_run h_with_run (Forall_nil _) _). intros k [].
Qed.
Example C58_sample_carbon : reported_cost h_site [h_battery 1] (h_with 1) <= reported_cost h_site [h_battery 1] h_clean /\
  reported_emissions h_site [h_battery 1] h_clean <= reported_emissions h_site [h_battery 1] (h_with 1) /\
  reported_cost h_site [h_battery 1] h_clean == 30 /\ reported_emissions h_site [h_battery 1] h_clean == 3#10 /\ reported_emissions h_site [h_battery 1] (h_with 1) == 4#10.
Proof. destruct (C58_price_or_carbon _ _ _ _ _ _ _ _ _ _ (Forall_nil _) h_with_run h_clean_run). splits; auto; vm_compute; reflexivity. Qed.
Lemma h_joined : site_joined h_first h_second h_site.
Proof.
  unfold site_joined, data_joined, same_data. cbv zeta. splits; try (vm_compute; reflexivity); intros t Ht; change (t < 1)%nat in Ht; assert (t = 0)%nat as -> by lia; vm_compute; reflexivity.
Qed.
Lemma h_assets_joined : assets_joined 1 1 [h_battery 1] [h_battery 1] [h_battery 1].
Proof.
  unfold assets_joined. splits; [reflexivity|reflexivity|]. intros [|i] a1 a2 a E1 E2 E; [|destruct i; discriminate]. injection E1 as <-. injection E2 as <-. injection E as <-. cbn [asset_joined h_battery]. exists 0. split; reflexivity.
Qed.
Example C59_sample : reported_cost h_site [h_battery 1] (h_with 1) <= reported_cost h_first [h_battery 1] (hour_result h_first 10) + reported_cost h_second [h_battery 1] (hour_result h_second 20) + 0 /\
  reported_cost h_first [h_battery 1] (hour_result h_first 10) + reported_cost h_second [h_battery 1] (hour_result h_second 20) == 30.
Proof.
  split; [|vm_compute; reflexivity]. exact (C59_whole_no_dearer_than_parts _ _ _ _ _ _ _ _ _ _ _ _ _ _ _ _ _ _ _ _ _ (proj1 h_first_run) (proj1 h_second_run) h_with_run h_joined h_assets_joined).
Qed.
Example C59_sample_bare : reported_cost h_site [] h_none == reported_cost h_first [] (bare_result h_first 10) + reported_cost h_second [] (bare_result h_second 20).
Proof.
  refine (C59_parts_without_storage _ _ _ _ _ _ _ _ _ _ _ _ _ _ _ _ h_none_run h_first_bare h_second_bare h_joined _ (Forall_nil _)). unfold assets_joined. splits; [reflexivity|reflexivity|]. intros [|i] a1 a2 a E1; discriminate.
Qed.
(** the equality needs the hypothesis: with a battery the whole is strictly cheaper *)
Theorem C59_storage_refuted : exists slv base slv1 base1 slv2 base2 c c1 c2 assets assets1 assets2 fl r r1 r2,
  best_run 0 slv base c assets [] (ObjName "price") fl r /\
  best_run 0 slv1 base1 c1 assets1 [] (ObjName "price") fl r1 /\ best_run 0 slv2 base2 c2 assets2 [] (ObjName "price") fl r2 /\
  site_joined c1 c2 c /\ assets_joined (n_intervals c1) (n_intervals c2) assets1 assets2 assets /\
  reported_cost c assets r < reported_cost c1 assets1 r1 + reported_cost c2 assets2 r2.
Proof.
  exists (h_solver 1 1), 0%nat, (hour_solver 10), 0%nat, (hour_solver 20), 0%nat, h_site, h_first, h_second, [h_battery 1], [h_battery 1], [h_battery 1], default_flags, (h_with 1), (hour_result h_first 10), (hour_result h_second 20).
  splits; [exact h_with_run|exact h_first_run|exact h_second_run|exact h_joined|exact h_assets_joined|vm_compute; reflexivity].
Qed.
Example C60_sample : reported_cost (two_hours 2) [h_battery 1] (h_with 2) == 2 * reported_cost h_site [h_battery 1] (h_with 1).
Proof.
  refine (C60_currency 2 _ _ _ _ _ _ _ _ _ _ _ _ _ _ _ h_with_run h_double_run).
  - reflexivity.
  - unfold site_at_least, same_data. cbv zeta. splits; intros; try reflexivity; vm_compute; congruence.
  - unfold site_at_least, same_data. cbv zeta. splits; intros; try reflexivity; vm_compute; congruence.
  - unfold prices_scaled, scaled_data. cbv zeta. change (n_intervals h_site) with 2%nat. splits; intros t Ht; (destruct t as [|[|t]]; [vm_compute; reflexivity|vm_compute; reflexivity|lia]).
  - repeat constructor.
Qed.
