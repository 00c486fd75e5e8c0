(** * SamplePossible: the theorems C61 to C63 at work *)
From Verif Require Import Base Pulp Params Optimizer Types Pipeline Constraints Objectives Extract Lucky Certified Check Spec SpecReport SpecRun SpecCost SpecNames SpecColumns SpecTotals Emit Prim Rows SemResults RunFacts SampleSite SampleFunctions SampleCompare SpecCompare.
From Verif Require Import IntervalData Ctors SpecInput SpecPossible Complete PropCtors PropPossible PropWhole.
Open Scope Q_scope.
Open Scope string_scope.

Lemma decides_by slv base c assets cons obj fl :
  match build_program c assets cons obj fl (new_optimizer base) with Ok (_, o) => match sol_status (slv o) with Optimal => true | _ => false end | Err _ => true end = true ->
  decides slv base c assets cons obj fl.
Proof. intros H iv o s b B _ _. rewrite B in H. destruct (sol_status (slv o)); congruence. Qed.
Lemma plain_by_checks assets : nodup_str (map (fun a => sanitize (asset_name a)) assets) = true ->
  (forall a, In a assets -> match a with AEVs c => ev_name c = "evs" | AValve v => v = "valve" | _ => plain_name (asset_name a) end) -> plain_names assets.
Proof. intros H N. constructor; auto. now apply nodup_str_iff. Qed.
Ltac plain := apply plain_by_checks; [vm_compute; reflexivity|]; intros a Ia; cbn [In] in Ia; repeat (destruct Ia as [<-|Ia]; [first [reflexivity|apply plain_by_check; vm_compute; reflexivity]|]); destruct Ia.

(** ** The battery of SampleCompare, made by the constructors *)
Definition h_input : site_input := mkInput (Series [Num 10; Num 20]) (Scalar (Num 0)) (Series [Num (2#10); Num (1#10)]) (Scalar (Num 0)) (Scalar (Num 1)) Missing Missing Missing.
Definition h_made : idata pynum := mkIdata [Num 10; Num 20] [Num 0; Num 0] [Num (2#10); Num (1#10)] [Num 0; Num 0] [Num 1; Num 1] [Num 0; Num 0] [Num 0; Num 0] [Num 0; Num 0] 2 [].
Definition h_cfg : battery_cfg := mkBatteryCfg "battery" 1 1 1 1 0 0.
Lemma h_battery_made : battery_init 1 None 1 1 0 None "battery" = Ok h_cfg.
Proof. vm_compute. reflexivity. Qed.
Lemma h_site_made : site_init [h_battery 1] h_input [] = Ok (h_made, [h_battery 1]).
Proof. vm_compute. reflexivity. Qed.
Lemma h_loads : loads_not_negative h_input.
Proof. unfold loads_not_negative. cbn. splits; try exact Logic.I. intros q [= <-]. lra. Qed.
Lemma h_plain : plain_names [h_battery 1].
Proof. plain. Qed.
Lemma h_numbers : data_numbers h_made = Some (sc_idata h_site).
Proof. vm_compute. reflexivity. Qed.
Lemma h_made_all : Forall constructed [h_battery 1].
Proof. constructor; [exact (made_battery _ _ _ _ _ _ _ _ h_battery_made)|constructor]. Qed.
Example C63_readable_sample : ordinary_site h_site [h_battery 1] /\ separate [h_battery 1].
Proof. exact (C63_readable_site _ _ _ _ _ 60%Z 100 50 h_made_all h_plain h_site_made h_numbers h_loads). Qed.
Lemma h_setup : operable_setup "price" h_site [h_battery 1] default_flags.
Proof.
  destruct C63_readable_sample as (OS & SEP). constructor; auto.
  - now left.
  - refine (C48_site_ready _ _ _ _ _ _ 60%Z 100 50 h_made_all _ h_site_made h_numbers _ _ _).
    + constructor; [cbn; tauto|constructor].
    + vm_compute. lia.
    + intros g [X|[]]. discriminate.
    + intros g [X|[]]. discriminate.
  - repeat constructor.
  - repeat constructor.
  - intros _. right. intros a [X|[]]. discriminate.
  - left. exists 0%nat. split; [vm_compute; lia|]. vm_compute. discriminate.
Qed.
Lemma h_possible : exists d, physical h_site [h_battery 1] default_flags d.
Proof.
  apply C62_grid_covers.
  - constructor; [cbn; tauto|constructor].
  - constructor; [exact h_idle|constructor].
  - split; vm_compute; congruence.
  - intros t Ht. change (t < 2)%nat in Ht. assert (t = 0 \/ t = 1)%nat as [-> | ->] by lia; splits; try (vm_compute; reflexivity); vm_compute; congruence.
Qed.
Example C61_sample : exists r, optimize (h_solver 1 1) 0 h_site [h_battery 1] [] (ObjName "price") default_flags = Ok r /\ r_feasible r = true /\
    forall d, physical h_site [h_battery 1] default_flags d -> reported_cost h_site [h_battery 1] r <= dispatch_cost h_site [h_battery 1] d.
Proof. refine (C61_price _ _ _ _ _ (certified_sound _ _) _ h_setup h_possible). apply decides_by. vm_compute. reflexivity. Qed.
(** a load that cannot be served *)
Definition dark_site := mkSiteCfg (sc_idata h_site) 60%Z 0 0.
Definition dark_input := h_input.
Lemma dark_setup fl : fail_on_spill_asset_use fl = false -> operable_setup "price" dark_site [h_battery 1] fl.
Proof.
  intros FS. destruct (C63_readable_site _ _ _ _ _ 60%Z 0 0 h_made_all h_plain h_site_made h_numbers h_loads) as (OS & SEP). destruct h_setup as [NM RD _ _ CF SN GT MT _]. constructor; auto.
Qed.
Lemma dark_impossible fl d : ~ physical dark_site [h_battery 1] fl d.
Proof.
  intros [PT PA]. assert (0 < n_intervals dark_site)%nat as H0 by (vm_compute; lia). destruct (PT 0%nat H0) as ((L1 & L2 & _) & B & _).
  specialize (PA _ (or_introl eq_refl)). cbn [asset_physical h_battery] in PA. destruct PA as (PA & _ & P0 & _). cbv zeta in PA. specialize (PA 0%nat H0). cbn [b_name b_initial_charge_mwh b_efficiency_pct] in *.
  destruct PA as (_ & _ & _ & _ & _ & P1 & _ & _ & (P2 & _) & P3). unfold electricity_balanced, between, total in *.
  change (energy (sc_freq dark_site) (sc_import_limit_mw dark_site)) with (0 * (60 / 60)) in L1. 
  cbn in B. unfold data in B. cbn in B. destruct L1 as (_ & L1), L2 as (L2 & _). assert (0 * (60 / 60) == 0) as Z by reflexivity. lra.
Qed.
Definition says_no : solver := fun o => mkSol Infeasible (fun _ => Some 0) None.
Definition lenient : flags := mkFlags false true false true.
Example C61_impossible_sample : optimize says_no 0 dark_site [h_battery 1] [] (ObjName "price") default_flags = Err AssertionErr /\
  exists r, optimize says_no 0 dark_site [h_battery 1] [] (ObjName "price") lenient = Ok r /\ r_feasible r = false.
Proof.
  assert (honest_solver says_no) as HS by (intros o; discriminate).
  split.
  - exact (proj1 (C61_impossible says_no 0 dark_site [h_battery 1] "price" default_flags HS (dark_setup default_flags eq_refl) (dark_impossible default_flags)) eq_refl).
  - refine (proj2 (C61_impossible says_no 0 dark_site [h_battery 1] "price" lenient HS (dark_setup lenient eq_refl) (dark_impossible lenient)) eq_refl _).
    intros o v _. discriminate.
Qed.

(** ** C62 and C63: with a Spill asset *)
Definition all_assets : list asset := [h_battery 1; ASpill "spill"].
Definition spill_values : list Q := [2; 0; 1; 0; 1; 0; 1; 0; 0; 0; 1; 0; 0; 0; 0; 0; 0; 1; 0; 0; 1; 0; 1; 0; 1; 0; 0; 0; 0; 0].
Lemma h_spill_made : battery_site h_cfg true h_input [] = Ok (Some (h_made, all_assets)).
Proof. vm_compute. reflexivity. Qed.
Lemma h_call f il el : (0 <= f)%Z -> 0 <= il -> 0 <= el -> sensible_call h_input h_made (sc_idata h_site) f il el default_flags.
Proof. intros F I1 E1. constructor; auto using h_numbers, h_loads. vm_compute. lia. Qed.
Lemma spill_plain_names : plain_names all_assets.
Proof. plain. Qed.
Example C63_battery_sample : let c := mkSiteCfg (sc_idata h_site) 60%Z 100 50 in
  exists r, optimize (any_solver spill_values) 0 c all_assets [] (ObjName "price") default_flags = Ok r /\ r_feasible r = true.
Proof.
  assert (decides (any_solver spill_values) 0 (mkSiteCfg (sc_idata h_site) 60%Z 100 50) all_assets [] (ObjName "price") default_flags) as D by (apply decides_by; vm_compute; reflexivity).
  assert (sensible_call h_input h_made (sc_idata h_site) 60%Z 100 50 default_flags) as S by (apply h_call; lia || lra).
  apply (C63_battery (any_solver spill_values) 0 1 None 1 1 0 "battery" h_cfg h_input h_made all_assets (sc_idata h_site) 60%Z 100 50 "price" default_flags h_battery_made h_spill_made spill_plain_names S eq_refl).
  - lra.
  - discriminate.
  - lra.
  - lra.
  - now left.
  - exact (stopped_honest 1000 spill_values []).
  - exact D.
Qed.
(** even without a grid connection the load is served (by the Spill asset, at a high price) *)
Definition dark_values : list Q := [0; 0; 1; 0; 0; 0; 1; 0; 0; 0; 0; 1; 0; 0; 0; 0; 0; 1; 0; 0; 0; 0; 1; 0; 0; 0; 1; 0; 0; 0].
Definition dark_solver := stopped (10 * d_spill_objective_penalty) dark_values [].
Example C63_dark_sample : exists r, optimize dark_solver 0 dark_site all_assets [] (ObjName "price") default_flags = Ok r /\ r_feasible r = true.
Proof.
  assert (decides dark_solver 0 dark_site all_assets [] (ObjName "price") default_flags) as D by (apply decides_by; vm_compute; reflexivity).
  assert (sensible_call h_input h_made (sc_idata h_site) 60%Z 0 0 default_flags) as S by (apply h_call; lia || lra).
  apply (C63_battery dark_solver 0 1 None 1 1 0 "battery" h_cfg h_input h_made all_assets (sc_idata h_site) 60%Z 0 0 "price" default_flags h_battery_made h_spill_made spill_plain_names S eq_refl).
  - lra.
  - discriminate.
  - lra.
  - lra.
  - now left.
  - exact (stopped_honest _ dark_values []).
  - exact D.
Qed.
(** one car, one charger, one hour *)
Definition e_evs : evs_cfg := mkEvsCfg "evs" [mkChargerCfg "charger-0" 2 (2 * 0)] [mkChargerCfg "charger-spill-evs" 10000 0] [mkEventCfg "charge-event-0" 1 1] [[1]].
Definition e_input : site_input := mkInput (Series [Num 10]) (Scalar (Num 0)) Missing (Scalar (Num 0)) (Scalar (Num 1)) Missing Missing Missing.
Definition e_made : idata pynum := mkIdata [Num 10] [Num 0] [Num (1#10)] [Num 0] [Num 1] [Num 0] [Num 0] [Num 0] 1 [].
Definition e_data : idata Q := mkIdata [10] [0] [1#10] [0] [1] [0] [0] [0] 1 [].
Definition e_values : list Q := [2; 0; 1; 0; 0; 1; 1; 1; 0; 0; 0; 0; 0; 0; 0; 0].
Definition e_assets := [AEVs e_evs; ASpill "spill"].
Example C63_evs_sample : let c := mkSiteCfg e_data 60%Z 100 50 in
  exists r, optimize (any_solver e_values) 0 c e_assets [] (ObjName "price") default_flags = Ok r /\ r_feasible r = true.
Proof.
  assert (decides (any_solver e_values) 0 (mkSiteCfg e_data 60%Z 100 50) e_assets [] (ObjName "price") default_flags) as D by (apply decides_by; vm_compute; reflexivity).
  apply (C63_evs (any_solver e_values) 0 [[1]] [2] [1] 1 0 "evs" e_evs e_input e_made e_assets e_data 60%Z 100 50 "price" default_flags).
  - vm_compute. reflexivity.
  - vm_compute. reflexivity.
  - plain.
  - constructor; [vm_compute; reflexivity|vm_compute; lia|lia| |lra|lra|reflexivity]. unfold loads_not_negative. cbn. splits; try exact Logic.I. intros q [= <-]. lra.
  - reflexivity.
  - intros row x [<-|[]] [<-|[]]. right. reflexivity.
  - discriminate.
  - constructor; [lra|constructor].
  - constructor; [split; vm_compute; congruence|constructor].
  - lra.
  - now left.
  - exact (stopped_honest 1000 e_values []).
  - exact D.
Qed.
