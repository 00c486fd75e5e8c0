(** * SampleFunctions: a demand charge and other max/min terms at the sample site *)
From Verif Require Import Base Pulp Params Optimizer Types Assets EVs Site Constraints Objectives Extract Pipeline Check Lucky Certified Spec SpecReport SpecRun SpecTerms SpecFunctions Emit Prim Layout Rows Sem SemProg SampleSite RunFacts SpecCost PropObjective PropTerms PropFunctions.
From Coq Require Import Qminmax Qabs.
Open Scope Q_scope.
Open Scope string_scope.

Definition site_import : term := mkTerm "import_power_mwh" (Some "site") None None 1 "simple".
Definition site_export : term := mkTerm "export_power_mwh" (Some "site") None None 1 "simple".
(** the cost of the import, a take-or-pay charge (at least 2 MWh is paid in each interval), a feed-in premium, a demand
    charge of 200 on the largest import (at least 1 MWh), a premium on the least charge of the battery *)
Definition f_terms : list one_term :=
  [ TSimple (mkTerm "import_power_mwh" (Some "site") (Some "electricity_prices") None 1 "simple");
    TTwo (mkTwo "max_two_variables" (TTerm site_import) (TNumber 2) 1000 (Some "electricity_prices") 3 "complex");
    TTwo (mkTwo "min_two_variables" (TTerm site_export) (TNumber 0) 1000 None (-4) "complex");
    TMany (mkMany "max_many_variables" site_import 1000 1 200 "complex");
    TMany (mkMany "min_many_variables" (mkTerm "electric_charge_mwh" (Some "battery") None None 1 "simple") 1000 0 (-7) "complex") ].
Definition f_values : list Q := (x_values ++ [2; 1; 2; 1; 0; 0; 0; 0; 1; 0; 0; 0; 0; 1; 0; 0])%list.
Definition f_multipliers : list Q := (repeat 0 97 ++ [0; 30; 0; 0; 0; 60; 0; 0; 0; 4; 0; 0; 0; 4; 0; 0; 0; 0; 0; 0; 200; 0; 0; 0; 0; -7])%list.
Definition f_solver : solver := certified f_values f_multipliers.
Definition f_result : sim_result := Eval vm_compute in result_of (optimize f_solver 0 x_site x_assets [] (ObjTerms f_terms) default_flags).
Lemma f_run : feasible_run f_solver 0 x_site x_assets [] (ObjTerms f_terms) default_flags f_result.
Proof.
  constructor.
  - apply sound_honest, certified_sound.
  - vm_compute. reflexivity.
  - reflexivity.
  - exact (fr_chp _ _ _ _ _ _ _ _ x_run).
  - exact (fr_names _ _ _ _ _ _ _ _ x_run).
Qed.
Lemma f_usual : Forall usual_term f_terms.
Proof.
  assert (forall x l, existsb (String.eqb x) l = true -> In x l) as IN.
  { intros x l H. apply existsb_exists in H. destruct H as (y & Iy & H). apply String.eqb_eq in H. now subst. }
  unfold f_terms. repeat (apply Forall_cons || apply Forall_nil); cbn [usual_term].
  - split; [reflexivity|apply IN; reflexivity].
  - splits; [reflexivity|apply IN; reflexivity|cbn [w_a grid_operand]; apply IN; reflexivity|exact Logic.I].
  - splits; [reflexivity|apply IN; reflexivity|cbn [w_a grid_operand]; apply IN; reflexivity|exact Logic.I].
  - splits; [reflexivity|apply IN; reflexivity|apply IN; reflexivity|intros _; discriminate].
  - splits; [reflexivity|apply IN; reflexivity|apply IN; reflexivity|discriminate].
Qed.
Lemma f_shown : Forall (shown_term x_assets) f_terms.
Proof.
  unfold f_terms. repeat (apply Forall_cons || apply Forall_nil); cbn [shown_term]; try exact Logic.I; intros p Ip PK; destruct p; try exact Logic.I; discriminate.
Qed.
(** 30 * 2 + 60 * 2 + 200 * 1 *)
Example C51_sample : exists z, objective_is default_flags f_result z /\ z == objective_sum (reported f_result) (shown f_result) x_site x_assets f_terms.
Proof. exact (C51_reported_objective _ _ _ _ _ _ _ _ f_run (certified_sound _ _) f_usual f_shown). Qed.
Example C51_value : st_objective (r_status f_result) = Some 380 /\ objective_sum (reported f_result) (shown f_result) x_site x_assets f_terms == 380.
Proof. split; vm_compute; reflexivity. Qed.
Example C51_within_sample : Forall (within_M (reported f_result) (shown f_result) x_site x_assets) f_terms.
Proof. exact (C51_within_M _ _ _ _ _ _ _ _ f_run f_usual f_shown). Qed.
(** the dispatch found is itself one of the covered ones *)
Example C52_sample : exists d, physical x_site x_assets default_flags d /\ Forall (covered (quantity d) (single d) x_site x_assets) f_terms /\ objective_sum (quantity d) (single d) x_site x_assets f_terms == 380.
Proof.
  destruct (run_solution _ _ _ _ _ _ _ _ f_run) as (iv & o & s & z & _ & FA & _). exists (d_of s iv). pose proof f_usual as U. pose proof f_shown as SH.
  assert (forall m, In (TMany m) f_terms -> same_singles (n_intervals x_site) x_assets m (shown f_result) (single (d_of s iv))) as SS.
  { intros m Im. rewrite Forall_forall in U, SH. exact (shown_singles _ _ _ _ _ m FA (U _ Im) (SH _ Im)). }
  assert (Forall (covered (reported f_result) (shown f_result) x_site x_assets) f_terms) as C.
  { unfold f_terms. repeat (apply Forall_cons || apply Forall_nil); cbn [covered]; try exact Logic.I.
    1-2: intros t Ht; change (t < 2)%nat in Ht; destruct t as [|[|t]]; [vm_compute; discriminate|vm_compute; discriminate|lia].
    1-2: intros x y Ix Iy; vm_compute in Ix, Iy; repeat (destruct Ix as [<-|Ix]); repeat (destruct Iy as [<-|Iy]); first [destruct Ix|destruct Iy|vm_compute; discriminate]. }
  split; [apply FA|split].
  - rewrite Forall_forall in *. intros k Ik. apply (covered_ext _ _ _ _ (shown f_result) _ k (facts_readings _ _ _ _ _ FA)); auto. intros m ->. auto.
  - rewrite <- (objective_sum_ext _ _ _ _ _ _ _ (facts_readings _ _ _ _ _ FA) SS U). exact (proj2 C51_value).
Qed.

(** ** an M too small *)
(** A site without load; the take-or-pay charge on 5 MWh is given M = 1: the site now imports (and spills) 4 MWh for 40 to come within M of the 5. *)
Definition m_site : site_cfg := mkSiteCfg (mkIdata [10] [0] [(1#10)] [0] [0] [0] [0] [0] 1 []) 60%Z 100 50.
Definition m_assets : list asset := [ASpill "spill"].
Definition m_terms : list one_term :=
  [ TSimple (mkTerm "import_power_mwh" (Some "site") (Some "electricity_prices") None 1 "simple");
    TTwo (mkTwo "max_two_variables" (TTerm site_import) (TNumber 5) 1 None 1 "complex") ].
Definition m_solver : solver := certified [4; 0; 1; 0; 0; 0; 4; 0; 5; 1] [0; 0; 0; 0; 0; 0; 0; 21; 10; 10].
Definition m_result : sim_result := Eval vm_compute in result_of (optimize m_solver 0 m_site m_assets [] (ObjTerms m_terms) default_flags).
(** nothing is imported *)
Definition g_terms : list term := [mkTerm "import_power_mwh" (Some "site") (Some "electricity_prices") None 1 "simple"].
Definition z_solver : solver := certified [0; 0; 1; 0; 0; 0; 0; 0] [].
Definition z_result : sim_result := Eval vm_compute in result_of (optimize z_solver 0 m_site m_assets [] (simple_terms g_terms) default_flags).
Lemma m_names : names_ok m_site m_assets.
Proof. split; [|split]; [intros a [<-|[]] E; discriminate|intros col []|intros e [H|[]]; discriminate]. Qed.
Lemma m_run : feasible_run m_solver 0 m_site m_assets [] (ObjTerms m_terms) default_flags m_result.
Proof. constructor; [apply sound_honest, certified_sound|vm_compute; reflexivity|reflexivity|repeat constructor|exact m_names]. Qed.
Lemma z_run : feasible_run z_solver 0 m_site m_assets [] (simple_terms g_terms) default_flags z_result.
Proof. constructor; [apply sound_honest, certified_sound|vm_compute; reflexivity|reflexivity|repeat constructor|exact m_names]. Qed.
(** C52 needs M to cover the other dispatch: with M too small the reported results are not the best physical ones. *)
Theorem C52_small_M_refuted : exists slv base c assets ks fl r, feasible_run slv base c assets [] (ObjTerms ks) fl r /\ sound_solver slv /\ Forall usual_term ks /\ Forall (shown_term assets) ks /\ Forall (asset_sane (sc_freq c)) assets /\
  exists d, physical c assets fl d /\ objective_sum (quantity d) (single d) c assets ks < objective_sum (reported r) (shown r) c assets ks.
Proof.
  exists m_solver, 0%nat, m_site, m_assets, m_terms, default_flags, m_result.
  assert (Forall usual_term m_terms) as U.
  { assert (forall x l, existsb (String.eqb x) l = true -> In x l) as IN by (intros x l H; apply existsb_exists in H; destruct H as (y & Iy & H); apply String.eqb_eq in H; now subst).
    unfold m_terms. repeat (apply Forall_cons || apply Forall_nil); cbn [usual_term]; [split; [reflexivity|apply IN; reflexivity]|]. splits; [reflexivity|apply IN; reflexivity|cbn [w_a grid_operand]; apply IN; reflexivity|exact Logic.I]. }
  splits; [exact m_run|apply certified_sound|exact U|repeat constructor|repeat constructor|].
  destruct (run_solution _ _ _ _ _ _ _ _ z_run) as (iv & o & s & z & _ & FA & _). exists (d_of s iv). split; [apply FA|].
  rewrite <- (objective_sum_ext m_site m_assets (reported z_result) _ (shown z_result) _ _ (facts_readings _ _ _ _ _ FA)).
  - vm_compute. reflexivity.
  - intros m [X|[X|[]]]; discriminate.
  - exact U.
Qed.

(** ** a solver stopped early *)
(** It answers Optimal with 1 MWh imported and spilled for 10; the lower bound it knows is 0. *)
Definition g_solver : solver := stopped 10 [1; 0; 1; 0; 0; 0; 1; 0] [].
Definition g_result : sim_result := Eval vm_compute in result_of (optimize g_solver 0 m_site m_assets [] (simple_terms g_terms) default_flags).
Lemma g_run : feasible_run g_solver 0 m_site m_assets [] (simple_terms g_terms) default_flags g_result.
Proof. constructor; [apply stopped_honest|vm_compute; reflexivity|reflexivity|repeat constructor|exact m_names]. Qed.
Lemma g_within : solved_within 10 g_solver 0 m_site m_assets [] (simple_terms g_terms) default_flags.
Proof. intros iv o _. apply stopped_within. Qed.
Lemma g_plain : Forall plain_term g_terms.
Proof.
  apply Forall_cons; [|constructor]. split; [reflexivity|]. cbn [t_variable].
  assert (existsb (String.eqb "import_power_mwh") plain_quantities = true) as H by reflexivity. apply existsb_exists in H. destruct H as (y & Iy & H). apply String.eqb_eq in H. now subst.
Qed.
(** The answer is within 10 of every physical dispatch (C53), and it is not the best one: optimality needs a solver that ran to the end. *)
Example C53_sample : forall d, physical m_site m_assets default_flags d -> terms_sum (reported g_result) m_site m_assets g_terms <= terms_sum (quantity d) m_site m_assets g_terms + 10.
Proof. intros d PH. exact (C53_terms_within 10 _ _ _ _ _ _ _ _ g_run g_within g_plain ltac:(constructor) ltac:(repeat constructor) d PH ltac:(constructor)). Qed.
Theorem C53_stopped_early_refuted : exists slv base c assets ks fl r gap, feasible_run slv base c assets [] (simple_terms ks) fl r /\ solved_within gap slv base c assets [] (simple_terms ks) fl /\ Forall plain_term ks /\ Forall (asset_sane (sc_freq c)) assets /\
  exists d, physical c assets fl d /\ terms_sum (quantity d) c assets ks < terms_sum (reported r) c assets ks.
Proof.
  exists g_solver, 0%nat, m_site, m_assets, g_terms, default_flags, g_result, 10. splits; [exact g_run|exact g_within|exact g_plain|repeat constructor|].
  destruct (run_solution _ _ _ _ _ _ _ _ z_run) as (iv & o & s & z & _ & FA & _). exists (d_of s iv). split; [apply FA|].
  rewrite <- (terms_sum_ext _ _ _ _ _ (facts_readings _ _ _ _ _ FA) g_plain). vm_compute. reflexivity.
Qed.
