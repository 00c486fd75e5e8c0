(** * PropHeat: what another MWh of heat is worth (C87) *)
From Coq Require Import Qminmax.
From Verif Require Import Base Pulp Params Optimizer Types Pipeline Constraints Objectives Extract Spec SpecReport SpecRun SpecCost SpecTerms Emit Prim Rows SemEv SemResults RunFacts Complete Bounded Pad Standby PropSite PropObjective SpecCompare Compare PropCompare PropHorizon PropEnergy Move SpecMoves PropMoves Check SampleSite Certified Capped SampleCompare SampleMoves.
Open Scope Q_scope.
Open Scope string_scope.

(** ** Specification *)
(** [c'] is [c] with [dh t] MWh more (or less) high temperature load and [dl t] MWh more (or less) low temperature load in interval t *)
Definition heat_changed (dh dl : nat -> Q) (c c' : site_cfg) : Prop :=
  let n := n_intervals c in let i := sc_idata c in let i' := sc_idata c' in
  n_intervals c' = n /\ sc_freq c' = sc_freq c /\ sc_import_limit_mw c' == sc_import_limit_mw c /\ sc_export_limit_mw c' == sc_export_limit_mw c /\
  same_data n (id_electric_load_mwh i) (id_electric_load_mwh i') /\
  (forall t, (t < n)%nat -> data (id_high_temperature_load_mwh i') t == data (id_high_temperature_load_mwh i) t + dh t) /\
  (forall t, (t < n)%nat -> data (id_low_temperature_load_mwh i') t == data (id_low_temperature_load_mwh i) t + dl t) /\
  same_data n (id_low_temperature_generation_mwh i) (id_low_temperature_generation_mwh i').
(** the two sites are charged alike for what they import, export and burn *)
Definition same_values (g : goal) (c c' : site_cfg) : Prop := forall t, (t < n_intervals c)%nat ->
  import_price g c' t == import_price g c t /\ export_price g c' t == export_price g c t /\ gas_price g c' t == gas_price g c t.
(** what a result costs (or emits) *)
Definition worth_of (g : goal) (c : site_cfg) (assets : list asset) (r : sim_result) : Q :=
  match g with Price => reported_cost c assets r | Carbon => reported_emissions c assets r end.
(** the boiler could make [x t] MWh more (or less) than it does *)
Definition boiler_room (c : site_cfg) (r : sim_result) (b : boiler_cfg) (x : nat -> Q) : Prop := forall t, (t < n_intervals c)%nat ->
  let y := heat_made r (ABoiler b) t + x t in 0 <= y /\ between (energy (sc_freq c) (bo_min_mw b)) y (energy (sc_freq c) (bo_max_mw b)).
(** the valve could pass [x t] MWh more (or less) than it does *)
Definition valve_room (c : site_cfg) (r : sim_result) (v : string) (x : nat -> Q) : Prop := forall t, (t < n_intervals c)%nat -> 0 <= heat_used r (AValve v) t + x t.
(** the gas burnt for [x t] MWh of heat *)
Definition gas_for (g : goal) (c : site_cfg) (b : boiler_cfg) (x : nat -> Q) : Q := over_horizon c (fun t => x t / bo_efficiency_pct b * gas_price g c t).

(** ** Proof: the same operation, the boiler makes up for the difference *)
Section Heat.
Variables (c c' : site_cfg) (assets : list asset) (fl : flags) (d : dispatch) (dh dl : nat -> Q) (ms : list move).
Hypothesis HC : heat_changed dh dl c c'.
Hypothesis PH : physical c assets fl d.
Hypothesis ND : NoDup (map asset_name assets).
Hypothesis N : (0 < n_intervals c)%nat.
Hypothesis F : Forall (fun m : move => In (fst m) assets) ms.
Hypothesis E0 : forall t, (t < n_intervals c)%nat -> change elec_gen ms t == 0 /\ change elec_load ms t == 0 /\ change charge ms t == 0 /\ change discharge ms t == 0 /\ change spilled ms t == 0.
Hypothesis H0 : forall t, (t < n_intervals c)%nat -> change ht_gen ms t == change ht_load ms t + dh t /\ change lt_gen ms t == change lt_load ms t + dl t.
Let still : nat -> Q := fun _ => 0.
Hypothesis AP : Forall (fun m => asset_physical (fst m) (sc_freq c) fl (n_intervals c) (moved ms still still d)) ms.
Lemma warmed_physical : physical c' assets fl (moved ms still still d).
Proof.
  destruct PH as [P A]. pose proof HC as (EN & EF & LI & LE & D1 & D2 & D3 & D4). split.
  - intros t Ht. rewrite EN in Ht. destruct (P t Ht) as (PG & PE & PHt & PL). destruct (E0 t Ht) as (Z1 & Z2 & Z3 & Z4 & _). destruct (H0 t Ht) as (K1 & K2).
    specialize (D1 t Ht). specialize (D2 t Ht). specialize (D3 t Ht). specialize (D4 t Ht).
    unfold grid_limits, between, electricity_balanced, high_temperature_balanced, low_temperature_balanced in *.
    rewrite !(moved_total _ assets ms still still d t linear_elec_gen ND F), !(moved_total _ assets ms still still d t linear_elec_load ND F), !(moved_total _ assets ms still still d t linear_charge ND F), !(moved_total _ assets ms still still d t linear_discharge ND F),
      !(moved_total _ assets ms still still d t linear_ht_gen ND F), !(moved_total _ assets ms still still d t linear_ht_load ND F), !(moved_total _ assets ms still still d t linear_lt_gen ND F), !(moved_total _ assets ms still still d t linear_lt_load ND F).
    rewrite EF, D1, D2, D3, D4. unfold energy in *. rewrite LI, LE. cbn [moved d_import d_export]. unfold still.
    destruct PG as ((G1 & G2) & (G3 & G4) & G5). splits; try lra. 
  - intros a Ia. rewrite EN, EF. destruct (in_dec string_dec (asset_name a) (map (fun m : move => asset_name (fst m)) ms)) as [J|J].
    + apply in_map_iff in J. destruct J as (m & EQ & Im). pose proof (proj1 (Forall_forall _ _) F m Im) as Fm. pose proof (proj1 (Forall_forall _ _) AP m Im) as APm. assert (fst m = a) as E; [|rewrite <- E; exact APm].
      apply (NoDup_map_inj asset_name assets); auto.
    + apply unmoved; auto. intros q t _. apply added_other. intros m Im EQ. apply J. apply in_map_iff. eauto.
Qed.
Lemma warmed_cost : same_values Price c c' -> dispatch_cost c' assets (moved ms still still d) == dispatch_cost c assets d + over_horizon c (fun t => change gas_use ms t * gas_price Price c t).
Proof.
  intros SV. pose proof HC as (EN & _). unfold dispatch_cost, over_horizon. rewrite EN, <- Qsum_map_plus. apply Qsum_map_ext. intros t It. apply in_seq in It. assert (t < n_intervals c)%nat as Ht by lia.
  destruct (SV t Ht) as (P1 & P2 & P3). destruct (E0 t Ht) as (_ & _ & _ & _ & Z). unfold import_price, export_price, gas_price in *. unfold interval_cost. rewrite P1, P2, P3.
  rewrite (moved_total _ assets ms still still d t linear_gas_use ND F), (moved_total _ assets ms still still d t linear_spilled ND F), Z. cbn [moved d_import d_export]. unfold still. ring.
Qed.
Lemma warmed_emissions : same_values Carbon c c' -> dispatch_emissions c' assets (moved ms still still d) == dispatch_emissions c assets d + over_horizon c (fun t => change gas_use ms t * gas_price Carbon c t).
Proof.
  intros SV. pose proof HC as (EN & _). unfold dispatch_emissions, over_horizon. rewrite EN, <- Qsum_map_plus. apply Qsum_map_ext. intros t It. apply in_seq in It. assert (t < n_intervals c)%nat as Ht by lia.
  destruct (SV t Ht) as (P1 & _). destruct (E0 t Ht) as (_ & _ & _ & _ & Z). unfold import_price, gas_price in *. unfold interval_emissions. rewrite P1.
  rewrite (moved_total _ assets ms still still d t linear_gas_use ND F), (moved_total _ assets ms still still d t linear_spilled ND F), Z. cbn [moved d_import d_export]. unfold still. ring.
Qed.
End Heat.

Definition burn (b : boiler_cfg) (x : nat -> Q) (q : qty) (t : nat) : Q := match q with HtGen => x t | Gas => x t / bo_efficiency_pct b | _ => 0 end.
Definition pass (x : nat -> Q) (q : qty) (t : nat) : Q := match q with HtLoad | LtGen => x t | _ => 0 end.
Lemma burn_physical b f fl n d x ms xi xe : 0 < bo_efficiency_pct b -> boiler_physical b f n d ->
  (forall q t, (t < n)%nat -> added ms (bo_name b) q t == burn b x q t) ->
  (forall t, (t < n)%nat -> let y := d_qty d (bo_name b) HtGen t + x t in 0 <= y /\ between (energy f (bo_min_mw b)) y (energy f (bo_max_mw b))) ->
  asset_physical (ABoiler b) f fl n (moved ms xi xe d).
Proof.
  intros EF P AD RM. cbn [asset_physical]. unfold boiler_physical in *. cbv zeta in *. cbn [moved d_qty]. intros t Ht. destruct (P t Ht) as (_ & G & _). destruct (RM t Ht) as (Y & B). unfold between in *.
  rewrite !AD by auto. unfold burn. rewrite G. assert (d_qty d (bo_name b) HtGen t / bo_efficiency_pct b + x t / bo_efficiency_pct b == (d_qty d (bo_name b) HtGen t + x t) / bo_efficiency_pct b) as -> by (field; lra).
  splits; try lra. apply Qle_shift_div_l; lra.
Qed.
Lemma pass_physical v f fl n d x ms xi xe : valve_physical v n d ->
  (forall q t, (t < n)%nat -> added ms v q t == pass x q t) -> (forall t, (t < n)%nat -> 0 <= d_qty d v HtLoad t + x t) ->
  asset_physical (AValve v) f fl n (moved ms xi xe d).
Proof.
  intros P AD RM. cbn [asset_physical]. unfold valve_physical in *. cbv zeta in *. cbn [moved d_qty]. intros t Ht. destruct (P t Ht) as (E & _). specialize (RM t Ht).
  rewrite !AD by auto. unfold pass. split; lra.
Qed.

Lemma heated gap slv base c assets cons obj fl r slv' base' c' r' g dh dl ms x b :
  feasible_run slv base c assets cons obj fl r -> best_run gap slv' base' c' assets [] (minimises g) fl r' -> heat_changed dh dl c c' -> same_values g c c' ->
  Forall (fun m : move => In (fst m) assets) ms ->
  (forall t, change elec_gen ms t == 0 /\ change elec_load ms t == 0 /\ change charge ms t == 0 /\ change discharge ms t == 0 /\ change spilled ms t == 0) ->
  (forall t, change ht_gen ms t == change ht_load ms t + dh t /\ change lt_gen ms t == change lt_load ms t + dl t) ->
  (forall t, change gas_use ms t == x t / bo_efficiency_pct b) ->
  (forall d, facts (r_results r) c assets fl d -> Forall (fun m => asset_physical (fst m) (sc_freq c) fl (n_intervals c) (moved ms (fun _ => 0) (fun _ => 0) d)) ms) ->
  worth_of g c' assets r' <= worth_of g c assets r + gas_for g c b x + gap.
Proof.
  intros R (R' & SW & SN) HC SV F Z H G AP. destruct (run_facts _ _ _ _ _ _ _ _ R) as (d & _ & FA). specialize (AP d FA).
  pose proof (warmed_physical c c' assets fl d dh dl ms HC (fa_physical _ _ _ _ _ FA) (fa_names _ _ _ _ _ FA) (fa_n _ _ _ _ _ FA) F (fun t _ => Z t) (fun t _ => H t) AP) as PH.
  destruct (reported_cost_eq _ _ _ _ _ FA) as [E1 E2].
  assert (over_horizon c (fun t => change gas_use ms t * gas_price g c t) == gas_for g c b x) as GE by (apply Qsum_map_ext; intros t _; rewrite G; reflexivity).
  destruct g; cbn [minimises worth_of] in *.
  - pose proof (C53_price_within _ _ _ _ _ _ _ R' SW SN _ PH) as K. rewrite (warmed_cost c c' assets d dh dl ms HC (fa_names _ _ _ _ _ FA) (fa_n _ _ _ _ _ FA) F (fun t _ => Z t) SV) in K. rewrite GE in K. rewrite E1. lra.
  - pose proof (C53_carbon_within _ _ _ _ _ _ _ R' SW SN _ PH) as K. rewrite (warmed_emissions c c' assets d dh dl ms HC (fa_names _ _ _ _ _ FA) (fa_n _ _ _ _ _ FA) F (fun t _ => Z t) SV) in K. rewrite GE in K. rewrite E2. lra.
Qed.

(** ** C87: the boiler makes the heat *)
Theorem C87_heat_cost : forall gap slv base c assets cons obj fl r slv' base' c' r' g dh b,
  feasible_run slv base c assets cons obj fl r -> best_run gap slv' base' c' assets [] (minimises g) fl r' -> heat_changed dh (fun _ => 0) c c' -> same_values g c c' ->
  In (ABoiler b) assets -> 0 < bo_efficiency_pct b -> boiler_room c r b dh ->
  worth_of g c' assets r' <= worth_of g c assets r + gas_for g c b dh + gap.
Proof.
  intros gap slv base c assets cons obj fl r slv' base' c' r' g dh b R R' HC SV Ib EF RM.
  apply (heated gap slv base c assets cons obj fl r slv' base' c' r' g dh (fun _ => 0) [(ABoiler b, burn b dh)] dh b R R' HC SV).
  - apply Forall_cons; [exact Ib|apply Forall_nil].
  - intros t. unfold change. cbn [map fst snd Qsum fold_right elec_gen elec_load charge discharge spilled]. splits; ring.
  - intros t. unfold change. cbn [map fst snd Qsum fold_right ht_gen ht_load lt_gen lt_load only d_qty burn]. split; ring.
  - intros t. unfold change. cbn [map fst snd Qsum fold_right gas_use only d_qty burn]. ring.
  - intros d FA. apply Forall_cons; [|apply Forall_nil]. cbn [fst]. apply (burn_physical b _ _ _ _ dh); auto.
    + apply (proj2 (fa_physical _ _ _ _ _ FA) _ Ib).
    + intros q t _. unfold added. cbn [map fst snd asset_name Qsum fold_right]. rewrite String.eqb_refl. ring.
    + intros t Ht. specialize (RM t Ht). cbv zeta in *. unfold between in *. rewrite (boiler_read c assets fl r d FA t Ht b Ib) in RM. exact RM.
Qed.
(** low temperature heat comes from the boiler through the valve *)
Theorem C87_low_heat_cost : forall gap slv base c assets cons obj fl r slv' base' c' r' g dh dl b v,
  feasible_run slv base c assets cons obj fl r -> best_run gap slv' base' c' assets [] (minimises g) fl r' -> heat_changed dh dl c c' -> same_values g c c' ->
  In (ABoiler b) assets -> 0 < bo_efficiency_pct b -> boiler_room c r b (fun t => dh t + dl t) -> In (AValve v) assets -> valve_room c r v dl ->
  worth_of g c' assets r' <= worth_of g c assets r + gas_for g c b (fun t => dh t + dl t) + gap.
Proof.
  intros gap slv base c assets cons obj fl r slv' base' c' r' g dh dl b v R R' HC SV Ib EF RM Iv VM.
  assert (bo_name b <> v) as NE.
  { destruct (run_facts _ _ _ _ _ _ _ _ R) as (d & _ & FA). intros E. pose proof (NoDup_map_inj asset_name assets (ABoiler b) (AValve v) (fa_names _ _ _ _ _ FA) Ib Iv E). discriminate. }
  assert ((bo_name b =? v) = false) as NB by (apply String.eqb_neq; exact NE). assert ((v =? bo_name b) = false) as NV by (apply String.eqb_neq; congruence).
  apply (heated gap slv base c assets cons obj fl r slv' base' c' r' g dh dl [(ABoiler b, burn b (fun t => dh t + dl t)); (AValve v, pass dl)] (fun t => dh t + dl t) b R R' HC SV).
  - apply Forall_cons; [exact Ib|apply Forall_cons; [exact Iv|apply Forall_nil]].
  - intros t. unfold change. cbn [map fst snd Qsum fold_right elec_gen elec_load charge discharge spilled]. splits; ring.
  - intros t. unfold change. cbn [map fst snd Qsum fold_right ht_gen ht_load lt_gen lt_load only d_qty burn pass]. split; ring.
  - intros t. unfold change. cbn [map fst snd Qsum fold_right gas_use only d_qty burn pass]. ring.
  - intros d FA. apply Forall_cons; [|apply Forall_cons; [|apply Forall_nil]]; cbn [fst].
    + apply (burn_physical b _ _ _ _ (fun t => dh t + dl t)); auto.
      * apply (proj2 (fa_physical _ _ _ _ _ FA) _ Ib).
      * intros q t _. unfold added. cbn [map fst snd asset_name Qsum fold_right]. rewrite String.eqb_refl, NV. ring.
      * intros t Ht. specialize (RM t Ht). cbv zeta in *. unfold between in *. rewrite (boiler_read c assets fl r d FA t Ht b Ib) in RM. exact RM.
    + apply (pass_physical v _ _ _ _ dl).
      * apply (proj2 (fa_physical _ _ _ _ _ FA) _ Iv).
      * intros q t _. unfold added. cbn [map fst snd asset_name Qsum fold_right]. rewrite String.eqb_refl, NB. ring.
      * intros t Ht. specialize (VM t Ht). rewrite (valve_read c assets fl r d FA t Ht v Iv) in VM. exact VM.
Qed.

Lemma heat_back dh dl c c' : heat_changed dh dl c c' -> heat_changed (fun t => - dh t) (fun t => - dl t) c' c.
Proof.
  intros (A & B & C & D & E & F & G & H). unfold heat_changed. cbv zeta in *. rewrite A, B. splits; try (now symmetry); intros t Ht; try (symmetry; auto; fail).
  - rewrite (F t Ht). ring.
  - rewrite (G t Ht). ring.
Qed.
Lemma values_back g c c' : n_intervals c' = n_intervals c -> same_values g c c' -> same_values g c' c.
Proof. intros E S t Ht. rewrite E in Ht. destruct (S t Ht) as (A & B & C). splits; symmetry; auto. Qed.
Lemma gas_back g c c' b x : n_intervals c' = n_intervals c -> same_values g c c' -> gas_for g c' b (fun t => - x t) == - gas_for g c b x.
Proof.
  intros E S. unfold gas_for, over_horizon. rewrite E. assert (forall y, - y == (-1) * y) as M by (intros; ring). rewrite M, <- Qsum_map_scale. apply Qsum_map_ext. intros t It. apply in_seq in It.
  destruct (S t ltac:(lia)) as (_ & _ & ->). unfold Qdiv. ring.
Qed.
Lemma gas_ext g c b x y : (forall t, x t == y t) -> gas_for g c b x == gas_for g c b y.
Proof. intros E. unfold gas_for, over_horizon. apply Qsum_map_ext. intros t _. rewrite (E t). reflexivity. Qed.
(** between its limits, the boiler sets the value of heat: exactly the gas it burns *)
Theorem C87_heat_worth : forall gap gap' slv base c assets fl r slv' base' c' r' g dh b,
  best_run gap slv base c assets [] (minimises g) fl r -> best_run gap' slv' base' c' assets [] (minimises g) fl r' -> heat_changed dh (fun _ => 0) c c' -> same_values g c c' ->
  In (ABoiler b) assets -> 0 < bo_efficiency_pct b -> boiler_room c r b dh -> boiler_room c' r' b (fun t => - dh t) ->
  gas_for g c b dh - gap <= worth_of g c' assets r' - worth_of g c assets r /\ worth_of g c' assets r' - worth_of g c assets r <= gas_for g c b dh + gap'.
Proof.
  intros gap gap' slv base c assets fl r slv' base' c' r' g dh b R R' HC SV Ib EF RM RM'. pose proof HC as (EN & _).
  pose proof (C87_heat_cost gap' slv base c assets [] _ fl r slv' base' c' r' g dh b (proj1 R) R' HC SV Ib EF RM) as U.
  pose proof (C87_heat_cost gap slv' base' c' assets [] _ fl r' slv base c r g (fun t => - dh t) b (proj1 R') R (heat_back _ _ _ _ HC) (values_back _ _ _ EN SV) Ib EF RM') as L.
  rewrite (gas_back g c c' b dh EN SV) in L. split; lra.
Qed.
Theorem C87_low_heat_worth : forall gap gap' slv base c assets fl r slv' base' c' r' g dh dl b v,
  best_run gap slv base c assets [] (minimises g) fl r -> best_run gap' slv' base' c' assets [] (minimises g) fl r' -> heat_changed dh dl c c' -> same_values g c c' ->
  In (ABoiler b) assets -> 0 < bo_efficiency_pct b -> boiler_room c r b (fun t => dh t + dl t) -> boiler_room c' r' b (fun t => - dh t + - dl t) ->
  In (AValve v) assets -> valve_room c r v dl -> valve_room c' r' v (fun t => - dl t) ->
  let gas := gas_for g c b (fun t => dh t + dl t) in
  gas - gap <= worth_of g c' assets r' - worth_of g c assets r /\ worth_of g c' assets r' - worth_of g c assets r <= gas + gap'.
Proof.
  intros gap gap' slv base c assets fl r slv' base' c' r' g dh dl b v R R' HC SV Ib EF RM RM' Iv VM VM'. cbv zeta. pose proof HC as (EN & _).
  pose proof (C87_low_heat_cost gap' slv base c assets [] _ fl r slv' base' c' r' g dh dl b v (proj1 R) R' HC SV Ib EF RM Iv VM) as U.
  pose proof (C87_low_heat_cost gap slv' base' c' assets [] _ fl r' slv base c r g (fun t => - dh t) (fun t => - dl t) b v (proj1 R') R (heat_back _ _ _ _ HC) (values_back _ _ _ EN SV) Ib EF RM' Iv VM') as L.
  rewrite (gas_ext g c' b (fun t => - dh t + - dl t) (fun t => - (dh t + dl t))) in L by (intros t; ring). rewrite (gas_back g c c' b (fun t => dh t + dl t) EN SV) in L. split; lra.
Qed.

(** ** A sample: a boiler (efficiency 1/2, gas at 5) and a valve; 3 MWh of high and 2 MWh of low temperature load cost 50, one
    more of each costs 20 more *)
Definition ht_site (h l : Q) : site_cfg := mkSiteCfg (mkIdata [10] [5] [1#10] [5] [0] [h] [l] [0] 1 []) 60%Z 2 2.
Definition ht_boiler : boiler_cfg := mkBoilerCfg "boiler" 10 0 (1#2).
Definition ht_assets : list asset := [ABoiler ht_boiler; AValve "valve"].
Definition ht_rows : list Q := [5; 0; 0; 0; 10; 10; 5; 0; 0; 10].
Definition ht_solver : solver := certified [0; 0; 1; 0; 5; 1; 10; 2; 2] ht_rows.
Definition ht_solver' : solver := certified [0; 0; 1; 0; 7; 1; 14; 3; 3] ht_rows.
Definition ht_r : sim_result := Eval vm_compute in run_of ht_solver (ht_site 3 2) ht_assets [] (ObjName "price").
Definition ht_r' : sim_result := Eval vm_compute in run_of ht_solver' (ht_site 4 3) ht_assets [] (ObjName "price").
Lemma ht_best : best_run 0 ht_solver 0 (ht_site 3 2) ht_assets [] (ObjName "price") default_flags ht_r.
Proof. best. Qed.
Lemma ht_best' : best_run 0 ht_solver' 0 (ht_site 4 3) ht_assets [] (ObjName "price") default_flags ht_r'.
Proof. best. Qed.
Lemma ht_more : heat_changed (fun _ => 1) (fun _ => 1) (ht_site 3 2) (ht_site 4 3).
Proof. unfold heat_changed, same_data. cbv zeta. splits; try reflexivity; intros t Ht; change (n_intervals (ht_site 3 2)) with 1%nat in Ht; assert (t = 0%nat) as -> by lia; vm_compute; reflexivity. Qed.
Example C87_sample : worth_of Price (ht_site 3 2) ht_assets ht_r == 50 /\ worth_of Price (ht_site 4 3) ht_assets ht_r' == 70 /\
  gas_for Price (ht_site 3 2) ht_boiler (fun t => 1 + 1) == 20 /\
  20 - 0 <= worth_of Price (ht_site 4 3) ht_assets ht_r' - worth_of Price (ht_site 3 2) ht_assets ht_r /\
  worth_of Price (ht_site 4 3) ht_assets ht_r' - worth_of Price (ht_site 3 2) ht_assets ht_r <= 20 + 0.
Proof.
  assert (gas_for Price (ht_site 3 2) ht_boiler (fun t => 1 + 1) == 20) as G by (vm_compute; reflexivity).
  split; [vm_compute; reflexivity|]. split; [vm_compute; reflexivity|]. split; [exact G|].
  pose proof (C87_low_heat_worth 0 0 ht_solver 0 (ht_site 3 2) ht_assets default_flags ht_r ht_solver' 0 (ht_site 4 3) ht_r' Price (fun _ => 1) (fun _ => 1) ht_boiler "valve" ht_best ht_best' ht_more) as K.
  cbv zeta in K. rewrite <- G. apply K; clear K.
  - intros t Ht. change (n_intervals (ht_site 3 2)) with 1%nat in Ht. assert (t = 0%nat) as -> by lia. splits; vm_compute; reflexivity.
  - now left.
  - reflexivity.
  - intros t Ht. change (n_intervals (ht_site 3 2)) with 1%nat in Ht. assert (t = 0%nat) as -> by lia. vm_compute. repeat split; discriminate.
  - intros t Ht. change (n_intervals (ht_site 4 3)) with 1%nat in Ht. assert (t = 0%nat) as -> by lia. vm_compute. repeat split; discriminate.
  - right. now left.
  - intros t Ht. change (n_intervals (ht_site 3 2)) with 1%nat in Ht. assert (t = 0%nat) as -> by lia. vm_compute. discriminate.
  - intros t Ht. change (n_intervals (ht_site 4 3)) with 1%nat in Ht. assert (t = 0%nat) as -> by lia. vm_compute. discriminate.
Qed.
