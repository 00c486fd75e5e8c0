(** * PropDemand: what another MWh of demand, or of solar, is worth (C84) *)
From Coq Require Import Permutation Qminmax.
From Verif Require Import Base Pulp Params Optimizer Types Assets EVs Site Constraints Objectives Extract Pipeline Emit Prim Spec SpecReport SpecRun SpecCost SpecCompare Layout Rows Sem SemEv SemSite SemProg SemResults RunFacts Complete Pad Bounded Compare PropSite PropEv PropObjective PropCompare PropPool Check SampleSite Certified Capped SampleCompare SampleMoves.
Open Scope Q_scope.
Open Scope string_scope.

(** ** Specification *)
(** [c'] is [c] with [delta t] MWh more (or less) electric load in interval t *)
Definition load_changed (delta : nat -> Q) (c c' : site_cfg) : Prop :=
  let n := n_intervals c in let i := sc_idata c in let i' := sc_idata c' in
  n_intervals c' = n /\ sc_freq c' = sc_freq c /\ sc_import_limit_mw c' == sc_import_limit_mw c /\ sc_export_limit_mw c' == sc_export_limit_mw c /\
  (forall t, (t < n)%nat -> data (id_electric_load_mwh i') t == data (id_electric_load_mwh i) t + delta t) /\
  same_data n (id_high_temperature_load_mwh i) (id_high_temperature_load_mwh i') /\
  same_data n (id_low_temperature_load_mwh i) (id_low_temperature_load_mwh i') /\
  same_data n (id_low_temperature_generation_mwh i) (id_low_temperature_generation_mwh i').
(** the grid connection can take what the result exchanges and [delta t] more *)
Definition room_for (delta : nat -> Q) (c : site_cfg) (r : sim_result) : Prop :=
  forall t, (t < n_intervals c)%nat -> let x := r_import r t - r_export r t + delta t in
    x <= energy (sc_freq c) (sc_import_limit_mw c) /\ - x <= energy (sc_freq c) (sc_export_limit_mw c).
(** more is bought at the import price, less is sold at the export price *)
Definition worth (c : site_cfg) (t : nat) (delta : Q) : Q :=
  if Qle_bool 0 delta then delta * data (id_electricity_prices (sc_idata c)) t else delta * data (id_export_electricity_prices (sc_idata c)) t.

(** ** Proof: the same operation, the grid makes up for the difference *)
Definition regridded (x : nat -> Q) (d : dispatch) : dispatch :=
  mixed (fun nm => (d, nm)) (fun t => Qmax 0 (x t)) (fun t => Qmax 0 (- x t)).
Lemma regridded_physical x d a f fl n : asset_physical a f fl n d -> asset_physical a f fl n (regridded x d).
Proof. intros P. apply (mixed_physical (fun nm => (d, nm)) _ _ a d (asset_name a)); [reflexivity|]. now rewrite rename_same. Qed.
Lemma regridded_total x d l t g : In g flow_names -> total (g (regridded x d) t) l == total (g d t) l.
Proof. intros Ig. apply mixed_total; auto. Qed.
Lemma grid_split y : Qmax 0 y - Qmax 0 (- y) == y /\ (Qmax 0 y == 0 \/ Qmax 0 (- y) == 0) /\ 0 <= Qmax 0 y /\ 0 <= Qmax 0 (- y).
Proof. destruct (Q.max_spec 0 y) as [[L ->]|[L ->]]; destruct (Q.max_spec 0 (- y)) as [[L' ->]|[L' ->]]; splits; try lra; first [left; lra|right; lra]. Qed.
Lemma grid_bound y h : 0 <= h -> y <= h -> Qmax 0 y <= h.
Proof. intros A B. destruct (Q.max_spec 0 y) as [[L ->]|[L ->]]; lra. Qed.
(** cheapest way to exchange y + x with the grid, given one way to exchange y *)
Lemma exchange_cost i e y pi pe : 0 <= i -> 0 <= e -> pe <= pi -> let z := i - e + y in
  Qmax 0 z * pi - Qmax 0 (- z) * pe <= i * pi - e * pe + (if Qle_bool 0 y then y * pi else y * pe).
Proof.
  intros I E P. cbv zeta. set (z := i - e + y). assert (z == i - e + y) as Z by reflexivity. clearbody z.
  assert (0 <= (i - Qmax 0 z + (if Qle_bool 0 y then y else 0)) * (pi - pe)) as K.
  { apply Qmult_le_0_compat; [|lra]. destruct (Qle_bool 0 y) eqn:B; [apply Qle_bool_iff in B|assert (y <= 0) as B' by (apply Qnot_lt_le; intros N; assert (Qle_bool 0 y = true) by (apply Qle_bool_iff; lra); congruence)]; destruct (Q.max_spec 0 z) as [[L ->]|[L ->]]; lra. }
  destruct (grid_split z) as (S & _). destruct (Qle_bool 0 y).
  - assert (Qmax 0 (- z) == Qmax 0 z - (i - e + y)) as -> by lra. lra.
  - assert (Qmax 0 (- z) == Qmax 0 z - (i - e + y)) as -> by lra. lra.
Qed.
Section Demand.
Variables (c c' : site_cfg) (assets : list asset) (fl : flags) (d : dispatch) (delta : nat -> Q).
Hypothesis LC : load_changed delta c c'.
Hypothesis PH : physical c assets fl d.
Hypothesis RM : forall t, (t < n_intervals c)%nat -> let x := d_import d t - d_export d t + delta t in
    x <= energy (sc_freq c) (sc_import_limit_mw c) /\ - x <= energy (sc_freq c) (sc_export_limit_mw c).
Definition met : dispatch := regridded (fun t => d_import d t - d_export d t + delta t) d.
Ltac total_of g := unfold met; rewrite (regridded_total _ _ _ _ g) by (unfold flow_names; cbn [In]; tauto); fold met.
Lemma met_physical : physical c' assets fl met.
Proof.
  pose proof LC as (EN & EF & LI & LE & D1 & D2 & D3 & D4). split.
  - intros t Ht. rewrite EN in Ht. specialize (D1 t Ht). specialize (D2 t Ht). specialize (D3 t Ht). specialize (D4 t Ht). destruct (proj1 PH t Ht) as (((I0 & I1) & (E0 & E1) & _) & EB & HB & LB). destruct (RM t Ht) as (R1 & R2).
    unfold grid_limits, between, electricity_balanced, high_temperature_balanced, low_temperature_balanced in *.
    total_of elec_gen; total_of elec_load; total_of charge; total_of discharge; total_of ht_gen; total_of ht_load; total_of lt_gen; total_of lt_load.
    rewrite EF, D1, D2, D3, D4. unfold energy in *. rewrite LI, LE. unfold met, regridded. cbn [mixed d_import d_export].
    destruct (grid_split (d_import d t - d_export d t + delta t)) as (S1 & S2 & S3 & S4). splits; auto; try lra; apply grid_bound; lra.
  - intros a Ia. rewrite EN, EF. unfold met. apply regridded_physical. now apply PH.
Qed.
Lemma met_cost : same_prices c c' -> no_arbitrage c -> dispatch_cost c' assets met <= dispatch_cost c assets d + over_horizon c (fun t => worth c t (delta t)).
Proof.
  intros (P1 & P2 & P3) NA. pose proof LC as (EN & _). unfold dispatch_cost, over_horizon. rewrite EN, <- Qsum_map_plus. apply Qsum_le. intros t It. apply in_seq in It. assert (t < n_intervals c)%nat as Ht by lia.
  specialize (P1 t Ht). specialize (P2 t Ht). specialize (P3 t Ht). specialize (NA t Ht). destruct (proj1 PH t Ht) as (((I0 & _) & (E0 & _) & _) & _).
  unfold interval_cost. rewrite P1, P2, P3. total_of gas_use. total_of spilled. unfold met, regridded. cbn [mixed d_import d_export]. unfold worth.
  pose proof (exchange_cost (d_import d t) (d_export d t) (delta t) (data (id_electricity_prices (sc_idata c)) t) (data (id_export_electricity_prices (sc_idata c)) t) I0 E0 NA) as K. cbv zeta in K. lra.
Qed.
Lemma met_emissions : same_intensities c c' -> dispatch_emissions c' assets met == dispatch_emissions c assets d + over_horizon c (fun t => delta t * data (id_electricity_carbon_intensities (sc_idata c)) t).
Proof.
  intros P. pose proof LC as (EN & _). unfold dispatch_emissions, over_horizon. rewrite EN, <- Qsum_map_plus. apply Qsum_map_ext. intros t It. apply in_seq in It. assert (t < n_intervals c)%nat as Ht by lia.
  specialize (P t Ht). unfold interval_emissions. rewrite P. total_of gas_use. total_of spilled. unfold met, regridded. cbn [mixed d_import d_export].
  destruct (grid_split (d_import d t - d_export d t + delta t)) as (S1 & _). rewrite S1. ring.
Qed.
End Demand.
Lemma room_facts delta c assets fl d r (FA : facts (r_results r) c assets fl d) : room_for delta c r ->
  forall t, (t < n_intervals c)%nat -> let x := d_import d t - d_export d t + delta t in
    x <= energy (sc_freq c) (sc_import_limit_mw c) /\ - x <= energy (sc_freq c) (sc_export_limit_mw c).
Proof.
  intros RM t Ht. specialize (RM t Ht). cbv zeta in *. pose proof (r_import_eq r c assets fl d FA t Ht) as E1. pose proof (r_export_eq r c assets fl d FA t Ht) as E2. lra.
Qed.

(** ** C84: another MWh of electric load costs at most its import price, and one less saves at least its export price *)
Theorem C84_load_cost : forall gap slv base c assets cons obj fl r slv' base' c' r' delta,
  feasible_run slv base c assets cons obj fl r -> best_run gap slv' base' c' assets [] (ObjName "price") fl r' ->
  load_changed delta c c' -> same_prices c c' -> no_arbitrage c -> room_for delta c r ->
  reported_cost c' assets r' <= reported_cost c assets r + over_horizon c (fun t => worth c t (delta t)) + gap.
Proof.
  intros gap slv base c assets cons obj fl r slv' base' c' r' delta R (R' & SW & SN) LC SP NA RM. destruct (run_facts _ _ _ _ _ _ _ _ R) as (d & _ & F).
  pose proof (room_facts _ _ _ _ _ _ F RM) as RD. pose proof (met_physical c c' assets fl d delta LC (fa_physical _ _ _ _ _ F) RD) as PH.
  pose proof (met_cost c c' assets fl d delta LC (fa_physical _ _ _ _ _ F) SP NA) as L. pose proof (C53_price_within _ _ _ _ _ _ _ R' SW SN _ PH) as K.
  destruct (reported_cost_eq _ _ _ _ _ F) as [E _]. rewrite E. lra.
Qed.
Theorem C84_load_emissions : forall gap slv base c assets cons obj fl r slv' base' c' r' delta,
  feasible_run slv base c assets cons obj fl r -> best_run gap slv' base' c' assets [] (ObjName "carbon") fl r' ->
  load_changed delta c c' -> same_intensities c c' -> room_for delta c r ->
  reported_emissions c' assets r' <= reported_emissions c assets r + over_horizon c (fun t => delta t * data (id_electricity_carbon_intensities (sc_idata c)) t) + gap.
Proof.
  intros gap slv base c assets cons obj fl r slv' base' c' r' delta R (R' & SW & SN) LC SP RM. destruct (run_facts _ _ _ _ _ _ _ _ R) as (d & _ & F).
  pose proof (room_facts _ _ _ _ _ _ F RM) as RD. pose proof (met_physical c c' assets fl d delta LC (fa_physical _ _ _ _ _ F) RD) as PH.
  pose proof (met_emissions c c' assets d delta LC SP) as L. pose proof (C53_carbon_within _ _ _ _ _ _ _ R' SW SN _ PH) as K.
  destruct (reported_cost_eq _ _ _ _ _ F) as [_ E]. rewrite E. lra.
Qed.
Lemma load_back delta c c' : load_changed delta c c' -> load_changed (fun t => - delta t) c' c.
Proof.
  intros (A & B & C & D & E & F & G & H). unfold load_changed. cbv zeta in *. rewrite A, B. splits; try (now symmetry); intros t Ht; try (symmetry; auto; fail).
  rewrite (E t Ht). ring.
Qed.
Lemma prices_back c c' : n_intervals c' = n_intervals c -> same_prices c c' -> same_prices c' c.
Proof. intros E (A & B & C). unfold same_prices. cbv zeta in *. rewrite E. splits; intros t Ht; symmetry; auto. Qed.
(** the value of a MWh of load lies between the export and the import price *)
Theorem C84_load_worth : forall gap gap' slv base c assets fl r slv' base' c' r' delta,
  best_run gap slv base c assets [] (ObjName "price") fl r -> best_run gap' slv' base' c' assets [] (ObjName "price") fl r' ->
  load_changed delta c c' -> (forall t, (t < n_intervals c)%nat -> 0 <= delta t) -> same_prices c c' -> no_arbitrage c -> room_for delta c r -> room_for (fun t => - delta t) c' r' ->
  over_horizon c (fun t => delta t * data (id_export_electricity_prices (sc_idata c)) t) - gap <= reported_cost c' assets r' - reported_cost c assets r /\
  reported_cost c' assets r' - reported_cost c assets r <= over_horizon c (fun t => delta t * data (id_electricity_prices (sc_idata c)) t) + gap'.
Proof.
  intros gap gap' slv base c assets fl r slv' base' c' r' delta R R' LC DP SP NA RM RM'. pose proof LC as (EN & _).
  pose proof (C84_load_cost gap' _ _ _ _ _ _ _ _ _ _ _ _ delta (proj1 R) R' LC SP NA RM) as U.
  assert (no_arbitrage c') as NA'. { destruct SP as (P1 & P2 & _). intros t Ht. rewrite EN in Ht. specialize (P1 t Ht). specialize (P2 t Ht). specialize (NA t Ht). cbv zeta in *. lra. }
  pose proof (C84_load_cost gap _ _ _ _ _ _ _ _ _ _ _ _ _ (proj1 R') R (load_back _ _ _ LC) (prices_back _ _ EN SP) NA' RM') as L.
  assert (over_horizon c (fun t => worth c t (delta t)) == over_horizon c (fun t => delta t * data (id_electricity_prices (sc_idata c)) t)) as U'.
  { apply Qsum_map_ext. intros t It. apply in_seq in It. unfold worth. rewrite (proj2 (Qle_bool_iff 0 (delta t))) by (apply DP; lia). reflexivity. }
  assert (over_horizon c' (fun t => worth c' t (- delta t)) == - over_horizon c (fun t => delta t * data (id_export_electricity_prices (sc_idata c)) t)) as L'.
  { unfold over_horizon. rewrite EN. assert (forall x, - x == (-1) * x) as M by (intros; ring). rewrite M, <- Qsum_map_scale. apply Qsum_map_ext. intros t It. apply in_seq in It. assert (t < n_intervals c)%nat as Ht by lia. specialize (DP t Ht).
    destruct SP as (P1 & P2 & _). specialize (P1 t Ht). specialize (P2 t Ht). cbv zeta in *. unfold worth. destruct (Qle_bool 0 (- delta t)) eqn:B.
    - apply Qle_bool_iff in B. assert (delta t == 0) as -> by lra. ring.
    - rewrite P2. ring. }
  rewrite U' in U. rewrite L' in L. split; lra.
Qed.
(** more load never makes the site cheaper when exports never cost money *)
Theorem C84_more_load_no_cheaper : forall gap slv base c assets fl r slv' base' c' cons' obj' r' delta,
  best_run gap slv base c assets [] (ObjName "price") fl r -> feasible_run slv' base' c' assets cons' obj' fl r' ->
  load_changed delta c c' -> (forall t, (t < n_intervals c)%nat -> 0 <= delta t) -> same_prices c c' -> no_arbitrage c ->
  (forall t, (t < n_intervals c)%nat -> 0 <= data (id_export_electricity_prices (sc_idata c)) t) -> room_for (fun t => - delta t) c' r' ->
  reported_cost c assets r <= reported_cost c' assets r' + gap.
Proof.
  intros gap slv base c assets fl r slv' base' c' cons' obj' r' delta R R' LC DP SP NA PN RM. pose proof LC as (EN & _).
  assert (no_arbitrage c') as NA'. { destruct SP as (P1 & P2 & _). intros t Ht. rewrite EN in Ht. specialize (P1 t Ht). specialize (P2 t Ht). specialize (NA t Ht). cbv zeta in *. lra. }
  pose proof (C84_load_cost gap _ _ _ _ _ _ _ _ _ _ _ _ _ R' R (load_back _ _ _ LC) (prices_back _ _ EN SP) NA' RM) as L.
  cbv beta in L. assert (over_horizon c' (fun t => worth c' t (- delta t)) <= 0) as L'; [|lra].
  unfold over_horizon. rewrite EN. assert (Qsum (map (fun _ : nat => 0) (seq 0 (n_intervals c))) == 0) as Z by (apply Qsum_map_zero; reflexivity). rewrite <- Z. apply Qsum_le. intros t It. apply in_seq in It. assert (t < n_intervals c)%nat as Ht by lia. specialize (DP t Ht). specialize (PN t Ht).
  destruct SP as (P1 & P2 & _). specialize (P1 t Ht). specialize (P2 t Ht). cbv zeta in *. unfold worth. destruct (Qle_bool 0 (- delta t)) eqn:B.
  - apply Qle_bool_iff in B. assert (delta t == 0) as -> by lra. assert (- 0 * data (id_electricity_prices (sc_idata c')) t == 0) as -> by ring. lra.
  - rewrite P2. pose proof (Qmult_le_0_compat _ _ DP PN). lra.
Qed.
(** least emissions: the load counts with the carbon intensity of its interval, exactly *)
Theorem C84_load_emissions_exact : forall gap gap' slv base c assets fl r slv' base' c' r' delta,
  best_run gap slv base c assets [] (ObjName "carbon") fl r -> best_run gap' slv' base' c' assets [] (ObjName "carbon") fl r' ->
  load_changed delta c c' -> same_intensities c c' -> room_for delta c r -> room_for (fun t => - delta t) c' r' ->
  let more := over_horizon c (fun t => delta t * data (id_electricity_carbon_intensities (sc_idata c)) t) in
  more - gap <= reported_emissions c' assets r' - reported_emissions c assets r /\ reported_emissions c' assets r' - reported_emissions c assets r <= more + gap'.
Proof.
  intros gap gap' slv base c assets fl r slv' base' c' r' delta R R' LC SP RM RM'. cbv zeta. pose proof LC as (EN & _).
  pose proof (C84_load_emissions gap' _ _ _ _ _ _ _ _ _ _ _ _ delta (proj1 R) R' LC SP RM) as U.
  assert (same_intensities c' c) as SP' by (intros t Ht; symmetry; apply SP; now rewrite <- EN).
  pose proof (C84_load_emissions gap _ _ _ _ _ _ _ _ _ _ _ _ _ (proj1 R') R (load_back _ _ _ LC) SP' RM') as L.
  assert (over_horizon c' (fun t => - delta t * data (id_electricity_carbon_intensities (sc_idata c')) t) == - over_horizon c (fun t => delta t * data (id_electricity_carbon_intensities (sc_idata c)) t)) as L'.
  { unfold over_horizon. rewrite EN. assert (forall x, - x == (-1) * x) as M by (intros; ring). rewrite M, <- Qsum_map_scale. apply Qsum_map_ext. intros t It. apply in_seq in It. rewrite (SP t ltac:(lia)). ring. }
  rewrite L' in L. split; lra.
Qed.

(** ** Samples *)
(** a site with a 1 MW solar plant and 1 MWh of load pays nothing; a second MWh of load has to be bought, at 10; the load could have been worth no less than the export price 5 *)
Definition de_solver : solver := capped 0 [1; 0; 1; 0; 1] [10; 0; 0; 0; 0; 0] [(4%nat, (-10, 0))].
Definition de_r : sim_result := Eval vm_compute in run_of de_solver (po_site 10 5 2 4 4) [po_solar] [] (ObjName "price").
Lemma de_best : best_run 0 de_solver 0 (po_site 10 5 2 4 4) [po_solar] [] (ObjName "price") default_flags de_r.
Proof. capped_best. Qed.
Lemma de_load : load_changed (fun _ => 1) (po_site 10 5 1 4 4) (po_site 10 5 2 4 4).
Proof. unfold load_changed, same_data. cbv zeta. splits; try reflexivity; one_interval; vm_compute; reflexivity. Qed.
Ltac one_room := unfold room_for; one_interval; cbv zeta; split; vm_compute; discriminate.
Example C84_sample :
  5 - 0 <= reported_cost (po_site 10 5 2 4 4) [po_solar] de_r - reported_cost (po_site 10 5 1 4 4) [po_solar] po_r /\
  reported_cost (po_site 10 5 2 4 4) [po_solar] de_r - reported_cost (po_site 10 5 1 4 4) [po_solar] po_r <= 10 + 0.
Proof.
  pose proof (C84_load_worth 0 0 po_both 0 (po_site 10 5 1 4 4) [po_solar] default_flags po_r de_solver 0 (po_site 10 5 2 4 4) de_r (fun _ => 1) po_best de_best de_load) as K.
  assert (over_horizon (po_site 10 5 1 4 4) (fun t => 1 * data (id_export_electricity_prices (sc_idata (po_site 10 5 1 4 4))) t) == 5) as E1 by (vm_compute; reflexivity).
  assert (over_horizon (po_site 10 5 1 4 4) (fun t => 1 * data (id_electricity_prices (sc_idata (po_site 10 5 1 4 4))) t) == 10) as E2 by (vm_compute; reflexivity).
  cbv beta in K. rewrite E1, E2 in K. apply K; [intros; lra|one_price|unfold no_arbitrage; one_interval; vm_compute; discriminate|one_room|one_room].
Qed.
Example C84_sample_numbers : reported_cost (po_site 10 5 1 4 4) [po_solar] po_r == 0 /\ reported_cost (po_site 10 5 2 4 4) [po_solar] de_r == 10.
Proof. split; vm_compute; reflexivity. Qed.
