(** * PropPrices: property C79 (how the optimum answers to the prices) *)
From Coq Require Import Qabs.
From Verif Require Import Base Pulp Params Optimizer Types Pipeline Constraints Objectives Extract Lucky Certified Check Spec SpecReport SpecRun SpecNames SpecCost SpecTerms SpecCompare Emit Prim Rows SemEv SemSite SemResults RunFacts Complete Bounded SampleSite PropSite PropResults PropObjective PropTerms PropCompare PropForesight SpecMoves Move PropMoves SampleFunctions SampleCompare.
Open Scope Q_scope.
Open Scope string_scope.

(** ** How much dearer a result becomes when the prices of [c] are replaced by those of [c'] *)
Definition price_rise (get : idata Q -> list Q) (c c' : site_cfg) (t : nat) : Q := data (get (sc_idata c')) t - data (get (sc_idata c)) t.
Definition rise_in_cost (c c' : site_cfg) (assets : list asset) (r : sim_result) : Q :=
  horizon c (fun t =>
    price_rise id_electricity_prices c c' t * r_import r t
    - price_rise id_export_electricity_prices c c' t * r_export r t
    + price_rise id_gas_prices c c' t * total (r_gas r t) assets).
Definition rise_in_emissions (c c' : site_cfg) (r : sim_result) : Q :=
  horizon c (fun t => price_rise id_electricity_carbon_intensities c c' t * (r_import r t - r_export r t)).
(** the same site but for prices and intensities *)
Definition same_site (c c' : site_cfg) : Prop := site_at_least c c' /\ site_at_least c' c.

Lemma revalued c c' assets r : n_intervals c' = n_intervals c ->
  reported_cost c' assets r == reported_cost c assets r + rise_in_cost c c' assets r /\
  reported_emissions c' assets r == reported_emissions c assets r + rise_in_emissions c c' r.
Proof.
  intros N. unfold reported_cost, reported_emissions, rise_in_cost, rise_in_emissions, price_rise, horizon. rewrite N, <- !Qsum_map_plus.
  split; apply Qsum_map_ext; intros t _; ring.
Qed.
Lemma no_better_here gap slv base c assets fl r slv' base' c' cons' obj' r' :
  best_run gap slv base c assets [] (ObjName "price") fl r -> feasible_run slv' base' c' assets cons' obj' fl r' -> site_at_least c' c ->
  reported_cost c assets r <= reported_cost c assets r' + gap.
Proof.
  intros (R & SW & SN) R' S. destruct (run_facts _ _ _ _ _ _ _ _ R') as (d & _ & FA).
  pose proof (C53_price_within _ _ _ _ _ _ _ R SW SN d (same_site_physical _ _ _ _ _ S (fa_physical _ _ _ _ _ FA))) as W.
  rewrite (proj1 (value_elsewhere _ _ _ _ _ _ FA (proj1 S))) in W. exact W.
Qed.
Lemma no_cleaner_here gap slv base c assets fl r slv' base' c' cons' obj' r' :
  best_run gap slv base c assets [] (ObjName "carbon") fl r -> feasible_run slv' base' c' assets cons' obj' fl r' -> site_at_least c' c ->
  reported_emissions c assets r <= reported_emissions c assets r' + gap.
Proof.
  intros (R & SW & SN) R' S. destruct (run_facts _ _ _ _ _ _ _ _ R') as (d & _ & FA).
  pose proof (C53_carbon_within _ _ _ _ _ _ _ R SW SN d (same_site_physical _ _ _ _ _ S (fa_physical _ _ _ _ _ FA))) as W.
  rewrite (proj2 (value_elsewhere _ _ _ _ _ _ FA (proj1 S))) in W. exact W.
Qed.

(** ** C79: after a change of prices the optimum costs at most what the old operation costs at the new prices *)
Theorem C79_reprice : forall gap slv base c assets cons obj fl r slv' base' c' r',
  feasible_run slv base c assets cons obj fl r -> best_run gap slv' base' c' assets [] (ObjName "price") fl r' -> site_at_least c c' ->
  reported_cost c' assets r' <= reported_cost c assets r + rise_in_cost c c' assets r + gap.
Proof.
  intros gap slv base c assets cons obj fl r slv' base' c' r' R B S. pose proof (no_better_here _ _ _ _ _ _ _ _ _ _ _ _ _ B R S).
  pose proof (proj1 (revalued c c' assets r (proj1 S))). lra.
Qed.
Theorem C79_reprice_carbon : forall gap slv base c assets cons obj fl r slv' base' c' r',
  feasible_run slv base c assets cons obj fl r -> best_run gap slv' base' c' assets [] (ObjName "carbon") fl r' -> site_at_least c c' ->
  reported_emissions c' assets r' <= reported_emissions c assets r + rise_in_emissions c c' r + gap.
Proof.
  intros gap slv base c assets cons obj fl r slv' base' c' r' R B S. pose proof (no_cleaner_here _ _ _ _ _ _ _ _ _ _ _ _ _ B R S).
  pose proof (proj2 (revalued c c' assets r (proj1 S))). lra.
Qed.

(** ** The law of demand: of what has become dearer, the optimum does not take more (weighed by the rises in price) *)
Theorem C79_law_of_demand : forall gap slv base c assets fl r gap' slv' base' c' r',
  best_run gap slv base c assets [] (ObjName "price") fl r -> best_run gap' slv' base' c' assets [] (ObjName "price") fl r' -> same_site c c' ->
  rise_in_cost c c' assets r' <= rise_in_cost c c' assets r + gap + gap'.
Proof.
  intros gap slv base c assets fl r gap' slv' base' c' r' B B' [S S'].
  pose proof (no_better_here _ _ _ _ _ _ _ _ _ _ _ _ _ B (proj1 B') S'). pose proof (no_better_here _ _ _ _ _ _ _ _ _ _ _ _ _ B' (proj1 B) S).
  pose proof (proj1 (revalued c c' assets r (proj1 S))). pose proof (proj1 (revalued c c' assets r' (proj1 S))). lra.
Qed.
Theorem C79_law_of_demand_carbon : forall gap slv base c assets fl r gap' slv' base' c' r',
  best_run gap slv base c assets [] (ObjName "carbon") fl r -> best_run gap' slv' base' c' assets [] (ObjName "carbon") fl r' -> same_site c c' ->
  rise_in_emissions c c' r' <= rise_in_emissions c c' r + gap + gap'.
Proof.
  intros gap slv base c assets fl r gap' slv' base' c' r' B B' [S S'].
  pose proof (no_cleaner_here _ _ _ _ _ _ _ _ _ _ _ _ _ B (proj1 B') S'). pose proof (no_cleaner_here _ _ _ _ _ _ _ _ _ _ _ _ _ B' (proj1 B) S).
  pose proof (proj2 (revalued c c' assets r (proj1 S))). pose proof (proj2 (revalued c c' assets r' (proj1 S))). lra.
Qed.
(** one import price: when nothing but the import price of interval t rises, the optimum does not import more in that interval *)
Theorem C79_dearer_import : forall slv base c assets fl r slv' base' c' r' t0,
  best_run 0 slv base c assets [] (ObjName "price") fl r -> best_run 0 slv' base' c' assets [] (ObjName "price") fl r' -> same_site c c' ->
  (t0 < n_intervals c)%nat -> data (id_electricity_prices (sc_idata c)) t0 < data (id_electricity_prices (sc_idata c')) t0 ->
  (forall t, (t < n_intervals c)%nat -> t <> t0 -> data (id_electricity_prices (sc_idata c')) t == data (id_electricity_prices (sc_idata c)) t) ->
  same_data (n_intervals c) (id_export_electricity_prices (sc_idata c)) (id_export_electricity_prices (sc_idata c')) ->
  same_data (n_intervals c) (id_gas_prices (sc_idata c)) (id_gas_prices (sc_idata c')) ->
  r_import r' t0 <= r_import r t0.
Proof.
  intros slv base c assets fl r slv' base' c' r' t0 B B' S Ht P O E G. pose proof (C79_law_of_demand _ _ _ _ _ _ _ _ _ _ _ _ B B' S) as L.
  assert (forall x, rise_in_cost c c' assets x == price_rise id_electricity_prices c c' t0 * r_import x t0) as V.
  { intros x. unfold rise_in_cost, horizon. unfold same_data in E, G.
    rewrite (Qsum_map_ext _ (once t0 (price_rise id_electricity_prices c c' t0 * r_import x t0))); [apply once_sum; exact Ht|].
    intros t It. apply in_seq in It. unfold once, price_rise. rewrite (E t) by lia. rewrite (G t) by lia. destruct (Nat.eqb_spec t t0) as [->|NE]; [ring|]. rewrite (O t) by (lia || auto). ring. }
  rewrite !V in L. unfold price_rise in L.
  set (p := data (id_electricity_prices (sc_idata c')) t0 - data (id_electricity_prices (sc_idata c)) t0) in *. assert (0 < p) by (unfold p; lra).
  destruct (Qlt_le_dec (r_import r t0) (r_import r' t0)) as [K|K]; [|exact K]. exfalso. assert (0 < p * (r_import r' t0 - r_import r t0)) as Z by (apply Qmult_lt_0_compat; lra). lra.
Qed.

(** ** An error in the prices moves the optimal cost by no more than that error on all that can go through the grid connection *)
Definition grid_exposure (c c' : site_cfg) : Q :=
  horizon c (fun t =>
    Qabs (price_rise id_electricity_prices c c' t) * energy (sc_freq c) (sc_import_limit_mw c)
    + Qabs (price_rise id_export_electricity_prices c c' t) * energy (sc_freq c) (sc_export_limit_mw c)).
Lemma abs_part p x m : between 0 x m -> p * x <= Qabs p * m /\ - (Qabs p * m) <= p * x.
Proof.
  intros [A B]. pose proof (Qle_Qabs p) as P. pose proof (Qle_Qabs (- p)) as P'. rewrite Qabs_opp in P'. pose proof (Qabs_nonneg p) as Z.
  assert (0 <= (Qabs p - p) * x) by (apply Qmult_le_0_compat; lra). assert (0 <= (Qabs p + p) * x) by (apply Qmult_le_0_compat; lra).
  assert (0 <= Qabs p * (m - x)) by (apply Qmult_le_0_compat; lra). lra.
Qed.
Lemma exposure_bounds slv base c0 c c' assets cons obj fl r : feasible_run slv base c0 assets cons obj fl r -> n_intervals c0 = n_intervals c ->
  energy (sc_freq c0) (sc_import_limit_mw c0) <= energy (sc_freq c) (sc_import_limit_mw c) ->
  energy (sc_freq c0) (sc_export_limit_mw c0) <= energy (sc_freq c) (sc_export_limit_mw c) ->
  same_data (n_intervals c) (id_gas_prices (sc_idata c)) (id_gas_prices (sc_idata c')) ->
  - grid_exposure c c' <= rise_in_cost c c' assets r /\ rise_in_cost c c' assets r <= grid_exposure c c'.
Proof.
  intros R N LI LE G. unfold grid_exposure, rise_in_cost, horizon.
  set (hi := fun t => Qabs (price_rise id_electricity_prices c c' t) * _ + _). set (lo := fun t => price_rise id_electricity_prices c c' t * _ - _ + _).
  assert (forall t, In t (seq 0 (n_intervals c)) -> lo t <= hi t /\ - hi t <= lo t) as K.
  { intros t It. apply in_seq in It. destruct (C10_grid_limits _ _ _ _ _ _ _ _ R t) as ([A1 A2] & [B1 B2] & _); [lia|].
    destruct (abs_part (price_rise id_electricity_prices c c' t) (r_import r t) (energy (sc_freq c) (sc_import_limit_mw c))) as [U1 U2]; [split; lra|].
    destruct (abs_part (price_rise id_export_electricity_prices c c' t) (r_export r t) (energy (sc_freq c) (sc_export_limit_mw c))) as [V1 V2]; [split; lra|].
    assert (price_rise id_gas_prices c c' t == 0) as Z by (unfold price_rise; rewrite (G t) by lia; ring).
    assert (price_rise id_gas_prices c c' t * total (r_gas r t) assets == 0) as Z' by (rewrite Z; ring). unfold lo, hi. split; lra. }
  split.
  - setoid_replace (- Qsum (map hi (seq 0 (n_intervals c)))) with (Qsum (map (fun t => (-1) * hi t) (seq 0 (n_intervals c)))) by (rewrite Qsum_map_scale; ring).
    apply Qsum_le. intros t It. destruct (K t It). lra.
  - apply Qsum_le. intros t It. apply (K t It).
Qed.
Theorem C79_price_error : forall gap slv base c assets fl r slv' base' c' r',
  best_run gap slv base c assets [] (ObjName "price") fl r -> best_run gap slv' base' c' assets [] (ObjName "price") fl r' -> same_site c c' ->
  same_data (n_intervals c) (id_gas_prices (sc_idata c)) (id_gas_prices (sc_idata c')) ->
  Qabs (reported_cost c' assets r' - reported_cost c assets r) <= grid_exposure c c' + gap.
Proof.
  intros gap slv base c assets fl r slv' base' c' r' B B' [S S'] G.
  pose proof (no_better_here _ _ _ _ _ _ _ _ _ _ _ _ _ B (proj1 B') S') as X. pose proof (no_better_here _ _ _ _ _ _ _ _ _ _ _ _ _ B' (proj1 B) S) as X'.
  pose proof (proj1 (revalued c c' assets r (proj1 S))) as Y. pose proof (proj1 (revalued c c' assets r' (proj1 S))) as Y'.
  destruct (exposure_bounds _ _ c c c' _ _ _ _ _ (proj1 B)) as [Z1 Z2]; [reflexivity|lra|lra|exact G|].
  pose proof S as (N & F & _ & _ & _ & _ & LI & LE). pose proof S' as (_ & F' & _ & _ & _ & _ & LI' & LE').
  destruct (exposure_bounds _ _ c' c c' _ _ _ _ _ (proj1 B')) as [Z3 Z4]; [exact N|rewrite F in *; exact LI'|rewrite F in *; exact LE'|exact G|].
  apply Qabs_case; intros _; lra.
Qed.

(** ** Average prices: the optimum of a site with averaged prices costs at least the average of the optima (uncertain prices are worth waiting for) *)
Definition averaged (n : nat) (k : Q) (l1 l2 l : list Q) : Prop := forall t, (t < n)%nat -> data l t == k * data l1 t + (1 - k) * data l2 t.
Definition prices_averaged (k : Q) (c1 c2 c : site_cfg) : Prop :=
  let a (get : idata Q -> list Q) := averaged (n_intervals c) k (get (sc_idata c1)) (get (sc_idata c2)) (get (sc_idata c)) in
  a id_electricity_prices /\ a id_export_electricity_prices /\ a id_gas_prices.
Theorem C79_average : forall k gap slv base c assets cons obj fl r slv1 base1 c1 r1 slv2 base2 c2 r2,
  feasible_run slv base c assets cons obj fl r -> between 0 k 1 -> prices_averaged k c1 c2 c -> site_at_least c c1 -> site_at_least c c2 ->
  best_run gap slv1 base1 c1 assets [] (ObjName "price") fl r1 -> best_run gap slv2 base2 c2 assets [] (ObjName "price") fl r2 ->
  k * reported_cost c1 assets r1 + (1 - k) * reported_cost c2 assets r2 <= reported_cost c assets r + gap.
Proof.
  intros k gap slv base c assets cons obj fl r slv1 base1 c1 r1 slv2 base2 c2 r2 R [K0 K1] (A1 & A2 & A3) S1 S2 B1 B2.
  pose proof (no_better_here _ _ _ _ _ _ _ _ _ _ _ _ _ B1 R S1) as X1. pose proof (no_better_here _ _ _ _ _ _ _ _ _ _ _ _ _ B2 R S2) as X2.
  assert (reported_cost c assets r == k * reported_cost c1 assets r + (1 - k) * reported_cost c2 assets r) as E.
  { unfold reported_cost, horizon. rewrite (proj1 S1), (proj1 S2), <- !Qsum_map_scale, <- Qsum_map_plus. apply Qsum_map_ext. intros t It. apply in_seq in It.
    rewrite (A1 t), (A2 t), (A3 t) by lia. ring. }
  assert (0 <= k * (reported_cost c1 assets r + gap - reported_cost c1 assets r1)) by (apply Qmult_le_0_compat; lra).
  assert (0 <= (1 - k) * (reported_cost c2 assets r + gap - reported_cost c2 assets r2)) by (apply Qmult_le_0_compat; lra). lra.
Qed.
Theorem C79_average_carbon : forall k gap slv base c assets cons obj fl r slv1 base1 c1 r1 slv2 base2 c2 r2,
  feasible_run slv base c assets cons obj fl r -> between 0 k 1 ->
  averaged (n_intervals c) k (id_electricity_carbon_intensities (sc_idata c1)) (id_electricity_carbon_intensities (sc_idata c2)) (id_electricity_carbon_intensities (sc_idata c)) ->
  site_at_least c c1 -> site_at_least c c2 ->
  best_run gap slv1 base1 c1 assets [] (ObjName "carbon") fl r1 -> best_run gap slv2 base2 c2 assets [] (ObjName "carbon") fl r2 ->
  k * reported_emissions c1 assets r1 + (1 - k) * reported_emissions c2 assets r2 <= reported_emissions c assets r + gap.
Proof.
  intros k gap slv base c assets cons obj fl r slv1 base1 c1 r1 slv2 base2 c2 r2 R [K0 K1] A S1 S2 B1 B2.
  pose proof (no_cleaner_here _ _ _ _ _ _ _ _ _ _ _ _ _ B1 R S1) as X1. pose proof (no_cleaner_here _ _ _ _ _ _ _ _ _ _ _ _ _ B2 R S2) as X2.
  assert (reported_emissions c assets r == k * reported_emissions c1 assets r + (1 - k) * reported_emissions c2 assets r) as E.
  { unfold reported_emissions, horizon. rewrite (proj1 S1), (proj1 S2), <- !Qsum_map_scale, <- Qsum_map_plus. apply Qsum_map_ext. intros t It. apply in_seq in It.
    rewrite (A t) by lia. ring. }
  assert (0 <= k * (reported_emissions c1 assets r + gap - reported_emissions c1 assets r1)) by (apply Qmult_le_0_compat; lra).
  assert (0 <= (1 - k) * (reported_emissions c2 assets r + gap - reported_emissions c2 assets r2)) by (apply Qmult_le_0_compat; lra). lra.
Qed.

(** ** Samples: the battery of C64, prices 10 then 20, or 20 then 10, or the average *)
Definition pr_down := q_site 20 10 20 10.
Definition pr_flat := q_site 15 15 15 15.
Definition pr_down_result := run_of q_other pr_down [h_battery 1] [] (ObjName "price").
Lemma pr_down_run : best_run 0 q_other 0 pr_down [h_battery 1] [] (ObjName "price") default_flags pr_down_result.
Proof. best. Qed.
Lemma pr_same p1 p2 x1 x2 y1 y2 z1 z2 : same_site (q_site p1 p2 x1 x2) (q_site y1 y2 z1 z2).
Proof. split; unfold site_at_least, same_data; cbv zeta; splits; intros; try reflexivity; vm_compute; congruence. Qed.
Definition pr_solver := stopped 5 (h_values 0) [15; 0; 0; 0; 0; 0; 0; 0; 0; 15; 0; 15; 0; 0; 0; 0; 0; 0; -5; -5; 10; 0; 10; -15; 0].
Definition pr_flat_result := run_of pr_solver pr_flat [h_battery 1] [] (ObjName "price").
Lemma pr_flat_run : feasible_run pr_solver 0 pr_flat [h_battery 1] [] (ObjName "price") default_flags pr_flat_result.
Proof. run. Qed.
Example C79_sample_costs : reported_cost q_actual_site [h_battery 1] q_actual == 20 /\ reported_cost pr_down [h_battery 1] pr_down_result == 30 /\
  reported_cost pr_flat [h_battery 1] pr_flat_result == 30 /\ grid_exposure q_actual_site pr_down == 3000 /\
  rise_in_cost q_actual_site pr_down [h_battery 1] q_actual == 20 /\ rise_in_cost q_actual_site pr_down [h_battery 1] pr_down_result == 0.
Proof. splits; vm_compute; reflexivity. Qed.
Example C79_sample_average : (1#2) * 20 + (1 - (1#2)) * 30 <= 30 + 0.
Proof.
  assert (prices_averaged (1#2) q_actual_site pr_down pr_flat) as PA.
  { unfold prices_averaged, averaged. cbv zeta. splits; intros t Ht; destruct t as [|[|t]]; try (vm_compute; reflexivity); exfalso; vm_compute in Ht; lia. }
  assert (between 0 (1#2) 1) as KB by (split; discriminate).
  assert (site_at_least pr_flat q_actual_site) as S1 by exact (proj1 (pr_same 15 15 15 15 10 20 10 20)).
  assert (site_at_least pr_flat pr_down) as S2 by exact (proj1 (pr_same 15 15 15 15 20 10 20 10)).
  pose proof pr_flat_run as R0. pose proof q_actual_run as R1. pose proof pr_down_run as R2.
  pose proof (C79_average (1#2) 0 _ _ _ _ _ _ _ _ _ _ _ _ _ _ _ _ R0 KB PA S1 S2 R1 R2) as K.
  destruct C79_sample_costs as (X & Y & Z & _). lra.
Qed.
Example C79_sample_error : rise_in_cost q_actual_site pr_down [h_battery 1] pr_down_result <= rise_in_cost q_actual_site pr_down [h_battery 1] q_actual + 0 + 0 /\
  Qabs (reported_cost pr_down [h_battery 1] pr_down_result - reported_cost q_actual_site [h_battery 1] q_actual) <= grid_exposure q_actual_site pr_down + 0.
Proof.
  split; [exact (C79_law_of_demand 0 q_solver 0 q_actual_site [h_battery 1] default_flags q_actual 0 q_other 0 pr_down pr_down_result q_actual_run pr_down_run (pr_same 10 20 10 20 20 10 20 10))|].
  refine (C79_price_error 0 q_solver 0 q_actual_site [h_battery 1] default_flags q_actual q_other 0 pr_down pr_down_result q_actual_run pr_down_run (pr_same 10 20 10 20 20 10 20 10) _). intros t Ht. reflexivity.
Qed.
