(** * PropSolar: what a renewable generator is worth (C85) *)
From Coq Require Import Permutation Qminmax.
From Verif Require Import Base Pulp Params Optimizer Types Assets EVs Site Constraints Objectives Extract Pipeline Emit Prim Spec SpecReport SpecRun SpecCost SpecCompare Layout Rows Sem SemEv SemSite SemProg SemResults RunFacts Complete Pad Bounded Compare PropSite PropEv PropObjective PropCompare PropPool Check SampleSite Certified Capped SampleCompare SampleMoves PropDemand.
Open Scope Q_scope.
Open Scope string_scope.

(** ** Specification *)
(** what a renewable generator can generate over the horizon, valued at given prices *)
Definition valued (c : site_cfg) (g : rg_cfg) (prices : list Q) : Q := over_horizon c (fun t => data (rg_available_mwh g) t * data prices t).
(** it is never available with less than nothing, and may generate all it has *)
Definition usable (n : nat) (g : rg_cfg) : Prop := forall t, (t < n)%nat -> 0 <= data (rg_available_mwh g) t /\ rg_lower_pct g <= 1.

(** ** Proof: with the generator on full, the grid takes the rest; without it, the grid gives what it gave *)
Definition full_on (g : rg_cfg) : dispatch :=
  mkDispatch (fun _ => 0) (fun _ => 0) (fun _ _ t => data (rg_available_mwh g) t) (fun _ _ _ _ => 0) (fun _ _ _ _ => 0) (fun _ _ _ _ => 0) (fun _ _ _ => 0) (fun _ _ _ => 0) (fun _ _ _ => 0) (fun _ _ _ => 0).
Lemma flows_perm (g : dispatch -> nat -> asset -> Q) (d : dispatch) t l l' : Permutation l l' -> total (g d t) l == total (g d t) l'.
Proof. intros P. now apply total_perm. Qed.
Section Solar.
Variables (c : site_cfg) (g : rg_cfg) (assets assets' : list asset) (fl : flags).
Hypothesis PM : Permutation assets' (ARenewable g :: assets).
Hypothesis ND : NoDup (map asset_name assets').
Hypothesis US : usable (n_intervals c) g.
Lemma not_its_name a : In a assets -> asset_name a <> rg_name g.
Proof.
  intros Ia E. assert (NoDup (map asset_name (ARenewable g :: assets))) as N by (eapply Permutation_NoDup; [|exact ND]; now apply Permutation_map).
  cbn [map asset_name] in N. inversion N as [|? ? N1 N2]; subst. apply N1. rewrite <- E. now apply in_map.
Qed.
Section On.
Variable d : dispatch.
Hypothesis PH : physical c assets fl d.
Hypothesis RM : forall t, (t < n_intervals c)%nat -> let x := d_import d t - d_export d t + - data (rg_available_mwh g) t in
    x <= energy (sc_freq c) (sc_import_limit_mw c) /\ - x <= energy (sc_freq c) (sc_export_limit_mw c).
Let src (nm : string) : dispatch * string := if (nm =? rg_name g)%string then (full_on g, nm) else (d, nm).
Let x (t : nat) : Q := d_import d t - d_export d t + - data (rg_available_mwh g) t.
Definition switched_on : dispatch := mixed src (fun t => Qmax 0 (x t)) (fun t => Qmax 0 (- x t)).
Lemma src_own : src (rg_name g) = (full_on g, rg_name g).
Proof. unfold src. now rewrite String.eqb_refl. Qed.
Lemma src_other a : In a assets -> src (asset_name a) = (d, asset_name a).
Proof. intros Ia. unfold src. rewrite (proj2 (String.eqb_neq _ _) (not_its_name a Ia)). reflexivity. Qed.
Lemma on_total q t : In q flow_names -> total (q switched_on t) assets' == q (full_on g) t (ARenewable g) + total (q d t) assets.
Proof.
  intros Iq. rewrite (flows_perm q switched_on t _ _ PM), total_cons. unfold switched_on at 2. rewrite (mixed_total src _ _ assets d t q Iq src_other).
  unfold switched_on. rewrite (mixed_flow src _ _ (ARenewable g) (full_on g) (rg_name g) t q Iq src_own). change (rename (rg_name g) (ARenewable g)) with (rename (asset_name (ARenewable g)) (ARenewable g)). rewrite (rename_same (ARenewable g)). reflexivity.
Qed.
Ltac total_of q := rewrite (on_total q) by (unfold flow_names; cbn [In]; tauto).
Lemma on_physical : physical c assets' fl switched_on.
Proof.
  split.
  - intros t Ht. destruct (proj1 PH t Ht) as (((I0 & I1) & (E0 & E1) & _) & EB & HB & LB). destruct (RM t Ht) as (R1 & R2).
    unfold grid_limits, between, electricity_balanced, high_temperature_balanced, low_temperature_balanced in *.
    total_of elec_gen; total_of elec_load; total_of charge; total_of discharge; total_of ht_gen; total_of ht_load; total_of lt_gen; total_of lt_load.
    cbn [elec_gen elec_load charge discharge ht_gen ht_load lt_gen lt_load full_on d_qty asset_name]. unfold switched_on. cbn [mixed d_import d_export]. fold (x t) in R1, R2.
    assert (x t == d_import d t - d_export d t + - data (rg_available_mwh g) t) as X by reflexivity. set (y := x t) in *. clearbody y.
    destruct (grid_split y) as (S1 & S2 & S3 & S4). splits; auto; try lra; apply grid_bound; lra.
  - intros a Ia. apply (Permutation_in _ PM) in Ia. destruct Ia as [<-|Ia].
    + apply (mixed_physical src _ _ (ARenewable g) (full_on g) (rg_name g)); [exact src_own|]. change (rename (rg_name g) (ARenewable g)) with (rename (asset_name (ARenewable g)) (ARenewable g)). rewrite (rename_same (ARenewable g)). cbn [asset_physical]. intros t Ht. cbv zeta. cbn [full_on d_qty]. destruct (US t Ht) as (A & B). unfold data in *.
      unfold between. set (v := nth t (rg_available_mwh g) 0) in *. clearbody v. split; [|lra]. assert (0 <= v * (1 - rg_lower_pct g)) by (apply Qmult_le_0_compat; lra). lra.
    + apply (mixed_physical src _ _ a d (asset_name a)); [now apply src_other|]. rewrite rename_same. now apply PH.
Qed.
Lemma on_cost : no_arbitrage c -> dispatch_cost c assets' switched_on <= dispatch_cost c assets d - valued c g (id_export_electricity_prices (sc_idata c)).
Proof.
  intros NA. unfold dispatch_cost, valued, over_horizon. assert (forall u v, u - v == u + (-1) * v) as M by (intros; ring). rewrite M, <- Qsum_map_scale, <- Qsum_map_plus. apply Qsum_le. intros t It. apply in_seq in It. assert (t < n_intervals c)%nat as Ht by lia.
  specialize (NA t Ht). destruct (proj1 PH t Ht) as (((I0 & _) & (E0 & _) & _) & _). destruct (US t Ht) as (A & _).
  unfold interval_cost. total_of gas_use. total_of spilled. cbn [gas_use spilled full_on d_qty asset_name]. unfold switched_on. cbn [mixed d_import d_export].
  pose proof (exchange_cost (d_import d t) (d_export d t) (- data (rg_available_mwh g) t) (data (id_electricity_prices (sc_idata c)) t) (data (id_export_electricity_prices (sc_idata c)) t) I0 E0 NA) as K. cbv zeta in K. fold (x t) in K.
  destruct (Qle_bool 0 (- data (rg_available_mwh g) t)) eqn:B; [|lra]. apply Qle_bool_iff in B. assert (data (rg_available_mwh g) t == 0) as Z by lra. rewrite Z in *. lra.
Qed.
Lemma on_emissions : dispatch_emissions c assets' switched_on == dispatch_emissions c assets d - valued c g (id_electricity_carbon_intensities (sc_idata c)).
Proof.
  unfold dispatch_emissions, valued, over_horizon. assert (forall u v, u - v == u + (-1) * v) as M by (intros; ring). rewrite M, <- Qsum_map_scale, <- Qsum_map_plus. apply Qsum_map_ext. intros t It. apply in_seq in It. assert (t < n_intervals c)%nat as Ht by lia.
  unfold interval_emissions. total_of gas_use. total_of spilled. cbn [gas_use spilled full_on d_qty asset_name]. unfold switched_on. cbn [mixed d_import d_export].
  destruct (grid_split (x t)) as (S1 & _). rewrite S1. unfold x. ring.
Qed.
End On.
Section Off.
Variable d : dispatch.
Hypothesis PH : physical c assets' fl d.
Hypothesis RM : forall t, (t < n_intervals c)%nat -> let x := d_import d t - d_export d t + data (rg_available_mwh g) t in
    x <= energy (sc_freq c) (sc_import_limit_mw c) /\ - x <= energy (sc_freq c) (sc_export_limit_mw c).
Let gen (t : nat) : Q := d_qty d (rg_name g) ElecGen t.
Definition switched_off : dispatch := regridded (fun t => d_import d t - d_export d t + gen t) d.
Lemma off_total q t : In q flow_names -> total (q switched_off t) assets == total (q d t) assets' - q d t (ARenewable g).
Proof. intros Iq. unfold switched_off. rewrite (regridded_total _ _ _ _ q Iq), (flows_perm q d t _ _ PM), total_cons. ring. Qed.
Ltac total_of q := rewrite (off_total q) by (unfold flow_names; cbn [In]; tauto).
Lemma its_part t : (t < n_intervals c)%nat -> data (rg_available_mwh g) t * rg_lower_pct g <= gen t <= data (rg_available_mwh g) t.
Proof. intros Ht. pose proof (proj2 PH (ARenewable g) (Permutation_in _ (Permutation_sym PM) (or_introl eq_refl)) t Ht) as K. exact K. Qed.
Hypothesis LO : 0 <= rg_lower_pct g.
Lemma its_gen t : (t < n_intervals c)%nat -> 0 <= gen t <= data (rg_available_mwh g) t.
Proof. intros Ht. destruct (its_part t Ht) as (A & B). destruct (US t Ht) as (C & _). pose proof (Qmult_le_0_compat _ _ C LO). lra. Qed.
Lemma off_physical : physical c assets fl switched_off.
Proof.
  split.
  - intros t Ht. destruct (proj1 PH t Ht) as (((I0 & I1) & (E0 & E1) & _) & EB & HB & LB). destruct (RM t Ht) as (R1 & R2). destruct (its_gen t Ht) as (G0 & G1).
    unfold grid_limits, between, electricity_balanced, high_temperature_balanced, low_temperature_balanced in *.
    total_of elec_gen; total_of elec_load; total_of charge; total_of discharge; total_of ht_gen; total_of ht_load; total_of lt_gen; total_of lt_load.
    cbn [elec_gen elec_load charge discharge ht_gen ht_load lt_gen lt_load asset_name]. fold (gen t). unfold switched_off, regridded. cbn [mixed d_import d_export].
    set (y := d_import d t - d_export d t + gen t) in *. assert (y == d_import d t - d_export d t + gen t) as Y by reflexivity. clearbody y.
    destruct (grid_split y) as (S1 & S2 & S3 & S4). splits; auto; try lra; apply grid_bound; lra.
  - intros a Ia. unfold switched_off. apply regridded_physical. apply PH. apply (Permutation_in _ (Permutation_sym PM)). now right.
Qed.
Lemma off_cost : no_arbitrage c -> (forall t, (t < n_intervals c)%nat -> 0 <= data (id_electricity_prices (sc_idata c)) t) ->
  dispatch_cost c assets switched_off <= dispatch_cost c assets' d + valued c g (id_electricity_prices (sc_idata c)).
Proof.
  intros NA PN. unfold dispatch_cost, valued, over_horizon. rewrite <- Qsum_map_plus. apply Qsum_le. intros t It. apply in_seq in It. assert (t < n_intervals c)%nat as Ht by lia.
  specialize (NA t Ht). specialize (PN t Ht). destruct (proj1 PH t Ht) as (((I0 & _) & (E0 & _) & _) & _). destruct (its_gen t Ht) as (G0 & G1).
  unfold interval_cost. total_of gas_use. total_of spilled. cbn [gas_use spilled asset_name]. unfold switched_off, regridded. cbn [mixed d_import d_export].
  pose proof (exchange_cost (d_import d t) (d_export d t) (gen t) (data (id_electricity_prices (sc_idata c)) t) (data (id_export_electricity_prices (sc_idata c)) t) I0 E0 NA) as K. cbv zeta in K.
  rewrite (proj2 (Qle_bool_iff 0 (gen t)) G0) in K. assert (0 <= (data (rg_available_mwh g) t - gen t) * data (id_electricity_prices (sc_idata c)) t) by (apply Qmult_le_0_compat; lra). lra.
Qed.
Lemma off_emissions : (forall t, (t < n_intervals c)%nat -> 0 <= data (id_electricity_carbon_intensities (sc_idata c)) t) ->
  dispatch_emissions c assets switched_off <= dispatch_emissions c assets' d + valued c g (id_electricity_carbon_intensities (sc_idata c)).
Proof.
  intros PN. unfold dispatch_emissions, valued, over_horizon. rewrite <- Qsum_map_plus. apply Qsum_le. intros t It. apply in_seq in It. assert (t < n_intervals c)%nat as Ht by lia.
  specialize (PN t Ht). destruct (its_gen t Ht) as (G0 & G1).
  unfold interval_emissions. total_of gas_use. total_of spilled. cbn [gas_use spilled asset_name]. unfold switched_off, regridded. cbn [mixed d_import d_export].
  destruct (grid_split (d_import d t - d_export d t + gen t)) as (S1 & _). rewrite S1. assert (0 <= (data (rg_available_mwh g) t - gen t) * data (id_electricity_carbon_intensities (sc_idata c)) t) by (apply Qmult_le_0_compat; lra). lra.
Qed.
End Off.
End Solar.

(** ** C85: a renewable generator saves at least what its energy sells for, and at most what it would cost to buy *)
Theorem C85_generator_saves : forall gap slv base c assets cons obj fl r slv' base' assets' r' g,
  feasible_run slv base c assets cons obj fl r -> best_run gap slv' base' c assets' [] (ObjName "price") fl r' ->
  Permutation assets' (ARenewable g :: assets) -> usable (n_intervals c) g -> no_arbitrage c -> room_for (fun t => - data (rg_available_mwh g) t) c r ->
  reported_cost c assets' r' <= reported_cost c assets r - valued c g (id_export_electricity_prices (sc_idata c)) + gap.
Proof.
  intros gap slv base c assets cons obj fl r slv' base' assets' r' g R RB PM US NA RM. pose proof (best_names _ _ _ _ _ _ _ _ _ RB) as ND. destruct RB as (R' & SW & SN).
  destruct (run_facts _ _ _ _ _ _ _ _ R) as (d & _ & F). pose proof (room_facts _ _ _ _ _ _ F RM) as RD.
  pose proof (on_physical c g assets assets' fl PM ND US d (fa_physical _ _ _ _ _ F) RD) as PH.
  pose proof (on_cost c g assets assets' fl PM ND US d (fa_physical _ _ _ _ _ F) NA) as L. pose proof (C53_price_within _ _ _ _ _ _ _ R' SW SN _ PH) as K.
  destruct (reported_cost_eq _ _ _ _ _ F) as [E _]. rewrite E. lra.
Qed.
Theorem C85_generator_abates : forall gap slv base c assets cons obj fl r slv' base' assets' r' g,
  feasible_run slv base c assets cons obj fl r -> best_run gap slv' base' c assets' [] (ObjName "carbon") fl r' ->
  Permutation assets' (ARenewable g :: assets) -> usable (n_intervals c) g -> room_for (fun t => - data (rg_available_mwh g) t) c r ->
  reported_emissions c assets' r' <= reported_emissions c assets r - valued c g (id_electricity_carbon_intensities (sc_idata c)) + gap.
Proof.
  intros gap slv base c assets cons obj fl r slv' base' assets' r' g R RB PM US RM. pose proof (best_names _ _ _ _ _ _ _ _ _ RB) as ND. destruct RB as (R' & SW & SN).
  destruct (run_facts _ _ _ _ _ _ _ _ R) as (d & _ & F). pose proof (room_facts _ _ _ _ _ _ F RM) as RD.
  pose proof (on_physical c g assets assets' fl PM ND US d (fa_physical _ _ _ _ _ F) RD) as PH.
  pose proof (on_emissions c g assets assets' PM ND d) as L. pose proof (C53_carbon_within _ _ _ _ _ _ _ R' SW SN _ PH) as K.
  destruct (reported_cost_eq _ _ _ _ _ F) as [_ E]. rewrite E. lra.
Qed.
Theorem C85_saves_no_more : forall gap slv base c assets fl r slv' base' assets' cons' obj' r' g,
  best_run gap slv base c assets [] (ObjName "price") fl r -> feasible_run slv' base' c assets' cons' obj' fl r' ->
  Permutation assets' (ARenewable g :: assets) -> usable (n_intervals c) g -> 0 <= rg_lower_pct g -> no_arbitrage c -> (forall t, (t < n_intervals c)%nat -> 0 <= data (id_electricity_prices (sc_idata c)) t) ->
  room_for (fun t => data (rg_available_mwh g) t) c r' ->
  reported_cost c assets r <= reported_cost c assets' r' + valued c g (id_electricity_prices (sc_idata c)) + gap.
Proof.
  intros gap slv base c assets fl r slv' base' assets' cons' obj' r' g (R & SW & SN) R' PM US LO NA PN RM.
  destruct (run_facts _ _ _ _ _ _ _ _ R') as (d & _ & F). pose proof (room_facts _ _ _ _ _ _ F RM) as RD.
  pose proof (off_physical c g assets assets' fl PM US d (fa_physical _ _ _ _ _ F) RD LO) as PH.
  pose proof (off_cost c g assets assets' fl PM US d (fa_physical _ _ _ _ _ F) LO NA PN) as L. pose proof (C53_price_within _ _ _ _ _ _ _ R SW SN _ PH) as K.
  destruct (reported_cost_eq _ _ _ _ _ F) as [E _]. rewrite E. lra.
Qed.
Theorem C85_abates_no_more : forall gap slv base c assets fl r slv' base' assets' cons' obj' r' g,
  best_run gap slv base c assets [] (ObjName "carbon") fl r -> feasible_run slv' base' c assets' cons' obj' fl r' ->
  Permutation assets' (ARenewable g :: assets) -> usable (n_intervals c) g -> 0 <= rg_lower_pct g -> (forall t, (t < n_intervals c)%nat -> 0 <= data (id_electricity_carbon_intensities (sc_idata c)) t) ->
  room_for (fun t => data (rg_available_mwh g) t) c r' ->
  reported_emissions c assets r <= reported_emissions c assets' r' + valued c g (id_electricity_carbon_intensities (sc_idata c)) + gap.
Proof.
  intros gap slv base c assets fl r slv' base' assets' cons' obj' r' g (R & SW & SN) R' PM US LO PN RM.
  destruct (run_facts _ _ _ _ _ _ _ _ R') as (d & _ & F). pose proof (room_facts _ _ _ _ _ _ F RM) as RD.
  pose proof (off_physical c g assets assets' fl PM US d (fa_physical _ _ _ _ _ F) RD LO) as PH.
  pose proof (off_emissions c g assets assets' fl PM US d (fa_physical _ _ _ _ _ F) LO PN) as L. pose proof (C53_carbon_within _ _ _ _ _ _ _ R SW SN _ PH) as K.
  destruct (reported_cost_eq _ _ _ _ _ F) as [_ E]. rewrite E. lra.
Qed.

(** ** Samples: 1 MWh of solar energy behind a meter that buys at 10 and sells at 5 saves 10: at least 5, at most 10 *)
Definition so_solver : solver := capped 0 [1; 0; 1; 0] [10; 0; 0; 0; 0; 0] [].
Definition so_r : sim_result := Eval vm_compute in run_of so_solver (po_site 10 5 1 4 4) [] [] (ObjName "price").
Lemma so_best : best_run 0 so_solver 0 (po_site 10 5 1 4 4) [] [] (ObjName "price") default_flags so_r.
Proof. capped_best. Qed.
Definition so_plant : rg_cfg := mkRgCfg "solar" 1 [1] true.
Lemma so_usable : usable (n_intervals (po_site 10 5 1 4 4)) so_plant.
Proof. unfold usable. one_interval. split; vm_compute; discriminate. Qed.
Example C85_sample :
  reported_cost (po_site 10 5 1 4 4) [po_solar] po_r <= reported_cost (po_site 10 5 1 4 4) [] so_r - 5 + 0 /\
  reported_cost (po_site 10 5 1 4 4) [] so_r <= reported_cost (po_site 10 5 1 4 4) [po_solar] po_r + 10 + 0 /\
  reported_cost (po_site 10 5 1 4 4) [] so_r == 10 /\ reported_cost (po_site 10 5 1 4 4) [po_solar] po_r == 0.
Proof.
  pose proof (C85_generator_saves 0 so_solver 0 (po_site 10 5 1 4 4) [] [] (ObjName "price") default_flags so_r po_both 0 [po_solar] po_r so_plant (proj1 so_best) po_best (Permutation_refl _) so_usable) as K.
  pose proof (C85_saves_no_more 0 so_solver 0 (po_site 10 5 1 4 4) [] default_flags so_r po_both 0 [po_solar] [] (ObjName "price") po_r so_plant so_best (proj1 po_best) (Permutation_refl _) so_usable) as L.
  assert (valued (po_site 10 5 1 4 4) so_plant (id_export_electricity_prices (sc_idata (po_site 10 5 1 4 4))) == 5) as E1 by (vm_compute; reflexivity).
  assert (valued (po_site 10 5 1 4 4) so_plant (id_electricity_prices (sc_idata (po_site 10 5 1 4 4))) == 10) as E2 by (vm_compute; reflexivity).
  rewrite E1 in K. rewrite E2 in L. splits; [apply K|apply L|vm_compute; reflexivity|vm_compute; reflexivity].
  - unfold no_arbitrage. one_interval. vm_compute. discriminate.
  - one_room.
  - vm_compute. discriminate.
  - unfold no_arbitrage. one_interval. vm_compute. discriminate.
  - one_interval. vm_compute. discriminate.
  - one_room.
Qed.
