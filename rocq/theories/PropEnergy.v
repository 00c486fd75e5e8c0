(** * PropEnergy: energy over the horizon, and flat prices (C66) *)
From Coq Require Import Permutation Qminmax.
From Verif Require Import Base Pulp Params Optimizer Types Pipeline Constraints Objectives Extract Spec SpecReport SpecRun SpecCost SpecTerms Emit Prim Rows SemEv SemResults RunFacts Complete Bounded Pad Check Lucky Certified SampleSite PropSite PropEv PropObjective SpecCompare Compare PropCompare PropHorizon SpecEnergy.
Open Scope Q_scope.
Open Scope string_scope.

Lemma Qsum_exchange {A B} (g : A -> B -> Q) l l' : Qsum (map (fun x => Qsum (map (g x) l')) l) == Qsum (map (fun y => Qsum (map (fun x => g x y) l)) l').
Proof.
  induction l as [|x l IH]; cbn [map].
  - symmetry. apply Qsum_map_zero. reflexivity.
  - change (Qsum (map (g x) l') + Qsum (map (fun x => Qsum (map (g x) l')) l) == Qsum (map (fun y => g x y + Qsum (map (fun x => g x y) l)) l')).
    rewrite Qsum_map_plus, IH. reflexivity.
Qed.
(** what an asset loses in a dispatch *)
Definition lost (d : dispatch) (t : nat) (a : asset) : Q :=
  match a with
  | ABattery b => d_qty d (b_name b) Loss t
  | AEVs c => Qsum (map (fun e => Qsum (map (fun k => d_ev_loss d (ev_name c) e k t) (seq 0 (List.length (ev_chargers c))))) (seq 0 (List.length (ev_event_cfgs c))))
  | _ => 0
  end.
Lemma Qsum_nth {A} (l : list A) (g : A -> Q) (h : nat -> Q) : (forall k x, nth_error l k = Some x -> h k == g x) ->
  Qsum (map h (seq 0 (List.length l))) == Qsum (map g l).
Proof. intros H. symmetry. apply Qsum_index. intros k x E. symmetry. auto. Qed.
Lemma asset_energy a f fl n d : (0 < n)%nat -> asset_physical a f fl n d ->
  Qsum (map (fun t => charge d t a - discharge d t a - lost d t a) (seq 0 n)) == stored a.
Proof.
  intros N P. destruct a as [b|b|b|e|b|b|nm|nm]; cbn [charge discharge lost stored]; try (apply Qsum_map_zero; intros; ring).
  - destruct P as (P & L & F0 & F1). pose proof (telescope n (d_qty d (b_name b) Soc0) (d_qty d (b_name b) Soc1) (fun t => d_qty d (b_name b) Charge t - d_qty d (b_name b) Discharge t - d_qty d (b_name b) Loss t) N) as T.
    rewrite F0, F1 in T. rewrite T; [ring| |exact L]. intros t Ht. destruct (P t Ht) as (_ & _ & _ & _ & _ & _ & _ & _ & _ & E). rewrite E. ring.
  - destruct P as (_ & _ & _ & _ & S & L & F). unfold ev_total_charge, ev_total_discharge, ev_spill_total.
    set (es := seq 0 (List.length (ev_event_cfgs e))) in *. set (ks := seq 0 (List.length (ev_chargers e))) in *.
    set (g := fun i t => Qsum (map (fun k => d_ev_charge d (ev_name e) i k t) ks) + d_spill_charge d (ev_name e) i t - Qsum (map (fun k => d_ev_discharge d (ev_name e) i k t) ks) - Qsum (map (fun k => d_ev_loss d (ev_name e) i k t) ks)).
    transitivity (Qsum (map (fun t => Qsum (map (fun i => g i t) es)) (seq 0 n))).
    { apply Qsum_map_ext. intros t _. unfold g. rewrite !Qsum_map_minus, Qsum_map_plus. ring. }
    rewrite (Qsum_exchange (fun t i => g i t)). unfold es. apply Qsum_nth. intros i ec E. destruct (F i ec E) as [F0 F1].
    assert (In i es) as Ii. { unfold es. apply in_seq. split; [lia|]. cbn. apply nth_error_Some. congruence. }
    pose proof (telescope n (d_ev_soc0 d (ev_name e) i) (d_ev_soc1 d (ev_name e) i) (g i) N) as T. rewrite F0, F1 in T.
    assert (ce_capacity_mwh ec == 0 + Qsum (map (g i) (seq 0 n))) as T'; [apply T; [|intros t Ht; now apply L]|change (Qsum (map (g i) (seq 0 n)) == ce_capacity_mwh ec); rewrite T'; ring].
    intros t Ht. destruct (S t i ec Ht E) as (_ & _ & EQ). rewrite EQ. unfold g. ring.
Qed.
Lemma loss_bridge r c assets fl d (FA : facts (r_results r) c assets fl d) t a : In a assets -> (t < n_intervals c)%nat -> r_loss r t a == lost d t a.
Proof.
  intros Ia Ht. destruct a as [b|b|b|e|b|b|nm|nm]; cbn [r_loss lost]; try reflexivity.
  - destruct (battery_rep r c assets fl d FA b t Ia Ht) as (_ & _ & E & _). exact E.
  - unfold rep_chargers. rewrite (Qsum_index (ev_chargers e) _ (fun k => Qsum (map (fun i => d_ev_loss d (ev_name e) i k t) (seq 0 (List.length (ev_event_cfgs e)))))).
    + apply (Qsum_exchange (fun k i => d_ev_loss d (ev_name e) i k t)).
    + intros k cc E. apply (charger_reported r c assets fl d FA e k cc t Ia Ht E).
Qed.
Lemma horizon_total (c : site_cfg) (g : nat -> asset -> Q) l : horizon c (fun t => total (g t) l) == total (fun a => horizon c (fun t => g t a)) l.
Proof. unfold horizon, total. apply (Qsum_exchange (fun t a => g t a)). Qed.

(** Over the horizon: what the site imports and generates is what it exports, uses, loses and stores. *)
Theorem C66_energy_audit : forall slv base c assets cons obj fl r, feasible_run slv base c assets cons obj fl r ->
  horizon c (r_import r) + horizon c (fun t => total (r_elec_gen r t) assets) ==
  horizon c (r_export r) + horizon c (data (id_electric_load_mwh (sc_idata c))) + horizon c (fun t => total (r_elec_load r t) assets) +
  horizon c (fun t => total (r_loss r t) assets) + total stored assets.
Proof.
  intros slv base c assets cons obj fl r R. destruct (run_facts _ _ _ _ _ _ _ _ R) as (d & _ & FA). pose proof (fa_n _ _ _ _ _ FA) as N.
  assert (total stored assets == horizon c (fun t => total (r_charge r t) assets - total (r_discharge r t) assets - total (r_loss r t) assets)) as ST.
  { transitivity (total (fun a => horizon c (fun t => charge d t a - discharge d t a - lost d t a)) assets).
    - apply total_ext. intros a Ia. symmetry. eapply asset_energy; [exact N|]. apply (phys_asset r c assets fl d FA a Ia).
    - rewrite <- (horizon_total c (fun t a => charge d t a - discharge d t a - lost d t a)). apply Qsum_map_ext. intros t It. apply in_seq in It. unfold total. rewrite !Qsum_map_minus.
      assert (t < n_intervals c)%nat as Ht by lia.
      apply Qplus_comp; [apply Qplus_comp|]; [|apply Qopp_comp|apply Qopp_comp]; apply Qsum_map_ext; intros a Ia; destruct (bridge r c assets fl d FA t a Ia Ht) as ((_ & _ & B1 & B2) & _); symmetry; auto. now apply (loss_bridge r c assets fl d FA). }
  rewrite ST. unfold horizon.
  assert (Qsum (map (fun t => r_import r t + total (r_elec_gen r t) assets) (seq 0 (n_intervals c))) ==
    Qsum (map (fun t => r_export r t + data (id_electric_load_mwh (sc_idata c)) t + total (r_elec_load r t) assets + (total (r_charge r t) assets - total (r_discharge r t) assets)) (seq 0 (n_intervals c)))) as B.
  { apply Qsum_map_ext. intros t It. apply in_seq in It. pose proof (C07_electricity_balance _ _ _ _ _ _ _ _ R t ltac:(lia)) as E. lra. }
  rewrite !Qsum_map_plus, !Qsum_map_minus in B. rewrite !Qsum_map_minus. set (x := Qsum _) in *. lra.
Qed.

(** ** Flat prices *)
Definition regrid (i x : nat -> Q) (d : dispatch) : dispatch :=
  mkDispatch i x (d_qty d) (d_ev_charge d) (d_ev_discharge d) (d_ev_loss d) (d_spill_charge d) (d_spill_loss d) (d_ev_soc0 d) (d_ev_soc1 d).
Section Flat.
Context (bs : list battery_cfg) (c c' : site_cfg) (assets assets' : list asset) (fl : flags) (d : dispatch).
Hypothesis PM : Permutation assets' (assets ++ map ABattery bs).
Hypothesis PH : physical c assets' fl d.
Hypothesis BB : bigger_by bs c c'.
Hypothesis N : (0 < n_intervals c)%nat.
Let charging (t : nat) : Q := total (charge d t) (map ABattery bs).
Let discharging (t : nat) : Q := total (discharge d t) (map ABattery bs).
Let net (t : nat) : Q := d_import d t - d_export d t - charging t + discharging t.
Definition flat_dispatch : dispatch := regrid (fun t => Qmax (net t) 0) (fun t => Qmax (- net t) 0) d.

Lemma battery_in b : In b bs -> battery_physical b (sc_freq c) (n_intervals c) d.
Proof. intros I. destruct PH as [_ A]. apply (A (ABattery b)). eapply Permutation_in; [symmetry; exact PM|]. apply in_or_app. right. now apply in_map. Qed.
Lemma without g : (forall b, g (ABattery b) == 0) -> total g assets' == total g assets.
Proof.
  intros H. rewrite (total_perm g _ _ PM), total_app, (total_zero g (map ABattery bs)); [ring|]. intros a Ia. apply in_map_iff in Ia. destruct Ia as (b & <- & _). apply H.
Qed.
Lemma with_batteries g : total g assets' == total g assets + total g (map ABattery bs).
Proof. rewrite (total_perm g _ _ PM), total_app. reflexivity. Qed.
Lemma power t : (t < n_intervals c)%nat ->
  between 0 (charging t) (Qsum (map (fun b => energy (sc_freq c) (b_charge_power_mw b)) bs)) /\
  between 0 (discharging t) (Qsum (map (fun b => energy (sc_freq c) (b_discharge_power_mw b)) bs)).
Proof.
  intros Ht. unfold charging, discharging, total. rewrite !map_map. unfold between. splits.
  - apply Qsum_map_nonneg. intros b I. destruct (battery_in b I) as (P & _). apply (P t Ht).
  - apply Qsum_le. intros b I. destruct (battery_in b I) as (P & _). apply (P t Ht).
  - apply Qsum_map_nonneg. intros b I. destruct (battery_in b I) as (P & _). apply (P t Ht).
  - apply Qsum_le. intros b I. destruct (battery_in b I) as (P & _). apply (P t Ht).
Qed.
Lemma flat_physical : physical c' assets fl flat_dispatch.
Proof.
  destruct BB as (EN & EF & D1 & D2 & D3 & D4 & LI & LX). destruct PH as [P A]. unfold physical. rewrite EN, EF. split.
  - intros t Ht. destruct (P t Ht) as (G & E & H & L). destruct (power t Ht) as [[C0 C1] [X0 X1]]. destruct G as ([I0 I1] & [E0 E1] & G).
    assert (total (charge d t) assets' == total (charge d t) assets + charging t) as WC by apply with_batteries.
    assert (total (discharge d t) assets' == total (discharge d t) assets + discharging t) as WD by apply with_batteries.
    unfold electricity_balanced, high_temperature_balanced, low_temperature_balanced, grid_limits, between in *. rewrite EF.
    rewrite (D1 t Ht), (D2 t Ht), (D3 t Ht), (D4 t Ht).
    change (elec_gen flat_dispatch t) with (elec_gen d t). change (elec_load flat_dispatch t) with (elec_load d t). change (charge flat_dispatch t) with (charge d t). change (discharge flat_dispatch t) with (discharge d t).
    change (ht_gen flat_dispatch t) with (ht_gen d t). change (ht_load flat_dispatch t) with (ht_load d t). change (lt_gen flat_dispatch t) with (lt_gen d t). change (lt_load flat_dispatch t) with (lt_load d t).
    rewrite <- !(without (ht_gen d t)), <- (without (ht_load d t)), <- (without (lt_gen d t)), <- (without (lt_load d t)) by reflexivity.
    rewrite (without (elec_gen d t)), (without (elec_load d t)) in E by reflexivity.
    cbn [flat_dispatch regrid d_import d_export].
    assert (net t == d_import d t - d_export d t - charging t + discharging t) as EQ by reflexivity.
    destruct (Q.max_spec (net t) 0) as [[M1 M2]|[M1 M2]]; destruct (Q.max_spec (- net t) 0) as [[M3 M4]|[M3 M4]]; rewrite M2, M4; splits; try lra; auto; try (right; lra); try (left; lra).
  - intros a Ia. apply (A a). eapply Permutation_in; [symmetry; exact PM|]. apply in_or_app. now left.
Qed.
Lemma battery_energy : Forall not_run_down bs -> 0 <= Qsum (map (fun t => charging t - discharging t) (seq 0 (n_intervals c))).
Proof.
  intros ND. rewrite Forall_forall in ND. apply (Qle_trans _ (Qsum (map (fun b => Qsum (map (fun t => charge d t (ABattery b) - discharge d t (ABattery b)) (seq 0 (n_intervals c)))) bs))).
  - apply Qsum_map_nonneg. intros b I. pose proof (asset_energy (ABattery b) (sc_freq c) fl (n_intervals c) d N (battery_in b I)) as E.
    rewrite Qsum_map_minus in E. cbn [stored] in E. specialize (ND b I). unfold not_run_down in ND.
    assert (0 <= Qsum (map (fun t => lost d t (ABattery b)) (seq 0 (n_intervals c)))); [|lra].
    apply Qsum_map_nonneg. intros t It. apply in_seq in It. destruct (battery_in b I) as (P & _). cbn [lost]. apply (P t). lia.
  - apply Qle_lteq. right. rewrite (Qsum_exchange (fun b t => charge d t (ABattery b) - discharge d t (ABattery b))). apply Qsum_map_ext. intros t _. rewrite Qsum_map_minus. unfold charging, discharging, total. rewrite !map_map. reflexivity.
Qed.
Lemma net_flat t : d_import flat_dispatch t - d_export flat_dispatch t == d_import d t - d_export d t - (charging t - discharging t).
Proof.
  cbn [flat_dispatch regrid d_import d_export]. assert (net t == d_import d t - d_export d t - charging t + discharging t) as EQ by reflexivity.
  destruct (Q.max_spec (net t) 0) as [[M1 M2]|[M1 M2]]; destruct (Q.max_spec (- net t) 0) as [[M3 M4]|[M3 M4]]; rewrite M2, M4; lra.
Qed.
Lemma flat_cost p : 0 <= p -> flat_prices p c c' -> Forall not_run_down bs -> dispatch_cost c' assets flat_dispatch <= dispatch_cost c assets' d.
Proof.
  intros P0 FP ND. pose proof (battery_energy ND) as E. assert (n_intervals c' = n_intervals c) as EN by apply BB. unfold dispatch_cost, over_horizon. rewrite EN.
  assert (0 <= p * Qsum (map (fun t => charging t - discharging t) (seq 0 (n_intervals c)))) as E' by (now apply Qmult_le_0_compat).
  rewrite <- Qsum_map_scale in E'.
  assert (Qsum (map (interval_cost c' assets flat_dispatch) (seq 0 (n_intervals c))) == Qsum (map (interval_cost c assets' d) (seq 0 (n_intervals c))) - Qsum (map (fun t => p * (charging t - discharging t)) (seq 0 (n_intervals c)))) as EQ; [|lra].
  rewrite <- Qsum_map_minus. apply Qsum_map_ext. intros t It. apply in_seq in It. destruct (FP t ltac:(lia)) as (Q1 & Q2 & Q3 & Q4 & Q5). unfold interval_cost. rewrite Q1, Q2, Q3, Q4, Q5.
  rewrite (without (gas_use d t)), (without (spilled d t)) by reflexivity. change (gas_use flat_dispatch t) with (gas_use d t). change (spilled flat_dispatch t) with (spilled d t).
  pose proof (net_flat t) as NF. transitivity ((d_import flat_dispatch t - d_export flat_dispatch t) * p + total (gas_use d t) assets * data (id_gas_prices (sc_idata c)) t + total (spilled d t) assets * spill_penalty); [ring|]. rewrite NF. ring.
Qed.
Lemma flat_emissions p : 0 <= p -> flat_intensity p c c' -> Forall not_run_down bs -> dispatch_emissions c' assets flat_dispatch <= dispatch_emissions c assets' d.
Proof.
  intros P0 FP ND. pose proof (battery_energy ND) as E. assert (n_intervals c' = n_intervals c) as EN by apply BB. unfold dispatch_emissions, over_horizon. rewrite EN.
  assert (0 <= p * Qsum (map (fun t => charging t - discharging t) (seq 0 (n_intervals c)))) as E' by (now apply Qmult_le_0_compat).
  rewrite <- Qsum_map_scale in E'.
  assert (Qsum (map (interval_emissions c' assets flat_dispatch) (seq 0 (n_intervals c))) == Qsum (map (interval_emissions c assets' d) (seq 0 (n_intervals c))) - Qsum (map (fun t => p * (charging t - discharging t)) (seq 0 (n_intervals c)))) as EQ; [|lra].
  rewrite <- Qsum_map_minus. apply Qsum_map_ext. intros t It. apply in_seq in It. destruct (FP t ltac:(lia)) as (Q1 & Q2). unfold interval_emissions. rewrite Q1, Q2.
  rewrite (without (gas_use d t)), (without (spilled d t)) by reflexivity. change (gas_use flat_dispatch t) with (gas_use d t). change (spilled flat_dispatch t) with (spilled d t).
  rewrite (net_flat t). ring.
Qed.
End Flat.

(** At flat prices batteries save nothing that a bigger grid connection would not save: without them the site costs no more. *)
Theorem C66_flat_prices : forall gap p slv base c cons obj fl r slv' base' c' assets assets' bs r',
  feasible_run slv base c assets' cons obj fl r -> best_run gap slv' base' c' assets [] (ObjName "price") fl r' ->
  Permutation assets' (assets ++ map ABattery bs) -> bigger_by bs c c' -> 0 <= p -> flat_prices p c c' -> Forall not_run_down bs ->
  reported_cost c' assets r' <= reported_cost c assets' r + gap.
Proof.
  intros gap p slv base c cons obj fl r slv' base' c' assets assets' bs r' R R' PM BB P0 FP ND.
  destruct (run_facts _ _ _ _ _ _ _ _ R) as (_ & _ & [_ _ N _ _]).
  apply (compare_cost _ _ _ _ _ _ _ _ _ _ _ _ _ _ _ R R'). intros d PH. exists (flat_dispatch bs d). split; [eapply flat_physical; eauto|eapply flat_cost; eauto].
Qed.
Theorem C66_flat_intensity : forall gap p slv base c cons obj fl r slv' base' c' assets assets' bs r',
  feasible_run slv base c assets' cons obj fl r -> best_run gap slv' base' c' assets [] (ObjName "carbon") fl r' ->
  Permutation assets' (assets ++ map ABattery bs) -> bigger_by bs c c' -> 0 <= p -> flat_intensity p c c' -> Forall not_run_down bs ->
  reported_emissions c' assets r' <= reported_emissions c assets' r + gap.
Proof.
  intros gap p slv base c cons obj fl r slv' base' c' assets assets' bs r' R R' PM BB P0 FP ND.
  destruct (run_facts _ _ _ _ _ _ _ _ R) as (_ & _ & [_ _ N _ _]).
  apply (compare_emissions _ _ _ _ _ _ _ _ _ _ _ _ _ _ _ R R'). intros d PH. exists (flat_dispatch bs d). split; [eapply flat_physical; eauto|eapply flat_emissions; eauto].
Qed.

(** ** The losses reported for the spill charger are not part of the balance *)
Definition en_site : site_cfg := mkSiteCfg (mkIdata [10] [0] [1#10] [0] [0] [0] [0] [0] 1 []) 60%Z 100 50.
(** one car, a charger too small to fill it in time: the spill charger adds half a MWh *)
Definition en_assets : list asset := [AEVs (mkEvsCfg "evs" [mkChargerCfg "charger-0" 1 1] [mkChargerCfg "charger-spill-evs" 10000 0] [mkEventCfg "charge-event-0" 1 (1#2)] [[1]])].
Definition en_solver : solver :=
  let y := spill_penalty + 10 in
  certified [3#2; 0; 1; 0; 0; 1; 1; 1; 1#2; 1#2; 1; 1#4] [10; 0; 0; 0; 0; 0; 10 - y / 2; 0; 10 - y / 2; 0; 0; 0; 0; 0; y; - y; 0; - y; y].
Definition en_result : sim_result := Eval vm_compute in result_of (optimize en_solver 0 en_site en_assets [] (ObjName "price") (mkFlags false false false false)).
Lemma en_run : feasible_run en_solver 0 en_site en_assets [] (ObjName "price") (mkFlags false false false false) en_result.
Proof.
  constructor; [exact (sound_honest _ (certified_sound _ _))|vm_compute; reflexivity|reflexivity|repeat constructor|split; [|split]].
  - intros a H E. cbn in H. repeat (destruct H as [<-|H]; [discriminate|]). destruct H.
  - intros col [].
  - intros e H. cbn in H. destruct H as [H|[]]. injection H as <-. reflexivity.
Qed.
Theorem C66_all_losses_refuted : exists slv base c assets cons obj fl r, sound_solver slv /\ feasible_run slv base c assets cons obj fl r /\
  ~ horizon c (r_import r) + horizon c (fun t => total (r_elec_gen r t) assets) ==
    horizon c (r_export r) + horizon c (data (id_electric_load_mwh (sc_idata c))) + horizon c (fun t => total (r_elec_load r t) assets) +
    horizon c (fun t => total (r_all_loss r t) assets) + total stored assets.
Proof.
  exists en_solver, 0%nat, en_site, en_assets, [], (ObjName "price"), (mkFlags false false false false), en_result. splits; [apply certified_sound|exact en_run|].
  intros H. vm_compute in H. discriminate.
Qed.

(** ** Cases that meet the hypotheses *)
(** the sample site: nothing imported, 9 MWh generated; 1 exported, 1 used by the heat pump, 3 lost, 2 in the cars *)
Example x_energy : horizon x_site (fun t => total (r_elec_gen x_result t) x_assets) == 9 /\ horizon x_site (r_export x_result) == 1 /\
  horizon x_site (fun t => total (r_loss x_result t) x_assets) == 3 /\ total stored x_assets == 2.
Proof. splits; vm_compute; reflexivity. Qed.
(** two hours at the same price, with and without a battery that cycles once *)
Definition fl_site (limit : Q) : site_cfg := mkSiteCfg (mkIdata [10; 10] [10; 10] [1#10; 1#10] [0; 0] [1; 1] [0; 0] [0; 0] [0; 0] 2 []) 60%Z limit (limit / 2).
Definition fl_battery : battery_cfg := mkBatteryCfg "battery" 1 1 1 (1#2) 0 0.
Definition fl_imports : objective := ObjTerms [TSimple (mkTerm "import_power_mwh" (Some "site") None None 1 "simple")].
Definition fl_values : list Q := [2; 0; 1; 0;  1; 0; 1; 0; 1#2; 0; 1#2;  1#2; 0; 1; 0;  0; 1#2; 0; 1; 0; 1#2; 0].
Definition fl_with : sim_result := Eval vm_compute in result_of (optimize (stopped 1000 fl_values []) 0 (fl_site 100) [ABattery fl_battery] [] fl_imports default_flags).
Definition fl_without : sim_result := Eval vm_compute in result_of (optimize (certified [1; 0; 1; 0; 1; 0; 1; 0] [10; 0; 0; 0; 0; 0; 10]) 0 (fl_site 200) [] [] (ObjName "price") default_flags).
Example fl_sample : reported_cost (fl_site 200) [] fl_without <= reported_cost (fl_site 100) [ABattery fl_battery] fl_with + 0 /\
  reported_cost (fl_site 200) [] fl_without == 20 /\ reported_cost (fl_site 100) [ABattery fl_battery] fl_with == 25.
Proof.
  splits; [|vm_compute; reflexivity|vm_compute; reflexivity].
  refine (C66_flat_prices 0 10 (stopped 1000 fl_values []) 0 (fl_site 100) [] fl_imports default_flags fl_with (certified [1; 0; 1; 0; 1; 0; 1; 0] [10; 0; 0; 0; 0; 0; 10]) 0 (fl_site 200) [] [ABattery fl_battery] [fl_battery] fl_without _ _ _ _ _ _ _).
  - constructor; [exact (stopped_honest 1000 _ [])|vm_compute; reflexivity|reflexivity|repeat constructor|split; [|split]].
    + intros a H E. cbn in H. repeat (destruct H as [<-|H]; [discriminate|]). destruct H.
    + intros col [].
    + intros e H. cbn in H. repeat (destruct H as [H|H]; [discriminate|]). destruct H.
  - split; [|split].
    + constructor; [exact (stopped_honest 0 _ _)|vm_compute; reflexivity|reflexivity|repeat constructor|split; [|split]]; intros ? [].
    + intros iv o _. apply stopped_within.
    + constructor.
  - apply Permutation_refl.
  - unfold bigger_by. cbv zeta. splits; try reflexivity; try (intros t Ht; reflexivity); vm_compute; discriminate.
  - vm_compute. discriminate.
  - intros t Ht. destruct t as [|[|t]]; [splits; reflexivity|splits; reflexivity|cbn in Ht; lia].
  - constructor; [|constructor]. vm_compute. discriminate.
Qed.
