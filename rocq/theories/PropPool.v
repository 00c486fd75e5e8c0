(** * PropPool: several sites behind one grid connection (C81), one machine replaced by several smaller ones (C82) *)
From Coq Require Import Permutation Qminmax.
From Verif Require Import Base Pulp Params Optimizer Types Assets EVs Site Constraints Objectives Extract Pipeline Emit Prim Spec SpecReport SpecRun SpecCost SpecCompare SpecScale Layout Rows Sem SemEv SemSite SemProg SemResults RunFacts Complete Pad Bounded Change Compare PropSite PropEv PropObjective PropCompare PropScale SpecPossible PropPossible Check SampleSite Certified Capped SampleCompare SampleMoves SamplePossible.
Open Scope Q_scope.
Open Scope string_scope.

(** ** Specification *)
(** [l] is, interval by interval, the sum of [l1] and [l2] *)
Definition data_added (n : nat) (l1 l2 l : list Q) : Prop := forall t, (t < n)%nat -> data l t == data l1 t + data l2 t.
(** [c] has the demands of [c1] and [c2] together, and a grid connection as big as their two *)
Definition pooled (c1 c2 c : site_cfg) : Prop :=
  let n := n_intervals c in let f := sc_freq c in
  let j (get : idata Q -> list Q) := data_added n (get (sc_idata c1)) (get (sc_idata c2)) (get (sc_idata c)) in
  n_intervals c1 = n /\ n_intervals c2 = n /\ sc_freq c1 = f /\ sc_freq c2 = f /\
  j id_electric_load_mwh /\ j id_high_temperature_load_mwh /\ j id_low_temperature_load_mwh /\ j id_low_temperature_generation_mwh /\
  energy f (sc_import_limit_mw c1) + energy f (sc_import_limit_mw c2) <= energy f (sc_import_limit_mw c) /\
  energy f (sc_export_limit_mw c1) + energy f (sc_export_limit_mw c2) <= energy f (sc_export_limit_mw c).
Definition same_prices (c c' : site_cfg) : Prop :=
  let n := n_intervals c in let i := sc_idata c in let i' := sc_idata c' in
  same_data n (id_electricity_prices i) (id_electricity_prices i') /\
  same_data n (id_export_electricity_prices i) (id_export_electricity_prices i') /\
  same_data n (id_gas_prices i) (id_gas_prices i').
(** electricity is never sold for more than it is bought for *)
Definition no_arbitrage (c : site_cfg) : Prop :=
  lower_data (n_intervals c) (id_electricity_prices (sc_idata c)) (id_export_electricity_prices (sc_idata c)).

(** the same equipment under another name *)
Definition rename (nm : string) (a : asset) : asset :=
  match a with
  | ABattery b => ABattery (mkBatteryCfg nm (b_charge_power_mw b) (b_discharge_power_mw b) (b_capacity_mwh b) (b_efficiency_pct b) (b_initial_charge_mwh b) (b_final_charge_mwh b))
  | ABoiler b => ABoiler (mkBoilerCfg nm (bo_max_mw b) (bo_min_mw b) (bo_efficiency_pct b))
  | ACHP b => ACHP (mkChpCfg nm (ch_max_mw b) (ch_min_mw b) (ch_electric_efficiency_pct b) (ch_ht_efficiency_pct b) (ch_lt_efficiency_pct b))
  | AEVs b => AEVs (mkEvsCfg nm (ev_chargers b) (ev_spill_chargers b) (ev_event_cfgs b) (ev_events b))
  | AHeatPump b => AHeatPump (mkHpCfg nm (hp_cop b) (hp_power_mw b))
  | ARenewable b => ARenewable (mkRgCfg nm (rg_lower_pct b) (rg_available_mwh b) (rg_is_array b))
  | ASpill _ => ASpill nm
  | AValve _ => AValve nm
  end.
(** [a'] is a k-th of [a] (sizes, charges, available energy: everything), under any name *)
Definition share_of (n : nat) (a : asset) (k : Q) (a' : asset) : Prop := 0 < k /\ asset_scaled k n a (rename (asset_name a) a').
(** [l] shares [a] out *)
Definition shared_out (n : nat) (a : asset) (l : list asset) : Prop := exists ks, Forall2 (share_of n a) ks l /\ Qsum ks == 1.

(** ** Dispatches put together: every name has a dispatch, and a name in it, that it takes its quantities from *)
Definition mixed (src : string -> dispatch * string) (xi xe : nat -> Q) : dispatch :=
  mkDispatch xi xe
    (fun nm => d_qty (fst (src nm)) (snd (src nm)))
    (fun nm => d_ev_charge (fst (src nm)) (snd (src nm))) (fun nm => d_ev_discharge (fst (src nm)) (snd (src nm))) (fun nm => d_ev_loss (fst (src nm)) (snd (src nm)))
    (fun nm => d_spill_charge (fst (src nm)) (snd (src nm))) (fun nm => d_spill_loss (fst (src nm)) (snd (src nm)))
    (fun nm => d_ev_soc0 (fst (src nm)) (snd (src nm))) (fun nm => d_ev_soc1 (fst (src nm)) (snd (src nm))).
Lemma rename_name nm a : asset_name (rename nm a) = nm.
Proof. now destruct a. Qed.
Lemma rename_same a : rename (asset_name a) a = a.
Proof. destruct a as [[] |[] |[] |[] |[] |[] | |]; reflexivity. Qed.
Lemma mixed_physical src xi xe a D nm f fl n : src (asset_name a) = (D, nm) -> asset_physical (rename nm a) f fl n D -> asset_physical a f fl n (mixed src xi xe).
Proof.
  intros E. destruct a as [b|b|b|b|b|b|x|x]; cbn [rename asset_name asset_physical] in *;
    unfold battery_physical, boiler_physical, chp_physical, evs_physical, hp_physical, rg_physical, spill_physical, valve_physical;
    cbn [mixed d_qty d_ev_charge d_ev_discharge d_ev_loss d_spill_charge d_spill_loss d_ev_soc0 d_ev_soc1
         b_name bo_name ch_name hp_name rg_name ev_name b_charge_power_mw b_discharge_power_mw b_capacity_mwh b_efficiency_pct b_initial_charge_mwh b_final_charge_mwh
         bo_max_mw bo_min_mw bo_efficiency_pct ch_max_mw ch_min_mw ch_electric_efficiency_pct ch_ht_efficiency_pct ch_lt_efficiency_pct hp_cop hp_power_mw
         rg_lower_pct rg_available_mwh ev_chargers ev_spill_chargers ev_event_cfgs]; rewrite E; cbn [fst snd]; exact (fun H => H).
Qed.
Lemma mixed_flows src xi xe a D nm t : src (asset_name a) = (D, nm) -> let d := mixed src xi xe in let a' := rename nm a in
  (elec_gen d t a = elec_gen D t a' /\ elec_load d t a = elec_load D t a' /\ charge d t a = charge D t a' /\ discharge d t a = discharge D t a') /\
  (ht_gen d t a = ht_gen D t a' /\ ht_load d t a = ht_load D t a' /\ lt_gen d t a = lt_gen D t a' /\ lt_load d t a = lt_load D t a') /\
  gas_use d t a = gas_use D t a' /\ spilled d t a = spilled D t a'.
Proof.
  intros E. cbv zeta. destruct a as [b|b|b|b|b|b|x|x]; cbn [rename asset_name] in *; unfold elec_gen, elec_load, charge, discharge, ht_gen, ht_load, lt_gen, lt_load, gas_use, spilled, ev_total_charge, ev_total_discharge, ev_spill_total;
    cbn [mixed asset_name d_qty d_ev_charge d_ev_discharge d_spill_charge b_name bo_name ch_name hp_name rg_name ev_name ev_chargers ev_event_cfgs]; rewrite ?E; cbn [fst snd]; splits; reflexivity.
Qed.
Definition flow_names : list (dispatch -> nat -> asset -> Q) := [elec_gen; elec_load; charge; discharge; ht_gen; ht_load; lt_gen; lt_load; gas_use; spilled].
Lemma mixed_flow src xi xe a D nm t g : In g flow_names -> src (asset_name a) = (D, nm) -> g (mixed src xi xe) t a = g D t (rename nm a).
Proof.
  intros Ig E. destruct (mixed_flows src xi xe a D nm t E) as ((A1 & A2 & A3 & A4) & (A5 & A6 & A7 & A8) & A9 & A10).
  unfold flow_names in Ig. repeat (destruct Ig as [<-|Ig]; [assumption|]). destruct Ig.
Qed.
Lemma mixed_total src xi xe l D t g : In g flow_names -> (forall a, In a l -> src (asset_name a) = (D, asset_name a)) -> total (g (mixed src xi xe) t) l == total (g D t) l.
Proof. intros Ig E. apply Complete.total_ext. intros a Ia. rewrite (mixed_flow src xi xe a D _ t g Ig (E a Ia)), rename_same. reflexivity. Qed.

(** *** two sites *)
Section Pool.
Variables (c1 c2 c : site_cfg) (l1 l2 l : list asset) (fl : flags) (d1 d2 : dispatch).
Hypothesis PL : pooled c1 c2 c.
Hypothesis PM : Permutation l (l1 ++ l2).
Hypothesis ND : NoDup (map asset_name l).
Hypothesis P1 : physical c1 l1 fl d1.
Hypothesis P2 : physical c2 l2 fl d2.
Let src (nm : string) : dispatch * string := if in_dec string_dec nm (map asset_name l1) then (d1, nm) else (d2, nm).
Definition net (t : nat) : Q := d_import d1 t + d_import d2 t - d_export d1 t - d_export d2 t.
Definition pool : dispatch := mixed src (fun t => Qmax 0 (net t)) (fun t => Qmax 0 (- net t)).
Lemma from_first a : In a l1 -> src (asset_name a) = (d1, asset_name a).
Proof. intros Ia. unfold src. destruct (in_dec _ _ _) as [_|N]; [reflexivity|]. destruct N. now apply in_map. Qed.
Lemma from_second a : In a l2 -> src (asset_name a) = (d2, asset_name a).
Proof.
  intros Ia. unfold src. destruct (in_dec _ _ _) as [J|_]; [|reflexivity]. exfalso.
  assert (NoDup (map asset_name (l1 ++ l2))) as N by (eapply Permutation_NoDup; [|exact ND]; now apply Permutation_map). rewrite map_app in N.
  assert (forall (x : string) u v, NoDup (u ++ v) -> In x u -> In x v -> False) as K.
  { clear. intros x u. induction u as [|y u IH]; intros v N I J; [destruct I|]. cbn [app] in N. inversion N as [|? ? N1 N2]; subst. destruct I as [->|I]; [apply N1; apply in_or_app; now right|eapply IH; eauto]. }
  eapply K; [exact N|exact J|now apply in_map].
Qed.
Lemma pool_total g t : In g flow_names -> total (g pool t) l == total (g d1 t) l1 + total (g d2 t) l2.
Proof.
  intros Ig. rewrite (total_perm _ _ _ PM), total_app. unfold pool. rewrite (mixed_total src _ _ l1 d1 t g Ig), (mixed_total src _ _ l2 d2 t g Ig); [reflexivity|exact from_second|exact from_first].
Qed.
Lemma grid_pool t : (t < n_intervals c)%nat ->
  d_import pool t - d_export pool t == d_import d1 t + d_import d2 t - d_export d1 t - d_export d2 t /\
  (d_import pool t == 0 \/ d_export pool t == 0) /\ 0 <= d_import pool t /\ 0 <= d_export pool t /\
  d_import pool t <= d_import d1 t + d_import d2 t /\ d_export pool t <= d_export d1 t + d_export d2 t.
Proof.
  intros Ht. destruct PL as (N1 & N2 & _). destruct (proj1 P1 t ltac:(lia)) as (((I1 & _) & (E1 & _) & _) & _). destruct (proj1 P2 t ltac:(lia)) as (((I2 & _) & (E2 & _) & _) & _).
  unfold pool. cbn [mixed d_import d_export]. unfold net.
  destruct (Q.max_spec 0 (d_import d1 t + d_import d2 t - d_export d1 t - d_export d2 t)) as [[L ->]|[L ->]]; destruct (Q.max_spec 0 (- (d_import d1 t + d_import d2 t - d_export d1 t - d_export d2 t))) as [[L' ->]|[L' ->]]; splits; try lra; first [left; lra|right; lra].
Qed.
Ltac total_of g := rewrite (pool_total g) by (unfold flow_names; cbn [In]; tauto).
Lemma pool_physical : physical c l fl pool.
Proof.
  pose proof PL as (N1 & N2 & F1 & F2 & D1 & D2 & D3 & D4 & LI & LE). split.
  - intros t Ht. destruct (grid_pool t Ht) as (GN & GX & G0 & G1 & G2 & G3).
    destruct (proj1 P1 t ltac:(lia)) as (((I1 & I1') & (E1 & E1') & _) & B1 & H1 & L1). destruct (proj1 P2 t ltac:(lia)) as (((I2 & I2') & (E2 & E2') & _) & B2 & H2 & L2).
    rewrite F1 in I1', E1'. rewrite F2 in I2', E2'. unfold grid_limits, between, electricity_balanced, high_temperature_balanced, low_temperature_balanced in *.
    specialize (D1 t Ht). specialize (D2 t Ht). specialize (D3 t Ht). specialize (D4 t Ht).
    total_of elec_gen; total_of elec_load; total_of charge; total_of discharge; total_of ht_gen; total_of ht_load; total_of lt_gen; total_of lt_load. rewrite D1, D2, D3, D4.
    splits; auto; lra.
  - intros a Ia. apply (Permutation_in _ PM) in Ia. apply in_app_iff in Ia as [Ia|Ia].
    + apply (mixed_physical src _ _ a d1 (asset_name a)); [now apply from_first|]. rewrite rename_same, <- F1, <- N1. now apply P1.
    + apply (mixed_physical src _ _ a d2 (asset_name a)); [now apply from_second|]. rewrite rename_same, <- F2, <- N2. now apply P2.
Qed.
Lemma pool_cost : same_prices c c1 -> same_prices c c2 -> no_arbitrage c -> dispatch_cost c l pool <= dispatch_cost c1 l1 d1 + dispatch_cost c2 l2 d2.
Proof.
  intros (A1 & A2 & A3) (B1 & B2 & B3) NA. pose proof PL as (N1 & N2 & _). unfold dispatch_cost, over_horizon. rewrite N1, N2, <- Qsum_map_plus. apply Qsum_le. intros t It. apply in_seq in It. assert (t < n_intervals c)%nat as Ht by lia.
  specialize (A1 t Ht). specialize (A2 t Ht). specialize (A3 t Ht). specialize (B1 t Ht). specialize (B2 t Ht). specialize (B3 t Ht). specialize (NA t Ht).
  unfold interval_cost. rewrite A1, A2, A3, B1, B2, B3. total_of gas_use. total_of spilled. destruct (grid_pool t Ht) as (GN & GX & G0 & G1 & G2 & G3).
  set (pi := data (id_electricity_prices (sc_idata c)) t) in *. set (pe := data (id_export_electricity_prices (sc_idata c)) t) in *.
  assert (0 <= (d_import d1 t + d_import d2 t - d_import pool t) * (pi - pe)) as K by (apply Qmult_le_0_compat; lra).
  assert (d_export pool t == d_import pool t - (d_import d1 t + d_import d2 t - d_export d1 t - d_export d2 t)) as -> by lra. lra.
Qed.
Lemma pool_emissions : same_intensities c c1 -> same_intensities c c2 -> dispatch_emissions c l pool == dispatch_emissions c1 l1 d1 + dispatch_emissions c2 l2 d2.
Proof.
  intros A B. pose proof PL as (N1 & N2 & _). unfold dispatch_emissions, over_horizon. rewrite N1, N2, <- Qsum_map_plus. apply Qsum_map_ext. intros t It. apply in_seq in It. assert (t < n_intervals c)%nat as Ht by lia.
  specialize (A t Ht). specialize (B t Ht). unfold interval_emissions. rewrite A, B. total_of gas_use. total_of spilled. destruct (grid_pool t Ht) as (GN & _). rewrite GN. ring.
Qed.
End Pool.

(** ** C81: one connection for two sites *)
Theorem C81_pooled_no_dearer : forall gap slv1 base1 c1 l1 cons1 obj1 r1 slv2 base2 c2 l2 cons2 obj2 r2 slv base c l fl r,
  feasible_run slv1 base1 c1 l1 cons1 obj1 fl r1 -> feasible_run slv2 base2 c2 l2 cons2 obj2 fl r2 -> best_run gap slv base c l [] (ObjName "price") fl r ->
  pooled c1 c2 c -> Permutation l (l1 ++ l2) -> same_prices c c1 -> same_prices c c2 -> no_arbitrage c ->
  reported_cost c l r <= reported_cost c1 l1 r1 + reported_cost c2 l2 r2 + gap.
Proof.
  intros gap slv1 base1 c1 l1 cons1 obj1 r1 slv2 base2 c2 l2 cons2 obj2 r2 slv base c l fl r R1 R2 R PL PM S1 S2 NA. pose proof (best_names _ _ _ _ _ _ _ _ _ R) as ND. destruct R as (R & SW & SN).
  destruct (run_facts _ _ _ _ _ _ _ _ R1) as (d1 & _ & F1). destruct (run_facts _ _ _ _ _ _ _ _ R2) as (d2 & _ & F2).
  pose proof (pool_physical c1 c2 c l1 l2 l fl d1 d2 PL PM ND (fa_physical _ _ _ _ _ F1) (fa_physical _ _ _ _ _ F2)) as PH.
  pose proof (pool_cost c1 c2 c l1 l2 l fl d1 d2 PL PM ND (fa_physical _ _ _ _ _ F1) (fa_physical _ _ _ _ _ F2) S1 S2 NA) as L.
  pose proof (C53_price_within _ _ _ _ _ _ _ R SW SN _ PH) as K. destruct (reported_cost_eq _ _ _ _ _ F1) as [E1 _]. destruct (reported_cost_eq _ _ _ _ _ F2) as [E2 _]. rewrite E1, E2. lra.
Qed.
Theorem C81_pooled_no_dirtier : forall gap slv1 base1 c1 l1 cons1 obj1 r1 slv2 base2 c2 l2 cons2 obj2 r2 slv base c l fl r,
  feasible_run slv1 base1 c1 l1 cons1 obj1 fl r1 -> feasible_run slv2 base2 c2 l2 cons2 obj2 fl r2 -> best_run gap slv base c l [] (ObjName "carbon") fl r ->
  pooled c1 c2 c -> Permutation l (l1 ++ l2) -> same_intensities c c1 -> same_intensities c c2 ->
  reported_emissions c l r <= reported_emissions c1 l1 r1 + reported_emissions c2 l2 r2 + gap.
Proof.
  intros gap slv1 base1 c1 l1 cons1 obj1 r1 slv2 base2 c2 l2 cons2 obj2 r2 slv base c l fl r R1 R2 R PL PM S1 S2. pose proof (best_names _ _ _ _ _ _ _ _ _ R) as ND. destruct R as (R & SW & SN).
  destruct (run_facts _ _ _ _ _ _ _ _ R1) as (d1 & _ & F1). destruct (run_facts _ _ _ _ _ _ _ _ R2) as (d2 & _ & F2).
  pose proof (pool_physical c1 c2 c l1 l2 l fl d1 d2 PL PM ND (fa_physical _ _ _ _ _ F1) (fa_physical _ _ _ _ _ F2)) as PH.
  pose proof (pool_emissions c1 c2 c l1 l2 l fl d1 d2 PL PM ND (fa_physical _ _ _ _ _ F1) (fa_physical _ _ _ _ _ F2) S1 S2) as L.
  pose proof (C53_carbon_within _ _ _ _ _ _ _ R SW SN _ PH) as K. destruct (reported_cost_eq _ _ _ _ _ F1) as [_ E1]. destruct (reported_cost_eq _ _ _ _ _ F2) as [_ E2]. rewrite E1, E2. lra.
Qed.
(** what two sites can do apart they can do together *)
Theorem C81_pooled_possible : forall slv1 base1 c1 l1 cons1 obj1 r1 slv2 base2 c2 l2 cons2 obj2 r2 slv base c l fl name,
  feasible_run slv1 base1 c1 l1 cons1 obj1 fl r1 -> feasible_run slv2 base2 c2 l2 cons2 obj2 fl r2 ->
  pooled c1 c2 c -> Permutation l (l1 ++ l2) -> NoDup (map asset_name l) ->
  honest_solver slv -> decides slv base c l [] (ObjName name) fl -> operable_setup name c l fl ->
  exists r, optimize slv base c l [] (ObjName name) fl = Ok r /\ r_feasible r = true.
Proof.
  intros slv1 base1 c1 l1 cons1 obj1 r1 slv2 base2 c2 l2 cons2 obj2 r2 slv base c l fl name R1 R2 PL PM ND HS DS OP.
  destruct (run_facts _ _ _ _ _ _ _ _ R1) as (d1 & _ & F1). destruct (run_facts _ _ _ _ _ _ _ _ R2) as (d2 & _ & F2).
  apply (C61_succeeds_iff_possible slv base c l name fl HS DS OP). eexists. exact (pool_physical c1 c2 c l1 l2 l fl d1 d2 PL PM ND (fa_physical _ _ _ _ _ F1) (fa_physical _ _ _ _ _ F2)).
Qed.

(** *** one asset shared out *)
Definition part (k : Q) (d : dispatch) : dispatch := changed k k (fun t => t) (fun _ => 0) (fun _ => 1) d.
Lemma part_physical k n f fl a a' d : share_of n a k a' -> asset_physical a f fl n d -> asset_physical (rename (asset_name a) a') f fl n (part k d).
Proof.
  intros (K & AS) P. apply (changed_physical k k (fun t => t) (fun _ => 0) (fun _ => 1) n n f f) with (a := a); auto; try lra.
  - intros s. split; lra.
  - intros s. split; lra.
  - intros s. ring.
  - intros s _. right. splits; reflexivity.
  - split; reflexivity.
  - split; reflexivity.
  - apply scaled_changed. exact AS.
Qed.
Lemma part_flow k n a a' d t g : share_of n a k a' -> In g flow_names -> g (part k d) t (rename (asset_name a) a') == k * g d t a.
Proof.
  intros (K & AS) Ig. destruct (changed_flows k k (fun t => t) (fun _ => 0) (fun _ => 1) n 60%Z 60%Z d a (rename (asset_name a) a') t (scaled_changed k n 60%Z a _ AS)) as ((A1 & A2 & A3 & A4) & (A5 & A6 & A7 & A8) & A9 & A10).
  unfold flow_names in Ig. repeat (destruct Ig as [<-|Ig]; [assumption|]). destruct Ig.
Qed.

Lemma assoc_found {A} (nm : string) (l : list (string * A)) x : assoc nm l = Some x -> In (nm, x) l.
Proof. induction l as [|[k y] l IH]; cbn [assoc]; [discriminate|]. destruct (String.eqb_spec nm k) as [->|_]; [intros [= ->]; now left|right; auto]. Qed.
Section Shares.
Variables (c : site_cfg) (a : asset) (shares rest l l' : list asset) (ks : list Q) (fl : flags) (d : dispatch).
Hypothesis PM : Permutation l (a :: rest).
Hypothesis PM' : Permutation l' (shares ++ rest).
Hypothesis ND' : NoDup (map asset_name l').
Hypothesis SH : Forall2 (share_of (n_intervals c) a) ks shares.
Hypothesis K1 : Qsum ks == 1.
Hypothesis PH : physical c l fl d.
Let table := combine (map asset_name shares) ks.
Definition source_of (nm : string) : dispatch * string := match assoc nm table with Some k => (part k d, asset_name a) | None => (d, nm) end.
Definition divided : dispatch := mixed source_of (d_import d) (d_export d).
Lemma nd_split : NoDup (map asset_name shares ++ map asset_name rest).
Proof. rewrite <- map_app. eapply Permutation_NoDup; [|exact ND']. now apply Permutation_map. Qed.
Lemma of_share k a' : In (k, a') (combine ks shares) -> share_of (n_intervals c) a k a' /\ source_of (asset_name a') = (part k d, asset_name a).
Proof.
  pose proof nd_split as N. unfold source_of, table. clear -N SH. induction SH as [|k0 a0 ks0 sh0 S0 F IH]; intros J; [destruct J|]. cbn [map app] in N. inversion N as [|? ? N1 N2]; subst. destruct J as [E|J].
  - injection E as <- <-. split; [exact S0|]. cbn [map combine assoc]. now rewrite String.eqb_refl.
  - destruct (IH F N2 J) as [A B]. split; [exact A|]. cbn [map combine assoc]. destruct (String.eqb_spec (asset_name a') (asset_name a0)) as [E|_]; [|exact B].
    exfalso. apply N1. rewrite <- E. apply in_or_app. left. apply in_map. now apply in_combine_r in J.
Qed.
Lemma of_rest x : In x rest -> source_of (asset_name x) = (d, asset_name x).
Proof.
  intros Ix. unfold source_of. destruct (assoc (asset_name x) table) as [k|] eqn:E; [exfalso|reflexivity]. assert (In (asset_name x) (map asset_name shares)) as I by (eapply in_combine_l; apply assoc_found; exact E). pose proof nd_split as N.
  assert (forall (y : string) u v, NoDup (u ++ v) -> In y u -> In y v -> False) as K.
  { clear. intros y u. induction u as [|z u IH]; intros v N I J; [destruct I|]. cbn [app] in N. inversion N as [|? ? N1 N2]; subst. destruct I as [->|I]; [apply N1; apply in_or_app; now right|eapply IH; eauto]. }
  eapply K; [exact N|exact I|now apply in_map].
Qed.
Lemma shares_total g t : In g flow_names -> total (g divided t) shares == g d t a.
Proof.
  intros Ig. assert (total (g divided t) shares == Qsum ks * g d t a) as ->; [|rewrite K1; ring].
  assert (forall k a', In (k, a') (combine ks shares) -> g divided t a' == k * g d t a) as K.
  { intros k a' J. destruct (of_share k a' J) as [S E]. unfold divided. rewrite (mixed_flow source_of _ _ a' _ _ t g Ig E). eapply part_flow; eauto. }
  revert K. generalize divided. intros D K. unfold total. clear -SH K. induction SH as [|k0 a0 ks0 sh0 S0 F IH]; [cbn; ring|]. cbn [map]. change (g D t a0 + Qsum (map (g D t) sh0) == (k0 + Qsum ks0) * g d t a).
  rewrite (K k0 a0) by now left. rewrite IH by (auto; intros k a' J; apply K; now right). ring.
Qed.
Lemma divided_total g t : In g flow_names -> total (g divided t) l' == total (g d t) l.
Proof.
  intros Ig. rewrite (total_perm _ _ _ PM'), (total_perm _ _ _ PM), total_app, total_cons, (shares_total g t Ig). unfold divided. rewrite (mixed_total source_of _ _ rest d t g Ig of_rest). reflexivity.
Qed.
Ltac total_of g := rewrite (divided_total g) by (unfold flow_names; cbn [In]; tauto).
Lemma divided_physical : physical c l' fl divided.
Proof.
  split.
  - intros t Ht. destruct (proj1 PH t Ht) as (G & E & H & L). unfold electricity_balanced, high_temperature_balanced, low_temperature_balanced in *.
    total_of elec_gen; total_of elec_load; total_of charge; total_of discharge; total_of ht_gen; total_of ht_load; total_of lt_gen; total_of lt_load. splits; assumption.
  - intros x Ix. apply (Permutation_in _ PM') in Ix. apply in_app_iff in Ix as [Ix|Ix].
    + assert (exists k, In (k, x) (combine ks shares)) as (k & J).
      { clear -SH Ix. induction SH as [|k0 a0 ks0 sh0 S0 F IH]; [destruct Ix|]. destruct Ix as [<-|Ix]; [exists k0; now left|]. destruct (IH F Ix) as (k & J). exists k. now right. }
      destruct (of_share k x J) as [S E]. apply (mixed_physical source_of _ _ x _ _ _ _ _ E). apply part_physical; [exact S|]. apply PH. apply (Permutation_in _ (Permutation_sym PM)). now left.
    + apply (mixed_physical source_of _ _ x _ _ _ _ _ (of_rest x Ix)). rewrite rename_same. apply PH. apply (Permutation_in _ (Permutation_sym PM)). now right.
Qed.
Lemma divided_cost : dispatch_cost c l' divided == dispatch_cost c l d /\ dispatch_emissions c l' divided == dispatch_emissions c l d.
Proof.
  split; apply Qsum_map_ext; intros t It; [unfold interval_cost|unfold interval_emissions]; total_of gas_use; total_of spilled; reflexivity.
Qed.
End Shares.

(** ** C82: one machine, or several that make it up *)
Theorem C82_shares_no_dearer : forall gap slv base c a rest l cons obj fl r slv' base' shares l' r',
  feasible_run slv base c l cons obj fl r -> best_run gap slv' base' c l' [] (ObjName "price") fl r' ->
  Permutation l (a :: rest) -> shared_out (n_intervals c) a shares -> Permutation l' (shares ++ rest) ->
  reported_cost c l' r' <= reported_cost c l r + gap.
Proof.
  intros gap slv base c a rest l cons obj fl r slv' base' shares l' r' R R' PM (ks & SH & K1) PM'. pose proof (best_names _ _ _ _ _ _ _ _ _ R') as ND.
  apply (compare_cost _ _ _ _ _ _ _ _ _ _ _ _ _ _ _ R R'). intros d PH. exists (divided a shares ks d). split; [eapply divided_physical; eauto|].
  apply Qle_lteq. right. eapply divided_cost; eauto.
Qed.
Theorem C82_shares_no_dirtier : forall gap slv base c a rest l cons obj fl r slv' base' shares l' r',
  feasible_run slv base c l cons obj fl r -> best_run gap slv' base' c l' [] (ObjName "carbon") fl r' ->
  Permutation l (a :: rest) -> shared_out (n_intervals c) a shares -> Permutation l' (shares ++ rest) ->
  reported_emissions c l' r' <= reported_emissions c l r + gap.
Proof.
  intros gap slv base c a rest l cons obj fl r slv' base' shares l' r' R R' PM (ks & SH & K1) PM'. pose proof (best_names _ _ _ _ _ _ _ _ _ R') as ND.
  apply (compare_emissions _ _ _ _ _ _ _ _ _ _ _ _ _ _ _ R R'). intros d PH. exists (divided a shares ks d). split; [eapply divided_physical; eauto|].
  apply Qle_lteq. right. eapply divided_cost; eauto.
Qed.

(** *** and back: equipment without storage and without a minimum output when on *)
Definition divisible (a : asset) : Prop := match a with ABoiler _ | AHeatPump _ | ARenewable _ | ASpill _ | AValve _ => True | _ => False end.
Definition summed (shares : list asset) (d : dispatch) : dispatch :=
  mkDispatch (d_import d) (d_export d) (fun _ q t => Qsum (map (fun s => d_qty d (asset_name s) q t) shares))
    (fun _ _ _ _ => 0) (fun _ _ _ _ => 0) (fun _ _ _ _ => 0) (fun _ _ _ => 0) (fun _ _ _ => 0) (fun _ _ _ => 0) (fun _ _ _ => 0).
Section Merge.
Variables (c : site_cfg) (a : asset) (shares rest l l' : list asset) (ks : list Q) (fl : flags) (d : dispatch).
Hypothesis PM : Permutation l (a :: rest).
Hypothesis PM' : Permutation l' (shares ++ rest).
Hypothesis ND : NoDup (map asset_name l).
Hypothesis SH : Forall2 (share_of (n_intervals c) a) ks shares.
Hypothesis K1 : Qsum ks == 1.
Hypothesis DV : divisible a.
Hypothesis PH : physical c l' fl d.
Lemma sum_le (lo : Q) (g : asset -> Q) : (forall k s, In (k, s) (combine ks shares) -> lo * k <= g s) -> lo <= Qsum (map g shares).
Proof.
  intros H. assert (lo * Qsum ks <= Qsum (map g shares)) as E; [|rewrite K1 in E; lra]. clear -SH H. induction SH as [|k0 a0 ks0 sh0 S0 F IH]; [cbn; lra|].
  cbn [map]. change (lo * (k0 + Qsum ks0) <= g a0 + Qsum (map g sh0)). pose proof (H k0 a0 ltac:(now left)) as A. assert (lo * Qsum ks0 <= Qsum (map g sh0)) as B by (apply IH; auto; intros k s J; apply H; now right). lra.
Qed.
Lemma sum_ge (hi : Q) (g : asset -> Q) : (forall k s, In (k, s) (combine ks shares) -> g s <= hi * k) -> Qsum (map g shares) <= hi.
Proof.
  intros H. assert (Qsum (map g shares) <= hi * Qsum ks) as E; [|rewrite K1 in E; lra]. clear -SH H. induction SH as [|k0 a0 ks0 sh0 S0 F IH]; [cbn; lra|].
  cbn [map]. change (g a0 + Qsum (map g sh0) <= hi * (k0 + Qsum ks0)). pose proof (H k0 a0 ltac:(now left)) as A. assert (Qsum (map g sh0) <= hi * Qsum ks0) as B by (apply IH; auto; intros k s J; apply H; now right). lra.
Qed.
Lemma sum_eq (g h : asset -> Q) : (forall k s, In (k, s) (combine ks shares) -> g s == h s) -> Qsum (map g shares) == Qsum (map h shares).
Proof.
  intros H. clear -SH H. induction SH as [|k0 a0 ks0 sh0 S0 F IH]; [reflexivity|]. cbn [map]. change (g a0 + Qsum (map g sh0) == h a0 + Qsum (map h sh0)).
  rewrite (H k0 a0) by now left. rewrite IH; [reflexivity|exact F|]. intros k s J. apply (H k s). now right.
Qed.
Lemma share_facts k s : In (k, s) (combine ks shares) -> share_of (n_intervals c) a k s /\ asset_physical s (sc_freq c) fl (n_intervals c) d.
Proof.
  intros J. split.
  - clear -SH J. induction SH as [|k0 a0 ks0 sh0 S0 F IH]; [destruct J|]. destruct J as [E|J]; [injection E as <- <-; exact S0|now apply IH].
  - apply PH. apply (Permutation_in _ (Permutation_sym PM')). apply in_or_app. left. now apply in_combine_r in J.
Qed.
Lemma energy_share f (k p p' : Q) : p' == k * p -> energy f p' == energy f p * k.
Proof. intros E. unfold energy. rewrite E. ring. Qed.
Lemma summed_physical : asset_physical a (sc_freq c) fl (n_intervals c) (summed shares d).
Proof.
  pose proof sum_le as SL. pose proof sum_ge as SG. pose proof sum_eq as SE. pose proof share_facts as SF. clear SH PM. destruct a as [b|b|b|b|b|b|nm|nm]; cbn [divisible] in DV; try (now destruct DV); cbn [asset_physical].
  - intros t Ht. cbn [summed d_qty].
    assert (forall k s, In (k, s) (combine ks shares) -> 0 < k /\ between (energy (sc_freq c) (bo_min_mw b) * k) (d_qty d (asset_name s) HtGen t) (energy (sc_freq c) (bo_max_mw b) * k) /\ d_qty d (asset_name s) Gas t == d_qty d (asset_name s) HtGen t * / bo_efficiency_pct b /\ 0 <= d_qty d (asset_name s) Gas t) as K.
    { intros k s J. destruct (SF k s J) as ((K & AS) & P). destruct s as [b'|b'|b'|b'|b'|b'|nm'|nm']; cbn [rename asset_scaled] in AS; try (now destruct AS). destruct AS as (_ & A1 & A2 & A3). cbn [bo_min_mw bo_max_mw bo_efficiency_pct] in *.
      destruct (P t Ht) as ((P1 & P2) & P3 & P4). cbn [asset_name]. unfold between. rewrite <- (energy_share _ k _ _ A1), <- (energy_share _ k _ _ A2). splits; auto. rewrite P3, A3. reflexivity. }
    unfold between. splits.
    + apply SL. intros k s J. apply (K k s J).
    + apply SG. intros k s J. apply (K k s J).
    + rewrite (SE _ (fun s => / bo_efficiency_pct b * d_qty d (asset_name s) HtGen t)) by (intros k s J; destruct (K k s J) as (_ & _ & E & _); rewrite E; ring). rewrite Qsum_map_scale. unfold Qdiv. ring.
    + apply SL. intros k s J. rewrite Qmult_0_l. apply (K k s J).
  - intros t Ht. cbn [summed d_qty].
    assert (forall k s, In (k, s) (combine ks shares) -> between (0 * k) (d_qty d (asset_name s) ElecLoad t) (energy (sc_freq c) (hp_power_mw b) * k) /\ d_qty d (asset_name s) HtGen t == hp_cop b * d_qty d (asset_name s) ElecLoad t /\
        d_qty d (asset_name s) LtLoad t + d_qty d (asset_name s) ElecLoad t == d_qty d (asset_name s) HtGen t /\ 0 * k <= d_qty d (asset_name s) LtLoad t /\ 0 * k <= d_qty d (asset_name s) HtGen t) as K.
    { intros k s J. destruct (SF k s J) as ((K & AS) & P). destruct s as [b'|b'|b'|b'|b'|b'|nm'|nm']; cbn [rename asset_scaled] in AS; try (now destruct AS). destruct AS as (_ & A1 & A2). cbn [hp_power_mw hp_cop] in *.
      destruct (P t Ht) as ((P1 & P2) & P3 & P4 & P5 & P6). cbn [asset_name]. unfold between. rewrite <- (energy_share _ k _ _ A1), Qmult_0_l. splits; auto. rewrite P3, A2. ring. }
    unfold between. splits.
    + apply SL. intros k s J. apply (K k s J).
    + apply SG. intros k s J. apply (K k s J).
    + rewrite (SE (fun s => d_qty d (asset_name s) HtGen t) (fun s => hp_cop b * d_qty d (asset_name s) ElecLoad t)) by (intros k s J; apply (K k s J)). rewrite Qsum_map_scale. ring.
    + rewrite <- Qsum_map_plus. apply SE. intros k s J. apply (K k s J).
    + apply SL. intros k s J. apply (K k s J).
    + apply SL. intros k s J. apply (K k s J).
  - intros t Ht. cbv zeta. cbn [summed d_qty]. change (nth t (rg_available_mwh b) 0) with (data (rg_available_mwh b) t).
    assert (forall k s, In (k, s) (combine ks shares) -> between (data (rg_available_mwh b) t * rg_lower_pct b * k) (d_qty d (asset_name s) ElecGen t) (data (rg_available_mwh b) t * k)) as K.
    { intros k s J. destruct (SF k s J) as ((K & AS) & P). destruct s as [b'|b'|b'|b'|b'|b'|nm'|nm']; cbn [rename asset_scaled] in AS; try (now destruct AS). destruct AS as (_ & A1 & A2). cbn [rg_lower_pct rg_available_mwh] in *. specialize (A2 t Ht).
      destruct (P t Ht) as (P1 & P2). change (nth t (rg_available_mwh b') 0) with (data (rg_available_mwh b') t) in *. cbn [asset_name]. rewrite A1, A2 in P1. rewrite A2 in P2. unfold between. split; lra. }
    split; [apply SL|apply SG]; intros k s J; apply (K k s J).
  - intros t Ht. cbn [summed d_qty].
    assert (forall k s, In (k, s) (combine ks shares) -> 0 * k <= d_qty d (asset_name s) ElecGen t /\ 0 * k <= d_qty d (asset_name s) ElecLoad t /\ 0 * k <= d_qty d (asset_name s) HtGen t /\ 0 * k <= d_qty d (asset_name s) LtLoad t) as K.
    { intros k s J. destruct (SF k s J) as ((K & AS) & P). destruct s as [b'|b'|b'|b'|b'|b'|nm'|nm']; cbn [rename asset_scaled] in AS; try (now destruct AS). rewrite Qmult_0_l. apply (P t Ht). }
    splits; apply SL; intros k s J; apply (K k s J).
  - intros t Ht. cbn [summed d_qty].
    assert (forall k s, In (k, s) (combine ks shares) -> d_qty d (asset_name s) HtLoad t == d_qty d (asset_name s) LtGen t /\ 0 * k <= d_qty d (asset_name s) LtGen t) as K.
    { intros k s J. destruct (SF k s J) as ((K & AS) & P). destruct s as [b'|b'|b'|b'|b'|b'|nm'|nm']; cbn [rename asset_scaled] in AS; try (now destruct AS). rewrite Qmult_0_l. apply (P t Ht). }
    splits; [apply SE|apply SL]; intros k s J; apply (K k s J).
Qed.
Lemma summed_flow g t : In g flow_names -> g (summed shares d) t a == total (g d t) shares.
Proof.
  intros Ig. assert (forall h : asset -> Q, (forall k s, In (k, s) (combine ks shares) -> h s == 0) -> 0 == Qsum (map h shares)) as Z.
  { intros h H. rewrite (sum_eq h (fun _ => 0) H). clear. induction shares as [|x s IH]; [reflexivity|]. cbn [map]. change (0 == 0 + Qsum (map (fun _ => 0) s)). rewrite <- IH. ring. }
  pose proof sum_eq as SE. pose proof share_facts as SF. clear SH PM. unfold total. unfold flow_names in Ig.
  destruct a as [b|b|b|b|b|b|nm|nm]; cbn [divisible] in DV; try (now destruct DV);
    (repeat (destruct Ig as [<-|Ig]; [cbn [elec_gen elec_load charge discharge ht_gen ht_load lt_gen lt_load gas_use spilled summed d_qty]; rewrite <- ?Qsum_map_plus;
       first [apply SE|apply Z]; intros k s J; destruct (SF k s J) as ((_ & AS) & _); destruct s as [b'|b'|b'|b'|b'|b'|nm'|nm']; cbn [rename asset_scaled] in AS; try (now destruct AS); reflexivity|]); destruct Ig).
Qed.
Definition merged : dispatch := mixed (fun nm => if nm =? asset_name a then (summed shares d, nm) else (d, nm)) (d_import d) (d_export d).
Lemma merged_rest x : In x rest -> (asset_name x =? asset_name a) = false.
Proof.
  intros Ix. apply String.eqb_neq. intros E. assert (NoDup (map asset_name (a :: rest))) as N by (eapply Permutation_NoDup; [|exact ND]; now apply Permutation_map).
  cbn [map] in N. inversion N as [|? ? N1 N2]; subst. apply N1. rewrite <- E. now apply in_map.
Qed.
Lemma merged_total g t : In g flow_names -> total (g merged t) l == total (g d t) l'.
Proof.
  intros Ig. rewrite (total_perm _ _ _ PM'), (total_perm _ _ _ PM), total_app, total_cons. unfold merged. rewrite (mixed_flow _ _ _ a (summed shares d) (asset_name a) t g Ig) by now rewrite String.eqb_refl. rewrite rename_same, (summed_flow g t Ig).
  rewrite (mixed_total _ _ _ rest d t g Ig); [reflexivity|]. intros x Ix. now rewrite (merged_rest x Ix).
Qed.
Ltac total_of g := rewrite (merged_total g) by (unfold flow_names; cbn [In]; tauto).
Lemma merged_physical : physical c l fl merged.
Proof.
  split.
  - intros t Ht. destruct (proj1 PH t Ht) as (G & E & H & L). unfold electricity_balanced, high_temperature_balanced, low_temperature_balanced in *.
    total_of elec_gen; total_of elec_load; total_of charge; total_of discharge; total_of ht_gen; total_of ht_load; total_of lt_gen; total_of lt_load. splits; assumption.
  - intros x Ix. apply (Permutation_in _ PM) in Ix. destruct Ix as [<-|Ix].
    + apply (mixed_physical _ _ _ a (summed shares d) (asset_name a)); [now rewrite String.eqb_refl|]. rewrite rename_same. apply summed_physical.
    + apply (mixed_physical _ _ _ x d (asset_name x)); [now rewrite (merged_rest x Ix)|]. rewrite rename_same. apply PH. apply (Permutation_in _ (Permutation_sym PM')). apply in_or_app. now right.
Qed.
Lemma merged_cost : dispatch_cost c l merged == dispatch_cost c l' d /\ dispatch_emissions c l merged == dispatch_emissions c l' d.
Proof.
  split; apply Qsum_map_ext; intros t It; [unfold interval_cost|unfold interval_emissions]; total_of gas_use; total_of spilled; reflexivity.
Qed.
End Merge.
Theorem C82_divisible_same_cost : forall gap gap' slv base c a rest l fl r slv' base' shares l' r',
  best_run gap slv base c l [] (ObjName "price") fl r -> best_run gap' slv' base' c l' [] (ObjName "price") fl r' ->
  divisible a -> Permutation l (a :: rest) -> shared_out (n_intervals c) a shares -> Permutation l' (shares ++ rest) ->
  reported_cost c l' r' <= reported_cost c l r + gap' /\ reported_cost c l r <= reported_cost c l' r' + gap.
Proof.
  intros gap gap' slv base c a rest l fl r slv' base' shares l' r' R R' DV PM SH PM'. split.
  - exact (C82_shares_no_dearer _ _ _ _ _ _ _ _ _ _ _ _ _ _ _ _ (proj1 R) R' PM SH PM').
  - destruct SH as (ks & SH & K1). pose proof (best_names _ _ _ _ _ _ _ _ _ R) as ND. apply (compare_cost _ _ _ _ _ _ _ _ _ _ _ _ _ _ _ (proj1 R') R). intros d PH. exists (merged a shares d). split; [eapply merged_physical; eauto|].
    apply Qle_lteq. right. eapply merged_cost; eauto.
Qed.
Theorem C82_divisible_same_emissions : forall gap gap' slv base c a rest l fl r slv' base' shares l' r',
  best_run gap slv base c l [] (ObjName "carbon") fl r -> best_run gap' slv' base' c l' [] (ObjName "carbon") fl r' ->
  divisible a -> Permutation l (a :: rest) -> shared_out (n_intervals c) a shares -> Permutation l' (shares ++ rest) ->
  reported_emissions c l' r' <= reported_emissions c l r + gap' /\ reported_emissions c l r <= reported_emissions c l' r' + gap.
Proof.
  intros gap gap' slv base c a rest l fl r slv' base' shares l' r' R R' DV PM SH PM'. split.
  - exact (C82_shares_no_dirtier _ _ _ _ _ _ _ _ _ _ _ _ _ _ _ _ (proj1 R) R' PM SH PM').
  - destruct SH as (ks & SH & K1). pose proof (best_names _ _ _ _ _ _ _ _ _ R) as ND. apply (compare_emissions _ _ _ _ _ _ _ _ _ _ _ _ _ _ _ (proj1 R') R). intros d PH. exists (merged a shares d). split; [eapply merged_physical; eauto|].
    apply Qle_lteq. right. eapply merged_cost; eauto.
Qed.

(** ** A result that no possible dispatch undercuts by more than the gap is one the solver got within the gap: the converse of C53 *)
Lemma within_named gap slv base c assets name fl r : feasible_run slv base c assets [] (ObjName name) fl r ->
  (forall iv s, facts (r_results r) c assets fl (d_of s iv) -> forall d, physical c assets fl d -> named_value name c assets (d_of s iv) <= named_value name c assets d + gap) ->
  solved_within gap slv base c assets [] (ObjName name) fl.
Proof.
  intros R H iv o B ST s VS s' F'. pose proof R as [SND OPT FE CF NM]. destruct (optimize_run _ _ _ _ _ _ _ _ SND CF NM OPT FE) as (iv0 & o0 & s0 & lp & rows & RN).
  pose proof (run_built _ _ _ _ _ _ _ _ _ _ _ _ _ RN) as B0. rewrite B in B0. injection B0 as <- <-.
  destruct (program_split _ _ _ _ _ _ _ _ B) as (o1 & o2 & cs & extra & e & _ & _ & P & _ & _ & OE & _).
  assert (objective_value s o == objective_value s0 o) as ->.
  { unfold objective_value. rewrite OE. rewrite (answer_eval o s s0 e OE); [reflexivity|]. intros v Ov. specialize (VS v Ov). pose proof (run_answer _ _ _ _ _ _ _ _ _ _ _ _ _ RN v Ov). congruence. }
  assert (forall z, reads (d_of z iv) z iv) as RD by (intros z; apply eq_reads; eapply d_of_eq; eauto).
  rewrite (named_objective_value _ _ _ _ _ _ _ _ _ _ B (RD s0)), (named_objective_value _ _ _ _ _ _ _ _ _ _ B (RD s')).
  pose proof (run_n _ _ _ _ _ _ _ _ _ _ _ _ _ RN) as Hn. apply H.
  - constructor; [eapply run_reports; eauto|apply RN|exact Hn| |apply P]. apply (pr_fine _ _ _ _ _ _ _ P). intros X. pose proof (pr_len _ _ _ _ _ _ _ P) as L. rewrite X in L. cbn in L. lia.
  - eapply allowed_physical; [exact Hn|exact CF|]. exists iv, o, s'. splits; eauto.
Qed.
Theorem C53_price_within_iff : forall gap slv base c assets fl r, feasible_run slv base c assets [] (ObjName "price") fl r -> Forall (asset_sane (sc_freq c)) assets ->
  (solved_within gap slv base c assets [] (ObjName "price") fl <-> forall d, physical c assets fl d -> reported_cost c assets r <= dispatch_cost c assets d + gap).
Proof.
  intros gap slv base c assets fl r R SN. split; [intros SW; exact (C53_price_within _ _ _ _ _ _ _ R SW SN)|]. intros H. apply (within_named _ _ _ _ _ _ _ _ R). intros iv s FA d PH.
  destruct (reported_cost_eq _ _ _ _ _ FA) as [E _]. specialize (H d PH). rewrite E in H. exact H.
Qed.
Theorem C53_carbon_within_iff : forall gap slv base c assets fl r, feasible_run slv base c assets [] (ObjName "carbon") fl r -> Forall (asset_sane (sc_freq c)) assets ->
  (solved_within gap slv base c assets [] (ObjName "carbon") fl <-> forall d, physical c assets fl d -> reported_emissions c assets r <= dispatch_emissions c assets d + gap).
Proof.
  intros gap slv base c assets fl r R SN. split; [intros SW; exact (C53_carbon_within _ _ _ _ _ _ _ R SW SN)|]. intros H. apply (within_named _ _ _ _ _ _ _ _ R). intros iv s FA d PH.
  destruct (reported_cost_eq _ _ _ _ _ FA) as [_ E]. specialize (H d PH). rewrite E in H. exact H.
Qed.

(** ** Samples *)
Definition po_site (pi pe load limit out : Q) : site_cfg := mkSiteCfg (mkIdata [pi] [pe] [1#10] [1] [load] [0] [0] [0] 1 []) 60%Z limit out.
Definition po_solar : asset := ARenewable (mkRgCfg "solar" 1 [1] true).
Definition po_one : solver := capped 1000 [1; 0; 1; 0] [5] [].
Definition po_two : solver := capped 1000 [0; 1; 0; 1; 1] [5] [(4%nat, (-5, 0))].
Definition po_both : solver := capped 0 [0; 0; 1; 0; 1] [5; 0; 0; 0; 0; 0] [(4%nat, (-5, 0))].
Definition po_r1 : sim_result := Eval vm_compute in run_of po_one (po_site 10 5 1 2 2) [] [] (ObjName "price").
Definition po_r2 : sim_result := Eval vm_compute in run_of po_two (po_site 10 5 0 2 2) [po_solar] [] (ObjName "price").
Definition po_r : sim_result := Eval vm_compute in run_of po_both (po_site 10 5 1 4 4) [po_solar] [] (ObjName "price").
Lemma po_run1 : feasible_run po_one 0 (po_site 10 5 1 2 2) [] [] (ObjName "price") default_flags po_r1.
Proof. capped_run. Qed.
Lemma po_run2 : feasible_run po_two 0 (po_site 10 5 0 2 2) [po_solar] [] (ObjName "price") default_flags po_r2.
Proof. capped_run. Qed.
Lemma po_best : best_run 0 po_both 0 (po_site 10 5 1 4 4) [po_solar] [] (ObjName "price") default_flags po_r.
Proof. capped_best. Qed.
Ltac one_interval := intros t Ht; change (t < 1)%nat in Ht; assert (t = 0%nat) as -> by lia.
Ltac pool_sites := unfold pooled, data_added; cbv zeta; splits; try reflexivity; try (one_interval; vm_compute; reflexivity); vm_compute; discriminate.
Ltac one_price := unfold same_prices, same_data; cbv zeta; splits; one_interval; vm_compute; reflexivity.
(** one site buys 1 MWh for 10, the other sells 1 MWh for 5; behind one connection nothing is bought or sold *)
Example C81_sample : reported_cost (po_site 10 5 1 2 2) [] po_r1 == 10 /\ reported_cost (po_site 10 5 0 2 2) [po_solar] po_r2 == -5 /\
  reported_cost (po_site 10 5 1 4 4) [po_solar] po_r == 0 /\
  reported_cost (po_site 10 5 1 4 4) [po_solar] po_r <= reported_cost (po_site 10 5 1 2 2) [] po_r1 + reported_cost (po_site 10 5 0 2 2) [po_solar] po_r2 + 0.
Proof.
  splits; [vm_compute; reflexivity..|].
  apply (C81_pooled_no_dearer 0 po_one 0 _ [] [] (ObjName "price") po_r1 po_two 0 _ [po_solar] [] (ObjName "price") po_r2 po_both 0 _ [po_solar] default_flags po_r po_run1 po_run2 po_best).
  - pool_sites.
  - reflexivity.
  - one_price.
  - one_price.
  - unfold no_arbitrage, lower_data. one_interval. vm_compute. discriminate.
Qed.
(** Where electricity sells for more than it costs, two connections beat one. *)
Definition po_buys : solver := capped 1000 [1; 0; 1; 0] [] [(1%nat, (-2, 0))].
Definition po_sells : solver := capped 1000 [0; 1; 0; 1; 1] [] [(1%nat, (-2, 0))].
Definition po_dear : solver := capped (1#2) [0; 0; 1; 0; 1] [3#2; -1#2; -1#2; -1#2; 0; 0] [(4%nat, (-3#2, 0))].
Definition po_d1 : sim_result := Eval vm_compute in run_of po_buys (po_site 1 2 1 1 0) [] [] (ObjName "price").
Definition po_d2 : sim_result := Eval vm_compute in run_of po_sells (po_site 1 2 0 0 1) [po_solar] [] (ObjName "price").
Definition po_d : sim_result := Eval vm_compute in run_of po_dear (po_site 1 2 1 1 1) [po_solar] [] (ObjName "price").
Lemma po_dear1 : feasible_run po_buys 0 (po_site 1 2 1 1 0) [] [] (ObjName "price") default_flags po_d1.
Proof. capped_run. Qed.
Lemma po_dear2 : feasible_run po_sells 0 (po_site 1 2 0 0 1) [po_solar] [] (ObjName "price") default_flags po_d2.
Proof. capped_run. Qed.
Lemma po_dear_best : best_run (1#2) po_dear 0 (po_site 1 2 1 1 1) [po_solar] [] (ObjName "price") default_flags po_d.
Proof. capped_best. Qed.
Theorem C81_selling_dearer_refuted : ~ (forall gap slv1 base1 c1 l1 cons1 obj1 r1 slv2 base2 c2 l2 cons2 obj2 r2 slv base c l fl r,
  feasible_run slv1 base1 c1 l1 cons1 obj1 fl r1 -> feasible_run slv2 base2 c2 l2 cons2 obj2 fl r2 -> best_run gap slv base c l [] (ObjName "price") fl r ->
  pooled c1 c2 c -> Permutation l (l1 ++ l2) -> same_prices c c1 -> same_prices c c2 ->
  reported_cost c l r <= reported_cost c1 l1 r1 + reported_cost c2 l2 r2 + gap).
Proof.
  intros H. pose proof (H (1#2) po_buys 0%nat _ [] [] (ObjName "price") po_d1 po_sells 0%nat _ [po_solar] [] (ObjName "price") po_d2 po_dear 0%nat _ [po_solar] default_flags po_d po_dear1 po_dear2 po_dear_best
    ltac:(pool_sites) ltac:(reflexivity) ltac:(one_price) ltac:(one_price)) as K. vm_compute in K. apply K. reflexivity.
Qed.

(** a CHP that runs at 2 MW or not at all, and its two halves *)
Definition po_chp (nm : string) (mw : Q) : asset := ACHP (mkChpCfg nm mw mw (1#2) 0 0).
Definition po_closed : site_cfg := po_site 10 5 1 2 0.
Definition po_off : solver := capped 1000 [1; 0; 1; 0; 0; 0; 0; 0; 0] [2; 0; -3; 0; 0; 0; 1; 0; 0; 0; 0] [].
Definition po_half : solver := capped 0 [0; 0; 1; 0; 1; 1; 2; 0; 0; 0; 0; 0; 0; 0] [2; 0; -3; 0; 0; 0; 1; 0; 0; 0; 0; 1; 0; 0; 0; 0] [].
Definition po_off_result : sim_result := Eval vm_compute in run_of po_off po_closed [po_chp "chp" 2] [] (ObjName "price").
Definition po_half_result : sim_result := Eval vm_compute in run_of po_half po_closed [po_chp "chp-a" 1; po_chp "chp-b" 1] [] (ObjName "price").
Lemma po_off_run : feasible_run po_off 0 po_closed [po_chp "chp" 2] [] (ObjName "price") default_flags po_off_result.
Proof. capped_run. Qed.
Lemma po_half_best : best_run 0 po_half 0 po_closed [po_chp "chp-a" 1; po_chp "chp-b" 1] [] (ObjName "price") default_flags po_half_result.
Proof. capped_best. Qed.
Lemma po_halves : shared_out (n_intervals po_closed) (po_chp "chp" 2) [po_chp "chp-a" 1; po_chp "chp-b" 1].
Proof.
  exists [1#2; 1#2]. split; [|vm_compute; reflexivity].
  assert (forall nm, share_of (n_intervals po_closed) (po_chp "chp" 2) (1#2) (po_chp nm 1)) as K by (intros nm; split; [reflexivity|cbn [po_chp asset_name rename asset_scaled]; splits; vm_compute; reflexivity]).
  constructor; [apply K|constructor; [apply K|constructor]].
Qed.
(** the CHP can only stand still: any dispatch imports the 1 MWh of load *)
Lemma po_off_best : best_run 0 po_off 0 po_closed [po_chp "chp" 2] [] (ObjName "price") default_flags po_off_result.
Proof.
  assert (Forall (asset_sane (sc_freq po_closed)) [po_chp "chp" 2]) as SN by repeat constructor.
  split; [exact po_off_run|split; [|exact SN]]. apply (C53_price_within_iff 0 po_off 0 po_closed [po_chp "chp" 2] default_flags po_off_result po_off_run SN).
  intros d PH. assert (reported_cost po_closed [po_chp "chp" 2] po_off_result == 10) as -> by (vm_compute; reflexivity).
  destruct (proj1 PH 0%nat ltac:(vm_compute; lia)) as ((GI & GE & GX) & EB & _). pose proof (proj2 PH _ (or_introl eq_refl) 0%nat ltac:(vm_compute; lia)) as (C1 & C2 & C3 & C4 & C5 & C6 & _).
  unfold between, electricity_balanced, total in *. cbn [map elec_gen elec_load charge discharge po_chp asset_name ch_name ch_max_mw ch_min_mw] in *. specialize (C3 ltac:(reflexivity)). cbn [ch_electric_efficiency_pct] in C3.
  change (energy (sc_freq po_closed) (sc_import_limit_mw po_closed)) with (2 * (60 / 60)) in *. change (energy (sc_freq po_closed) (sc_export_limit_mw po_closed)) with (0 * (60 / 60)) in *. change (energy (sc_freq po_closed) 2) with (2 * (60 / 60)) in *.
  change (data (id_electric_load_mwh (sc_idata po_closed)) 0) with 1 in *.
  unfold dispatch_cost, over_horizon. change (n_intervals po_closed) with 1%nat. cbn [seq map]. unfold interval_cost, total. cbn [map gas_use spilled po_chp asset_name ch_name].
  change (data (id_electricity_prices (sc_idata po_closed)) 0) with 10. change (data (id_export_electricity_prices (sc_idata po_closed)) 0) with 5. change (data (id_gas_prices (sc_idata po_closed)) 0) with 1.
  cbn [Qsum fold_right] in *. assert (60 / 60 == 1) as U by reflexivity. rewrite U in *.
  destruct C2 as [C2|C2]; lra.
Qed.
Example C82_sample : reported_cost po_closed [po_chp "chp" 2] po_off_result == 10 /\ reported_cost po_closed [po_chp "chp-a" 1; po_chp "chp-b" 1] po_half_result == 2 /\
  reported_cost po_closed [po_chp "chp-a" 1; po_chp "chp-b" 1] po_half_result <= reported_cost po_closed [po_chp "chp" 2] po_off_result + 0.
Proof.
  splits; [vm_compute; reflexivity..|].
  exact (C82_shares_no_dearer 0 po_off 0 po_closed (po_chp "chp" 2) [] _ [] (ObjName "price") default_flags po_off_result po_half 0 _ _ po_half_result po_off_run po_half_best ltac:(reflexivity) po_halves ltac:(reflexivity)).
Qed.
(** so the two need not cost the same *)
Theorem C82_chp_same_cost_refuted : ~ (forall gap gap' slv base c a rest l fl r slv' base' shares l' r',
  best_run gap slv base c l [] (ObjName "price") fl r -> best_run gap' slv' base' c l' [] (ObjName "price") fl r' ->
  Permutation l (a :: rest) -> shared_out (n_intervals c) a shares -> Permutation l' (shares ++ rest) ->
  reported_cost c l r <= reported_cost c l' r' + gap).
Proof.
  intros H. pose proof (H 0 0 po_off 0%nat po_closed (po_chp "chp" 2) [] _ default_flags po_off_result po_half 0%nat _ _ po_half_result po_off_best po_half_best ltac:(reflexivity) po_halves ltac:(reflexivity)) as K.
  vm_compute in K. apply K. reflexivity.
Qed.
(** a boiler of 4 MW, or one of 1 MW and one of 3 MW: 1 MWh of heat costs 16 *)
Definition po_heat : site_cfg := mkSiteCfg (mkIdata [10] [5] [1#10] [8] [0] [1] [0] [0] 1 []) 60%Z 2 0.
Definition po_boiler (nm : string) (mw : Q) : asset := ABoiler (mkBoilerCfg nm mw 0 (1#2)).
Definition po_big : solver := capped 0 [0; 0; 1; 0; 1; 1; 2] [5; 0; 0; 0; 16; 0; 8; 0; 0] [].
Definition po_small : solver := capped 0 [0; 0; 1; 0; 1#4; 1; 1#2; 3#4; 1; 3#2] [5; 0; 0; 0; 16; 0; 8; 0; 0; 8; 0; 0] [].
Definition po_big_result : sim_result := Eval vm_compute in run_of po_big po_heat [po_boiler "boiler" 4] [] (ObjName "price").
Definition po_small_result : sim_result := Eval vm_compute in run_of po_small po_heat [po_boiler "boiler-a" 1; po_boiler "boiler-b" 3] [] (ObjName "price").
Lemma po_big_best : best_run 0 po_big 0 po_heat [po_boiler "boiler" 4] [] (ObjName "price") default_flags po_big_result.
Proof. capped_best. Qed.
Lemma po_small_best : best_run 0 po_small 0 po_heat [po_boiler "boiler-a" 1; po_boiler "boiler-b" 3] [] (ObjName "price") default_flags po_small_result.
Proof. capped_best. Qed.
Lemma po_parts : shared_out (n_intervals po_heat) (po_boiler "boiler" 4) [po_boiler "boiler-a" 1; po_boiler "boiler-b" 3].
Proof.
  exists [1#4; 3#4]. split; [|vm_compute; reflexivity].
  assert (forall nm k mw, 0 < k -> mw == k * 4 -> share_of (n_intervals po_heat) (po_boiler "boiler" 4) k (po_boiler nm mw)) as K.
  { intros nm k mw K E. split; [exact K|]. cbn [po_boiler asset_name rename asset_scaled bo_name bo_min_mw bo_max_mw bo_efficiency_pct]. splits; [reflexivity|lra|exact E|reflexivity]. }
  constructor; [apply K; vm_compute; reflexivity|constructor; [apply K; vm_compute; reflexivity|constructor]].
Qed.
Example C82_divisible_sample : reported_cost po_heat [po_boiler "boiler" 4] po_big_result == 16 /\
  reported_cost po_heat [po_boiler "boiler-a" 1; po_boiler "boiler-b" 3] po_small_result <= reported_cost po_heat [po_boiler "boiler" 4] po_big_result + 0 /\
  reported_cost po_heat [po_boiler "boiler" 4] po_big_result <= reported_cost po_heat [po_boiler "boiler-a" 1; po_boiler "boiler-b" 3] po_small_result + 0.
Proof.
  split; [vm_compute; reflexivity|].
  exact (C82_divisible_same_cost 0 0 po_big 0 po_heat (po_boiler "boiler" 4) [] _ default_flags po_big_result po_small 0 _ _ po_small_result po_big_best po_small_best Logic.I ltac:(reflexivity) po_parts ltac:(reflexivity)).
Qed.
(** the load of C61's site behind one meter, its battery behind another *)
Definition po_part (load imp out : Q) : site_cfg := mkSiteCfg (mkIdata [10; 20] [0; 0] [2#10; 1#10] [0; 0] [load; load] [0; 0] [0; 0] [0; 0] 2 []) 60%Z imp out.
Definition po_load_solver : solver := any_solver [1; 0; 1; 0; 1; 0; 1; 0].
Definition po_idle_solver : solver := any_solver [0; 0; 1; 0; 0; 0; 1; 0; 0; 0; 0; 0; 0; 1; 0; 0; 0; 1; 0; 0; 0; 0].
Definition po_load_result : sim_result := Eval vm_compute in run_of po_load_solver (po_part 1 60 25) [] [] (ObjName "price").
Definition po_idle_result : sim_result := Eval vm_compute in run_of po_idle_solver (po_part 0 40 25) [h_battery 1] [] (ObjName "price").
Lemma po_load_run : feasible_run po_load_solver 0 (po_part 1 60 25) [] [] (ObjName "price") default_flags po_load_result.
Proof. run. Qed.
Lemma po_idle_run : feasible_run po_idle_solver 0 (po_part 0 40 25) [h_battery 1] [] (ObjName "price") default_flags po_idle_result.
Proof. run. Qed.
Example C81_possible_sample : exists r, optimize (h_solver 1 1) 0 h_site [h_battery 1] [] (ObjName "price") default_flags = Ok r /\ r_feasible r = true.
Proof.
  apply (C81_pooled_possible po_load_solver 0 (po_part 1 60 25) [] [] (ObjName "price") po_load_result po_idle_solver 0 (po_part 0 40 25) [h_battery 1] [] (ObjName "price") po_idle_result (h_solver 1 1) 0 h_site [h_battery 1] default_flags "price" po_load_run po_idle_run).
  - unfold pooled, data_added. cbv zeta. change (n_intervals h_site) with 2%nat.
    splits; try reflexivity; try (intros t Ht; destruct t as [|[|t]]; [vm_compute; reflexivity|vm_compute; reflexivity|lia]); vm_compute; discriminate.
  - reflexivity.
  - constructor; [intros []|constructor].
  - apply stopped_honest.
  - apply decides_by. vm_compute. reflexivity.
  - exact h_setup.
Qed.
