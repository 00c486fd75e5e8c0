(** * PropAlone: without storage every interval stands alone (C83) *)
From Coq Require Import Permutation.
From Verif Require Import Base Pulp Params Optimizer Types Assets EVs Site Constraints Objectives Extract Pipeline Emit Prim Spec SpecReport SpecRun SpecCost SpecCompare Layout Rows Sem SemEv SemSite SemProg SemResults RunFacts Complete Pad Bounded Compare PropSite PropEv PropObjective PropCompare PropMoves Check SampleSite Certified Capped SampleCompare SampleMoves.
Open Scope Q_scope.
Open Scope string_scope.

(** ** Specification *)
(** the part of the reported cost, and of the reported emissions, that falls into interval t *)
Definition cost_at (c : site_cfg) (assets : list asset) (r : sim_result) (t : nat) : Q :=
  r_import r t * data (id_electricity_prices (sc_idata c)) t - r_export r t * data (id_export_electricity_prices (sc_idata c)) t
  + total (r_gas r t) assets * data (id_gas_prices (sc_idata c)) t + total (r_spilled r t) assets * spill_penalty.
Definition emissions_at (c : site_cfg) (assets : list asset) (r : sim_result) (t : nat) : Q :=
  (r_import r t - r_export r t) * data (id_electricity_carbon_intensities (sc_idata c)) t + total (r_gas r t) assets * gas_intensity + total (r_spilled r t) assets * spill_penalty.
Lemma cost_at_sum c assets r : reported_cost c assets r = horizon c (cost_at c assets r).
Proof. reflexivity. Qed.
Lemma emissions_at_sum c assets r : reported_emissions c assets r = horizon c (emissions_at c assets r).
Proof. reflexivity. Qed.
(** interval t of one site and interval t' of another: the same demands and the same grid connection *)
Definition same_demands (c : site_cfg) (t : nat) (c' : site_cfg) (t' : nat) : Prop :=
  let s (get : idata Q -> list Q) := data (get (sc_idata c)) t == data (get (sc_idata c')) t' in
  sc_freq c' = sc_freq c /\ sc_import_limit_mw c' == sc_import_limit_mw c /\ sc_export_limit_mw c' == sc_export_limit_mw c /\
  s id_electric_load_mwh /\ s id_high_temperature_load_mwh /\ s id_low_temperature_load_mwh /\ s id_low_temperature_generation_mwh.
Definition same_prices_at (c : site_cfg) (t : nat) (c' : site_cfg) (t' : nat) : Prop :=
  let s (get : idata Q -> list Q) := data (get (sc_idata c)) t == data (get (sc_idata c')) t' in
  s id_electricity_prices /\ s id_export_electricity_prices /\ s id_gas_prices.
Definition same_intensity_at (c : site_cfg) (t : nat) (c' : site_cfg) (t' : nat) : Prop :=
  data (id_electricity_carbon_intensities (sc_idata c)) t == data (id_electricity_carbon_intensities (sc_idata c')) t'.
(** the same equipment, none of it storage; the renewable energy available in the two intervals is the same *)
Definition alike (t t' : nat) (a a' : asset) : Prop :=
  match a, a' with
  | ABattery _, _ | AEVs _, _ => False
  | ARenewable g, ARenewable g' => rg_name g' = rg_name g /\ rg_lower_pct g' == rg_lower_pct g /\ data (rg_available_mwh g') t' == data (rg_available_mwh g) t
  | _, _ => a' = a
  end.

(** ** Proof: interval t is replaced by interval t' of the other dispatch *)
Definition spliced (t0 t1 : nat) (d d' : dispatch) : dispatch :=
  mkDispatch (fun t => if Nat.eqb t t0 then d_import d' t1 else d_import d t) (fun t => if Nat.eqb t t0 then d_export d' t1 else d_export d t)
    (fun nm q t => if Nat.eqb t t0 then d_qty d' nm q t1 else d_qty d nm q t)
    (fun _ _ _ _ => 0) (fun _ _ _ _ => 0) (fun _ _ _ _ => 0) (fun _ _ _ => 0) (fun _ _ _ => 0) (fun _ _ _ => 0) (fun _ _ _ => 0).
Definition the_flows : list (dispatch -> nat -> asset -> Q) := [elec_gen; elec_load; charge; discharge; ht_gen; ht_load; lt_gen; lt_load; gas_use; spilled].
Section Splice.
Variables (c c' : site_cfg) (assets assets' : list asset) (fl fl' : flags) (t0 t1 : nat) (d d' : dispatch).
Hypothesis H0 : (t0 < n_intervals c)%nat.
Hypothesis H1 : (t1 < n_intervals c')%nat.
Hypothesis SD : same_demands c t0 c' t1.
Hypothesis AL : Forall2 (alike t0 t1) assets assets'.
Hypothesis PH : physical c assets fl d.
Hypothesis PH' : physical c' assets' fl' d'.
Let s := spliced t0 t1 d d'.
Lemma alike_instant a a' : alike t0 t1 a a' -> instant a /\ instant a' /\ asset_name a' = asset_name a.
Proof. destruct a, a'; cbn [alike instant asset_name]; intros H; try (now destruct H); try discriminate; try (injection H as ->); splits; auto; try (now destruct H). Qed.
Lemma splice_else g t a : In g the_flows -> instant a -> t <> t0 -> g s t a = g d t a.
Proof.
  intros Ig I N. apply Nat.eqb_neq in N. unfold the_flows in Ig. destruct a; cbn [instant] in I; try (now destruct I);
  repeat (destruct Ig as [<-|Ig]; [unfold elec_gen, elec_load, charge, discharge, ht_gen, ht_load, lt_gen, lt_load, gas_use, spilled; cbn [s spliced d_qty]; unfold s, spliced; cbn [d_qty]; rewrite ?N; reflexivity|]); destruct Ig.
Qed.
Lemma splice_here g a a' : In g the_flows -> alike t0 t1 a a' -> g s t0 a = g d' t1 a'.
Proof.
  intros Ig A. destruct (alike_instant a a' A) as (I & _ & E). unfold the_flows in Ig. destruct a; cbn [instant] in I; try (now destruct I); destruct a'; cbn [alike] in A; try (now destruct A); try discriminate;
  repeat (destruct Ig as [<-|Ig]; [unfold elec_gen, elec_load, charge, discharge, ht_gen, ht_load, lt_gen, lt_load, gas_use, spilled; rewrite ?E; cbn [asset_name] in *; unfold s, spliced; cbn [d_qty]; rewrite ?Nat.eqb_refl; try rewrite E; reflexivity|]); destruct Ig.
Qed.
Lemma assets_instant a : In a assets -> instant a.
Proof. intros I. clear -AL I. induction AL as [|x x' l l' A F IH]; [destruct I|]. destruct I as [<-|I]; [now apply alike_instant in A|auto]. Qed.
Lemma total_else g t : In g the_flows -> t <> t0 -> total (g s t) assets == total (g d t) assets.
Proof. intros Ig N. apply Complete.total_ext. intros a Ia. rewrite (splice_else g t a Ig (assets_instant a Ia) N). reflexivity. Qed.
Lemma total_here g : In g the_flows -> total (g s t0) assets == total (g d' t1) assets'.
Proof.
  intros Ig. pose proof (splice_here g) as K. unfold total. clear -AL Ig K. induction AL as [|x x' l l' A F IH]; [reflexivity|]. cbn [map]. change (g s t0 x + Qsum (map (g s t0) l) == g d' t1 x' + Qsum (map (g d' t1) l')).
  rewrite (K x x' Ig A), IH; auto. reflexivity.
Qed.
Ltac here g := rewrite (total_here g) by (unfold the_flows; cbn [In]; tauto).
Ltac else_ N g := rewrite (total_else g _ ltac:(unfold the_flows; cbn [In]; tauto) N).
Lemma splice_physical : physical c assets fl s.
Proof.
  pose proof SD as (EF & LI & LE & D1 & D2 & D3 & D4). split.
  - intros t Ht. unfold grid_limits, electricity_balanced, high_temperature_balanced, low_temperature_balanced. destruct (Nat.eq_dec t t0) as [->|N].
    + here elec_gen; here elec_load; here charge; here discharge; here ht_gen; here ht_load; here lt_gen; here lt_load.
      destruct (proj1 PH' t1 H1) as (G & E & H & L). unfold grid_limits, between, electricity_balanced, high_temperature_balanced, low_temperature_balanced in *. rewrite EF in G. unfold energy in *. rewrite LI, LE in G.
      assert (d_import s t0 = d_import d' t1) as -> by (unfold s, spliced; cbn; now rewrite Nat.eqb_refl). assert (d_export s t0 = d_export d' t1) as -> by (unfold s, spliced; cbn; now rewrite Nat.eqb_refl).
      rewrite D1, D2, D3, D4. splits; try apply G; auto.
    + else_ N elec_gen; else_ N elec_load; else_ N charge; else_ N discharge; else_ N ht_gen; else_ N ht_load; else_ N lt_gen; else_ N lt_load.
      assert (d_import s t = d_import d t) as -> by (unfold s, spliced; cbn; now rewrite (proj2 (Nat.eqb_neq _ _) N)). assert (d_export s t = d_export d t) as -> by (unfold s, spliced; cbn; now rewrite (proj2 (Nat.eqb_neq _ _) N)).
      exact (proj1 PH t Ht).
  - intros a Ia. pose proof (assets_instant a Ia) as I. apply physical_now; [exact I|]. intros t Ht. pose proof (proj2 PH a Ia) as P. rewrite physical_now in P by exact I. destruct (Nat.eq_dec t t0) as [->|N].
    + assert (exists a', In a' assets' /\ alike t0 t1 a a') as (a' & Ia' & A).
      { clear -AL Ia. induction AL as [|x x' l l' A F IH]; [destruct Ia|]. destruct Ia as [<-|Ia]; [exists x'; split; [now left|exact A]|]. destruct (IH F Ia) as (a' & J & K). exists a'. split; [now right|exact K]. }
      destruct (alike_instant a a' A) as (_ & I' & E). pose proof (proj2 PH' a' Ia') as P'. rewrite physical_now in P' by exact I'. specialize (P' t1 H1). rewrite EF, E in P'.
      apply (now_ext a _ _ (fun q => d_qty d' (asset_name a) q t1)); [intros q; unfold s, spliced; cbn [d_qty]; rewrite Nat.eqb_refl; reflexivity|].
      destruct a; cbn [instant] in I; try (now destruct I); destruct a'; cbn [alike] in A; try (now destruct A); try discriminate; try (injection A as ->; exact P').
      destruct A as (_ & A1 & A2). cbn [now] in *. unfold between in *. change (nth t1 (rg_available_mwh c1) 0) with (data (rg_available_mwh c1) t1) in P'. change (nth t0 (rg_available_mwh c0) 0) with (data (rg_available_mwh c0) t0). rewrite A1, A2 in P'. exact P'.
    + apply (now_ext a _ _ (fun q => d_qty d (asset_name a) q t)); [intros q; unfold s, spliced; cbn [d_qty]; rewrite (proj2 (Nat.eqb_neq _ _) N); reflexivity|]. auto.
Qed.
Lemma splice_sum (g : nat -> Q) x n : (t0 < n)%nat -> Qsum (map (fun t => if Nat.eqb t t0 then x else g t) (seq 0 n)) == Qsum (map g (seq 0 n)) - g t0 + x.
Proof.
  intros L. assert (Qsum (map (fun t => if Nat.eqb t t0 then x else g t) (seq 0 n)) == Qsum (map g (seq 0 n)) + Qsum (map (fun t => if Nat.eqb t t0 then x - g t0 else 0) (seq 0 n))) as ->.
  { rewrite <- Qsum_map_plus. apply Qsum_map_ext. intros t _. destruct (Nat.eqb_spec t t0) as [->|_]; ring. }
  assert (Qsum (map (fun t => if Nat.eqb t t0 then x - g t0 else 0) (seq 0 n)) == x - g t0) as ->; [|ring].
  assert (forall v k m, (k <= t0)%nat -> (t0 < k + m)%nat -> Qsum (map (fun t => if Nat.eqb t t0 then v else 0) (seq k m)) == v) as P.
  { intros v k m. revert k. induction m as [|m IH]; intros k A B; [lia|]. cbn [seq map]. change (Qsum (?a :: ?l)) with (a + Qsum l). destruct (Nat.eqb_spec k t0) as [->|N].
    - rewrite Qsum_map_zero; [ring|]. intros y Iy. apply in_seq in Iy. destruct (Nat.eqb_spec y t0); [lia|reflexivity].
    - rewrite IH by lia. ring. }
  apply P; lia.
Qed.
Lemma splice_cost : same_prices_at c t0 c' t1 -> dispatch_cost c assets s == dispatch_cost c assets d - interval_cost c assets d t0 + interval_cost c' assets' d' t1.
Proof.
  intros (P1 & P2 & P3). unfold dispatch_cost, over_horizon. rewrite <- (splice_sum (interval_cost c assets d) _ _ H0). apply Qsum_map_ext. intros t It. destruct (Nat.eqb_spec t t0) as [->|N].
  - unfold interval_cost. here gas_use. here spilled. rewrite P1, P2, P3. unfold s, spliced. cbn [d_import d_export]. rewrite Nat.eqb_refl. reflexivity.
  - unfold interval_cost. else_ N gas_use. else_ N spilled. unfold s, spliced. cbn [d_import d_export]. rewrite (proj2 (Nat.eqb_neq _ _) N). reflexivity.
Qed.
Lemma splice_emissions : same_intensity_at c t0 c' t1 -> dispatch_emissions c assets s == dispatch_emissions c assets d - interval_emissions c assets d t0 + interval_emissions c' assets' d' t1.
Proof.
  intros P1. unfold same_intensity_at in P1. unfold dispatch_emissions, over_horizon. rewrite <- (splice_sum (interval_emissions c assets d) _ _ H0). apply Qsum_map_ext. intros t It. destruct (Nat.eqb_spec t t0) as [->|N].
  - unfold interval_emissions. here gas_use. here spilled. rewrite P1. unfold s, spliced. cbn [d_import d_export]. rewrite Nat.eqb_refl. reflexivity.
  - unfold interval_emissions. else_ N gas_use. else_ N spilled. unfold s, spliced. cbn [d_import d_export]. rewrite (proj2 (Nat.eqb_neq _ _) N). reflexivity.
Qed.
End Splice.
Lemma at_eq r c assets fl d t (FA : facts (r_results r) c assets fl d) : (t < n_intervals c)%nat -> cost_at c assets r t == interval_cost c assets d t /\ emissions_at c assets r t == interval_emissions c assets d t.
Proof.
  intros Ht. unfold cost_at, emissions_at, interval_cost, interval_emissions. rewrite (r_import_eq r c assets fl d FA t Ht), (r_export_eq r c assets fl d FA t Ht).
  rewrite (bridge_total assets (r_gas r) (gas_use d) t) by (intros a Ia; apply (bridge r c assets fl d FA t a Ia Ht)).
  rewrite (bridge_total assets (r_spilled r) (spilled d) t) by (intros a Ia; eapply spilled_bridge; eauto). split; reflexivity.
Qed.

(** ** C83 *)
Theorem C83_interval_no_dearer : forall gap slv base c assets fl r slv' base' c' assets' cons' obj' fl' r' t t',
  best_run gap slv base c assets [] (ObjName "price") fl r -> feasible_run slv' base' c' assets' cons' obj' fl' r' ->
  (t < n_intervals c)%nat -> (t' < n_intervals c')%nat -> same_demands c t c' t' -> same_prices_at c t c' t' -> Forall2 (alike t t') assets assets' ->
  cost_at c assets r t <= cost_at c' assets' r' t' + gap.
Proof.
  intros gap slv base c assets fl r slv' base' c' assets' cons' obj' fl' r' t t' (R & SW & SN) R' Ht Ht' SD SP AL.
  destruct (run_facts _ _ _ _ _ _ _ _ R) as (d & _ & F). destruct (run_facts _ _ _ _ _ _ _ _ R') as (d' & _ & F').
  pose proof (splice_physical c c' assets assets' fl fl' t t' d d' Ht' SD AL (fa_physical _ _ _ _ _ F) (fa_physical _ _ _ _ _ F')) as PH.
  pose proof (splice_cost c c' assets assets' t t' d d' Ht Ht' AL SP) as E. pose proof (C53_price_within _ _ _ _ _ _ _ R SW SN _ PH) as K.
  destruct (reported_cost_eq _ _ _ _ _ F) as [E1 _]. rewrite (proj1 (at_eq _ _ _ _ _ t F Ht)), (proj1 (at_eq _ _ _ _ _ t' F' Ht')). rewrite E1, E in K. lra.
Qed.
Theorem C83_interval_no_dirtier : forall gap slv base c assets fl r slv' base' c' assets' cons' obj' fl' r' t t',
  best_run gap slv base c assets [] (ObjName "carbon") fl r -> feasible_run slv' base' c' assets' cons' obj' fl' r' ->
  (t < n_intervals c)%nat -> (t' < n_intervals c')%nat -> same_demands c t c' t' -> same_intensity_at c t c' t' -> Forall2 (alike t t') assets assets' ->
  emissions_at c assets r t <= emissions_at c' assets' r' t' + gap.
Proof.
  intros gap slv base c assets fl r slv' base' c' assets' cons' obj' fl' r' t t' (R & SW & SN) R' Ht Ht' SD SP AL.
  destruct (run_facts _ _ _ _ _ _ _ _ R) as (d & _ & F). destruct (run_facts _ _ _ _ _ _ _ _ R') as (d' & _ & F').
  pose proof (splice_physical c c' assets assets' fl fl' t t' d d' Ht' SD AL (fa_physical _ _ _ _ _ F) (fa_physical _ _ _ _ _ F')) as PH.
  pose proof (splice_emissions c c' assets assets' t t' d d' Ht Ht' AL SP) as E. pose proof (C53_carbon_within _ _ _ _ _ _ _ R SW SN _ PH) as K.
  destruct (reported_cost_eq _ _ _ _ _ F) as [_ E1]. rewrite (proj2 (at_eq _ _ _ _ _ t F Ht)), (proj2 (at_eq _ _ _ _ _ t' F' Ht')). rewrite E1, E in K. lra.
Qed.
Lemma alike_sym t t' a a' : alike t t' a a' -> alike t' t a' a.
Proof. destruct a, a'; cbn [alike]; intros H; try (now destruct H); try discriminate; try (now symmetry). Qed.
Lemma demands_sym c t c' t' : same_demands c t c' t' -> same_demands c' t' c t.
Proof. intros (A & B & C & D & E & F & G). unfold same_demands. cbv zeta in *. splits; now symmetry. Qed.
Lemma prices_sym c t c' t' : same_prices_at c t c' t' -> same_prices_at c' t' c t.
Proof. intros (A & B & C). unfold same_prices_at. cbv zeta in *. splits; now symmetry. Qed.
Lemma alike_all_sym t t' l l' : Forall2 (alike t t') l l' -> Forall2 (alike t' t) l' l.
Proof. induction 1; constructor; auto using alike_sym. Qed.
(** so what an interval costs at best is a matter of this interval alone *)
Theorem C83_interval_alone : forall gap gap' slv base c assets fl r slv' base' c' assets' fl' r' t t',
  best_run gap slv base c assets [] (ObjName "price") fl r -> best_run gap' slv' base' c' assets' [] (ObjName "price") fl' r' ->
  (t < n_intervals c)%nat -> (t' < n_intervals c')%nat -> same_demands c t c' t' -> same_prices_at c t c' t' -> Forall2 (alike t t') assets assets' ->
  cost_at c assets r t <= cost_at c' assets' r' t' + gap /\ cost_at c' assets' r' t' <= cost_at c assets r t + gap'.
Proof.
  intros gap gap' slv base c assets fl r slv' base' c' assets' fl' r' t t' R R' Ht Ht' SD SP AL. split.
  - exact (C83_interval_no_dearer _ _ _ _ _ _ _ _ _ _ _ _ _ _ _ t t' R (proj1 R') Ht Ht' SD SP AL).
  - exact (C83_interval_no_dearer _ _ _ _ _ _ _ _ _ _ _ _ _ _ _ t' t R' (proj1 R) Ht' Ht (demands_sym _ _ _ _ SD) (prices_sym _ _ _ _ SP) (alike_all_sym _ _ _ _ AL)).
Qed.
(** and the order of the intervals plays no role: [sigma] says which interval of the second site an interval of the first one is *)
Theorem C83_any_order : forall slv base c assets fl r slv' base' c' assets' fl' r' sigma,
  best_run 0 slv base c assets [] (ObjName "price") fl r -> best_run 0 slv' base' c' assets' [] (ObjName "price") fl' r' ->
  Permutation (map sigma (seq 0 (n_intervals c))) (seq 0 (n_intervals c')) ->
  (forall t, (t < n_intervals c)%nat -> same_demands c t c' (sigma t) /\ same_prices_at c t c' (sigma t) /\ Forall2 (alike t (sigma t)) assets assets') ->
  reported_cost c' assets' r' == reported_cost c assets r.
Proof.
  intros slv base c assets fl r slv' base' c' assets' fl' r' sigma R R' PM H. rewrite !cost_at_sum. unfold horizon, over_horizon.
  assert (Qsum (map (cost_at c' assets' r') (seq 0 (n_intervals c'))) == Qsum (map (cost_at c' assets' r') (map sigma (seq 0 (n_intervals c))))) as ->.
  { symmetry. apply Totals.Qsum_perm. now apply Permutation_map. }
  rewrite map_map. apply Qsum_map_ext. intros t It. assert (sigma t < n_intervals c')%nat as L.
  { assert (In (sigma t) (seq 0 (n_intervals c'))) as J by (apply (Permutation_in _ PM); now apply in_map). apply in_seq in J. lia. }
  apply in_seq in It. destruct (H t ltac:(lia)) as (A & B & C). destruct (C83_interval_alone 0 0 _ _ _ _ _ _ _ _ _ _ _ _ t (sigma t) R R' ltac:(lia) L A B C). lra.
Qed.

(** ** Samples: an hour of its own, and the same hour as the first of two *)
Example C83_sample : cost_at h_site [] h_none 0 == 10 /\ cost_at h_site [] h_none 0 <= cost_at h_first [] (bare_result h_first 10) 0 + 0 /\
  cost_at h_first [] (bare_result h_first 10) 0 <= cost_at h_site [] h_none 0 + 0.
Proof.
  split; [vm_compute; reflexivity|].
  apply (C83_interval_alone 0 0 _ _ h_site [] _ h_none _ _ h_first [] _ (bare_result h_first 10) 0 0 h_none_run h_first_bare).
  - vm_compute; lia.
  - vm_compute; lia.
  - unfold same_demands. cbv zeta. splits; vm_compute; reflexivity.
  - unfold same_prices_at. cbv zeta. splits; vm_compute; reflexivity.
  - constructor.
Qed.
(** with equipment: two hours with a boiler and solar, and the same hours in the other order *)
Definition al_site (p q : Q) (h k : Q) : site_cfg := mkSiteCfg (mkIdata [p; q] [0; 0] [1#10; 1#10] [8; 8] [1; 1] [h; k] [0; 0] [0; 0] 2 []) 60%Z 4 4.
Definition al_assets (x y : Q) : list asset := [ABoiler (mkBoilerCfg "boiler" 4 0 (1#2)); ARenewable (mkRgCfg "solar" 1 [x; y] true)].

Definition al_forth : solver := capped 0 [1#2; 0; 1; 0; 1; 1; 2; 1#2; 1; 0; 1; 0; 2; 1; 4; 0] [10; 0; 0; 0; 16; 0; 8; 0; 0; 20; 0; 0; 0; 16; 0; 8; 0; 0] [(7%nat, (-10, 0)); (15%nat, (-20, 0))].
Definition al_back : solver := capped 0 [1; 0; 1; 0; 2; 1; 4; 0; 1#2; 0; 1; 0; 1; 1; 2; 1#2] [20; 0; 0; 0; 16; 0; 8; 0; 0; 10; 0; 0; 0; 16; 0; 8; 0; 0] [(7%nat, (-20, 0)); (15%nat, (-10, 0))].
Definition al_forth_result : sim_result := Eval vm_compute in run_of al_forth (al_site 10 20 1 2) (al_assets (1#2) 0) [] (ObjName "price").
Definition al_back_result : sim_result := Eval vm_compute in run_of al_back (al_site 20 10 2 1) (al_assets 0 (1#2)) [] (ObjName "price").
Lemma al_forth_best : best_run 0 al_forth 0 (al_site 10 20 1 2) (al_assets (1#2) 0) [] (ObjName "price") default_flags al_forth_result.
Proof. capped_best. Qed.
Lemma al_back_best : best_run 0 al_back 0 (al_site 20 10 2 1) (al_assets 0 (1#2)) [] (ObjName "price") default_flags al_back_result.
Proof. capped_best. Qed.
Example C83_order_sample : reported_cost (al_site 10 20 1 2) (al_assets (1#2) 0) al_forth_result == 73 /\
  reported_cost (al_site 20 10 2 1) (al_assets 0 (1#2)) al_back_result == reported_cost (al_site 10 20 1 2) (al_assets (1#2) 0) al_forth_result.
Proof.
  split; [vm_compute; reflexivity|]. apply (C83_any_order al_forth 0 _ _ default_flags _ al_back 0 _ _ default_flags _ (fun t => (1 - t)%nat) al_forth_best al_back_best).
  - apply (perm_swap 0%nat 1%nat []).
  - intros t Ht. change (t < 2)%nat in Ht. destruct t as [|[|t]]; [| |lia];
      (splits; [unfold same_demands; cbv zeta; splits; vm_compute; reflexivity|unfold same_prices_at; cbv zeta; splits; vm_compute; reflexivity|];
       constructor; [reflexivity|constructor; [cbn [alike]; splits; [reflexivity|reflexivity|vm_compute; reflexivity]|constructor]]).
Qed.
(** With a battery the cheap hour buys for the dear one: 20 instead of 10. *)
Theorem C83_storage_refuted : ~ (forall gap slv base c assets fl r slv' base' c' cons' obj' fl' r' t t',
  best_run gap slv base c assets [] (ObjName "price") fl r -> feasible_run slv' base' c' assets cons' obj' fl' r' ->
  (t < n_intervals c)%nat -> (t' < n_intervals c')%nat -> same_demands c t c' t' -> same_prices_at c t c' t' ->
  cost_at c assets r t <= cost_at c' assets r' t' + gap).
Proof.
  intros H. pose proof (H 0 _ 0%nat h_site [h_battery 1] _ (h_with 1) _ 0%nat h_first [] (ObjName "price") _ (hour_result h_first 10) 0%nat 0%nat h_with_run (proj1 h_first_run)
    ltac:(vm_compute; lia) ltac:(vm_compute; lia) ltac:(unfold same_demands; cbv zeta; splits; vm_compute; reflexivity) ltac:(unfold same_prices_at; cbv zeta; splits; vm_compute; reflexivity)) as K.
  vm_compute in K. apply K. reflexivity.
Qed.
