(** * PropHorizon: C59, C60: one horizon after another, scaled prices *)
From Verif Require Import Base Pulp Params Optimizer Types Pipeline Constraints Objectives Extract Spec SpecReport SpecRun SpecCost SpecTerms Emit Prim Rows SemResults RunFacts Complete Bounded Pad PropObjective SpecCompare Compare PropCompare Horizon.
Open Scope Q_scope.
Open Scope string_scope.

Lemma best_facts gap slv base c assets cons obj fl r : best_run gap slv base c assets cons obj fl r -> exists d, facts (r_results r) c assets fl d.
Proof. intros (R & _). destruct (run_facts _ _ _ _ _ _ _ _ R) as (d & _ & FA). eauto. Qed.

(** The whole horizon costs no more than its two parts, however they were optimized, when the batteries hand over their charge. *)
Theorem C59_whole_no_dearer_than_parts : forall gap slv base slv1 base1 slv2 base2 c c1 c2 assets assets1 assets2 cons1 cons2 obj1 obj2 fl r r1 r2,
  feasible_run slv1 base1 c1 assets1 cons1 obj1 fl r1 -> feasible_run slv2 base2 c2 assets2 cons2 obj2 fl r2 ->
  best_run gap slv base c assets [] (ObjName "price") fl r ->
  site_joined c1 c2 c -> assets_joined (n_intervals c1) (n_intervals c2) assets1 assets2 assets ->
  reported_cost c assets r <= reported_cost c1 assets1 r1 + reported_cost c2 assets2 r2 + gap.
Proof.
  intros gap slv base slv1 base1 slv2 base2 c c1 c2 l l1 l2 cons1 cons2 obj1 obj2 fl r r1 r2 R1 R2 (R & SW & SN) SJ AJ.
  destruct (run_facts _ _ _ _ _ _ _ _ R1) as (d1 & _ & F1). destruct (run_facts _ _ _ _ _ _ _ _ R2) as (d2 & _ & F2).
  set (d := joined (n_intervals c1) d1 d2). pose proof (fa_n _ _ _ _ _ F1) as N1. pose proof (fa_n _ _ _ _ _ F2) as N2.
  pose proof (joined_first (n_intervals c1) d1 d2 l1) as S1. pose proof (joined_second (n_intervals c1) (n_intervals c2) d1 d2 l2) as S2.
  assert (physical c l fl d) as PH.
  { eapply join_site; eauto; eapply physical_ext; [exact N1|exact S1|apply F1|exact N2|exact S2|apply F2]. }
  pose proof (C53_price_within _ _ _ _ _ _ _ R SW SN d PH) as L.
  rewrite (proj1 (join_value _ _ _ _ _ _ SJ AJ N1 N2 d)) in L. pose proof (cost_ext _ _ _ _ S1) as V1. pose proof (cost_ext _ _ _ _ S2) as V2. fold d in V1, V2.
  rewrite (proj1 (reported_cost_eq _ _ _ _ _ F1)), (proj1 (reported_cost_eq _ _ _ _ _ F2)). lra.
Qed.
Theorem C59_whole_no_dirtier_than_parts : forall gap slv base slv1 base1 slv2 base2 c c1 c2 assets assets1 assets2 cons1 cons2 obj1 obj2 fl r r1 r2,
  feasible_run slv1 base1 c1 assets1 cons1 obj1 fl r1 -> feasible_run slv2 base2 c2 assets2 cons2 obj2 fl r2 ->
  best_run gap slv base c assets [] (ObjName "carbon") fl r ->
  site_joined c1 c2 c -> assets_joined (n_intervals c1) (n_intervals c2) assets1 assets2 assets ->
  reported_emissions c assets r <= reported_emissions c1 assets1 r1 + reported_emissions c2 assets2 r2 + gap.
Proof.
  intros gap slv base slv1 base1 slv2 base2 c c1 c2 l l1 l2 cons1 cons2 obj1 obj2 fl r r1 r2 R1 R2 (R & SW & SN) SJ AJ.
  destruct (run_facts _ _ _ _ _ _ _ _ R1) as (d1 & _ & F1). destruct (run_facts _ _ _ _ _ _ _ _ R2) as (d2 & _ & F2).
  set (d := joined (n_intervals c1) d1 d2). pose proof (fa_n _ _ _ _ _ F1) as N1. pose proof (fa_n _ _ _ _ _ F2) as N2.
  pose proof (joined_first (n_intervals c1) d1 d2 l1) as S1. pose proof (joined_second (n_intervals c1) (n_intervals c2) d1 d2 l2) as S2.
  assert (physical c l fl d) as PH.
  { eapply join_site; eauto; eapply physical_ext; [exact N1|exact S1|apply F1|exact N2|exact S2|apply F2]. }
  pose proof (C53_carbon_within _ _ _ _ _ _ _ R SW SN d PH) as L.
  rewrite (proj2 (join_value _ _ _ _ _ _ SJ AJ N1 N2 d)) in L. pose proof (emissions_ext _ _ _ _ S1) as V1. pose proof (emissions_ext _ _ _ _ S2) as V2. fold d in V1, V2.
  rewrite (proj2 (reported_cost_eq _ _ _ _ _ F1)), (proj2 (reported_cost_eq _ _ _ _ _ F2)). lra.
Qed.
(** Without storage the parts can be optimized one by one. *)
Theorem C59_parts_without_storage : forall slv base slv1 base1 slv2 base2 c c1 c2 assets assets1 assets2 fl r r1 r2,
  best_run 0 slv base c assets [] (ObjName "price") fl r ->
  best_run 0 slv1 base1 c1 assets1 [] (ObjName "price") fl r1 -> best_run 0 slv2 base2 c2 assets2 [] (ObjName "price") fl r2 ->
  site_joined c1 c2 c -> assets_joined (n_intervals c1) (n_intervals c2) assets1 assets2 assets -> Forall no_storage assets ->
  reported_cost c assets r == reported_cost c1 assets1 r1 + reported_cost c2 assets2 r2.
Proof.
  intros slv base slv1 base1 slv2 base2 c c1 c2 l l1 l2 fl r r1 r2 R R1 R2 SJ AJ NS.
  pose proof (C59_whole_no_dearer_than_parts _ _ _ _ _ _ _ _ _ _ _ _ _ _ _ _ _ _ _ _ _ (proj1 R1) (proj1 R2) R SJ AJ) as L1.
  destruct (best_facts _ _ _ _ _ _ _ _ _ R) as (d & FA). destruct (best_facts _ _ _ _ _ _ _ _ _ R1) as (d1 & [_ _ N1 _ _]). destruct (best_facts _ _ _ _ _ _ _ _ _ R2) as (d2 & [_ _ N2 _ _]). destruct (part_site _ _ _ _ _ _ _ SJ AJ N1 N2 d NS (fa_physical _ _ _ _ _ FA)) as [P1 P2].
  destruct R1 as (R1 & SW1 & SN1). destruct R2 as (R2 & SW2 & SN2).
  pose proof (C53_price_within _ _ _ _ _ _ _ R1 SW1 SN1 _ P1) as K1. pose proof (C53_price_within _ _ _ _ _ _ _ R2 SW2 SN2 _ P2) as K2.
  rewrite (proj1 (reported_cost_eq _ _ _ _ _ FA)) in *. rewrite (proj1 (join_value _ _ _ _ _ _ SJ AJ N1 N2 d)) in *. lra.
Qed.
Theorem C59_parts_without_storage_carbon : forall slv base slv1 base1 slv2 base2 c c1 c2 assets assets1 assets2 fl r r1 r2,
  best_run 0 slv base c assets [] (ObjName "carbon") fl r ->
  best_run 0 slv1 base1 c1 assets1 [] (ObjName "carbon") fl r1 -> best_run 0 slv2 base2 c2 assets2 [] (ObjName "carbon") fl r2 ->
  site_joined c1 c2 c -> assets_joined (n_intervals c1) (n_intervals c2) assets1 assets2 assets -> Forall no_storage assets ->
  reported_emissions c assets r == reported_emissions c1 assets1 r1 + reported_emissions c2 assets2 r2.
Proof.
  intros slv base slv1 base1 slv2 base2 c c1 c2 l l1 l2 fl r r1 r2 R R1 R2 SJ AJ NS.
  pose proof (C59_whole_no_dirtier_than_parts _ _ _ _ _ _ _ _ _ _ _ _ _ _ _ _ _ _ _ _ _ (proj1 R1) (proj1 R2) R SJ AJ) as L1.
  destruct (best_facts _ _ _ _ _ _ _ _ _ R) as (d & FA). destruct (best_facts _ _ _ _ _ _ _ _ _ R1) as (d1 & [_ _ N1 _ _]). destruct (best_facts _ _ _ _ _ _ _ _ _ R2) as (d2 & [_ _ N2 _ _]). destruct (part_site _ _ _ _ _ _ _ SJ AJ N1 N2 d NS (fa_physical _ _ _ _ _ FA)) as [P1 P2].
  destruct R1 as (R1 & SW1 & SN1). destruct R2 as (R2 & SW2 & SN2).
  pose proof (C53_carbon_within _ _ _ _ _ _ _ R1 SW1 SN1 _ P1) as K1. pose proof (C53_carbon_within _ _ _ _ _ _ _ R2 SW2 SN2 _ P2) as K2.
  rewrite (proj2 (reported_cost_eq _ _ _ _ _ FA)) in *. rewrite (proj2 (join_value _ _ _ _ _ _ SJ AJ N1 N2 d)) in *. lra.
Qed.

(** ** C60: prices in another currency *)
Lemma unpenalised d t (l : list asset) : Forall no_spills l -> total (spilled d t) l == 0.
Proof. intros H. apply total_zero. intros a Ia. rewrite Forall_forall in H. specialize (H a Ia). destruct a; cbn in *; try reflexivity; destruct H. Qed.
Lemma scaled_cost k c c' l d : n_intervals c' = n_intervals c -> prices_scaled k c c' -> Forall no_spills l -> dispatch_cost c' l d == k * dispatch_cost c l d.
Proof.
  intros N (Q1 & Q2 & Q3) NS. unfold dispatch_cost, over_horizon. rewrite N. rewrite <- Qsum_map_scale. apply Qsum_map_ext. intros t It. apply in_seq in It.
  unfold interval_cost. rewrite (Q1 t), (Q2 t), (Q3 t), (unpenalised d t l NS) by lia. ring.
Qed.
Lemma site_physical c c' l fl d : site_at_least c c' -> physical c l fl d -> physical c' l fl d.
Proof.
  intros (N & F & D1 & D2 & D3 & D4 & LI & LE) [P A]. unfold physical. rewrite N, F. split; [|exact A]. intros t Ht. specialize (P t Ht).
  unfold grid_limits, electricity_balanced, high_temperature_balanced, low_temperature_balanced, between in *. rewrite (D1 t Ht), (D2 t Ht), (D3 t Ht), (D4 t Ht), F. destruct P as (G & E & H & L). splits; auto; lra.
Qed.
Theorem C60_currency : forall k slv base slv' base' c c' assets fl r r', 0 < k ->
  site_at_least c c' -> site_at_least c' c -> prices_scaled k c c' -> Forall no_spills assets ->
  best_run 0 slv base c assets [] (ObjName "price") fl r -> best_run 0 slv' base' c' assets [] (ObjName "price") fl r' ->
  reported_cost c' assets r' == k * reported_cost c assets r.
Proof.
  intros k slv base slv' base' c c' l fl r r' K S S' PS NS R R'. destruct (best_facts _ _ _ _ _ _ _ _ _ R) as (d & FA). destruct (best_facts _ _ _ _ _ _ _ _ _ R') as (d' & FA').
  destruct R as (R & SW & SN). destruct R' as (R' & SW' & SN').
  pose proof (C53_price_within _ _ _ _ _ _ _ R SW SN d' (site_physical _ _ _ _ _ S' (fa_physical _ _ _ _ _ FA'))) as L.
  pose proof (C53_price_within _ _ _ _ _ _ _ R' SW' SN' d (site_physical _ _ _ _ _ S (fa_physical _ _ _ _ _ FA))) as L'.
  assert (n_intervals c' = n_intervals c) as N by apply S.
  rewrite (proj1 (reported_cost_eq _ _ _ _ _ FA)) in *. rewrite (proj1 (reported_cost_eq _ _ _ _ _ FA')) in *.
  rewrite (scaled_cost k c c' l d N PS NS) in *. rewrite (scaled_cost k c c' l d' N PS NS) in *.
  set (x := dispatch_cost c l d) in *. set (x' := dispatch_cost c l d') in *.
  apply Qle_antisym; [lra|]. assert (x <= x') as H by lra. rewrite !(Qmult_comm k). apply Qmult_le_compat_r; [exact H|lra].
Qed.
