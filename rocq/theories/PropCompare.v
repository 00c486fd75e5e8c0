(** * PropCompare: C56, C57, C58: comparing the results of two optimizations *)
From Coq Require Import Permutation.
From Verif Require Import Base Pulp Params Optimizer Types Pipeline Constraints Objectives Extract Spec SpecReport SpecRun SpecCost SpecTerms Emit Prim Rows SemResults RunFacts Complete Bounded Pad SampleSite PropSite PropObjective PropTerms SpecFunctions PropFunctions SpecCompare Compare.
Open Scope Q_scope.
Open Scope string_scope.

(** the better site is no dearer, whatever the first one was optimized for and however well *)
Lemma compare_cost gap slv base c assets cons obj fl r slv' base' c' assets' fl' r' :
  feasible_run slv base c assets cons obj fl r -> best_run gap slv' base' c' assets' [] (ObjName "price") fl' r' ->
  (forall d, physical c assets fl d -> exists d', physical c' assets' fl' d' /\ dispatch_cost c' assets' d' <= dispatch_cost c assets d) ->
  reported_cost c' assets' r' <= reported_cost c assets r + gap.
Proof.
  intros R (R' & SW & SN) H. destruct (run_facts _ _ _ _ _ _ _ _ R) as (d & _ & FA). destruct (H d (fa_physical _ _ _ _ _ FA)) as (d' & PH & L).
  pose proof (C53_price_within _ _ _ _ _ _ _ R' SW SN d' PH) as K. destruct (reported_cost_eq _ _ _ _ _ FA) as [E _]. rewrite E. lra.
Qed.
Lemma compare_emissions gap slv base c assets cons obj fl r slv' base' c' assets' fl' r' :
  feasible_run slv base c assets cons obj fl r -> best_run gap slv' base' c' assets' [] (ObjName "carbon") fl' r' ->
  (forall d, physical c assets fl d -> exists d', physical c' assets' fl' d' /\ dispatch_emissions c' assets' d' <= dispatch_emissions c assets d) ->
  reported_emissions c' assets' r' <= reported_emissions c assets r + gap.
Proof.
  intros R (R' & SW & SN) H. destruct (run_facts _ _ _ _ _ _ _ _ R) as (d & _ & FA). destruct (H d (fa_physical _ _ _ _ _ FA)) as (d' & PH & L).
  pose proof (C53_carbon_within _ _ _ _ _ _ _ R' SW SN d' PH) as K. destruct (reported_cost_eq _ _ _ _ _ FA) as [_ E]. rewrite E. lra.
Qed.
Lemma best_names gap slv base c assets cons obj fl r : best_run gap slv base c assets cons obj fl r -> NoDup (map asset_name assets).
Proof. intros (R & _). destruct (run_facts _ _ _ _ _ _ _ _ R) as (d & _ & FA). apply FA. Qed.

(** ** C56, C57: better equipment, more equipment, a bigger grid connection, better prices *)
Theorem C57_better_site_no_dearer : forall gap slv base c assets cons obj fl r slv' base' c' assets' fl' r',
  feasible_run slv base c assets cons obj fl r -> best_run gap slv' base' c' assets' [] (ObjName "price") fl' r' ->
  site_at_least c c' -> prices_at_least c c' -> flags_at_least fl fl' -> assets_at_least (sc_freq c) (n_intervals c) assets assets' ->
  reported_cost c' assets' r' <= reported_cost c assets r + gap.
Proof.
  intros gap slv base c assets cons obj fl r slv' base' c' assets' fl' r' R R' SL PL FL (better & extra & BT & EX & PM).
  apply (compare_cost _ _ _ _ _ _ _ _ _ _ _ _ _ _ _ R R'). intros d PH. exists (carry (combine assets better) extra d).
  pose proof (best_names _ _ _ _ _ _ _ _ _ R') as ND. split; [eapply carry_physical; eauto|eapply carry_cost; eauto].
Qed.
Theorem C57_better_site_no_dirtier : forall gap slv base c assets cons obj fl r slv' base' c' assets' fl' r',
  feasible_run slv base c assets cons obj fl r -> best_run gap slv' base' c' assets' [] (ObjName "carbon") fl' r' ->
  site_at_least c c' -> same_intensities c c' -> flags_at_least fl fl' -> assets_at_least (sc_freq c) (n_intervals c) assets assets' ->
  reported_emissions c' assets' r' <= reported_emissions c assets r + gap.
Proof.
  intros gap slv base c assets cons obj fl r slv' base' c' assets' fl' r' R R' SL PL FL (better & extra & BT & EX & PM).
  apply (compare_emissions _ _ _ _ _ _ _ _ _ _ _ _ _ _ _ R R'). intros d PH. exists (carry (combine assets better) extra d).
  pose proof (best_names _ _ _ _ _ _ _ _ _ R') as ND. split; [eapply carry_physical; eauto|apply Qle_lteq; right; eapply carry_emissions; eauto].
Qed.

(** every asset, site, flag, is as good as itself *)
Lemma at_least_refl f n a : at_least f n a a.
Proof.
  destruct a; cbn [at_least]; splits; try lra; try reflexivity; auto; try (intros t Ht; split; lra).
  - induction (ev_event_cfgs c); constructor; auto. split; reflexivity.
  - induction (ev_chargers c); constructor; auto. split; lra.
  - induction (ev_spill_chargers c); constructor; auto. split; lra.
Qed.
Lemma all_at_least_refl f n assets : Forall2 (at_least f n) assets assets.
Proof. induction assets; constructor; auto using at_least_refl. Qed.
Lemma site_at_least_refl c : site_at_least c c.
Proof. unfold site_at_least, same_data. cbv zeta. splits; intros; try reflexivity; lra. Qed.
Lemma prices_at_least_refl c : prices_at_least c c.
Proof. unfold prices_at_least, lower_data. cbv zeta. splits; intros; lra. Qed.
Lemma flags_at_least_refl fl : flags_at_least fl fl.
Proof. split; auto. Qed.
Lemma same_intensities_refl c : same_intensities c c.
Proof. intros t Ht. reflexivity. Qed.

(** C56: one more asset that can stand idle *)
Theorem C56_more_assets_no_dearer : forall gap slv base c assets cons obj fl r slv' base' extra assets' r',
  feasible_run slv base c assets cons obj fl r -> best_run gap slv' base' c assets' [] (ObjName "price") fl r' ->
  Permutation assets' (assets ++ extra) -> Forall (can_idle (sc_freq c) (n_intervals c)) extra ->
  reported_cost c assets' r' <= reported_cost c assets r + gap.
Proof.
  intros gap slv base c assets cons obj fl r slv' base' extra assets' r' R R' PM EX.
  apply (C57_better_site_no_dearer _ _ _ _ _ _ _ _ _ _ _ _ _ _ _ R R'); auto using site_at_least_refl, prices_at_least_refl, flags_at_least_refl.
  exists assets, extra. splits; auto using all_at_least_refl.
Qed.
Theorem C56_more_assets_no_dirtier : forall gap slv base c assets cons obj fl r slv' base' extra assets' r',
  feasible_run slv base c assets cons obj fl r -> best_run gap slv' base' c assets' [] (ObjName "carbon") fl r' ->
  Permutation assets' (assets ++ extra) -> Forall (can_idle (sc_freq c) (n_intervals c)) extra ->
  reported_emissions c assets' r' <= reported_emissions c assets r + gap.
Proof.
  intros gap slv base c assets cons obj fl r slv' base' extra assets' r' R R' PM EX.
  apply (C57_better_site_no_dirtier _ _ _ _ _ _ _ _ _ _ _ _ _ _ _ R R'); auto using site_at_least_refl, same_intensities_refl, flags_at_least_refl.
  exists assets, extra. splits; auto using all_at_least_refl.
Qed.
(** the order in which the assets are listed does not matter *)
Theorem C56_order : forall slv base c assets fl r slv' base' assets' r', Permutation assets assets' ->
  best_run 0 slv base c assets [] (ObjName "price") fl r -> best_run 0 slv' base' c assets' [] (ObjName "price") fl r' ->
  reported_cost c assets r == reported_cost c assets' r'.
Proof.
  intros slv base c assets fl r slv' base' assets' r' PM R R'.
  pose proof (C56_more_assets_no_dearer _ _ _ _ _ _ _ _ _ _ _ [] _ _ (proj1 R) R' ltac:(rewrite app_nil_r; now symmetry) ltac:(constructor)) as L1.
  pose proof (C56_more_assets_no_dearer _ _ _ _ _ _ _ _ _ _ _ [] _ _ (proj1 R') R ltac:(now rewrite app_nil_r) ltac:(constructor)) as L2. lra.
Qed.
Theorem C56_order_carbon : forall slv base c assets fl r slv' base' assets' r', Permutation assets assets' ->
  best_run 0 slv base c assets [] (ObjName "carbon") fl r -> best_run 0 slv' base' c assets' [] (ObjName "carbon") fl r' ->
  reported_emissions c assets r == reported_emissions c assets' r'.
Proof.
  intros slv base c assets fl r slv' base' assets' r' PM R R'.
  pose proof (C56_more_assets_no_dirtier _ _ _ _ _ _ _ _ _ _ _ [] _ _ (proj1 R) R' ltac:(rewrite app_nil_r; now symmetry) ltac:(constructor)) as L1.
  pose proof (C56_more_assets_no_dirtier _ _ _ _ _ _ _ _ _ _ _ [] _ _ (proj1 R') R ltac:(now rewrite app_nil_r) ltac:(constructor)) as L2. lra.
Qed.
(** neither do their names: two lists whose assets are equally able cost the same *)
Theorem C57_equally_able : forall slv base c assets fl r slv' base' assets' r',
  Forall2 (fun a a' => at_least (sc_freq c) (n_intervals c) a a' /\ at_least (sc_freq c) (n_intervals c) a' a) assets assets' ->
  best_run 0 slv base c assets [] (ObjName "price") fl r -> best_run 0 slv' base' c assets' [] (ObjName "price") fl r' ->
  reported_cost c assets r == reported_cost c assets' r'.
Proof.
  intros slv base c assets fl r slv' base' assets' r' EQ R R'.
  assert (Forall2 (at_least (sc_freq c) (n_intervals c)) assets assets' /\ Forall2 (at_least (sc_freq c) (n_intervals c)) assets' assets) as [F1 F2].
  { clear -EQ. induction EQ as [|a a' l l' [A B] E [IH1 IH2]]; split; constructor; auto. }
  pose proof (C57_better_site_no_dearer _ _ _ _ _ _ _ _ _ _ _ _ _ _ _ (proj1 R) R' (site_at_least_refl c) (prices_at_least_refl c) (flags_at_least_refl fl) ltac:(exists assets', []; splits; [exact F1|constructor|now rewrite app_nil_r])) as L1.
  pose proof (C57_better_site_no_dearer _ _ _ _ _ _ _ _ _ _ _ _ _ _ _ (proj1 R') R (site_at_least_refl c) (prices_at_least_refl c) (flags_at_least_refl fl) ltac:(exists assets, []; splits; [exact F2|constructor|now rewrite app_nil_r])) as L2. lra.
Qed.

(** ** C58: one site, different constraints and objectives *)
Lemma run_satisfies slv base c assets cons obj fl r d : feasible_run slv base c assets cons obj fl r -> facts (r_results r) c assets fl d ->
  forall cons', Forall plain_constraint cons' -> incl cons' cons -> Forall (satisfied (quantity d) c assets) cons'.
Proof.
  intros R FA cons' PC IN. rewrite Forall_forall in *. intros k Ik. eapply satisfied_ext; [exact (facts_readings _ _ _ _ _ FA)|exact (PC k Ik)|].
  unfold satisfied. destruct (cn_sum k) eqn:S; [eapply C30_holds_in_total|eapply C29_holds_in_every_interval]; eauto.
Qed.
(** The result optimized for the price costs no more than any other result of that site under the same or more constraints,
    whatever that one was optimized for. *)
Theorem C58_price : forall gap slv base c assets cons obj fl r slv' base' cons' r',
  feasible_run slv base c assets cons obj fl r -> best_run gap slv' base' c assets cons' (ObjName "price") fl r' ->
  Forall plain_constraint cons' -> incl cons' cons -> reported_cost c assets r' <= reported_cost c assets r + gap.
Proof.
  intros gap slv base c assets cons obj fl r slv' base' cons' r' R (R' & SW & SN) PC IN. destruct (run_facts _ _ _ _ _ _ _ _ R) as (d & _ & FA).
  rewrite (proj1 (reported_cost_eq _ _ _ _ _ FA)). apply (C53_price_within_constrained _ _ _ _ _ _ _ _ R' SW PC SN); [apply FA|exact (run_satisfies _ _ _ _ _ _ _ _ _ R FA _ PC IN)].
Qed.
Theorem C58_carbon : forall gap slv base c assets cons obj fl r slv' base' cons' r',
  feasible_run slv base c assets cons obj fl r -> best_run gap slv' base' c assets cons' (ObjName "carbon") fl r' ->
  Forall plain_constraint cons' -> incl cons' cons -> reported_emissions c assets r' <= reported_emissions c assets r + gap.
Proof.
  intros gap slv base c assets cons obj fl r slv' base' cons' r' R (R' & SW & SN) PC IN. destruct (run_facts _ _ _ _ _ _ _ _ R) as (d & _ & FA).
  rewrite (proj2 (reported_cost_eq _ _ _ _ _ FA)). apply (C53_carbon_within_constrained _ _ _ _ _ _ _ _ R' SW PC SN); [apply FA|exact (run_satisfies _ _ _ _ _ _ _ _ _ R FA _ PC IN)].
Qed.
Theorem C58_terms : forall gap slv base c assets cons obj fl r slv' base' cons' ks r',
  feasible_run slv base c assets cons obj fl r -> best_run gap slv' base' c assets cons' (simple_terms ks) fl r' ->
  Forall plain_term ks -> Forall plain_constraint cons' -> incl cons' cons ->
  terms_sum (reported r') c assets ks <= terms_sum (reported r) c assets ks + gap.
Proof.
  intros gap slv base c assets cons obj fl r slv' base' cons' ks r' R (R' & SW & SN) PL PC IN. destruct (run_facts _ _ _ _ _ _ _ _ R) as (d & _ & FA).
  rewrite (terms_sum_ext _ _ (reported r) _ _ (facts_readings _ _ _ _ _ FA) PL). apply (C53_terms_within _ _ _ _ _ _ _ _ _ R' SW PL PC SN); [apply FA|exact (run_satisfies _ _ _ _ _ _ _ _ _ R FA _ PC IN)].
Qed.
Theorem C58_functions : forall gap slv base c assets cons obj fl r slv' base' cons' ks r',
  feasible_run slv base c assets cons obj fl r -> best_run gap slv' base' c assets cons' (ObjTerms ks) fl r' ->
  Forall usual_term ks -> Forall (shown_term assets) ks -> Forall plain_constraint cons' -> incl cons' cons ->
  Forall (covered (reported r) (shown r) c assets) ks ->
  objective_sum (reported r') (shown r') c assets ks <= objective_sum (reported r) (shown r) c assets ks + gap.
Proof.
  intros gap slv base c assets cons obj fl r slv' base' cons' ks r' R (R' & SW & SN) U SH PC IN CV. destruct (run_facts _ _ _ _ _ _ _ _ R) as (d & _ & FA).
  pose proof (facts_readings _ _ _ _ _ FA) as SR.
  assert (forall m, In (TMany m) ks -> same_singles (n_intervals c) assets m (shown r) (single d)) as SS.
  { intros m Im. rewrite Forall_forall in U, SH. eapply shown_singles; eauto; apply SH; exact Im. }
  rewrite (objective_sum_ext _ _ (reported r) _ _ _ _ SR SS U). apply (C53_functions_within _ _ _ _ _ _ _ _ _ R' SW U SH PC SN); [apply FA|exact (run_satisfies _ _ _ _ _ _ _ _ _ R FA _ PC IN)|].
  rewrite Forall_forall in *. intros k Ik. eapply covered_ext; [exact SR| |auto|auto]. intros m ->. auto.
Qed.
(** optimizing for the price can only raise the emissions, optimizing for carbon can only raise the cost *)
Theorem C58_price_or_carbon : forall slv base slv' base' c assets cons fl rp rc, Forall plain_constraint cons ->
  best_run 0 slv base c assets cons (ObjName "price") fl rp -> best_run 0 slv' base' c assets cons (ObjName "carbon") fl rc ->
  reported_cost c assets rp <= reported_cost c assets rc /\ reported_emissions c assets rc <= reported_emissions c assets rp.
Proof.
  intros slv base slv' base' c assets cons fl rp rc PC P C. split.
  - pose proof (C58_price _ _ _ _ _ _ _ _ _ _ _ _ _ (proj1 C) P PC (incl_refl _)). lra.
  - pose proof (C58_carbon _ _ _ _ _ _ _ _ _ _ _ _ _ (proj1 P) C PC (incl_refl _)). lra.
Qed.
