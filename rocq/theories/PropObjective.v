(** * PropObjective: C31, C32, C34: what is minimised, and over what *)
From Verif Require Import Base Pulp Params Optimizer Types Assets EVs Site Constraints Objectives Extract Pipeline Emit Prim Spec SpecReport SpecRun SpecCost Rows SemSite SemProg SemObj SemResults RunFacts Builds Complete Bounded SampleSite PropSite.
Open Scope Q_scope.
Open Scope string_scope.

Lemma spilled_bridge r c assets fl d (FA : facts (r_results r) c assets fl d) t a : In a assets -> (t < n_intervals c)%nat -> r_spilled r t a == spilled d t a.
Proof.
  intros Ia Ht. destruct a as [b|b|b|b|b|b|nm|nm]; cbn [r_spilled spilled]; try reflexivity.
  - pose proof (fa_fine_at r c assets fl d FA t _ Ht Ia) as FN. cbn in FN. destruct FN as (L1 & _ & _).
    destruct (ev_spill_chargers b) as [|cc [|? ?]] eqn:SP; try discriminate.
    destruct (spill_reported r c assets fl d FA b cc t Ia Ht) as (S1 & _); [rewrite SP; now left|].
    unfold rep_chargers. cbn [map Qsum fold_right]. rewrite S1. unfold ev_spill_total. ring.
  - idtac.
    pose proof (rep_qty r c assets fl d FA (ASpill nm) t "electric_generation_mwh" ElecGen Ia Ht ltac:(cbn [asset_cells In asset_name]; tauto)) as E1.
    pose proof (rep_qty r c assets fl d FA (ASpill nm) t "high_temperature_generation_mwh" HtGen Ia Ht ltac:(cbn [asset_cells In asset_name]; tauto)) as E2.
    pose proof (rep_qty r c assets fl d FA (ASpill nm) t "electric_load_mwh" ElecLoad Ia Ht ltac:(cbn [asset_cells In asset_name]; tauto)) as E3.
    now rewrite E1, E2, E3.
Qed.
Lemma reported_cost_eq r c assets fl d (FA : facts (r_results r) c assets fl d) :
  reported_cost c assets r == dispatch_cost c assets d /\ reported_emissions c assets r == dispatch_emissions c assets d.
Proof.
  split; apply Qsum_map_ext; intros t It; apply in_seq in It; assert (t < n_intervals c)%nat as Ht by lia;
    unfold interval_cost, interval_emissions; rewrite (r_import_eq r c assets fl d FA t Ht), (r_export_eq r c assets fl d FA t Ht);
    rewrite (bridge_total assets (r_gas r) (gas_use d) t) by (intros a Ia; apply (bridge r c assets fl d FA t a Ia Ht));
    rewrite (bridge_total assets (r_spilled r) (spilled d) t) by (intros a Ia; eapply spilled_bridge; eauto); reflexivity.
Qed.

(** ** C31, C32 *)
(** In every program optimize builds, for every dispatch: the number that is minimised is its cost. *)
Theorem C31_price_objective : forall base c assets cons fl iv o s d,
  build_program c assets cons (ObjName "price") fl (new_optimizer base) = Ok (iv, o) -> reads d s iv ->
  objective_value s o == dispatch_cost c assets d.
Proof. intros. rewrite (named_objective_value _ _ _ _ _ _ _ _ _ _ H H0). reflexivity. Qed.
Theorem C32_carbon_objective : forall base c assets cons fl iv o s d,
  build_program c assets cons (ObjName "carbon") fl (new_optimizer base) = Ok (iv, o) -> reads d s iv ->
  objective_value s o == dispatch_emissions c assets d.
Proof. intros. rewrite (named_objective_value _ _ _ _ _ _ _ _ _ _ H H0). reflexivity. Qed.

Lemma run_named slv base c assets cons name fl r : feasible_run slv base c assets cons (ObjName name) fl r ->
  exists iv o s z, build_program c assets cons (ObjName name) fl (new_optimizer base) = Ok (iv, o) /\ facts (r_results r) c assets fl (d_of s iv) /\ feasible s o /\
    (forall gap, answered_within gap slv o -> forall s', feasible s' o -> objective_value s o <= objective_value s' o + gap) /\
    objective_is fl r z /\ z == objective_value s o /\ z == named_value name c assets (d_of s iv).
Proof.
  intros [SND OPT FE CF NM]. destruct (optimize_run _ _ _ _ _ _ _ _ SND CF NM OPT FE) as (iv & o & s & lp & rows & R).
  pose proof (run_built _ _ _ _ _ _ _ _ _ _ _ _ _ R) as B. destruct (run_status _ _ _ _ _ _ _ _ _ _ _ _ _ R) as (z & ST & ZV).
  destruct (program_split _ _ _ _ _ _ _ _ B) as (o1 & o2 & cs & extra & e & _ & _ & P & _).
  exists iv, o, s, z. splits; try apply R; auto.
  - pose proof (run_n _ _ _ _ _ _ _ _ _ _ _ _ _ R) as Hn. constructor; [eapply run_reports; eauto|apply R|exact Hn| |apply P].
    apply (pr_fine _ _ _ _ _ _ _ P). intros X. pose proof (pr_len _ _ _ _ _ _ _ P) as L. rewrite X in L. cbn in L. lia.
  - rewrite ZV. eapply named_objective_value; [exact B|]. apply eq_reads. eapply d_of_eq; eauto.
Qed.
(** and the objective value of a feasible result is the cost recomputed from its table *)
Theorem C31_reported_objective : forall slv base c assets cons fl r, feasible_run slv base c assets cons (ObjName "price") fl r ->
  exists z, objective_is fl r z /\ z == reported_cost c assets r.
Proof.
  intros slv base c assets cons fl r R. destruct (run_named _ _ _ _ _ _ _ _ R) as (iv & o & s & z & _ & FA & _ & _ & E & _ & Z). exists z. split; auto.
  rewrite Z. cbn. symmetry. apply (reported_cost_eq _ _ _ _ _ FA).
Qed.
Theorem C32_reported_objective : forall slv base c assets cons fl r, feasible_run slv base c assets cons (ObjName "carbon") fl r ->
  exists z, objective_is fl r z /\ z == reported_emissions c assets r.
Proof.
  intros slv base c assets cons fl r R. destruct (run_named _ _ _ _ _ _ _ _ R) as (iv & o & s & z & _ & FA & _ & _ & E & _ & Z). exists z. split; auto.
  rewrite Z. cbn. symmetry. apply (reported_cost_eq _ _ _ _ _ FA).
Qed.

(** ** C34 *)
(** the program allows exactly the physically possible dispatches *)
Theorem C34_allowed_iff_physical : forall base c assets name fl d, is_named name -> site_ready c assets -> Forall chp_fine assets -> Forall (asset_sane (sc_freq c)) assets ->
  (allowed base c assets [] (ObjName name) fl d <-> physical c assets fl d).
Proof. exact allowed_iff_physical. Qed.
(** no physically possible dispatch beats the result *)
Lemma optimal_named gap slv base c assets name fl r : feasible_run slv base c assets [] (ObjName name) fl r -> solved_within gap slv base c assets [] (ObjName name) fl -> Forall (asset_sane (sc_freq c)) assets ->
  forall d, physical c assets fl d -> exists iv s, facts (r_results r) c assets fl (d_of s iv) /\ named_value name c assets (d_of s iv) <= named_value name c assets d + gap.
Proof.
  intros R SW SN d PH. destruct (run_named _ _ _ _ _ _ _ _ R) as (iv & o & s & z & B & FA & _ & BEST & _ & Z1 & Z2). exists iv, s. split; auto.
  destruct (physical_solution _ _ _ _ _ _ _ _ B (fr_chp _ _ _ _ _ _ _ _ R) SN PH) as (s' & F' & R').
  rewrite <- Z2, Z1, <- (named_objective_value _ _ _ _ _ _ _ _ _ _ B R'). apply (BEST gap (SW _ _ B)). exact F'.
Qed.
(** C53: within the gap of the solver, whatever it is *)
Theorem C53_price_within : forall gap slv base c assets fl r, feasible_run slv base c assets [] (ObjName "price") fl r -> solved_within gap slv base c assets [] (ObjName "price") fl -> Forall (asset_sane (sc_freq c)) assets ->
  forall d, physical c assets fl d -> reported_cost c assets r <= dispatch_cost c assets d + gap.
Proof.
  intros gap slv base c assets fl r R SW SN d PH. destruct (optimal_named _ _ _ _ _ _ _ _ R SW SN d PH) as (iv & s & FA & L).
  destruct (reported_cost_eq _ _ _ _ _ FA) as [-> _]. exact L.
Qed.
Theorem C53_carbon_within : forall gap slv base c assets fl r, feasible_run slv base c assets [] (ObjName "carbon") fl r -> solved_within gap slv base c assets [] (ObjName "carbon") fl -> Forall (asset_sane (sc_freq c)) assets ->
  forall d, physical c assets fl d -> reported_emissions c assets r <= dispatch_emissions c assets d + gap.
Proof.
  intros gap slv base c assets fl r R SW SN d PH. destruct (optimal_named _ _ _ _ _ _ _ _ R SW SN d PH) as (iv & s & FA & L).
  destruct (reported_cost_eq _ _ _ _ _ FA) as [_ ->]. exact L.
Qed.
Theorem C34_price_optimal : forall slv base c assets fl r, feasible_run slv base c assets [] (ObjName "price") fl r -> sound_solver slv -> Forall (asset_sane (sc_freq c)) assets ->
  forall d, physical c assets fl d -> reported_cost c assets r <= dispatch_cost c assets d.
Proof.
  intros slv base c assets fl r R SS SN d PH. pose proof (C53_price_within 0 _ _ _ _ _ _ R (fun _ o _ => sound_within slv o SS) SN d PH). lra.
Qed.
Theorem C34_carbon_optimal : forall slv base c assets fl r, feasible_run slv base c assets [] (ObjName "carbon") fl r -> sound_solver slv -> Forall (asset_sane (sc_freq c)) assets ->
  forall d, physical c assets fl d -> reported_emissions c assets r <= dispatch_emissions c assets d.
Proof.
  intros slv base c assets fl r R SS SN d PH. pose proof (C53_carbon_within 0 _ _ _ _ _ _ R (fun _ o _ => sound_within slv o SS) SN d PH). lra.
Qed.

(** a site with a physically possible dispatch is never reported infeasible, nor unbounded *)
Theorem C34_never_infeasible : forall slv base c assets name fl d iv o, complete_solver slv ->
  Forall chp_fine assets -> Forall (asset_sane (sc_freq c)) assets ->
  physical c assets fl d -> build_program c assets [] (ObjName name) fl (new_optimizer base) = Ok (iv, o) -> sol_status (slv o) <> Infeasible.
Proof. intros slv base c assets name fl d iv o CS CF SN PH B. destruct (physical_solution _ _ _ _ _ _ _ _ B CF SN PH) as (s & F & _). eauto. Qed.
Lemma solvable_bounded base c assets name fl d : is_named name -> site_ready c assets ->
  Forall chp_fine assets -> Forall (asset_sane (sc_freq c)) assets -> (name = "price" -> gas_tied c assets) -> physical c assets fl d ->
  exists iv o s b, build_program c assets [] (ObjName name) fl (new_optimizer base) = Ok (iv, o) /\ feasible s o /\ forall s', feasible s' o -> b <= objective_value s' o.
Proof.
  intros NM RD CF SN GT PH. destruct (program_builds c assets fl RD base name NM) as (iv & o & B).
  destruct (physical_solution _ _ _ _ _ _ _ _ B CF SN PH) as (s & F & _).
  assert (exists b, forall d, physical c assets fl d -> b <= named_value name c assets d) as (b & HB).
  { destruct NM as [->| ->]; cbn; [apply cost_bounded; [apply RD|auto]|apply emissions_bounded; apply RD]. }
  exists iv, o, s, b. splits; auto. intros s' F'.
  destruct (program_split _ _ _ _ _ _ _ _ B) as (o1 & o2 & cs & extra & e & _ & _ & P & _ & _ & _ & CE).
  assert (reads (d_of s' iv) s' iv) as RR by (apply eq_reads; eapply d_of_eq; eauto).
  rewrite (named_objective_value _ _ _ _ _ _ _ _ _ _ B RR). apply HB. apply (allowed_physical base c assets [] (ObjName name) fl); auto; [apply RD|]. exists iv, o, s'. auto.
Qed.
Theorem C34_solved : forall slv base c assets name fl d, decisive_solver slv -> is_named name -> site_ready c assets ->
  Forall chp_fine assets -> Forall (asset_sane (sc_freq c)) assets -> (name = "price" -> gas_tied c assets) -> physical c assets fl d ->
  exists iv o, build_program c assets [] (ObjName name) fl (new_optimizer base) = Ok (iv, o) /\ sol_status (slv o) = Optimal.
Proof.
  intros slv base c assets name fl d DS NM RD CF SN GT PH. destruct (solvable_bounded base c assets name fl d NM RD CF SN GT PH) as (iv & o & s & b & B & F & BD).
  exists iv, o. split; auto. exact (DS o s b F BD).
Qed.

(** ** C22 *)
Lemma limit_physical c assets fl b d : Forall zero_one_events assets -> physical c assets (with_limit fl b) d -> physical c assets (with_limit fl (negb b)) d.
Proof.
  intros Z [P1 P2]. split; auto. intros a Ia. rewrite Forall_forall in Z. specialize (P2 a Ia). specialize (Z a Ia).
  destruct a as [k|k|k|k|k|k|nm|nm]; cbn [asset_physical] in *; auto. cbn [zero_one_events] in Z.
  assert (forall e t, can_charge (with_limit fl b) k e t -> can_charge (with_limit fl (negb b)) k e t) as CC.
  { intros e t. unfold can_charge. cbn [with_limit limit_charge_variables_to_valid_events]. destruct (Z e t) as [E|E]; destruct b; cbn [negb]; intros; lra. }
  destruct P2 as (Q1 & Q2 & Q3 & Q4 & Q5 & Q6 & Q7). unfold evs_physical. cbv zeta. splits; auto.
  - intros t e ec kk cc Ht Ee Ek. destruct (Q1 t e ec kk cc Ht Ee Ek) as (A & B & C & D & E). splits; auto. destruct B as [B|[B1 B2]]; auto.
  - intros t e ec cc Ht Ee Ek. destruct (Q2 t e ec cc Ht Ee Ek) as (A & B & C & D). splits; auto. destruct B as [B|[B1 B2]]; auto.
Qed.
Lemma limit_iff c assets fl d : Forall zero_one_events assets -> (physical c assets (with_limit fl true) d <-> physical c assets (with_limit fl false) d).
Proof. intros Z. split; apply limit_physical; auto. Qed.
(** the flag changes neither the allowed dispatches nor their value *)
Theorem C22_limit_flag : forall base c assets name fl d z, is_named name -> site_ready c assets -> Forall chp_fine assets -> Forall (asset_sane (sc_freq c)) assets ->
  Forall zero_one_events assets ->
  (allowed base c assets [] (ObjName name) (with_limit fl true) d <-> allowed base c assets [] (ObjName name) (with_limit fl false) d) /\
  (valued base c assets [] (ObjName name) (with_limit fl true) d z <-> valued base c assets [] (ObjName name) (with_limit fl false) d z).
Proof.
  intros base c assets name fl d z NM RD CF SN ZO.
  assert (forall b, allowed base c assets [] (ObjName name) (with_limit fl b) d -> allowed base c assets [] (ObjName name) (with_limit fl (negb b)) d) as A.
  { intros b H. rewrite allowed_iff_physical in * by auto. now apply limit_physical. }
  assert (forall b, valued base c assets [] (ObjName name) (with_limit fl b) d z -> valued base c assets [] (ObjName name) (with_limit fl (negb b)) d z) as V.
  { intros b (iv & o & s & B & F & R & E). destruct (A b) as (iv' & o' & s' & B' & F' & R'); [now exists iv, o, s|]. exists iv', o', s'. splits; auto.
    rewrite <- E, (named_objective_value _ _ _ _ _ _ _ _ _ _ B R), (named_objective_value _ _ _ _ _ _ _ _ _ _ B' R'). reflexivity. }
  split; split; first [apply (A true)|apply (A false)|apply (V true)|apply (V false)].
Qed.
(** so two runs that differ in the flag have the same cost *)
Theorem C22_same_cost : forall slv base c assets fl r r', sound_solver slv -> Forall (asset_sane (sc_freq c)) assets -> Forall zero_one_events assets ->
  feasible_run slv base c assets [] (ObjName "price") (with_limit fl true) r ->
  feasible_run slv base c assets [] (ObjName "price") (with_limit fl false) r' ->
  reported_cost c assets r == reported_cost c assets r'.
Proof.
  intros slv base c assets fl r r' SS SN ZO R R'.
  destruct (run_facts _ _ _ _ _ _ _ _ R) as (d & _ & FA). destruct (run_facts _ _ _ _ _ _ _ _ R') as (d' & _ & FA').
  pose proof (C34_price_optimal _ _ _ _ _ _ R SS SN d' (proj2 (limit_iff _ _ _ _ ZO) (fa_physical _ _ _ _ _ FA'))) as L1.
  pose proof (C34_price_optimal _ _ _ _ _ _ R' SS SN d (proj1 (limit_iff _ _ _ _ ZO) (fa_physical _ _ _ _ _ FA))) as L2.
  rewrite <- (proj1 (reported_cost_eq _ _ _ _ _ FA')) in L1. rewrite <- (proj1 (reported_cost_eq _ _ _ _ _ FA)) in L2. lra.
Qed.

(** ** The hypotheses are met by the sample site, which has every kind of asset *)
Lemma x_presence e t : presence x_evs e t == 0 \/ presence x_evs e t == 1.
Proof. unfold presence. cbn [x_evs ev_events]. destruct e as [|[|[|e]]]; destruct t as [|[|[|t]]]; cbn; (left; reflexivity) || (right; reflexivity) || idtac; destruct t; left; reflexivity. Qed.
Lemma x_ready : site_ready x_site x_assets.
Proof.
  unfold site_ready. splits.
  - cbn. lia.
  - repeat split.
  - apply nodup_str_iff. reflexivity.
  - repeat constructor; cbn; try lia; try discriminate. intros [|[|e]] H; cbn; lia.
Qed.
Lemma x_sane : Forall (asset_sane (sc_freq x_site)) x_assets.
Proof.
  repeat (apply Forall_cons; [try exact Logic.I|]); [|constructor]. split.
  - intros cc [H|H]; cbn in H; repeat destruct H as [<-|H]; try destruct H; discriminate.
  - intros e t. destruct (x_presence e t) as [E|E]; rewrite E; discriminate.
Qed.
Example C34_sample : site_ready x_site x_assets /\ Forall chp_fine x_assets /\ Forall (asset_sane (sc_freq x_site)) x_assets /\ Forall zero_one_events x_assets /\
  gas_tied x_site x_assets /\ (exists d, physical x_site x_assets default_flags d /\ dispatch_cost x_site x_assets d == reported_cost x_site x_assets x_result) /\
  reported_cost x_site x_assets x_result == 0 /\ reported_emissions x_site x_assets x_result == 138 # 100.
Proof.
  splits.
  - exact x_ready.
  - apply x_run.
  - exact x_sane.
  - repeat (apply Forall_cons; [try exact Logic.I|]); [|constructor]. exact x_presence.
  - right. intros a H. cbn in H. repeat destruct H as [H|H]; try discriminate; [|destruct H]. injection H as <-. reflexivity.
  - destruct (run_facts _ _ _ _ _ _ _ _ x_run) as (d & _ & FA). exists d. split; [apply FA|]. symmetry. apply (reported_cost_eq _ _ _ _ _ FA).
  - vm_compute. reflexivity.
  - vm_compute. reflexivity.
Qed.
