(** * PropWeigh: weighing two aims against each other (C86) *)
From Verif Require Import Base Pulp Params Optimizer Types Assets EVs Site Constraints Objectives Extract Pipeline Emit Prim Spec SpecReport SpecRun SpecCost SpecCompare SpecTerms SpecFunctions Layout Rows Sem SemEv SemSite SemProg SemResults RunFacts Complete SemTerms PropObjective PropTerms PropFunctions Check SampleSite Certified Capped SampleCompare SampleMoves.
Open Scope Q_scope.
Open Scope string_scope.

(** ** Specification *)
(** the same term, counting w times as much *)
Definition weighted (w : Q) (k : one_term) : one_term :=
  match k with
  | TSimple k => TSimple (mkTerm (t_variable k) (t_asset_type k) (t_interval_data k) (t_asset_name k) (w * t_coefficient k) (t_type k))
  | TTwo k => TTwo (mkTwo (w_function k) (w_a k) (w_b k) (w_M k) (w_interval_data k) (w * w_coefficient k) (w_type k))
  | TMany k => TMany (mkMany (m_function k) (m_variables k) (m_M k) (m_constant k) (w * m_coefficient k) (m_type k))
  end.
(** one aim, and another one with weight w *)
Definition weighed (w : Q) (one other : list one_term) : objective := ObjTerms (one ++ map (weighted w) other).
(** what the result is worth by the terms of one aim *)
Definition worth_of (c : site_cfg) (assets : list asset) (r : sim_result) (ks : list one_term) : Q := objective_sum (reported r) (shown r) c assets ks.
(** terms as C51 describes them, with an M big enough for the result *)
Definition fits (c : site_cfg) (assets : list asset) (r : sim_result) (ks : list one_term) : Prop := Forall (covered (reported r) (shown r) c assets) ks.
Definition a_best_run (gap : Q) (slv : solver) (base : nat) (c : site_cfg) (assets : list asset) (cons : list constraint) (obj : objective) (fl : flags) (r : sim_result) : Prop :=
  feasible_run slv base c assets cons obj fl r /\ solved_within gap slv base c assets cons obj fl.

(** ** Proof *)
Lemma weighted_value w q v c assets k : term_value q v c assets (weighted w k) == w * term_value q v c assets k.
Proof.
  destruct k as [k|k|k]; cbn [weighted term_value].
  - unfold horizon, over_horizon. rewrite <- Qsum_map_scale. apply Qsum_map_ext. intros t _. unfold term_at. cbn [t_variable t_interval_data t_coefficient].
    change (term_picks (mkTerm (t_variable k) (t_asset_type k) (t_interval_data k) (t_asset_name k) (w * t_coefficient k) (t_type k))) with (term_picks k). ring.
  - unfold horizon, over_horizon. rewrite <- Qsum_map_scale. apply Qsum_map_ext. intros t _. unfold two_value, of_two. cbn [w_function w_a w_b w_interval_data w_coefficient]. ring.
  - unfold many_value, of_many, many_values. cbn [m_function m_variables m_constant m_coefficient]. ring.
Qed.
Lemma weighed_value w q v c assets one other : objective_sum q v c assets (one ++ map (weighted w) other) == objective_sum q v c assets one + w * objective_sum q v c assets other.
Proof.
  unfold objective_sum. rewrite map_app, Qsum_app, map_map, <- Qsum_map_scale. apply Qplus_comp; [reflexivity|]. apply Qsum_map_ext. intros k _. apply weighted_value.
Qed.
Lemma weighted_usual w k : 0 <= w -> usual_term k -> usual_term (weighted w k).
Proof.
  intros W. destruct k as [k|k|k]; cbn [weighted usual_term]; auto. cbn [m_function m_variables m_coefficient m_type]. intros (A & B & C & D). splits; auto. intros E. apply Qmult_le_0_compat; auto.
Qed.
Lemma weighted_shown w assets k : shown_term assets k -> shown_term assets (weighted w k).
Proof. destruct k; cbn [weighted shown_term]; auto. Qed.
Lemma weighted_covered w q v c assets k : covered q v c assets k -> covered q v c assets (weighted w k).
Proof. destruct k; cbn [weighted covered]; auto. Qed.
Lemma weighed_all (P : one_term -> Prop) w one other : (forall k, P k -> P (weighted w k)) -> Forall P (one ++ other) -> Forall P (one ++ map (weighted w) other).
Proof. intros H F. apply Forall_app in F as (A & B). apply Forall_app. split; auto. apply Forall_map. eapply Forall_impl; [|exact B]. exact H. Qed.
(** the first of two runs is within the gap of the second, by its own measure *)
Lemma weighed_no_better gap slv base c assets cons one other fl r w slv' base' obj' r' : 0 <= w ->
  a_best_run gap slv base c assets cons (weighed w one other) fl r -> feasible_run slv' base' c assets cons obj' fl r' ->
  Forall usual_term (one ++ other) -> Forall (shown_term assets) (one ++ other) -> fits c assets r' (one ++ other) ->
  Forall plain_constraint cons -> Forall (asset_sane (sc_freq c)) assets ->
  worth_of c assets r one + w * worth_of c assets r other <= worth_of c assets r' one + w * worth_of c assets r' other + gap.
Proof.
  intros W (R & SW) R' U SH FT PC SN. destruct (run_facts _ _ _ _ _ _ _ _ R') as (d & _ & F).
  pose proof (facts_readings _ _ _ _ _ F) as RD.
  assert (forall k m, In k (one ++ other)%list -> k = TMany m -> same_singles (n_intervals c) assets m (shown r') (single d)) as SS.
  { intros k m Ik ->. rewrite Forall_forall in U, SH. exact (shown_singles _ _ _ _ _ m F (U _ Ik) (SH _ Ik)). }
  assert (Forall (satisfied (quantity d) c assets) cons) as SAT.
  { apply Forall_forall. intros k Ik. rewrite Forall_forall in PC. eapply satisfied_ext; [exact RD|auto|]. eapply run_satisfied; eauto. }
  assert (Forall (covered (quantity d) (single d) c assets) (one ++ other)) as CV.
  { apply Forall_forall. intros k Ik. unfold fits in FT. rewrite Forall_forall in FT, U. eapply covered_ext; [exact RD|intros m E; exact (SS k m Ik E)|auto|auto]. }
  pose proof (C53_functions_within gap _ _ _ _ _ _ _ _ R SW (weighed_all _ w _ _ (fun k => weighted_usual w k W) U) (weighed_all _ w _ _ (weighted_shown w assets) SH) PC SN d (fa_physical _ _ _ _ _ F) SAT (weighed_all _ w _ _ (fun k => weighted_covered w _ _ c assets k) CV)) as K.
  rewrite !weighed_value in K. unfold worth_of.
  assert (forall ks, incl ks (one ++ other) -> objective_sum (reported r') (shown r') c assets ks == objective_sum (quantity d) (single d) c assets ks) as E.
  { intros ks IN. apply objective_sum_ext; [exact RD|intros m Im; exact (SS _ m (IN _ Im) eq_refl)|]. apply Forall_forall. intros k Ik. rewrite Forall_forall in U. auto. }
  rewrite (E one), (E other); [exact K| |]; intros k Ik; apply in_or_app; auto.
Qed.

(** ** C86 *)
(** the more the other aim counts, the better the result is by it, and the worse by the first *)
Theorem C86_more_weight : forall gap gap' slv base slv' base' c assets cons one other fl r r' w w',
  0 <= w -> w < w' -> a_best_run gap slv base c assets cons (weighed w one other) fl r -> a_best_run gap' slv' base' c assets cons (weighed w' one other) fl r' ->
  Forall usual_term (one ++ other) -> Forall (shown_term assets) (one ++ other) -> fits c assets r (one ++ other) -> fits c assets r' (one ++ other) ->
  Forall plain_constraint cons -> Forall (asset_sane (sc_freq c)) assets ->
  (w' - w) * worth_of c assets r' other <= (w' - w) * worth_of c assets r other + (gap + gap') /\
  (w' - w) * worth_of c assets r one <= (w' - w) * worth_of c assets r' one + (w' * gap + w * gap').
Proof.
  intros gap gap' slv base slv' base' c assets cons one other fl r r' w w' W L R R' U SH FT FT' PC SN.
  pose proof (weighed_no_better gap _ _ _ _ _ _ _ _ _ w _ _ _ r' W R (proj1 R') U SH FT' PC SN) as K.
  pose proof (weighed_no_better gap' _ _ _ _ _ _ _ _ _ w' _ _ _ r ltac:(lra) R' (proj1 R) U SH FT PC SN) as K'.
  set (A := worth_of c assets r one) in *. set (B := worth_of c assets r other) in *. set (A' := worth_of c assets r' one) in *. set (B' := worth_of c assets r' other) in *. clearbody A B A' B'. split; [lra|].
  assert (0 <= w' * (A' + w * B' + gap - (A + w * B))) as M by (apply Qmult_le_0_compat; lra).
  assert (0 <= w * (A + w' * B + gap' - (A' + w' * B'))) as M' by (apply Qmult_le_0_compat; lra).
  lra.
Qed.
(** solved exactly: less of the other aim, more of the first *)
Theorem C86_trade_off : forall slv base slv' base' c assets cons one other fl r r' w w',
  0 <= w -> w < w' -> a_best_run 0 slv base c assets cons (weighed w one other) fl r -> a_best_run 0 slv' base' c assets cons (weighed w' one other) fl r' ->
  Forall usual_term (one ++ other) -> Forall (shown_term assets) (one ++ other) -> fits c assets r (one ++ other) -> fits c assets r' (one ++ other) ->
  Forall plain_constraint cons -> Forall (asset_sane (sc_freq c)) assets ->
  worth_of c assets r' other <= worth_of c assets r other /\ worth_of c assets r one <= worth_of c assets r' one.
Proof.
  intros slv base slv' base' c assets cons one other fl r r' w w' W L R R' U SH FT FT' PC SN.
  destruct (C86_more_weight 0 0 _ _ _ _ c assets cons one other fl r r' w w' W L R R' U SH FT FT' PC SN) as (K1 & K2).
  split; (apply (Qmult_le_l _ _ (w' - w)); [lra|lra]).
Qed.
(** no possible result of the same constraints is better by one aim and, beyond the gap, by the other *)
Theorem C86_no_free_lunch : forall gap slv base c assets cons one other fl r w slv' base' obj' r',
  0 < w -> a_best_run gap slv base c assets cons (weighed w one other) fl r -> feasible_run slv' base' c assets cons obj' fl r' ->
  Forall usual_term (one ++ other) -> Forall (shown_term assets) (one ++ other) -> fits c assets r' (one ++ other) ->
  Forall plain_constraint cons -> Forall (asset_sane (sc_freq c)) assets ->
  (worth_of c assets r' one <= worth_of c assets r one -> w * worth_of c assets r other <= w * worth_of c assets r' other + gap) /\
  (worth_of c assets r' other <= worth_of c assets r other -> worth_of c assets r one <= worth_of c assets r' one + gap).
Proof.
  intros gap slv base c assets cons one other fl r w slv' base' obj' r' W R R' U SH FT PC SN.
  pose proof (weighed_no_better gap _ _ _ _ _ _ _ _ _ w _ _ _ r' ltac:(lra) R R' U SH FT PC SN) as K. split; intros L; [lra|].
  assert (0 <= w * (worth_of c assets r other - worth_of c assets r' other)) by (apply Qmult_le_0_compat; lra). lra.
Qed.

(** ** Sample: a battery buys in the cheap hour, or, with carbon weighing 200 per tonne, in no other hour than it is needed *)
Definition we_cost : list one_term := [TSimple (mkTerm "import_power_mwh" (Some "site") (Some "electricity_prices") None 1 "simple")].
Definition we_carbon : list one_term := [TSimple (mkTerm "import_power_mwh" (Some "site") (Some "electricity_carbon_intensities") None 1 "simple")].
Definition we_light_solver : solver := certified (h_values 1) [51#5; 0; 0; 0; 0; 0; 0; 0; 0; 51#5; 0; 51#5; 0; 0; 0; 0; 0; 0; 0; 0; 51#5; 0; 51#5; -51#5; 0].
Definition we_heavy_solver : solver := certified (h_values 0) [50; 0; 0; 0; 0; 0; 0; 0; 0; 50; 0; 40; 0; 0; 0; 0; 0; 0; 0; 0; 40; 0; 40; -50; 0].
Definition we_light : sim_result := Eval vm_compute in run_of we_light_solver h_site [h_battery 1] [] (weighed 1 we_cost we_carbon).
Definition we_heavy : sim_result := Eval vm_compute in run_of we_heavy_solver h_site [h_battery 1] [] (weighed 200 we_cost we_carbon).
Lemma we_light_run : a_best_run 0 we_light_solver 0 h_site [h_battery 1] [] (weighed 1 we_cost we_carbon) default_flags we_light.
Proof. split; [run|intros iv o _; apply stopped_within]. Qed.
Lemma we_heavy_run : a_best_run 0 we_heavy_solver 0 h_site [h_battery 1] [] (weighed 200 we_cost we_carbon) default_flags we_heavy.
Proof. split; [run|intros iv o _; apply stopped_within]. Qed.
Example C86_sample :
  worth_of h_site [h_battery 1] we_heavy we_carbon <= worth_of h_site [h_battery 1] we_light we_carbon /\
  worth_of h_site [h_battery 1] we_light we_cost <= worth_of h_site [h_battery 1] we_heavy we_cost /\
  worth_of h_site [h_battery 1] we_light we_cost == 20 /\ worth_of h_site [h_battery 1] we_heavy we_cost == 30 /\
  worth_of h_site [h_battery 1] we_light we_carbon == 4#10 /\ worth_of h_site [h_battery 1] we_heavy we_carbon == 3#10.
Proof.
  assert (Forall usual_term (we_cost ++ we_carbon)) as U.
  { repeat (constructor; [split; [reflexivity|cbn; tauto]|]). constructor. }
  assert (Forall (shown_term [h_battery 1]) (we_cost ++ we_carbon)) as SH by (repeat (constructor; [exact Logic.I|]); constructor).
  assert (forall r, fits h_site [h_battery 1] r (we_cost ++ we_carbon)) as FT by (intros r; repeat (constructor; [exact Logic.I|]); constructor).
  destruct (C86_trade_off we_light_solver 0 we_heavy_solver 0 h_site [h_battery 1] [] we_cost we_carbon default_flags we_light we_heavy 1 200 ltac:(lra) ltac:(lra) we_light_run we_heavy_run U SH (FT _) (FT _) (Forall_nil _) ltac:(repeat constructor)) as (K1 & K2).
  splits; [exact K1|exact K2|vm_compute; reflexivity..].
Qed.
