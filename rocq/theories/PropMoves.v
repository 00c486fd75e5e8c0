(** * PropMoves: no profitable change is left in an optimized result *)
From Coq Require Import Qminmax.
From Verif Require Import Base Pulp Params Optimizer Types Pipeline Constraints Objectives Extract Spec SpecReport SpecRun SpecCost SpecTerms Emit Prim Rows SemEv SemResults RunFacts Complete Bounded Pad Standby PropSite PropObjective SpecCompare Compare PropCompare PropHorizon PropEnergy Move SpecMoves.
Open Scope Q_scope.
Open Scope string_scope.

(** what a move adds to the objective in one interval *)
Definition move_cost (g : goal) (c : site_cfg) (ms : list move) (xi xe : nat -> Q) (t : nat) : Q :=
  xi t * import_price g c t - xe t * export_price g c t + change gas_use ms t * gas_price g c t + change spilled ms t * spill_penalty.
Lemma no_better gap slv base c assets fl r g : best_run gap slv base c assets [] (minimises g) fl r ->
  exists d, facts (r_results r) c assets fl d /\ forall ms xi xe, Forall (fun m : move => In (fst m) assets) ms -> site_move c ms xi xe d ->
    Forall (fun m => asset_physical (fst m) (sc_freq c) fl (n_intervals c) (moved ms xi xe d)) ms ->
    - gap <= over_horizon c (move_cost g c ms xi xe).
Proof.
  intros (R & SW & SN). destruct (run_facts _ _ _ _ _ _ _ _ R) as (d & _ & FA). exists d. split; [exact FA|]. intros ms xi xe F SM AP.
  assert (physical c assets fl (moved ms xi xe d)) as PH by (apply moved_physical; auto; apply FA).
  pose proof (fa_names _ _ _ _ _ FA) as ND. destruct (reported_cost_eq _ _ _ _ _ FA) as [E1 E2].
  destruct g; cbn [minimises] in *.
  - pose proof (C53_price_within _ _ _ _ _ _ _ R SW SN _ PH) as L. rewrite E1 in L. clear E1 E2.
    assert (dispatch_cost c assets (moved ms xi xe d) == dispatch_cost c assets d + over_horizon c (move_cost Price c ms xi xe)) as EQ; [|lra].
    unfold dispatch_cost, over_horizon. rewrite <- Qsum_map_plus. apply Qsum_map_ext. intros t _. unfold interval_cost, move_cost.
    rewrite (moved_total _ assets ms xi xe d t linear_gas_use ND F), (moved_total _ assets ms xi xe d t linear_spilled ND F). unfold import_price, export_price, gas_price; cbn [moved d_import d_export]. ring.
  - pose proof (C53_carbon_within _ _ _ _ _ _ _ R SW SN _ PH) as L. rewrite E2 in L. clear E1 E2.
    assert (dispatch_emissions c assets (moved ms xi xe d) == dispatch_emissions c assets d + over_horizon c (move_cost Carbon c ms xi xe)) as EQ; [|lra].
    unfold dispatch_emissions, over_horizon. rewrite <- Qsum_map_plus. apply Qsum_map_ext. intros t _. unfold interval_emissions, move_cost.
    rewrite (moved_total _ assets ms xi xe d t linear_gas_use ND F), (moved_total _ assets ms xi xe d t linear_spilled ND F). unfold import_price, export_price, gas_price; cbn [moved d_import d_export]. ring.
Qed.

(** ** Moves in one interval *)
Definition quick : Type := asset * (qty -> Q).
Definition once (t0 : nat) (x : Q) (t : nat) : Q := if (t =? t0)%nat then x else 0.
Definition at_once (t0 : nat) (m : quick) : move := (fst m, fun q t => once t0 (snd m q) t).
Lemma once_sum n t0 x : (t0 < n)%nat -> Qsum (map (once t0 x) (seq 0 n)) == x.
Proof.
  intros L. assert (n = t0 + (1 + (n - t0 - 1)))%nat as -> by lia. rewrite seq_app, map_app, Qsum_app. change (0 + t0)%nat with t0. rewrite seq_app, map_app, Qsum_app.
  rewrite (Qsum_map_zero (once t0 x) (seq 0 t0)), (Qsum_map_zero (once t0 x) (seq (t0 + 1) _)).
  - cbn. unfold once. rewrite Nat.eqb_refl. ring.
  - intros t It. apply in_seq in It. unfold once. destruct (Nat.eqb_spec t t0); [lia|reflexivity].
  - intros t It. apply in_seq in It. unfold once. destruct (Nat.eqb_spec t t0); [lia|reflexivity].
Qed.
Definition flow (g : dispatch -> nat -> asset -> Q) (ms : list quick) (t : nat) : Q := Qsum (map (fun m : quick => g (only (fun q _ => snd m q)) t (fst m)) ms).
(** the flows of [only f] at t use f at t alone *)
Definition pointwise (g : dispatch -> nat -> asset -> Q) : Prop := forall f f' t a, (forall q, f q t = f' q t) -> g (only f) t a == g (only f') t a.
Lemma pointwise_all : pointwise elec_gen /\ pointwise elec_load /\ pointwise charge /\ pointwise discharge /\ pointwise ht_gen /\ pointwise ht_load /\ pointwise lt_gen /\ pointwise lt_load /\ pointwise gas_use /\ pointwise spilled.
Proof.
  splits; intros f f' t a E; destruct a; try reflexivity; cbn [elec_gen elec_load charge discharge ht_gen ht_load lt_gen lt_load gas_use spilled only d_qty]; rewrite ?E; reflexivity.
Qed.
Lemma change_once g ms t0 t : pointwise g -> (forall a, g (only (fun _ _ => 0)) t a == 0) -> change g (map (at_once t0) ms) t == if (t =? t0)%nat then flow g ms t else 0.
Proof.
  intros P Z. unfold change, flow. rewrite map_map. destruct (t =? t0)%nat eqn:E.
  - apply Qsum_map_ext. intros m _. apply P. intros q. cbn. unfold once. now rewrite E.
  - apply Qsum_map_zero. intros m _. rewrite <- (Z (fst m)). apply P. intros q. cbn. unfold once. now rewrite E.
Qed.
Lemma zero_flow t a : elec_gen (only (fun _ _ => 0)) t a == 0 /\ elec_load (only (fun _ _ => 0)) t a == 0 /\ charge (only (fun _ _ => 0)) t a == 0 /\ discharge (only (fun _ _ => 0)) t a == 0 /\
  ht_gen (only (fun _ _ => 0)) t a == 0 /\ ht_load (only (fun _ _ => 0)) t a == 0 /\ lt_gen (only (fun _ _ => 0)) t a == 0 /\ lt_load (only (fun _ _ => 0)) t a == 0 /\ gas_use (only (fun _ _ => 0)) t a == 0 /\ spilled (only (fun _ _ => 0)) t a == 0.
Proof.
  splits; destruct a; try reflexivity; cbn [charge discharge spilled]; unfold ev_total_charge, ev_total_discharge, ev_spill_total; cbn [only d_ev_charge d_ev_discharge d_spill_charge]; rewrite ?zeros, ?zero3; reflexivity.
Qed.

(** what an asset without storage may do in one interval *)
Definition now (a : asset) (f : freq) (t : nat) (q : qty -> Q) : Prop :=
  match a with
  | ABoiler c => between (energy f (bo_min_mw c)) (q HtGen) (energy f (bo_max_mw c)) /\ q Gas == q HtGen / bo_efficiency_pct c /\ 0 <= q Gas
  | ACHP c => between 0 (q ElecGen) (energy f (ch_max_mw c)) /\ (q ElecGen == 0 \/ energy f (ch_min_mw c) <= q ElecGen) /\
      (0 < ch_electric_efficiency_pct c -> q Gas == q ElecGen / ch_electric_efficiency_pct c) /\
      q HtGen == q Gas * ch_ht_efficiency_pct c /\ q LtGen == q Gas * ch_lt_efficiency_pct c /\ 0 <= q Gas /\ 0 <= q HtGen /\ 0 <= q LtGen
  | AHeatPump c => between 0 (q ElecLoad) (energy f (hp_power_mw c)) /\ q HtGen == q ElecLoad * hp_cop c /\ q LtLoad + q ElecLoad == q HtGen /\ 0 <= q LtLoad /\ 0 <= q HtGen
  | ARenewable c => between (nth t (rg_available_mwh c) 0 * rg_lower_pct c) (q ElecGen) (nth t (rg_available_mwh c) 0)
  | ASpill _ => 0 <= q ElecGen /\ 0 <= q ElecLoad /\ 0 <= q HtGen /\ 0 <= q LtLoad
  | AValve _ => q HtLoad == q LtGen /\ 0 <= q LtGen
  | ABattery _ | AEVs _ => False
  end.
Definition instant (a : asset) : Prop := match a with ABattery _ | AEVs _ => False | _ => True end.
Lemma now_ext a f t q q' : (forall x, q x == q' x) -> now a f t q -> now a f t q'.
Proof. intros E. pose proof (E ElecGen); pose proof (E ElecLoad); pose proof (E HtGen); pose proof (E HtLoad); pose proof (E LtGen); pose proof (E LtLoad); pose proof (E Gas). clear E.
  destruct a; cbn [now]; unfold between; repeat match goal with H : q ?x == q' ?x |- _ => rewrite H; clear H end; tauto. Qed.
Lemma physical_now a f fl n d : instant a -> (asset_physical a f fl n d <-> forall t, (t < n)%nat -> now a f t (fun q => d_qty d (asset_name a) q t)).
Proof. intros H. destruct a; try destruct H; cbn [asset_physical now asset_name]; reflexivity. Qed.

Lemma added_once t0 ms m q t : NoDup (map (fun m : quick => asset_name (fst m)) ms) -> In m ms ->
  added (map (at_once t0) ms) (asset_name (fst m)) q t == once t0 (snd m q) t.
Proof.
  unfold added. rewrite map_map. intros ND I. induction ms as [|x ms IH]; [destruct I|]. inversion ND as [|? ? N1 N2]; subst.
  cbn [map]. change (Qsum (?x :: ?l)) with (x + Qsum l). destruct I as [->|I].
  - cbn [at_once fst snd]. rewrite String.eqb_refl. rewrite Qsum_map_zero; [ring|]. intros y Iy. cbn [at_once fst]. destruct (_ =? _) eqn:E; [|reflexivity]. apply String.eqb_eq in E. destruct N1. rewrite <- E. apply in_map_iff. eauto.
  - rewrite (IH N2 I). cbn [at_once fst]. destruct (asset_name (fst x) =? asset_name (fst m)) eqn:E; [|ring]. apply String.eqb_eq in E. destruct N1. rewrite E. apply in_map_iff. eauto.
Qed.

Definition grid_ok (c : site_cfg) (i x : Q) : Prop :=
  between 0 i (energy (sc_freq c) (sc_import_limit_mw c)) /\ between 0 x (energy (sc_freq c) (sc_export_limit_mw c)) /\ (i == 0 \/ x == 0).
Lemma no_better_now gap slv base c assets fl r g : best_run gap slv base c assets [] (minimises g) fl r ->
  exists d, facts (r_results r) c assets fl d /\ forall t ms xi xe, (t < n_intervals c)%nat ->
    NoDup (map (fun m : quick => asset_name (fst m)) ms) ->
    Forall (fun m : quick => In (fst m) assets /\ instant (fst m) /\ now (fst m) (sc_freq c) t (fun q => d_qty d (asset_name (fst m)) q t + snd m q)) ms ->
    grid_ok c (d_import d t + xi) (d_export d t + xe) ->
    xi - xe == flow elec_load ms t - flow elec_gen ms t -> flow ht_gen ms t == flow ht_load ms t -> flow lt_gen ms t == flow lt_load ms t ->
    - gap <= xi * import_price g c t - xe * export_price g c t + flow gas_use ms t * gas_price g c t + flow spilled ms t * spill_penalty.
Proof.
  intros B. destruct (no_better _ _ _ _ _ _ _ _ B) as (d & FA & H). exists d. split; [exact FA|]. intros t0 ms xi xe Ht ND F G EE EH EL.
  rewrite Forall_forall in F. destruct pointwise_all as (P1 & P2 & P3 & P4 & P5 & P6 & P7 & P8 & P9 & P10).
  assert (forall t, charge (only (fun _ _ => 0)) t = charge (only (fun _ _ => 0)) t) as _ by reflexivity.
  assert (forall t m, In m ms -> charge (only (fun q _ => snd m q)) t (fst m) == 0 /\ discharge (only (fun q _ => snd m q)) t (fst m) == 0) as NC.
  { intros t m Im. destruct (F m Im) as (_ & I & _). destruct (fst m); try destruct I; split; reflexivity. }
  assert (forall t, flow charge ms t == 0 /\ flow discharge ms t == 0) as FC.
  { intros t. split; apply Qsum_map_zero; intros m Im; apply (NC t m Im). }
  specialize (H (map (at_once t0) ms) (once t0 xi) (once t0 xe)).
  refine (Qle_trans _ _ _ (H _ _ _) _).
  - apply Forall_forall. intros m Im. apply in_map_iff in Im. destruct Im as (k & <- & Ik). apply (F k Ik).
  - split; intros t Lt.
    + unfold grid_limits. cbn [moved d_import d_export]. unfold once. destruct (Nat.eqb_spec t t0) as [->|NE]; [exact G|].
      destruct (fa_physical _ _ _ _ _ FA) as [PH _]. destruct (PH t Lt) as ((G1 & G2 & G3) & _). unfold between in *. splits; try lra; (destruct G3; [left|right]; lra).
    + rewrite !change_once by (auto; intros a; apply (zero_flow t a)). unfold once. destruct (t =? t0)%nat eqn:E; [|ring]. apply Nat.eqb_eq in E. subst t. destruct (FC t0) as [-> ->]. lra.
    + rewrite !change_once by (auto; intros a; apply (zero_flow t a)). destruct (t =? t0)%nat eqn:E; [|ring]. apply Nat.eqb_eq in E. subst t. exact EH.
    + rewrite !change_once by (auto; intros a; apply (zero_flow t a)). destruct (t =? t0)%nat eqn:E; [|ring]. apply Nat.eqb_eq in E. subst t. exact EL.
  - apply Forall_forall. intros m Im. apply in_map_iff in Im. destruct Im as (k & <- & Ik). destruct (F k Ik) as (Ia & I & NW). cbn [at_once fst].
    destruct (fa_physical _ _ _ _ _ FA) as [_ PA]. specialize (PA _ Ia). rewrite physical_now in PA by exact I. apply physical_now; [exact I|]. intros t Lt. cbn [moved d_qty].
    destruct (Nat.eq_dec t t0) as [->|NE].
    + eapply now_ext; [|exact NW]. intros q. rewrite (added_once t0 ms k q t0 ND Ik). unfold once. rewrite Nat.eqb_refl. reflexivity.
    + eapply now_ext; [|exact (PA t Lt)]. intros q. rewrite (added_once t0 ms k q t ND Ik). unfold once. destruct (Nat.eqb_spec t t0); [congruence|ring].
  - apply Qle_lteq. right. unfold over_horizon.
    rewrite <- (once_sum (n_intervals c) t0 (xi * import_price g c t0 - xe * export_price g c t0 + flow gas_use ms t0 * gas_price g c t0 + flow spilled ms t0 * spill_penalty) Ht).
    apply Qsum_map_ext. intros t _. unfold move_cost. rewrite !change_once by (auto; intros a; apply (zero_flow t a)). unfold once. destruct (t =? t0)%nat eqn:E; [|ring]. apply Nat.eqb_eq in E. subst t. reflexivity.
Qed.

(** the grid's part *)
Lemma absorb_grid c assets fl r d (FA : facts (r_results r) c assets fl d) g t e v : (t < n_intervals c)%nat -> 0 <= e -> absorbs g c r t e v ->
  exists xi xe, grid_ok c (d_import d t + xi) (d_export d t + xe) /\ xi - xe == - e /\ xi * import_price g c t - xe * export_price g c t == - (e * v).
Proof.
  intros Ht E A. unfold absorbs in A. rewrite (r_import_eq r c assets fl d FA t Ht), (r_export_eq r c assets fl d FA t Ht) in A. destruct (fa_physical _ _ _ _ _ FA) as [PH _].
  destruct (PH t Ht) as ((G1 & G2 & G3) & _). unfold grid_ok, between in *. destruct A as [(A1 & A2)|(A1 & A2 & A3)].
  - exists (- e), 0. splits; try lra; rewrite A2; ring.
  - exists 0, e. splits; try lra; rewrite A3; ring.
Qed.
Lemma provide_grid c assets fl r d (FA : facts (r_results r) c assets fl d) g t e v : (t < n_intervals c)%nat -> 0 <= e -> provides g c r t e v ->
  exists xi xe, grid_ok c (d_import d t + xi) (d_export d t + xe) /\ xi - xe == e /\ xi * import_price g c t - xe * export_price g c t == e * v.
Proof.
  intros Ht E A. unfold provides in A. rewrite (r_import_eq r c assets fl d FA t Ht), (r_export_eq r c assets fl d FA t Ht) in A. destruct (fa_physical _ _ _ _ _ FA) as [PH _].
  destruct (PH t Ht) as ((G1 & G2 & G3) & _). unfold grid_ok, between in *. destruct A as [(A1 & A2)|(A1 & A2 & A3)].
  - exists 0, (- e). splits; try lra; rewrite A2; ring.
  - exists e, 0. splits; try lra; rewrite A3; ring.
Qed.
Lemma still_grid c assets fl r d (FA : facts (r_results r) c assets fl d) t : (t < n_intervals c)%nat -> grid_ok c (d_import d t + 0) (d_export d t + 0).
Proof.
  intros Ht. destruct (fa_physical _ _ _ _ _ FA) as [PH _]. destruct (PH t Ht) as ((G1 & G2 & G3) & _). unfold grid_ok, between in *. splits; try lra; (destruct G3; [left|right]; lra).
Qed.

(** ** Reading the table *)
Section read.
Context (c : site_cfg) (assets : list asset) (fl : flags) (r : sim_result) (d : dispatch) (FA : facts (r_results r) c assets fl d) (t : nat) (Ht : (t < n_intervals c)%nat).
Ltac rd := intros; unfold elec_made, elec_used, heat_made, heat_used, low_heat_used; apply (rep_qty r c assets fl d FA); auto; cbn [asset_cells In asset_name]; tauto.
Lemma rg_read a : In (ARenewable a) assets -> elec_made r (ARenewable a) t == d_qty d (rg_name a) ElecGen t.
Proof. rd. Qed.
Lemma spill_read nm : In (ASpill nm) assets -> elec_made r (ASpill nm) t == d_qty d nm ElecGen t /\ elec_used r (ASpill nm) t == d_qty d nm ElecLoad t /\
  heat_made r (ASpill nm) t == d_qty d nm HtGen t /\ low_heat_used r (ASpill nm) t == d_qty d nm LtLoad t.
Proof. intros I. splits; rd. Qed.
Lemma boiler_read a : In (ABoiler a) assets -> heat_made r (ABoiler a) t == d_qty d (bo_name a) HtGen t.
Proof. rd. Qed.
Lemma chp_read a : In (ACHP a) assets -> elec_made r (ACHP a) t == d_qty d (ch_name a) ElecGen t.
Proof. rd. Qed.
Lemma hp_read a : In (AHeatPump a) assets -> elec_used r (AHeatPump a) t == d_qty d (hp_name a) ElecLoad t.
Proof. rd. Qed.
Lemma valve_read nm : In (AValve nm) assets -> heat_used r (AValve nm) t == d_qty d nm HtLoad t.
Proof. rd. Qed.
Lemma now_of a : In a assets -> instant a -> now a (sc_freq c) t (fun q => d_qty d (asset_name a) q t).
Proof. intros I J. destruct (fa_physical _ _ _ _ _ FA) as [_ A]. specialize (A a I). rewrite physical_now in A by exact J. auto. Qed.
End read.

Ltac simple_flow H := unfold flow in H; cbn [map fst snd elec_gen elec_load ht_gen ht_load lt_gen lt_load gas_use spilled only d_qty asset_name Qsum fold_right] in H.
Definition more (q0 : qty) (e : Q) (q : qty) : Q := if match q0, q with ElecGen, ElecGen | ElecLoad, ElecLoad | HtGen, HtGen | HtLoad, HtLoad | LtGen, LtGen | LtLoad, LtLoad | Gas, Gas => true | _, _ => false end then e else 0.
Definition plus (f f' : qty -> Q) (q : qty) : Q := f q + f' q.

(** ** Renewables *)
Theorem C69_curtailment : forall gap slv base c assets fl r g a t e v, best_run gap slv base c assets [] (minimises g) fl r -> In (ARenewable a) assets -> (t < n_intervals c)%nat -> 0 <= e ->
  elec_made r (ARenewable a) t + e <= data (rg_available_mwh a) t -> absorbs g c r t e v -> e * v <= gap.
Proof.
  intros gap slv base c assets fl r g a t e v B Ia Ht E L A. destruct (no_better_now _ _ _ _ _ _ _ _ B) as (d & FA & H).
  destruct (absorb_grid _ _ _ _ _ FA g t e v Ht E A) as (xi & xe & G & X1 & X2). rewrite (rg_read _ _ _ _ _ FA t Ht a Ia) in L. unfold data in L.
  pose proof (now_of _ _ _ _ _ FA t Ht _ Ia Logic.I) as NW. cbn [now asset_name] in NW. unfold between in NW.
  assert (- gap <= - (e * v) + 0 * gas_price g c t + 0 * spill_penalty) as K; [|lra].
  rewrite <- X2. apply (H t [(ARenewable a, more ElecGen e)] xi xe Ht).
  - repeat constructor. intros [].
  - constructor; [|constructor]. cbn [fst snd instant now asset_name more]. unfold between. splits; auto; lra.
  - exact G.
  - unfold flow. cbn. lra.
  - reflexivity.
  - reflexivity.
Qed.
Definition heat_move (b : boiler_cfg) (e : Q) : qty -> Q := plus (more HtGen e) (more Gas (e / bo_efficiency_pct b)).
Ltac flows := repeat match goal with m := _ : list quick |- _ => subst m end; unfold flow, heat_move; cbn [map fst snd elec_gen elec_load ht_gen ht_load lt_gen lt_load gas_use spilled only d_qty asset_name Qsum fold_right]; unfold plus, more; try ring; try lra.
Ltac asset_move := cbn [fst snd instant now asset_name]; unfold between, plus, more.
Lemma two_names (assets : list asset) a b : NoDup (map asset_name assets) -> In a assets -> In b assets -> a <> b -> NoDup [asset_name a; asset_name b].
Proof.
  intros ND Ia Ib NE. constructor; [|constructor; [intros []|constructor]]. intros [E|[]]. apply NE. symmetry. exact (NoDup_map_inj asset_name assets _ _ ND Ib Ia E).
Qed.
Lemma three_names (assets : list asset) a b x : NoDup (map asset_name assets) -> In a assets -> In b assets -> In x assets -> a <> b -> a <> x -> b <> x -> NoDup [asset_name a; asset_name b; asset_name x].
Proof.
  intros ND Ia Ib Ix N1 N2 N3. constructor; [|eapply two_names; eauto]. intros [E|[E|[]]]; [apply N1|apply N2]; symmetry; eapply (NoDup_map_inj asset_name assets); eauto.
Qed.

Theorem C69_running_down : forall gap slv base c assets fl r g a t e v, best_run gap slv base c assets [] (minimises g) fl r -> In (ARenewable a) assets -> (t < n_intervals c)%nat -> 0 <= e ->
  data (rg_available_mwh a) t * rg_lower_pct a <= elec_made r (ARenewable a) t - e -> provides g c r t e v -> - gap <= e * v.
Proof.
  intros gap slv base c assets fl r g a t e v B Ia Ht E L A. destruct (no_better_now _ _ _ _ _ _ _ _ B) as (d & FA & H).
  destruct (provide_grid _ _ _ _ _ FA g t e v Ht E A) as (xi & xe & G & X1 & X2). rewrite (rg_read _ _ _ _ _ FA t Ht a Ia) in L. unfold data in L.
  pose proof (now_of _ _ _ _ _ FA t Ht _ Ia Logic.I) as NW. cbn [now asset_name] in NW. unfold between in NW.
  pose proof (H t [(ARenewable a, more ElecGen (- e))] xi xe Ht) as K. rewrite X2 in K.
  assert (flow gas_use [(ARenewable a, more ElecGen (- e))] t == 0) as F1 by reflexivity. assert (flow spilled [(ARenewable a, more ElecGen (- e))] t == 0) as F2 by reflexivity.
  rewrite F1, F2 in K. enough (- gap <= e * v + 0 * gas_price g c t + 0 * spill_penalty) by lra. apply K; clear K.
  - repeat constructor. intros [].
  - constructor; [|constructor]. asset_move. splits; auto; lra.
  - exact G.
  - flows.
  - flows.
  - flows.
Qed.

(** ** Spilled electricity *)
Theorem C69_spilled_generation : forall gap slv base c assets fl r g nm t e v, best_run gap slv base c assets [] (minimises g) fl r -> In (ASpill nm) assets -> (t < n_intervals c)%nat -> 0 <= e ->
  e <= elec_made r (ASpill nm) t -> provides g c r t e v -> e * (spill_penalty - v) <= gap.
Proof.
  intros gap slv base c assets fl r g nm t e v B Ia Ht E L A. destruct (no_better_now _ _ _ _ _ _ _ _ B) as (d & FA & H).
  destruct (provide_grid _ _ _ _ _ FA g t e v Ht E A) as (xi & xe & G & X1 & X2). destruct (spill_read _ _ _ _ _ FA t Ht nm Ia) as (R1 & R2 & R3 & R4). rewrite R1 in L.
  pose proof (now_of _ _ _ _ _ FA t Ht _ Ia Logic.I) as NW. cbn [now asset_name] in NW.
  pose (ms := [(ASpill nm, more ElecGen (- e))] : list quick). pose proof (H t ms xi xe Ht) as K. rewrite X2 in K.
  assert (flow gas_use ms t == 0) as F1 by reflexivity. assert (flow spilled ms t == - e) as F2 by flows.
  rewrite F1, F2 in K. enough (- gap <= e * v + 0 * gas_price g c t + - e * spill_penalty) by lra. apply K; clear K.
  - repeat constructor. intros [].
  - constructor; [|constructor]. asset_move. splits; auto; lra.
  - exact G.
  - flows.
  - flows.
  - flows.
Qed.
Theorem C69_spilled_load : forall gap slv base c assets fl r g nm t e v, best_run gap slv base c assets [] (minimises g) fl r -> In (ASpill nm) assets -> (t < n_intervals c)%nat -> 0 <= e ->
  e <= elec_used r (ASpill nm) t -> absorbs g c r t e v -> e * (spill_penalty + v) <= gap.
Proof.
  intros gap slv base c assets fl r g nm t e v B Ia Ht E L A. destruct (no_better_now _ _ _ _ _ _ _ _ B) as (d & FA & H).
  destruct (absorb_grid _ _ _ _ _ FA g t e v Ht E A) as (xi & xe & G & X1 & X2). destruct (spill_read _ _ _ _ _ FA t Ht nm Ia) as (R1 & R2 & R3 & R4). rewrite R2 in L.
  pose proof (now_of _ _ _ _ _ FA t Ht _ Ia Logic.I) as NW. cbn [now asset_name] in NW.
  pose (ms := [(ASpill nm, more ElecLoad (- e))] : list quick). pose proof (H t ms xi xe Ht) as K. rewrite X2 in K.
  assert (flow gas_use ms t == 0) as F1 by reflexivity. assert (flow spilled ms t == - e) as F2 by flows.
  rewrite F1, F2 in K. enough (- gap <= - (e * v) + 0 * gas_price g c t + - e * spill_penalty) by lra. apply K; clear K.
  - repeat constructor. intros [].
  - constructor; [|constructor]. asset_move. splits; auto; lra.
  - exact G.
  - flows.
  - flows.
  - flows.
Qed.
(** renewables go down before electricity is spilled, and up before it is made from nothing *)
Theorem C69_curtail_before_spilling : forall gap slv base c assets fl r g nm a t e, best_run gap slv base c assets [] (minimises g) fl r -> In (ASpill nm) assets -> In (ARenewable a) assets -> (t < n_intervals c)%nat -> 0 <= e ->
  e <= elec_used r (ASpill nm) t -> data (rg_available_mwh a) t * rg_lower_pct a <= elec_made r (ARenewable a) t - e -> e * spill_penalty <= gap.
Proof.
  intros gap slv base c assets fl r g nm a t e B Is Ia Ht E L L'. destruct (no_better_now _ _ _ _ _ _ _ _ B) as (d & FA & H).
  destruct (spill_read _ _ _ _ _ FA t Ht nm Is) as (R1 & R2 & R3 & R4). rewrite R2 in L. rewrite (rg_read _ _ _ _ _ FA t Ht a Ia) in L'. unfold data in L'.
  pose proof (now_of _ _ _ _ _ FA t Ht _ Is Logic.I) as NS. pose proof (now_of _ _ _ _ _ FA t Ht _ Ia Logic.I) as NW. cbn [now asset_name] in NW, NS. unfold between in NW.
  pose (ms := [(ASpill nm, more ElecLoad (- e)); (ARenewable a, more ElecGen (- e))] : list quick). pose proof (H t ms 0 0 Ht) as K.
  assert (flow gas_use ms t == 0) as F1 by reflexivity. assert (flow spilled ms t == - e) as F2 by flows.
  rewrite F1, F2 in K. enough (- gap <= 0 * import_price g c t - 0 * export_price g c t + 0 * gas_price g c t + - e * spill_penalty) by lra. apply K; clear K.
  - apply (two_names assets (ASpill nm) (ARenewable a)); auto; [apply FA|discriminate].
  - repeat constructor; asset_move; splits; auto; lra.
  - exact (still_grid _ _ _ _ _ FA t Ht).
  - flows.
  - flows.
  - flows.
Qed.
Theorem C69_run_before_spilling : forall gap slv base c assets fl r g nm a t e, best_run gap slv base c assets [] (minimises g) fl r -> In (ASpill nm) assets -> In (ARenewable a) assets -> (t < n_intervals c)%nat -> 0 <= e ->
  e <= elec_made r (ASpill nm) t -> elec_made r (ARenewable a) t + e <= data (rg_available_mwh a) t -> e * spill_penalty <= gap.
Proof.
  intros gap slv base c assets fl r g nm a t e B Is Ia Ht E L L'. destruct (no_better_now _ _ _ _ _ _ _ _ B) as (d & FA & H).
  destruct (spill_read _ _ _ _ _ FA t Ht nm Is) as (R1 & R2 & R3 & R4). rewrite R1 in L. rewrite (rg_read _ _ _ _ _ FA t Ht a Ia) in L'. unfold data in L'.
  pose proof (now_of _ _ _ _ _ FA t Ht _ Is Logic.I) as NS. pose proof (now_of _ _ _ _ _ FA t Ht _ Ia Logic.I) as NW. cbn [now asset_name] in NW, NS. unfold between in NW.
  pose (ms := [(ASpill nm, more ElecGen (- e)); (ARenewable a, more ElecGen e)] : list quick). pose proof (H t ms 0 0 Ht) as K.
  assert (flow gas_use ms t == 0) as F1 by reflexivity. assert (flow spilled ms t == - e) as F2 by flows.
  rewrite F1, F2 in K. enough (- gap <= 0 * import_price g c t - 0 * export_price g c t + 0 * gas_price g c t + - e * spill_penalty) by lra. apply K; clear K.
  - apply (two_names assets (ASpill nm) (ARenewable a)); auto; [apply FA|discriminate].
  - repeat constructor; asset_move; splits; auto; lra.
  - exact (still_grid _ _ _ _ _ FA t Ht).
  - flows.
  - flows.
  - flows.
Qed.

(** ** Heat *)
Lemma boiler_more b f t q e : 0 < bo_efficiency_pct b -> now (ABoiler b) f t q -> energy f (bo_min_mw b) <= q HtGen + e -> q HtGen + e <= energy f (bo_max_mw b) -> 0 <= q HtGen + e ->
  now (ABoiler b) f t (fun x => q x + heat_move b e x).
Proof.
  intros P (N1 & N2 & N3) L1 L2 L3. cbn [now]. unfold between, heat_move, plus, more; cbn [negb]. assert (q Gas + (0 + e / bo_efficiency_pct b) == (q HtGen + (e + 0)) / bo_efficiency_pct b) as EQ by (rewrite N2; unfold Qdiv; ring).
  assert (0 <= (q HtGen + (e + 0)) / bo_efficiency_pct b) as GE by (apply Qle_shift_div_l; auto; lra). splits; try lra.
Qed.
Lemma boiler_heat b f t q : 0 < bo_efficiency_pct b -> now (ABoiler b) f t q -> 0 <= q HtGen.
Proof.
  intros P (N1 & N2 & N3). rewrite N2 in N3. assert (q HtGen == q HtGen / bo_efficiency_pct b * bo_efficiency_pct b) as E by (field; lra). rewrite E. apply Qmult_le_0_compat; lra.
Qed.

Theorem C70_spilled_heat : forall gap slv base c assets fl r g nm b t e, best_run gap slv base c assets [] (minimises g) fl r -> In (ASpill nm) assets -> In (ABoiler b) assets -> (t < n_intervals c)%nat -> 0 <= e ->
  0 < bo_efficiency_pct b -> e <= heat_made r (ASpill nm) t -> heat_made r (ABoiler b) t + e <= energy (sc_freq c) (bo_max_mw b) -> e * (spill_penalty - gas_price g c t / bo_efficiency_pct b) <= gap.
Proof.
  intros gap slv base c assets fl r g nm b t e B Is Ib Ht E EF L L'. destruct (no_better_now _ _ _ _ _ _ _ _ B) as (d & FA & H).
  destruct (spill_read _ _ _ _ _ FA t Ht nm Is) as (R1 & R2 & R3 & R4). rewrite R3 in L. rewrite (boiler_read _ _ _ _ _ FA t Ht b Ib) in L'.
  pose proof (now_of _ _ _ _ _ FA t Ht _ Is Logic.I) as NS. pose proof (now_of _ _ _ _ _ FA t Ht _ Ib Logic.I) as NW. pose proof (boiler_heat _ _ _ _ EF NW) as NN. cbn [now asset_name] in NS.
  pose (ms := [(ASpill nm, more HtGen (- e)); (ABoiler b, heat_move b e)] : list quick). pose proof (H t ms 0 0 Ht) as K.
  assert (flow gas_use ms t == e / bo_efficiency_pct b) as F1 by (flows). assert (flow spilled ms t == - e) as F2 by flows.
  rewrite F1, F2 in K. enough (- gap <= 0 * import_price g c t - 0 * export_price g c t + e / bo_efficiency_pct b * gas_price g c t + - e * spill_penalty) as J.
  { assert (e * (spill_penalty - gas_price g c t / bo_efficiency_pct b) == - (e / bo_efficiency_pct b * gas_price g c t + - e * spill_penalty)) as -> by (unfold Qdiv; ring). lra. }
  apply K; clear K.
  - apply (two_names assets (ASpill nm) (ABoiler b)); auto; [apply FA|discriminate].
  - constructor; [|constructor; [|constructor]].
    + asset_move; splits; auto; lra.
    + cbn [fst snd instant]. splits; auto. apply boiler_more; auto; destruct NW as ((N1 & N2) & _); cbn [asset_name] in *; lra.
  - exact (still_grid _ _ _ _ _ FA t Ht).
  - flows.
  - flows.
  - flows.
Qed.

(** the cheaper boiler first *)
Theorem C70_boiler_merit_order : forall gap slv base c assets fl r g b b' t e, best_run gap slv base c assets [] (minimises g) fl r -> In (ABoiler b) assets -> In (ABoiler b') assets -> b <> b' -> (t < n_intervals c)%nat -> 0 <= e ->
  0 < bo_efficiency_pct b -> 0 < bo_efficiency_pct b' ->
  heat_made r (ABoiler b) t + e <= energy (sc_freq c) (bo_max_mw b) -> e <= heat_made r (ABoiler b') t -> energy (sc_freq c) (bo_min_mw b') <= heat_made r (ABoiler b') t - e ->
  e * gas_price g c t / bo_efficiency_pct b' <= e * gas_price g c t / bo_efficiency_pct b + gap.
Proof.
  intros gap slv base c assets fl r g b b' t e B Ib Ib' NE Ht E EF EF' L L1 L2. destruct (no_better_now _ _ _ _ _ _ _ _ B) as (d & FA & H).
  rewrite (boiler_read _ _ _ _ _ FA t Ht b Ib) in L. rewrite (boiler_read _ _ _ _ _ FA t Ht b' Ib') in L1, L2.
  pose proof (now_of _ _ _ _ _ FA t Ht _ Ib Logic.I) as NW. pose proof (now_of _ _ _ _ _ FA t Ht _ Ib' Logic.I) as NW'. pose proof (boiler_heat _ _ _ _ EF NW) as NN. pose proof (boiler_heat _ _ _ _ EF' NW') as NN'.
  pose (ms := [(ABoiler b, heat_move b e); (ABoiler b', heat_move b' (- e))] : list quick). pose proof (H t ms 0 0 Ht) as K.
  assert (flow gas_use ms t == e / bo_efficiency_pct b + - e / bo_efficiency_pct b') as F1 by (flows). assert (flow spilled ms t == 0) as F2 by flows.
  rewrite F1, F2 in K. enough (- gap <= 0 * import_price g c t - 0 * export_price g c t + (e / bo_efficiency_pct b + - e / bo_efficiency_pct b') * gas_price g c t + 0 * spill_penalty) as J.
  { assert ((e / bo_efficiency_pct b + - e / bo_efficiency_pct b') * gas_price g c t == e * gas_price g c t / bo_efficiency_pct b - e * gas_price g c t / bo_efficiency_pct b') as X by (unfold Qdiv; ring). rewrite X in J. lra. }
  apply K; clear K.
  - apply (two_names assets (ABoiler b) (ABoiler b')); auto; [apply FA|congruence].
  - constructor; [|constructor; [|constructor]]; cbn [fst snd instant]; splits; auto; apply boiler_more; auto; destruct NW as ((N1 & N2) & _); destruct NW' as ((N1' & N2') & _); cbn [asset_name] in *; lra.
  - exact (still_grid _ _ _ _ _ FA t Ht).
  - flows.
  - flows.
  - flows.
Qed.

(** heat goes through the valve only if it is needed there *)
Theorem C70_valve : forall gap slv base c assets fl r g nm vn b t e, best_run gap slv base c assets [] (minimises g) fl r -> In (ASpill nm) assets -> In (AValve vn) assets -> In (ABoiler b) assets -> (t < n_intervals c)%nat -> 0 <= e ->
  0 < bo_efficiency_pct b -> e <= heat_used r (AValve vn) t -> e <= low_heat_used r (ASpill nm) t -> e <= heat_made r (ABoiler b) t -> energy (sc_freq c) (bo_min_mw b) <= heat_made r (ABoiler b) t - e ->
  e * gas_price g c t / bo_efficiency_pct b <= gap.
Proof.
  intros gap slv base c assets fl r g nm vn b t e B Is Iv Ib Ht E EF L1 L2 L3 L4. destruct (no_better_now _ _ _ _ _ _ _ _ B) as (d & FA & H).
  destruct (spill_read _ _ _ _ _ FA t Ht nm Is) as (_ & _ & _ & R4). rewrite R4 in L2. rewrite (boiler_read _ _ _ _ _ FA t Ht b Ib) in L3, L4. rewrite (valve_read _ _ _ _ _ FA t Ht vn Iv) in L1.
  pose proof (now_of _ _ _ _ _ FA t Ht _ Is Logic.I) as NS. pose proof (now_of _ _ _ _ _ FA t Ht _ Iv Logic.I) as NV. pose proof (now_of _ _ _ _ _ FA t Ht _ Ib Logic.I) as NW. cbn [now asset_name] in NS, NV.
  pose (ms := [(AValve vn, plus (more HtLoad (- e)) (more LtGen (- e))); (ASpill nm, more LtLoad (- e)); (ABoiler b, heat_move b (- e))] : list quick). pose proof (H t ms 0 0 Ht) as K.
  assert (flow gas_use ms t == - e / bo_efficiency_pct b) as F1 by flows. assert (flow spilled ms t == 0) as F2 by flows.
  rewrite F1, F2 in K. enough (- gap <= 0 * import_price g c t - 0 * export_price g c t + - e / bo_efficiency_pct b * gas_price g c t + 0 * spill_penalty) as J.
  { assert (- e / bo_efficiency_pct b * gas_price g c t == - (e * gas_price g c t / bo_efficiency_pct b)) as X by (unfold Qdiv; ring). rewrite X in J. lra. }
  apply K; clear K.
  - apply (three_names assets (AValve vn) (ASpill nm) (ABoiler b)); auto; [apply FA| | |]; discriminate.
  - constructor; [|constructor; [|constructor; [|constructor]]].
    + asset_move; splits; auto; lra.
    + asset_move; splits; auto; lra.
    + cbn [fst snd instant]. splits; auto. apply boiler_more; auto; destruct NW as ((N1 & N2) & _); cbn [asset_name] in *; lra.
  - exact (still_grid _ _ _ _ _ FA t Ht).
  - flows.
  - flows.
  - flows.
Qed.

(** a heat pump that could take over from a boiler, with waste heat at hand, would not save anything *)
Theorem C70_heat_pump_idle : forall gap slv base c assets fl r g nm h b t e v, best_run gap slv base c assets [] (minimises g) fl r -> In (ASpill nm) assets -> In (AHeatPump h) assets -> In (ABoiler b) assets -> (t < n_intervals c)%nat -> 0 <= e ->
  0 < bo_efficiency_pct b -> 1 <= hp_cop h -> elec_used r (AHeatPump h) t + e <= energy (sc_freq c) (hp_power_mw h) ->
  e * hp_cop h <= heat_made r (ABoiler b) t -> energy (sc_freq c) (bo_min_mw b) <= heat_made r (ABoiler b) t - e * hp_cop h ->
  e * (hp_cop h - 1) <= low_heat_used r (ASpill nm) t -> provides g c r t e v ->
  e * hp_cop h / bo_efficiency_pct b * gas_price g c t <= e * v + gap.
Proof.
  intros gap slv base c assets fl r g nm h b t e v B Is Ih Ib Ht E EF CP L1 L2 L3 L4 A. destruct (no_better_now _ _ _ _ _ _ _ _ B) as (d & FA & H).
  destruct (provide_grid _ _ _ _ _ FA g t e v Ht E A) as (xi & xe & G & X1 & X2).
  destruct (spill_read _ _ _ _ _ FA t Ht nm Is) as (_ & _ & _ & R4). rewrite R4 in L4. rewrite (boiler_read _ _ _ _ _ FA t Ht b Ib) in L2, L3. rewrite (hp_read _ _ _ _ _ FA t Ht h Ih) in L1.
  pose proof (now_of _ _ _ _ _ FA t Ht _ Is Logic.I) as NS. pose proof (now_of _ _ _ _ _ FA t Ht _ Ih Logic.I) as NV. pose proof (now_of _ _ _ _ _ FA t Ht _ Ib Logic.I) as NW. cbn [now asset_name] in NS, NV. unfold between in NV.
  assert (0 <= e * hp_cop h) as P1 by (apply Qmult_le_0_compat; lra). assert (0 <= e * (hp_cop h - 1)) as P2 by (apply Qmult_le_0_compat; lra).
  pose (ms := [(AHeatPump h, plus (more ElecLoad e) (plus (more HtGen (e * hp_cop h)) (more LtLoad (e * (hp_cop h - 1))))); (ASpill nm, more LtLoad (- (e * (hp_cop h - 1)))); (ABoiler b, heat_move b (- (e * hp_cop h)))] : list quick).
  pose proof (H t ms xi xe Ht) as K. rewrite X2 in K.
  assert (flow gas_use ms t == - (e * hp_cop h) / bo_efficiency_pct b) as F1 by flows. assert (flow spilled ms t == 0) as F2 by flows.
  rewrite F1, F2 in K. enough (- gap <= e * v + - (e * hp_cop h) / bo_efficiency_pct b * gas_price g c t + 0 * spill_penalty) as J.
  { assert (- (e * hp_cop h) / bo_efficiency_pct b * gas_price g c t == - (e * hp_cop h / bo_efficiency_pct b * gas_price g c t)) as X by (unfold Qdiv; ring). rewrite X in J. lra. }
  apply K; clear K.
  - apply (three_names assets (AHeatPump h) (ASpill nm) (ABoiler b)); auto; [apply FA| | |]; discriminate.
  - constructor; [|constructor; [|constructor; [|constructor]]].
    + asset_move; splits; auto; lra.
    + asset_move; splits; auto; lra.
    + cbn [fst snd instant]. splits; auto. apply boiler_more; auto; destruct NW as ((N1 & N2) & _); cbn [asset_name] in *; lra.
  - exact G.
  - flows.
  - flows.
  - flows.
Qed.
(** a heat pump that runs although a boiler could take over saves what its electricity costs *)
Theorem C70_heat_pump_running : forall gap slv base c assets fl r g nm h b t e v, best_run gap slv base c assets [] (minimises g) fl r -> In (ASpill nm) assets -> In (AHeatPump h) assets -> In (ABoiler b) assets -> (t < n_intervals c)%nat -> 0 <= e ->
  0 < bo_efficiency_pct b -> 1 <= hp_cop h -> e <= elec_used r (AHeatPump h) t ->
  heat_made r (ABoiler b) t + e * hp_cop h <= energy (sc_freq c) (bo_max_mw b) -> absorbs g c r t e v ->
  e * v <= e * hp_cop h / bo_efficiency_pct b * gas_price g c t + gap.
Proof.
  intros gap slv base c assets fl r g nm h b t e v B Is Ih Ib Ht E EF CP L1 L2 A. destruct (no_better_now _ _ _ _ _ _ _ _ B) as (d & FA & H).
  destruct (absorb_grid _ _ _ _ _ FA g t e v Ht E A) as (xi & xe & G & X1 & X2).
  rewrite (boiler_read _ _ _ _ _ FA t Ht b Ib) in L2. rewrite (hp_read _ _ _ _ _ FA t Ht h Ih) in L1.
  pose proof (now_of _ _ _ _ _ FA t Ht _ Is Logic.I) as NS. pose proof (now_of _ _ _ _ _ FA t Ht _ Ih Logic.I) as NV. pose proof (now_of _ _ _ _ _ FA t Ht _ Ib Logic.I) as NW. pose proof (boiler_heat _ _ _ _ EF NW) as NN. cbn [now asset_name] in NS, NV, NN. unfold between in NV.
  assert (0 <= e * hp_cop h) as P1 by (apply Qmult_le_0_compat; lra). assert (0 <= e * (hp_cop h - 1)) as P2 by (apply Qmult_le_0_compat; lra).
  destruct NV as (V1 & V2 & V3 & V4 & V5).
  assert (0 <= (d_qty d (hp_name h) ElecLoad t - e) * (hp_cop h - 1)) as P3 by (apply Qmult_le_0_compat; lra). assert (0 <= (d_qty d (hp_name h) ElecLoad t - e) * hp_cop h) as P4 by (apply Qmult_le_0_compat; lra).
  pose (ms := [(AHeatPump h, plus (more ElecLoad (- e)) (plus (more HtGen (- (e * hp_cop h))) (more LtLoad (- (e * (hp_cop h - 1)))))); (ASpill nm, more LtLoad (e * (hp_cop h - 1))); (ABoiler b, heat_move b (e * hp_cop h))] : list quick).
  pose proof (H t ms xi xe Ht) as K. rewrite X2 in K.
  assert (flow gas_use ms t == e * hp_cop h / bo_efficiency_pct b) as F1 by flows. assert (flow spilled ms t == 0) as F2 by flows.
  rewrite F1, F2 in K. enough (- gap <= - (e * v) + e * hp_cop h / bo_efficiency_pct b * gas_price g c t + 0 * spill_penalty) by lra.
  apply K; clear K.
  - apply (three_names assets (AHeatPump h) (ASpill nm) (ABoiler b)); auto; [apply FA| | |]; discriminate.
  - constructor; [|constructor; [|constructor; [|constructor]]].
    + asset_move; splits; auto; lra.
    + asset_move; splits; auto; lra.
    + cbn [fst snd instant]. splits; auto. apply boiler_more; auto; destruct NW as ((N1 & N2) & _); cbn [asset_name] in *; lra.
  - exact G.
  - flows.
  - flows.
  - flows.
Qed.

(** A CHP with [e] MWh of electricity to spare, whose heat could replace a boiler's, would not earn its gas.
    [e / efficiency] is the gas it would burn. *)
Definition chp_move (h : chp_cfg) (e : Q) : qty -> Q :=
  let gas := e / ch_electric_efficiency_pct h in
  plus (more ElecGen e) (plus (more Gas gas) (plus (more HtGen (gas * ch_ht_efficiency_pct h)) (more LtGen (gas * ch_lt_efficiency_pct h)))).
Lemma chp_more h f t q e : 0 < ch_electric_efficiency_pct h -> 0 <= ch_ht_efficiency_pct h -> 0 <= ch_lt_efficiency_pct h -> now (ACHP h) f t q ->
  0 <= q ElecGen + e -> q ElecGen + e <= energy f (ch_max_mw h) -> q ElecGen + e == 0 \/ energy f (ch_min_mw h) <= q ElecGen + e -> now (ACHP h) f t (fun x => q x + chp_move h e x).
Proof.
  intros P P1 P2 (N1 & N2 & N3 & N4 & N5 & N6) L1 L2 L3. specialize (N3 P). cbn [now]. unfold between, chp_move, plus, more. set (ee := ch_electric_efficiency_pct h) in *.
  assert (q Gas + (0 + (e / ee + (0 + 0))) == (q ElecGen + e) / ee) as EQ by (rewrite N3; unfold Qdiv; ring). assert (0 <= (q ElecGen + e) / ee) as GE by (apply Qle_shift_div_l; auto; lra).
  pose proof (Qmult_le_0_compat _ _ GE P1) as H1. pose proof (Qmult_le_0_compat _ _ GE P2) as H2.
  assert ((q ElecGen + e) / ee * ch_ht_efficiency_pct h == q HtGen + e / ee * ch_ht_efficiency_pct h) as E1 by (rewrite N4, N3; unfold Qdiv; ring).
  assert ((q ElecGen + e) / ee * ch_lt_efficiency_pct h == q LtGen + e / ee * ch_lt_efficiency_pct h) as E2 by (rewrite N5, N3; unfold Qdiv; ring).
  assert ((q ElecGen + e) / ee == (q ElecGen + (e + (0 + (0 + 0)))) / ee) as E3 by (unfold Qdiv; ring).
  splits; try lra; try (intros _; rewrite <- E3; exact EQ); try (rewrite EQ, E1; ring); rewrite EQ, E2; ring.
Qed.
Theorem C70_chp_idle : forall gap slv base c assets fl r g nm h b t e v, best_run gap slv base c assets [] (minimises g) fl r -> In (ASpill nm) assets -> In (ACHP h) assets -> In (ABoiler b) assets -> (t < n_intervals c)%nat -> 0 <= e ->
  0 < bo_efficiency_pct b -> 0 < ch_electric_efficiency_pct h -> 0 <= ch_ht_efficiency_pct h -> 0 <= ch_lt_efficiency_pct h ->
  let gas := e / ch_electric_efficiency_pct h in let heat := gas * ch_ht_efficiency_pct h in
  energy (sc_freq c) (ch_min_mw h) <= elec_made r (ACHP h) t + e -> elec_made r (ACHP h) t + e <= energy (sc_freq c) (ch_max_mw h) ->
  heat <= heat_made r (ABoiler b) t -> energy (sc_freq c) (bo_min_mw b) <= heat_made r (ABoiler b) t - heat -> absorbs g c r t e v ->
  e * v + heat / bo_efficiency_pct b * gas_price g c t <= gas * gas_price g c t + gap.
Proof.
  intros gap slv base c assets fl r g nm h b t e v B Is Ih Ib Ht E EF EE EH EL gas heat L1 L2 L3 L4 A. destruct (no_better_now _ _ _ _ _ _ _ _ B) as (d & FA & H).
  destruct (absorb_grid _ _ _ _ _ FA g t e v Ht E A) as (xi & xe & G & X1 & X2).
  rewrite (boiler_read _ _ _ _ _ FA t Ht b Ib) in L3, L4. rewrite (chp_read _ _ _ _ _ FA t Ht h Ih) in L1, L2.
  pose proof (now_of _ _ _ _ _ FA t Ht _ Is Logic.I) as NS. pose proof (now_of _ _ _ _ _ FA t Ht _ Ih Logic.I) as NV. pose proof (now_of _ _ _ _ _ FA t Ht _ Ib Logic.I) as NW. cbn [now asset_name] in NS.
  assert (0 <= gas) as P1 by (apply Qle_shift_div_l; auto; lra). assert (0 <= heat) as P2 by (now apply Qmult_le_0_compat). pose proof (Qmult_le_0_compat _ _ P1 EL) as P3.
  pose (ms := [(ACHP h, chp_move h e); (ASpill nm, more LtLoad (gas * ch_lt_efficiency_pct h)); (ABoiler b, heat_move b (- heat))] : list quick).
  pose proof (H t ms xi xe Ht) as K. rewrite X2 in K.
  assert (flow gas_use ms t == gas + - heat / bo_efficiency_pct b) as F1 by (subst ms; unfold chp_move; fold gas; fold heat; flows). assert (flow spilled ms t == 0) as F2 by flows.
  rewrite F1, F2 in K. enough (- gap <= - (e * v) + (gas + - heat / bo_efficiency_pct b) * gas_price g c t + 0 * spill_penalty) as J.
  { assert ((gas + - heat / bo_efficiency_pct b) * gas_price g c t == gas * gas_price g c t - heat / bo_efficiency_pct b * gas_price g c t) as X by (unfold Qdiv; ring). rewrite X in J. lra. }
  apply K; clear K.
  - apply (three_names assets (ACHP h) (ASpill nm) (ABoiler b)); auto; [apply FA| | |]; discriminate.
  - constructor; [|constructor; [|constructor; [|constructor]]].
    + cbn [fst snd instant]. splits; auto. apply chp_more; auto; destruct NV as ((N1 & N2) & _); cbn [asset_name] in *; lra.
    + asset_move; splits; auto; lra.
    + cbn [fst snd instant]. splits; auto. apply boiler_more; auto; destruct NW as ((N1 & N2) & _); cbn [asset_name] in *; lra.
  - exact G.
  - subst ms. unfold chp_move. flows.
  - subst ms. unfold chp_move. fold gas; fold heat. flows.
  - subst ms. unfold chp_move. fold gas. flows.
Qed.
Theorem C70_chp_running : forall gap slv base c assets fl r g nm h b t e v, best_run gap slv base c assets [] (minimises g) fl r -> In (ASpill nm) assets -> In (ACHP h) assets -> In (ABoiler b) assets -> (t < n_intervals c)%nat -> 0 <= e ->
  0 < bo_efficiency_pct b -> 0 < ch_electric_efficiency_pct h -> 0 <= ch_ht_efficiency_pct h -> 0 <= ch_lt_efficiency_pct h ->
  let gas := e / ch_electric_efficiency_pct h in let heat := gas * ch_ht_efficiency_pct h in
  (elec_made r (ACHP h) t == e \/ e <= elec_made r (ACHP h) t /\ energy (sc_freq c) (ch_min_mw h) <= elec_made r (ACHP h) t - e) ->
  heat_made r (ABoiler b) t + heat <= energy (sc_freq c) (bo_max_mw b) -> gas * ch_lt_efficiency_pct h <= low_heat_used r (ASpill nm) t -> provides g c r t e v ->
  gas * gas_price g c t <= e * v + heat / bo_efficiency_pct b * gas_price g c t + gap.
Proof.
  intros gap slv base c assets fl r g nm h b t e v B Is Ih Ib Ht E EF EE EH EL gas heat L1 L2 L3 A. destruct (no_better_now _ _ _ _ _ _ _ _ B) as (d & FA & H).
  destruct (provide_grid _ _ _ _ _ FA g t e v Ht E A) as (xi & xe & G & X1 & X2).
  destruct (spill_read _ _ _ _ _ FA t Ht nm Is) as (_ & _ & _ & R4). rewrite R4 in L3. rewrite (boiler_read _ _ _ _ _ FA t Ht b Ib) in L2. rewrite (chp_read _ _ _ _ _ FA t Ht h Ih) in L1.
  pose proof (now_of _ _ _ _ _ FA t Ht _ Is Logic.I) as NS. pose proof (now_of _ _ _ _ _ FA t Ht _ Ih Logic.I) as NV. pose proof (now_of _ _ _ _ _ FA t Ht _ Ib Logic.I) as NW. pose proof (boiler_heat _ _ _ _ EF NW) as NN. cbn [now asset_name] in NS, NN.
  assert (0 <= gas) as P1 by (apply Qle_shift_div_l; auto; lra). assert (0 <= heat) as P2 by (now apply Qmult_le_0_compat). pose proof (Qmult_le_0_compat _ _ P1 EL) as P3.
  assert (- e / ch_electric_efficiency_pct h == - gas) as NG by (unfold gas, Qdiv; ring).
  pose (ms := [(ACHP h, chp_move h (- e)); (ASpill nm, more LtLoad (- (gas * ch_lt_efficiency_pct h))); (ABoiler b, heat_move b heat)] : list quick).
  pose proof (H t ms xi xe Ht) as K. rewrite X2 in K.
  assert (flow gas_use ms t == - gas + heat / bo_efficiency_pct b) as F1 by (subst ms; unfold chp_move; flows; rewrite ?NG; ring). assert (flow spilled ms t == 0) as F2 by flows.
  rewrite F1, F2 in K. enough (- gap <= e * v + (- gas + heat / bo_efficiency_pct b) * gas_price g c t + 0 * spill_penalty) as J by lra.
  apply K; clear K.
  - apply (three_names assets (ACHP h) (ASpill nm) (ABoiler b)); auto; [apply FA| | |]; discriminate.
  - constructor; [|constructor; [|constructor; [|constructor]]].
    + cbn [fst snd instant]. splits; auto. apply chp_more; auto; destruct NV as ((N1 & N2) & _); cbn [asset_name] in *; lra.
    + asset_move; splits; auto; lra.
    + cbn [fst snd instant]. splits; auto. apply boiler_more; auto; destruct NW as ((N1 & N2) & _); cbn [asset_name] in *; lra.
  - exact G.
  - subst ms. unfold chp_move. flows.
  - subst ms. unfold chp_move. unfold heat, gas, Qdiv. flows.
  - subst ms. unfold chp_move. unfold gas, Qdiv. flows.
Qed.

(** ** With a solver that ran to the end *)
Definition min_pos (x y : Q) : Q := if Qlt_le_dec x y then x else y.
Lemma min_pos_spec x y : 0 < x -> 0 < y -> 0 < min_pos x y /\ min_pos x y <= x /\ min_pos x y <= y.
Proof. unfold min_pos. destruct (Qlt_le_dec x y); lra. Qed.
Lemma positive_product e v : 0 < e -> e * v <= 0 -> v <= 0.
Proof. intros E H. destruct (Qlt_le_dec 0 v) as [L|L]; auto. pose proof (Qmult_lt_0_compat e v E L). lra. Qed.

(** Renewable electricity is thrown away, while electricity has a price, only when no more can be exported. *)
Theorem C69_no_needless_curtailment : forall slv base c assets fl r g a t, best_run 0 slv base c assets [] (minimises g) fl r -> In (ARenewable a) assets -> (t < n_intervals c)%nat ->
  0 < import_price g c t -> 0 < export_price g c t -> elec_made r (ARenewable a) t < data (rg_available_mwh a) t ->
  r_import r t == 0 /\ r_export r t == energy (sc_freq c) (sc_export_limit_mw c).
Proof.
  intros slv base c assets fl r g a t B Ia Ht P1 P2 L. destruct (C10_grid_limits _ _ _ _ _ _ _ _ (proj1 B) t Ht) as ((I0 & I1) & (E0 & E1) & _).
  assert (r_import r t == 0) as Z.
  { destruct (Qlt_le_dec 0 (r_import r t)) as [L0|L0]; [|lra]. destruct (min_pos_spec (r_import r t) (data (rg_available_mwh a) t - elec_made r (ARenewable a) t)) as (M1 & M2 & M3); try lra.
    set (e := min_pos _ _) in *. assert (import_price g c t <= 0); [|lra]. apply (positive_product e); auto. apply (C69_curtailment 0 _ _ _ _ _ _ g a t e _ B Ia Ht); try lra. left. split; [lra|reflexivity]. }
  split; [exact Z|]. destruct (Qlt_le_dec (r_export r t) (energy (sc_freq c) (sc_export_limit_mw c))) as [L0|L0]; [|lra].
  destruct (min_pos_spec (energy (sc_freq c) (sc_export_limit_mw c) - r_export r t) (data (rg_available_mwh a) t - elec_made r (ARenewable a) t)) as (M1 & M2 & M3); try lra.
  set (e := min_pos _ _) in *. assert (export_price g c t <= 0); [|lra]. apply (positive_product e); auto. apply (C69_curtailment 0 _ _ _ _ _ _ g a t e _ B Ia Ht); try lra. right. splits; [exact Z|lra|reflexivity].
Qed.
(** Electricity comes from nowhere only when no more can be imported; it vanishes only when no more can be exported. *)
Theorem C69_no_needless_spill : forall slv base c assets fl r g nm t, best_run 0 slv base c assets [] (minimises g) fl r -> In (ASpill nm) assets -> (t < n_intervals c)%nat ->
  import_price g c t < spill_penalty -> export_price g c t < spill_penalty -> - spill_penalty < import_price g c t -> - spill_penalty < export_price g c t ->
  (0 < elec_made r (ASpill nm) t -> r_export r t == 0 /\ r_import r t == energy (sc_freq c) (sc_import_limit_mw c)) /\
  (0 < elec_used r (ASpill nm) t -> r_import r t == 0 /\ r_export r t == energy (sc_freq c) (sc_export_limit_mw c)).
Proof.
  intros slv base c assets fl r g nm t B Ia Ht P1 P2 P3 P4. destruct (C10_grid_limits _ _ _ _ _ _ _ _ (proj1 B) t Ht) as ((I0 & I1) & (E0 & E1) & _). split; intros L.
  - assert (r_export r t == 0) as Z.
    { destruct (Qlt_le_dec 0 (r_export r t)) as [L0|L0]; [|lra]. destruct (min_pos_spec (r_export r t) (elec_made r (ASpill nm) t)) as (M1 & M2 & M3); try lra.
      set (e := min_pos _ _) in *. assert (spill_penalty - export_price g c t <= 0); [|lra]. apply (positive_product e); auto. apply (C69_spilled_generation 0 _ _ _ _ _ _ g nm t e _ B Ia Ht); try lra. left. split; [lra|reflexivity]. }
    split; [exact Z|]. destruct (Qlt_le_dec (r_import r t) (energy (sc_freq c) (sc_import_limit_mw c))) as [L0|L0]; [|lra].
    destruct (min_pos_spec (energy (sc_freq c) (sc_import_limit_mw c) - r_import r t) (elec_made r (ASpill nm) t)) as (M1 & M2 & M3); try lra.
    set (e := min_pos _ _) in *. assert (spill_penalty - import_price g c t <= 0); [|lra]. apply (positive_product e); auto. apply (C69_spilled_generation 0 _ _ _ _ _ _ g nm t e _ B Ia Ht); try lra. right. splits; [exact Z|lra|reflexivity].
  - assert (r_import r t == 0) as Z.
    { destruct (Qlt_le_dec 0 (r_import r t)) as [L0|L0]; [|lra]. destruct (min_pos_spec (r_import r t) (elec_used r (ASpill nm) t)) as (M1 & M2 & M3); try lra.
      set (e := min_pos _ _) in *. assert (spill_penalty + import_price g c t <= 0); [|lra]. apply (positive_product e); auto. apply (C69_spilled_load 0 _ _ _ _ _ _ g nm t e _ B Ia Ht); try lra. left. split; [lra|reflexivity]. }
    split; [exact Z|]. destruct (Qlt_le_dec (r_export r t) (energy (sc_freq c) (sc_export_limit_mw c))) as [L0|L0]; [|lra].
    destruct (min_pos_spec (energy (sc_freq c) (sc_export_limit_mw c) - r_export r t) (elec_used r (ASpill nm) t)) as (M1 & M2 & M3); try lra.
    set (e := min_pos _ _) in *. assert (spill_penalty + export_price g c t <= 0); [|lra]. apply (positive_product e); auto. apply (C69_spilled_load 0 _ _ _ _ _ _ g nm t e _ B Ia Ht); try lra. right. splits; [exact Z|lra|reflexivity].
Qed.
(** Two boilers: the less efficient one runs above its minimum only when the more efficient one is at its maximum. *)
Theorem C70_efficient_boiler_first : forall slv base c assets fl r g b b' t, best_run 0 slv base c assets [] (minimises g) fl r -> In (ABoiler b) assets -> In (ABoiler b') assets -> (t < n_intervals c)%nat ->
  0 < gas_price g c t -> 0 < bo_efficiency_pct b' -> bo_efficiency_pct b' < bo_efficiency_pct b -> 0 <= energy (sc_freq c) (bo_min_mw b') ->
  energy (sc_freq c) (bo_min_mw b') < heat_made r (ABoiler b') t -> heat_made r (ABoiler b) t == energy (sc_freq c) (bo_max_mw b).
Proof.
  intros slv base c assets fl r g b b' t B Ib Ib' Ht P EF L M0 L1. destruct (C24_boiler _ _ _ _ _ _ _ _ _ (proj1 B) Ib t Ht) as (_ & BB & _).
  destruct (Qlt_le_dec (heat_made r (ABoiler b) t) (energy (sc_freq c) (bo_max_mw b))) as [L0|L0]; [|unfold heat_made in *; cbn [asset_name] in *; unfold between in BB; lra].
  destruct (min_pos_spec (energy (sc_freq c) (bo_max_mw b) - heat_made r (ABoiler b) t) (heat_made r (ABoiler b') t - energy (sc_freq c) (bo_min_mw b'))) as (M1 & M2 & M3); try lra. set (e := min_pos _ _) in *.
  pose proof (C70_boiler_merit_order 0 _ _ _ _ _ _ g b b' t e B Ib Ib' ltac:(intros ->; lra) Ht ltac:(lra) ltac:(lra) EF ltac:(lra) ltac:(lra) ltac:(lra)) as K.
  pose proof (Qmult_lt_0_compat _ _ M1 P) as X. set (x := e * gas_price g c t) in *. exfalso.
  assert (x / bo_efficiency_pct b < x / bo_efficiency_pct b') as LT; [|lra].
  apply Qlt_shift_div_l; auto. assert (x / bo_efficiency_pct b * bo_efficiency_pct b' == x * (bo_efficiency_pct b' / bo_efficiency_pct b)) as -> by (unfold Qdiv; ring).
  assert (bo_efficiency_pct b' / bo_efficiency_pct b < 1) as Y by (apply Qlt_shift_div_r; lra). 
  pose proof (Qmult_lt_0_compat x (1 - bo_efficiency_pct b' / bo_efficiency_pct b) X ltac:(lra)). lra.
Qed.
