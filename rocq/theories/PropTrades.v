(** * PropTrades: a battery's trades pay, and no paying trade is left *)
From Coq Require Import Qminmax.
From Verif Require Import Base Pulp Params Optimizer Types Pipeline Constraints Objectives Extract Spec SpecReport SpecRun SpecCost SpecTerms Emit Prim Rows SemEv SemResults RunFacts Complete Bounded Pad Standby PropSite PropObjective SpecCompare Compare PropCompare PropHorizon PropEnergy Move SpecMoves PropMoves.
Open Scope Q_scope.
Open Scope string_scope.

Definition step (b : bool) : Q := if b then 1 else 0.
(** [e] MWh more charged in interval tc, what is left of them more discharged in interval td *)
Definition trade (b : battery_cfg) (tc td : nat) (e : Q) (q : qty) (t : nat) : Q :=
  match q with
  | Charge => once tc e t
  | Discharge => once td (b_efficiency_pct b * e) t
  | Loss => once tc (e * (1 - b_efficiency_pct b)) t
  | Soc0 => b_efficiency_pct b * e * (step (tc <? t)%nat - step (td <? t)%nat)
  | Soc1 => b_efficiency_pct b * e * (step (tc <=? t)%nat - step (td <=? t)%nat)
  | _ => 0
  end.
Record trade_ok (b : battery_cfg) (f : freq) (n : nat) (tc td : nat) (e : Q) (q : qty -> nat -> Q) : Prop := mkTradeOk {
  ok_tc : (tc < n)%nat; ok_td : (td < n)%nat; ok_ne : tc <> td;
  ok_eff : between 0 (b_efficiency_pct b) 1;
  ok_charge : between 0 (q Charge tc + e) (energy f (b_charge_power_mw b)) /\ q Charge tc + e <= b_capacity_mwh b /\ (q Charge tc + e == 0 \/ q Discharge tc == 0);
  ok_discharge : let x := b_efficiency_pct b * e in between 0 (q Discharge td + x) (energy f (b_discharge_power_mw b)) /\ q Discharge td + x <= b_capacity_mwh b /\ (q Discharge td + x == 0 \/ q Charge td == 0);
  ok_level : forall t, (t < n)%nat -> between 0 (q Soc1 t + b_efficiency_pct b * e * (step (tc <=? t)%nat - step (td <=? t)%nat)) (b_capacity_mwh b) }.
Lemma trade_physical b f fl n d tc td e xi xe : battery_physical b f n d -> trade_ok b f n tc td e (d_qty d (b_name b)) ->
  asset_physical (ABattery b) f fl n (moved [(ABattery b, trade b tc td e)] xi xe d).
Proof.
  intros (P & P1 & P2 & P3) [L1 L2 NE [F0 F1] OC OD OL]. cbn [asset_physical]. unfold battery_physical, between in *. cbv zeta. cbn [moved d_qty].
  assert (forall q t, added [(ABattery b, trade b tc td e)] (b_name b) q t == trade b tc td e q t) as AD.
  { intros q t. unfold added. cbn [map fst snd asset_name Qsum fold_right]. rewrite String.eqb_refl. ring. }
  cbv zeta in OD. set (q := d_qty d (b_name b)) in *. set (eff := b_efficiency_pct b) in *.
  assert (forall t, (t < n)%nat -> 0 <= q Soc0 t + eff * e * (step (tc <? t)%nat - step (td <? t)%nat) /\ q Soc0 t + eff * e * (step (tc <? t)%nat - step (td <? t)%nat) <= b_capacity_mwh b) as OL0.
  { intros [|t] Ht.
    - replace (tc <? 0)%nat with false by (symmetry; apply Nat.ltb_ge; lia). replace (td <? 0)%nat with false by (symmetry; apply Nat.ltb_ge; lia). destruct (P 0%nat Ht) as (_ & _ & _ & _ & _ & _ & _ & [S0 S1] & _).
      unfold step. assert (eff * e * (0 - 0) == 0) as -> by ring. split; lra.
    - change (tc <? Datatypes.S t)%nat with (tc <=? t)%nat. change (td <? Datatypes.S t)%nat with (td <=? t)%nat. rewrite (P1 t Ht). apply OL. lia. }
  splits.
  - intros t Ht. specialize (P t Ht). specialize (OL t Ht). specialize (OL0 t Ht). rewrite !AD. unfold trade. fold eff.
    destruct P as ([A1 A2] & [A3 A4] & A5 & A6 & A7 & A8 & A9 & A10 & A11 & A12).
    assert (eff * e * (step (tc <=? t)%nat - step (td <=? t)%nat) == eff * e * (step (tc <? t)%nat - step (td <? t)%nat) + once tc e t - once td (eff * e) t - once tc (e * (1 - eff)) t) as ST.
    { unfold once, step. destruct (Nat.eqb_spec t tc), (Nat.eqb_spec t td), (Nat.leb_spec tc t), (Nat.leb_spec td t), (Nat.ltb_spec tc t), (Nat.ltb_spec td t); try lia; ring. }
    assert ((0 <= q Charge t + once tc e t /\ q Charge t + once tc e t <= energy f (b_charge_power_mw b)) /\ (0 <= q Discharge t + once td (eff * e) t /\ q Discharge t + once td (eff * e) t <= energy f (b_discharge_power_mw b)) /\
      q Charge t + once tc e t <= b_capacity_mwh b /\ q Discharge t + once td (eff * e) t <= b_capacity_mwh b /\ (q Charge t + once tc e t == 0 \/ q Discharge t + once td (eff * e) t == 0)) as (B1 & B2 & B3 & B4 & B5).
    { unfold once in *. destruct (Nat.eqb_spec t tc) as [E1|N1], (Nat.eqb_spec t td) as [E2|N2]; [congruence|subst tc|subst td|]; splits; lra. }
    assert (q Loss t + once tc (e * (1 - eff)) t == (q Charge t + once tc e t) * (1 - eff)) as EL.
    { rewrite A8. unfold once. destruct (t =? tc)%nat; ring. }
    splits; auto; try apply B1; try apply B2; try apply OL; try apply OL0.
    + apply (Qle_trans _ ((q Charge t + once tc e t) * (1 - eff))); [apply Qmult_le_0_compat; [apply B1|lra]|]. apply Qle_lteq. right. symmetry. exact EL.
    + rewrite A12, ST. ring.
  - intros t Ht. rewrite !AD. unfold trade. rewrite (P1 t Ht). change (tc <? Datatypes.S t)%nat with (tc <=? t)%nat. change (td <? Datatypes.S t)%nat with (td <=? t)%nat. reflexivity.
  - rewrite !AD. unfold trade. replace (tc <? 0)%nat with false by (symmetry; apply Nat.ltb_ge; lia). replace (td <? 0)%nat with false by (symmetry; apply Nat.ltb_ge; lia). rewrite P2. unfold step. ring.
  - rewrite !AD. unfold trade. replace (tc <=? n - 1)%nat with true by (symmetry; apply Nat.leb_le; lia). replace (td <=? n - 1)%nat with true by (symmetry; apply Nat.leb_le; lia). rewrite P3. unfold step. ring.
Qed.

Lemma no_better_trade gap slv base c assets fl r g b : best_run gap slv base c assets [] (minimises g) fl r -> In (ABattery b) assets ->
  exists d, facts (r_results r) c assets fl d /\ forall tc td e xi xe yi ye, trade_ok b (sc_freq c) (n_intervals c) tc td e (d_qty d (b_name b)) ->
    grid_ok c (d_import d tc + xi) (d_export d tc + xe) -> xi - xe == e -> grid_ok c (d_import d td + yi) (d_export d td + ye) -> yi - ye == - (b_efficiency_pct b * e) ->
    - gap <= (xi * import_price g c tc - xe * export_price g c tc) + (yi * import_price g c td - ye * export_price g c td).
Proof.
  intros B Ib. destruct (no_better _ _ _ _ _ _ _ _ B) as (d & FA & H). exists d. split; [exact FA|]. intros tc td e xi xe yi ye OK G1 E1 G2 E2.
  pose proof (ok_tc _ _ _ _ _ _ _ OK) as L1. pose proof (ok_td _ _ _ _ _ _ _ OK) as L2. pose proof (ok_ne _ _ _ _ _ _ _ OK) as NE.
  destruct (fa_physical _ _ _ _ _ FA) as [PH PA].
  refine (Qle_trans _ _ _ (H [(ABattery b, trade b tc td e)] (fun t => once tc xi t + once td yi t) (fun t => once tc xe t + once td ye t) _ _ _) _).
  - constructor; [exact Ib|constructor].
  - split; intros t Ht.
    + unfold grid_limits. cbn [moved d_import d_export]. destruct (PH t Ht) as ((Q1 & Q2 & Q3) & _). unfold grid_ok, once, between in *.
      destruct (Nat.eqb_spec t tc) as [->|N1]; [destruct (Nat.eqb_spec tc td) as [->|_]; [congruence|]; splits; lra|]. destruct (Nat.eqb_spec t td) as [->|N2]; splits; lra.
    + unfold change. cbn [map fst snd elec_gen elec_load charge discharge only d_qty Qsum fold_right trade]. unfold once. destruct (t =? tc)%nat, (t =? td)%nat; lra.
    + reflexivity.
    + reflexivity.
  - constructor; [|constructor]. apply trade_physical; [exact (PA _ Ib)|exact OK].
  - apply Qle_lteq. right. unfold over_horizon. rewrite <- (once_sum (n_intervals c) tc (xi * import_price g c tc - xe * export_price g c tc) L1), <- (once_sum (n_intervals c) td (yi * import_price g c td - ye * export_price g c td) L2).
    rewrite <- Qsum_map_plus. apply Qsum_map_ext. intros t _. unfold move_cost, change. cbn [map fst snd gas_use spilled Qsum fold_right]. unfold once.
    destruct (Nat.eqb_spec t tc) as [T1|N1], (Nat.eqb_spec t td) as [T2|N2]; try congruence; [subst tc|subst td|]; ring.
Qed.

Lemma level_steps (tc td t : nat) : tc <> td -> step (tc <=? t)%nat - step (td <=? t)%nat == (if (tc <=? t)%nat && (t <? td)%nat then 1 else if (td <=? t)%nat && (t <? tc)%nat then -1 else 0).
Proof. intros NE. unfold step. destruct (Nat.leb_spec tc t), (Nat.leb_spec td t), (Nat.ltb_spec t td), (Nat.ltb_spec t tc); try lia; reflexivity. Qed.

(** No paying trade is left: [e] more charged in interval tc, at the cost [v] each, and what the losses leave of it sold or used in interval td, worth [w] each. *)
Theorem C71_no_trade_left : forall gap slv base c assets fl r g b tc td e v w, best_run gap slv base c assets [] (minimises g) fl r -> In (ABattery b) assets ->
  (tc < n_intervals c)%nat -> (td < n_intervals c)%nat -> tc <> td -> between 0 (b_efficiency_pct b) 1 -> 0 <= e ->
  let out := b_efficiency_pct b * e in
  (* the battery has the power in both intervals *)
  discharged r b tc == 0 -> charged r b tc + e <= energy (sc_freq c) (b_charge_power_mw b) -> charged r b tc + e <= b_capacity_mwh b ->
  charged r b td == 0 -> discharged r b td + out <= energy (sc_freq c) (b_discharge_power_mw b) -> discharged r b td + out <= b_capacity_mwh b ->
  (* and the room, or the energy, between them *)
  (forall t, (tc <= t < td)%nat -> level r b t + out <= b_capacity_mwh b) -> (forall t, (td <= t < tc)%nat -> out <= level r b t) ->
  provides g c r tc e v -> absorbs g c r td out w ->
  out * w <= e * v + gap.
Proof.
  intros gap slv base c assets fl r g b tc td e v w B Ib Lc Ld NE EF E out D1 D2 D3 C1 C2 C3 R1 R2 PV AB. destruct (no_better_trade _ _ _ _ _ _ _ _ _ B Ib) as (d & FA & H).
  assert (0 <= out) as O by (apply Qmult_le_0_compat; [apply EF|exact E]).
  destruct (provide_grid _ _ _ _ _ FA g tc e v Lc E PV) as (xi & xe & G1 & X1 & X2). destruct (absorb_grid _ _ _ _ _ FA g td out w Ld O AB) as (yi & ye & G2 & Y1 & Y2).
  unfold charged, discharged, level in *. destruct (battery_rep r c assets fl d FA b tc Ib Lc) as (Rc1 & Rc2 & _). destruct (battery_rep r c assets fl d FA b td Ib Ld) as (Rd1 & Rd2 & _). rewrite Rc1 in *. rewrite Rc2 in *. rewrite Rd1 in *. rewrite Rd2 in *.
  destruct (fa_physical _ _ _ _ _ FA) as [_ PA]. specialize (PA _ Ib). destruct PA as (P & _).
  enough (- gap <= (xi * import_price g c tc - xe * export_price g c tc) + (yi * import_price g c td - ye * export_price g c td)) as J by (rewrite X2, Y2 in J; lra).
  apply (H tc td e xi xe yi ye); auto. split; auto.
  - destruct (P tc Lc) as ([A1 A2] & [A3 A4] & _). unfold between. splits; lra.
  - cbv zeta. fold out. destruct (P td Ld) as ([A1 A2] & [A3 A4] & _). unfold between. splits; lra.
  - intros t Ht. destruct (P t Ht) as (_ & _ & _ & _ & _ & _ & _ & _ & [S0 S1] & _). unfold between. rewrite (level_steps tc td t NE). fold out. destruct (battery_rep r c assets fl d FA b t Ib Ht) as (_ & _ & _ & _ & RL).
    destruct (Nat.leb_spec tc t), (Nat.ltb_spec t td); cbn [andb].
    + specialize (R1 t ltac:(lia)). rewrite RL in R1. split; lra.
    + destruct (Nat.leb_spec td t), (Nat.ltb_spec t tc); cbn [andb]; try lia; split; lra.
    + destruct (Nat.leb_spec td t), (Nat.ltb_spec t tc); cbn [andb]; try lia; split; lra.
    + destruct (Nat.leb_spec td t), (Nat.ltb_spec t tc); cbn [andb]; try lia. specialize (R2 t ltac:(lia)). rewrite RL in R2. split; lra.
Qed.

(** Every trade made pays: of [e] charged in interval tc and sent out again in interval td, saving [v] by charging less there would cost more in interval td. *)
Theorem C71_trades_pay : forall gap slv base c assets fl r g b tc td e v w, best_run gap slv base c assets [] (minimises g) fl r -> In (ABattery b) assets ->
  (tc < n_intervals c)%nat -> (td < n_intervals c)%nat -> tc <> td -> between 0 (b_efficiency_pct b) 1 -> 0 <= e ->
  let out := b_efficiency_pct b * e in
  e <= charged r b tc -> out <= discharged r b td ->
  (forall t, (tc <= t < td)%nat -> out <= level r b t) -> (forall t, (td <= t < tc)%nat -> level r b t + out <= b_capacity_mwh b) ->
  absorbs g c r tc e v -> provides g c r td out w ->
  e * v <= out * w + gap.
Proof.
  intros gap slv base c assets fl r g b tc td e v w B Ib Lc Ld NE EF E out C1 D1 R1 R2 AB PV. destruct (no_better_trade _ _ _ _ _ _ _ _ _ B Ib) as (d & FA & H).
  assert (0 <= out) as O by (apply Qmult_le_0_compat; [apply EF|exact E]).
  destruct (absorb_grid _ _ _ _ _ FA g tc e v Lc E AB) as (xi & xe & G1 & X1 & X2). destruct (provide_grid _ _ _ _ _ FA g td out w Ld O PV) as (yi & ye & G2 & Y1 & Y2).
  unfold charged, discharged, level in *. destruct (battery_rep r c assets fl d FA b tc Ib Lc) as (Rc1 & Rc2 & _). destruct (battery_rep r c assets fl d FA b td Ib Ld) as (Rd1 & Rd2 & _). rewrite Rc1 in *. rewrite Rd2 in *.
  destruct (fa_physical _ _ _ _ _ FA) as [_ PA]. specialize (PA _ Ib). destruct PA as (P & _).
  enough (- gap <= (xi * import_price g c tc - xe * export_price g c tc) + (yi * import_price g c td - ye * export_price g c td)) as J by (rewrite X2, Y2 in J; lra).
  assert (b_efficiency_pct b * - e == - out) as NO by (unfold out; ring).
  apply (H tc td (- e) xi xe yi ye); auto; [|rewrite NO; lra]. split; auto.
  - destruct (P tc Lc) as ([A1 A2] & [A3 A4] & A5 & A6 & A7 & _). unfold between. splits; try lra.
  - cbv zeta. unfold between. rewrite NO. destruct (P td Ld) as ([A1 A2] & [A3 A4] & A5 & A6 & A7 & _). splits; lra.
  - intros t Ht. destruct (P t Ht) as (_ & _ & _ & _ & _ & _ & _ & _ & [S0 S1] & _). unfold between. rewrite (level_steps tc td t NE). rewrite NO. destruct (battery_rep r c assets fl d FA b t Ib Ht) as (_ & _ & _ & _ & RL).
    destruct (Nat.leb_spec tc t), (Nat.ltb_spec t td); cbn [andb].
    + specialize (R1 t ltac:(lia)). rewrite RL in R1. split; lra.
    + destruct (Nat.leb_spec td t), (Nat.ltb_spec t tc); cbn [andb]; try lia; split; lra.
    + destruct (Nat.leb_spec td t), (Nat.ltb_spec t tc); cbn [andb]; try lia; split; lra.
    + destruct (Nat.leb_spec td t), (Nat.ltb_spec t tc); cbn [andb]; try lia. specialize (R2 t ltac:(lia)). rewrite RL in R2. split; lra.
Qed.

(** ** With a solver that ran to the end *)
Lemma range_min (p : nat -> Q) lo hi : (forall t, (lo <= t < hi)%nat -> 0 < p t) -> exists m, 0 < m /\ forall t, (lo <= t < hi)%nat -> m <= p t.
Proof.
  induction hi as [|hi IH]; intros H.
  - exists 1. split; [lra|]. intros t Ht. lia.
  - destruct IH as (m & M & B); [intros t Ht; apply H; lia|]. destruct (Nat.le_gt_cases lo hi) as [L|L].
    + destruct (min_pos_spec m (p hi) M (H hi ltac:(lia))) as (M1 & M2 & M3). exists (min_pos m (p hi)). split; auto. intros t Ht. destruct (Nat.eq_dec t hi) as [->|NE]; auto. specialize (B t ltac:(lia)). lra.
    + exists 1. split; [lra|]. intros t Ht. lia.
Qed.
(** What is bought in interval tc and used in interval td instead of a purchase there: bought at a lower price, even after the losses. *)
Theorem C71_buy_low : forall slv base c assets fl r g b tc td, best_run 0 slv base c assets [] (minimises g) fl r -> In (ABattery b) assets ->
  (tc < td < n_intervals c)%nat -> 0 < b_efficiency_pct b <= 1 ->
  0 < charged r b tc -> 0 < discharged r b td -> (forall t, (tc <= t < td)%nat -> 0 < level r b t) ->
  0 < r_import r tc -> r_import r td < energy (sc_freq c) (sc_import_limit_mw c) -> r_export r td == 0 ->
  import_price g c tc <= b_efficiency_pct b * import_price g c td.
Proof.
  intros slv base c assets fl r g b tc td B Ib L [F0 F1] C D LV I1 I2 X. destruct (range_min (level r b) tc td LV) as (m & M & MB).
  destruct (min_pos_spec (charged r b tc) (discharged r b td) C D) as (A1 & A2 & A3). set (x := min_pos _ _) in *.
  destruct (min_pos_spec m (r_import r tc) M I1) as (B1 & B2 & B3). set (y := min_pos m _) in *.
  destruct (min_pos_spec (energy (sc_freq c) (sc_import_limit_mw c) - r_import r td) x ltac:(lra) A1) as (C1 & C2 & C3). set (z := min_pos _ x) in *.
  destruct (min_pos_spec y z B1 C1) as (E1 & E2 & E3). set (e := min_pos y z) in *.
  assert (0 <= b_efficiency_pct b * e) as O by (apply Qmult_le_0_compat; lra). assert (b_efficiency_pct b * e <= e) as O1.
  { pose proof (Qmult_le_0_compat (1 - b_efficiency_pct b) e ltac:(lra) ltac:(lra)). lra. }
  pose proof (C71_trades_pay 0 _ _ _ _ _ _ g b tc td e (import_price g c tc) (import_price g c td) B Ib ltac:(lia) ltac:(lia) ltac:(lia)) as K. cbv zeta in K.
  assert (e * import_price g c tc <= b_efficiency_pct b * e * import_price g c td + 0) as J.
  { apply K; clear K; try lra.
    - unfold between. lra.
    - intros t Ht. specialize (MB t Ht). lra.
    - intros t Ht. lia.
    - left. split; [lra|reflexivity].
    - right. splits; [exact X|lra|reflexivity]. }
  assert (import_price g c tc - b_efficiency_pct b * import_price g c td <= 0); [|lra]. apply (positive_product e); auto. lra.
Qed.
