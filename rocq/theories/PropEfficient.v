(** * PropEfficient: more efficient equipment (C78) *)
From Coq Require Import Permutation Qminmax.
From Verif Require Import Base Pulp Params Optimizer Types Assets EVs Site Constraints Objectives Extract Pipeline Emit Prim Spec SpecReport SpecRun SpecCost SpecCompare Layout Rows Sem SemEv SemSite SemProg SemResults RunFacts Complete Bounded Compare PropSite PropEv PropObjective PropCompare Check SampleSite Certified Capped SampleCompare SampleMoves.
Open Scope Q_scope.
Open Scope string_scope.

(** ** Specification *)
(** the second event loses less of what is charged *)
Definition better_event (e e' : charge_event_cfg) : Prop :=
  ce_capacity_mwh e' = ce_capacity_mwh e /\ 0 < ce_efficiency_pct e /\ ce_efficiency_pct e <= ce_efficiency_pct e' /\ ce_efficiency_pct e' <= 1.
(** The second asset is the first one, or the first one with a higher efficiency: a battery, a boiler, or vehicles (whose chargers may run at any low power). *)
Definition more_efficient (f : freq) (a a' : asset) : Prop :=
  a' = a \/
  match a, a' with
  | ABattery b, ABattery b' => (exists e, b' = mkBatteryCfg (b_name b) (b_charge_power_mw b) (b_discharge_power_mw b) (b_capacity_mwh b) e (b_initial_charge_mwh b) (b_final_charge_mwh b)) /\
      0 < b_efficiency_pct b /\ b_efficiency_pct b <= b_efficiency_pct b' /\ b_efficiency_pct b' <= 1
  | ABoiler b, ABoiler b' => (exists e, b' = mkBoilerCfg (bo_name b) (bo_max_mw b) (bo_min_mw b) e) /\ 0 < bo_efficiency_pct b /\ bo_efficiency_pct b <= bo_efficiency_pct b'
  | AEVs b, AEVs b' => (exists l, b' = mkEvsCfg (ev_name b) (ev_chargers b) (ev_spill_chargers b) l (ev_events b)) /\ Forall2 better_event (ev_event_cfgs b) (ev_event_cfgs b') /\
      Forall (fun cc => energy f (cg_min_mw cc) <= 0) (ev_chargers b)
  | _, _ => False
  end.
(** what is charged from anything but the import would also fit through the export connection *)
Definition room_to_export (c : site_cfg) (assets : list asset) (r : sim_result) : Prop :=
  forall t, (t < n_intervals c)%nat -> r_export r t + total (r_charge r t) assets <= r_import r t + energy (sc_freq c) (sc_export_limit_mw c).
Definition prices_not_negative (c : site_cfg) : Prop :=
  forall t, (t < n_intervals c)%nat -> 0 <= data (id_electricity_prices (sc_idata c)) t /\ 0 <= data (id_export_electricity_prices (sc_idata c)) t /\ 0 <= data (id_gas_prices (sc_idata c)) t.
Definition intensities_not_negative (c : site_cfg) : Prop := forall t, (t < n_intervals c)%nat -> 0 <= data (id_electricity_carbon_intensities (sc_idata c)) t.

(** ** The old dispatch at the new equipment *)
Definition efficiency (a : asset) (e : nat) : Q :=
  match a with
  | ABattery b => b_efficiency_pct b
  | ABoiler b => bo_efficiency_pct b
  | AEVs b => match nth_error (ev_event_cfgs b) e with Some ec => ce_efficiency_pct ec | None => 1 end
  | _ => 1
  end.
Fixpoint effs (pairs : list (asset * asset)) (nm : string) (e : nat) : Q * Q :=
  match pairs with
  | [] => (1, 1)
  | (a, a') :: l => if string_dec (asset_name a) nm then (efficiency a e, efficiency a' e) else effs l nm e
  end.
Section Tuned.
Variables (pairs : list (asset * asset)) (d : dispatch).
Definition ratio (nm : string) (e : nat) : Q := if Qeq_bool (fst (effs pairs nm e)) (snd (effs pairs nm e)) then 1 else fst (effs pairs nm e) / snd (effs pairs nm e).
Definition gain (nm : string) (e : nat) : Q := snd (effs pairs nm e) - fst (effs pairs nm e).
(** the equipment takes in only as much as is needed for the same level *)
Definition tuned (xi xe : nat -> Q) : dispatch :=
  mkDispatch xi xe
    (fun nm q t => match q with
       | Charge => ratio nm 0 * d_qty d nm Charge t
       | Loss => d_qty d nm Loss t - (1 - ratio nm 0) * d_qty d nm Charge t
       | Gas => ratio nm 0 * d_qty d nm Gas t
       | _ => d_qty d nm q t end)
    (fun nm e k t => ratio nm e * d_ev_charge d nm e k t) (d_ev_discharge d) (fun nm e k t => d_ev_loss d nm e k t - (1 - ratio nm e) * d_ev_charge d nm e k t)
    (d_spill_charge d) (fun nm e t => d_spill_loss d nm e t - gain nm e * d_spill_charge d nm e t) (d_ev_soc0 d) (d_ev_soc1 d).
End Tuned.
Lemma effs_in l l' a a' e : NoDup (map asset_name l) -> Forall2 (fun _ _ => True) l l' -> In (a, a') (combine l l') -> effs (combine l l') (asset_name a) e = (efficiency a e, efficiency a' e).
Proof.
  intros ND F. induction F as [|x x' l l' _ F IH]; cbn [combine effs]; intros J; [destruct J|]. cbn [map] in ND. inversion ND as [|? ? N1 N2]; subst. destruct J as [J|J].
  - injection J as -> ->. destruct (string_dec _ _); [reflexivity|congruence].
  - destruct (string_dec (asset_name x) (asset_name a)) as [E|E]; [|auto]. exfalso. apply N1. rewrite E. apply in_combine_l in J. now apply in_map.
Qed.
Lemma part_le r x : 0 < r -> r <= 1 -> 0 <= x -> 0 <= r * x <= x.
Proof. intros R0 R1 X. split; [apply Qmult_le_0_compat; lra|]. assert (0 <= (1 - r) * x) by (apply Qmult_le_0_compat; lra). lra. Qed.
Lemma better_efficiency f a a' e : more_efficient f a a' -> efficiency a e == efficiency a' e \/ 0 < efficiency a e /\ efficiency a e <= efficiency a' e.
Proof.
  intros [->|ME]; [now left|]. destruct a, a'; try contradiction ME; cbn [efficiency].
  - destruct ME as (_ & A & B & _). auto.
  - destruct ME as (_ & A & B). auto.
  - destruct ME as (_ & F & _). destruct (nth_error (ev_event_cfgs c0) e) as [y|] eqn:E.
    + destruct (f2_nth _ _ _ _ _ F E) as (x & E' & _ & A & B & _). rewrite E'. auto.
    + apply nth_error_None in E. rewrite <- (f2_length _ _ _ F) in E. apply nth_error_None in E. rewrite E. now left.
Qed.

Lemma pointwise {A} (g h : A -> Q) (R : Q -> Q -> Prop) l : (forall x, R (g x) (h x)) -> Forall2 R (map g l) (map h l).
Proof. intros H. induction l; cbn [map]; constructor; auto. Qed.
Lemma fewer_nonzero l' l : Forall2 (fun x y => y == 0 -> x == 0) l' l -> at_most_one_nonzero l -> at_most_one_nonzero l'.
Proof.
  intros F H i j x y Ei Ej Nx Ny. assert (forall i x, nth_error l' i = Some x -> ~ x == 0 -> exists z, nth_error l i = Some z /\ ~ z == 0) as K.
  { clear -F. induction F as [|u v l1 l2 E F IH]; intros [|i] x Ei N; cbn in *; try discriminate; [injection Ei as <-; exists v; split; auto|eauto]. }
  destruct (K _ _ Ei Nx) as (z & Ez & Nz). destruct (K _ _ Ej Ny) as (w & Ew & Nw). eauto.
Qed.
Lemma one_spill b : asset_fine (AEVs b) -> exists cc, nth_error (ev_spill_chargers b) 0 = Some cc.
Proof. intros (L & _). apply nth_error_lt. lia. Qed.
Lemma charge_nonneg a f fl n d t : asset_fine a -> asset_physical a f fl n d -> (t < n)%nat -> 0 <= charge d t a.
Proof.
  intros FN PH Ht. destruct a as [b|b|b|b|b|b|nm|nm]; cbn [charge asset_physical] in *; try apply Qle_refl; [apply PH, Ht|].
  destruct PH as (P1 & P2 & _). cbv zeta in *. destruct (one_spill b FN) as (cc & Ec).
  assert (0 <= ev_total_charge d t b) as A.
  { apply Qsum_map_nonneg. intros e Ie. apply in_seq in Ie. destruct (nth_error_lt (ev_event_cfgs b) e) as (ec & Ee); [lia|]. apply Qsum_map_nonneg. intros k Ik. apply in_seq in Ik.
    destruct (nth_error_lt (ev_chargers b) k) as (ck & Ek); [lia|]. apply (P1 t e ec k ck Ht Ee Ek). }
  assert (0 <= ev_spill_total d t b) as B.
  { apply Qsum_map_nonneg. intros e Ie. apply in_seq in Ie. destruct (nth_error_lt (ev_event_cfgs b) e) as (ec & Ee); [lia|]. apply (P2 t e ec cc Ht Ee Ec). }
  lra.
Qed.
Section Pair.
Variables (f : freq) (fl : flags) (n : nat) (pairs : list (asset * asset)) (d : dispatch) (xi xe : nat -> Q) (a a' : asset).
Hypothesis ME : more_efficient f a a'.
Hypothesis EF : forall e, effs pairs (asset_name a) e = (efficiency a e, efficiency a' e).
Hypothesis PH : asset_physical a f fl n d.
Let d' := tuned pairs d xi xe.
Lemma ratio_spec e : 0 < ratio pairs (asset_name a) e /\ ratio pairs (asset_name a) e <= 1 /\ ratio pairs (asset_name a) e * efficiency a' e == efficiency a e /\
  gain pairs (asset_name a) e == efficiency a' e - efficiency a e.
Proof.
  unfold ratio, gain. rewrite (EF e). cbn [fst snd]. destruct (Qeq_bool (efficiency a e) (efficiency a' e)) eqn:E.
  - apply Qeq_bool_eq in E. splits; try lra.
  - assert (~ efficiency a e == efficiency a' e) as NE by (intros X; apply Qeq_bool_iff in X; congruence).
    destruct (better_efficiency _ _ _ e ME) as [X|[X Y]]; [contradiction|]. splits; [apply Qlt_shift_div_l; lra|apply Qle_shift_div_r; lra|field; lra|lra].
Qed.
Lemma ratio_same e : a' = a -> ratio pairs (asset_name a) e = 1 /\ gain pairs (asset_name a) e == 0.
Proof. intros E. unfold ratio, gain. rewrite (EF e), E. cbn [fst snd]. rewrite Qeq_bool_refl. split; [reflexivity|ring]. Qed.
Lemma same_name : asset_name a' = asset_name a.
Proof. destruct ME as [->|M]; [reflexivity|]. destruct a, a'; try contradiction M; destruct M as ((x & ->) & _); reflexivity. Qed.
Hypothesis HN : (0 < n)%nat.
Lemma tuned_same : a' = a -> forall t, same_asset d d' t a.
Proof.
  intros E t. pose proof (fun e => ratio_same e E) as RS. split.
  - intros q _. destruct (RS 0%nat) as [R _]. unfold d', tuned. cbn [d_qty]. destruct q; try reflexivity; rewrite R; ring.
  - destruct a as [b|b|b|b|b|b|nm|nm]; try exact Logic.I. cbn [asset_name] in RS. intros e He. destruct (RS e) as [R G]. unfold d', tuned.
    cbn [d_ev_charge d_ev_discharge d_ev_loss d_spill_charge d_spill_loss d_ev_soc0 d_ev_soc1]. splits; try reflexivity.
    + intros k Hk. splits; try reflexivity; rewrite R; ring.
    + rewrite G. ring.
Qed.
Lemma tuned_physical : asset_physical a' f fl n d'.
Proof.
  pose proof ratio_spec as RS. pose proof same_name as NM.
  destruct ME as [E|M]. { pose proof (asset_physical_ext a f fl n d d' (fun t _ => tuned_same E t) HN PH) as K. now rewrite E. }
  destruct a as [b|b|b|b|b|b|nm|nm], a' as [b'|b'|b'|b'|b'|b'|nm'|nm']; try contradiction M; cbn [asset_physical asset_name efficiency] in *.
  - destruct M as ((x & EB) & M1 & M2 & M3). destruct (RS 0%nat) as (R0 & R1 & R2 & _). unfold battery_physical in *. cbv zeta in *. destruct PH as (P1 & P2 & P3 & P4). rewrite NM.
    set (r := ratio pairs (b_name b) 0) in *. assert (b_charge_power_mw b' = b_charge_power_mw b /\ b_discharge_power_mw b' = b_discharge_power_mw b /\ b_capacity_mwh b' = b_capacity_mwh b /\ b_initial_charge_mwh b' = b_initial_charge_mwh b /\ b_final_charge_mwh b' = b_final_charge_mwh b) as (E1 & E2 & E3 & E4 & E5) by (rewrite EB; splits; reflexivity).
    rewrite E1, E2, E3, E4, E5. clear EB. splits; auto. intros t Ht. destruct (P1 t Ht) as (A & B & C & D & F & G & H & I & J & K). unfold d', tuned. cbn [d_qty]. fold r.
    pose proof (part_le r _ R0 R1 (proj1 A)) as PL. unfold between in *.
    assert (r * d_qty d (b_name b) Charge t == 0 \/ d_qty d (b_name b) Discharge t == 0) as F' by (destruct F as [F|F]; [left; rewrite F; ring|now right]). clear F.
    splits; try tauto; try lra.
    + rewrite G. assert (r * d_qty d (b_name b) Charge t * (1 - b_efficiency_pct b') == r * d_qty d (b_name b) Charge t - d_qty d (b_name b) Charge t * (r * b_efficiency_pct b')) as -> by ring. rewrite R2. ring.
    + rewrite G. assert (d_qty d (b_name b) Charge t * (1 - b_efficiency_pct b) - (1 - r) * d_qty d (b_name b) Charge t == r * d_qty d (b_name b) Charge t * (1 - b_efficiency_pct b')) as ->.
      { assert (r * d_qty d (b_name b) Charge t * (1 - b_efficiency_pct b') == r * d_qty d (b_name b) Charge t - d_qty d (b_name b) Charge t * (r * b_efficiency_pct b')) as -> by ring. rewrite R2. ring. }
      apply Qmult_le_0_compat; lra.
  - destruct M as ((x & EB) & M1 & M2). destruct (RS 0%nat) as (R0 & R1 & R2 & _). unfold boiler_physical in *. cbv zeta in *. rewrite NM. set (r := ratio pairs (bo_name b) 0) in *.
    assert (bo_max_mw b' = bo_max_mw b /\ bo_min_mw b' = bo_min_mw b) as (E1 & E2) by (rewrite EB; splits; reflexivity). rewrite E1, E2. clear EB. intros t Ht. destruct (PH t Ht) as (A & B & C).
    unfold d', tuned. cbn [d_qty]. fold r. splits; auto; [|apply Qmult_le_0_compat; lra]. rewrite B, <- R2. field. split; [lra|]. intros Z. rewrite Z in R0. lra.
  - destruct M as ((l & EB) & M1 & M2). unfold evs_physical in *. cbv zeta in *. rewrite NM.
    assert (ev_chargers b' = ev_chargers b /\ ev_spill_chargers b' = ev_spill_chargers b /\ ev_events b' = ev_events b) as (E1 & E2 & E3) by (rewrite EB; splits; reflexivity). rewrite E1, E2. clear EB.
    rewrite <- (f2_length _ _ _ M1). assert (forall e t, presence b' e t = presence b e t) as PR by (intros; unfold presence; now rewrite E3).
    assert (forall e t, can_charge fl b e t -> can_charge fl b' e t) as CC by (intros e t; unfold can_charge; now rewrite PR).
    destruct PH as (P1 & P2 & P3 & P4 & P5 & P6 & P7). unfold d', tuned. cbn [d_ev_charge d_ev_discharge d_ev_loss d_spill_charge d_spill_loss d_ev_soc0 d_ev_soc1].
    set (r := ratio pairs (ev_name b)) in *. set (g := gain pairs (ev_name b)) in *.
    splits.
    + intros t e ec k cc Ht Ee Ek. destruct (f2_nth _ _ _ _ _ M1 Ee) as (ec0 & Ee0 & EC & X1 & X2 & X3). destruct (P1 t e ec0 k cc Ht Ee0 Ek) as (A & B & C & D & F). specialize (RS e). rewrite Ee, Ee0 in RS. destruct RS as (R0 & R1 & R2 & _).
      pose proof (part_le (r e) _ R0 R1 A) as PL. set (ch := d_ev_charge d (ev_name b) e k t) in *.
      assert (r e * ch * (1 - ce_efficiency_pct ec) == d_ev_loss d (ev_name b) e k t - (1 - r e) * ch) as L.
      { assert (r e * ch * (1 - ce_efficiency_pct ec) == r e * ch - ch * (r e * ce_efficiency_pct ec)) as -> by ring. rewrite R2, D. ring. }
      splits; try lra.
      * destruct B as [B|[B1 B2]]; [left; rewrite B; ring|]. right. split; auto. rewrite Forall_forall in M2. specialize (M2 _ (nth_error_In _ _ Ek)). unfold between in *. lra.
      * rewrite PR. exact C.
      * rewrite <- L. apply Qmult_le_0_compat; lra.
    + intros t e ec cc Ht Ee Ek. destruct (f2_nth _ _ _ _ _ M1 Ee) as (ec0 & Ee0 & EC & X1 & X2 & X3). destruct (P2 t e ec0 cc Ht Ee0 Ek) as (A & B & C & D). specialize (RS e). rewrite Ee, Ee0 in RS. destruct RS as (_ & _ & _ & G). fold g in G.
      assert (d_spill_charge d (ev_name b) e t * (1 - ce_efficiency_pct ec) == d_spill_loss d (ev_name b) e t - g e * d_spill_charge d (ev_name b) e t) as L by (rewrite G, C; ring).
      splits; auto; [|lra|rewrite <- L; apply Qmult_le_0_compat; lra]. destruct B as [B|[B1 B2]]; auto.
    + intros t e Ht Ie. specialize (P3 t e Ht Ie). eapply fewer_nonzero; [|exact P3]. apply Forall2_app; [apply pointwise|apply pointwise]; intros k; [|auto]. intros Z. rewrite Z. ring.
    + intros t k Ht Ik. specialize (P4 t k Ht Ik). eapply fewer_nonzero; [|exact P4]. apply Forall2_app; [apply pointwise|apply pointwise]; intros e; [|auto]. intros Z. rewrite Z. ring.
    + intros t e ec Ht Ee. destruct (f2_nth _ _ _ _ _ M1 Ee) as (ec0 & Ee0 & EC & _). destruct (P5 t e ec0 Ht Ee0) as (A & B & C). rewrite EC. splits; auto. rewrite C.
      assert (Qsum (map (fun k => r e * d_ev_charge d (ev_name b) e k t) (seq 0 (List.length (ev_chargers b)))) == r e * Qsum (map (fun k => d_ev_charge d (ev_name b) e k t) (seq 0 (List.length (ev_chargers b))))) as -> by (now rewrite Qsum_map_scale).
      assert (Qsum (map (fun k => d_ev_loss d (ev_name b) e k t - (1 - r e) * d_ev_charge d (ev_name b) e k t) (seq 0 (List.length (ev_chargers b)))) ==
        Qsum (map (fun k => d_ev_loss d (ev_name b) e k t) (seq 0 (List.length (ev_chargers b)))) - (1 - r e) * Qsum (map (fun k => d_ev_charge d (ev_name b) e k t) (seq 0 (List.length (ev_chargers b))))) as -> by (now rewrite Qsum_map_minus, Qsum_map_scale).
      ring.
    + auto.
    + intros e ec Ee. destruct (f2_nth _ _ _ _ _ M1 Ee) as (ec0 & Ee0 & EC & _). rewrite EC. apply (P7 e ec0 Ee0).
Qed.
Hypothesis FN : asset_fine a.
Lemma tuned_flows t : (t < n)%nat ->
  (elec_gen d' t a' == elec_gen d t a /\ elec_load d' t a' == elec_load d t a /\ charge d' t a' <= charge d t a /\ 0 <= charge d' t a' /\ discharge d' t a' == discharge d t a) /\
  (ht_gen d' t a' == ht_gen d t a /\ ht_load d' t a' == ht_load d t a /\ lt_gen d' t a' == lt_gen d t a /\ lt_load d' t a' == lt_load d t a) /\
  gas_use d' t a' <= gas_use d t a /\ spilled d' t a' == spilled d t a.
Proof.
  intros Ht. pose proof (charge_nonneg a f fl n d t FN PH Ht) as CN.
  pose proof ratio_spec as RS. pose proof same_name as NM.
  destruct ME as [E|M]. { pose proof (same_flows d d' t a (tuned_same E t)) as (A & B & C). rewrite E. lra. }
  destruct a as [b|b|b|b|b|b|nm|nm], a' as [b'|b'|b'|b'|b'|b'|nm'|nm']; try contradiction M; cbn [asset_physical asset_name efficiency] in *;
    cbn [elec_gen elec_load charge discharge ht_gen ht_load lt_gen lt_load gas_use spilled asset_name] in *; rewrite ?NM.
  - destruct (RS 0%nat) as (R0 & R1 & _). pose proof (part_le _ _ R0 R1 CN). unfold d', tuned. cbn [d_qty]. splits; try reflexivity; lra.
  - destruct (RS 0%nat) as (R0 & R1 & _). destruct (PH t Ht) as (_ & _ & G). pose proof (part_le _ _ R0 R1 G). unfold d', tuned. cbn [d_qty]. splits; try reflexivity; lra.
  - destruct M as ((l & EB) & M1 & M2). assert (ev_chargers b' = ev_chargers b) as E1 by (rewrite EB; reflexivity). clear EB. destruct PH as (P1 & P2 & _). cbv zeta in *.
    unfold ev_total_charge, ev_total_discharge, ev_spill_total in *. rewrite NM, E1, <- (f2_length _ _ _ M1). unfold d', tuned. cbn [d_ev_charge d_ev_discharge d_spill_charge].
    assert (forall e, In e (seq 0 (List.length (ev_event_cfgs b))) -> 0 <= Qsum (map (fun k => ratio pairs (ev_name b) e * d_ev_charge d (ev_name b) e k t) (seq 0 (List.length (ev_chargers b)))) <=
      Qsum (map (fun k => d_ev_charge d (ev_name b) e k t) (seq 0 (List.length (ev_chargers b))))) as S1.
    { intros e Ie. apply in_seq in Ie. destruct (nth_error_lt (ev_event_cfgs b) e) as (ec & Ee); [lia|]. destruct (RS e) as (R0 & R1 & _).
      assert (forall k, In k (seq 0 (List.length (ev_chargers b))) -> 0 <= ratio pairs (ev_name b) e * d_ev_charge d (ev_name b) e k t <= d_ev_charge d (ev_name b) e k t) as S0.
      { intros k Ik. apply in_seq in Ik. destruct (nth_error_lt (ev_chargers b) k) as (cc & Ek); [lia|]. apply part_le; auto. apply (P1 t e ec k cc Ht Ee Ek). }
      split; [apply Qsum_map_nonneg; intros k Ik; apply (S0 k Ik)|apply Qsum_le; intros k Ik; apply (S0 k Ik)]. }
    assert (0 <= Qsum (map (fun e => d_spill_charge d (ev_name b) e t) (seq 0 (List.length (ev_event_cfgs b))))) as S2.
    { destruct (one_spill b FN) as (cc & Ec). apply Qsum_map_nonneg. intros e Ie. apply in_seq in Ie. destruct (nth_error_lt (ev_event_cfgs b) e) as (ec & Ee); [lia|]. apply (P2 t e ec cc Ht Ee Ec). }
    pose proof (Qsum_le _ _ _ (fun e Ie => proj2 (S1 e Ie))) as L1. pose proof (Qsum_map_nonneg _ _ (fun e Ie => proj1 (S1 e Ie))) as L2.
    splits; try reflexivity; lra.
Qed.
End Pair.
Section Whole.
Variables (c : site_cfg) (assets assets' : list asset) (fl : flags) (d : dispatch).
Hypothesis BT : Forall2 (more_efficient (sc_freq c)) assets assets'.
Hypothesis ND : NoDup (map asset_name assets).
Hypothesis FN : Forall asset_fine assets.
Hypothesis HN : (0 < n_intervals c)%nat.
Hypothesis PH : physical c assets fl d.
Hypothesis ROOM : forall t, (t < n_intervals c)%nat -> d_export d t + total (charge d t) assets <= d_import d t + energy (sc_freq c) (sc_export_limit_mw c).
Let pairs := combine assets assets'.
Definition saved (t : nat) : Q := total (charge d t) assets - total (charge (tuned pairs d (fun _ => 0) (fun _ => 0)) t) assets'.
Let xi (t : nat) : Q := d_import d t - Qmin (d_import d t) (saved t).
Let xe (t : nat) : Q := d_export d t + saved t - Qmin (d_import d t) (saved t).
Let d' := tuned pairs d xi xe.
Lemma pair_facts a a' : In (a, a') pairs -> more_efficient (sc_freq c) a a' /\ (forall e, effs pairs (asset_name a) e = (efficiency a e, efficiency a' e)) /\ asset_physical a (sc_freq c) fl (n_intervals c) d /\ asset_fine a.
Proof.
  intros J. splits.
  - unfold pairs in J. clear -BT J. induction BT as [|x x' l l' H F IH]; [destruct J|]. destruct J as [E|J]; [injection E as <- <-; exact H|now apply IH].
  - intros e. apply effs_in; auto. clear -BT. induction BT; constructor; auto.
  - apply PH. now apply in_combine_l in J.
  - rewrite Forall_forall in FN. apply FN. now apply in_combine_l in J.
Qed.
Lemma whole_total (g h : asset -> Q) (R : Q -> Q -> Prop) : R 0 0 -> (forall a b x y, R a b -> R x y -> R (a + x) (b + y)) -> (forall a a', In (a, a') pairs -> R (g a) (h a')) -> R (total g assets) (total h assets').
Proof.
  intros R0 RP H. unfold total, pairs in *. clear -BT R0 RP H. induction BT as [|x x' l l' M F IH]; [exact R0|]. cbn [map]. change (R (g x + Qsum (map g l)) (h x' + Qsum (map h l'))).
  apply RP; [apply H; now left|]. apply IH; auto. intros a a' J. apply H. now right.
Qed.
Lemma whole_flows t : (t < n_intervals c)%nat ->
  (total (elec_gen d' t) assets' == total (elec_gen d t) assets /\ total (elec_load d' t) assets' == total (elec_load d t) assets /\ total (charge d' t) assets' == total (charge d t) assets - saved t /\
   0 <= saved t /\ saved t <= total (charge d t) assets /\ total (discharge d' t) assets' == total (discharge d t) assets) /\
  (total (ht_gen d' t) assets' == total (ht_gen d t) assets /\ total (ht_load d' t) assets' == total (ht_load d t) assets /\ total (lt_gen d' t) assets' == total (lt_gen d t) assets /\ total (lt_load d' t) assets' == total (lt_load d t) assets) /\
  total (gas_use d' t) assets' <= total (gas_use d t) assets /\ total (spilled d' t) assets' == total (spilled d t) assets.
Proof.
  intros Ht. assert (forall a a', In (a, a') pairs -> _) as K by (intros a a' J; destruct (pair_facts a a' J) as (A & B & C & D); exact (tuned_flows (sc_freq c) fl (n_intervals c) pairs d xi xe a a' A B C HN D t Ht)).
  assert (forall g h : asset -> Q, (forall a a', In (a, a') pairs -> h a' == g a) -> total h assets' == total g assets) as EQ.
  { intros g h H. apply (whole_total g h (fun x y => y == x)); [reflexivity| |exact H]. intros a b x y -> ->. reflexivity. }
  assert (forall g h : asset -> Q, (forall a a', In (a, a') pairs -> h a' <= g a) -> total h assets' <= total g assets) as LE.
  { intros g h H. apply (whole_total g h (fun x y => y <= x)); [apply Qle_refl| |exact H]. intros a b x y A B. lra. }
  assert (forall a, charge (tuned pairs d (fun _ => 0) (fun _ => 0)) t a = charge d' t a) as CE by (intros a; destruct a; reflexivity).
  assert (total (charge (tuned pairs d (fun _ => 0) (fun _ => 0)) t) assets' = total (charge d' t) assets') as TE by (unfold total; f_equal; apply map_ext; exact CE).
  assert (0 <= total (charge d' t) assets') as NN.
  { apply (whole_total (fun _ => 0) (charge d' t) (fun _ y => 0 <= y)); [apply Qle_refl| |]. { intros a b x y A B. lra. } intros a a' J. apply (K a a' J). }
  assert (total (charge d' t) assets' <= total (charge d t) assets) as LC by (apply LE; intros a a' J; apply (K a a' J)).
  unfold saved. rewrite TE. splits; try lra; try (apply EQ; intros a a' J; apply (K a a' J)). apply LE. intros a a' J. apply (K a a' J).
Qed.
Lemma grid_facts t : (t < n_intervals c)%nat ->
  between 0 (xi t) (energy (sc_freq c) (sc_import_limit_mw c)) /\ between 0 (xe t) (energy (sc_freq c) (sc_export_limit_mw c)) /\ (xi t == 0 \/ xe t == 0) /\
  xi t <= d_import d t /\ d_export d t <= xe t /\ d_import d t - d_export d t - saved t == xi t - xe t.
Proof.
  intros Ht. destruct (proj1 PH t Ht) as ((GI & GE & GX) & _). destruct (whole_flows t Ht) as ((_ & _ & _ & S0 & S1 & _) & _). specialize (ROOM t Ht). unfold between in *.
  unfold xi, xe. destruct (Q.min_spec (d_import d t) (saved t)) as [[L E]|[L E]]; rewrite E.
  - splits; lra.
  - assert (d_export d t == 0 \/ d_import d t == 0) as [X|X] by tauto; splits; lra.
Qed.
Lemma whole_physical : physical c assets' fl d'.
Proof.
  split.
  - intros t Ht. destruct (proj1 PH t Ht) as (_ & E & H & L). destruct (whole_flows t Ht) as ((T1 & T2 & T3 & _ & _ & T4) & (T5 & T6 & T7 & T8) & _). destruct (grid_facts t Ht) as (G1 & G2 & G3 & _ & _ & GB).
    unfold grid_limits, electricity_balanced, high_temperature_balanced, low_temperature_balanced in *. rewrite T1, T2, T3, T4, T5, T6, T7, T8. change (d_import d' t) with (xi t). change (d_export d' t) with (xe t). splits; auto; lra.
  - intros a' Ia. assert (exists a, In (a, a') pairs) as (a & J).
    { unfold pairs. clear -BT Ia. induction BT as [|x x' l l' M F IH]; [destruct Ia|]. destruct Ia as [<-|Ia]; [exists x; now left|]. destruct (IH F Ia) as (a & J). exists a. now right. }
    destruct (pair_facts a a' J) as (A & B & C & _). exact (tuned_physical (sc_freq c) fl (n_intervals c) pairs d xi xe a a' A B C HN).
Qed.
Lemma whole_cost : prices_not_negative c -> dispatch_cost c assets' d' <= dispatch_cost c assets d.
Proof.
  intros P. apply Qsum_le. intros t It. apply in_seq in It. assert (t < n_intervals c)%nat as Ht by lia. destruct (P t Ht) as (P1 & P2 & P3). destruct (whole_flows t Ht) as (_ & _ & G & S). destruct (grid_facts t Ht) as (_ & _ & _ & I & X & _).
  unfold interval_cost. rewrite S. change (d_import d' t) with (xi t). change (d_export d' t) with (xe t).
  pose proof (Qmult_le_compat_r _ _ _ I P1). pose proof (Qmult_le_compat_r _ _ _ X P2). pose proof (Qmult_le_compat_r _ _ _ G P3). lra.
Qed.
Lemma whole_emissions : intensities_not_negative c -> dispatch_emissions c assets' d' <= dispatch_emissions c assets d.
Proof.
  intros P. apply Qsum_le. intros t It. apply in_seq in It. assert (t < n_intervals c)%nat as Ht by lia. specialize (P t Ht). destruct (whole_flows t Ht) as ((_ & _ & _ & S0 & _) & _ & G & S). destruct (grid_facts t Ht) as (_ & _ & _ & _ & _ & B).
  unfold interval_emissions. rewrite S. change (d_import d' t) with (xi t). change (d_export d' t) with (xe t). assert (0 <= gas_intensity) as GI by (unfold gas_intensity; lra).
  assert (xi t - xe t <= d_import d t - d_export d t) as L by lra. pose proof (Qmult_le_compat_r _ _ _ L P). pose proof (Qmult_le_compat_r _ _ _ G GI). lra.
Qed.
End Whole.
Lemma room_dispatch r c assets fl d : facts (r_results r) c assets fl d -> room_to_export c assets r ->
  forall t, (t < n_intervals c)%nat -> d_export d t + total (charge d t) assets <= d_import d t + energy (sc_freq c) (sc_export_limit_mw c).
Proof.
  intros FA RM t Ht. specialize (RM t Ht). rewrite <- (r_import_eq _ _ _ _ _ FA t Ht), <- (r_export_eq _ _ _ _ _ FA t Ht), <- (bridge_total assets (r_charge r) (charge d) t); [exact RM|].
  intros a Ia. apply (bridge r c assets fl d FA t a Ia Ht).
Qed.
(** ** C78 *)
Theorem C78_no_dearer : forall gap slv base c assets cons obj fl r slv' base' assets' r',
  feasible_run slv base c assets cons obj fl r -> best_run gap slv' base' c assets' [] (ObjName "price") fl r' ->
  Forall2 (more_efficient (sc_freq c)) assets assets' -> room_to_export c assets r -> prices_not_negative c ->
  reported_cost c assets' r' <= reported_cost c assets r + gap.
Proof.
  intros gap slv base c assets cons obj fl r slv' base' assets' r' R (R' & SW & SN) ME RM PN. destruct (run_facts _ _ _ _ _ _ _ _ R) as (d & _ & FA).
  pose proof (room_dispatch _ _ _ _ _ FA RM) as RD.
  pose proof (whole_physical c assets assets' fl d ME (fa_names _ _ _ _ _ FA) (fa_fine _ _ _ _ _ FA) (fa_n _ _ _ _ _ FA) (fa_physical _ _ _ _ _ FA) RD) as PH.
  pose proof (whole_cost c assets assets' fl d ME (fa_names _ _ _ _ _ FA) (fa_fine _ _ _ _ _ FA) (fa_n _ _ _ _ _ FA) (fa_physical _ _ _ _ _ FA) RD PN) as L.
  pose proof (C53_price_within _ _ _ _ _ _ _ R' SW SN _ PH) as K. destruct (reported_cost_eq _ _ _ _ _ FA) as [E _]. rewrite E. lra.
Qed.
Theorem C78_no_dirtier : forall gap slv base c assets cons obj fl r slv' base' assets' r',
  feasible_run slv base c assets cons obj fl r -> best_run gap slv' base' c assets' [] (ObjName "carbon") fl r' ->
  Forall2 (more_efficient (sc_freq c)) assets assets' -> room_to_export c assets r -> intensities_not_negative c ->
  reported_emissions c assets' r' <= reported_emissions c assets r + gap.
Proof.
  intros gap slv base c assets cons obj fl r slv' base' assets' r' R (R' & SW & SN) ME RM PN. destruct (run_facts _ _ _ _ _ _ _ _ R) as (d & _ & FA).
  pose proof (room_dispatch _ _ _ _ _ FA RM) as RD.
  pose proof (whole_physical c assets assets' fl d ME (fa_names _ _ _ _ _ FA) (fa_fine _ _ _ _ _ FA) (fa_n _ _ _ _ _ FA) (fa_physical _ _ _ _ _ FA) RD) as PH.
  pose proof (whole_emissions c assets assets' fl d ME (fa_names _ _ _ _ _ FA) (fa_fine _ _ _ _ _ FA) (fa_n _ _ _ _ _ FA) (fa_physical _ _ _ _ _ FA) RD PN) as L.
  pose proof (C53_carbon_within _ _ _ _ _ _ _ R' SW SN _ PH) as K. destruct (reported_cost_eq _ _ _ _ _ FA) as [_ E]. rewrite E. lra.
Qed.

(** ** Samples *)
(** one hour; the battery must end with 1 MWh and cannot discharge *)
Definition ef_site (price gas heat limit : Q) : site_cfg := mkSiteCfg (mkIdata [price] [0] [1#10] [gas] [0] [heat] [0] [0] 1 []) 60%Z 100 limit.
Definition ef_battery (e : Q) : asset := ABattery (mkBatteryCfg "battery" 4 0 4 e 0 1).
Definition ef_boiler (e : Q) : asset := ABoiler (mkBoilerCfg "boiler" 4 0 e).
Definition ef_solar : asset := ARenewable (mkRgCfg "solar" 1 [2] true).
Definition ef_one : site_cfg := ef_site 10 8 1 50.
Definition ef_old : list asset := [ef_battery (1#2); ef_boiler (1#2)].
Definition ef_new : list asset := [ef_battery (4#5); ef_boiler (4#5)].
Definition ef_old_solver : solver := any_solver [2; 0; 1; 0; 2; 0; 1; 0; 1; 0; 1; 1; 1; 2].
Definition ef_new_solver : solver := capped 0 [5#4; 0; 1; 0; 5#4; 0; 1; 0; 1#4; 0; 1; 1; 1; 5#4] [10; 0; 0; 0; 10; 0; 0; 0; 0; 25#2; 25#2; 8; 0; 0; -25#2; 25#2] [].
Definition ef_old_result : sim_result := Eval vm_compute in run_of ef_old_solver ef_one ef_old [] (ObjName "price").
Definition ef_new_result : sim_result := Eval vm_compute in run_of ef_new_solver ef_one ef_new [] (ObjName "price").
Lemma ef_old_run : feasible_run ef_old_solver 0 ef_one ef_old [] (ObjName "price") default_flags ef_old_result.
Proof. run. Qed.
Lemma ef_new_best : best_run 0 ef_new_solver 0 ef_one ef_new [] (ObjName "price") default_flags ef_new_result.
Proof. capped_best. Qed.
Lemma ef_battery_better c : more_efficient (sc_freq c) (ef_battery (1#2)) (ef_battery (4#5)).
Proof. right. cbn [ef_battery]. splits; [eexists; reflexivity|reflexivity|discriminate|discriminate]. Qed.
Lemma ef_better : Forall2 (more_efficient (sc_freq ef_one)) ef_old ef_new.
Proof. constructor; [apply ef_battery_better|constructor; [|constructor]]. right. cbn [ef_boiler]. splits; [eexists; reflexivity|reflexivity|discriminate]. Qed.
Ltac one_interval := intros t Ht; change (t < 1)%nat in Ht; assert (t = 0%nat) as -> by lia.
(** 10 * 2 + 8 * 2 = 36 becomes 10 * 1.25 + 8 * 1.25 = 22.5 *)
Example C78_sample : reported_cost ef_one ef_old ef_old_result == 36 /\ reported_cost ef_one ef_new ef_new_result == 45#2 /\
  reported_cost ef_one ef_new ef_new_result <= reported_cost ef_one ef_old ef_old_result + 0.
Proof.
  splits; [vm_compute; reflexivity|vm_compute; reflexivity|].
  apply (C78_no_dearer 0 _ _ _ _ _ _ _ _ _ _ _ _ ef_old_run ef_new_best ef_better).
  - one_interval. vm_compute. discriminate.
  - one_interval. splits; vm_compute; discriminate.
Qed.
(** With a negative price the losses earn money: the better battery costs more. *)
Definition ef_paid : site_cfg := ef_site (-10) 8 0 0.
Definition ef_lossy_solver : solver := capped 0 [2; 0; 1; 0; 2; 0; 1; 0; 1; 0; 1] [-10; 0; -10; 0; 0; 0; 0; 0; 0; -20; -20; 20; -20] [(5%nat, (-10, 0))].
Definition ef_better_solver : solver := capped 0 [5#4; 0; 1; 0; 5#4; 0; 1; 0; 1#4; 0; 1] [-10; 0; -10; 0; 0; 0; 0; 0; 0; -25#2; -25#2; 25#2; -25#2] [(5%nat, (-5#2, 0))].
Definition ef_lossy_result : sim_result := Eval vm_compute in run_of ef_lossy_solver ef_paid [ef_battery (1#2)] [] (ObjName "price").
Definition ef_better_result : sim_result := Eval vm_compute in run_of ef_better_solver ef_paid [ef_battery (4#5)] [] (ObjName "price").
Lemma ef_lossy_best : best_run 0 ef_lossy_solver 0 ef_paid [ef_battery (1#2)] [] (ObjName "price") default_flags ef_lossy_result.
Proof. capped_best. Qed.
Lemma ef_better_best : best_run 0 ef_better_solver 0 ef_paid [ef_battery (4#5)] [] (ObjName "price") default_flags ef_better_result.
Proof. capped_best. Qed.
Theorem C78_negative_price_refuted : exists slv base c assets fl r slv' base' assets' r',
  best_run 0 slv base c assets [] (ObjName "price") fl r /\ best_run 0 slv' base' c assets' [] (ObjName "price") fl r' /\
  Forall2 (more_efficient (sc_freq c)) assets assets' /\ room_to_export c assets r /\ reported_cost c assets r < reported_cost c assets' r'.
Proof.
  exists ef_lossy_solver, 0%nat, ef_paid, [ef_battery (1#2)], default_flags, ef_lossy_result, ef_better_solver, 0%nat, [ef_battery (4#5)], ef_better_result.
  splits; [exact ef_lossy_best|exact ef_better_best|constructor; [apply ef_battery_better|constructor]|one_interval; vm_compute; discriminate|vm_compute; reflexivity].
Qed.
(** Without room to export what the better battery does not take is spilled. *)
Definition ef_closed : site_cfg := ef_site 10 8 0 0.
Definition ef_closed_assets (e : Q) : list asset := [ef_battery e; ef_solar; ASpill "spill"].
Definition ef_P : Q := inject_Z 100000000000.
Definition ef_full_solver : solver := any_solver [0; 0; 1; 0; 2; 0; 1; 0; 1; 0; 1; 2; 0; 0; 0; 0].
Definition ef_spill_solver : solver := capped 0 [0; 0; 1; 0; 5#4; 0; 1; 0; 1#4; 0; 1; 2; 0; 0; 3#4; 0]
  [- ef_P; 0; - ef_P; 0; 0; 0; 0; 0; 0; -(5#4) * ef_P; -(5#4) * ef_P; (5#4) * ef_P; -(5#4) * ef_P] [(5%nat, (-(1#4) * ef_P, 0)); (11%nat, (0, ef_P))].
Definition ef_full_result : sim_result := Eval vm_compute in run_of ef_full_solver ef_closed (ef_closed_assets (1#2)) [] (ObjName "price").
Definition ef_spill_result : sim_result := Eval vm_compute in run_of ef_spill_solver ef_closed (ef_closed_assets (4#5)) [] (ObjName "price").
Lemma ef_full_run : feasible_run ef_full_solver 0 ef_closed (ef_closed_assets (1#2)) [] (ObjName "price") default_flags ef_full_result.
Proof. run. Qed.
Lemma ef_spill_best : best_run 0 ef_spill_solver 0 ef_closed (ef_closed_assets (4#5)) [] (ObjName "price") default_flags ef_spill_result.
Proof. capped_best. Qed.
Theorem C78_no_room_refuted : exists slv base c assets fl r slv' base' assets' r',
  feasible_run slv base c assets [] (ObjName "price") fl r /\ best_run 0 slv' base' c assets' [] (ObjName "price") fl r' /\
  Forall2 (more_efficient (sc_freq c)) assets assets' /\ prices_not_negative c /\ reported_cost c assets r < reported_cost c assets' r'.
Proof.
  exists ef_full_solver, 0%nat, ef_closed, (ef_closed_assets (1#2)), default_flags, ef_full_result, ef_spill_solver, 0%nat, (ef_closed_assets (4#5)), ef_spill_result.
  splits; [exact ef_full_run|exact ef_spill_best|constructor; [apply ef_battery_better|constructor; [now left|constructor; [now left|constructor]]]|one_interval; splits; vm_compute; discriminate|vm_compute; reflexivity].
Qed.
