(** * PropDrift: electric vehicles when the solver meets the rows only up to a tolerance (C76) *)
From Verif Require Import Base Pulp Params Optimizer Types Assets EVs Site Constraints Objectives Extract Pipeline Emit Prim Spec SpecSwitch SpecReport SpecRun SpecWithin SpecCost SpecNames SpecTotals Layout Rows Sem SemEv SemNear SemSite SemProg SemObj SemCells SemRows SemTable SemResults RunFacts Builds Complete ExtractOk Totals Totals2 Returns RowNames PropResults PropChecks PropObjective PropSite PropEv SemWithin Check SampleSite SpecTerms SemTerms PropTerms PropWithin.
Open Scope Q_scope.
Open Scope string_scope.

Definition times (n : nat) (eps : Q) : Q := inject_Z (Z.of_nat n) * eps.
Lemma times_S n eps : times (S n) eps == times n eps + eps.
Proof. unfold times. rewrite Nat2Z.inj_succ. unfold Z.succ. rewrite inject_Z_plus. change (inject_Z 1) with 1. ring. Qed.
Lemma times_0 eps : times 0 eps == 0.
Proof. unfold times. change (inject_Z (Z.of_nat 0)) with 0. ring. Qed.
Lemma within_sum eps (f g : nat -> Q) m : (forall k, (k < m)%nat -> within eps (f k) (g k)) -> within (times m eps) (Qsum (map f (seq 0 m))) (Qsum (map g (seq 0 m))).
Proof.
  induction m as [|m IH]; intros H; [pose proof (times_0 eps); cbn [map seq Qsum fold_right]; unfold within; lra|].
  specialize (IH (fun k Hk => H k ltac:(lia))). specialize (H m ltac:(lia)). unfold within, between in *. rewrite seq_S, !map_app, !Qsum_app. cbn [map Qsum fold_right plus]. pose proof (times_S m eps) as E.
  unfold within in *. generalize dependent (times m eps). intros x IH E. lra.
Qed.
Lemma small_sum eps (f : nat -> Q) m : (forall k, (k < m)%nat -> 0 <= f k /\ f k <= eps) -> between 0 (Qsum (map f (seq 0 m))) (times m eps).
Proof.
  induction m as [|m IH]; intros H; [pose proof (times_0 eps); cbn [map seq Qsum fold_right]; unfold between; lra|].
  specialize (IH (fun k Hk => H k ltac:(lia))). specialize (H m ltac:(lia)). unfold within, between in *. rewrite seq_S, !map_app, !Qsum_app. cbn [map Qsum fold_right plus]. pose proof (times_S m eps) as E.
  unfold between in *. generalize dependent (times m eps). intros x IH E. lra.
Qed.

(** The charge of a vehicle: it stays within the vehicle's capacity exactly, follows what the table says was charged,
    discharged and lost (and what the spill charger put in) up to two tolerances per interval, and ends within one tolerance
    of full. Losses and charging outside the event are within one tolerance per charger. *)
Theorem C76_ev eps slv base c assets cons obj fl r ev : 0 <= eps < 1 -> tolerant_solver eps slv -> Forall chp_fine assets -> names_ok c assets ->
  optimize slv base c assets cons obj fl = Ok r -> r_feasible r = true -> In (AEVs ev) assets ->
  let chargers := List.length (ev_chargers ev) in
  exists spill : nat -> nat -> Q,
  (forall t cc, (t < n_intervals c)%nat -> ev_spill_chargers ev = [cc] ->
     rep_part r ev (cg_name cc) "electric_charge_mwh" t == Qsum (map (fun e => spill e t) (seq 0 (List.length (ev_event_cfgs ev))))) /\
  forall e ec, nth_error (ev_event_cfgs ev) e = Some ec ->
    let charge := rep_part r ev (ce_name ec) "electric_charge_mwh" in
    let discharge := rep_part r ev (ce_name ec) "electric_discharge_mwh" in
    let loss := rep_part r ev (ce_name ec) "electric_loss_mwh" in
    let held := rep_event_soc r ev e "final_soc_mwh" in
    let net t := charge t + spill e t - discharge t - loss t in
    forall t, (t < n_intervals c)%nat ->
    0 <= spill e t /\ 0 <= charge t /\ 0 <= discharge t /\ 0 <= loss t /\
    between 0 (held t) (ce_capacity_mwh ec) /\
    within (times (2 * S t) eps) (held t) (Qsum (map net (seq 0 (S t)))) /\
    within (times chargers eps) (loss t) (charge t * (1 - ce_efficiency_pct ec)) /\
    (S t = n_intervals c -> within eps (held t) (ce_capacity_mwh ec)) /\
    (presence ev e t == 0 -> charge t <= times chargers eps /\ discharge t <= times chargers eps /\ spill e t <= eps) /\
    (allow_evs_discharge fl = false -> discharge t == 0).
Proof.
  intros EP SND CF NM H FE Ib chargers. destruct (tolerant_run eps slv base c assets cons obj fl r EP SND CF NM H FE) as (iv & o & s & R).
  destruct R as [_ _ _ _ _ HN AF [_ PA] RP]. destruct (PA _ Ib) as (P1 & P2 & P3). cbn [asset_upto link_upto ends_upto] in *.
  set (d := d_of s iv) in *. exists (d_spill_charge d (ev_name ev)). split.
  { intros t cc Ht SP. destruct (s_spill_reported r c assets d RP ev cc t Ib Ht ltac:(rewrite SP; now left)) as (S1 & _). exact S1. }
  intros e ec Ee. cbv zeta. 
  assert (e < List.length (ev_event_cfgs ev))%nat as Le by (apply nth_error_Some; congruence).
  set (over := fun (g : nat -> Q) => Qsum (map g (seq 0 chargers))).
  pose proof (fun t' Ht' => s_event_reported r c assets d RP ev e ec t' Ib Ht' Ee) as RE. cbv zeta in RE.
  pose proof (fun t' Ht' => s_soc_reported r c assets d RP ev e t' Ib Ht' Le) as RS.
  assert (List.length (ev_spill_chargers ev) = 1%nat) as SL by (rewrite Forall_forall in AF; apply (AF _ Ib)).
  destruct (ev_spill_chargers ev) as [|sc0 scs] eqn:ESC; [discriminate SL|].
  intros t Ht. destruct (RE t Ht) as (E1 & E2 & E3). destruct (RS t Ht) as [_ S1].
  destruct (P1 t Ht) as (Q1 & Q2 & _ & _ & Q5). destruct (Q5 e ec Ee) as (_ & B1 & _). destruct (Q2 e ec sc0 Ee) as (SPC & _); [rewrite ESC; reflexivity|].
  assert (forall k, (k < chargers)%nat -> exists cc, nth_error (ev_chargers ev) k = Some cc) as CC.
  { intros k Hk. destruct (nth_error (ev_chargers ev) k) as [cc|] eqn:EC; [eauto|]. apply nth_error_None in EC. unfold chargers in Hk. lia. }
  assert (forall k, (k < chargers)%nat -> 0 <= d_ev_charge d (ev_name ev) e k t /\ 0 <= d_ev_discharge d (ev_name ev) e k t /\ 0 <= d_ev_loss d (ev_name ev) e k t /\
    within eps (d_ev_loss d (ev_name ev) e k t) (d_ev_charge d (ev_name ev) e k t * (1 - ce_efficiency_pct ec)) /\
    (presence ev e t == 0 -> d_ev_charge d (ev_name ev) e k t <= eps /\ d_ev_discharge d (ev_name ev) e k t <= eps) /\
    (allow_evs_discharge fl = false -> d_ev_discharge d (ev_name ev) e k t == 0)) as K.
  { intros k Hk. destruct (CC k Hk) as [cc EC]. destruct (Q1 e ec k cc Ee EC) as ((C0 & C1) & D & L & L0).
    assert (0 <= d_ev_discharge d (ev_name ev) e k t /\ (presence ev e t == 0 -> d_ev_discharge d (ev_name ev) e k t <= eps) /\ (allow_evs_discharge fl = false -> d_ev_discharge d (ev_name ev) e k t == 0)) as (D1 & D2 & D3).
    { destruct (allow_evs_discharge fl); [|splits; intros; try lra; exact D]. destruct D as [D0 D]. splits; [exact D0| |discriminate]. intros Z. destruct D as [D|(_ & _ & D)]; lra. }
    splits; auto. intros Z. split; [|auto]. destruct C1 as [C1|(_ & _ & C1)]; [exact C1|]. unfold can_charge_upto in C1. destruct (limit_charge_variables_to_valid_events fl); lra. }
  assert (forall g : nat -> Q, (forall k, (k < chargers)%nat -> 0 <= g k) -> 0 <= over g) as NN.
  { intros g G. pose proof (Qsum_nonneg (map g (seq 0 chargers))) as N. unfold over. apply N. apply Forall_forall. intros x I. apply in_map_iff in I. destruct I as (k & <- & I). apply G. apply in_seq in I. lia. }
  splits.
  - apply SPC.
  - rewrite E1. apply NN. intros k Hk. apply (K k Hk).
  - rewrite E2. apply NN. intros k Hk. apply (K k Hk).
  - rewrite E3. apply NN. intros k Hk. apply (K k Hk).
  - unfold between in *. rewrite S1. exact B1.
  - set (net := fun t' => over (fun k => d_ev_charge d (ev_name ev) e k t') + d_spill_charge d (ev_name ev) e t' - over (fun k => d_ev_discharge d (ev_name ev) e k t') - over (fun k => d_ev_loss d (ev_name ev) e k t')).
    assert (within (inject_Z (Z.of_nat (2 * S t)) * eps) (d_ev_soc1 d (ev_name ev) e t) (0 + Qsum (map net (seq 0 (S t))))) as D.
    { apply (drift eps (d_ev_soc0 d (ev_name ev) e) _ _ _ (n_intervals c)); auto.
      - apply (P3 e ec Ee).
      - intros t' Ht'. destruct (P1 t' Ht') as (_ & _ & _ & _ & P). destruct (P e ec Ee) as (_ & _ & W). unfold net, over, chargers, within in *. lra.
      - intros t' Ht'. apply (P2 t' Ht'). apply in_seq. lia. }
    match goal with |- within _ _ ?x => assert (x == Qsum (map net (seq 0 (S t)))) as E end.
    { apply Qsum_map_ext. intros t' I. apply in_seq in I. destruct (RE t' ltac:(lia)) as (F1 & F2 & F3). unfold net, over. rewrite F1, F2, F3. reflexivity. }
    unfold within, times in *. rewrite S1, E. lra.
  - assert (within (times chargers eps) (over (fun k => d_ev_loss d (ev_name ev) e k t)) (over (fun k => d_ev_charge d (ev_name ev) e k t * (1 - ce_efficiency_pct ec)))) as W by (apply within_sum; intros k Hk; apply (K k Hk)).
    assert (over (fun k => d_ev_charge d (ev_name ev) e k t * (1 - ce_efficiency_pct ec)) == over (fun k => d_ev_charge d (ev_name ev) e k t) * (1 - ce_efficiency_pct ec)) as E.
    { unfold over. rewrite (Qmult_comm (Qsum _)). rewrite <- Qsum_map_scale. apply Qsum_map_ext. intros. ring. }
    change (rep_part r ev (ce_name ec) "electric_charge_mwh" t == over (fun k => d_ev_charge d (ev_name ev) e k t)) in E1. change (rep_part r ev (ce_name ec) "electric_loss_mwh" t == over (fun k => d_ev_loss d (ev_name ev) e k t)) in E3. unfold within in *. rewrite E in W. rewrite E1, E3. exact W.
  - intros L. destruct (P3 e ec Ee) as [_ F]. replace (n_intervals c - 1)%nat with t in F by lia. unfold within in *. rewrite S1. exact F.
  - intros Z. pose proof (small_sum eps (fun k => d_ev_charge d (ev_name ev) e k t) chargers) as SC. pose proof (small_sum eps (fun k => d_ev_discharge d (ev_name ev) e k t) chargers) as SD.
    unfold between in *. rewrite E1, E2. splits.
    + apply SC. intros k Hk. destruct (K k Hk) as (? & ? & ? & ? & W & ?). destruct (W Z). auto.
    + apply SD. intros k Hk. destruct (K k Hk) as (? & ? & ? & ? & W & ?). destruct (W Z). auto.
    + destruct SPC as (_ & [C1|(_ & _ & C1)]); [exact C1|]. unfold can_charge_upto in C1. destruct (limit_charge_variables_to_valid_events fl); lra.
  - intros A. rewrite E2. apply Qsum_map_zero. intros k I. apply in_seq in I. apply (K k); [unfold chargers; lia|exact A].
Qed.

(** A sample: an event with the vehicle there in the first of two intervals. The answer misses rows by a millionth: the
    vehicle loses a little more and holds a little less than it should, and a little is charged after it has left. *)
Definition dr_evs : evs_cfg := mkEvsCfg "evs" [mkChargerCfg "charger-0" 2 1] [mkChargerCfg "charger-spill-evs" 10000 0] [mkEventCfg "charge-event-0" 1 (1#2)] [[1;0]].
Definition dr_site : site_cfg := mkSiteCfg (mkIdata [10;30] [0;0] [1#10;1#10] [5;5] [0;0] [0;0] [0;0] [0;0] 2 []) 60%Z 100 50.
Definition dr_solver : solver := rounded (1#1000000) [2; 0; 1; 0; 0; 999998#1000000; 2; 1; 1000001#1000000; 0; 0; 0; 0; 0; 0; 1; 999997#1000000; 999999#1000000; 1#1000000; 0; 0; 0; 0; 0].
Definition dr_result : sim_result := Eval vm_compute in SampleSite.result_of (optimize dr_solver 0 dr_site [AEVs dr_evs] [] (ObjName "price") default_flags).
Lemma dr_returns : optimize dr_solver 0 dr_site [AEVs dr_evs] [] (ObjName "price") default_flags = Ok dr_result.
Proof. vm_compute. reflexivity. Qed.
Lemma dr_fine : Forall chp_fine [AEVs dr_evs].
Proof. apply Forall_cons; [exact Logic.I|apply Forall_nil]. Qed.
Lemma dr_names : names_ok dr_site [AEVs dr_evs].
Proof.
  unfold names_ok. splits.
  - intros a [<-|[]]. cbn [asset_name dr_evs ev_name]. discriminate.
  - intros col [].
  - intros e [E|[]]. injection E as <-. vm_compute. repeat split; try reflexivity; try discriminate; intros; auto.
Qed.
Example C76_ev_sample : In (AEVs dr_evs) [AEVs dr_evs] /\ r_feasible dr_result = true /\ presence dr_evs 0 1 == 0 /\
  rep_part dr_result dr_evs "charge-event-0" "electric_charge_mwh" 0 == 2 /\
  rep_event_soc dr_result dr_evs 0 "final_soc_mwh" 0 == 999998 # 1000000 /\
  rep_part dr_result dr_evs "charge-event-0" "electric_charge_mwh" 1 == 1 # 1000000 /\
  within (1#1000000) (rep_event_soc dr_result dr_evs 0 "final_soc_mwh" 1) 1.
Proof.
  splits; try (vm_compute; reflexivity); [now left|].
  destruct (C76_ev (1#1000000) dr_solver 0 dr_site [AEVs dr_evs] [] (ObjName "price") default_flags dr_result dr_evs) as (spill & _ & K);
    [lra|apply rounded_tolerant|exact dr_fine|exact dr_names|exact dr_returns|reflexivity|now left|].
  destruct (K 0%nat (mkEventCfg "charge-event-0" 1 (1#2)) eq_refl 1%nat) as (_ & _ & _ & _ & _ & _ & _ & F & _); [cbn; lia|]. exact (F eq_refl).
Qed.
