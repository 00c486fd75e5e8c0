(** * PropBins: property C74, the on/off columns of the results table *)
From Verif Require Import Base Pulp Params Optimizer Types Assets EVs Site Constraints Objectives Extract Pipeline Emit Prim Spec SpecSwitch SpecReport SpecRun SemTable SpecTerms SpecReadings SemEv SemSite SemResults RunFacts SampleSite PropSite PropEv PropSwitch SampleLimits.
Open Scope Q_scope.
Open Scope string_scope.

Lemma bits_nonneg (es : list nat) (w : nat -> Q) : (forall e, In e es -> bit (w e)) -> 0 <= Qsum (map w es).
Proof.
  induction es as [|e es IH]; intros B; [apply Qle_refl|]. cbn [map]. change (0 <= w e + Qsum (map w es)).
  assert (0 <= Qsum (map w es)) by (apply IH; intros; apply B; now right). destruct (B e ltac:(now left)) as [E|E]; rewrite E; lra.
Qed.
Lemma bits_zero (es : list nat) (w : nat -> Q) : (forall e, In e es -> bit (w e)) -> Qsum (map w es) <= 0 -> forall e, In e es -> w e == 0.
Proof.
  induction es as [|e es IH]; intros B L e' [].
  - subst e'. change (w e + Qsum (map w es) <= 0) in L. assert (0 <= Qsum (map w es)) by (apply bits_nonneg; intros; apply B; now right). destruct (B e ltac:(now left)) as [E|E]; [exact E|rewrite E in L; lra].
  - change (w e + Qsum (map w es) <= 0) in L. apply IH; auto. + intros; apply B; now right. + destruct (B e ltac:(now left)) as [E|E]; rewrite E in L; lra.
Qed.
(** a row of switches of which at most one is on, and the flows they switch *)
Lemma switched_sum (es : list nat) (w x : nat -> Q) m (there : nat -> Prop) :
  (forall e, In e es -> switch_for (w e) (x e) /\ (w e == 1 -> m <= x e /\ there e)) -> Qsum (map w es) <= 1 ->
  switch_for (Qsum (map w es)) (Qsum (map x es)) /\ (Qsum (map w es) == 1 -> m <= Qsum (map x es) /\ exists e, In e es /\ there e).
Proof.
  induction es as [|e es IH]; intros H L.
  { split; [split; [left; reflexivity|intros _; reflexivity]|intros X; discriminate X]. }
  assert (forall e', In e' es -> switch_for (w e') (x e') /\ (w e' == 1 -> m <= x e' /\ there e')) as T by (intros; apply H; now right).
  assert (forall e', In e' es -> bit (w e')) as TB by (intros; apply T; auto).
  pose proof (bits_nonneg es w TB) as P. cbn [map] in *. change (w e + Qsum (map w es) <= 1) in L.
  change (switch_for (w e + Qsum (map w es)) (x e + Qsum (map x es)) /\ (w e + Qsum (map w es) == 1 -> m <= x e + Qsum (map x es) /\ exists e0, In e0 (e :: es) /\ there e0)).
  destruct (H e ltac:(now left)) as [[[E|E] F] G].
  - rewrite E in L. destruct (IH T ltac:(lra)) as [[B Z] R]. specialize (F E). split.
    + split; [destruct B as [B|B]; [left|right]; lra|]. intros X. rewrite F, Z by lra. reflexivity.
    + intros X. destruct (R ltac:(lra)) as (A & e0 & I0 & T0). split; [lra|]. exists e0. split; [now right|exact T0].
  - rewrite E in L. assert (Qsum (map w es) == 0) as Z by lra.
    assert (Qsum (map x es) == 0) as ZX. { apply Qsum_map_zero. intros e' I'. apply T; auto. apply (bits_zero es w TB ltac:(lra)); auto. }
    destruct (G E) as [A TH]. split.
    + split; [right; lra|intros X; lra].
    + intros _. split; [lra|]. exists e. split; [now left|exact TH].
Qed.

Section shown.
Context (r : sim_result) (c : site_cfg) (assets : list asset) (fl : flags) (d : dispatch) (w : switches).
Context (FA : facts (r_results r) c assets fl d) (SH : shows_switches (r_results r) c assets w) (SW : switched c assets fl d w).
Lemma shown_num col t q : shows (r_results r) col t q -> num (r_results r) col t == q.
Proof. intros (cells & x & C1 & C2 & C3). destruct (fa_reports _ _ _ _ _ FA) as (LN & ND & _). unfold num. rewrite (in_assoc _ _ _ ND C1). rewrite (nth_error_nth _ _ _ C2). exact C3. Qed.
Lemma shown a t col q : In a assets -> (t < n_intervals c)%nat -> In (col, q) (switch_columns w t a) -> num (r_results r) col t == q.
Proof. intros Ia Ht I. apply shown_num. eapply SH; eauto. Qed.
Lemma charger_shown e k cc t : In (AEVs e) assets -> (t < n_intervals c)%nat -> nth_error (ev_chargers e) k = Some cc ->
  rep_part r e (cg_name cc) "electric_charge_binary" t == over_events e (fun v => w_ev_charge w (ev_name e) v k t) /\
  rep_part r e (cg_name cc) "electric_discharge_binary" t == over_events e (fun v => w_ev_discharge w (ev_name e) v k t).
Proof.
  intros Ia Ht E. unfold rep_part, rep. split; (eapply shown; [eauto|auto|]); cbn [switch_columns]; apply in_app_iff; left; apply in_flat_map; exists (k, cc); (split; [now apply enumerate_in|]); cbn [fst snd In]; tauto.
Qed.
Lemma spill_shown e cc t : In (AEVs e) assets -> (t < n_intervals c)%nat -> In cc (ev_spill_chargers e) ->
  rep_part r e (cg_name cc) "electric_charge_binary" t == over_events e (fun v => w_spill_charge w (ev_name e) v t) /\ rep_part r e (cg_name cc) "electric_discharge_binary" t == 0.
Proof.
  intros Ia Ht E. unfold rep_part, rep. split; (eapply shown; [eauto|auto|]); cbn [switch_columns]; apply in_app_iff; right; apply in_flat_map; exists cc; (split; [exact E|]); cbn [In]; tauto.
Qed.
End shown.

Lemma switch_for_eq b x b' x' : b' == b -> x' == x -> switch_for b x -> switch_for b' x'.
Proof. intros B X [A Z]. split; [destruct A as [A|A]; [left|right]; lra|]. intros E. rewrite X. apply Z. lra. Qed.
Lemma run_switches slv base c assets cons obj fl r : feasible_run slv base c assets cons obj fl r ->
  exists d w, facts (r_results r) c assets fl d /\ shows_switches (r_results r) c assets w /\ switched c assets fl d w.
Proof.
  intros R. destruct (C72_holds _ _ _ _ _ _ _ _ R) as (d & w & RP & PH & SW & SH & _). destruct (run_facts _ _ _ _ _ _ _ _ R) as (d' & _ & FA).
  exists d, w. splits; auto. constructor; auto; apply FA.
Qed.

(** The on/off columns of a battery are 0 or 1 and not both 1; in an interval with an off in one the battery does not do that. *)
Theorem C74_battery : forall slv base c assets cons obj fl r b t, feasible_run slv base c assets cons obj fl r -> In (ABattery b) assets -> (t < n_intervals c)%nat ->
  switch_for (rep r (b_name b) "electric_charge_binary" t) (rep r (b_name b) "electric_charge_mwh" t) /\
  switch_for (rep r (b_name b) "electric_discharge_binary" t) (rep r (b_name b) "electric_discharge_mwh" t) /\
  rep r (b_name b) "electric_charge_binary" t + rep r (b_name b) "electric_discharge_binary" t <= 1.
Proof.
  intros slv base c assets cons obj fl r b t R Ib Ht. destruct (run_switches _ _ _ _ _ _ _ _ R) as (d & w & FA & SH & SW).
  destruct (SW t Ht) as [_ SA]. specialize (SA _ Ib). cbn [asset_switched] in SA. destruct SA as (S1 & S2 & S3).
  pose proof (shown r c assets fl d w FA SH _ t _ _ Ib Ht (or_introl eq_refl)) as E1. pose proof (shown r c assets fl d w FA SH _ t _ _ Ib Ht (or_intror (or_introl eq_refl))) as E2.
  change (rep r (b_name b) "electric_charge_binary" t == w_charge w (b_name b) t) in E1. change (rep r (b_name b) "electric_discharge_binary" t == w_discharge w (b_name b) t) in E2.
  pose proof (bridge r c assets fl d FA t _ Ib Ht) as BR. cbn [r_charge r_discharge charge discharge asset_name] in BR. destruct BR as ((_ & _ & C1 & C2) & _).
  splits; [eapply switch_for_eq; eauto|eapply switch_for_eq; eauto|lra].
Qed.

(** The on/off columns of an EV charger are 0 or 1 and not both 1; off means no energy; on means at least the charger's minimum, for a charge event that is there. *)
Theorem C74_charger : forall slv base c assets cons obj fl r e k cc t, feasible_run slv base c assets cons obj fl r -> In (AEVs e) assets -> nth_error (ev_chargers e) k = Some cc -> (t < n_intervals c)%nat ->
  let on := rep_part r e (cg_name cc) "electric_charge_binary" t in
  let out := rep_part r e (cg_name cc) "electric_discharge_binary" t in
  switch_for on (rep_part r e (cg_name cc) "electric_charge_mwh" t) /\
  switch_for out (rep_part r e (cg_name cc) "electric_discharge_mwh" t) /\
  on + out <= 1 /\
  (on == 1 -> energy (sc_freq c) (cg_min_mw cc) <= rep_part r e (cg_name cc) "electric_charge_mwh" t /\ exists i, (i < List.length (ev_event_cfgs e))%nat /\ can_charge fl e i t) /\
  (out == 1 -> allow_evs_discharge fl = true /\ energy (sc_freq c) (cg_min_mw cc) <= rep_part r e (cg_name cc) "electric_discharge_mwh" t /\ exists i, (i < List.length (ev_event_cfgs e))%nat /\ 1 <= presence e i t).
Proof.
  intros slv base c assets cons obj fl r e k cc t R Ie Ek Ht on out. destruct (run_switches _ _ _ _ _ _ _ _ R) as (d & w & FA & SH & SW).
  destruct (SW t Ht) as [_ SA]. specialize (SA _ Ie). cbn [asset_switched] in SA. unfold evs_switched in SA. cbv zeta in SA. destruct SA as (S1 & _ & _ & S4).
  destruct (charger_shown r c assets fl d w FA SH e k cc t Ie Ht Ek) as [E1 E2]. fold on in E1. fold out in E2. unfold over_events in E1, E2.
  destruct (charger_reported r c assets fl d FA e k cc t Ie Ht Ek) as (F1 & F2 & _).
  set (es := seq 0 (List.length (ev_event_cfgs e))) in *. specialize (S4 k ltac:(apply in_seq; split; [lia|]; cbn; apply (charger_lt e _ _ Ek))). rewrite Qsum_app in S4.
  assert (forall i, In i es -> exists ec, nth_error (ev_event_cfgs e) i = Some ec) as EV by (intros i I; apply in_seq in I; apply nth_error_lt; lia).
  set (m := energy (sc_freq c) (cg_min_mw cc)).
  assert (forall i, In i es -> switch_for (w_ev_charge w (ev_name e) i k t) (d_ev_charge d (ev_name e) i k t) /\ (w_ev_charge w (ev_name e) i k t == 1 -> m <= d_ev_charge d (ev_name e) i k t /\ can_charge fl e i t)) as A1.
  { intros i I. destruct (EV i I) as (ec & Ee). destruct (S1 _ _ _ _ Ee Ek) as [A _]. exact A. }
  assert (forall i, In i es -> switch_for (w_ev_discharge w (ev_name e) i k t) (d_ev_discharge d (ev_name e) i k t) /\ (w_ev_discharge w (ev_name e) i k t == 1 -> m <= d_ev_discharge d (ev_name e) i k t /\ allow_evs_discharge fl = true /\ 1 <= presence e i t)) as A2.
  { intros i I. destruct (EV i I) as (ec & Ee). destruct (S1 _ _ _ _ Ee Ek) as [_ A]. pose proof (ev_phys r c assets fl d e FA Ie) as PH. destruct PH as (PH & _). destruct (PH t i ec k cc Ht Ee Ek) as (_ & _ & PD & _).
    destruct (allow_evs_discharge fl); [destruct A as [A B]; split; auto; intros X; destruct (B X); auto|]. split; [split; [left; exact A|intros _; exact PD]|intros X; rewrite A in X; discriminate X]. }
  assert (0 <= Qsum (map (fun i => w_ev_charge w (ev_name e) i k t) es)) as N1 by (apply bits_nonneg; intros i I; apply (A1 i I)).
  assert (0 <= Qsum (map (fun i => w_ev_discharge w (ev_name e) i k t) es)) as N2 by (apply bits_nonneg; intros i I; apply (A2 i I)).
  destruct (switched_sum es _ _ m _ A1 ltac:(cbv beta; lra)) as [G1 G2]. destruct (switched_sum es _ _ m _ A2 ltac:(cbv beta; lra)) as [G3 G4]. splits.
  - eapply switch_for_eq; [exact E1|exact F1|exact G1].
  - eapply switch_for_eq; [exact E2|exact F2|exact G3].
  - rewrite E1, E2. exact S4.
  - intros X. rewrite E1 in X. destruct (G2 X) as (L & i & I & T). split; [rewrite F1; exact L|]. exists i. split; [apply in_seq in I; lia|exact T].
  - intros X. rewrite E2 in X. destruct (G4 X) as (L & i & I & T & T'). splits; [exact T|rewrite F2; exact L|]. exists i. split; [apply in_seq in I; lia|exact T'].
Qed.

Lemma counted (es : list nat) (b x : nat -> Q) m : (forall e, In e es -> switch_for (b e) (x e) /\ (b e == 1 -> m <= x e)) -> Qsum (map b es) * m <= Qsum (map x es).
Proof.
  induction es as [|e es IH]; intros H; [cbn; lra|]. cbn [map]. change ((b e + Qsum (map b es)) * m <= x e + Qsum (map x es)).
  specialize (IH ltac:(intros; apply H; now right)). destruct (H e ltac:(now left)) as [[[E|E] F] G].
  - rewrite E. rewrite (F E). lra.
  - specialize (G E). rewrite E. lra.
Qed.
Lemma bits_most (es : list nat) (b : nat -> Q) : (forall e, In e es -> bit (b e)) -> Qsum (map b es) <= count (List.length es).
Proof.
  induction es as [|e es IH]; intros H; [apply Qle_refl|]. cbn [map]. change (b e + Qsum (map b es) <= count (S (List.length es))).
  specialize (IH ltac:(intros; apply H; now right)).
  assert (count (S (List.length es)) == 1 + count (List.length es)) as X. { unfold count. rewrite Nat2Z.inj_succ. unfold Z.succ. rewrite inject_Z_plus. change (inject_Z 1) with 1. ring. }
  rewrite X. destruct (H e ltac:(now left)) as [E|E]; rewrite E; lra.
Qed.
(** The spill charger can serve several charge events at once: its charge column counts them, and its discharge column is always 0. *)
Theorem C74_spill_charger : forall slv base c assets cons obj fl r e cc t, feasible_run slv base c assets cons obj fl r -> In (AEVs e) assets -> In cc (ev_spill_chargers e) -> (t < n_intervals c)%nat ->
  let on := rep_part r e (cg_name cc) "electric_charge_binary" t in
  0 <= on /\ on <= count (List.length (ev_event_cfgs e)) /\
  (on == 0 -> rep_part r e (cg_name cc) "electric_charge_mwh" t == 0) /\
  on * energy (sc_freq c) (cg_min_mw cc) <= rep_part r e (cg_name cc) "electric_charge_mwh" t /\
  rep_part r e (cg_name cc) "electric_discharge_binary" t == 0.
Proof.
  intros slv base c assets cons obj fl r e cc t R Ie Ic Ht on. destruct (run_switches _ _ _ _ _ _ _ _ R) as (d & w & FA & SH & SW).
  destruct (SW t Ht) as [_ SA]. specialize (SA _ Ie). cbn [asset_switched] in SA. unfold evs_switched in SA. cbv zeta in SA. destruct SA as (_ & S2 & _).
  destruct (spill_shown r c assets fl d w FA SH e cc t Ie Ht Ic) as [E1 E2]. fold on in E1. unfold over_events in E1.
  destruct (spill_reported r c assets fl d FA e cc t Ie Ht Ic) as (F1 & _).
  destruct (spill_charger r c assets fl d e FA Ie) as (cc' & N0 & EQ). assert (cc' = cc) by (rewrite EQ in Ic; destruct Ic as [|[]]; auto). subst cc'.
  set (es := seq 0 (List.length (ev_event_cfgs e))) in *. set (m := energy (sc_freq c) (cg_min_mw cc)).
  assert (forall i, In i es -> switch_for (w_spill_charge w (ev_name e) i t) (d_spill_charge d (ev_name e) i t) /\ (w_spill_charge w (ev_name e) i t == 1 -> m <= d_spill_charge d (ev_name e) i t)) as A.
  { intros i I. apply in_seq in I. destruct (nth_error_lt (ev_event_cfgs e) i) as (ec & Ee); [lia|]. destruct (S2 _ _ _ Ee N0) as [B C]. split; [exact B|]. intros X. apply (C X). }
  splits.
  - rewrite E1. apply bits_nonneg. intros i I. apply (A i I).
  - rewrite E1. assert (List.length (ev_event_cfgs e) = List.length es) as -> by (unfold es; now rewrite seq_length). apply bits_most. intros i I. apply (A i I).
  - intros X. rewrite E1 in X. rewrite F1. apply Qsum_map_zero. intros i I. apply (A i I). apply (bits_zero es _ (fun i I => proj1 (proj1 (A i I)))); auto. rewrite X. apply Qle_refl.
  - rewrite E1, F1. apply counted. exact A.
  - exact E2.
Qed.

(** One charger at a time for a charge event: no more chargers are switched on than there are charge events. *)
Theorem C74_chargers_in_use : forall slv base c assets cons obj fl r e t, feasible_run slv base c assets cons obj fl r -> In (AEVs e) assets -> (t < n_intervals c)%nat ->
  rep_chargers r e (ev_chargers e) "electric_charge_binary" t + rep_chargers r e (ev_chargers e) "electric_discharge_binary" t <= count (List.length (ev_event_cfgs e)).
Proof.
  intros slv base c assets cons obj fl r e t R Ie Ht. destruct (run_switches _ _ _ _ _ _ _ _ R) as (d & w & FA & SH & SW).
  destruct (SW t Ht) as [_ SA]. specialize (SA _ Ie). cbn [asset_switched] in SA. unfold evs_switched in SA. cbv zeta in SA. destruct SA as (_ & _ & S3 & _).
  unfold rep_chargers.
  rewrite (Qsum_index (ev_chargers e) _ (fun k => over_events e (fun v => w_ev_charge w (ev_name e) v k t))) by (intros k x E; apply (charger_shown r c assets fl d w FA SH e k x t Ie Ht E)).
  rewrite (Qsum_index (ev_chargers e) (fun cc => rep_part r e (cg_name cc) "electric_discharge_binary" t) (fun k => over_events e (fun v => w_ev_discharge w (ev_name e) v k t))) by (intros k x E; apply (charger_shown r c assets fl d w FA SH e k x t Ie Ht E)).
  unfold over_events. rewrite (Qsum_exchange (fun k v => w_ev_charge w (ev_name e) v k t)), (Qsum_exchange (fun k v => w_ev_discharge w (ev_name e) v k t)).
  rewrite <- Qsum_map_plus. set (es := seq 0 (List.length (ev_event_cfgs e))) in *. assert (List.length (ev_event_cfgs e) = List.length es) as -> by (unfold es; now rewrite seq_length).
  assert (forall v, In v es -> Qsum (map (fun k => w_ev_charge w (ev_name e) v k t) (seq 0 (List.length (ev_chargers e)))) + Qsum (map (fun k => w_ev_discharge w (ev_name e) v k t) (seq 0 (List.length (ev_chargers e)))) <= 1) as A.
  { intros v I. specialize (S3 v I). rewrite Qsum_app in S3. exact S3. }
  clearbody es. clear S3. induction es as [|v es IH]; [apply Qle_refl|]. cbn [map List.length].
  assert (count (S (List.length es)) == 1 + count (List.length es)) as X. { unfold count. rewrite Nat2Z.inj_succ. unfold Z.succ. rewrite inject_Z_plus. change (inject_Z 1) with 1. ring. }
  rewrite X. apply Qplus_le_compat; [apply A; now left|]. apply IH. intros; apply A; now right.
Qed.

(** non-vacuity: the sample result with a battery that charges and an EVs asset *)
Example C74_sample : rep li_result "battery" "electric_charge_binary" 0 + rep li_result "battery" "electric_discharge_binary" 0 <= 1 /\
  exists e, In (AEVs e) x_assets /\ ev_chargers e <> [] /\ rep_chargers li_result e (ev_chargers e) "electric_charge_binary" 0 + rep_chargers li_result e (ev_chargers e) "electric_discharge_binary" 0 <= count (List.length (ev_event_cfgs e)).
Proof.
  assert (exists e, In (AEVs e) x_assets /\ ev_chargers e <> []) as (e & Ie & NE).
  { eexists. split; [|]. - unfold x_assets. cbn [In]. do 7 right. left. reflexivity. - discriminate. }
  split.
  - apply (C74_battery x_solver 0 x_site x_assets li_cons (ObjName "price") default_flags li_result x_battery 0 li_run); [unfold x_assets; now left|vm_compute; lia].
  - exists e. splits; auto. apply (C74_chargers_in_use x_solver 0 x_site x_assets li_cons (ObjName "price") default_flags li_result e 0 li_run Ie). vm_compute. lia.
Qed.
