(** * Change: a dispatch carried to other units and other time steps (proofs)

    In interval s of the new site, every flow is [lam] times the flow of interval [tau s] of the old one; the new interval
    covers the part of the old one from [th0 s] to [th1 s], and stored energy is [mu] times as big. *)
From Verif Require Import Base Params Types Spec SpecCompare Emit Prim Rows SemEv SemProg Pad Complete Compare.
Open Scope Q_scope.

Section Change.
Variables (lam mu : Q) (tau : nat -> nat) (th0 th1 : nat -> Q) (n n' : nat) (f f' : freq).
Definition at_part (x y th : Q) : Q := mu * (x + th * (y - x)).
Definition changed (d : dispatch) : dispatch :=
  mkDispatch (fun s => lam * d_import d (tau s)) (fun s => lam * d_export d (tau s))
    (fun nm q s => match q with
       | Soc0 => at_part (d_qty d nm Soc0 (tau s)) (d_qty d nm Soc1 (tau s)) (th0 s)
       | Soc1 => at_part (d_qty d nm Soc0 (tau s)) (d_qty d nm Soc1 (tau s)) (th1 s)
       | _ => lam * d_qty d nm q (tau s) end)
    (fun nm e k s => lam * d_ev_charge d nm e k (tau s)) (fun nm e k s => lam * d_ev_discharge d nm e k (tau s)) (fun nm e k s => lam * d_ev_loss d nm e k (tau s))
    (fun nm e s => lam * d_spill_charge d nm e (tau s)) (fun nm e s => lam * d_spill_loss d nm e (tau s))
    (fun nm e s => at_part (d_ev_soc0 d nm e (tau s)) (d_ev_soc1 d nm e (tau s)) (th0 s))
    (fun nm e s => at_part (d_ev_soc0 d nm e (tau s)) (d_ev_soc1 d nm e (tau s)) (th1 s)).
Definition power_changed (p p' : Q) : Prop := energy f' p' == lam * energy f p.
Definition charger_changed (x x' : charger_cfg) : Prop := power_changed (cg_min_mw x) (cg_min_mw x') /\ power_changed (cg_max_mw x) (cg_max_mw x').
Definition event_changed (x x' : charge_event_cfg) : Prop := ce_capacity_mwh x' == mu * ce_capacity_mwh x /\ ce_efficiency_pct x' == ce_efficiency_pct x.
Definition asset_changed (a a' : asset) : Prop :=
  match a, a' with
  | ABattery b, ABattery b' =>
      b_name b' = b_name b /\ power_changed (b_charge_power_mw b) (b_charge_power_mw b') /\ power_changed (b_discharge_power_mw b) (b_discharge_power_mw b') /\
      b_capacity_mwh b' == mu * b_capacity_mwh b /\ b_efficiency_pct b' == b_efficiency_pct b /\
      b_initial_charge_mwh b' == mu * b_initial_charge_mwh b /\ b_final_charge_mwh b' == mu * b_final_charge_mwh b
  | ABoiler b, ABoiler b' => bo_name b' = bo_name b /\ power_changed (bo_min_mw b) (bo_min_mw b') /\ power_changed (bo_max_mw b) (bo_max_mw b') /\ bo_efficiency_pct b' == bo_efficiency_pct b
  | ACHP b, ACHP b' =>
      ch_name b' = ch_name b /\ power_changed (ch_min_mw b) (ch_min_mw b') /\ power_changed (ch_max_mw b) (ch_max_mw b') /\
      ch_electric_efficiency_pct b' == ch_electric_efficiency_pct b /\ ch_ht_efficiency_pct b' == ch_ht_efficiency_pct b /\ ch_lt_efficiency_pct b' == ch_lt_efficiency_pct b
  | AHeatPump b, AHeatPump b' => hp_name b' = hp_name b /\ power_changed (hp_power_mw b) (hp_power_mw b') /\ hp_cop b' == hp_cop b
  | ARenewable b, ARenewable b' => rg_name b' = rg_name b /\ rg_lower_pct b' == rg_lower_pct b /\
      forall s, (s < n')%nat -> data (rg_available_mwh b') s == lam * data (rg_available_mwh b) (tau s)
  | AEVs b, AEVs b' =>
      ev_name b' = ev_name b /\ Forall2 event_changed (ev_event_cfgs b) (ev_event_cfgs b') /\ Forall2 charger_changed (ev_chargers b) (ev_chargers b') /\
      Forall2 charger_changed (ev_spill_chargers b) (ev_spill_chargers b') /\
      forall e s, (e < List.length (ev_event_cfgs b))%nat -> (s < n')%nat -> presence b' e s == presence b e (tau s)
  | ASpill x, ASpill x' | AValve x, AValve x' => x' = x
  | _, _ => False
  end.
Hypothesis L0 : 0 < lam.
Hypothesis LM : lam <= mu.
Hypothesis T0 : forall s, between 0 (th0 s) 1.
Hypothesis T1 : forall s, between 0 (th1 s) 1.
Hypothesis TD : forall s, mu * (th1 s - th0 s) == lam.
Hypothesis TN : forall s, (s < n')%nat -> (tau s < n)%nat.
Hypothesis TL : forall s, (S s < n')%nat -> (tau (S s) = tau s /\ th0 (S s) == th1 s) \/ (tau (S s) = S (tau s) /\ th0 (S s) == 0 /\ th1 s == 1).
Hypothesis TA : tau 0 = 0%nat /\ th0 0 == 0.
Hypothesis TZ : tau (n' - 1) = (n - 1)%nat /\ th1 (n' - 1) == 1.

Lemma scaled_le x y : x <= y -> lam * x <= lam * y.
Proof. intros H. rewrite !(Qmult_comm lam). apply Qmult_le_compat_r; lra. Qed.
Lemma scaled_nonneg x : 0 <= x -> 0 <= lam * x.
Proof. intros H. apply Qmult_le_0_compat; lra. Qed.
Lemma scaled_zero x : x == 0 -> lam * x == 0.
Proof. intros ->. ring. Qed.
Lemma scaled_between x lo hi lo' hi' : lo' == lam * lo -> hi' == lam * hi -> between lo x hi -> between lo' (lam * x) hi'.
Proof. intros E1 E2 [A B]. unfold between. rewrite E1, E2. split; now apply scaled_le. Qed.
Lemma at_part_between x y th cap : between 0 x cap -> between 0 y cap -> between 0 th 1 -> between 0 (at_part x y th) (mu * cap).
Proof.
  unfold between, at_part. intros [X0 X1] [Y0 Y1] [H0 H1].
  assert (0 <= x + th * (y - x)) as A. { assert (0 <= th * y) by (apply Qmult_le_0_compat; lra). assert (0 <= (1 - th) * x) by (apply Qmult_le_0_compat; lra). lra. }
  assert (x + th * (y - x) <= cap) as B. { assert (0 <= th * (cap - y)) by (apply Qmult_le_0_compat; lra). assert (0 <= (1 - th) * (cap - x)) by (apply Qmult_le_0_compat; lra). lra. }
  split; [apply Qmult_le_0_compat; lra|]. rewrite !(Qmult_comm mu). apply Qmult_le_compat_r; lra.
Qed.
Lemma at_part_step x y s : at_part x y (th1 s) == at_part x y (th0 s) + lam * (y - x).
Proof. unfold at_part. rewrite <- (TD s). ring. Qed.
Lemma at_part_ext x x' y y' th : x == x' -> y == y' -> at_part x y th == at_part x' y' th.
Proof. intros E1 E2. unfold at_part. rewrite E1, E2. reflexivity. Qed.
(** one interval after the other *)
Lemma at_part_link (x y : nat -> Q) : (forall t, (S t < n)%nat -> x (S t) == y t) -> forall s, (S s < n')%nat ->
  at_part (x (tau (S s))) (y (tau (S s))) (th0 (S s)) == at_part (x (tau s)) (y (tau s)) (th1 s).
Proof.
  intros H s Hs. destruct (TL s Hs) as [[E1 E2]|(E1 & E2 & E3)]; rewrite E1; unfold at_part.
  - rewrite E2. reflexivity.
  - rewrite E2, E3, (H (tau s)); [ring|]. rewrite <- E1. now apply TN.
Qed.
Lemma at_part_first (x y : nat -> Q) q : x 0%nat == q -> at_part (x (tau 0)) (y (tau 0)) (th0 0) == mu * q.
Proof. intros E. destruct TA as [E1 E2]. unfold at_part. rewrite E1, E2, E. ring. Qed.
Lemma at_part_last (x y : nat -> Q) q : y (n - 1)%nat == q -> at_part (x (tau (n' - 1))) (y (tau (n' - 1))) (th1 (n' - 1)) == mu * q.
Proof. intros E. destruct TZ as [E1 E2]. unfold at_part. rewrite E1, E2, E. ring. Qed.
Lemma one_nonzero l : at_most_one_nonzero l -> at_most_one_nonzero (map (Qmult lam) l).
Proof.
  intros H i j x y E1 E2 N1 N2. rewrite nth_error_map in E1, E2. destruct (nth_error l i) as [u|] eqn:U; [|discriminate]. destruct (nth_error l j) as [v|] eqn:V; [|discriminate].
  cbn in E1, E2. injection E1 as <-. injection E2 as <-. apply (H i j u v); auto; intros Z; [apply N1|apply N2]; now apply scaled_zero.
Qed.

Lemma changed_name a a' : asset_changed a a' -> asset_name a' = asset_name a.
Proof. destruct a, a'; cbn [asset_changed asset_name]; try tauto. Qed.
Lemma changed_flows d a a' s : asset_changed a a' ->
  (elec_gen (changed d) s a' == lam * elec_gen d (tau s) a /\ elec_load (changed d) s a' == lam * elec_load d (tau s) a /\
   charge (changed d) s a' == lam * charge d (tau s) a /\ discharge (changed d) s a' == lam * discharge d (tau s) a) /\
  (ht_gen (changed d) s a' == lam * ht_gen d (tau s) a /\ ht_load (changed d) s a' == lam * ht_load d (tau s) a /\
   lt_gen (changed d) s a' == lam * lt_gen d (tau s) a /\ lt_load (changed d) s a' == lam * lt_load d (tau s) a) /\
  gas_use (changed d) s a' == lam * gas_use d (tau s) a /\ spilled (changed d) s a' == lam * spilled d (tau s) a.
Proof.
  intros L. destruct a as [b|b|b|b|b|b|nm|nm]; destruct a' as [b'|b'|b'|b'|b'|b'|nm'|nm']; cbn [asset_changed] in L; try (now destruct L).
  4:{ destruct L as (E & F1 & F2 & _). apply f2_length in F1. apply f2_length in F2. flows. unfold ev_total_charge, ev_total_discharge, ev_spill_total. rewrite <- F1, <- F2, E. cbn [changed d_ev_charge d_ev_discharge d_spill_charge].
      assert (forall (g : nat -> nat -> Q) es ks, Qsum (map (fun e => Qsum (map (fun k => lam * g e k) ks)) es) == lam * Qsum (map (fun e => Qsum (map (g e) ks)) es)) as SC.
      { intros g es ks. rewrite <- Qsum_map_scale. apply Qsum_map_ext. intros e _. apply Qsum_map_scale. }
      rewrite (SC (fun e k => d_ev_charge d (ev_name b) e k (tau s))), (SC (fun e k => d_ev_discharge d (ev_name b) e k (tau s))), !Qsum_map_scale. splits; ring. }
  all: first [destruct L as (E & _)|pose proof L as E]; flows; rewrite ?E; cbn [changed d_qty]; splits; ring.
Qed.
Lemma changed_can_charge fl b b' e s : presence b' e s == presence b e (tau s) -> can_charge fl b e (tau s) -> can_charge fl b' e s.
Proof. intros P. unfold can_charge. destruct (limit_charge_variables_to_valid_events fl); now rewrite P. Qed.
Ltac mono := repeat match goal with H : ?a <= ?b |- _ => lazymatch goal with K : lam * a <= lam * b |- _ => fail | _ => pose proof (scaled_le _ _ H) end end.
Lemma changed_physical d a a' fl : asset_changed a a' -> asset_physical a f fl n d -> asset_physical a' f' fl n' (changed d).
Proof.
  intros L. destruct a as [b|b|b|b|b|b|nm|nm]; destruct a' as [b'|b'|b'|b'|b'|b'|nm'|nm']; cbn [asset_changed] in L; try (now destruct L); cbn [asset_physical].
  - destruct L as (E & W1 & W2 & C & EF & I0 & I1). unfold battery_physical, power_changed in *. rewrite E. intros (P & LK & F0 & F1). cbn [changed d_qty]. splits.
    + intros s Hs. destruct (P (tau s) (TN s Hs)) as ([A1 A2] & [B1 B2] & C1 & C2 & X & Y & Z & S0 & S1 & EQ). unfold between in *. rewrite W1, W2, C, EF.
      set (q := d_qty d (b_name b)) in *.
      assert (forall x, 0 <= x -> x <= b_capacity_mwh b -> lam * x <= mu * b_capacity_mwh b) as CAP.
      { intros x G1 G2. apply (Qle_trans _ (mu * x)); [apply Qmult_le_compat_r; auto|]. rewrite !(Qmult_comm mu). apply Qmult_le_compat_r; lra. }
      pose proof (at_part_between _ _ (th0 s) _ S0 S1 (T0 s)) as U0. pose proof (at_part_between _ _ (th1 s) _ S0 S1 (T1 s)) as U1. unfold between in U0, U1.
      splits; try apply scaled_le; auto; try apply scaled_nonneg; auto; try apply U0; try apply U1.
      * destruct X as [X|X]; [left|right]; now apply scaled_zero.
      * rewrite Y. ring.
      * rewrite at_part_step. match goal with |- _ + lam * ?x == _ => set (w := x) end. assert (w == w) as W by reflexivity. unfold w in W at 2. rewrite EQ in W. rewrite W. ring.
    + exact (at_part_link _ _ LK).
    + rewrite (at_part_first _ _ _ F0). now rewrite I0.
    + rewrite (at_part_last _ _ _ F1). now rewrite I1.
  - destruct L as (E & W1 & W2 & EF). unfold boiler_physical, between, power_changed in *. rewrite E. intros P s Hs. destruct (P (tau s) (TN s Hs)) as ([A1 A2] & B & C). cbn [changed d_qty]. rewrite W1, W2, EF.
    splits; try (now apply scaled_le); try (now apply scaled_nonneg). rewrite B. unfold Qdiv. ring.
  - destruct L as (E & W1 & W2 & EF & EH & EL). unfold chp_physical, between, power_changed in *. rewrite E. intros P s Hs. destruct (P (tau s) (TN s Hs)) as ([A1 A2] & B & C & D1 & D2 & D3 & D4 & D5). cbn [changed d_qty]. rewrite W1, W2, EF, EH, EL.
    splits; try (now apply scaled_le); try (now apply scaled_nonneg).
    + destruct B as [B|B]; [left; now apply scaled_zero|right; now apply scaled_le].
    + intros H. rewrite (C H). unfold Qdiv. ring.
    + rewrite D1. ring.
    + rewrite D2. ring.
  - destruct L as (E & EV & CH & SP & PR). unfold evs_physical. cbv zeta. rewrite E, <- (f2_length _ _ _ EV), <- (f2_length _ _ _ CH). cbn [changed d_ev_charge d_ev_discharge d_ev_loss d_spill_charge d_spill_loss d_ev_soc0 d_ev_soc1].
    intros (P1 & P2 & P3 & P4 & P5 & P6 & P7). splits.
    + intros s e ec k cc Hs Ee Ek. destruct (f2_nth _ _ _ _ _ EV Ee) as (ec0 & Ee0 & _ & EF). destruct (f2_nth _ _ _ _ _ CH Ek) as (cc0 & Ek0 & W1 & W2). unfold power_changed in *.
      assert (e < List.length (ev_event_cfgs b))%nat as He by (apply nth_error_Some; congruence). specialize (PR e s He Hs).
      destruct (P1 (tau s) e ec0 k cc0 (TN s Hs) Ee0 Ek0) as (A & B & C & D & G). splits; try (now apply scaled_nonneg).
      * destruct B as [B|[B B3]]; [left; now apply scaled_zero|right]. split; [now apply (scaled_between _ _ _ _ _ W1 W2)|]. now apply (changed_can_charge fl b b' e s).
      * destruct (allow_evs_discharge fl); [|now apply scaled_zero]. destruct C as [C1 C2]. split; [now apply scaled_nonneg|]. destruct C2 as [C2|[C2 C4]]; [left; now apply scaled_zero|right].
        rewrite PR. split; auto. now apply (scaled_between _ _ _ _ _ W1 W2).
      * rewrite D, EF. ring.
    + intros s e ec cc Hs Ee Ek. destruct (f2_nth _ _ _ _ _ EV Ee) as (ec0 & Ee0 & _ & EF). destruct (f2_nth _ _ _ _ _ SP Ek) as (cc0 & Ek0 & W1 & W2). unfold power_changed in *.
      assert (e < List.length (ev_event_cfgs b))%nat as He by (apply nth_error_Some; congruence). specialize (PR e s He Hs).
      destruct (P2 (tau s) e ec0 cc0 (TN s Hs) Ee0 Ek0) as (A & B & C & D). splits; try (now apply scaled_nonneg).
      * destruct B as [B|[B B3]]; [left; now apply scaled_zero|right]. split; [now apply (scaled_between _ _ _ _ _ W1 W2)|]. now apply (changed_can_charge fl b b' e s).
      * rewrite C, EF. ring.
    + intros s e Hs Ie. specialize (P3 (tau s) e (TN s Hs) Ie). apply one_nonzero in P3. rewrite map_app, !map_map in P3. exact P3.
    + intros s k Hs Ik. specialize (P4 (tau s) k (TN s Hs) Ik). apply one_nonzero in P4. rewrite map_app, !map_map in P4. exact P4.
    + intros s e ec Hs Ee. destruct (f2_nth _ _ _ _ _ EV Ee) as (ec0 & Ee0 & EC & _). destruct (P5 (tau s) e ec0 (TN s Hs) Ee0) as (S0 & S1 & EQ).
      pose proof (at_part_between _ _ (th0 s) _ S0 S1 (T0 s)) as U0. pose proof (at_part_between _ _ (th1 s) _ S0 S1 (T1 s)) as U1. unfold between in *. rewrite EC, !Qsum_map_scale. splits; try apply U0; try apply U1.
      rewrite at_part_step. match goal with |- _ + lam * ?x == _ => set (w := x) end. assert (w == w) as W by reflexivity. unfold w in W at 2. rewrite EQ in W. rewrite W. ring.
    + intros s e Hs Ie. apply (at_part_link (fun t => d_ev_soc0 d (ev_name b) e t) (fun t => d_ev_soc1 d (ev_name b) e t)); [|exact Hs]. intros t Ht. now apply P6.
    + intros e ec Ee. destruct (f2_nth _ _ _ _ _ EV Ee) as (ec0 & Ee0 & EC & _). destruct (P7 e ec0 Ee0) as [F0 F1]. rewrite EC. split.
      * transitivity (mu * 0); [exact (at_part_first (fun t => d_ev_soc0 d (ev_name b) e t) (fun t => d_ev_soc1 d (ev_name b) e t) _ F0)|ring].
      * exact (at_part_last (fun t => d_ev_soc0 d (ev_name b) e t) (fun t => d_ev_soc1 d (ev_name b) e t) _ F1).
  - destruct L as (E & W & EF). unfold hp_physical, between, power_changed in *. rewrite E. intros P s Hs. destruct (P (tau s) (TN s Hs)) as ([A1 A2] & B & C & D1 & D2). cbn [changed d_qty]. rewrite W, EF.
    splits; try (now apply scaled_le); try (now apply scaled_nonneg); [rewrite B; ring|rewrite <- C; ring].
  - destruct L as (E & EF & AV). unfold rg_physical, between, data in *. rewrite E. intros P s Hs. specialize (P (tau s) (TN s Hs)). cbv zeta in *. cbn [changed d_qty]. rewrite (AV s Hs), EF. destruct P as [P1 P2]. split; [|now apply scaled_le].
    rewrite <- Qmult_assoc. now apply scaled_le.
  - rewrite L. unfold spill_physical. intros P s Hs. destruct (P (tau s) (TN s Hs)) as (A & B & C & D). cbn [changed d_qty]. splits; now apply scaled_nonneg.
  - rewrite L. unfold valve_physical. intros P s Hs. destruct (P (tau s) (TN s Hs)) as (A & B). cbn [changed d_qty]. split; [now rewrite A|now apply scaled_nonneg].
Qed.

(** the site *)
Variables (c c' : site_cfg) (l l' : list asset).
Hypothesis NC : n_intervals c = n.
Hypothesis NC' : n_intervals c' = n'.
Hypothesis FC : sc_freq c = f.
Hypothesis FC' : sc_freq c' = f'.
Hypothesis LI : power_changed (sc_import_limit_mw c) (sc_import_limit_mw c').
Hypothesis LX : power_changed (sc_export_limit_mw c) (sc_export_limit_mw c').
Hypothesis AC : Forall2 asset_changed l l'.
Hypothesis D1 : forall s, (s < n')%nat -> data (id_electric_load_mwh (sc_idata c')) s == lam * data (id_electric_load_mwh (sc_idata c)) (tau s).
Hypothesis D2 : forall s, (s < n')%nat -> data (id_high_temperature_load_mwh (sc_idata c')) s == lam * data (id_high_temperature_load_mwh (sc_idata c)) (tau s).
Hypothesis D3 : forall s, (s < n')%nat -> data (id_low_temperature_load_mwh (sc_idata c')) s == lam * data (id_low_temperature_load_mwh (sc_idata c)) (tau s).
Hypothesis D4 : forall s, (s < n')%nat -> data (id_low_temperature_generation_mwh (sc_idata c')) s == lam * data (id_low_temperature_generation_mwh (sc_idata c)) (tau s).
Lemma changed_total (g : dispatch -> nat -> asset -> Q) d s : (forall a a', asset_changed a a' -> g (changed d) s a' == lam * g d (tau s) a) -> total (g (changed d) s) l' == lam * total (g d (tau s)) l.
Proof.
  intros H. unfold total. rewrite <- Qsum_map_scale. change (total (g (changed d) s) l' == total (fun a => lam * g d (tau s) a) l). symmetry.
  apply (total_f2 asset_changed _ _ _ _ AC). intros a a' _ _ R. symmetry. auto.
Qed.
Lemma changed_site fl d : physical c l fl d -> physical c' l' fl (changed d).
Proof.
  intros [P A]. rewrite NC, FC in *. unfold physical. rewrite NC', FC'. split.
  - intros s Hs. destruct (P (tau s) (TN s Hs)) as (([I0 I1] & [X0 X1] & IX) & E & H & L).
    unfold grid_limits, electricity_balanced, high_temperature_balanced, low_temperature_balanced, power_changed in *. rewrite FC' in *. rewrite FC in *.
    rewrite (changed_total elec_gen), (changed_total elec_load), (changed_total charge), (changed_total discharge), (changed_total ht_gen), (changed_total ht_load), (changed_total lt_gen), (changed_total lt_load) by (intros a a' R; apply (changed_flows d a a' s R)).
    rewrite (D1 s Hs), (D2 s Hs), (D3 s Hs), (D4 s Hs). cbn [changed d_import d_export]. splits.
    + apply (scaled_between (d_import d (tau s)) 0 _ 0 _ ltac:(ring) LI). now split.
    + apply (scaled_between (d_export d (tau s)) 0 _ 0 _ ltac:(ring) LX). now split.
    + destruct IX as [IX|IX]; [left|right]; now apply scaled_zero.
    + rewrite <- !Qmult_plus_distr_r, E. reflexivity.
    + rewrite <- !Qmult_plus_distr_r, H. reflexivity.
    + rewrite <- !Qmult_plus_distr_r, L. reflexivity.
  - intros a' Ia. destruct (Forall2_in_r _ _ _ _ AC Ia) as (a & Ia0 & R). eapply changed_physical; eauto.
Qed.
Hypothesis Q1 : forall s, (s < n')%nat -> data (id_electricity_prices (sc_idata c')) s == data (id_electricity_prices (sc_idata c)) (tau s).
Hypothesis Q2 : forall s, (s < n')%nat -> data (id_export_electricity_prices (sc_idata c')) s == data (id_export_electricity_prices (sc_idata c)) (tau s).
Hypothesis Q3 : forall s, (s < n')%nat -> data (id_gas_prices (sc_idata c')) s == data (id_gas_prices (sc_idata c)) (tau s).
Hypothesis Q4 : forall s, (s < n')%nat -> data (id_electricity_carbon_intensities (sc_idata c')) s == data (id_electricity_carbon_intensities (sc_idata c)) (tau s).
Lemma changed_value d s : (s < n')%nat ->
  interval_cost c' l' (changed d) s == lam * interval_cost c l d (tau s) /\ interval_emissions c' l' (changed d) s == lam * interval_emissions c l d (tau s).
Proof.
  intros Hs. unfold interval_cost, interval_emissions. rewrite (changed_total gas_use), (changed_total spilled) by (intros a a' R; apply (changed_flows d a a' s R)).
  rewrite (Q1 s Hs), (Q2 s Hs), (Q3 s Hs), (Q4 s Hs). cbn [changed d_import d_export]. split; ring.
Qed.
End Change.
