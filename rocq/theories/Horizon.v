(** * Horizon: one horizon after another (proofs) *)
From Verif Require Import Base Pulp Params Optimizer Types Pipeline Spec SpecRun SpecCost Emit Prim Rows SemEv Complete Bounded Pad SpecCompare Compare.
Open Scope Q_scope.

(** the same dispatch, counted from interval k *)
Definition moved (k : nat) (d : dispatch) : dispatch :=
  mkDispatch (fun t => d_import d (k + t)%nat) (fun t => d_export d (k + t)%nat) (fun nm q t => d_qty d nm q (k + t)%nat)
    (fun nm e j t => d_ev_charge d nm e j (k + t)%nat) (fun nm e j t => d_ev_discharge d nm e j (k + t)%nat) (fun nm e j t => d_ev_loss d nm e j (k + t)%nat)
    (fun nm e t => d_spill_charge d nm e (k + t)%nat) (fun nm e t => d_spill_loss d nm e (k + t)%nat)
    (fun nm e t => d_ev_soc0 d nm e (k + t)%nat) (fun nm e t => d_ev_soc1 d nm e (k + t)%nat).
Definition pick {A} (k t : nat) (x y : nat -> A) : A := if (t <? k)%nat then x t else y (t - k)%nat.
(** first the one, then the other *)
Definition joined (k : nat) (d1 d2 : dispatch) : dispatch :=
  mkDispatch (fun t => pick k t (d_import d1) (d_import d2)) (fun t => pick k t (d_export d1) (d_export d2)) (fun nm q t => pick k t (d_qty d1 nm q) (d_qty d2 nm q))
    (fun nm e j t => pick k t (d_ev_charge d1 nm e j) (d_ev_charge d2 nm e j)) (fun nm e j t => pick k t (d_ev_discharge d1 nm e j) (d_ev_discharge d2 nm e j)) (fun nm e j t => pick k t (d_ev_loss d1 nm e j) (d_ev_loss d2 nm e j))
    (fun nm e t => pick k t (d_spill_charge d1 nm e) (d_spill_charge d2 nm e)) (fun nm e t => pick k t (d_spill_loss d1 nm e) (d_spill_loss d2 nm e))
    (fun nm e t => pick k t (d_ev_soc0 d1 nm e) (d_ev_soc0 d2 nm e)) (fun nm e t => pick k t (d_ev_soc1 d1 nm e) (d_ev_soc1 d2 nm e)).
Lemma pick_l {A} k t (x y : nat -> A) : (t < k)%nat -> pick k t x y = x t.
Proof. intros H. unfold pick. apply Nat.ltb_lt in H. now rewrite H. Qed.
Lemma pick_r {A} k t (x y : nat -> A) : pick k (k + t)%nat x y = y t.
Proof. unfold pick. assert (((k + t) <? k)%nat = false) as -> by (apply Nat.ltb_ge; lia). f_equal. lia. Qed.
Lemma joined_first k d1 d2 assets : same_dispatch k assets d1 (joined k d1 d2).
Proof.
  intros t Ht. splits; cbn [joined d_import d_export]; rewrite ?pick_l by exact Ht; try reflexivity. intros a _. split.
  - intros q _. cbn [joined d_qty]. rewrite pick_l by exact Ht. reflexivity.
  - destruct a; auto. intros e He. cbn [joined d_ev_charge d_ev_discharge d_ev_loss d_spill_charge d_spill_loss d_ev_soc0 d_ev_soc1]. splits; intros; splits; rewrite pick_l by exact Ht; reflexivity.
Qed.
Lemma joined_second k n d1 d2 assets : same_dispatch n assets d2 (moved k (joined k d1 d2)).
Proof.
  intros t Ht. splits; cbn [joined moved d_import d_export]; rewrite ?pick_r; try reflexivity. intros a _. split.
  - intros q _. cbn [joined moved d_qty]. rewrite pick_r. reflexivity.
  - destruct a; auto. intros e He. cbn [joined moved d_ev_charge d_ev_discharge d_ev_loss d_spill_charge d_spill_loss d_ev_soc0 d_ev_soc1]. splits; intros; splits; rewrite pick_r; reflexivity.
Qed.

(** ** one asset *)
Lemma joined_kind n1 n2 a1 a2 a : asset_joined n1 n2 a1 a2 a ->
  (forall d t, elec_gen d t a1 = elec_gen d t a /\ elec_load d t a1 = elec_load d t a /\ charge d t a1 = charge d t a /\ discharge d t a1 = discharge d t a /\
     ht_gen d t a1 = ht_gen d t a /\ ht_load d t a1 = ht_load d t a /\ lt_gen d t a1 = lt_gen d t a /\ lt_load d t a1 = lt_load d t a /\ gas_use d t a1 = gas_use d t a /\ spilled d t a1 = spilled d t a) /\
  (forall d t, let d' := moved n1 d in let t' := (n1 + t)%nat in
     elec_gen d' t a2 = elec_gen d t' a /\ elec_load d' t a2 = elec_load d t' a /\ charge d' t a2 = charge d t' a /\ discharge d' t a2 = discharge d t' a /\
     ht_gen d' t a2 = ht_gen d t' a /\ ht_load d' t a2 = ht_load d t' a /\ lt_gen d' t a2 = lt_gen d t' a /\ lt_load d' t a2 = lt_load d t' a /\ gas_use d' t a2 = gas_use d t' a /\ spilled d' t a2 = spilled d t' a).
Proof.
  intros J. destruct a1 as [b1|b1|b1|b1|b1|b1|nm1|nm1]; cbn [asset_joined] in J; try (now destruct J).
  - destruct a2 as [b2|b2|b2|b2|b2|b2|nm2|nm2]; try (destruct J as [J J']; try discriminate; subst; discriminate).
    destruct a as [b|b|b|b|b|b|nm|nm]; try (destruct J as [J J']; discriminate). destruct J as (h & -> & ->). cbv zeta. flows. cbn [with_charges b_name moved d_qty]. split; intros; splits; reflexivity.
  - destruct J as [<- ->]. cbv zeta. flows. cbn [moved d_qty]. split; intros; splits; reflexivity.
  - destruct J as [<- ->]. cbv zeta. flows. cbn [moved d_qty]. split; intros; splits; reflexivity.
  - destruct J as [<- ->]. cbv zeta. flows. cbn [moved d_qty]. split; intros; splits; reflexivity.
  - destruct a2 as [b2|b2|b2|b2|b2|b2|nm2|nm2]; try (destruct J as [J J']; try discriminate; subst; discriminate).
    destruct a as [b|b|b|b|b|b|nm|nm]; try (destruct J as [J J']; discriminate). destruct J as (E1 & E2 & _). cbv zeta. flows. rewrite E1, E2. cbn [moved d_qty]. split; intros; splits; reflexivity.
  - destruct J as [<- ->]. cbv zeta. flows. cbn [moved d_qty]. split; intros; splits; reflexivity.
  - destruct J as [<- ->]. cbv zeta. flows. cbn [moved d_qty]. split; intros; splits; reflexivity.
Qed.
Lemma split_at (P : nat -> Prop) n1 n2 : (forall t, (t < n1)%nat -> P t) -> (forall t, (t < n2)%nat -> P (n1 + t)%nat) -> forall t, (t < n1 + n2)%nat -> P t.
Proof. intros A B t Ht. destruct (Nat.lt_ge_cases t n1); [auto|]. replace t with (n1 + (t - n1))%nat by lia. apply B. lia. Qed.
Lemma join_physical n1 n2 a1 a2 a f fl d : asset_joined n1 n2 a1 a2 a -> (0 < n1)%nat -> (0 < n2)%nat ->
  asset_physical a1 f fl n1 d -> asset_physical a2 f fl n2 (moved n1 d) -> asset_physical a f fl (n1 + n2) d.
Proof.
  intros J H1 H2. destruct a1 as [b1|b1|b1|b1|b1|b1|nm1|nm1]; cbn [asset_joined] in J; try (now destruct J).
  - destruct a2 as [b2|b2|b2|b2|b2|b2|nm2|nm2]; try (destruct J as [J J']; try discriminate; subst; discriminate).
    destruct a as [b|b|b|b|b|b|nm|nm]; try (destruct J as [J J']; discriminate). destruct J as (h & -> & ->). cbn [asset_physical]. unfold battery_physical.
    cbn [with_charges b_name b_charge_power_mw b_discharge_power_mw b_capacity_mwh b_efficiency_pct b_initial_charge_mwh b_final_charge_mwh moved d_qty].
    intros (P1 & P2 & P3 & P4) (R1 & R2 & R3 & R4). splits.
    + apply split_at; [exact P1|exact R1].
    + intros t Ht. destruct (Nat.lt_ge_cases (S t) n1); [auto|]. destruct (Nat.eq_dec (S t) n1) as [E|E].
      * assert (t = n1 - 1)%nat as -> by lia. rewrite P4. replace (S (n1 - 1)) with (n1 + 0)%nat by lia. exact R3.
      * specialize (R2 (t - n1)%nat ltac:(lia)). replace (n1 + S (t - n1))%nat with (S t) in R2 by lia. replace (n1 + (t - n1))%nat with t in R2 by lia. exact R2.
    + exact P3.
    + replace (n1 + n2 - 1)%nat with (n1 + (n2 - 1))%nat by lia. exact R4.
  - destruct J as [<- ->]. exact (split_at _ n1 n2).
  - destruct J as [<- ->]. exact (split_at _ n1 n2).
  - destruct J as [<- ->]. exact (split_at _ n1 n2).
  - destruct a2 as [b2|b2|b2|b2|b2|b2|nm2|nm2]; try (destruct J as [J J']; try discriminate; subst; discriminate).
    destruct a as [b|b|b|b|b|b|nm|nm]; try (destruct J as [J J']; discriminate). destruct J as (E1 & E2 & L1 & L2 & D1 & D2). cbn [asset_physical]. unfold rg_physical, data in *. rewrite E1, E2. intros P R. apply split_at.
    + intros t Ht. specialize (P t Ht). specialize (D1 t Ht). unfold between in *. cbv zeta in *. unfold data in D1. rewrite D1, <- L1. exact P.
    + intros t Ht. specialize (R t Ht). specialize (D2 t Ht). unfold between in *. cbv zeta in *. unfold data in D2. rewrite D2, <- L2. exact R.
  - destruct J as [<- ->]. exact (split_at _ n1 n2).
  - destruct J as [<- ->]. exact (split_at _ n1 n2).
Qed.
Lemma part_physical n1 n2 a1 a2 a f fl d : asset_joined n1 n2 a1 a2 a -> no_storage a ->
  asset_physical a f fl (n1 + n2) d -> asset_physical a1 f fl n1 d /\ asset_physical a2 f fl n2 (moved n1 d).
Proof.
  assert (forall P : nat -> Prop, (forall t, (t < n1 + n2)%nat -> P t) -> (forall t, (t < n1)%nat -> P t) /\ (forall t, (t < n2)%nat -> P (n1 + t)%nat)) as SP by (intros P H; split; intros; apply H; lia).
  intros J NS. destruct a1 as [b1|b1|b1|b1|b1|b1|nm1|nm1]; cbn [asset_joined] in J; try (now destruct J).
  - destruct a2 as [b2|b2|b2|b2|b2|b2|nm2|nm2]; try (destruct J as [J J']; try discriminate; subst; discriminate).
    destruct a as [b|b|b|b|b|b|nm|nm]; try (destruct J as [J J']; discriminate). destruct NS.
  - destruct J as [<- ->]. exact (SP _).
  - destruct J as [<- ->]. exact (SP _).
  - destruct J as [<- ->]. exact (SP _).
  - destruct a2 as [b2|b2|b2|b2|b2|b2|nm2|nm2]; try (destruct J as [J J']; try discriminate; subst; discriminate).
    destruct a as [b|b|b|b|b|b|nm|nm]; try (destruct J as [J J']; discriminate). destruct J as (E1 & E2 & L1 & L2 & D1 & D2). cbn [asset_physical]. unfold rg_physical. rewrite E1, E2. intros P. apply SP in P. destruct P as [P R]. split.
    + intros t Ht. specialize (P t Ht). specialize (D1 t Ht). unfold between in *. cbv zeta in *. unfold data in D1. rewrite L1, <- D1. exact P.
    + intros t Ht. specialize (R t Ht). specialize (D2 t Ht). unfold between in *. cbv zeta in *. unfold data in D2. rewrite L2, <- D2. exact R.
  - destruct J as [<- ->]. exact (SP _).
  - destruct J as [<- ->]. exact (SP _).
Qed.

(** ** the site *)
Lemma total_nth (g g' : asset -> Q) l l' : List.length l = List.length l' -> (forall i a a', nth_error l i = Some a -> nth_error l' i = Some a' -> g a == g' a') -> total g l == total g' l'.
Proof.
  revert l'. induction l as [|a l IH]; intros [|a' l'] E H; cbn in E; try discriminate; [reflexivity|]. rewrite !total_cons, (H 0%nat a a' eq_refl eq_refl), (IH l'); [reflexivity|congruence|].
  intros i. apply (H (S i)).
Qed.
Lemma Qsum_split (g : nat -> Q) n1 n2 : Qsum (map g (seq 0 (n1 + n2))) == Qsum (map g (seq 0 n1)) + Qsum (map (fun t => g (n1 + t)%nat) (seq 0 n2)).
Proof.
  rewrite seq_app, map_app, Qsum_app. apply Qplus_inj_l. cbn [plus]. clear. assert (forall k, map g (seq k n2) = map (fun t => g (k + t)%nat) (seq 0 n2)) as H.
  { induction n2 as [|n IH]; intros k; cbn [seq map]; [reflexivity|]. f_equal; [f_equal; lia|]. rewrite IH. rewrite <- seq_shift, map_map. apply map_ext. intros t. f_equal. lia. }
  rewrite H. reflexivity.
Qed.
Section Join.
Variables (c1 c2 c : site_cfg) (l1 l2 l : list asset) (fl : flags).
Hypothesis SJ : site_joined c1 c2 c.
Hypothesis AJ : assets_joined (n_intervals c1) (n_intervals c2) l1 l2 l.
Hypothesis N1 : (0 < n_intervals c1)%nat.
Hypothesis N2 : (0 < n_intervals c2)%nat.

Lemma triple i a : nth_error l i = Some a -> exists a1 a2, nth_error l1 i = Some a1 /\ nth_error l2 i = Some a2 /\ asset_joined (n_intervals c1) (n_intervals c2) a1 a2 a.
Proof.
  intros E. destruct AJ as (L1 & L2 & J). assert (i < List.length l)%nat by (apply nth_error_Some; congruence).
  destruct (nth_error_lt l1 i) as (a1 & E1); [lia|]. destruct (nth_error_lt l2 i) as (a2 & E2); [lia|]. exists a1, a2. splits; auto. eapply J; eauto.
Qed.
Lemma flows_parts d t :
  (total (elec_gen d t) l1 == total (elec_gen d t) l /\ total (elec_load d t) l1 == total (elec_load d t) l /\ total (charge d t) l1 == total (charge d t) l /\ total (discharge d t) l1 == total (discharge d t) l /\
   total (ht_gen d t) l1 == total (ht_gen d t) l /\ total (ht_load d t) l1 == total (ht_load d t) l /\ total (lt_gen d t) l1 == total (lt_gen d t) l /\ total (lt_load d t) l1 == total (lt_load d t) l /\
   total (gas_use d t) l1 == total (gas_use d t) l /\ total (spilled d t) l1 == total (spilled d t) l) /\
  (let d' := moved (n_intervals c1) d in let t' := (n_intervals c1 + t)%nat in
   total (elec_gen d' t) l2 == total (elec_gen d t') l /\ total (elec_load d' t) l2 == total (elec_load d t') l /\ total (charge d' t) l2 == total (charge d t') l /\ total (discharge d' t) l2 == total (discharge d t') l /\
   total (ht_gen d' t) l2 == total (ht_gen d t') l /\ total (ht_load d' t) l2 == total (ht_load d t') l /\ total (lt_gen d' t) l2 == total (lt_gen d t') l /\ total (lt_load d' t) l2 == total (lt_load d t') l /\
   total (gas_use d' t) l2 == total (gas_use d t') l /\ total (spilled d' t) l2 == total (spilled d t') l).
Proof.
  destruct AJ as (L1 & L2 & _). cbv zeta.
  assert (forall i a1 a, nth_error l1 i = Some a1 -> nth_error l i = Some a -> exists a2, asset_joined (n_intervals c1) (n_intervals c2) a1 a2 a) as K1.
  { intros i a1 a E1 E. destruct (triple i a E) as (x1 & x2 & F1 & F2 & J). exists x2. congruence. }
  assert (forall i a2 a, nth_error l2 i = Some a2 -> nth_error l i = Some a -> exists a1, asset_joined (n_intervals c1) (n_intervals c2) a1 a2 a) as K2.
  { intros i a1 a E1 E. destruct (triple i a E) as (x1 & x2 & F1 & F2 & J). exists x1. congruence. }
  splits; (apply total_nth; [assumption|]); intros i x a E1 E;
    first [destruct (K1 i x a E1 E) as (y & J)|idtac]; first [destruct (K2 i x a E1 E) as (y & J)|idtac];
    destruct (joined_kind _ _ _ _ _ J) as [A B]; first [destruct (A d t) as (A1 & A2 & A3 & A4 & A5 & A6 & A7 & A8 & A9 & A10)]; destruct (B d t) as (B1 & B2 & B3 & B4 & B5 & B6 & B7 & B8 & B9 & B10);
    cbv zeta in *; first [rewrite A1|rewrite B1|rewrite A2|rewrite B2|rewrite A3|rewrite B3|rewrite A4|rewrite B4|rewrite A5|rewrite B5|rewrite A6|rewrite B6|rewrite A7|rewrite B7|rewrite A8|rewrite B8|rewrite A9|rewrite B9|rewrite A10|rewrite B10]; reflexivity.
Qed.
Lemma join_site d : physical c1 l1 fl d -> physical c2 l2 fl (moved (n_intervals c1) d) -> physical c l fl d.
Proof.
  intros [P1 A1] [P2 A2]. destruct SJ as (N & F1 & F2 & I1 & I2 & X1 & X2 & _ & _ & _ & _ & [D1 E1] & [D2 E2] & [D3 E3] & [D4 E4]). unfold physical. rewrite N. split.
  - apply split_at.
    + intros t Ht. destruct (flows_parts d t) as [(T1 & T2 & T3 & T4 & T5 & T6 & T7 & T8 & _) _]. specialize (P1 t Ht).
      unfold grid_limits, electricity_balanced, high_temperature_balanced, low_temperature_balanced, between, energy in *. rewrite T1, T2, T3, T4, T5, T6, T7, T8, F1, I1, X1 in P1.
      rewrite (D1 t Ht), (D2 t Ht), (D3 t Ht), (D4 t Ht). exact P1.
    + intros t Ht. destruct (flows_parts d t) as [_ (T1 & T2 & T3 & T4 & T5 & T6 & T7 & T8 & _)]. specialize (P2 t Ht).
      unfold grid_limits, electricity_balanced, high_temperature_balanced, low_temperature_balanced, between, energy in *. rewrite T1, T2, T3, T4, T5, T6, T7, T8, F2, I2, X2 in P2.
      rewrite (E1 t Ht), (E2 t Ht), (E3 t Ht), (E4 t Ht). exact P2.
  - intros a Ia. apply In_nth_error in Ia. destruct Ia as (i & Ea). destruct (triple i a Ea) as (a1 & a2 & G1 & G2 & J). eapply join_physical; [exact J|exact N1|exact N2| |].
    + rewrite <- F1. apply A1. eapply nth_error_In; eauto.
    + rewrite <- F2. apply A2. eapply nth_error_In; eauto.
Qed.
Lemma part_site d : Forall no_storage l -> physical c l fl d -> physical c1 l1 fl d /\ physical c2 l2 fl (moved (n_intervals c1) d).
Proof.
  intros NS [P A]. destruct SJ as (N & F1 & F2 & I1 & I2 & X1 & X2 & _ & _ & _ & _ & [D1 E1] & [D2 E2] & [D3 E3] & [D4 E4]). rewrite N in *. rewrite Forall_forall in NS. destruct AJ as (LL1 & LL2 & _). split; split.
  - intros t Ht. destruct (flows_parts d t) as [(T1 & T2 & T3 & T4 & T5 & T6 & T7 & T8 & _) _]. specialize (P t ltac:(lia)).
    unfold grid_limits, electricity_balanced, high_temperature_balanced, low_temperature_balanced, between, energy in *. rewrite T1, T2, T3, T4, T5, T6, T7, T8, F1, I1, X1.
    rewrite <- (D1 t Ht), <- (D2 t Ht), <- (D3 t Ht), <- (D4 t Ht). exact P.
  - intros a1 Ia. apply In_nth_error in Ia. destruct Ia as (i & Ea). destruct (nth_error_lt l i) as (a & E); [rewrite <- LL1; apply nth_error_Some; congruence|].
    destruct (triple i a E) as (x1 & x2 & G1 & G2 & J). assert (x1 = a1) as -> by congruence. pose proof (nth_error_In _ _ E) as Ia. rewrite F1. eapply part_physical; eauto.
  - intros t Ht. destruct (flows_parts d t) as [_ (T1 & T2 & T3 & T4 & T5 & T6 & T7 & T8 & _)]. specialize (P (n_intervals c1 + t)%nat ltac:(lia)).
    unfold grid_limits, electricity_balanced, high_temperature_balanced, low_temperature_balanced, between, energy in *. rewrite T1, T2, T3, T4, T5, T6, T7, T8, F2, I2, X2.
    rewrite <- (E1 t Ht), <- (E2 t Ht), <- (E3 t Ht), <- (E4 t Ht). exact P.
  - intros a1 Ia. apply In_nth_error in Ia. destruct Ia as (i & Ea). destruct (nth_error_lt l i) as (a & E); [rewrite <- LL2; apply nth_error_Some; congruence|].
    destruct (triple i a E) as (x1 & x2 & G1 & G2 & J). assert (x2 = a1) as -> by congruence. pose proof (nth_error_In _ _ E) as Ia. rewrite F2. eapply part_physical; eauto.
Qed.
Lemma join_value d : dispatch_cost c l d == dispatch_cost c1 l1 d + dispatch_cost c2 l2 (moved (n_intervals c1) d) /\
  dispatch_emissions c l d == dispatch_emissions c1 l1 d + dispatch_emissions c2 l2 (moved (n_intervals c1) d).
Proof.
  destruct SJ as (N & _ & _ & _ & _ & _ & _ & [D1 E1] & [D2 E2] & [D3 E3] & [D4 E4] & _).
  split; unfold dispatch_cost, dispatch_emissions, over_horizon; rewrite N, Qsum_split; apply Qplus_comp; apply Qsum_map_ext; intros t It; apply in_seq in It; unfold interval_cost, interval_emissions.
  - destruct (flows_parts d t) as [(_ & _ & _ & _ & _ & _ & _ & _ & T1 & T2) _]. rewrite T1, T2, (D1 t), (D2 t), (D4 t) by lia. reflexivity.
  - destruct (flows_parts d t) as [_ (_ & _ & _ & _ & _ & _ & _ & _ & T1 & T2)]. rewrite T1, T2, (E1 t), (E2 t), (E4 t) by lia. reflexivity.
  - destruct (flows_parts d t) as [(_ & _ & _ & _ & _ & _ & _ & _ & T1 & T2) _]. rewrite T1, T2, (D3 t) by lia. reflexivity.
  - destruct (flows_parts d t) as [_ (_ & _ & _ & _ & _ & _ & _ & _ & T1 & T2)]. rewrite T1, T2, (E3 t) by lia. reflexivity.
Qed.
End Join.
