(** * Bounded: cost and emissions of the physically possible dispatches are bounded from below (proofs) *)
From Verif Require Import Base Pulp Params Optimizer Types Pipeline Spec SpecRun SpecCost Prim Rows SemEv Complete.
Open Scope Q_scope.

Definition gas_bound (f : freq) (a : asset) : Q :=
  match a with
  | ABoiler c => (Qabs (energy f (bo_min_mw c)) + Qabs (energy f (bo_max_mw c))) * Qabs (/ bo_efficiency_pct c)
  | ACHP c => energy f (ch_max_mw c) * / ch_electric_efficiency_pct c
  | _ => 0
  end.
Lemma between_abs lo x hi : between lo x hi -> Qabs x <= Qabs lo + Qabs hi.
Proof.
  intros [A B]. apply Qabs_case; intros C.
  - pose proof (Qle_Qabs hi). pose proof (Qabs_nonneg lo). lra.
  - pose proof (Qle_Qabs (- lo)). rewrite Qabs_opp in H. pose proof (Qabs_nonneg hi). lra.
Qed.
Lemma gas_nonneg a f fl n d t : asset_physical a f fl n d -> (t < n)%nat -> 0 <= gas_use d t a.
Proof. intros P Ht. destruct a; cbn [gas_use asset_physical] in *; try lra; destruct (P t Ht); tauto. Qed.
Lemma gas_bounded a f fl n d t : asset_physical a f fl n d -> (t < n)%nat -> (forall c, a = ACHP c -> 0 < ch_electric_efficiency_pct c) ->
  gas_use d t a <= gas_bound f a.
Proof.
  intros P Ht E. destruct a; cbn [gas_use asset_physical gas_bound] in *; try lra.
  - destruct (P t Ht) as (B & G & _). cbn [asset_name]. rewrite G. apply between_abs in B. unfold Qdiv.
    eapply Qle_trans; [apply Qle_Qabs|]. rewrite Qabs_Qmult. apply Qmult_le_compat_r; [exact B|apply Qabs_nonneg].
  - destruct (P t Ht) as ([B1 B2] & _ & G & _). specialize (E _ eq_refl). cbn [asset_name]. rewrite (G E). apply Qmult_le_compat_r; [exact B2|]. apply Qlt_le_weak, Qinv_lt_0_compat, E.
Qed.
Lemma Qsum_nonneg {A} (g : A -> Q) l : (forall x, In x l -> 0 <= g x) -> 0 <= Qsum (map g l).
Proof. induction l as [|x l IH]; intros H; cbn [map]; [apply Qle_refl|]. change (0 <= g x + Qsum (map g l)). pose proof (H x (or_introl eq_refl)). assert (0 <= Qsum (map g l)) by (apply IH; intros; apply H; now right). lra. Qed.
Lemma Qsum_le {A} (g h : A -> Q) l : (forall x, In x l -> g x <= h x) -> Qsum (map g l) <= Qsum (map h l).
Proof. induction l as [|x l IH]; intros H; cbn [map]; [apply Qle_refl|]. change (g x + Qsum (map g l) <= h x + Qsum (map h l)). pose proof (H x (or_introl eq_refl)). assert (Qsum (map g l) <= Qsum (map h l)) by (apply IH; intros; apply H; now right). lra. Qed.
Lemma spilled_nonneg a f fl n d t : asset_physical a f fl n d -> asset_ready n a -> (t < n)%nat -> 0 <= spilled d t a.
Proof.
  intros P RD Ht. destruct a; cbn [spilled asset_physical asset_ready] in *; try lra.
  - destruct RD as (L & _). destruct (nth_error_lt (ev_spill_chargers c) 0 ltac:(lia)) as (cc & E). destruct P as (_ & P & _). apply Qsum_nonneg. intros e I. apply in_seq in I.
    destruct (nth_error_lt (ev_event_cfgs c) e ltac:(lia)) as (ec & Ee). destruct (P t e ec cc Ht Ee E). auto.
  - destruct (P t Ht) as (A & B & C & D). cbn [asset_name] in *. lra.
Qed.
Lemma prod_bound x p lim : between 0 x lim -> - (lim * Qabs p) <= x * p /\ x * p <= lim * Qabs p.
Proof.
  intros [A B]. assert (0 <= Qabs p) by apply Qabs_nonneg. assert (x * Qabs p <= lim * Qabs p) by (apply Qmult_le_compat_r; auto).
  assert (x * p <= x * Qabs p). { rewrite (Qmult_comm x p), (Qmult_comm x (Qabs p)). apply Qmult_le_compat_r; auto. apply Qle_Qabs. }
  assert (x * (- p) <= x * Qabs p). { rewrite (Qmult_comm x (-p)), (Qmult_comm x (Qabs p)). apply Qmult_le_compat_r; auto. rewrite <- Qabs_opp. apply Qle_Qabs. }
  split; lra.
Qed.
Theorem cost_bounded c assets fl : Forall (asset_ready (n_intervals c)) assets -> gas_tied c assets ->
  exists b, forall d, physical c assets fl d -> b <= dispatch_cost c assets d.
Proof.
  intros RD GT. rewrite Forall_forall in RD.
  set (L := fun t => - (energy (sc_freq c) (sc_import_limit_mw c) * Qabs (data (id_electricity_prices (sc_idata c)) t))
    - energy (sc_freq c) (sc_export_limit_mw c) * Qabs (data (id_export_electricity_prices (sc_idata c)) t)
    - Qabs (total (gas_bound (sc_freq c)) assets) * Qabs (data (id_gas_prices (sc_idata c)) t)).
  exists (over_horizon c L). intros d [P1 P2]. apply Qsum_le. intros t It. apply in_seq in It. assert (t < n_intervals c)%nat as Ht by lia.
  destruct (P1 t Ht) as ((G1 & G2 & _) & _). unfold interval_cost, L.
  destruct (prod_bound _ (data (id_electricity_prices (sc_idata c)) t) _ G1) as [A1 _]. destruct (prod_bound _ (data (id_export_electricity_prices (sc_idata c)) t) _ G2) as [_ A2].
  assert (0 <= total (spilled d t) assets) as A3 by (apply Qsum_nonneg; intros a Ia; eapply spilled_nonneg; eauto).
  assert (0 <= total (spilled d t) assets * spill_penalty) as A4 by (apply Qmult_le_0_compat; [exact A3|discriminate]).
  assert (0 <= total (gas_use d t) assets) as A5 by (apply Qsum_nonneg; intros a Ia; eapply gas_nonneg; eauto).
  assert (- (Qabs (total (gas_bound (sc_freq c)) assets) * Qabs (data (id_gas_prices (sc_idata c)) t)) <= total (gas_use d t) assets * data (id_gas_prices (sc_idata c)) t) as A6.
  { destruct GT as [GP|GE].
    - specialize (GP t Ht). assert (0 <= total (gas_use d t) assets * data (id_gas_prices (sc_idata c)) t) by (apply Qmult_le_0_compat; auto).
      assert (0 <= Qabs (total (gas_bound (sc_freq c)) assets) * Qabs (data (id_gas_prices (sc_idata c)) t)) by (apply Qmult_le_0_compat; apply Qabs_nonneg). lra.
    - assert (total (gas_use d t) assets <= total (gas_bound (sc_freq c)) assets) as A7 by (apply Qsum_le; intros a Ia; eapply gas_bounded; eauto; intros k ->; auto).
      apply (prod_bound _ _ _ (conj A5 (Qle_trans _ _ _ A7 (Qle_Qabs _)))). }
  lra.
Qed.
Theorem emissions_bounded c assets fl : Forall (asset_ready (n_intervals c)) assets ->
  exists b, forall d, physical c assets fl d -> b <= dispatch_emissions c assets d.
Proof.
  intros RD. rewrite Forall_forall in RD.
  set (L := fun t => - (energy (sc_freq c) (sc_import_limit_mw c) * Qabs (data (id_electricity_carbon_intensities (sc_idata c)) t))
    - energy (sc_freq c) (sc_export_limit_mw c) * Qabs (data (id_electricity_carbon_intensities (sc_idata c)) t)).
  exists (over_horizon c L). intros d [P1 P2]. apply Qsum_le. intros t It. apply in_seq in It. assert (t < n_intervals c)%nat as Ht by lia.
  destruct (P1 t Ht) as ((G1 & G2 & _) & _). unfold interval_emissions, L.
  destruct (prod_bound _ (data (id_electricity_carbon_intensities (sc_idata c)) t) _ G1) as [A1 _]. destruct (prod_bound _ (data (id_electricity_carbon_intensities (sc_idata c)) t) _ G2) as [_ A2].
  assert (0 <= total (spilled d t) assets) as A3 by (apply Qsum_nonneg; intros a Ia; eapply spilled_nonneg; eauto).
  assert (0 <= total (spilled d t) assets * spill_penalty) as A4 by (apply Qmult_le_0_compat; [exact A3|discriminate]).
  assert (0 <= total (gas_use d t) assets) as A5 by (apply Qsum_nonneg; intros a Ia; eapply gas_nonneg; eauto).
  assert (0 <= total (gas_use d t) assets * gas_intensity) as A6 by (apply Qmult_le_0_compat; [exact A5|discriminate]).
  lra.
Qed.
