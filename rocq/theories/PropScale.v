(** * PropScale: C67, C68: other units, finer time steps *)
From Coq Require Import Permutation.
From Verif Require Import Base Pulp Params Optimizer Types Pipeline Constraints Objectives Extract Spec SpecReport SpecRun SpecCost SpecTerms Emit Prim Rows SemResults RunFacts Complete Bounded Pad Check Lucky Certified SampleSite PropObjective SpecCompare Compare PropCompare PropHorizon SpecScale Change PropEnergy.
Open Scope Q_scope.
Open Scope string_scope.

(** ** C67: everything k times as big *)
Lemma energy_scaled f k p p' : p' == k * p -> energy f p' == k * energy f p.
Proof. intros E. unfold energy. rewrite E. ring. Qed.
Lemma f2_weaken {A B} (R R' : A -> B -> Prop) l l' : (forall x y, R x y -> R' x y) -> Forall2 R l l' -> Forall2 R' l l'.
Proof. intros H F. induction F; constructor; auto. Qed.
Lemma scaled_changed k n f a a' : asset_scaled k n a a' -> asset_changed k k (fun t => t) n f f a a'.
Proof.
  intros L. destruct a as [b|b|b|b|b|b|nm|nm]; destruct a' as [b'|b'|b'|b'|b'|b'|nm'|nm']; cbn [asset_scaled asset_changed] in *; try (now destruct L); unfold power_changed.
  - destruct L as (E & W1 & W2 & C & EF & I0 & I1). splits; auto using energy_scaled.
  - destruct L as (E & W1 & W2 & EF). splits; auto using energy_scaled.
  - destruct L as (E & W1 & W2 & EF & EH & EL). splits; auto using energy_scaled.
  - destruct L as (E & EV & CH & SP & PR). splits; auto; (eapply f2_weaken; [|eassumption]; intros x y [X Y]; split; unfold power_changed; auto using energy_scaled).
  - destruct L as (E & W & EF). splits; auto using energy_scaled.
Qed.
Section Scaled.
Context (k : Q) (c c' : site_cfg) (l l' : list asset) (fl : flags).
Hypothesis K : 0 < k.
Hypothesis SS : site_scaled k c c'.
Hypothesis AS : Forall2 (asset_scaled k (n_intervals c)) l l'.
Let scale := changed k k (fun t => t) (fun _ => 0) (fun _ => 1).
Lemma scale_physical d : physical c l fl d -> physical c' l' fl (scale d).
Proof.
  destruct SS as (EN & EF & LI & LX & D1 & D2 & D3 & D4 & _). apply (changed_site k k (fun t => t) (fun _ => 0) (fun _ => 1) (n_intervals c) (n_intervals c) (sc_freq c) (sc_freq c)); auto; try lra.
  - intros s. split; lra.
  - intros s. split; lra.
  - intros s. ring.
  - intros s _. right. splits; reflexivity.
  - split; reflexivity.
  - split; reflexivity.
  - now apply energy_scaled.
  - now apply energy_scaled.
  - eapply f2_weaken; [|exact AS]. intros a a'. apply scaled_changed.
Qed.
Lemma scale_value d : dispatch_cost c' l' (scale d) == k * dispatch_cost c l d /\ dispatch_emissions c' l' (scale d) == k * dispatch_emissions c l d.
Proof.
  destruct SS as (EN & EF & LI & LX & D1 & D2 & D3 & D4 & Q1 & Q2 & Q3 & Q4). unfold dispatch_cost, dispatch_emissions, over_horizon. rewrite EN, <- !Qsum_map_scale.
  assert (forall t, (t < n_intervals c)%nat -> interval_cost c' l' (scale d) t == k * interval_cost c l d t /\ interval_emissions c' l' (scale d) t == k * interval_emissions c l d t) as V.
  { intros t Ht. apply (changed_value k k (fun t => t) (fun _ => 0) (fun _ => 1) (n_intervals c) (sc_freq c) (sc_freq c)); auto. eapply f2_weaken; [|exact AS]. intros a a'. apply scaled_changed. }
  split; apply Qsum_map_ext; intros t It; apply in_seq in It; apply V; lia.
Qed.
End Scaled.
(** Scaled up, the site costs at most k times as much as before, however it was run before. *)
Theorem C67_scaled_no_dearer : forall gap k slv base c assets cons obj fl r slv' base' c' assets' r', 0 < k ->
  feasible_run slv base c assets cons obj fl r -> best_run gap slv' base' c' assets' [] (ObjName "price") fl r' ->
  site_scaled k c c' -> Forall2 (asset_scaled k (n_intervals c)) assets assets' ->
  reported_cost c' assets' r' <= k * reported_cost c assets r + gap.
Proof.
  intros gap k slv base c assets cons obj fl r slv' base' c' assets' r' K R (R' & SW & SN) SS AS. destruct (run_facts _ _ _ _ _ _ _ _ R) as (d & _ & FA).
  pose proof (C53_price_within _ _ _ _ _ _ _ R' SW SN _ (scale_physical k c c' assets assets' fl K SS AS d (fa_physical _ _ _ _ _ FA))) as L.
  rewrite (proj1 (scale_value k c c' assets assets' SS AS d)) in L. rewrite (proj1 (reported_cost_eq _ _ _ _ _ FA)). exact L.
Qed.
Theorem C67_scaled_no_dirtier : forall gap k slv base c assets cons obj fl r slv' base' c' assets' r', 0 < k ->
  feasible_run slv base c assets cons obj fl r -> best_run gap slv' base' c' assets' [] (ObjName "carbon") fl r' ->
  site_scaled k c c' -> Forall2 (asset_scaled k (n_intervals c)) assets assets' ->
  reported_emissions c' assets' r' <= k * reported_emissions c assets r + gap.
Proof.
  intros gap k slv base c assets cons obj fl r slv' base' c' assets' r' K R (R' & SW & SN) SS AS. destruct (run_facts _ _ _ _ _ _ _ _ R) as (d & _ & FA).
  pose proof (C53_carbon_within _ _ _ _ _ _ _ R' SW SN _ (scale_physical k c c' assets assets' fl K SS AS d (fa_physical _ _ _ _ _ FA))) as L.
  rewrite (proj2 (scale_value k c c' assets assets' SS AS d)) in L. rewrite (proj2 (reported_cost_eq _ _ _ _ _ FA)). exact L.
Qed.
(** back *)
Lemma f2_flip {A B} (R : B -> A -> Prop) l l' : Forall2 (fun x y => R y x) l l' -> Forall2 R l' l.
Proof. induction 1; constructor; auto. Qed.
Lemma unscale k x x' : 0 < k -> x' == k * x -> x == / k * x'.
Proof. intros K ->. field. lra. Qed.
Lemma scaled_back k n a a' : 0 < k -> asset_scaled k n a a' -> asset_scaled (/ k) n a' a.
Proof.
  intros K L. destruct a as [b|b|b|b|b|b|nm|nm]; destruct a' as [b'|b'|b'|b'|b'|b'|nm'|nm']; cbn [asset_scaled] in *; try (now destruct L).
  - destruct L as (E & W1 & W2 & C & EF & I0 & I1). splits; auto using unscale; now symmetry.
  - destruct L as (E & W1 & W2 & EF). splits; auto using unscale; now symmetry.
  - destruct L as (E & W1 & W2 & EF & EH & EL). splits; auto using unscale; now symmetry.
  - destruct L as (E & EV & CH & SP & PR). rewrite <- (f2_length _ _ _ EV).
    assert (forall x x', charger_scaled k x x' -> charger_scaled (/ k) x' x) as CS by (intros x x' [X Y]; split; auto using unscale).
    assert (forall x x', event_scaled k x x' -> event_scaled (/ k) x' x) as ES by (intros x x' [X Y]; split; auto using unscale; now symmetry).
    splits; [now symmetry| | | |intros e t He Ht; symmetry; auto]; apply f2_flip; eapply f2_weaken; eauto.
  - destruct L as (E & W & EF). splits; auto using unscale; now symmetry.
  - destruct L as (E & W & EF). splits; [now symmetry|now symmetry|]. intros t Ht. apply unscale; auto.
Qed.
Lemma site_back k c c' : 0 < k -> site_scaled k c c' -> site_scaled (/ k) c' c.
Proof.
  intros K (EN & EF & LI & LX & D1 & D2 & D3 & D4 & Q1 & Q2 & Q3 & Q4). unfold site_scaled. cbv zeta. rewrite EN.
  splits; auto using unscale; try (intros t Ht; apply unscale; auto; fail); try (intros t Ht; symmetry; auto).
Qed.
(** The best cost and the least emissions scale with the site. *)
Theorem C67_scale : forall k slv base c assets fl r slv' base' c' assets' r', 0 < k ->
  best_run 0 slv base c assets [] (ObjName "price") fl r -> best_run 0 slv' base' c' assets' [] (ObjName "price") fl r' ->
  site_scaled k c c' -> Forall2 (asset_scaled k (n_intervals c)) assets assets' ->
  reported_cost c' assets' r' == k * reported_cost c assets r.
Proof.
  intros k slv base c assets fl r slv' base' c' assets' r' K R R' SS AS.
  pose proof (C67_scaled_no_dearer _ _ _ _ _ _ _ _ _ _ _ _ _ _ _ K (proj1 R) R' SS AS) as L.
  assert (0 < / k) as K' by (now apply Qinv_lt_0_compat). assert (Forall2 (asset_scaled (/ k) (n_intervals c')) assets' assets) as AS'.
  { assert (n_intervals c' = n_intervals c) as -> by apply SS. apply f2_flip. eapply f2_weaken; [|exact AS]. intros a a'. now apply scaled_back. }
  pose proof (C67_scaled_no_dearer _ _ _ _ _ _ _ _ _ _ _ _ _ _ _ K' (proj1 R') R (site_back _ _ _ K SS) AS') as L'.
  set (x := reported_cost c assets r) in *. set (y := reported_cost c' assets' r') in *. apply Qle_antisym; [lra|].
  assert (k * x <= k * (/ k * y)) as M. { rewrite !(Qmult_comm k). apply Qmult_le_compat_r; lra. } assert (k * (/ k * y) == y) as E by (field; lra). rewrite E in M. exact M.
Qed.
Theorem C67_scale_carbon : forall k slv base c assets fl r slv' base' c' assets' r', 0 < k ->
  best_run 0 slv base c assets [] (ObjName "carbon") fl r -> best_run 0 slv' base' c' assets' [] (ObjName "carbon") fl r' ->
  site_scaled k c c' -> Forall2 (asset_scaled k (n_intervals c)) assets assets' ->
  reported_emissions c' assets' r' == k * reported_emissions c assets r.
Proof.
  intros k slv base c assets fl r slv' base' c' assets' r' K R R' SS AS.
  pose proof (C67_scaled_no_dirtier _ _ _ _ _ _ _ _ _ _ _ _ _ _ _ K (proj1 R) R' SS AS) as L.
  assert (0 < / k) as K' by (now apply Qinv_lt_0_compat). assert (Forall2 (asset_scaled (/ k) (n_intervals c')) assets' assets) as AS'.
  { assert (n_intervals c' = n_intervals c) as -> by apply SS. apply f2_flip. eapply f2_weaken; [|exact AS]. intros a a'. now apply scaled_back. }
  pose proof (C67_scaled_no_dirtier _ _ _ _ _ _ _ _ _ _ _ _ _ _ _ K' (proj1 R') R (site_back _ _ _ K SS) AS') as L'.
  set (x := reported_emissions c assets r) in *. set (y := reported_emissions c' assets' r') in *. apply Qle_antisym; [lra|].
  assert (k * x <= k * (/ k * y)) as M. { rewrite !(Qmult_comm k). apply Qmult_le_compat_r; lra. } assert (k * (/ k * y) == y) as E by (field; lra). rewrite E in M. exact M.
Qed.

(** ** C68: finer time steps *)
Lemma parts_pos k : (0 < k)%nat -> 0 < parts k.
Proof. intros H. unfold parts. change 0 with (inject_Z 0). rewrite <- Zlt_Qlt. lia. Qed.
Lemma Qsum_blocks (g : nat -> Q) k n : Qsum (map g (seq 0 (n * k))) == Qsum (map (fun t => Qsum (map (fun j => g (t * k + j)%nat) (seq 0 k))) (seq 0 n)).
Proof.
  induction n as [|n IH]; [reflexivity|]. replace (S n * k)%nat with (n * k + k)%nat by lia. rewrite Horizon.Qsum_split, IH, seq_S, map_app, Qsum_app. cbn [map plus]. change (Qsum [?x]) with (x + 0). rewrite Qplus_0_r. reflexivity.
Qed.
Section Refined.
Context (k : nat) (c c' : site_cfg) (l l' : list asset) (fl : flags).
Hypothesis K : (0 < k)%nat.
Hypothesis N : (0 < n_intervals c)%nat.
Hypothesis SS : site_refined k c c'.
Hypothesis AS : Forall2 (asset_refined (n_intervals c) k) l l'.
Let lam := / parts k.
Let tau (s : nat) : nat := (s / k)%nat.
Let th (j : nat) : Q := inject_Z (Z.of_nat j) / parts k.
Let th0 (s : nat) := th (s mod k).
Let th1 (s : nat) := th (S (s mod k)).
Let refine_it := changed lam 1 tau th0 th1.
Lemma place s : (s < n_intervals c * k)%nat -> (tau s < n_intervals c)%nat /\ (s mod k < k)%nat /\ s = (tau s * k + s mod k)%nat.
Proof.
  intros H. unfold tau. splits; [apply Nat.div_lt_upper_bound; lia|apply Nat.mod_upper_bound; lia|]. rewrite Nat.mul_comm. apply Nat.div_mod. lia.
Qed.
Lemma energy_refined p p' : p' == p -> energy (sc_freq c') p' == lam * energy (sc_freq c) p.
Proof.
  intros E. destruct SS as (_ & F & _). pose proof (parts_pos k K). unfold energy, lam. rewrite F, E, inject_Z_mult. fold (parts k). field. lra.
Qed.
Lemma th_between j : (j <= k)%nat -> between 0 (th j) 1.
Proof.
  intros H. pose proof (parts_pos k K) as P. unfold th. split.
  - apply Qle_shift_div_l; [exact P|]. rewrite Qmult_0_l. change 0 with (inject_Z 0). rewrite <- Zle_Qle. lia.
  - apply Qle_shift_div_r; [exact P|]. rewrite Qmult_1_l. unfold parts. rewrite <- Zle_Qle. lia.
Qed.
Lemma refined_changed a a' : asset_refined (n_intervals c) k a a' -> asset_changed lam 1 tau (n_intervals c') (sc_freq c) (sc_freq c') a a'.
Proof.
  assert (n_intervals c' = (n_intervals c * k)%nat) as -> by apply SS.
  intros L. destruct a as [b|b|b|b|b|b|nm|nm]; cbn [asset_refined] in L; try (rewrite L; cbn [asset_changed]; unfold power_changed; splits; auto; try (apply energy_refined; reflexivity); try reflexivity; ring).
  - destruct a' as [b'|b'|b'|b'|b'|b'|nm'|nm']; try discriminate. destruct L as (E & EV & CH & SP & PR). cbn [asset_changed]. rewrite EV, CH, SP. splits; auto.
    + clear PR EV CH SP. induction (ev_event_cfgs b); constructor; auto. split; [ring|reflexivity].
    + clear PR EV CH SP. induction (ev_chargers b); constructor; auto. split; apply energy_refined; reflexivity.
    + clear PR EV CH SP. induction (ev_spill_chargers b); constructor; auto. split; apply energy_refined; reflexivity.
    + intros e s He Hs. destruct (place s Hs) as (A & B & C). rewrite C at 1. now apply PR.
  - destruct a' as [b'|b'|b'|b'|b'|b'|nm'|nm']; try discriminate. destruct L as (E & EF & AV). cbn [asset_changed]. splits; auto. intros s Hs. destruct (place s Hs) as (A & B & C). rewrite C at 1. rewrite (AV _ _ A B). unfold lam, Qdiv. ring.
Qed.
Lemma refined_data (l0 l1 : list Q) : data_shared (n_intervals c) k l0 l1 -> forall s, (s < n_intervals c')%nat -> data l1 s == lam * data l0 (tau s).
Proof.
  assert (n_intervals c' = (n_intervals c * k)%nat) as -> by apply SS. intros H s Hs. destruct (place s Hs) as (A & B & C). rewrite C at 1. rewrite (H _ _ A B). unfold lam, Qdiv. ring.
Qed.
Lemma repeated_data (l0 l1 : list Q) : data_repeated (n_intervals c) k l0 l1 -> forall s, (s < n_intervals c')%nat -> data l1 s == data l0 (tau s).
Proof.
  assert (n_intervals c' = (n_intervals c * k)%nat) as -> by apply SS. intros H s Hs. destruct (place s Hs) as (A & B & C). rewrite C at 1. apply (H _ _ A B).
Qed.
Lemma refine_physical d : physical c l fl d -> physical c' l' fl (refine_it d).
Proof.
  pose proof SS as (EN & EF & LI & LX & D1 & D2 & D3 & D4 & _). pose proof (parts_pos k K) as P.
  apply (changed_site lam 1 tau th0 th1 (n_intervals c) (n_intervals c') (sc_freq c) (sc_freq c')); auto using refined_data.
  - now apply Qinv_lt_0_compat.
  - unfold lam. rewrite <- (Qmult_1_l (/ parts k)). apply Qle_shift_div_r; [exact P|]. rewrite Qmult_1_l. unfold parts. change 1 with (inject_Z 1). rewrite <- Zle_Qle. lia.
  - intros s. apply th_between. pose proof (Nat.mod_upper_bound s k). lia.
  - intros s. apply th_between. pose proof (Nat.mod_upper_bound s k). lia.
  - intros s. unfold th1, th0, th, lam. rewrite Nat2Z.inj_succ, <- Z.add_1_r, inject_Z_plus. change (inject_Z 1) with 1. field. lra.
  - intros s Hs. rewrite EN in Hs. now apply place.
  - intros s Hs. rewrite EN in Hs. destruct (place s ltac:(lia)) as (A & B & C). destruct (Nat.eq_dec (S (s mod k)) k) as [E|E].
    + right. assert (S s = S (tau s) * k)%nat as Z by lia. splits.
      * unfold tau at 1. rewrite Z. apply Nat.div_mul. lia.
      * unfold th0. rewrite Z, Nat.mod_mul by lia. unfold th. change (inject_Z (Z.of_nat 0)) with 0. unfold Qdiv. ring.
      * unfold th1. rewrite E. unfold th. fold (parts k). field. lra.
    + left. assert (S s = tau s * k + S (s mod k))%nat as Z by lia. split.
      * unfold tau at 1. rewrite Z, Nat.div_add_l, (Nat.div_small (S (s mod k))) by lia. lia.
      * unfold th0, th1. rewrite Z at 1. rewrite Nat.add_comm, Nat.mod_add, (Nat.mod_small (S (s mod k))) by lia. reflexivity.
  - split; [apply Nat.div_0_l; lia|]. unfold th0. rewrite Nat.mod_0_l by lia. unfold th. change (inject_Z (Z.of_nat 0)) with 0. unfold Qdiv. ring.
  - rewrite EN. assert (n_intervals c * k - 1 = (n_intervals c - 1) * k + (k - 1))%nat as Z.
    { destruct (n_intervals c); [lia|]. cbn [Nat.mul]. replace (S n - 1)%nat with n by lia. lia. }
    split.
    + unfold tau. rewrite Z, Nat.div_add_l, (Nat.div_small (k - 1)) by lia. lia.
    + unfold th1. rewrite Z, Nat.add_comm, Nat.mod_add, (Nat.mod_small (k - 1)) by lia. replace (S (k - 1)) with k by lia. unfold th. fold (parts k). field. lra.
  - now apply energy_refined.
  - now apply energy_refined.
  - eapply f2_weaken; [|exact AS]. exact refined_changed.
Qed.
Lemma refine_value d : dispatch_cost c' l' (refine_it d) == dispatch_cost c l d /\ dispatch_emissions c' l' (refine_it d) == dispatch_emissions c l d.
Proof.
  pose proof SS as (EN & EF & LI & LX & D1 & D2 & D3 & D4 & Q1 & Q2 & Q3 & Q4). pose proof (parts_pos k K) as P. unfold dispatch_cost, dispatch_emissions, over_horizon.
  assert (forall s, (s < n_intervals c')%nat -> interval_cost c' l' (refine_it d) s == lam * interval_cost c l d (tau s) /\ interval_emissions c' l' (refine_it d) s == lam * interval_emissions c l d (tau s)) as V.
  { intros s Hs. apply (changed_value lam 1 tau th0 th1 (n_intervals c') (sc_freq c) (sc_freq c')); auto using repeated_data. eapply f2_weaken; [|exact AS]. exact refined_changed. }
  rewrite EN, !Qsum_blocks.
  assert (forall g : nat -> Q, forall t, (t < n_intervals c)%nat -> Qsum (map (fun j => lam * g (tau (t * k + j))) (seq 0 k)) == g t) as BL.
  { intros g t Ht. transitivity (Qsum (map (fun _ : nat => lam * g t) (seq 0 k))).
    - apply Qsum_map_ext. intros j Ij. apply in_seq in Ij. unfold tau. rewrite Nat.div_add_l, (Nat.div_small j) by lia. rewrite Nat.add_0_r. reflexivity.
    - rewrite SemTerms.Qsum_const, seq_length. fold (parts k). unfold lam. field. lra. }
  split; (apply Qsum_map_ext; intros t It; apply in_seq in It);
    [rewrite <- (BL (interval_cost c l d) t) by lia|rewrite <- (BL (interval_emissions c l d) t) by lia];
    (apply Qsum_map_ext; intros j Ij; apply in_seq in Ij; apply V; rewrite EN; nia).
Qed.
End Refined.
(** With finer time steps the site costs no more. *)
Theorem C68_finer_steps_no_dearer : forall gap k slv base c assets cons obj fl r slv' base' c' assets' r', (0 < k)%nat ->
  feasible_run slv base c assets cons obj fl r -> best_run gap slv' base' c' assets' [] (ObjName "price") fl r' ->
  site_refined k c c' -> Forall2 (asset_refined (n_intervals c) k) assets assets' ->
  reported_cost c' assets' r' <= reported_cost c assets r + gap.
Proof.
  intros gap k slv base c assets cons obj fl r slv' base' c' assets' r' K R (R' & SW & SN) SS AS. destruct (run_facts _ _ _ _ _ _ _ _ R) as (d & _ & FA). pose proof (fa_n _ _ _ _ _ FA) as N.
  pose proof (C53_price_within _ _ _ _ _ _ _ R' SW SN _ (refine_physical k c c' assets assets' fl K N SS AS d (fa_physical _ _ _ _ _ FA))) as L.
  rewrite (proj1 (refine_value k c c' assets assets' K N SS AS d)) in L. rewrite (proj1 (reported_cost_eq _ _ _ _ _ FA)). exact L.
Qed.
Theorem C68_finer_steps_no_dirtier : forall gap k slv base c assets cons obj fl r slv' base' c' assets' r', (0 < k)%nat ->
  feasible_run slv base c assets cons obj fl r -> best_run gap slv' base' c' assets' [] (ObjName "carbon") fl r' ->
  site_refined k c c' -> Forall2 (asset_refined (n_intervals c) k) assets assets' ->
  reported_emissions c' assets' r' <= reported_emissions c assets r + gap.
Proof.
  intros gap k slv base c assets cons obj fl r slv' base' c' assets' r' K R (R' & SW & SN) SS AS. destruct (run_facts _ _ _ _ _ _ _ _ R) as (d & _ & FA). pose proof (fa_n _ _ _ _ _ FA) as N.
  pose proof (C53_carbon_within _ _ _ _ _ _ _ R' SW SN _ (refine_physical k c c' assets assets' fl K N SS AS d (fa_physical _ _ _ _ _ FA))) as L.
  rewrite (proj2 (refine_value k c c' assets assets' K N SS AS d)) in L. rewrite (proj2 (reported_cost_eq _ _ _ _ _ FA)). exact L.
Qed.
