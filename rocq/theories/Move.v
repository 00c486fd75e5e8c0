(** * Move: a dispatch with the numbers of some assets changed *)
From Verif Require Import Base Params Types Spec Prim Pad Complete Standby PropEnergy.
From Verif Require Import Base Params Types Spec Prim Emit Pad Complete Standby Compare PropEnergy.
Open Scope string_scope.

(** assets with what is added to their numbers *)
Definition move : Type := asset * (qty -> nat -> Q).
Definition added (ms : list move) (nm : string) (q : qty) (t : nat) : Q :=
  Qsum (map (fun m : move => if asset_name (fst m) =? nm then snd m q t else 0) ms).
Definition moved (ms : list move) (xi xe : nat -> Q) (d : dispatch) : dispatch :=
  mkDispatch (fun t => d_import d t + xi t) (fun t => d_export d t + xe t) (fun nm q t => d_qty d nm q t + added ms nm q t)
    (d_ev_charge d) (d_ev_discharge d) (d_ev_loss d) (d_spill_charge d) (d_spill_loss d) (d_ev_soc0 d) (d_ev_soc1 d).
(** a dispatch with the changes alone *)
Definition only (f : qty -> nat -> Q) : dispatch :=
  let z3 := fun (_ : string) (_ _ : nat) => 0 in let z4 := fun (_ : string) (_ _ _ : nat) => 0 in
  mkDispatch (fun _ => 0) (fun _ => 0) (fun _ => f) z4 z4 z4 z3 z3 z3 z3.
Definition change (g : dispatch -> nat -> asset -> Q) (ms : list move) (t : nat) : Q := Qsum (map (fun m : move => g (only (snd m)) t (fst m)) ms).

Definition linear (g : dispatch -> nat -> asset -> Q) : Prop := forall ms xi xe d t a,
  g (moved ms xi xe d) t a == g d t a + Qsum (map (fun m : move => if asset_name (fst m) =? asset_name a then g (only (snd m)) t a else 0) ms).

Lemma Qsum_none {A} (l : list A) (p : A -> bool) : Qsum (map (fun m => if p m then 0 else 0) l) == 0.
Proof. apply Qsum_map_zero. intros m _. destruct (p m); reflexivity. Qed.
Lemma zero3 : forall l : list nat, Qsum (map (fun _ => 0) l) == 0.
Proof. intros l. apply Qsum_map_zero. reflexivity. Qed.
Lemma linear_qty (g : dispatch -> nat -> asset -> Q) q (p : asset -> bool) :
  (forall d t a, g d t a = if p a then d_qty d (asset_name a) q t else 0) -> linear g.
Proof.
  intros H ms xi xe d t a. rewrite !H. destruct (p a) eqn:P.
  - cbn [moved d_qty]. apply Qplus_comp; [reflexivity|]. unfold added. apply Qsum_map_ext. intros m _. rewrite H, P. reflexivity.
  - transitivity (0 + 0); [ring|]. apply Qplus_comp; [reflexivity|]. symmetry. apply Qsum_map_zero. intros m _. rewrite H, P. destruct (_ =? _); reflexivity.
Qed.
Lemma linear_elec_gen : linear elec_gen.
Proof. apply (linear_qty _ ElecGen (fun a => match a with ACHP _ | ARenewable _ | ASpill _ => true | _ => false end)). intros d t []; reflexivity. Qed.
Lemma linear_elec_load : linear elec_load.
Proof. apply (linear_qty _ ElecLoad (fun a => match a with AHeatPump _ | ASpill _ => true | _ => false end)). intros d t []; reflexivity. Qed.
Lemma linear_ht_gen : linear ht_gen.
Proof. apply (linear_qty _ HtGen (fun a => match a with ABoiler _ | ACHP _ | AHeatPump _ | ASpill _ => true | _ => false end)). intros d t []; reflexivity. Qed.
Lemma linear_ht_load : linear ht_load.
Proof. apply (linear_qty _ HtLoad (fun a => match a with AValve _ => true | _ => false end)). intros d t []; reflexivity. Qed.
Lemma linear_lt_gen : linear lt_gen.
Proof. apply (linear_qty _ LtGen (fun a => match a with ACHP _ | AValve _ => true | _ => false end)). intros d t []; reflexivity. Qed.
Lemma linear_lt_load : linear lt_load.
Proof. apply (linear_qty _ LtLoad (fun a => match a with AHeatPump _ | ASpill _ => true | _ => false end)). intros d t []; reflexivity. Qed.
Lemma linear_gas_use : linear gas_use.
Proof. apply (linear_qty _ Gas (fun a => match a with ABoiler _ | ACHP _ => true | _ => false end)). intros d t []; reflexivity. Qed.
(** EVs are not moved *)
Lemma linear_ev (g : dispatch -> nat -> asset -> Q) q (p : asset -> bool) :
  (forall d t a, match a with AEVs _ => True | _ => g d t a = if p a then d_qty d (asset_name a) q t else 0 end) ->
  (forall ms xi xe d t v, g (moved ms xi xe d) t (AEVs v) = g d t (AEVs v)) -> (forall f t v, g (only f) t (AEVs v) == 0) -> linear g.
Proof.
  intros H E Z ms xi xe d t a. assert ((forall d t, g d t a = if p a then d_qty d (asset_name a) q t else 0) \/ exists v, a = AEVs v) as [K|(v & ->)].
  { destruct a; try (left; intros d' t'; match goal with |- g _ _ ?x = _ => exact (H d' t' x) end). right. eauto. }
  - rewrite !K. destruct (p a) eqn:P.
    + cbn [moved d_qty]. apply Qplus_comp; [reflexivity|]. unfold added. apply Qsum_map_ext. intros m _. rewrite K. reflexivity.
    + transitivity (0 + 0); [ring|]. apply Qplus_comp; [reflexivity|]. symmetry. apply Qsum_map_zero. intros m _. rewrite K. destruct (_ =? _); reflexivity.
  - rewrite E. transitivity (g d t (AEVs v) + 0); [ring|]. apply Qplus_comp; [reflexivity|]. symmetry. apply Qsum_map_zero. intros m _. destruct (_ =? _); [apply Z|reflexivity].
Qed.
Lemma zeros {A B} (l : list A) (l' : list B) : Qsum (map (fun _ => Qsum (map (fun _ => 0) l')) l) == 0.
Proof. apply Qsum_map_zero. intros _ _. apply Qsum_map_zero. reflexivity. Qed.
Lemma linear_charge : linear charge.
Proof.
  apply (linear_ev _ Charge (fun a => match a with ABattery _ => true | _ => false end)).
  - intros d t []; reflexivity || exact Logic.I.
  - reflexivity.
  - intros f t v. cbn [charge]. unfold ev_total_charge, ev_spill_total. cbn [only d_ev_charge d_spill_charge]. rewrite zeros, zero3. reflexivity.
Qed.
Lemma linear_discharge : linear discharge.
Proof.
  apply (linear_ev _ Discharge (fun a => match a with ABattery _ => true | _ => false end)).
  - intros d t []; reflexivity || exact Logic.I.
  - reflexivity.
  - intros f t v. cbn [discharge]. unfold ev_total_discharge. cbn [only d_ev_discharge]. apply zeros.
Qed.
Lemma linear_spilled : linear spilled.
Proof.
  intros ms xi xe d t a. assert ((forall d t, spilled d t a = 0) \/ (exists v, a = AEVs v) \/ exists nm, a = ASpill nm) as [K|[(v & ->)|(nm & ->)]] by (destruct a; eauto).
  - rewrite !K. transitivity (0 + 0); [ring|]. apply Qplus_comp; [reflexivity|]. symmetry. apply Qsum_map_zero. intros m _. rewrite K. destruct (_ =? _); reflexivity.
  - change (spilled (moved ms xi xe d) t (AEVs v)) with (spilled d t (AEVs v)). transitivity (spilled d t (AEVs v) + 0); [ring|]. apply Qplus_comp; [reflexivity|]. symmetry. apply Qsum_map_zero. intros m _. destruct (_ =? _); [|reflexivity]. cbn [spilled]. unfold ev_spill_total. cbn [only d_spill_charge]. apply zero3.
  - cbn [spilled moved d_qty asset_name]. rewrite (Qsum_map_ext (fun m : move => if asset_name (fst m) =? nm then d_qty (only (snd m)) nm ElecGen t + d_qty (only (snd m)) nm HtGen t + d_qty (only (snd m)) nm ElecLoad t else 0)
      (fun m : move => (if asset_name (fst m) =? nm then snd m ElecGen t else 0) + (if asset_name (fst m) =? nm then snd m HtGen t else 0) + (if asset_name (fst m) =? nm then snd m ElecLoad t else 0))).
    + rewrite !Qsum_map_plus. unfold added. ring.
    + intros m _. cbn [only d_qty]. destruct (_ =? _); [reflexivity|ring].
Qed.

Lemma moved_total g assets ms xi xe d t : linear g -> NoDup (map asset_name assets) -> Forall (fun m => In (fst m) assets) ms ->
  total (g (moved ms xi xe d) t) assets == total (g d t) assets + change g ms t.
Proof.
  intros L ND F. transitivity (total (fun a => g d t a + Qsum (map (fun m : move => if asset_name (fst m) =? asset_name a then g (only (snd m)) t a else 0) ms)) assets).
  - apply total_ext. intros a _. apply L.
  - unfold total. rewrite Qsum_map_plus. apply Qplus_comp; [reflexivity|]. rewrite (Qsum_exchange (fun a (m : move) => if asset_name (fst m) =? asset_name a then g (only (snd m)) t a else 0)).
    apply Qsum_map_ext. intros m Im. rewrite Forall_forall in F. specialize (F m Im).
    change (total (fun a => if asset_name (fst m) =? asset_name a then g (only (snd m)) t a else 0) assets == g (only (snd m)) t (fst m)).
    rewrite (total_pick _ assets (fst m) ND F).
    + rewrite String.eqb_refl. reflexivity.
    + intros b _ NE. destruct (asset_name (fst m) =? asset_name b) eqn:E; [|reflexivity]. apply String.eqb_eq in E. congruence.
Qed.

(** an asset that is not moved *)
Lemma unmoved a f fl n ms xi xe d : (forall q t, (t < n)%nat -> added ms (asset_name a) q t == 0) -> (0 < n)%nat ->
  asset_physical a f fl n d -> asset_physical a f fl n (moved ms xi xe d).
Proof.
  intros Z N. apply asset_physical_ext; auto. intros t Ht. unfold same_asset. cbn [moved d_qty d_ev_charge d_ev_discharge d_ev_loss d_spill_charge d_spill_loss d_ev_soc0 d_ev_soc1].
  split; [intros q _; rewrite Z by auto; ring|]. destruct a; try exact Logic.I. intros e He. splits; intros; splits; reflexivity.
Qed.
Lemma added_other ms nm q t : (forall m, In m ms -> asset_name (fst m) <> nm) -> added ms nm q t == 0.
Proof. intros H. apply Qsum_map_zero. intros m Im. destruct (_ =? _) eqn:E; [|reflexivity]. apply String.eqb_eq in E. destruct (H m Im E). Qed.

(** ** The site *)
Record site_move (c : site_cfg) (ms : list move) (xi xe : nat -> Q) (d : dispatch) : Prop := mkSiteMove {
  sm_grid : forall t, (t < n_intervals c)%nat -> grid_limits c (moved ms xi xe d) t;
  sm_elec : forall t, (t < n_intervals c)%nat -> xi t - xe t == change elec_load ms t + change charge ms t - change elec_gen ms t - change discharge ms t;
  sm_ht : forall t, (t < n_intervals c)%nat -> change ht_gen ms t == change ht_load ms t;
  sm_lt : forall t, (t < n_intervals c)%nat -> change lt_gen ms t == change lt_load ms t }.
Lemma moved_physical c assets fl d ms xi xe : NoDup (map asset_name assets) -> Forall (fun m => In (fst m) assets) ms -> (0 < n_intervals c)%nat ->
  physical c assets fl d -> site_move c ms xi xe d -> Forall (fun m => asset_physical (fst m) (sc_freq c) fl (n_intervals c) (moved ms xi xe d)) ms ->
  physical c assets fl (moved ms xi xe d).
Proof.
  intros ND F N [P A] [G E H L] AP. split.
  - intros t Ht. destruct (P t Ht) as (_ & PE & PHt & PL). split; [auto|]. specialize (E t Ht). specialize (H t Ht). specialize (L t Ht).
    unfold electricity_balanced, high_temperature_balanced, low_temperature_balanced in *.
    rewrite !(moved_total _ assets ms xi xe d t linear_elec_gen ND F), !(moved_total _ assets ms xi xe d t linear_elec_load ND F), !(moved_total _ assets ms xi xe d t linear_charge ND F), !(moved_total _ assets ms xi xe d t linear_discharge ND F),
      !(moved_total _ assets ms xi xe d t linear_ht_gen ND F), !(moved_total _ assets ms xi xe d t linear_ht_load ND F), !(moved_total _ assets ms xi xe d t linear_lt_gen ND F), !(moved_total _ assets ms xi xe d t linear_lt_load ND F).
    cbn [moved d_import d_export]. splits; lra.
  - intros a Ia. destruct (in_dec string_dec (asset_name a) (map (fun m : move => asset_name (fst m)) ms)) as [J|J].
    + apply in_map_iff in J. destruct J as (m & EQ & Im). rewrite Forall_forall in F, AP. assert (fst m = a) as <-; [|apply (AP m Im)].
      apply (NoDup_map_inj asset_name assets); auto.
    + apply unmoved; auto. intros q t _. apply added_other. intros m Im EQ. apply J. apply in_map_iff. eauto.
Qed.
