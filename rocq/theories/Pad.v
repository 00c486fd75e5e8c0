(** * Pad: a spill and a valve close the balances of any schedule of the other assets (proofs) *)
From Verif Require Import Base Pulp Params Optimizer Types Pipeline Spec SpecRun SpecPad Prim Rows Complete.
Open Scope Q_scope.

Definition asset_dec (a b : asset) : asset_name a = asset_name b \/ asset_name a <> asset_name b.
Proof. destruct (string_dec (asset_name a) (asset_name b)); auto. Qed.
Lemma nodup_map_inj (assets : list asset) a b : NoDup (map asset_name assets) -> In a assets -> In b assets -> asset_name a = asset_name b -> a = b.
Proof.
  induction assets as [|x l IH]; cbn; intros ND Ia Ib E; [destruct Ia|]. inversion ND; subst. destruct Ia as [->|Ia]; destruct Ib as [->|Ib]; auto.
  - exfalso. apply H1. rewrite E. now apply in_map.
  - exfalso. apply H1. rewrite <- E. now apply in_map.
Qed.
Lemma total_cons g a l : total g (a :: l) == g a + total g l.
Proof. reflexivity. Qed.
Lemma total_one g h assets x : NoDup (map asset_name assets) -> In x assets -> (forall a, In a assets -> asset_name a <> asset_name x -> g a == h a) ->
  total g assets == total h assets + (g x - h x).
Proof.
  induction assets as [|a l IH]; intros ND Ix H; [destruct Ix|]. inversion ND as [|? ? N1 N2]; subst. rewrite !total_cons. destruct Ix as [->|Ix].
  - rewrite (total_ext g h l); [ring|]. intros b Ib. apply H; [now right|]. intros E. apply N1. rewrite <- E. now apply in_map.
  - rewrite (H a (or_introl eq_refl)); [|intros E; apply N1; rewrite E; now apply in_map]. rewrite (IH N2 Ix); [ring|]. intros b Ib. apply H. now right.
Qed.
Lemma total_two g h assets x y : NoDup (map asset_name assets) -> In x assets -> In y assets -> asset_name x <> asset_name y ->
  (forall a, In a assets -> asset_name a <> asset_name x -> asset_name a <> asset_name y -> g a == h a) ->
  total g assets == total h assets + (g x - h x) + (g y - h y).
Proof.
  intros ND Ix Iy N H. set (k := fun a => if string_dec (asset_name a) (asset_name y) then h a else g a).
  rewrite (total_one g k assets y ND Iy). 2:{ intros a Ia E. unfold k. destruct (string_dec _ _); [contradiction|reflexivity]. }
  rewrite (total_one k h assets x ND Ix).
  - unfold k. destruct (string_dec (asset_name x) (asset_name y)); [contradiction|]. destruct (string_dec (asset_name y) (asset_name y)); [|contradiction]. ring.
  - intros a Ia E. unfold k. destruct (string_dec _ _); [reflexivity|auto].
Qed.

Section Pad.
Context (c : site_cfg) (assets : list asset) (fl : flags) (sp va : string) (d0 : dispatch).
Hypothesis ND : NoDup (map asset_name assets).
Hypothesis Isp : In (ASpill sp) assets.
Hypothesis Iva : In (AValve va) assets.
Hypothesis SC : scheduled c assets fl sp va d0.

Definition blank (d : dispatch) (f : string -> qty -> nat -> Q) : dispatch :=
  mkDispatch (d_import d) (d_export d) (fun nm q t => if (nm =? sp)%string || (nm =? va)%string then f nm q t else d_qty d nm q t)
    (d_ev_charge d) (d_ev_discharge d) (d_ev_loss d) (d_spill_charge d) (d_spill_loss d) (d_ev_soc0 d) (d_ev_soc1 d).
Definition dz : dispatch := blank d0 (fun _ _ _ => 0).
Definition pad_net (t : nat) : Q := d_import d0 t + total (elec_gen dz t) assets + total (discharge dz t) assets
  - d_export d0 t - data (id_electric_load_mwh (sc_idata c)) t - total (elec_load dz t) assets - total (charge dz t) assets.
Definition pad_h (t : nat) : Q := data (id_high_temperature_load_mwh (sc_idata c)) t + total (ht_load dz t) assets - total (ht_gen dz t) assets.
Definition pad_l (t : nat) : Q := data (id_low_temperature_load_mwh (sc_idata c)) t + total (lt_load dz t) assets - total (lt_gen dz t) assets
  - data (id_low_temperature_generation_mwh (sc_idata c)) t.
Definition pad_v (t : nat) : Q := Qmax 0 (Qmax (- pad_h t) (pad_l t)).
Definition pad : dispatch := blank d0 (fun nm q t =>
  if (nm =? sp)%string then
    match q with
    | ElecGen => Qmax 0 (- pad_net t)
    | ElecLoad => Qmax 0 (pad_net t)
    | HtGen => pad_h t + pad_v t
    | LtLoad => pad_v t - pad_l t
    | _ => 0
    end
  else match q with HtLoad | LtGen => pad_v t | _ => 0 end).

Lemma sp_va : sp <> va.
Proof. intros E. assert (ASpill sp = AValve va) by (apply (nodup_map_inj assets); auto). discriminate. Qed.
Lemma at_sp d f q t : d_qty (blank d f) sp q t = f sp q t.
Proof. cbn. now rewrite String.eqb_refl. Qed.
Lemma at_va d f q t : d_qty (blank d f) va q t = f va q t.
Proof. cbn. rewrite String.eqb_refl, orb_true_r. reflexivity. Qed.
Lemma at_other d f nm q t : nm <> sp -> nm <> va -> d_qty (blank d f) nm q t = d_qty d nm q t.
Proof. intros A B. cbn. apply String.eqb_neq in A, B. now rewrite A, B. Qed.
Lemma other_names a : In a assets -> a <> ASpill sp -> a <> AValve va -> asset_name a <> sp /\ asset_name a <> va.
Proof.
  intros Ia A B. split; intros E; [apply A|apply B]; apply (nodup_map_inj assets); auto.
Qed.
Lemma blank_same f g a t : asset_name a <> sp -> asset_name a <> va -> same_asset (blank d0 f) (blank d0 g) t a.
Proof.
  intros A B. split; [intros q _; rewrite !at_other by auto; reflexivity|]. destruct a; auto. intros e He. cbn. splits; try reflexivity. intros k Hk. splits; reflexivity.
Qed.
Lemma blank_same0 f a t : asset_name a <> sp -> asset_name a <> va -> same_asset d0 (blank d0 f) t a.
Proof.
  intros A B. split; [intros q _; rewrite !at_other by auto; reflexivity|]. destruct a; auto. intros e He. cbn. splits; try reflexivity. intros k Hk. splits; reflexivity.
Qed.
Lemma pad_total (g : dispatch -> nat -> asset -> Q) t : (forall a, same_asset pad dz t a -> g pad t a == g dz t a) ->
  total (g pad t) assets == total (g dz t) assets + (g pad t (ASpill sp) - g dz t (ASpill sp)) + (g pad t (AValve va) - g dz t (AValve va)).
Proof.
  intros H. apply total_two; auto; [apply sp_va|]. intros a Ia A B. apply H. apply blank_same; auto.
Qed.

Lemma Qmax_split x : Qmax 0 x - Qmax 0 (- x) == x.
Proof. destruct (Q.max_spec_le 0 x) as [[A ->]|[A ->]]; destruct (Q.max_spec_le 0 (- x)) as [[B ->]|[B ->]]; lra. Qed.
Theorem pad_physical : (0 < n_intervals c)%nat -> physical c assets fl pad /\ same_but [sp; va] pad d0.
Proof.
  intros Hn. destruct SC as [SG SA]. split; [split|].
  - intros t Ht.
    assert (0 <= pad_v t /\ - pad_h t <= pad_v t /\ pad_l t <= pad_v t) as (V1 & V2 & V3).
    { unfold pad_v. pose proof (Q.le_max_l 0 (Qmax (- pad_h t) (pad_l t))). pose proof (Q.le_max_r 0 (Qmax (- pad_h t) (pad_l t))). pose proof (Q.le_max_l (- pad_h t) (pad_l t)). pose proof (Q.le_max_r (- pad_h t) (pad_l t)). splits; lra. }
    assert (forall q, d_qty dz sp q t = 0 /\ d_qty dz va q t = 0) as Z by (intros q; split; [apply at_sp|apply at_va]).
    assert ((va =? sp)%string = false) as NV by (apply String.eqb_neq; intros E; apply sp_va; auto).
    splits.
    + exact (SG t Ht).
    + unfold electricity_balanced.
      rewrite (pad_total elec_gen t (fun a K => proj1 (proj1 (same_flows _ _ t a K)))), (pad_total elec_load t (fun a K => proj1 (proj2 (proj1 (same_flows _ _ t a K))))), (pad_total charge t (fun a K => proj1 (proj2 (proj2 (proj1 (same_flows _ _ t a K)))))), (pad_total discharge t (fun a K => proj2 (proj2 (proj2 (proj1 (same_flows _ _ t a K)))))).
      cbn [elec_gen elec_load charge discharge asset_name]. rewrite !(proj1 (Z _)).
      assert (d_qty pad sp ElecGen t = Qmax 0 (- pad_net t)) as -> by (unfold pad; now rewrite at_sp, String.eqb_refl).
      assert (d_qty pad sp ElecLoad t = Qmax 0 (pad_net t)) as -> by (unfold pad; now rewrite at_sp, String.eqb_refl).
      pose proof (Qmax_split (pad_net t)) as M. cbn [pad blank d_import d_export]. unfold pad_net in M at 3. lra.
    + unfold high_temperature_balanced.
      rewrite (pad_total ht_gen t (fun a K => proj1 (proj1 (proj2 (same_flows _ _ t a K))))), (pad_total ht_load t (fun a K => proj1 (proj2 (proj1 (proj2 (same_flows _ _ t a K)))))).
      cbn [ht_gen ht_load asset_name]. rewrite !(proj1 (Z _)), !(proj2 (Z _)). unfold pad. rewrite at_sp, at_va, String.eqb_refl, NV. unfold pad_h. lra.
    + unfold low_temperature_balanced.
      rewrite (pad_total lt_gen t (fun a K => proj1 (proj2 (proj2 (proj1 (proj2 (same_flows _ _ t a K))))))), (pad_total lt_load t (fun a K => proj2 (proj2 (proj2 (proj1 (proj2 (same_flows _ _ t a K))))))).
      cbn [lt_gen lt_load asset_name]. rewrite !(proj1 (Z _)), !(proj2 (Z _)). unfold pad. rewrite at_sp, at_va, String.eqb_refl, NV. unfold pad_l. lra.
  - intros a Ia. destruct (asset_dec a (ASpill sp)) as [E|E].
    { assert (a = ASpill sp) as -> by (apply (nodup_map_inj assets); auto). intros t Ht. unfold pad. rewrite !at_sp, !String.eqb_refl.
      pose proof (Q.le_max_l 0 (- pad_net t)). pose proof (Q.le_max_l 0 (pad_net t)).
      unfold pad_v. pose proof (Q.le_max_l 0 (Qmax (- pad_h t) (pad_l t))). pose proof (Q.le_max_r 0 (Qmax (- pad_h t) (pad_l t))). pose proof (Q.le_max_l (- pad_h t) (pad_l t)). pose proof (Q.le_max_r (- pad_h t) (pad_l t)). splits; lra. }
    destruct (asset_dec a (AValve va)) as [E2|E2].
    { assert (a = AValve va) as -> by (apply (nodup_map_inj assets); auto). intros t Ht. unfold pad. rewrite !at_va.
      assert ((va =? sp)%string = false) as NV by (apply String.eqb_neq; intros X; apply sp_va; auto). rewrite NV. split; [reflexivity|]. apply Q.le_max_l. }
    eapply (asset_physical_ext a (sc_freq c) fl (n_intervals c) d0); [|exact Hn|apply SA; auto; congruence]. intros t Ht. now apply blank_same0.
  - unfold same_but. splits; try reflexivity.
    + intros nm q t N. cbn [In] in N. apply at_other; intros ->; tauto.
    + intros. splits; reflexivity.
    + intros. splits; reflexivity.
Qed.
End Pad.
