(** * SemObj: the price and carbon objectives of a built program (proofs) *)
From Verif Require Import Base Pulp Params Optimizer Types Assets EVs Site Constraints Objectives Emit Prim Spec SpecSwitch SpecReport SpecRun Layout Rows Sem SemEv SemSite SemProg.
Open Scope Q_scope.

Definition eq_of (d : dispatch) (s : assignment) (iv : interval_vars) : Prop := forall t row, nth_error iv t = Some row -> Forall (oi_eq d t s) row.

Lemma vals_eq c assets fl iv lo hi cs d s : program c assets fl iv lo hi cs -> vals_of d s iv -> eq_of d s iv.
Proof.
  intros P V t row E. pose proof (pr_shape _ _ _ _ _ _ _ P t row E) as (r & xss & -> & SR & F). specialize (V t _ E).
  inversion V as [|? ? V1 V2]; subst. constructor; [exact V1|]. apply Forall_concat.
  pose proof (owns_exists c assets fl t r xss SR F (pr_names _ _ _ _ _ _ _ P)) as FO. eapply owns_vals; [exact FO|]. constructor; auto.
Qed.
Lemma sets_eq c assets fl iv lo hi cs (d : setting) s : program c assets fl iv lo hi cs -> sets_of d s iv -> Forall (asset_sane (sc_freq c)) assets -> physical c assets fl d -> switched c assets fl d (st_w d) -> eq_of d s iv.
Proof.
  intros P V SN (P1 & P2) SW t row E. pose proof (pr_shape _ _ _ _ _ _ _ P t row E) as (r & xss & -> & SR & F). specialize (V t _ E).
  assert (t < n_intervals c)%nat as Ht by (rewrite <- (pr_len _ _ _ _ _ _ _ P); apply nth_error_Some; congruence).
  assert (Forall asset_fine assets) as FN by (apply (pr_fine _ _ _ _ _ _ _ P); intros ->; destruct t; discriminate).
  pose proof (owns_exists c assets fl t r xss SR F (pr_names _ _ _ _ _ _ _ P)) as FO.
  assert (Forall2 (fun (a : asset) xs => Forall (oi_eq d t s) xs /\ Forall (fun x => vars_ok s (bal_vars x)) xs) assets xss) as G.
  { eapply owns_sets; [exact FO| |exact V]. intros a Ia. rewrite Forall_forall in FN, SN. specialize (P2 a Ia). rewrite asset_physical_iff in P2. destruct P2 as (Q1 & _). destruct (SW t Ht) as [_ SW2]. auto. }
  inversion V as [|? ? V1 V2]; subst. constructor; [cbn in *; tauto|]. apply Forall_concat. clear -G. induction G as [|a xs l l' [A B] G IH]; constructor; auto.
Qed.

(** sum of a per-object quantity over a row *)
Lemma row_total c assets fl t row d s (h : oneint -> Q) (g : asset -> Q) : row_shape c assets fl t row -> Forall asset_fine assets -> Forall (oi_eq d t s) row ->
  (forall a xs, asset_shape a t (sc_freq c) fl xs -> asset_fine a -> Forall (oi_eq d t s) xs -> Qsum (map h xs) == g a) ->
  exists r, In (OISite r) row /\ site_shape c r /\ Qsum (map h row) == h (OISite r) + total g assets.
Proof.
  intros (r & xss & -> & SR & F) FN V H. exists r. splits; auto; [now left|]. cbn [map Qsum fold_right]. inversion V as [|? ? _ V2]; subst. change (fold_right Qplus 0) with Qsum. apply Qplus_comp; [reflexivity|].
  rewrite concat_map, Qsum_concat, map_map. unfold total. clear SR V.
  assert (Forall (Forall (oi_eq d t s)) xss) as V3. { clear -V2. rewrite Forall_forall in *. intros xs I. rewrite Forall_forall. intros x J. apply V2. apply in_concat. eauto. }
  clear V2. induction F as [|a xs l l' Sh F IH]; [reflexivity|]. inversion FN; subst. inversion V3; subst. cbn [map]. unfold Qsum in *. cbn [fold_right]. apply Qplus_comp; auto.
Qed.

(** what an object adds to an objective that prices imports, exports and gas, and penalises spills *)
Definition contrib (s : assignment) (pi pe g : Q) (x : oneint) : Q :=
  match x with
  | OISite r => s (v_id (tio_import r)) * pi - s (v_id (tio_export r)) * pe
  | OISpill r => (s (v_id (soi_elec_gen r)) + s (v_id (soi_ht_gen r)) + s (v_id (soi_elec_load r))) * spill_penalty
  | OIEvSpill r => (fv s (eoi_charge r) + fv s (eoi_discharge r)) * spill_penalty
  | OICHP r => s (v_id (coi_gas r)) * g
  | OIBoiler r => s (v_id (kboi_gas r)) * g
  | _ => 0
  end.

Lemma contrib_asset a t f fl xs d s pi pe g : asset_shape a t f fl xs -> asset_fine a -> Forall (oi_eq d t s) xs ->
  Qsum (map (contrib s pi pe g) xs) == gas_use d t a * g + spilled d t a * spill_penalty.
Proof.
  intros SH FN V. destruct a as [c|c|c|c|c|c|n|n]; cbn [asset_shape] in SH.
  4:{ destruct SH as (S0 & S1 & E & Sp & SH). destruct (evs_eq_vals _ _ _ _ _ _ _ _ _ _ _ SH V) as [_ VS]. destruct SH as (-> & _). destruct FN as (P1 & Hn & Hc).
      rewrite map_app, Qsum_app, !map_map, P1. cbn [gas_use spilled].
      rewrite (Qsum_map_zero (fun x => contrib s pi pe g (OIEv x))) by reflexivity.
      unfold grid. cbn [seq map]. rewrite flat_map_concat_map, concat_map, Qsum_concat, !map_map. unfold ev_spill_total.
      setoid_replace (0 * g + Qsum (map (fun e : nat => d_spill_charge d (ev_name c) e t) (seq 0 (Datatypes.length (ev_event_cfgs c)))) * spill_penalty)
        with (Qsum (map (fun e : nat => d_spill_charge d (ev_name c) e t) (seq 0 (Datatypes.length (ev_event_cfgs c)))) * spill_penalty) by lra.
      rewrite Qplus_0_l, Qmult_comm, <- Qsum_map_scale. apply Qsum_map_ext. intros e J. apply in_seq in J.
      destruct (VS e) as [W1 W2]; [unfold n_events in *; lia|lia|]. cbn [map Qsum fold_right contrib]. rewrite W1, W2. lra. }
  all: destruct SH as (r & -> & SR); inversion V as [|? ? V1 _]; subst; clear V; destruct SR as (SR & _); cbn [map Qsum fold_right contrib gas_use spilled asset_name];
    cbn [oi_eq oi_val] in V1; unfold vset in V1; cbv zeta in V1; rewrite SR in V1; try lra.
  - destruct V1 as (_ & ->). lra.
  - destruct V1 as (_ & -> & _). lra.
  - destruct V1 as (-> & -> & -> & _). lra.
Qed.

Lemma rmap_sum {A} (F : A -> res aexpr) l ys s h : rmap F l = Ok ys -> (forall x y, In x l -> F x = Ok y -> eval s y == h x) -> Qsum (map (eval s) ys) == Qsum (map h l).
Proof.
  rewrite rmap_ok. induction 1 as [|x y l ys E F2 IH]; intros H; [reflexivity|]. cbn [map]. unfold Qsum in *. cbn [fold_right]. apply Qplus_comp; [apply H; auto; now left|]. apply IH. intros. apply H; auto. now right.
Qed.
Definition of_kind (k : kind) (x : oneint) : bool := kind_eqb (kind_of x) k.
Lemma matches_kind k row : filter (matches (Some k) None) row = filter (of_kind k) row.
Proof. apply filter_ext. intros x. unfold matches, of_kind. now rewrite andb_true_r. Qed.
Lemma contrib_parts s pi pe g row : (forall r, In (OISite r) row -> tio_name r = "site"%string) ->
  Qsum (map (contrib s pi pe g) row) ==
  Qsum (map (contrib s pi pe g) (filter (matches (Some KSite) (Some "site"%string)) row)) +
  (Qsum (map (contrib s pi pe g) (filter (of_kind KSpill) row)) + (Qsum (map (contrib s pi pe g) (filter (of_kind KEvSpill) row)) +
  (Qsum (map (contrib s pi pe g) (filter (of_kind KCHP) row)) + Qsum (map (contrib s pi pe g) (filter (of_kind KBoiler) row))))).
Proof.
  induction row as [|x row IH]; intros H; [cbn; lra|]. cbn [map filter]. assert (forall l y, Qsum (y :: l) == y + Qsum l) as QC by reflexivity. rewrite QC, IH by (intros; apply H; now right).
  assert (forall (b : bool) y l, Qsum (map (contrib s pi pe g) (if b then y :: l else l)) == (if b then contrib s pi pe g y else 0) + Qsum (map (contrib s pi pe g) l)) as QI by (intros [] y l; cbn [map]; [apply QC|lra]).
  rewrite !QI.
  assert (contrib s pi pe g x == (if matches (Some KSite) (Some "site"%string) x then contrib s pi pe g x else 0) + (if of_kind KSpill x then contrib s pi pe g x else 0) + (if of_kind KEvSpill x then contrib s pi pe g x else 0)
     + (if of_kind KCHP x then contrib s pi pe g x else 0) + (if of_kind KBoiler x then contrib s pi pe g x else 0)) as X.
  { destruct x; cbn [matches of_kind kind_of kind_eqb andb contrib oi_name]; try lra. rewrite (H r (or_introl eq_refl)), String.eqb_refl. lra. }
  lra.
Qed.

Lemma fmul_ok f q e s : fmul f q = Ok e -> eval s e == fv s f * q.
Proof. intros H. assert (e = escale (fexpr f) q) as -> by (unfold fmul in H; destruct f; congruence). rewrite eval_escale, eval_fexpr. reflexivity. Qed.
Lemma fmul_sum_ok fs q e s : fmul_sum fs q = Ok e -> eval s e == Qsum (map (fv s) fs) * q.
Proof.
  unfold fmul_sum. rewrite rbind_ok. intros (es & H & [= <-]). rewrite eval_esum.
  rewrite (rmap_sum _ _ _ s (fun f => q * fv s f) H); [rewrite Qsum_map_scale; lra|]. intros f y _ E. rewrite (fmul_ok _ _ _ _ E). lra.
Qed.

Lemma at_interval_ok k name iv t l : at_interval (filter_all_intervals iv k name) t = Ok l -> exists row, nth_error iv t = Some row /\ l = filter (matches k name) row.
Proof.
  unfold at_interval. rewrite py_index_nat, of_option_ok. unfold filter_all_intervals. rewrite nth_error_map. destruct (nth_error iv t); [|discriminate]. intros [= <-]. eauto.
Qed.

Lemma row_sites c assets fl t row : row_shape c assets fl t row -> forall r, In (OISite r) row -> tio_name r = "site"%string.
Proof.
  intros (r0 & xss & -> & SR & F) r [[= <-]|I]; [apply SR|]. apply in_concat in I. destruct I as (xs & J1 & J2). exfalso.
  induction F as [|a ys l l' Sh F IH]; [destruct J1|]. destruct J1 as [->|J1]; [|auto]. destruct (shape_name _ _ _ _ _ _ Sh J2) as [_ N]. now apply N.
Qed.

Section price.
Context (c : site_cfg) (assets : list asset) (fl : flags) (iv : interval_vars) (lo hi : nat) (cs : list constr) (P : program c assets fl iv lo hi cs).

Lemma contrib_total d s t row : eq_of d s iv -> nth_error iv t = Some row -> forall pi pe g,
  Qsum (map (contrib s pi pe g) row) == d_import d t * pi - d_export d t * pe + total (gas_use d t) assets * g + total (spilled d t) assets * spill_penalty.
Proof.
  intros V E pi pe g. specialize (V t row E). pose proof (pr_shape _ _ _ _ _ _ _ P t row E) as SH.
  assert (Forall asset_fine assets) as FN by (apply (pr_fine _ _ _ _ _ _ _ P); intros ->; destruct t; discriminate).
  destruct (row_total c assets fl t row d s (contrib s pi pe g) (fun a => gas_use d t a * g + spilled d t a * spill_penalty) SH FN V) as (r & I & SR & ->).
  { intros. eapply contrib_asset; eauto. }
  rewrite Forall_forall in V. specialize (V _ I). cbn [oi_eq oi_val] in V. unfold vset in V. destruct V as [V1 V2]. cbn [contrib]. rewrite V1, V2.
  unfold total. rewrite (Qsum_map_plus (fun a => gas_use d t a * g)). rewrite (Qsum_map_ext (fun a => gas_use d t a * g) (fun a => g * gas_use d t a)) by (intros; lra).
  rewrite (Qsum_map_ext (fun a => spilled d t a * spill_penalty) (fun a => spill_penalty * spilled d t a)) by (intros; lra). rewrite !Qsum_map_scale. lra.
Qed.

Lemma price_at_eval d s t l : eq_of d s iv -> price_at iv (sc_idata c) t = Ok l -> Qsum (map (eval s) l) == interval_cost c assets d t.
Proof.
  intros V H. unfold price_at in H.
  rewrite rbind_ok in H. destruct H as (l0 & H0 & H). rewrite rbind_ok in H. destruct H as (l1 & H1 & H). rewrite rbind_ok in H. destruct H as (l2 & H2 & H).
  rewrite rbind_ok in H. destruct H as (l3 & H3 & H). rewrite rbind_ok in H. destruct H as (l4 & H4 & H).
  rewrite rbind_ok in H. destruct H as (e0 & G0 & H). rewrite rbind_ok in H. destruct H as (e1 & G1 & H). rewrite rbind_ok in H. destruct H as (e2 & G2 & H).
  rewrite rbind_ok in H. destruct H as (e3 & G3 & H). rewrite rbind_ok in H. destruct H as (e4 & G4 & H). injection H as <-.
  apply at_interval_ok in H0, H1, H2, H3, H4. destruct H0 as (row & E & ->). destruct H1 as (row1 & E1 & ->). destruct H2 as (row2 & E2 & ->). destruct H3 as (row3 & E3 & ->). destruct H4 as (row4 & E4 & ->).
  assert (row1 = row) as -> by congruence. assert (row2 = row) as -> by congruence. assert (row3 = row) as -> by congruence. assert (row4 = row) as -> by congruence. clear E1 E2 E3 E4.
  rewrite !matches_kind in *. set (p := data (id_electricity_prices (sc_idata c)) t). set (q := data (id_export_electricity_prices (sc_idata c)) t). set (g := data (id_gas_prices (sc_idata c)) t).
  pose proof (row_sites _ _ _ _ _ (pr_shape _ _ _ _ _ _ _ P t row E)) as RN.
  rewrite !map_app, !Qsum_app.
  rewrite (rmap_sum _ _ _ s (contrib s p q g) G0), (rmap_sum _ _ _ s (contrib s p q g) G1), (rmap_sum _ _ _ s (contrib s p q g) G2), (rmap_sum _ _ _ s (contrib s p q g) G3), (rmap_sum _ _ _ s (contrib s p q g) G4).
  - rewrite <- (contrib_parts s p q g row RN). rewrite (contrib_total d s t row V E). unfold interval_cost. fold p q g. lra.
  - intros x y I Hy. apply filter_In in I. destruct I as [_ I]. unfold of_kind in I. destruct x; try discriminate. unfold price_gas in Hy. rewrite rbind_ok in Hy. destruct Hy as (z & Z1 & Z2). apply nth_res_data in Z1. rewrite (fmul_ok _ _ _ _ Z2). cbn. unfold g. rewrite Z1. lra.
  - intros x y I Hy. apply filter_In in I. destruct I as [_ I]. unfold of_kind in I. destruct x; try discriminate. unfold price_gas in Hy. rewrite rbind_ok in Hy. destruct Hy as (z & Z1 & Z2). apply nth_res_data in Z1. rewrite (fmul_ok _ _ _ _ Z2). cbn. unfold g. rewrite Z1. lra.
  - intros x y I Hy. apply filter_In in I. destruct I as [_ I]. unfold of_kind in I. destruct x; try discriminate. unfold price_spill_ev in Hy. rewrite (fmul_sum_ok _ _ _ _ Hy). cbn [map contrib electric_charge_mwh electric_discharge_mwh Qsum fold_right]. unfold spill_penalty, d_spill_objective_penalty. lra.
  - intros x y I Hy. apply filter_In in I. destruct I as [_ I]. unfold of_kind in I. destruct x; try discriminate. unfold price_spill in Hy. rewrite (fmul_sum_ok _ _ _ _ Hy). cbn [map contrib electric_generation_mwh high_temperature_generation_mwh electric_load_mwh high_temperature_load_mwh Qsum fold_right fv]. change (inject_Z 0) with 0. unfold spill_penalty, d_spill_objective_penalty. lra.
  - intros x y I Hy. apply filter_In in I. destruct I as [_ I]. unfold matches in I. destruct x; try discriminate. unfold price_site in Hy. rewrite rbind_ok in Hy. destruct Hy as (z & Z1 & Hy). rewrite rbind_ok in Hy. destruct Hy as (z2 & Z2 & Hy). injection Hy as <-. apply nth_res_data in Z1. apply nth_res_data in Z2. cbn [contrib].
    ev_goal. unfold p, q. rewrite Z1, Z2. lra.
Qed.

Lemma carbon_at_eval d s t l : eq_of d s iv -> carbon_at iv (sc_idata c) t = Ok l -> Qsum (map (eval s) l) == interval_emissions c assets d t.
Proof.
  intros V H. unfold carbon_at in H.
  rewrite rbind_ok in H. destruct H as (l0 & H0 & H). rewrite rbind_ok in H. destruct H as (l1 & H1 & H). rewrite rbind_ok in H. destruct H as (l2 & H2 & H).
  rewrite rbind_ok in H. destruct H as (l3 & H3 & H). rewrite rbind_ok in H. destruct H as (l4 & H4 & H).
  rewrite rbind_ok in H. destruct H as (e0 & G0 & H). rewrite rbind_ok in H. destruct H as (e1 & G1 & H). rewrite rbind_ok in H. destruct H as (e2 & G2 & H).
  rewrite rbind_ok in H. destruct H as (e3 & G3 & H). rewrite rbind_ok in H. destruct H as (e4 & G4 & H). injection H as <-.
  apply at_interval_ok in H0, H1, H2, H3, H4. destruct H0 as (row & E & ->). destruct H1 as (row1 & E1 & ->). destruct H2 as (row2 & E2 & ->). destruct H3 as (row3 & E3 & ->). destruct H4 as (row4 & E4 & ->).
  assert (row1 = row) as -> by congruence. assert (row2 = row) as -> by congruence. assert (row3 = row) as -> by congruence. assert (row4 = row) as -> by congruence. clear E1 E2 E3 E4.
  rewrite !matches_kind in *. set (p := data (id_electricity_carbon_intensities (sc_idata c)) t). set (g := gas_intensity).
  pose proof (row_sites _ _ _ _ _ (pr_shape _ _ _ _ _ _ _ P t row E)) as RN.
  rewrite !map_app, !Qsum_app.
  rewrite (rmap_sum _ _ _ s (contrib s p p g) G0), (rmap_sum _ _ _ s (contrib s p p g) G1), (rmap_sum _ _ _ s (contrib s p p g) G2), (rmap_sum _ _ _ s (contrib s p p g) G3), (rmap_sum _ _ _ s (contrib s p p g) G4).
  - rewrite <- (contrib_parts s p p g row RN). rewrite (contrib_total d s t row V E). unfold interval_emissions. fold p g. lra.
  - intros x y I Hy. apply filter_In in I. destruct I as [_ I]. unfold of_kind in I. destruct x; try discriminate. unfold carbon_gas in Hy. rewrite (fmul_ok _ _ _ _ Hy). cbn [gas_consumption_mwh contrib fv]. reflexivity.
  - intros x y I Hy. apply filter_In in I. destruct I as [_ I]. unfold of_kind in I. destruct x; try discriminate. unfold carbon_gas in Hy. rewrite (fmul_ok _ _ _ _ Hy). cbn [gas_consumption_mwh contrib fv]. reflexivity.
  - intros x y I Hy. apply filter_In in I. destruct I as [_ I]. unfold of_kind in I. destruct x; try discriminate. unfold carbon_spill in Hy. rewrite (fmul_sum_ok _ _ _ _ Hy). cbn [map contrib electric_charge_mwh electric_discharge_mwh electric_generation_mwh high_temperature_generation_mwh electric_load_mwh Qsum fold_right fv]. change (inject_Z 0) with 0. unfold spill_penalty, d_spill_objective_penalty. lra.
  - intros x y I Hy. apply filter_In in I. destruct I as [_ I]. unfold of_kind in I. destruct x; try discriminate. unfold carbon_spill in Hy. rewrite (fmul_sum_ok _ _ _ _ Hy). cbn [map contrib electric_charge_mwh electric_discharge_mwh electric_generation_mwh high_temperature_generation_mwh electric_load_mwh Qsum fold_right fv]. change (inject_Z 0) with 0. unfold spill_penalty, d_spill_objective_penalty. lra.
  - intros x y I Hy. apply filter_In in I. destruct I as [_ I]. unfold matches in I. destruct x; try discriminate. unfold carbon_site in Hy. rewrite rbind_ok in Hy. destruct Hy as (z & Z1 & Hy). injection Hy as <-. apply nth_res_data in Z1. cbn [contrib].
    ev_goal. unfold p. rewrite Z1. lra.
Qed.

Lemma horizon_sum (F : nat -> res (list aexpr)) l ls s g : rmap F l = Ok ls -> (forall t x, F t = Ok x -> Qsum (map (eval s) x) == g t) ->
  eval s (esum (List.concat ls)) == Qsum (map g l).
Proof.
  rewrite rmap_ok, eval_esum, concat_map, Qsum_concat, map_map. intros H K. induction H as [|t x l ls E F2 IH]; [reflexivity|]. cbn [map]. unfold Qsum at 1 3. cbn [fold_right]. apply Qplus_comp; auto.
Qed.
Lemma price_eval d s e : eq_of d s iv -> price_objective iv (sc_idata c) = Ok e -> eval s e == dispatch_cost c assets d.
Proof.
  intros V H. unfold price_objective in H. rewrite rbind_ok in H. destruct H as (ls & H & [= <-]). unfold dispatch_cost, over_horizon, n_intervals.
  eapply horizon_sum; eauto. intros. eapply price_at_eval; eauto.
Qed.
Lemma carbon_eval d s e : eq_of d s iv -> carbon_objective iv (sc_idata c) = Ok e -> eval s e == dispatch_emissions c assets d.
Proof.
  intros V H. unfold carbon_objective in H. rewrite rbind_ok in H. destruct H as (ls & H & [= <-]). unfold dispatch_emissions, over_horizon, n_intervals.
  eapply horizon_sum; eauto. intros. eapply carbon_at_eval; eauto.
Qed.

(** ** the variables of the objectives are constrained *)
Definition cared (v : lpvar) : Prop := exists row x, In row iv /\ In x row /\ (In v (must_vars x) \/ In v (bal_vars x)).
Lemma fmul_vars f q e : fmul f q = Ok e -> incl (evars e) (fvars f).
Proof. intros H. assert (e = escale (fexpr f) q) as -> by (unfold fmul in H; destruct f; congruence). intros v. rewrite evars_escale, evars_fexpr. destruct (Qeq_bool q 0); cbn; tauto. Qed.
Lemma rmap_vars {A} (F : A -> res aexpr) l ys (Pv : lpvar -> Prop) : rmap F l = Ok ys -> (forall x y v, In x l -> F x = Ok y -> In v (evars y) -> Pv v) -> forall y v, In y ys -> In v (evars y) -> Pv v.
Proof.
  rewrite rmap_ok. intros H K y v I. destruct (Forall2_in_r _ _ _ _ H I) as (x & Ix & E). eauto.
Qed.
Lemma fmul_sum_vars fs q e v : fmul_sum fs q = Ok e -> In v (evars e) -> exists f, In f fs /\ In v (fvars f).
Proof.
  unfold fmul_sum. rewrite rbind_ok. intros (es & H & [= <-]). rewrite evars_esum. intros I. apply in_flat_map in I. destruct I as (y & Iy & Iv).
  rewrite rmap_ok in H. destruct (Forall2_in_r _ _ _ _ H Iy) as (f & If & E). exists f. split; auto. eapply fmul_vars; eauto.
Qed.
Ltac obj_vars_kind row E x := eexists row, x; splits; [eapply nth_error_In; exact E|assumption|].
Lemma price_at_vars t l y v : price_at iv (sc_idata c) t = Ok l -> In y l -> In v (evars y) -> cared v.
Proof.
  intros H Iy Iv. unfold price_at in H.
  rewrite rbind_ok in H. destruct H as (l0 & H0 & H). rewrite rbind_ok in H. destruct H as (l1 & H1 & H). rewrite rbind_ok in H. destruct H as (l2 & H2 & H).
  rewrite rbind_ok in H. destruct H as (l3 & H3 & H). rewrite rbind_ok in H. destruct H as (l4 & H4 & H).
  rewrite rbind_ok in H. destruct H as (e0 & G0 & H). rewrite rbind_ok in H. destruct H as (e1 & G1 & H). rewrite rbind_ok in H. destruct H as (e2 & G2 & H).
  rewrite rbind_ok in H. destruct H as (e3 & G3 & H). rewrite rbind_ok in H. destruct H as (e4 & G4 & H). injection H as <-.
  apply at_interval_ok in H0, H1, H2, H3, H4. destruct H0 as (row & E & ->). destruct H1 as (row1 & E1 & ->). destruct H2 as (row2 & E2 & ->). destruct H3 as (row3 & E3 & ->). destruct H4 as (row4 & E4 & ->).
  rewrite !in_app_iff in Iy. destruct Iy as [Iy|[Iy|[Iy|[Iy|Iy]]]].
  - revert Iy Iv. eapply (rmap_vars _ _ _ cared G0). intros x z w I Hy Iw. apply filter_In in I. destruct I as [I K]. unfold matches in K. destruct x; try discriminate. unfold price_site in Hy. rewrite rbind_ok in Hy. destruct Hy as (q1 & _ & Hy). rewrite rbind_ok in Hy. destruct Hy as (q2 & _ & Hy). injection Hy as <-.
    obj_vars_kind row E (OISite r). left. rewrite evars_esub, !evars_escale, !in_app_iff in Iw. cbn [must_vars In]. destruct (Qeq_bool q1 0), (Qeq_bool q2 0); cbn in Iw; tauto.
  - revert Iy Iv. eapply (rmap_vars _ _ _ cared G1). intros x z w I Hy Iw. apply filter_In in I. destruct I as [I K]. unfold matches in K. destruct x; try discriminate. unfold price_spill in Hy. destruct (fmul_sum_vars _ _ _ _ Hy Iw) as (f & If & Jf).
    obj_vars_kind row1 E1 (OISpill r). right. unfold bal_vars. rewrite !in_app_iff. cbn [In] in If. destruct If as [<-|[<-|[<-|[<-|[]]]]]; tauto.
  - revert Iy Iv. eapply (rmap_vars _ _ _ cared G2). intros x z w I Hy Iw. apply filter_In in I. destruct I as [I K]. unfold matches in K. destruct x; try discriminate. unfold price_spill_ev in Hy. destruct (fmul_sum_vars _ _ _ _ Hy Iw) as (f & If & Jf).
    obj_vars_kind row2 E2 (OIEvSpill r). right. unfold bal_vars. rewrite !in_app_iff. cbn [In] in If. destruct If as [<-|[<-|[]]]; tauto.
  - revert Iy Iv. eapply (rmap_vars _ _ _ cared G3). intros x z w I Hy Iw. apply filter_In in I. destruct I as [I K]. unfold matches in K. destruct x; try discriminate. unfold price_gas in Hy. rewrite rbind_ok in Hy. destruct Hy as (q1 & _ & Hy). apply (fmul_vars _ _ _ Hy) in Iw.
    obj_vars_kind row3 E3 (OICHP r). left. cbn in *. tauto.
  - revert Iy Iv. eapply (rmap_vars _ _ _ cared G4). intros x z w I Hy Iw. apply filter_In in I. destruct I as [I K]. unfold matches in K. destruct x; try discriminate. unfold price_gas in Hy. rewrite rbind_ok in Hy. destruct Hy as (q1 & _ & Hy). apply (fmul_vars _ _ _ Hy) in Iw.
    obj_vars_kind row4 E4 (OIBoiler r). left. cbn in *. tauto.
Qed.
Lemma carbon_at_vars t l y v : carbon_at iv (sc_idata c) t = Ok l -> In y l -> In v (evars y) -> cared v.
Proof.
  intros H Iy Iv. unfold carbon_at in H.
  rewrite rbind_ok in H. destruct H as (l0 & H0 & H). rewrite rbind_ok in H. destruct H as (l1 & H1 & H). rewrite rbind_ok in H. destruct H as (l2 & H2 & H).
  rewrite rbind_ok in H. destruct H as (l3 & H3 & H). rewrite rbind_ok in H. destruct H as (l4 & H4 & H).
  rewrite rbind_ok in H. destruct H as (e0 & G0 & H). rewrite rbind_ok in H. destruct H as (e1 & G1 & H). rewrite rbind_ok in H. destruct H as (e2 & G2 & H).
  rewrite rbind_ok in H. destruct H as (e3 & G3 & H). rewrite rbind_ok in H. destruct H as (e4 & G4 & H). injection H as <-.
  apply at_interval_ok in H0, H1, H2, H3, H4. destruct H0 as (row & E & ->). destruct H1 as (row1 & E1 & ->). destruct H2 as (row2 & E2 & ->). destruct H3 as (row3 & E3 & ->). destruct H4 as (row4 & E4 & ->).
  rewrite !in_app_iff in Iy. destruct Iy as [Iy|[Iy|[Iy|[Iy|Iy]]]].
  - revert Iy Iv. eapply (rmap_vars _ _ _ cared G0). intros x z w I Hy Iw. apply filter_In in I. destruct I as [I K]. unfold matches in K. destruct x; try discriminate. unfold carbon_site in Hy. rewrite rbind_ok in Hy. destruct Hy as (q1 & _ & Hy). injection Hy as <-.
    obj_vars_kind row E (OISite r). left. rewrite evars_esub, !evars_escale, !in_app_iff in Iw. cbn [must_vars In]. destruct (Qeq_bool q1 0); cbn in Iw; tauto.
  - revert Iy Iv. eapply (rmap_vars _ _ _ cared G1). intros x z w I Hy Iw. apply filter_In in I. destruct I as [I K]. unfold matches in K. destruct x; try discriminate. unfold carbon_spill in Hy. destruct (fmul_sum_vars _ _ _ _ Hy Iw) as (f & If & Jf).
    obj_vars_kind row1 E1 (OISpill r). right. unfold bal_vars. rewrite !in_app_iff. cbn [In] in If. destruct If as [<-|[<-|[<-|[<-|[<-|[]]]]]]; tauto.
  - revert Iy Iv. eapply (rmap_vars _ _ _ cared G2). intros x z w I Hy Iw. apply filter_In in I. destruct I as [I K]. unfold matches in K. destruct x; try discriminate. unfold carbon_spill in Hy. destruct (fmul_sum_vars _ _ _ _ Hy Iw) as (f & If & Jf).
    obj_vars_kind row2 E2 (OIEvSpill r). right. unfold bal_vars. rewrite !in_app_iff. cbn [In] in If. destruct If as [<-|[<-|[<-|[<-|[<-|[]]]]]]; tauto.
  - revert Iy Iv. eapply (rmap_vars _ _ _ cared G3). intros x z w I Hy Iw. apply filter_In in I. destruct I as [I K]. unfold matches in K. destruct x; try discriminate. apply (fmul_vars _ _ _ Hy) in Iw.
    obj_vars_kind row3 E3 (OICHP r). left. cbn in *. tauto.
  - revert Iy Iv. eapply (rmap_vars _ _ _ cared G4). intros x z w I Hy Iw. apply filter_In in I. destruct I as [I K]. unfold matches in K. destruct x; try discriminate. apply (fmul_vars _ _ _ Hy) in Iw.
    obj_vars_kind row4 E4 (OIBoiler r). left. cbn in *. tauto.
Qed.
Lemma named_objective_vars n o e o' v : get_objective (ObjName n) iv (sc_idata c) o = Ok (e, o') -> In v (evars e) -> cared v.
Proof.
  cbn [get_objective]. intros H Iv. 
  assert (exists F ls, (forall t l y w, F t = Ok l -> In y l -> In w (evars y) -> cared w) /\ rmap F (seq 0 (id_n (sc_idata c))) = Ok ls /\ e = esum (List.concat ls)) as (F & ls & HF & HR & ->).
  { destruct (String.eqb n "price"); [|destruct (String.eqb n "carbon"); [|destruct (proj1 (raise_ok _ _ _ _) H)]]; apply lift_ok in H; destruct H as [H _].
    - unfold price_objective in H. rewrite rbind_ok in H. destruct H as (ls & H & [= <-]). eexists _, ls. splits; [apply price_at_vars|exact H|reflexivity].
    - unfold carbon_objective in H. rewrite rbind_ok in H. destruct H as (ls & H & [= <-]). eexists _, ls. splits; [apply carbon_at_vars|exact H|reflexivity]. }
  rewrite evars_esum in Iv. apply in_flat_map in Iv. destruct Iv as (y & Iy & Iv). apply in_concat in Iy. destruct Iy as (l & Il & Iy).
  rewrite rmap_ok in HR. destruct (Forall2_in_r _ _ _ _ HR Il) as (t & _ & E). eauto.
Qed.
Lemma cared_occurs v : Forall chp_fine assets -> cared v -> In v (cs_vars cs).
Proof. intros CF (row & x & A & B & C). eapply (pr_occurs _ _ _ _ _ _ _ P); eauto. Qed.
Lemma occurs_ok s v : all_ok s cs -> In v (cs_vars cs) -> var_ok s v.
Proof.
  intros OK I. unfold cs_vars in I. apply in_flat_map in I. destruct I as (k & Ik & Iv). unfold all_ok in OK. rewrite Forall_forall in OK. destruct (OK k Ik) as [_ V]. rewrite Forall_forall in V. auto.
Qed.
End price.
