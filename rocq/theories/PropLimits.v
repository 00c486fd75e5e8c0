(** * PropLimits: C73: limits on how often the equipment runs *)
From Verif Require Import Base Pulp Params Optimizer Types Assets EVs Site Constraints Objectives Extract Pipeline Emit Prim Spec SpecSwitch SpecReport SpecRun SpecCost SpecTerms SpecReadings Layout Rows Sem SemEv SemSite SemProg SemObj SemResults SemTerms SemAll RunFacts Builds Complete Bounded PropSite PropObjective PropTerms PropSwitch.
Open Scope Q_scope.
Open Scope string_scope.

(** ** one part picked by type and name *)
Lemma only_piece q (assets : list asset) t attr a ty : NoDup (map asset_name assets) -> In a assets -> piece_type (PAsset a) = Some ty -> ty <> "*" -> (forall e, a <> AEVs e) ->
  amount q assets t attr (picked (Some ty) (Some (asset_name a))) == q t attr (PAsset a).
Proof.
  intros ND Ia PT NS NE. unfold amount, pieces. cbn [filter].
  assert (ty <> "site" /\ ty <> "evs" /\ ty <> "spill_evs") as (T1 & T2 & T3) by (destruct a; cbn in PT; try discriminate; injection PT as <-; repeat split; discriminate).
  assert (picked (Some ty) (Some (asset_name a)) PSite = false) as ->.
  { unfold picked. cbn [type_picks piece_type]. rewrite (proj2 (String.eqb_neq _ _) NS), (proj2 (String.eqb_neq _ _) T1). reflexivity. }
  assert (forall b, asset_name b <> asset_name a -> filter (picked (Some ty) (Some (asset_name a))) (pieces_of b) = []) as OFF.
  { intros b N. assert ((asset_name a =? asset_name b) = false) as E by (apply String.eqb_neq; congruence).
    destruct b; cbn [pieces_of filter]; unfold picked; cbn [name_picks piece_name asset_name] in *; rewrite ?E, ?andb_false_r; reflexivity. }
  assert (filter (picked (Some ty) (Some (asset_name a))) (pieces_of a) = [PAsset a]) as ON.
  { destruct a; try (exfalso; eapply NE; reflexivity); cbn [pieces_of filter]; unfold picked; cbn [type_picks name_picks piece_name]; rewrite PT, !String.eqb_refl, orb_true_r; reflexivity. }
  clear PT NS NE T1 T2 T3. induction assets as [|b l IH]; [destruct Ia|]. cbn [flat_map]. rewrite filter_app. inversion ND as [|? ? N1 N2]; subst.
  destruct Ia as [->|Ia].
  - rewrite ON. assert (filter (picked (Some ty) (Some (asset_name a))) (flat_map pieces_of l) = []) as ->.
    { clear IH ND. assert (forall b, In b l -> asset_name b <> asset_name a) as D by (intros b Ib E; apply N1; rewrite <- E; now apply in_map). clear N1 N2.
      induction l as [|b l IH]; [reflexivity|]. cbn [flat_map]. rewrite filter_app, OFF by (apply D; now left). apply IH. intros x Ix. apply D. now right. }
    cbn. ring.
  - rewrite OFF; [|intros E; apply N1; rewrite E; now apply in_map]. apply (IH N2 Ia).
Qed.

(** ** counting *)
Lemma count_S n : count (Datatypes.S n) == 1 + count n.
Proof. unfold count. rewrite Nat2Z.inj_succ, <- Z.add_1_l, inject_Z_plus. reflexivity. Qed.
Lemma count_le n m : count n <= count m <-> (n <= m)%nat.
Proof. unfold count. rewrite <- Zle_Qle. lia. Qed.
Lemma running_ind (flow : nat -> Q) (l : list nat) : count (List.length (filter (fun t => negb (Qeq_bool (flow t) 0)) l)) == Qsum (map (fun t => ind (flow t)) l).
Proof.
  induction l as [|t l IH]; [reflexivity|]. cbn [filter map]. change (Qsum (ind (flow t) :: map (fun t => ind (flow t)) l)) with (ind (flow t) + Qsum (map (fun t => ind (flow t)) l)).
  unfold ind at 1. destruct (Qeq_bool (flow t) 0); cbn [negb List.length]; [|rewrite count_S]; rewrite IH; ring.
Qed.
Lemma running_switch n (flow w : nat -> Q) : (forall t, (t < n)%nat -> switch_for (w t) (flow t)) -> count (running n flow) <= Qsum (map w (seq 0 n)).
Proof.
  intros S. unfold running. rewrite running_ind. apply Qsum_le. intros t It. apply in_seq in It. destruct (S t) as [B Z]; [lia|].
  destruct (ind_spec (flow t)) as [[_ ->]|[N ->]]; destruct B as [B|B]; try (exfalso; tauto); rewrite B; lra.
Qed.
Lemma running_ext n (f g : nat -> Q) : (forall t, (t < n)%nat -> f t == g t) -> running n f = running n g.
Proof.
  intros E. unfold running. f_equal. apply filter_ext_in. intros t It. apply in_seq in It. f_equal. specialize (E t). 
  assert (f t == g t) as X by (apply E; lia). destruct (Qeq_bool (f t) 0) eqn:A, (Qeq_bool (g t) 0) eqn:B; auto.
  - apply Qeq_bool_iff in A. apply Qeq_bool_neq in B. exfalso. apply B. now rewrite <- X.
  - apply Qeq_bool_iff in B. apply Qeq_bool_neq in A. exfalso. apply A. now rewrite X.
Qed.

(** ** the switches that are on exactly where there is a flow *)
Definition on_flow (assets : list asset) (nm : string) : qty :=
  match find (fun a => asset_name a =? nm) assets with Some (ACHP _) => ElecGen | Some (AHeatPump _) => ElecLoad | _ => HtGen end.
Definition tight (assets : list asset) (d : dispatch) : switches :=
  mkSwitches (fun t => ind (d_import d t)) (fun t => 1 - ind (d_import d t)) (fun nm t => ind (d_qty d nm (on_flow assets nm) t))
    (fun nm t => ind (d_qty d nm Charge t)) (fun nm t => ind (d_qty d nm Discharge t))
    (fun nm e k t => ind (d_ev_charge d nm e k t)) (fun nm e k t => ind (d_ev_discharge d nm e k t))
    (fun nm e t => ind (d_spill_charge d nm e t)).
Lemma find_named assets a : NoDup (map asset_name assets) -> In a assets -> find (fun b => asset_name b =? asset_name a) assets = Some a.
Proof.
  induction assets as [|b l IH]; intros ND Ia; [destruct Ia|]. inversion ND as [|? ? N1 N2]; subst. cbn [find]. destruct Ia as [->|Ia]; [now rewrite String.eqb_refl|].
  assert ((asset_name b =? asset_name a) = false) as -> by (apply String.eqb_neq; intros E; apply N1; rewrite E; now apply in_map). auto.
Qed.
Lemma tight_switched c assets fl d : NoDup (map asset_name assets) -> physical c assets fl d -> switched c assets fl d (tight assets d).
Proof.
  intros ND PH t Ht. destruct (natural_switched c assets fl d ND PH t Ht) as [NS NA]. split; [exact NS|]. intros a Ia. specialize (NA a Ia). pose proof (find_named assets a ND Ia) as FN.
  destruct a as [b|b|b|b|b|b|nm|nm]; try exact NA; cbn [asset_name] in FN; cbn [asset_switched].
  - unfold boiler_switched, tight, on_flow. cbn [w_on]. rewrite FN. apply ind_switch.
  - cbn [asset_switched] in NA. unfold chp_switched, natural, tight, on_flow in *. cbn [w_on st_w] in *. rewrite FN.
    assert (existsb (is_chp (ch_name b)) assets = true) as EX by (apply existsb_exists; exists (ACHP b); split; auto; cbn; apply String.eqb_refl). rewrite EX in NA. exact NA.
  - unfold hp_switched, tight, on_flow. cbn [w_on]. rewrite FN. apply ind_switch.
Qed.

(** ** the limits *)
Lemma flow_switch assets a attr q col : NoDup (map asset_name assets) -> In a assets -> switch_flow a attr = Some (q, col) ->
  (exists ty, piece_type (PAsset a) = Some ty /\ ty <> "*") /\ (forall e, a <> AEVs e) /\ (forall d t, In (column (asset_name a) col, Some (d_qty d (asset_name a) q t)) (asset_cells d t a)) /\
  exists sw : switches -> nat -> Q, (forall c d w t, full_quantity c d w t attr (PAsset a) = sw w t) /\
    (forall f fl d w t, asset_switched a f fl d w t -> switch_for (sw w t) (d_qty d (asset_name a) q t)) /\
    (forall d t, sw (tight assets d) t = ind (d_qty d (asset_name a) q t)).
Proof.
  intros ND Ia SF. pose proof (find_named assets a ND Ia) as FN.
  destruct a as [b|b|b|b|b|b|nm|nm]; cbn [switch_flow] in SF; try discriminate.
  - destruct (attr =? "electric_charge_binary") eqn:E; [|destruct (attr =? "electric_discharge_binary") eqn:E2; [|discriminate]].
    + apply String.eqb_eq in E. subst attr. injection SF as <- <-. splits; [exists "battery"; split; [reflexivity|discriminate]|discriminate| |].
      * intros d t. cbn [asset_cells asset_name]. cbn [In]. auto.
      * exists (fun w t => w_charge w (b_name b) t). splits; [reflexivity|intros f fl d w t H; apply H|reflexivity].
    + apply String.eqb_eq in E2. subst attr. injection SF as <- <-. splits; [exists "battery"; split; [reflexivity|discriminate]|discriminate| |].
      * intros d t. cbn [asset_cells asset_name]. cbn [In]. auto 6.
      * exists (fun w t => w_discharge w (b_name b) t). splits; [reflexivity|intros f fl d w t H; apply H|reflexivity].
  - destruct (attr =? "binary") eqn:E; [|discriminate]. apply String.eqb_eq in E. subst attr. injection SF as <- <-. splits; [exists "boiler"; split; [reflexivity|discriminate]|discriminate| |].
    + intros d t. cbn [asset_cells asset_name]. cbn [In]. auto 6.
    + exists (fun w t => w_on w (bo_name b) t). splits; [reflexivity|intros f fl d w t H; apply H|]. intros d t. cbn [tight w_on]. unfold on_flow. cbn [asset_name] in FN. now rewrite FN.
  - destruct (attr =? "binary") eqn:E; [|discriminate]. apply String.eqb_eq in E. subst attr. injection SF as <- <-. splits; [exists "chp"; split; [reflexivity|discriminate]|discriminate| |].
    + intros d t. cbn [asset_cells asset_name]. cbn [In]. auto 6.
    + exists (fun w t => w_on w (ch_name b) t). splits; [reflexivity|intros f fl d w t H; apply H|]. intros d t. cbn [tight w_on]. unfold on_flow. cbn [asset_name] in FN. now rewrite FN.
  - destruct (attr =? "electric_load_binary") eqn:E; [|discriminate]. apply String.eqb_eq in E. subst attr. injection SF as <- <-. splits; [exists "heat-pump"; split; [reflexivity|discriminate]|discriminate| |].
    + intros d t. cbn [asset_cells asset_name]. cbn [In]. auto 6.
    + exists (fun w t => w_on w (hp_name b) t). splits; [reflexivity|intros f fl d w t H; apply H|]. intros d t. cbn [tight w_on]. unfold on_flow. cbn [asset_name] in FN. now rewrite FN.
Qed.
Lemma limit_meaning q c assets l : NoDup (map asset_name assets) -> limit_valid assets l ->
  (satisfied q c assets (limit_constraint l) <-> horizon c (fun t => q t (rl_switch l) (PAsset (rl_asset l))) <= count (rl_most l)).
Proof.
  intros ND [Ia V]. destruct (switch_flow (rl_asset l) (rl_switch l)) as [[g col]|] eqn:SF; [|congruence]. destruct (flow_switch assets _ _ _ _ ND Ia SF) as ((ty & PT & NS) & NE & _).
  unfold satisfied, holds_in_total, side_sum, limit_constraint. cbn [cn_sum cn_sense cn_lhs cn_rhs map compares entry_sum]. rewrite PT.
  set (A := horizon c _). assert (A == horizon c (fun t => q t (rl_switch l) (PAsset (rl_asset l)))) as EA.
  { unfold A. apply Qsum_map_ext. intros t _. unfold entry_at. cbn [ct_variable ct_asset_type ct_asset_name ct_interval_data ct_coefficient data_value]. rewrite (only_piece q assets t (rl_switch l) _ ty ND Ia PT NS NE). ring. }
  unfold Qsum. cbn [fold_right]. split; intros H; lra.
Qed.
Lemma limit_sound c assets fl d w q l : NoDup (map asset_name assets) -> limit_valid assets l -> switched c assets fl d w -> alike (n_intervals c) assets (full_quantity c d w) q ->
  satisfied q c assets (limit_constraint l) -> limit_kept c d l.
Proof.
  intros ND V SW AL SAT g col SF. destruct V as [Ia V]. destruct (flow_switch assets _ _ _ _ ND Ia SF) as (_ & NE & _ & sw & E & SS & _).
  apply (limit_meaning q c assets l ND (conj Ia V)) in SAT. apply count_le. eapply Qle_trans; [|exact SAT].
  eapply Qle_trans; [apply (running_switch (n_intervals c) _ (sw w))|].
  - intros t Ht. eapply SS. apply (SW t Ht). exact Ia.
  - unfold horizon. assert (Qsum (map (sw w) (seq 0 (n_intervals c))) == Qsum (map (fun t => q t (rl_switch l) (PAsset (rl_asset l))) (seq 0 (n_intervals c)))) as <-; [|apply Qle_refl].
    apply Qsum_map_ext. intros t It. apply in_seq in It. rewrite <- (E c d w t). apply AL; [lia|]. unfold pieces. right. apply in_flat_map. exists (rl_asset l). split; auto.
    destruct (rl_asset l); try (exfalso; eapply NE; reflexivity); now left.
Qed.
Lemma limit_complete c assets d l : NoDup (map asset_name assets) -> limit_valid assets l -> limit_kept c d l -> satisfied (full_quantity c d (tight assets d)) c assets (limit_constraint l).
Proof.
  intros ND V K. apply limit_meaning; auto. destruct V as [Ia V]. destruct (switch_flow (rl_asset l) (rl_switch l)) as [[g col]|] eqn:SF; [|congruence].
  destruct (flow_switch assets _ _ _ _ ND Ia SF) as (_ & _ & _ & sw & E & _ & T). specialize (K g col SF). apply count_le in K. eapply Qle_trans; [|exact K].
  unfold running. rewrite running_ind. unfold horizon. apply Qsum_le. intros t _. rewrite E, T. apply Qle_refl.
Qed.
Lemma plain_full c assets d w : same_readings (n_intervals c) assets (full_quantity c d w) (quantity d).
Proof. intros t attr p Ht Ia Ip. unfold full_quantity. rewrite (plain_not_switch attr Ia). reflexivity. Qed.
Lemma same_readings_sym n assets q q' : same_readings n assets q q' -> same_readings n assets q' q.
Proof. intros S t attr p Ht Ia Ip. symmetry. apply S; auto. Qed.
Lemma limits_satisfied c assets d limits cons : NoDup (map asset_name assets) -> Forall (limit_valid assets) limits -> Forall plain_constraint cons ->
  Forall (limit_kept c d) limits -> Forall (satisfied (quantity d) c assets) cons -> Forall (satisfied (full_quantity c d (tight assets d)) c assets) (map limit_constraint limits ++ cons)%list.
Proof.
  intros ND V PC K SAT. rewrite Forall_app. split; rewrite Forall_forall in *.
  - intros k Ik. apply in_map_iff in Ik. destruct Ik as (l & <- & Il). apply limit_complete; auto.
  - intros k Ik. eapply satisfied_ext; [apply same_readings_sym, plain_full| |]; auto.
Qed.

(** ** C73 *)
(** The reported flow of an asset is zero in all but [k] intervals if its switch is limited to [k] intervals. *)
Theorem C73_limit_kept : forall slv base c assets cons obj fl r l, feasible_run slv base c assets cons obj fl r -> In (limit_constraint l) cons -> limit_valid assets l -> limit_reported c r l.
Proof.
  intros slv base c assets cons obj fl r l R Il V. destruct (run_solution _ _ _ _ _ _ _ _ R) as (iv & o & s & z & B & FA & F & _ & ST & ZV & E).
  destruct (switch_sound _ _ _ _ _ _ _ _ s _ B (fa_n _ _ _ _ _ FA) (fr_chp _ _ _ _ _ _ _ _ R) F (eq_reads _ _ _ E)) as (w & SW & SAT & _).
  rewrite Forall_forall in SAT. specialize (SAT _ Il). assert (alike (n_intervals c) assets (full_quantity c (d_of s iv) w) (full_quantity c (d_of s iv) w)) as AL by (intros t attr p _ _; reflexivity).
  pose proof (limit_sound _ _ _ _ _ _ _ (fa_names _ _ _ _ _ FA) V SW AL SAT) as K. intros q col SF. specialize (K q col SF).
  destruct V as [Ia V]. destruct (flow_switch assets _ _ _ _ (fa_names _ _ _ _ _ FA) Ia SF) as (_ & _ & CE & _).
  erewrite running_ext; [exact K|]. intros t Ht. eapply rep_qty; eauto.
Qed.
(** Beside that nothing is forbidden: a dispatch is allowed just when it is physical, keeps the limits and satisfies the other constraints. *)
Theorem C73_limits_iff : forall base c assets limits cons obj fl iv o d, build_program c assets (map limit_constraint limits ++ cons) obj fl (new_optimizer base) = Ok (iv, o) -> (0 < n_intervals c)%nat ->
  any_kind obj -> Forall chp_fine assets -> Forall (asset_sane (sc_freq c)) assets -> Forall (limit_valid assets) limits -> Forall plain_constraint cons ->
  (allowed base c assets (map limit_constraint limits ++ cons) obj fl d <-> physical c assets fl d /\ Forall (limit_kept c d) limits /\ Forall (satisfied (quantity d) c assets) cons).
Proof.
  intros base c assets limits cons obj fl iv o d B Hn K CF SN LV PC. rewrite (C72_allowed_iff _ _ _ _ _ _ _ _ d B Hn K CF SN).
  destruct (program_split _ _ _ _ _ _ _ _ B) as (o1 & o2 & cs & extra & e & _ & CC & P & _). pose proof (pr_names _ _ _ _ _ _ _ P) as ND. split.
  - intros (PH & w & SW & SAT). rewrite Forall_app in SAT. destruct SAT as [S1 S2]. splits; [exact PH| |]; rewrite Forall_forall in *.
    + intros l Il. eapply limit_sound; eauto; [intros t attr p _ _; reflexivity|]. apply S1. now apply in_map.
    + intros k Ik. eapply satisfied_ext; [apply plain_full| |]; auto.
  - intros (PH & LK & SAT). split; auto. exists (tight assets d). split; [now apply tight_switched|]. apply limits_satisfied; auto.
Qed.
(** The cheapest of them. *)
Theorem C73_price_within : forall gap slv base c assets limits cons fl r, feasible_run slv base c assets (map limit_constraint limits ++ cons) (ObjName "price") fl r ->
  solved_within gap slv base c assets (map limit_constraint limits ++ cons) (ObjName "price") fl -> Forall (asset_sane (sc_freq c)) assets -> Forall (limit_valid assets) limits -> Forall plain_constraint cons ->
  forall d, physical c assets fl d -> Forall (limit_kept c d) limits -> Forall (satisfied (quantity d) c assets) cons -> reported_cost c assets r <= dispatch_cost c assets d + gap.
Proof.
  intros gap slv base c assets limits cons fl r R SW SN LV PC d PH LK SAT. destruct (run_solution _ _ _ _ _ _ _ _ R) as (iv & o & s & z & B & FA & _).
  eapply C72_price_within; [exact R|exact SW|exact SN|exact PH|apply tight_switched; [apply FA|exact PH]|]. apply limits_satisfied; auto. apply FA.
Qed.
Theorem C73_carbon_within : forall gap slv base c assets limits cons fl r, feasible_run slv base c assets (map limit_constraint limits ++ cons) (ObjName "carbon") fl r ->
  solved_within gap slv base c assets (map limit_constraint limits ++ cons) (ObjName "carbon") fl -> Forall (asset_sane (sc_freq c)) assets -> Forall (limit_valid assets) limits -> Forall plain_constraint cons ->
  forall d, physical c assets fl d -> Forall (limit_kept c d) limits -> Forall (satisfied (quantity d) c assets) cons -> reported_emissions c assets r <= dispatch_emissions c assets d + gap.
Proof.
  intros gap slv base c assets limits cons fl r R SW SN LV PC d PH LK SAT. destruct (run_solution _ _ _ _ _ _ _ _ R) as (iv & o & s & z & B & FA & _).
  eapply C72_carbon_within; [exact R|exact SW|exact SN|exact PH|apply tight_switched; [apply FA|exact PH]|]. apply limits_satisfied; auto. apply FA.
Qed.

(** ** a CHP that must run *)
Lemma must_meaning q c assets b : NoDup (map asset_name assets) -> In (ACHP b) assets ->
  (satisfied q c assets (must_run b) <-> forall t, (t < n_intervals c)%nat -> q t "binary" (PAsset (ACHP b)) == 1).
Proof.
  intros ND Ib. unfold satisfied, holds_at, side_at, must_run. cbn [cn_sum cn_sense cn_lhs cn_rhs map compares entry_at ct_variable ct_asset_type ct_asset_name ct_interval_data ct_coefficient data_value].
  assert (forall t, amount q assets t "binary" (picked (Some "chp") (Some (ch_name b))) == q t "binary" (PAsset (ACHP b))) as E
    by (intros t; apply (only_piece q assets t "binary" (ACHP b) "chp" ND Ib eq_refl); discriminate).
  split; intros H t Ht; specialize (H t Ht); pose proof (E t) as Et; unfold Qsum in *; cbn [fold_right] in *; lra.
Qed.
Definition kept_on (nm : string) (w : switches) : switches :=
  mkSwitches (w_import w) (w_export w) (fun x t => if x =? nm then 1 else w_on w x t) (w_charge w) (w_discharge w) (w_ev_charge w) (w_ev_discharge w) (w_spill_charge w).
Lemma kept_on_switched c assets fl d w b : NoDup (map asset_name assets) -> In (ACHP b) assets -> (forall t, (t < n_intervals c)%nat -> energy (sc_freq c) (ch_min_mw b) <= d_qty d (ch_name b) ElecGen t) ->
  switched c assets fl d w -> switched c assets fl d (kept_on (ch_name b) w).
Proof.
  intros ND Ib M SW t Ht. destruct (SW t Ht) as [S1 S2]. split; [exact S1|]. intros a Ia. specialize (S2 a Ia).
  assert (forall a', In a' assets -> asset_name a' = ch_name b -> a' = ACHP b) as U.
  { intros a' I' E. eapply Prim.NoDup_map_inj; eauto. }
  destruct a as [x|x|x|x|x|x|nm|nm]; try exact S2; cbn [asset_switched] in *.
  - unfold boiler_switched, kept_on in *. cbn [w_on]. destruct (bo_name x =? ch_name b) eqn:E; [|exact S2]. apply String.eqb_eq in E. pose proof (U _ Ia E). discriminate.
  - unfold chp_switched, kept_on in *. cbn [w_on]. destruct (ch_name x =? ch_name b) eqn:E; [|exact S2]. apply String.eqb_eq in E. pose proof (U _ Ia E) as X. injection X as ->.
    split; [|intros _; apply M; exact Ht]. split; [right; reflexivity|intros Z; discriminate].
  - unfold hp_switched, kept_on in *. cbn [w_on]. destruct (hp_name x =? ch_name b) eqn:E; [|exact S2]. apply String.eqb_eq in E. pose proof (U _ Ia E). discriminate.
Qed.
(** A CHP that is switched on in every interval runs at its minimum or above in every interval, and nothing else changes. *)
Theorem C73_must_run : forall slv base c assets cons obj fl r b, feasible_run slv base c assets cons obj fl r -> In (ACHP b) assets -> In (must_run b) cons ->
  forall t, (t < n_intervals c)%nat -> energy (sc_freq c) (ch_min_mw b) <= rep r (ch_name b) "electric_generation_mwh" t.
Proof.
  intros slv base c assets cons obj fl r b R Ib Ik t Ht. destruct (run_solution _ _ _ _ _ _ _ _ R) as (iv & o & s & z & B & FA & F & _ & ST & ZV & E).
  destruct (switch_sound _ _ _ _ _ _ _ _ s _ B (fa_n _ _ _ _ _ FA) (fr_chp _ _ _ _ _ _ _ _ R) F (eq_reads _ _ _ E)) as (w & SW & SAT & _).
  rewrite Forall_forall in SAT. specialize (SAT _ Ik). apply (proj1 (must_meaning (full_quantity c (d_of s iv) w) c assets b (fa_names _ _ _ _ _ FA) Ib)) with (t := t) in SAT; [|exact Ht].
  destruct (flow_switch assets (ACHP b) "binary" ElecGen "electric_generation_mwh" (fa_names _ _ _ _ _ FA) Ib eq_refl) as (_ & _ & CE & _).
  pose proof (rep_qty _ _ _ _ _ FA _ t _ _ Ib Ht (CE _ _)) as RQ. cbn [asset_name] in RQ. rewrite RQ. destruct (SW t Ht) as [_ SA]. specialize (SA _ Ib). apply SA. exact SAT.
Qed.
Theorem C73_must_run_iff : forall base c assets obj fl iv o b d, build_program c assets [must_run b] obj fl (new_optimizer base) = Ok (iv, o) -> (0 < n_intervals c)%nat ->
  any_kind obj -> Forall chp_fine assets -> Forall (asset_sane (sc_freq c)) assets -> In (ACHP b) assets ->
  (allowed base c assets [must_run b] obj fl d <-> physical c assets fl d /\ forall t, (t < n_intervals c)%nat -> energy (sc_freq c) (ch_min_mw b) <= d_qty d (ch_name b) ElecGen t).
Proof.
  intros base c assets obj fl iv o b d B Hn K CF SN Ib. rewrite (C72_allowed_iff _ _ _ _ _ _ _ _ d B Hn K CF SN).
  destruct (program_split _ _ _ _ _ _ _ _ B) as (o1 & o2 & cs & extra & e & _ & CC & P & _). pose proof (pr_names _ _ _ _ _ _ _ P) as ND. split.
  - intros (PH & w & SW & SAT). split; auto. apply Forall_inv in SAT. pose proof (proj1 (must_meaning (full_quantity c d w) c assets b ND Ib) SAT) as ON. clear SAT. rename ON into SAT. intros t Ht. specialize (SAT t Ht). destruct (SW t Ht) as [_ SA]. specialize (SA _ Ib). apply SA. exact SAT.
  - intros (PH & M). split; auto. exists (kept_on (ch_name b) (tight assets d)). split; [apply kept_on_switched; auto; now apply tight_switched|]. constructor; [|constructor].
    apply (proj2 (must_meaning (full_quantity c d (kept_on (ch_name b) (tight assets d))) c assets b ND Ib)). intros t Ht. change (w_on (kept_on (ch_name b) (tight assets d)) (ch_name b) t == 1). cbn [kept_on w_on]. rewrite String.eqb_refl. reflexivity.
Qed.

(** ** the grid connection *)
Lemma only_site q assets t attr : amount q assets t attr (picked (Some "site") None) == q t attr PSite.
Proof.
  unfold amount, pieces. cbn [filter]. change (picked (Some "site") None PSite) with true. cbn iota.
  assert (filter (picked (Some "site") None) (flat_map pieces_of assets) = []) as -> by (induction assets as [|a l IH]; [reflexivity|]; cbn [flat_map]; rewrite filter_app, IH; destruct a; reflexivity).
  cbn. ring.
Qed.
Definition grid_flow (d : dispatch) (out : bool) : nat -> Q := if out then d_export d else d_import d.
Lemma grid_meaning q c assets out k : satisfied q c assets (grid_limit out k) <-> horizon c (fun t => q t (if out then "export_power_bin" else "import_power_bin") PSite) <= count k.
Proof.
  unfold satisfied, holds_in_total, side_sum, grid_limit. cbn [cn_sum cn_sense cn_lhs cn_rhs map compares entry_sum].
  set (A := horizon c _). assert (A == horizon c (fun t => q t (if out then "export_power_bin" else "import_power_bin") PSite)) as EA.
  { unfold A. apply Qsum_map_ext. intros t _. unfold entry_at. cbn [ct_variable ct_asset_type ct_asset_name ct_interval_data ct_coefficient data_value]. rewrite only_site. ring. }
  unfold Qsum. cbn [fold_right]. split; intros H; lra.
Qed.
Definition exporting (d : dispatch) (w : switches) : switches :=
  mkSwitches (fun t => 1 - ind (d_export d t)) (fun t => ind (d_export d t)) (w_on w) (w_charge w) (w_discharge w) (w_ev_charge w) (w_ev_discharge w) (w_spill_charge w).
Lemma exporting_switched c assets fl d w : physical c assets fl d -> switched c assets fl d w -> switched c assets fl d (exporting d w).
Proof.
  intros (P1 & _) SW t Ht. destruct (SW t Ht) as [_ S2]. split; [|exact S2]. destruct (P1 t Ht) as ((_ & _ & G) & _). unfold site_switched, exporting. cbn [w_import w_export]. splits.
  - split; [destruct (ind_01 (d_export d t)) as [Z|Z]; [right|left]; lra|]. intros Z. destruct G as [G|G]; [exact G|].
    exfalso. destruct (ind_spec (d_export d t)) as [[_ E]|[N _]]; [rewrite E in Z; lra|tauto].
  - apply ind_switch.
  - ring.
Qed.
(** The site imports (exports) in at most [k] intervals, and nothing else changes. *)
Theorem C73_grid_limit : forall slv base c assets cons obj fl r k (out : bool), feasible_run slv base c assets cons obj fl r -> In (grid_limit out k) cons ->
  (running (n_intervals c) (if out then r_export r else r_import r) <= k)%nat.
Proof.
  intros slv base c assets cons obj fl r k out R Ik. destruct (run_solution _ _ _ _ _ _ _ _ R) as (iv & o & s & z & B & FA & F & _ & ST & ZV & E).
  destruct (switch_sound _ _ _ _ _ _ _ _ s _ B (fa_n _ _ _ _ _ FA) (fr_chp _ _ _ _ _ _ _ _ R) F (eq_reads _ _ _ E)) as (w & SW & SAT & _).
  rewrite Forall_forall in SAT. specialize (SAT _ Ik). apply grid_meaning in SAT. apply count_le. eapply Qle_trans; [|exact SAT].
  rewrite (running_ext _ _ (grid_flow (d_of s iv) out)).
  - destruct out; apply (running_switch (n_intervals c)); intros t Ht; apply (SW t Ht).
  - intros t Ht. destruct out; cbn [grid_flow]; [eapply r_export_eq|eapply r_import_eq]; eauto.
Qed.
Theorem C73_grid_limit_iff : forall base c assets obj fl iv o k (out : bool) d, build_program c assets [grid_limit out k] obj fl (new_optimizer base) = Ok (iv, o) -> (0 < n_intervals c)%nat ->
  any_kind obj -> Forall chp_fine assets -> Forall (asset_sane (sc_freq c)) assets ->
  (allowed base c assets [grid_limit out k] obj fl d <-> physical c assets fl d /\ (running (n_intervals c) (if out then d_export d else d_import d) <= k)%nat).
Proof.
  intros base c assets obj fl iv o k out d B Hn K CF SN. rewrite (C72_allowed_iff _ _ _ _ _ _ _ _ d B Hn K CF SN).
  destruct (program_split _ _ _ _ _ _ _ _ B) as (o1 & o2 & cs & extra & e & _ & CC & P & _). pose proof (pr_names _ _ _ _ _ _ _ P) as ND. split.
  - intros (PH & w & SW & SAT). split; auto. apply Forall_inv in SAT. apply grid_meaning in SAT. apply count_le. eapply Qle_trans; [|exact SAT].
    destruct out; apply (running_switch (n_intervals c)); intros t Ht; apply (SW t Ht).
  - intros (PH & M). split; auto. apply count_le in M. unfold running in M. rewrite running_ind in M. pose proof (tight_switched c assets fl d ND PH) as TS.
    destruct out; [exists (exporting d (tight assets d)); split; [now apply exporting_switched|]|exists (tight assets d); split; [exact TS|]]; constructor; try constructor; apply grid_meaning; exact M.
Qed.

(** For a boiler or a heat pump "switched on" forces nothing: the constraint leaves every physical dispatch possible. *)
Lemma on_meaning q c assets a attr g col : NoDup (map asset_name assets) -> In a assets -> switch_flow a attr = Some (g, col) ->
  (forall t, (t < n_intervals c)%nat -> q t attr (PAsset a) == 1) -> satisfied q c assets (always_on a attr).
Proof.
  intros ND Ia SF H. destruct (flow_switch assets _ _ _ _ ND Ia SF) as ((ty & PT & NS) & NE & _). unfold satisfied, holds_at, side_at, always_on. cbn [cn_sum cn_sense cn_lhs cn_rhs map compares entry_at ct_variable ct_asset_type ct_asset_name ct_interval_data ct_coefficient data_value].
  intros t Ht. specialize (H t Ht). rewrite PT. pose proof (only_piece q assets t attr a ty ND Ia PT NS NE) as E. unfold Qsum in *. cbn [fold_right]. lra.
Qed.
Theorem C73_always_on_forces_nothing : forall base c assets obj fl iv o a attr d, build_program c assets [always_on a attr] obj fl (new_optimizer base) = Ok (iv, o) -> (0 < n_intervals c)%nat ->
  any_kind obj -> Forall chp_fine assets -> Forall (asset_sane (sc_freq c)) assets -> In a assets ->
  (exists b, a = ABoiler b) /\ attr = "binary" \/ (exists b, a = AHeatPump b) /\ attr = "electric_load_binary" ->
  (allowed base c assets [always_on a attr] obj fl d <-> physical c assets fl d).
Proof.
  intros base c assets obj fl iv o a attr d B Hn K CF SN Ia KD. rewrite (C72_allowed_iff _ _ _ _ _ _ _ _ d B Hn K CF SN).
  destruct (program_split _ _ _ _ _ _ _ _ B) as (o1 & o2 & cs & extra & e & _ & CC & P & _). pose proof (pr_names _ _ _ _ _ _ _ P) as ND. split; [tauto|]. intros PH. split; auto.
  exists (st_w (natural assets d)). split; [now apply natural_switched|]. constructor; [|constructor].
  assert (existsb (is_chp (asset_name a)) assets = false) as NC.
  { destruct (existsb (is_chp (asset_name a)) assets) eqn:E; auto. apply existsb_exists in E. destruct E as (x & Ix & E). unfold is_chp in E. destruct x; try discriminate. apply String.eqb_eq in E.
    assert (ACHP c0 = a) as X by (eapply (NoDup_map_inj asset_name); eauto). destruct KD as [((b & ->) & _)|((b & ->) & _)]; discriminate. }
  destruct KD as [((b & ->) & ->)|((b & ->) & ->)]; (eapply on_meaning; [exact ND|exact Ia|reflexivity|]); intros t Ht; cbn [asset_name] in NC.
  - change (w_on (st_w (natural assets d)) (bo_name b) t == 1). cbn [natural st_w w_on]. rewrite NC. reflexivity.
  - change (w_on (st_w (natural assets d)) (hp_name b) t == 1). cbn [natural st_w w_on]. rewrite NC. reflexivity.
Qed.
