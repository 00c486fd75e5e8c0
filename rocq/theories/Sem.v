(** * Sem: meaning of the constraints each asset emits (proofs; all assets except EVs) *)
From Verif Require Import Base Pulp Params Optimizer Types Assets EVs Site Emit Prim Spec SpecSwitch SpecReport SpecRun Layout Rows.
Open Scope Q_scope.

Lemma mw_energy f q : mw_to_mwh f q == energy f q.
Proof. unfold mw_to_mwh, energy. field. Qed.
Lemma Qeq_dec_bool q : q == 0 \/ Qeq_bool q 0 = false.
Proof. destruct (Qeq_bool q 0) eqn:E; [left; now apply Qeq_bool_iff|now right]. Qed.
Lemma vars_ok_1 s v : vars_ok s [v] <-> var_ok s v.
Proof. rewrite vars_ok_cons, vars_ok_nil. tauto. Qed.
Lemma vars_ok_scaled s v (q : Q) : vars_ok s (if Qeq_bool q 0 then [] else [v]) <-> q == 0 \/ var_ok s v.
Proof.
  destruct (Qeq_bool q 0) eqn:E.
  - rewrite vars_ok_nil. apply Qeq_bool_iff in E. tauto.
  - rewrite vars_ok_1. apply Qeq_bool_neq in E. tauto.
Qed.
Lemma ind_01 q : ind q == 0 \/ ind q == 1.
Proof. unfold ind. destruct (Qeq_bool q 0); [left|right]; reflexivity. Qed.
Lemma ind_spec q : (q == 0 /\ ind q = 0) \/ (~ q == 0 /\ ind q = 1).
Proof.
  unfold ind. destruct (Qeq_bool q 0) eqn:E; [left|right]; split; auto; [now apply Qeq_bool_iff|now apply Qeq_bool_neq].
Qed.

(** ** The slice of the physical description that concerns one interval *)
Definition battery_at (c : battery_cfg) (f : freq) (d : dispatch) (t : nat) : Prop :=
  let q := d_qty d (b_name c) in
  between 0 (q Charge t) (energy f (b_charge_power_mw c)) /\
  between 0 (q Discharge t) (energy f (b_discharge_power_mw c)) /\
  q Charge t <= b_capacity_mwh c /\ q Discharge t <= b_capacity_mwh c /\
  (q Charge t == 0 \/ q Discharge t == 0) /\
  q Loss t == q Charge t * (1 - b_efficiency_pct c) /\ 0 <= q Loss t /\
  between 0 (q Soc0 t) (b_capacity_mwh c) /\ between 0 (q Soc1 t) (b_capacity_mwh c) /\
  q Soc1 t == q Soc0 t + q Charge t - q Discharge t - q Loss t.
Definition boiler_at (c : boiler_cfg) (f : freq) (d : dispatch) (t : nat) : Prop :=
  let q := d_qty d (bo_name c) in
  between (energy f (bo_min_mw c)) (q HtGen t) (energy f (bo_max_mw c)) /\
  q Gas t == q HtGen t / bo_efficiency_pct c /\ 0 <= q Gas t.
Definition chp_at (c : chp_cfg) (f : freq) (d : dispatch) (t : nat) : Prop :=
  let q := d_qty d (ch_name c) in
  between 0 (q ElecGen t) (energy f (ch_max_mw c)) /\
  (q ElecGen t == 0 \/ energy f (ch_min_mw c) <= q ElecGen t) /\
  (0 < ch_electric_efficiency_pct c -> q Gas t == q ElecGen t / ch_electric_efficiency_pct c) /\
  q HtGen t == q Gas t * ch_ht_efficiency_pct c /\
  q LtGen t == q Gas t * ch_lt_efficiency_pct c /\
  0 <= q Gas t /\ 0 <= q HtGen t /\ 0 <= q LtGen t.
Definition hp_at (c : hp_cfg) (f : freq) (d : dispatch) (t : nat) : Prop :=
  let q := d_qty d (hp_name c) in
  between 0 (q ElecLoad t) (energy f (hp_power_mw c)) /\
  q HtGen t == q ElecLoad t * hp_cop c /\
  q LtLoad t + q ElecLoad t == q HtGen t /\
  0 <= q LtLoad t /\ 0 <= q HtGen t.
Definition valve_at (n : string) (d : dispatch) (t : nat) : Prop :=
  let q := d_qty d n in q HtLoad t == q LtGen t /\ 0 <= q LtGen t.

(** values of the objects (continuous quantities) *)
Definition oi_val (d : dispatch) (t : nat) (s : assignment) (x : oneint) : Prop :=
  match x with
  | OISite r => vset s (tio_import r) (d_import d t) /\ vset s (tio_export r) (d_export d t)
  | OIBattery r => let q := d_qty d (b_name (boi_cfg r)) in
      vset s (boi_charge r) (q Charge t) /\ vset s (boi_discharge r) (q Discharge t) /\
      vset s (boi_loss r) (q Loss t) /\ vset s (boi_initial r) (q Soc0 t) /\ vset s (boi_final r) (q Soc1 t)
  | OIBoiler r => let q := d_qty d (bo_name (kboi_cfg r)) in
      vset s (kboi_ht r) (q HtGen t) /\ vset s (kboi_gas r) (q Gas t)
  | OICHP r => let q := d_qty d (ch_name (coi_cfg r)) in
      vset s (coi_elec r) (q ElecGen t) /\ vset s (coi_gas r) (q Gas t) /\
      vset s (coi_ht r) (q HtGen t) /\ vset s (coi_lt r) (q LtGen t)
  | OIEv r => let nm := ev_name (eoi_cfg r) in let e := eoi_event r in let k := eoi_charger r in
      fv s (eoi_charge r) = d_ev_charge d nm e k t /\ fv s (eoi_discharge r) = d_ev_discharge d nm e k t /\
      fv s (eoi_loss r) = d_ev_loss d nm e k t /\
      fv s (eoi_soc0 r) = d_ev_soc0 d nm e t /\ fv s (eoi_soc1 r) = d_ev_soc1 d nm e t
  | OIEvSpill r => let nm := ev_name (eoi_cfg r) in let e := eoi_event r in
      fv s (eoi_charge r) = d_spill_charge d nm e t /\ fv s (eoi_loss r) = d_spill_loss d nm e t
  | OIHeatPump r => let q := d_qty d (hp_name (hoi_cfg r)) in
      vset s (hoi_elec r) (q ElecLoad t) /\ vset s (hoi_lt r) (q LtLoad t) /\ vset s (hoi_ht r) (q HtGen t)
  | OIRenewable r => vset s (roi_elec r) (d_qty d (rg_name (roi_cfg r)) ElecGen t)
  | OISpill r => let q := d_qty d (soi_name r) in
      vset s (soi_elec_gen r) (q ElecGen t) /\ vset s (soi_elec_load r) (q ElecLoad t) /\
      vset s (soi_ht_gen r) (q HtGen t) /\ vset s (soi_lt_load r) (q LtLoad t)
  | OIValve r => let q := d_qty d (voi_name r) in
      vset s (voi_ht_load r) (q HtLoad t) /\ vset s (voi_lt_gen r) (q LtGen t)
  end.

(** values of the switches; a switch of equipment without any power occurs in no constraint, so its variable may
    have any value: it counts as on unless it is zero *)
Definition oi_bin (w : switches) (t : nat) (s : assignment) (x : oneint) : Prop :=
  match x with
  | OISite r => ind (s (v_id (tio_import_bin r))) = w_import w t /\ ind (s (v_id (tio_export_bin r))) = w_export w t
  | OIBattery r => ind (s (v_id (boi_charge_bin r))) = w_charge w (b_name (boi_cfg r)) t /\ ind (s (v_id (boi_discharge_bin r))) = w_discharge w (b_name (boi_cfg r)) t
  | OIBoiler r => ind (s (v_id (kboi_bin r))) = w_on w (bo_name (kboi_cfg r)) t
  | OICHP r => ind (s (v_id (coi_bin r))) = w_on w (ch_name (coi_cfg r)) t
  | OIEv r => let nm := ev_name (eoi_cfg r) in let e := eoi_event r in let k := eoi_charger r in
      ind (fv s (eoi_charge_bin r)) = w_ev_charge w nm e k t /\ ind (fv s (eoi_discharge_bin r)) = w_ev_discharge w nm e k t
  | OIEvSpill r => ind (fv s (eoi_charge_bin r)) = w_spill_charge w (ev_name (eoi_cfg r)) (eoi_event r) t
  | OIHeatPump r => ind (s (v_id (hoi_bin r))) = w_on w (hp_name (hoi_cfg r)) t
  | _ => True
  end.
Lemma ind_bit q : bit (ind q).
Proof. unfold bit. apply ind_01. Qed.
Lemma bit_ind q : bit q -> ind q == q.
Proof. intros B. destruct (ind_spec q) as [[Z ->]|[Z ->]]; [lra|]. destruct B as [B|B]; [tauto|lra]. Qed.
Lemma ind_off q : ind q == 0 -> q == 0.
Proof. intros Z. destruct (ind_spec q) as [[Z' E]|[_ E]]; [exact Z'|rewrite E in Z; lra]. Qed.

(** unfolding of constraint lists *)
Ltac ok_in H := repeat first
  [ rewrite all_ok_app in H | rewrite all_ok_cons in H | rewrite all_ok_nil in H
  | rewrite cle_ok in H | rewrite cge_ok in H | rewrite ceq_ok in H ];
  ev_in H; cbn [fv fvars] in H;
  repeat first [ rewrite vars_ok_app in H | rewrite vars_ok_scaled in H | rewrite vars_ok_1 in H | rewrite vars_ok_nil in H ].
Ltac ok_goal := repeat first
  [ rewrite all_ok_app | rewrite all_ok_cons | rewrite all_ok_nil
  | rewrite cle_ok | rewrite cge_ok | rewrite ceq_ok ];
  ev_goal; cbn [fv fvars];
  repeat first [ rewrite vars_ok_app | rewrite vars_ok_scaled | rewrite vars_ok_1 | rewrite vars_ok_nil ].

(** ** Battery *)
Definition battery_cs (r : battery_oi) : list constr :=
  [ cle (esub (fexpr (FVar (boi_charge r))) (escale (fexpr (FVar (boi_charge_bin r))) (b_capacity_mwh (boi_cfg r)))) (econst 0);
    cle (esub (fexpr (FVar (boi_discharge r))) (escale (fexpr (FVar (boi_discharge_bin r))) (b_capacity_mwh (boi_cfg r)))) (econst 0);
    cle (eadd (evar (boi_charge_bin r)) (evar (boi_discharge_bin r))) (econst 1);
    ceq (esub (esub (eadd (evar (boi_initial r)) (evar (boi_charge r)))
                             (evar (boi_discharge r))) (evar (boi_loss r)))
                 (evar (boi_final r));
    ceq (evar (boi_loss r)) (escale (evar (boi_charge r)) (1 - b_efficiency_pct (boi_cfg r))) ].
Definition battery_link (p r : battery_oi) : constr := ceq (evar (boi_final p)) (evar (boi_initial r)).

Lemma battery_emits r : emits (constrain_only_charge_or_discharge r ;;; constrain_battery_electricity_balance r) (battery_cs r).
Proof.
  unfold constrain_only_charge_or_discharge, constrain_battery_electricity_balance, constrain_max.
  eapply emits_eq; [apply emits_bind; [|intros _]|].
  - apply emits_bind; [apply emits_constrain|intros _]. apply emits_bind; [apply emits_constrain|intros _]. apply emits_constrain.
  - apply emits_bind; [apply emits_constrain|intros _]. apply emits_constrain.
  - reflexivity.
Qed.

Lemma battery_sound c f r s d t : battery_shape c f r -> oi_val d t s (OIBattery r) -> all_ok s (battery_cs r) -> battery_at c f d t.
Proof.
  intros (<- & S1 & S2 & B1 & B2 & S3 & S4 & S5) (E1 & E2 & E3 & E4 & E5) H. unfold vset in *.
  unfold battery_cs in H. ok_in H.
  destruct H as ((H1 & (V1 & _) & _) & (H2 & (V2 & _) & _) & (H3 & (V3 & V3') & _) & (H4 & ((((V4 & _) & _) & V5) & V6)) & (H5 & _) & _).
  rewrite (cont_var_ok _ _ _ _ S1) in V1. rewrite (cont_var_ok _ _ _ _ S2) in V2. rewrite (cont_var_ok _ _ _ _ S3) in V5.
  rewrite (cont_var_ok _ _ _ _ S4) in V4. rewrite (cont_var_ok _ _ _ _ S5) in V6.
  rewrite (binary_var_ok _ _ B1) in V3. rewrite (binary_var_ok _ _ B2) in V3'.
  rewrite ?E1, ?E2, ?E3, ?E4, ?E5, ?mw_energy in *.
  unfold battery_at, between. cbv zeta. 
  assert (0 <= b_capacity_mwh (boi_cfg r)) as Hc by lra.
  set (q := d_qty d (b_name (boi_cfg r))) in *. set (cap := b_capacity_mwh (boi_cfg r)) in *.
  splits; try lra.
  - destruct V3 as [Z|Z]; rewrite Z in *; lra.
  - destruct V3' as [Z|Z]; rewrite Z in *; lra.
  - destruct V3 as [Z|Z]; rewrite Z in *; [left; lra|]. destruct V3' as [Y|Y]; rewrite Y in *; [right; lra|lra].
Qed.
Lemma battery_complete c f r s d t : battery_shape c f r -> oi_set d t s (OIBattery r) -> battery_at c f d t -> battery_switched c d (st_w d) t -> all_ok s (battery_cs r).
Proof.
  intros (<- & S1 & S2 & B1 & B2 & S3 & S4 & S5) (E1 & E2 & E3 & E4 & E5 & E6 & E7) (P1 & P2 & P3 & P3' & P4 & P5 & P6 & P7 & P8 & P9) ((W1 & W2) & (W3 & W4) & W5).
  unfold vset, between in *. unfold battery_cs. ok_goal.
  rewrite (cont_var_ok _ _ _ _ S1), (cont_var_ok _ _ _ _ S2), (cont_var_ok _ _ _ _ S3), (cont_var_ok _ _ _ _ S4), (cont_var_ok _ _ _ _ S5),
    (binary_var_ok _ _ B1), (binary_var_ok _ _ B2).
  rewrite E1, E2, E3, E4, E5, E6, E7, !mw_energy.
  set (q := d_qty d (b_name (boi_cfg r))) in *.
  set (wc := w_charge (st_w d) (b_name (boi_cfg r)) t) in *. set (wd := w_discharge (st_w d) (b_name (boi_cfg r)) t) in *. unfold bit in *.
  splits; try lra; try tauto.
  - destruct W1 as [Z|Z]; [rewrite (W2 Z)|]; rewrite Z; lra.
  - destruct W3 as [Z|Z]; [rewrite (W4 Z)|]; rewrite Z; lra.
Qed.
Lemma battery_bins c f r s d w t : battery_shape c f r -> oi_val d t s (OIBattery r) -> oi_bin w t s (OIBattery r) -> all_ok s (battery_cs r) -> battery_switched c d w t.
Proof.
  intros (<- & S1 & S2 & B1 & B2 & S3 & S4 & S5) (E1 & E2 & E3 & E4 & E5) (F1 & F2) H. unfold vset in *.
  unfold battery_cs in H. ok_in H.
  destruct H as ((H1 & (V1 & _) & _) & (H2 & (V2 & _) & _) & (H3 & (V3 & V3') & _) & _).
  rewrite (cont_var_ok _ _ _ _ S1) in V1. rewrite (cont_var_ok _ _ _ _ S2) in V2.
  rewrite (binary_var_ok _ _ B1) in V3. rewrite (binary_var_ok _ _ B2) in V3'.
  unfold battery_switched, switch_for. rewrite <- F1, <- F2. rewrite E1, E2 in *.
  splits; try apply ind_bit.
  - intros Z. apply ind_off in Z. rewrite Z in *. lra.
  - intros Z. apply ind_off in Z. rewrite Z in *. lra.
  - rewrite (bit_ind _ V3), (bit_ind _ V3'). lra.
Qed.
Lemma battery_link_sem p r cp c f d t s : battery_shape cp f p -> battery_shape c f r -> oi_val d t s (OIBattery p) -> oi_val d (S t) s (OIBattery r) ->
  (all_ok s [battery_link p r] -> d_qty d (b_name c) Soc0 (S t) == d_qty d (b_name cp) Soc1 t).
Proof.
  intros (<- & _) (<- & _) (_ & _ & _ & _ & E1) (_ & _ & _ & E2 & _) H. unfold battery_link in H. ok_in H. unfold vset in *.
  destruct H as ((H & _) & _). rewrite E1, E2 in H. lra.
Qed.
Lemma battery_link_complete p r c f d t s : battery_shape c f p -> battery_shape c f r -> oi_set d t s (OIBattery p) -> oi_set d (S t) s (OIBattery r) ->
  battery_at c f d t -> battery_at c f d (S t) ->
  d_qty d (b_name c) Soc0 (S t) == d_qty d (b_name c) Soc1 t -> all_ok s [battery_link p r].
Proof.
  intros (<- & _ & _ & _ & _ & _ & _ & S1) (E & _ & _ & _ & _ & _ & S2 & _) (_ & _ & _ & _ & _ & _ & E1) (_ & _ & _ & _ & _ & E2 & _) (_ & _ & _ & _ & _ & _ & _ & _ & P1 & _) (_ & _ & _ & _ & _ & _ & _ & P2 & _) H.
  unfold battery_link. ok_goal. unfold vset, between in *. rewrite (cont_var_ok _ _ _ _ S1), (cont_var_ok _ _ _ _ S2), E1, E2, E. splits; auto; try lra.
Qed.

(** ** Boiler *)
Definition boiler_cs (r : boiler_oi) (f : freq) : list constr :=
  [ ceq (evar (kboi_gas r)) (escale (evar (kboi_ht r)) (1 / bo_efficiency_pct (kboi_cfg r)));
    cle (esub (fexpr (FVar (kboi_ht r))) (escale (fexpr (FVar (kboi_bin r))) (mw_to_mwh f (bo_max_mw (kboi_cfg r))))) (econst 0);
    cle (eadd (eneg (fexpr (FVar (kboi_ht r)))) (escale (fexpr (FVar (kboi_bin r))) (mw_to_mwh f (bo_min_mw (kboi_cfg r))))) (econst 0) ].
Lemma Qdiv_scale a b : ~ b == 0 -> a * (1 / b) == a / b.
Proof. intros. field. auto. Qed.
Lemma boiler_sound c f r s d t : boiler_shape c f r -> ~ bo_efficiency_pct c == 0 -> oi_val d t s (OIBoiler r) -> all_ok s (boiler_cs r f) -> boiler_at c f d t.
Proof.
  intros (<- & S1 & B1 & S2) NZ (E1 & E2) H. unfold vset in *. unfold boiler_cs in H. ok_in H.
  destruct H as ((H1 & V1 & _) & (H2 & (V2 & _) & _) & _).
  rewrite (cont_var_ok _ _ _ _ S1) in V2. rewrite (cont_var_ok _ _ _ _ S2) in V1.
  rewrite E1, E2 in *. rewrite !mw_energy in *. rewrite Qdiv_scale in H1 by auto.
  unfold boiler_at, between. cbv zeta. splits; tauto.
Qed.
Lemma boiler_complete c f r s d t : boiler_shape c f r -> ~ bo_efficiency_pct c == 0 -> oi_set d t s (OIBoiler r) -> boiler_at c f d t -> boiler_switched c d (st_w d) t -> all_ok s (boiler_cs r f).
Proof.
  intros (<- & S1 & B1 & S2) NZ (E1 & E2 & E3) ((P1 & P2) & P3 & P4) (W1 & W2). unfold vset in *. unfold boiler_cs. ok_goal.
  rewrite (cont_var_ok _ _ _ _ S1), (cont_var_ok _ _ _ _ S2), (binary_var_ok _ _ B1), E1, E2, E3, !mw_energy, !Qdiv_scale by auto.
  unfold bit in W1. splits; auto; try tauto; try lra; destruct W1 as [Z|Z]; [rewrite (W2 Z)| |rewrite (W2 Z)|]; rewrite Z; lra.
Qed.
Lemma boiler_bins c f r s d w t : boiler_shape c f r -> oi_val d t s (OIBoiler r) -> oi_bin w t s (OIBoiler r) -> all_ok s (boiler_cs r f) -> boiler_switched c d w t.
Proof.
  intros (<- & S1 & B1 & S2) (E1 & E2) F1 H. cbn [oi_bin] in F1. unfold vset in *. unfold boiler_cs in H. ok_in H.
  destruct H as (_ & (H2 & _) & (H3 & _) & _). rewrite E1 in *.
  unfold boiler_switched, switch_for. rewrite <- F1. split; [apply ind_bit|]. intros Z. apply ind_off in Z. rewrite Z in *. lra.
Qed.

(** ** CHP *)
Definition chp_cs (r : chp_oi) (f : freq) : list constr :=
  ((if Qgtb (ch_electric_efficiency_pct (coi_cfg r)) 0
    then [ceq (evar (coi_gas r)) (escale (evar (coi_elec r)) (1 / ch_electric_efficiency_pct (coi_cfg r)))] else [])
   ++ [ ceq (evar (coi_ht r)) (escale (evar (coi_gas r)) (ch_ht_efficiency_pct (coi_cfg r)));
        ceq (evar (coi_lt r)) (escale (evar (coi_gas r)) (ch_lt_efficiency_pct (coi_cfg r)));
        cle (esub (fexpr (FVar (coi_elec r))) (escale (fexpr (FVar (coi_bin r))) (mw_to_mwh f (ch_max_mw (coi_cfg r))))) (econst 0);
        cle (eadd (eneg (fexpr (FVar (coi_elec r)))) (escale (fexpr (FVar (coi_bin r))) (mw_to_mwh f (ch_min_mw (coi_cfg r))))) (econst 0) ])%list.
Lemma Qgtb_iff a b : Qgtb a b = true <-> b < a.
Proof.
  unfold Qgtb, Qltb. rewrite negb_true_iff. split.
  - intros H. apply Qnot_le_lt. intros F. apply Qle_bool_iff in F. congruence.
  - intros H. apply not_true_iff_false. intros F. apply Qle_bool_iff in F. lra.
Qed.
Lemma chp_sound c f r s d t : chp_shape c f r -> 0 <= s (v_id (coi_gas r)) -> oi_val d t s (OICHP r) -> all_ok s (chp_cs r f) -> chp_at c f d t.
Proof.
  intros (<- & S1 & B1 & S2 & S3 & S4) G (E1 & E2 & E3 & E4) H. unfold vset in *. unfold chp_cs in H.
  rewrite all_ok_app in H. destruct H as [H0 H]. ok_in H.
  destruct H as ((H1 & V1 & _) & (H2 & V2 & _) & (H3 & (V3 & V3') & _) & (H4 & (_ & V4) & _) & _).
  rewrite (cont_var_ok _ _ _ _ S3) in V1. rewrite (cont_var_ok _ _ _ _ S4) in V2. rewrite (cont_var_ok _ _ _ _ S1) in V3.
  rewrite (binary_var_ok _ _ B1) in V3', V4.
  rewrite E1, E2, E3, E4 in *. rewrite !mw_energy in *.
  unfold chp_at, between. cbv zeta. splits; try tauto.
  - destruct V3' as [Z|[Z|Z]].
    + left. rewrite Z in *. lra.
    + left. rewrite Z in *. lra.
    + right. rewrite Z in *. lra.
  - intros EP. assert (Qgtb (ch_electric_efficiency_pct (coi_cfg r)) 0 = true) as EG by now apply Qgtb_iff.
    rewrite EG in H0. ok_in H0. destruct H0 as ((H0 & _) & _). rewrite E1, E2, Qdiv_scale in H0 by lra. exact H0.
Qed.
Lemma chp_gas_nonneg c f r s : chp_shape c f r -> all_ok s (chp_cs r f) ->
  0 < ch_electric_efficiency_pct c \/ ~ ch_ht_efficiency_pct c == 0 \/ ~ ch_lt_efficiency_pct c == 0 -> 0 <= s (v_id (coi_gas r)).
Proof.
  intros (<- & S1 & B1 & S2 & S3 & S4) H D. unfold chp_cs in H. rewrite all_ok_app in H. destruct H as [H0 H]. ok_in H.
  destruct H as ((H1 & _ & V1) & (H2 & _ & V2) & _).
  destruct D as [D|[D|D]].
  - rewrite (proj2 (Qgtb_iff _ _) D) in H0. ok_in H0. destruct H0 as ((_ & V & _) & _). rewrite (cont_var_ok _ _ _ _ S2) in V. tauto.
  - destruct V1 as [V1|V1]; [tauto|]. rewrite (cont_var_ok _ _ _ _ S2) in V1. tauto.
  - destruct V2 as [V2|V2]; [tauto|]. rewrite (cont_var_ok _ _ _ _ S2) in V2. tauto.
Qed.
Lemma chp_complete c f r s d t : chp_shape c f r -> oi_set d t s (OICHP r) -> chp_at c f d t -> chp_switched c f d (st_w d) t -> all_ok s (chp_cs r f).
Proof.
  intros (<- & S1 & B1 & S2 & S3 & S4) (E1 & E2 & E3 & E4 & E5) ((P1 & P1') & P2 & P3 & P4 & P5 & P6 & P7 & P8) ((W1 & W2) & W3). unfold vset in *. unfold chp_cs.
  set (q := d_qty d (ch_name (coi_cfg r))) in *. set (b := w_on (st_w d) (ch_name (coi_cfg r)) t) in *.
  rewrite all_ok_app. split.
  - destruct (Qgtb _ 0) eqn:EG; [|constructor]. apply Qgtb_iff in EG. specialize (P3 EG). ok_goal.
    rewrite (cont_var_ok _ _ _ _ S1), (cont_var_ok _ _ _ _ S2), E1, E3, !mw_energy, Qdiv_scale by lra. splits; auto.
  - ok_goal. rewrite (cont_var_ok _ _ _ _ S1), (cont_var_ok _ _ _ _ S2), (cont_var_ok _ _ _ _ S3), (cont_var_ok _ _ _ _ S4),
      (binary_var_ok _ _ B1), E1, E2, E3, E4, E5, !mw_energy.
    splits; auto.
    + destruct W1 as [Z|Z]; [rewrite (W2 Z)|]; rewrite Z; lra.
    + destruct W1 as [Z|Z]; [rewrite (W2 Z)|specialize (W3 Z)]; rewrite Z; lra.
Qed.
Lemma chp_bins c f r s d w t : chp_shape c f r -> oi_val d t s (OICHP r) -> oi_bin w t s (OICHP r) -> all_ok s (chp_cs r f) -> chp_switched c f d w t.
Proof.
  intros (<- & S1 & B1 & S2 & S3 & S4) (E1 & _) F1 H. cbn [oi_bin] in F1. unfold vset in *. unfold chp_cs in H.
  rewrite all_ok_app in H. destruct H as [_ H]. ok_in H.
  destruct H as (_ & _ & (H3 & (V3 & _) & _) & (H4 & (_ & V4) & _) & _). rewrite (cont_var_ok _ _ _ _ S1) in V3.
  rewrite (binary_var_ok _ _ B1) in V4. rewrite E1, !mw_energy in *.
  unfold chp_switched, switch_for. rewrite <- F1. splits; [apply ind_bit| |].
  - intros Z. apply ind_off in Z. rewrite Z in *. lra.
  - intros Z. destruct V4 as [V4|V4]; [lra|]. rewrite (bit_ind _ V4) in Z. rewrite Z in *. lra.
Qed.

(** ** Heat pump *)
Definition hp_cs (r : hp_oi) (f : freq) : list constr :=
  [ cle (esub (fexpr (FVar (hoi_elec r))) (escale (fexpr (FVar (hoi_bin r))) (mw_to_mwh f (hp_power_mw (hoi_cfg r))))) (econst 0);
    ceq (evar (hoi_ht r)) (escale (evar (hoi_elec r)) (hp_cop (hoi_cfg r)));
    ceq (eadd (evar (hoi_lt r)) (evar (hoi_elec r))) (evar (hoi_ht r)) ].
Lemma hp_sound c f r s d t : hp_shape c f r -> oi_val d t s (OIHeatPump r) -> all_ok s (hp_cs r f) -> hp_at c f d t.
Proof.
  intros (<- & S1 & B1 & S2 & S3) (E1 & E2 & E3) H. unfold vset in *. unfold hp_cs in H. ok_in H.
  destruct H as ((H1 & (V1 & _) & _) & (H2 & V2 & _) & (H3 & (V3 & _) & _) & _).
  rewrite (cont_var_ok _ _ _ _ S1) in V1. rewrite (cont_var_ok _ _ _ _ S2) in V3. rewrite (cont_var_ok _ _ _ _ S3) in V2.
  rewrite E1, E2, E3 in *. rewrite mw_energy in *. unfold hp_at, between. cbv zeta. splits; tauto.
Qed.
Lemma hp_complete c f r s d t : hp_shape c f r -> oi_set d t s (OIHeatPump r) -> hp_at c f d t -> hp_switched c d (st_w d) t -> all_ok s (hp_cs r f).
Proof.
  intros (<- & S1 & B1 & S2 & S3) (E1 & E2 & E3 & E4) ((P1 & P1') & P2 & P3 & P4 & P5) (W1 & W2). unfold vset in *. unfold hp_cs. ok_goal.
  rewrite (cont_var_ok _ _ _ _ S1), (cont_var_ok _ _ _ _ S2), (cont_var_ok _ _ _ _ S3), (binary_var_ok _ _ B1), E1, E2, E3, E4, mw_energy.
  splits; auto; try lra. destruct W1 as [Z|Z]; [rewrite (W2 Z)|]; rewrite Z; lra.
Qed.
Lemma hp_bins c f r s d w t : hp_shape c f r -> oi_val d t s (OIHeatPump r) -> oi_bin w t s (OIHeatPump r) -> all_ok s (hp_cs r f) -> hp_switched c d w t.
Proof.
  intros (<- & S1 & B1 & S2 & S3) (E1 & _) F1 H. cbn [oi_bin] in F1. unfold vset in *. unfold hp_cs in H. ok_in H.
  destruct H as ((H1 & (V1 & _) & _) & _). rewrite (cont_var_ok _ _ _ _ S1) in V1. rewrite E1 in *.
  unfold hp_switched, switch_for. rewrite <- F1. split; [apply ind_bit|]. intros Z. apply ind_off in Z. rewrite Z in *. lra.
Qed.

(** ** Valve *)
Definition valve_cs (r : valve_oi) : list constr := [ceq (evar (voi_ht_load r)) (evar (voi_lt_gen r))].
Lemma valve_sound n r s d t : valve_shape n r -> oi_val d t s (OIValve r) -> all_ok s (valve_cs r) -> valve_at n d t.
Proof.
  intros (<- & S1 & S2) (E1 & E2) H. unfold vset in *. unfold valve_cs in H. ok_in H.
  destruct H as ((H1 & V1 & V2) & _). rewrite (cont_var_ok _ _ _ _ S2) in V2. rewrite E1, E2 in *. unfold valve_at. cbv zeta. splits; tauto.
Qed.
Lemma valve_complete n r s d t : valve_shape n r -> oi_set d t s (OIValve r) -> valve_at n d t -> all_ok s (valve_cs r).
Proof.
  intros (<- & S1 & S2) (E1 & E2) (P1 & P2). unfold vset in *. unfold valve_cs. ok_goal.
  rewrite (cont_var_ok _ _ _ _ S1), (cont_var_ok _ _ _ _ S2), E1, E2. splits; auto; lra.
Qed.
