(** * SemNear: what the constraints of each asset mean up to a tolerance (proofs) *)
From Verif Require Import Base Pulp Params Optimizer Types Assets EVs Site Emit Prim Spec SpecSwitch SpecReport SpecRun SpecWithin Layout Rows Sem SemEv.
Open Scope Q_scope.

Definition near (eps : Q) (s : assignment) (cs : list constr) : Prop := Forall (constr_within eps s) cs.
Lemma near_app eps s a b : near eps s (a ++ b) <-> near eps s a /\ near eps s b.
Proof. apply Forall_app. Qed.
Lemma near_nil eps s : near eps s [] <-> True.
Proof. split; constructor. Qed.
Lemma near_cons eps s c cs : near eps s (c :: cs) <-> constr_within eps s c /\ near eps s cs.
Proof. unfold near. split; [intros H; inversion H; auto|intros [? ?]; now constructor]. Qed.
Lemma near_flat_map {A} eps s (f : A -> list constr) l : near eps s (flat_map f l) <-> forall x, In x l -> near eps s (f x).
Proof.
  induction l; simpl.
  - split; [intros _ x []|constructor].
  - rewrite near_app, IHl. split.
    + intros [H1 H2] x [<-|I]; auto.
    + intros H; split; intros; apply H; auto.
Qed.
Lemma near_concat eps s css : near eps s (List.concat css) <-> Forall (near eps s) css.
Proof.
  induction css; simpl; [rewrite near_nil; split; auto|]. rewrite near_app, IHcss. split; [intros []; constructor; auto|]. intros H; inversion H; auto.
Qed.
Lemma near_iff eps s o : feasible_within eps s o <-> near eps s (cons_of o) /\ match o_obj o with Some e => vars_ok s (evars e) | None => True end.
Proof. unfold feasible_within, near, cons_of, vars_ok. rewrite Forall_map. reflexivity. Qed.
Lemma cle_near eps s a b : constr_within eps s (cle a b) <-> eval s a - eval s b <= eps /\ vars_ok s (evars a ++ evars b).
Proof.
  unfold constr_within, cle, sense_within; simpl. rewrite eval_esub, evars_esub. unfold vars_ok. tauto.
Qed.
Lemma ceq_near eps s a b : constr_within eps s (ceq a b) <-> within eps (eval s a) (eval s b) /\ vars_ok s (evars a ++ evars b).
Proof.
  unfold constr_within, ceq, sense_within, within; simpl. rewrite eval_esub, evars_esub. unfold vars_ok.
  split; intros [H H']; (split; [lra|exact H']).
Qed.
Lemma all_ok_near eps s cs : 0 <= eps -> all_ok s cs -> near eps s cs.
Proof.
  intros E H. unfold all_ok, near in *. eapply Forall_impl; [|exact H]. intros c [A B]. split; [|exact B]. unfold sense_holds, sense_within in *. destruct (c_sense c); lra.
Qed.

Ltac near_in H := repeat first
  [ rewrite near_app in H | rewrite near_cons in H | rewrite near_nil in H
  | rewrite cle_near in H | rewrite ceq_near in H ]; unfold within in H;
  ev_in H; cbn [fv fvars] in H;
  repeat first [ rewrite vars_ok_app in H | rewrite vars_ok_scaled in H | rewrite vars_ok_1 in H | rewrite vars_ok_nil in H ].

Lemma battery_near eps c f r s d t : 0 <= eps < 1 -> battery_shape c f r -> oi_val d t s (OIBattery r) -> near eps s (battery_cs r) -> battery_upto eps c f d t.
Proof.
  intros EP (<- & S1 & S2 & B1 & B2 & S3 & S4 & S5) (E1 & E2 & E3 & E4 & E5) H. unfold vset in *.
  unfold battery_cs in H. near_in H.
  destruct H as ((H1 & (V1 & _) & _) & (H2 & (V2 & _) & _) & (H3 & (V3 & V3') & _) & (H4 & ((((V4 & _) & _) & V5) & V6)) & (H5 & _) & _).
  rewrite (cont_var_ok _ _ _ _ S1) in V1. rewrite (cont_var_ok _ _ _ _ S2) in V2. rewrite (cont_var_ok _ _ _ _ S3) in V5.
  rewrite (cont_var_ok _ _ _ _ S4) in V4. rewrite (cont_var_ok _ _ _ _ S5) in V6.
  rewrite (binary_var_ok _ _ B1) in V3. rewrite (binary_var_ok _ _ B2) in V3'.
  rewrite ?E1, ?E2, ?E3, ?E4, ?E5, ?mw_energy in *.
  unfold battery_upto, between, within. cbv zeta.
  assert (0 <= b_capacity_mwh (boi_cfg r)) as Hc by lra.
  set (q := d_qty d (b_name (boi_cfg r))) in *. set (cap := b_capacity_mwh (boi_cfg r)) in *.
  splits; try lra.
  - destruct V3 as [Z|Z]; rewrite Z in *; lra.
  - destruct V3' as [Z|Z]; rewrite Z in *; lra.
  - destruct V3 as [Z|Z]; rewrite Z in *; [left; lra|]. destruct V3' as [Y|Y]; rewrite Y in *; [right; lra|lra].
Qed.
Lemma battery_link_near eps p r cp c f d t s : battery_shape cp f p -> battery_shape c f r -> oi_val d t s (OIBattery p) -> oi_val d (S t) s (OIBattery r) ->
  near eps s [battery_link p r] -> within eps (d_qty d (b_name c) Soc0 (S t)) (d_qty d (b_name cp) Soc1 t).
Proof.
  intros (<- & _) (<- & _) (_ & _ & _ & _ & E1) (_ & _ & _ & E2 & _) H. unfold battery_link in H. near_in H. unfold vset in *.
  destruct H as ((H & _) & _). rewrite E1, E2 in H. unfold within. lra.
Qed.
Lemma boiler_near eps c f r s d t : boiler_shape c f r -> ~ bo_efficiency_pct c == 0 -> oi_val d t s (OIBoiler r) -> near eps s (boiler_cs r f) -> boiler_upto eps c f d t.
Proof.
  intros (<- & S1 & B1 & S2) NZ (E1 & E2) H. unfold vset in *. unfold boiler_cs in H. near_in H.
  destruct H as ((H1 & V1 & _) & (H2 & (V2 & _) & _) & _).
  rewrite (cont_var_ok _ _ _ _ S1) in V2. rewrite (cont_var_ok _ _ _ _ S2) in V1.
  rewrite E1, E2 in *. rewrite !mw_energy in *. rewrite Qdiv_scale in H1 by auto.
  unfold boiler_upto, between, within. cbv zeta. splits; tauto.
Qed.
Lemma chp_near eps c f r s d t : chp_shape c f r -> 0 <= s (v_id (coi_gas r)) -> oi_val d t s (OICHP r) -> near eps s (chp_cs r f) -> chp_upto eps c f d t.
Proof.
  intros (<- & S1 & B1 & S2 & S3 & S4) G (E1 & E2 & E3 & E4) H. unfold vset in *. unfold chp_cs in H.
  rewrite near_app in H. destruct H as [H0 H]. near_in H.
  destruct H as ((H1 & V1 & _) & (H2 & V2 & _) & (H3 & (V3 & V3') & _) & (H4 & (_ & V4) & _) & _).
  rewrite (cont_var_ok _ _ _ _ S3) in V1. rewrite (cont_var_ok _ _ _ _ S4) in V2. rewrite (cont_var_ok _ _ _ _ S1) in V3.
  rewrite (binary_var_ok _ _ B1) in V3', V4.
  rewrite E1, E2, E3, E4 in *. rewrite !mw_energy in *.
  unfold chp_upto, between, within. cbv zeta. splits; try tauto.
  - destruct V3' as [Z|[Z|Z]].
    + left. rewrite Z in *. lra.
    + left. rewrite Z in *. lra.
    + right. rewrite Z in *. lra.
  - intros EEP. assert (Qgtb (ch_electric_efficiency_pct (coi_cfg r)) 0 = true) as EG by now apply Qgtb_iff.
    rewrite EG in H0. near_in H0. destruct H0 as ((H0 & _) & _). rewrite E1, E2, Qdiv_scale in H0 by lra. lra.
Qed.
Lemma chp_gas_near eps c f r s : chp_shape c f r -> near eps s (chp_cs r f) ->
  0 < ch_electric_efficiency_pct c \/ ~ ch_ht_efficiency_pct c == 0 \/ ~ ch_lt_efficiency_pct c == 0 -> 0 <= s (v_id (coi_gas r)).
Proof.
  intros (<- & S1 & B1 & S2 & S3 & S4) H D. unfold chp_cs in H. rewrite near_app in H. destruct H as [H0 H]. near_in H.
  destruct H as ((H1 & _ & V1) & (H2 & _ & V2) & _).
  destruct D as [D|[D|D]].
  - rewrite (proj2 (Qgtb_iff _ _) D) in H0. near_in H0. destruct H0 as ((_ & V & _) & _). rewrite (cont_var_ok _ _ _ _ S2) in V. tauto.
  - destruct V1 as [V1|V1]; [tauto|]. rewrite (cont_var_ok _ _ _ _ S2) in V1. tauto.
  - destruct V2 as [V2|V2]; [tauto|]. rewrite (cont_var_ok _ _ _ _ S2) in V2. tauto.
Qed.
Lemma hp_near eps c f r s d t : hp_shape c f r -> oi_val d t s (OIHeatPump r) -> near eps s (hp_cs r f) -> hp_upto eps c f d t.
Proof.
  intros (<- & S1 & B1 & S2 & S3) (E1 & E2 & E3) H. unfold vset in *. unfold hp_cs in H. near_in H.
  destruct H as ((H1 & (V1 & _) & _) & (H2 & V2 & _) & (H3 & (V3 & _) & _) & _).
  rewrite (cont_var_ok _ _ _ _ S1) in V1. rewrite (cont_var_ok _ _ _ _ S2) in V3. rewrite (cont_var_ok _ _ _ _ S3) in V2.
  rewrite E1, E2, E3 in *. rewrite mw_energy in *. unfold hp_upto, between, within. cbv zeta. splits; tauto.
Qed.
Lemma valve_near eps n r s d t : valve_shape n r -> oi_val d t s (OIValve r) -> near eps s (valve_cs r) -> valve_upto eps n d t.
Proof.
  intros (<- & S1 & S2) (E1 & E2) H. unfold vset in *. unfold valve_cs in H. near_in H.
  destruct H as ((H1 & V1 & V2) & _). rewrite (cont_var_ok _ _ _ _ S1) in V1. rewrite (cont_var_ok _ _ _ _ S2) in V2. rewrite E1, E2 in *. unfold valve_upto, within. cbv zeta. splits; tauto.
Qed.

(** ** Electric vehicles *)
Definition bin_near (eps x b : Q) : Prop := (b == 0 \/ b == 1) /\ (eps < x -> b == 1).
Lemma at_most_one_near : forall eps (xs bs : list Q), eps < 1 -> Forall2 (bin_near eps) xs bs -> Qsum bs <= 1 + eps -> at_most_one_above eps xs.
Proof.
  intros eps xs bs E1. induction 1 as [|x b xs bs (B01 & Hxb) F IH]; intros HS.
  - intros i j x y H. destruct i; discriminate.
  - cbn [Qsum fold_right] in HS. fold (Qsum bs) in HS.
    assert (Forall (fun b => b == 0 \/ b == 1) bs) as FB. { clear -F. induction F as [|? ? ? ? [? ?]]; constructor; tauto. }
    pose proof (Qsum_01_pos _ FB) as Hp.
    assert (b == 1 -> forall j y, nth_error xs j = Some y -> y <= eps) as Z.
    { intros B1 j y Ey. rewrite B1 in HS. assert (Qsum bs <= eps) as HS' by lra.
      clear -F FB HS' Ey E1. revert j Ey. induction F as [|x b xs bs (B & D) F IH]; intros [|j] E; try discriminate.
      - injection E as ->. cbn [Qsum fold_right] in HS'. fold (Qsum bs) in HS'. inversion FB as [|? ? H1 H2]; subst. pose proof (Qsum_01_pos _ H2).
        destruct (Qlt_le_dec eps y) as [L|L]; auto. exfalso. specialize (D L). lra.
      - inversion FB; subst. eapply IH; eauto. cbn [Qsum fold_right] in HS'. fold (Qsum bs) in HS'. destruct B as [B|B]; rewrite B in HS'; lra. }
    intros [|i] [|j] y z Ei Ej Hy Hz; auto; cbn in Ei, Ej.
    + exfalso. injection Ei as ->. specialize (Hxb Hy). pose proof (Z Hxb j z Ej). lra.
    + exfalso. injection Ej as ->. specialize (Hxb Hz). pose proof (Z Hxb i y Ei). lra.
    + f_equal. eapply (IH ltac:(destruct B01 as [B|B]; rewrite B in HS; lra)); eauto.
Qed.
Lemma pair_var_near eps c f cc t e v w s : 0 <= eps -> cont v (Some 0) (Some (mw_to_mwh f (cg_max_mw cc))) -> is_binary_var w ->
  near eps s (pair_cs c f cc t e (FVar v) (FVar w)) ->
  bin_near eps (s (v_id v)) (s (v_id w)) /\ charger_upto eps f cc (s (v_id v)) (1 - eps <= presence c e t).
Proof.
  intros EP Sv B H. unfold pair_cs in H. near_in H. destruct H as ((H1 & (V1 & _) & _) & (H2 & _) & (H3 & V3 & _) & _).
  rewrite (cont_var_ok _ _ _ _ Sv) in V1. rewrite (binary_var_ok _ _ B) in V3. rewrite !mw_energy in *. unfold bin_near, charger_upto.
  splits; try tauto.
  - intros N. destruct V3 as [Z|Z]; [|exact Z]. exfalso. rewrite Z in *. lra.
  - destruct V3 as [Z|Z]; rewrite Z in *; [left; lra|right; splits; lra].
Qed.
Lemma charger_impl eps f cc x (P P' : Prop) : (P -> P') -> charger_upto eps f cc x P -> charger_upto eps f cc x P'.
Proof. unfold charger_upto. tauto. Qed.
Lemma charge_near eps c f fl cc t e r s : 0 <= eps -> charge_shape c t f fl e cc r ->
  near eps s (pair_cs c f cc t e (eoi_charge r) (eoi_charge_bin r)) ->
  charger_upto eps f cc (fv s (eoi_charge r)) (can_charge_upto eps fl c e t) /\ bin_near eps (fv s (eoi_charge r)) (fv s (eoi_charge_bin r)).
Proof.
  intros EP [(x & b & -> & -> & Sx & Sb & L)|(-> & -> & L & ce & Ece & Nce)] H.
  - destruct (pair_var_near _ _ _ _ _ _ _ _ _ EP Sx Sb H) as (A & B). cbn [fv]. split; auto. eapply charger_impl; [|exact B]. intros D2. unfold can_charge_upto.
    destruct (limit_charge_variables_to_valid_events fl); [|exact D2].
    destruct (L eq_refl) as (ce & Ece & Hce). rewrite (event_presence _ _ _ _ Ece). exact Hce.
  - cbn [fv]. change (inject_Z 0) with 0. unfold charger_upto, bin_near. splits; auto; try lra; try (left; lra).
Qed.
Lemma discharge_near eps c f fl cc t e r s : 0 <= eps -> discharge_shape f (allow_evs_discharge fl) cc r ->
  near eps s (if allow_evs_discharge fl then pair_cs c f cc t e (eoi_discharge r) (eoi_discharge_bin r) else []) ->
  (if allow_evs_discharge fl then charger_upto eps f cc (fv s (eoi_discharge r)) (1 - eps <= presence c e t) else fv s (eoi_discharge r) == 0) /\
  bin_near eps (fv s (eoi_discharge r)) (fv s (eoi_discharge_bin r)).
Proof.
  intros EP. unfold discharge_shape. destruct (allow_evs_discharge fl).
  - intros (x & b & -> & -> & Sx & Sb) H. destruct (pair_var_near _ _ _ _ _ _ _ _ _ EP Sx Sb H) as (A & B). cbn [fv]. auto.
  - intros (-> & ->) _. cbn [fv]. change (inject_Z 0) with 0. unfold bin_near. splits; try reflexivity; try (left; reflexivity). lra.
Qed.
Lemma minmax_near eps a c f chargers t allow s : near eps s (minmax_cs a c f chargers t allow) ->
  forall e ec k cc, nth_error (ev_event_cfgs c) e = Some ec -> nth_error chargers k = Some cc ->
    near eps s (pair_cs c f cc t e (ea_charge a e k) (ea_charge_bin a e k)) /\
    near eps s (if allow then pair_cs c f cc t e (ea_discharge a e k) (ea_discharge_bin a e k) else []).
Proof.
  unfold minmax_cs. rewrite near_flat_map. intros H e ec k cc He Hk. apply enumerate_in in He, Hk. specialize (H _ He). rewrite near_flat_map in H. specialize (H _ Hk).
  cbn [fst snd] in H. rewrite near_app in H. destruct H as [H1 H2]. split; auto; destruct allow; auto.
Qed.
Lemma single_near eps a c s : ea_cfg a = c -> near eps s (single_cs a c) ->
  (forall e, (e < n_events c)%nat ->
     Qsum (map (fun k => fv s (ea_charge_bin a e k)) (seq 0 (n_chargers c)) ++ map (fun k => fv s (ea_discharge_bin a e k)) (seq 0 (n_chargers c))) <= 1 + eps) /\
  (forall k, (k < n_chargers c)%nat ->
     Qsum (map (fun e => fv s (ea_charge_bin a e k)) (seq 0 (n_events c)) ++ map (fun e => fv s (ea_discharge_bin a e k)) (seq 0 (n_events c))) <= 1 + eps).
Proof.
  intros Ec. unfold single_cs. rewrite Ec, near_app, !near_flat_map. intros [H1 H2]. split.
  - intros e He. destruct (nth_error_lt _ _ He) as (ec & Ee). apply enumerate_in in Ee. specialize (H1 _ Ee). cbn [fst] in H1.
    rewrite near_cons in H1. destruct H1 as [H1 _]. rewrite cle_near, eval_sum_fv2, eval_econst in H1. lra.
  - intros e He. destruct (nth_error_lt _ _ He) as (ec & Ee). apply enumerate_in in Ee. specialize (H2 _ Ee). cbn [fst] in H2.
    rewrite near_cons in H2. destruct H2 as [H2 _].
    rewrite cle_near, (eval_sum_fv2 s (fun e0 => ea_charge_bin a e0 e) (fun e0 => ea_discharge_bin a e0 e)), eval_econst in H2. lra.
Qed.
Lemma losses_near eps a c e ec s : ea_cfg a = c -> near eps s (losses_cs a e ec) ->
  forall k, (k < n_chargers c)%nat -> within eps (fv s (ea_loss a e k)) (fv s (ea_charge a e k) * (1 - ce_efficiency_pct ec)) /\ vars_ok s (fvars (ea_loss a e k)).
Proof.
  intros Ec. unfold losses_cs. rewrite Ec, near_flat_map. intros H k Hk. destruct (nth_error_lt _ _ Hk) as (cc & Ek). apply enumerate_in in Ek. specialize (H _ Ek). cbn [fst] in H.
  rewrite near_cons in H. destruct H as [H _]. rewrite ceq_near in H. unfold within in H. rewrite eval_escale, !eval_esum, vars_ok_app, !evars_esum in H. cbn [map Qsum fold_right flat_map] in H.
  rewrite !eval_fexpr, !app_nil_r, !evars_fexpr in H. destruct H as (H & _ & V). split; [|exact V]. unfold within in *. nra.
Qed.
Lemma soc_near eps a sp c e s : ea_cfg a = c -> ea_cfg sp = c -> constr_within eps s (soc_c a sp e) ->
  (let ks := seq 0 (n_chargers c) in
   within eps (fv s (ea_soc0 a e) + Qsum (map (fun k => fv s (ea_charge a e k)) ks) + Qsum (map (fun k => fv s (ea_charge sp e k)) ks)
    - Qsum (map (fun k => fv s (ea_discharge a e k)) ks) - Qsum (map (fun k => fv s (ea_discharge sp e k)) ks)
    - Qsum (map (fun k => fv s (ea_loss a e k)) ks)) (fv s (ea_soc1 a e))) /\
  vars_ok s (fvars (ea_soc0 a e)) /\ vars_ok s (fvars (ea_soc1 a e)).
Proof.
  intros Ea Es. unfold soc_c, sum_row. rewrite Ea, Es. cbv zeta. rewrite ceq_near, vars_ok_app. unfold within.
  rewrite !eval_esub, !eval_eadd, !eval_fexpr, !eval_sum_fv, !evars_esub, !evars_eadd, !vars_ok_app, !vars_sum_fv, !evars_fexpr.
  intros (A & ((((((V1 & V2) & V3) & V4) & V5) & V6) & V7)). splits; auto; lra.
Qed.
Lemma balance_near eps a sp c s : ea_cfg a = c -> ea_cfg sp = c -> near eps s (balance_cs a sp) ->
  forall e ec, nth_error (ev_event_cfgs c) e = Some ec ->
    constr_within eps s (soc_c a sp e) /\ near eps s (losses_cs a e ec) /\ near eps s (losses_cs sp e ec).
Proof.
  intros Ea Es. unfold balance_cs. rewrite Ea, near_flat_map.
  intros H e ec Ee. apply enumerate_in in Ee. specialize (H _ Ee). cbn [fst snd] in H. now rewrite near_cons, near_app in H.
Qed.
Lemma evs_near eps c t f fl xs S0 S1 E Sp a sp d s : 0 <= eps < 1 -> evs_shape c t f fl xs S0 S1 E Sp -> array_main c S0 S1 E a -> array_spill c Sp sp ->
  Forall (oi_val d t s) xs -> near eps s (evs_cs a sp c f fl t) -> evs_upto eps c f fl d t.
Proof.
  intros (EP0 & EP1) SH (Ca & ne & nc & Pa & So) (Cs & L1 & _ & _ & Ps & Pz) FV H.
  destruct (evs_vals _ _ _ _ _ _ _ _ _ _ _ SH FV) as [VM VS]. destruct SH as (_ & SS & SE & SSp).
  unfold evs_cs in H. rewrite !near_app in H. destruct H as (HM & HS & H3 & HB).
  pose proof (minmax_near _ _ _ _ _ _ _ _ HM) as HM'. clear HM. rename HM' into HM. pose proof (minmax_near _ _ _ _ _ _ _ _ HS) as HS'. clear HS. rename HS' into HS.
  destruct (single_near _ _ _ _ Ca H3) as (HE & HC). clear H3. pose proof (balance_near _ _ _ _ _ Ca Cs HB) as HB'. clear HB. rename HB' into HB.
  assert (forall e ec k cc, nth_error (ev_event_cfgs c) e = Some ec -> nth_error (ev_chargers c) k = Some cc ->
     charger_upto eps f cc (d_ev_charge d (ev_name c) e k t) (can_charge_upto eps fl c e t) /\ bin_near eps (d_ev_charge d (ev_name c) e k t) (fv s (ea_charge_bin a e k)) /\
     (if allow_evs_discharge fl then charger_upto eps f cc (d_ev_discharge d (ev_name c) e k t) (1 - eps <= presence c e t) else d_ev_discharge d (ev_name c) e k t == 0) /\
     bin_near eps (d_ev_discharge d (ev_name c) e k t) (fv s (ea_discharge_bin a e k))) as PP.
  { intros e ec k cc Ee Ek. pose proof (nth_error_lt2 _ _ _ Ee) as He. pose proof (nth_error_lt2 _ _ _ Ek) as Hk.
    destruct (HM _ _ _ _ Ee Ek) as [M1 M2]. destruct (Pa e k He Hk) as (Q1 & Q2 & Q3 & Q4 & Q5). rewrite Q1, Q2 in M1. rewrite Q3, Q4 in M2.
    destruct (SE _ _ _ _ Ee Ek) as (_ & _ & _ & _ & _ & _ & CS & DS & _).
    destruct (charge_near _ _ _ _ _ _ _ _ _ EP0 CS M1) as [A1 A2]. destruct (discharge_near eps c f fl cc t e _ _ EP0 DS M2) as [B1 B2].
    destruct (VM e k He Hk) as (W1 & W2 & _). rewrite W1 in A1, A2. rewrite W2 in B1, B2. rewrite Q2, Q4. auto. }
  unfold evs_upto. cbv zeta. splits.
  - intros e ec k cc Ee Ek. pose proof (nth_error_lt2 _ _ _ Ee) as He. pose proof (nth_error_lt2 _ _ _ Ek) as Hk.
    destruct (PP _ _ _ _ Ee Ek) as (A1 & _ & A3 & _). destruct (Pa e k He Hk) as (Q1 & Q2 & Q3 & Q4 & Q5). destruct (VM e k He Hk) as (W1 & W2 & W3 & _).
    destruct (HB _ _ Ee) as (_ & HL & _). destruct (losses_near _ _ _ _ _ _ Ca HL k Hk) as (L & LV). rewrite Q1, Q5, W1, W3 in L.
    destruct (SE _ _ _ _ Ee Ek) as (_ & _ & _ & _ & _ & _ & _ & _ & (v & Ev & Cv) & _). rewrite Q5, Ev in LV. cbn [fvars] in LV. rewrite vars_ok_1, (cont_var_ok _ _ _ _ Cv) in LV.
    rewrite Ev in W3. cbn [fv] in W3. rewrite W3 in LV. splits; auto; tauto.
  - intros e ec cc Ee Ek. pose proof (nth_error_lt2 _ _ _ Ee) as He. pose proof (nth_error_lt2 _ _ _ Ek) as Hk.
    destruct (HS _ _ _ _ Ee Ek) as [M1 _]. destruct (Ps e He) as (Q1 & Q2 & _ & _ & Q5). rewrite Q1, Q2 in M1.
    destruct (SSp _ _ _ _ Ee Ek) as (_ & _ & _ & _ & _ & _ & CS & _ & (v & Ev & Cv) & _).
    destruct (charge_near _ _ _ _ _ _ _ _ _ EP0 CS M1) as [A1 _]. destruct (VS e He Hk) as (W1 & W3). rewrite W1 in A1.
    destruct (HB _ _ Ee) as (_ & _ & HL). destruct (losses_near _ _ _ _ _ _ Cs HL 0%nat nc) as (L & LV). rewrite Q1, Q5, W1, W3 in L.
    rewrite Q5, Ev in LV. cbn [fvars] in LV. rewrite vars_ok_1, (cont_var_ok _ _ _ _ Cv) in LV. rewrite Ev in W3. cbn [fv] in W3. rewrite W3 in LV.
    splits; auto; tauto.
  - intros e I. apply in_seq in I. assert (e < n_events c)%nat as He by (unfold n_events in *; lia). destruct (nth_error_lt _ _ He) as (ec & Ee).
    eapply at_most_one_near; [exact EP1| |exact (HE e He)].
    apply Forall2_app; apply Forall2_map_lr; intros k J; apply in_seq in J; assert (k < n_chargers c)%nat as Hk by (unfold n_chargers in *; lia); destruct (nth_error_lt _ _ Hk) as (cc & Ek);
      destruct (PP _ _ _ _ Ee Ek) as (_ & A & _ & B); auto.
  - intros k I. apply in_seq in I. assert (k < n_chargers c)%nat as Hk by (unfold n_chargers in *; lia). destruct (nth_error_lt _ _ Hk) as (cc & Ek).
    eapply at_most_one_near; [exact EP1| |exact (HC k Hk)].
    apply Forall2_app; apply Forall2_map_lr; intros e J; apply in_seq in J; assert (e < n_events c)%nat as He by (unfold n_events in *; lia); destruct (nth_error_lt _ _ He) as (ec & Ee);
      destruct (PP _ _ _ _ Ee Ek) as (_ & A & _ & B); auto.
  - intros e ec Ee. pose proof (nth_error_lt2 _ _ _ Ee) as He. destruct (HB _ _ Ee) as (HQ & _). apply (soc_near _ _ _ _ _ _ Ca Cs) in HQ. cbv zeta in HQ.
    destruct HQ as (HQ & V0 & V1). destruct (So e He) as [Z0 Z1]. rewrite Z0 in V0. rewrite Z1 in V1. cbn [fvars] in V0, V1.
    destruct (SS _ _ Ee) as [C0 C1]. rewrite vars_ok_1, (cont_var_ok _ _ _ _ C0) in V0. rewrite vars_ok_1, (cont_var_ok _ _ _ _ C1) in V1.
    destruct (VM e 0%nat He nc) as (_ & _ & _ & W4 & W5). rewrite W4 in V0. rewrite W5 in V1. unfold between. splits; try tauto.
    rewrite Z0, Z1 in HQ. cbn [fv] in HQ. rewrite W4, W5 in HQ. unfold within in *.
    rewrite (Qsum_map_ext (fun k => fv s (ea_charge a e k)) (fun k => d_ev_charge d (ev_name c) e k t)) in HQ
      by (intros k J; apply in_seq in J; assert (k < n_chargers c)%nat as Hk by lia; destruct (Pa e k He Hk) as (Q1 & _); rewrite Q1; destruct (VM e k He Hk) as (W & _); now rewrite W).
    rewrite (Qsum_map_ext (fun k => fv s (ea_discharge a e k)) (fun k => d_ev_discharge d (ev_name c) e k t)) in HQ
      by (intros k J; apply in_seq in J; assert (k < n_chargers c)%nat as Hk by lia; destruct (Pa e k He Hk) as (_ & _ & Q1 & _); rewrite Q1; destruct (VM e k He Hk) as (_ & W & _); now rewrite W).
    rewrite (Qsum_map_ext (fun k => fv s (ea_loss a e k)) (fun k => d_ev_loss d (ev_name c) e k t)) in HQ
      by (intros k J; apply in_seq in J; assert (k < n_chargers c)%nat as Hk by lia; destruct (Pa e k He Hk) as (_ & _ & _ & _ & Q1); rewrite Q1; destruct (VM e k He Hk) as (_ & _ & W & _); now rewrite W).
    rewrite (Qsum_seq_first (fun k => fv s (ea_charge sp e k)) (n_chargers c) nc) in HQ by (intros k Hk; destruct (Pz e k Hk) as (Q1 & _); rewrite Q1; reflexivity).
    rewrite (Qsum_map_zero (fun k => fv s (ea_discharge sp e k))) in HQ.
    2:{ intros k J. apply in_seq in J. destruct (Nat.eq_dec k 0) as [->|N].
        - destruct (Ps e He) as (_ & _ & Q1 & _). rewrite Q1. destruct (nth_error_lt (ev_spill_chargers c) 0) as (cc & Ek); [lia|].
          destruct (SSp _ _ _ _ Ee Ek) as (_ & _ & _ & _ & _ & _ & _ & (DS & _) & _). rewrite DS. reflexivity.
        - destruct (Pz e k) as (_ & _ & Q1 & _); [lia|]. rewrite Q1. reflexivity. }
    destruct (Ps e He) as (Q1 & _). rewrite Q1 in HQ. destruct (VS e He) as (W1 & _); [lia|]. rewrite W1 in HQ. unfold n_chargers in HQ. lra.
Qed.
Lemma link_near eps c S0 T1 s : near eps s (link_cs S0 T1 (n_events c)) -> forall e, (e < n_events c)%nat -> within eps (s (v_id (S0 e))) (s (v_id (T1 e))).
Proof.
  unfold link_cs, near. rewrite Forall_map, Forall_forall. intros H e He. specialize (H e ltac:(apply in_seq; lia)). rewrite ceq_near in H. unfold within in *. rewrite !eval_evar in H. tauto.
Qed.
