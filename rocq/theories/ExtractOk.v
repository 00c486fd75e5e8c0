(** * ExtractOk: the results table can always be built (proofs) *)
From Verif Require Import Base Pulp Params Optimizer Types Assets EVs Site Constraints Objectives Extract Pipeline Emit Prim Spec SpecReport SpecRun Layout Rows Sem SemEv SemSite SemProg SemObj SemCells SemRows SemTable SemResults Builds.
Open Scope Q_scope.

Definition data_full (d : idata Q) : Prop := forall col, In col (id_columns d) -> List.length (snd col) = id_n d.

Section extract.
Context (vals : values) (c : site_cfg) (assets : list asset) (fl : flags) (iv : interval_vars) (lo hi : nat) (cs : list constr).
Context (P : program c assets fl iv lo hi cs) (RD : site_ready c assets) (DF : data_full (sc_idata c)).
Context (OC : forall row x v, In row iv -> In x row -> In v (must_vars x) \/ In v (bal_vars x) -> vals v <> None).
Context (PN : forall a, In a assets -> contains "evs" (asset_name a) = true -> exists e, a = AEVs e).

Lemma value_of_ok f clip : f <> FNone -> (forall v, In v (fvars f) -> vals v <> None) -> exists q, value_of vals f clip = Ok q.
Proof.
  intros N H. unfold value_of. destruct f as [v|q|z|]; cbn; eauto; [|congruence]. specialize (H v (or_introl eq_refl)). destruct (vals v); [cbn; eauto|congruence].
Qed.
Lemma attr_cells_ok nm clip l : (forall a, In a l -> snd a <> FNone /\ forall v, In v (fvars (snd a)) -> vals v <> None) -> exists ys, attr_cells vals nm clip l = Ok ys.
Proof.
  intros H. apply rmap_total. intros a Ia. destruct (H a Ia) as [H1 H2]. destruct (value_of_ok _ clip H1 H2) as (q & ->). cbn [rbind]. eauto.
Qed.
Lemma raw_cells_ok nm l : (forall a, In a l -> exists v, snd a = FVar v) -> exists ys, attr_cells_raw vals nm l = Ok ys.
Proof. intros H. apply rmap_total. intros a Ia. destruct (H a Ia) as (v & ->). cbn. eauto. Qed.

Lemma extract_object_ok row x : In row iv -> In x row -> exists ys, extract_object vals x = Ok ys.
Proof.
  intros Ir Ix. pose proof (fun v => OC row x v Ir Ix) as O. destruct x; cbn [extract_object]; eauto.
  - apply attr_cells_ok. intros a Ia. cbn [battery_attrs In] in Ia. cbn [must_vars] in O.
    repeat (destruct Ia as [<-|Ia]; [split; [discriminate|]; cbn [snd fvars In]; intros v [<-|[]]; apply O; left; cbn; tauto|]). destruct Ia.
  - apply raw_cells_ok. intros a Ia. cbn in Ia. repeat (destruct Ia as [<-|Ia]; [cbn; eauto|]). destruct Ia.
  - apply raw_cells_ok. intros a Ia. cbn in Ia. repeat (destruct Ia as [<-|Ia]; [cbn; eauto|]). destruct Ia.
  - apply attr_cells_ok. intros a Ia. cbn [hp_attrs In] in Ia.
    repeat (destruct Ia as [<-|Ia]; [split; [discriminate|]; cbn [snd fvars In]; intros v [<-|[]]; apply O; right; cbn; tauto|]). destruct Ia.
  - apply attr_cells_ok. intros a Ia. cbn [rg_attrs In] in Ia.
    repeat (destruct Ia as [<-|Ia]; [split; [discriminate|]; cbn [snd fvars In]; intros v [<-|[]]; apply O; right; cbn; tauto|]). destruct Ia.
  - apply attr_cells_ok. intros a Ia. unfold spill_attrs in Ia. cbv zeta in Ia.
    cbn [electric_generation_mwh electric_load_mwh high_temperature_generation_mwh low_temperature_generation_mwh high_temperature_load_mwh low_temperature_load_mwh gas_consumption_mwh In] in Ia.
    repeat (destruct Ia as [<-|Ia]; [split; [discriminate|]; cbn [snd fvars In]; first [solve [intros v []] | intros v [<-|[]]; apply O; right; cbn; tauto]|]). destruct Ia.
  - apply attr_cells_ok. intros a Ia. cbn [valve_attrs In] in Ia.
    repeat (destruct Ia as [<-|Ia]; [split; [discriminate|]; cbn [snd fvars In]; intros v [<-|[]]; apply O; right; cbn; tauto|]). destruct Ia.
Qed.
Lemma extract_kind_ok t row k : nth_error iv t = Some row -> exists ys, extract_kind vals iv t k = Ok ys.
Proof.
  intros E. unfold extract_kind, filter_objective_variables. rewrite (py_index_nat_ok _ _ _ E). cbn [rbind].
  destruct (rmap_total (extract_object vals) (filter (matches (Some k) None) row)) as (ys & ->); [|cbn [rbind]; eauto].
  intros x Ix. apply filter_In in Ix. eapply extract_object_ok; [eapply nth_error_In; eauto|tauto].
Qed.
Lemma extract_site_ok t row : nth_error iv t = Some row -> exists ys, extract_site vals (sc_idata c) iv t = Ok ys.
Proof.
  intros E. unfold extract_site, filter_objective_variables. rewrite (py_index_nat_ok _ _ _ E). cbn [rbind].
  assert (t < n_intervals c)%nat as Ht by (rewrite <- (pr_len _ _ _ _ _ _ _ P); apply nth_error_Some; congruence).
  destruct (pr_shape _ _ _ _ _ _ _ P t row E) as (r & xss & -> & SR & F). cbn [filter]. assert (matches (Some KSite) (Some "site"%string) (OISite r) = true) as ->.
  { unfold matches. cbn [kind_of kind_eqb oi_name]. destruct SR as (-> & _). reflexivity. }
  rewrite filter_none.
  - destruct (rmap_total (fun c0 => let! q := nth_res (snd c0) t in Ok (("site-" ++ fst c0)%string, Some q)) (id_columns (sc_idata c))) as (ys & ->); [|cbn [rbind]; eauto].
    intros col Ic. specialize (DF col Ic). unfold n_intervals in Ht. destruct (nth_error_lt (snd col) t ltac:(lia)) as (q & Eq). unfold nth_res. rewrite Eq. cbn. eauto.
  - intros x Ix. apply in_concat in Ix. destruct Ix as (xs & J1 & J2). destruct (Forall2_in_r _ _ _ _ F J1) as (a & _ & Sh).
    destruct (shape_name _ _ _ _ _ _ Sh J2) as [_ N]. unfold matches. destruct (kind_eqb (kind_of x) KSite) eqn:K; [|reflexivity]. apply kind_eqb_iff in K. now apply N in K.
Qed.

Lemma ev_pair_vals (r : ev_oi) row w : In row iv -> In (ev_wrap w r) row -> 
  forall f, In f [eoi_charge r; eoi_charge_bin r; eoi_discharge r; eoi_discharge_bin r; eoi_loss r] -> forall v, In v (fvars f) -> vals v <> None.
Proof.
  intros Ir Ix f If v Iv. apply (OC row _ v Ir Ix). cbn [In] in If. destruct w; cbn [ev_wrap must_vars]; unfold bal_vars;
    cbn [electric_generation_mwh electric_load_mwh electric_charge_mwh electric_discharge_mwh high_temperature_generation_mwh high_temperature_load_mwh low_temperature_generation_mwh low_temperature_load_mwh];
    rewrite !in_app_iff; cbn [fvars In]; destruct If as [<-|[<-|[<-|[<-|[<-|[]]]]]]; tauto.
Qed.
Lemma sum_values_ok fs : (forall f, In f fs -> f <> FNone /\ forall v, In v (fvars f) -> vals v <> None) -> exists q, sum_values vals fs = Ok q.
Proof.
  intros H. unfold sum_values. destruct (rmap_total (fun f => value_of vals f false) fs) as (qs & ->); [|cbn [rbind]; eauto]. intros f If. destruct (H f If). now apply value_of_ok.
Qed.
Lemma pair_not_none c0 t f fl0 disc e ec s0 s1 k cc r : pair_shape c0 t f fl0 disc e ec s0 s1 k cc r ->
  forall x, In x [eoi_charge r; eoi_charge_bin r; eoi_discharge r; eoi_discharge_bin r; eoi_loss r] -> x <> FNone.
Proof.
  intros (_ & _ & _ & _ & _ & _ & CS & DS & (v & LS & _) & _) x Ix. cbn [In] in Ix.
  assert (eoi_charge r <> FNone /\ eoi_charge_bin r <> FNone) as [A1 A2] by (destruct CS as [(a & b & -> & -> & _)|(-> & -> & _)]; split; discriminate).
  assert (eoi_discharge r <> FNone /\ eoi_discharge_bin r <> FNone) as [A3 A4] by (unfold discharge_shape in DS; destruct (disc && allow_evs_discharge fl0)%bool; [destruct DS as (a & b & -> & -> & _)|destruct DS as (-> & ->)]; split; discriminate).
  destruct Ix as [<-|[<-|[<-|[<-|[<-|[]]]]]]; auto. rewrite LS. discriminate.
Qed.
Lemma grid_cell_ok t row b xs S0 S1 G Sp (w : bool) a e k : nth_error iv t = Some row -> evs_shape b t (sc_freq c) fl xs S0 S1 G Sp -> incl xs row ->
  (e < n_events b)%nat -> (k < if w then List.length (ev_spill_chargers b) else n_chargers b)%nat -> pair_is a e k ((if w then Sp else G) e k) ->
  forall g, In g [ea_charge a; ea_charge_bin a; ea_discharge a; ea_discharge_bin a; ea_loss a] -> g e k <> FNone /\ forall v, In v (fvars (g e k)) -> vals v <> None.
Proof.
  intros E (EX & _ & SE & SS) IN He Hk (P1 & P2 & P3 & P4 & P5) g Ig. destruct (nth_error_lt _ _ He) as (ec & Ee).
  assert (In (ev_wrap w ((if w then Sp else G) e k)) row) as Ix.
  { apply IN. rewrite EX, in_app_iff. destruct w; [right; apply (in_map OIEvSpill)|left; apply (in_map OIEv)]; apply in_grid; exists e, k; auto. }
  assert (forall x, In x [eoi_charge ((if w then Sp else G) e k); eoi_charge_bin ((if w then Sp else G) e k); eoi_discharge ((if w then Sp else G) e k); eoi_discharge_bin ((if w then Sp else G) e k); eoi_loss ((if w then Sp else G) e k)] -> x <> FNone) as NN.
  { destruct w; destruct (nth_error_lt _ _ Hk) as (cc & Ek); [eapply pair_not_none, (SS e ec k cc Ee Ek)|eapply pair_not_none, (SE e ec k cc Ee Ek)]. }
  pose proof (ev_pair_vals _ row w (nth_error_In _ _ E) Ix) as VV.
  cbn [In] in Ig. destruct Ig as [<-|[<-|[<-|[<-|[<-|[]]]]]]; rewrite ?P1, ?P2, ?P3, ?P4, ?P5; (split; [apply NN|apply VV]); cbn; tauto.
Qed.
Lemma charger_cells_total (a : evs_array) b kc : ea_cfg a = b -> (fst kc < n_chargers b)%nat ->
  (forall e g, (e < n_events b)%nat -> In g [ea_charge a; ea_charge_bin a; ea_discharge a; ea_discharge_bin a; ea_loss a] -> g e (fst kc) <> FNone /\ forall v, In v (fvars (g e (fst kc))) -> vals v <> None) ->
  exists ys, ev_charger_cells vals a kc = Ok ys.
Proof.
  intros EC L H. unfold ev_charger_cells. cbv zeta. rewrite EC, (proj2 (Nat.ltb_lt _ _) L). apply rmap_total. intros at_ Ia.
  destruct (sum_values_ok (map (fun e => snd at_ e (fst kc)) (seq 0 (n_events b)))) as (q & ->); [|cbn [rbind]; eauto].
  intros x Ix. apply in_map_iff in Ix. destruct Ix as (e & <- & Ie). apply in_seq in Ie. apply (H e (snd at_)); [lia|].
  cbn [ev_charger_attrs In] in Ia. repeat (destruct Ia as [<-|Ia]; [cbn; tauto|]). destruct Ia.
Qed.

Lemma extract_evs_ok t row : nth_error iv t = Some row -> exists ys, extract_evs vals (map asset_name assets) iv t = Ok ys.
Proof.
  intros E. unfold extract_evs, filter_objective_variables at 1. rewrite (py_index_nat_ok _ _ _ E). cbn [rbind].
  destruct (filter (matches (Some KEv) None) row) as [|x0 rest0]; [eauto|].
  rewrite filter_map_name. set (l := filter (fun a => contains "evs" (asset_name a)) assets).
  assert (forall a, In a l -> exists e, a = AEVs e /\ In (AEVs e) assets) as IL.
  { intros a I. apply filter_In in I. destruct I as [I1 I2]. destruct (PN a I1 I2) as (e & ->). eauto. }
  assert (forall a, In a assets -> exists xs, owns a t (sc_freq c) fl row xs) as OW by (intros a Ia; eapply row_owns; eauto; apply P).
  rewrite !rmap_map.
  assert (forall w, exists pk, rmap (fun x => create_evs_array iv (Z.of_nat t) (asset_name x) w) l = Ok pk) as CR.
  { intros w. apply rmap_total. intros a Ia. destruct (IL a Ia) as (e & -> & Ie). destruct (OW _ Ie) as (xs & O). cbn [asset_name]. eapply create_ok; eauto. eapply py_index_nat_ok; eauto. }
  destruct (CR false) as (pk & E1). destruct (CR true) as (pk2 & E2). rewrite E1. cbn [rbind].
  assert (exists l1, rmap (ev_cells vals) pk = Ok l1) as (l1 & ->).
  { apply rmap_total. intros arr Iarr. apply rmap_ok in E1. destruct (Forall2_in_r _ _ _ _ E1 Iarr) as (a & Ia & K). cbv beta in K.
    destruct (IL a Ia) as (b & -> & Ib). destruct (OW _ Ib) as (xs & (S0 & S1 & G & Sp & SH) & IN & FT).
    destruct (evs_filters _ _ _ _ _ _ _ _ _ _ SH FT) as [M0 _]. cbn [asset_name] in K.
    apply (create_main _ _ _ S0 S1 G Sp t (sc_freq c) fl xs) in K; [|unfold filter_objective_variables; rewrite (py_index_nat_ok _ _ _ E); cbn [rbind]; now rewrite M0|exact SH].
    destruct K as (EC & Hn & Hc & Pa & So).
    pose proof (fun e k He Hk => grid_cell_ok t row b xs S0 S1 G Sp false arr e k E SH IN He Hk (Pa e k He Hk)) as GC.
    unfold ev_cells. cbv zeta. rewrite EC.
    destruct (rmap_total (ev_charger_cells vals arr) (enumerate (ev_chargers b))) as (q1 & ->).
    { intros [k cc] Ik. apply enumerate_in in Ik. assert (k < n_chargers b)%nat as Hk by (unfold n_chargers; apply nth_error_Some; congruence).
      eapply charger_cells_total; eauto. }
    destruct (rmap_total (ev_event_cells vals arr) (enumerate (ev_event_cfgs b))) as (q2 & ->).
    { intros [e ec] Ie. apply enumerate_in in Ie. assert (e < n_events b)%nat as He by (unfold n_events; apply nth_error_Some; congruence).
      unfold ev_event_cells. cbv zeta. rewrite EC. apply rmap_total. intros at_ Iat.
      destruct (sum_values_ok (map (fun k => snd at_ (fst (e, ec)) k) (seq 0 (n_chargers b)))) as (q & ->); [|cbn [rbind]; eauto].
      intros x Ix. apply in_map_iff in Ix. destruct Ix as (k & <- & Ik). apply in_seq in Ik. cbn [fst]. apply (GC e k He ltac:(lia)).
      cbn [ev_event_attrs In] in Iat. repeat (destruct Iat as [<-|Iat]; [cbn; tauto|]). destruct Iat. }
    destruct (rmap_total (ev_soc_cells vals arr) [("initial_soc_mwh"%string, ea_soc0 arr); ("final_soc_mwh"%string, ea_soc1 arr)]) as (q3 & ->); [|cbn [rbind]; eauto].
    intros at_ Iat. unfold ev_soc_cells. cbv zeta. rewrite EC. apply rmap_total. intros e Ie. apply in_seq in Ie. destruct (So e ltac:(lia)) as [Z0 Z1].
    cbn [In] in Iat. destruct Iat as [<-|[<-|[]]]; cbn [snd]; rewrite ?Z0, ?Z1; cbn; eauto. }
  cbn [rbind]. rewrite E2. cbn [rbind].
  assert (exists l2, rmap (ev_spill_cells vals) pk2 = Ok l2) as (l2 & ->); [|cbn [rbind]; eauto].
  apply rmap_total. intros arr Iarr. apply rmap_ok in E2. destruct (Forall2_in_r _ _ _ _ E2 Iarr) as (a & Ia & K). cbv beta in K.
  destruct (IL a Ia) as (b & -> & Ib). destruct (OW _ Ib) as (xs & (S0 & S1 & G & Sp & SH) & IN & FT).
  destruct (evs_filters _ _ _ _ _ _ _ _ _ _ SH FT) as [_ M0]. cbn [asset_name] in K.
  apply (create_spill _ _ _ S0 S1 G Sp t (sc_freq c) fl xs) in K; [|unfold filter_objective_variables; rewrite (py_index_nat_ok _ _ _ E); cbn [rbind]; now rewrite M0|exact SH].
  destruct K as (EC & L1 & Hn & Hc & Pa & _). unfold ev_spill_cells. rewrite EC.
  destruct (rmap_total (ev_charger_cells vals arr) (enumerate (ev_spill_chargers b))) as (q1 & ->); [|cbn [rbind]; eauto].
  intros [k cc] Ik. apply enumerate_in in Ik. assert (k < List.length (ev_spill_chargers b))%nat as Hk by (apply nth_error_Some; congruence). assert (k = 0)%nat as -> by lia.
  eapply charger_cells_total; eauto. intros e g He. cbn [fst]. apply (grid_cell_ok t row b xs S0 S1 G Sp true arr e 0%nat E SH IN He Hk). now apply Pa.
Qed.

Lemma extract_row_ok t : (t < n_intervals c)%nat -> exists ys, extract_row vals (sc_idata c) (map asset_name assets) iv t = Ok ys.
Proof.
  intros Ht. rewrite <- (pr_len _ _ _ _ _ _ _ P) in Ht. destruct (nth_error_lt _ _ Ht) as (row & E). unfold extract_row.
  destruct (extract_site_ok _ _ E) as (r1 & ->). cbn [rbind].
  destruct (extract_kind_ok _ _ KSpill E) as (r2 & ->). cbn [rbind]. destruct (extract_kind_ok _ _ KBattery E) as (r3 & ->). cbn [rbind].
  destruct (extract_kind_ok _ _ KCHP E) as (r4 & ->). cbn [rbind]. destruct (extract_kind_ok _ _ KBoiler E) as (r5 & ->). cbn [rbind].
  destruct (extract_kind_ok _ _ KValve E) as (r6 & ->). cbn [rbind]. destruct (extract_evs_ok _ _ E) as (r7 & ->). cbn [rbind].
  destruct (extract_kind_ok _ _ KHeatPump E) as (r8 & ->). cbn [rbind]. destruct (extract_kind_ok _ _ KRenewable E) as (r9 & ->). cbn [rbind]. eauto.
Qed.
Lemma extract_rows_ok : exists rows, rmap (extract_row vals (sc_idata c) (map asset_name assets) iv) (seq 0 (id_n (sc_idata c))) = Ok rows.
Proof. apply rmap_total. intros t It. apply in_seq in It. apply extract_row_ok. unfold n_intervals. lia. Qed.
End extract.

(** ** the table *)
Lemma check_lengths_same {A} (r : list (string * list A)) n : r <> [] -> (forall a, In a r -> List.length (snd a) = n) -> check_array_lengths r = Ok tt.
Proof.
  intros N H. unfold check_array_lengths. destruct r as [|[m l] r]; [congruence|]. assert (forallb (fun kv => Nat.eqb (List.length (snd kv)) (List.length l)) r = true) as ->; [|reflexivity].
  apply forallb_forall. intros x I. apply Nat.eqb_eq. rewrite (H x (or_intror I)). symmetry. apply (H _ (or_introl eq_refl)).
Qed.
Lemma count_one names m : NoDup names -> In m names -> count m names = 1%nat.
Proof.
  unfold count. induction 1 as [|x l NI ND IH]; intros I; [destruct I|]. cbn [filter]. destruct I as [->|I].
  - rewrite String.eqb_refl. cbn [List.length]. rewrite filter_none; [reflexivity|]. intros y Iy. apply String.eqb_neq. intros ->. contradiction.
  - destruct (String.eqb_spec m x) as [->|_]; [contradiction|]. auto.
Qed.
Lemma rows_lengths names rows : NoDup names -> names <> [] -> rows <> [] -> (forall row, In row rows -> map fst row = names) -> check_array_lengths (fold_left append_row rows []) = Ok tt.
Proof.
  intros ND NN NR HN. set (lp := fold_left append_row rows []).
  assert (NoDup (map fst lp)) as NL by (apply append_rows_nodup; constructor).
  assert (forall m, col_of lp m = flat_map (cells_of m) rows) as CO by (intros m; subst lp; rewrite append_rows_col; reflexivity).
  assert (forall m, In m (map fst lp) <-> In m names) as IN.
  { intros m. subst lp. rewrite append_rows_in. split; [intros [[]|(row & I & J)]; now rewrite <- (HN row I)|]. intros I. right. destruct rows as [|row rows']; [congruence|]. exists row. split; [now left|]. rewrite HN; auto. now left. }
  apply (check_lengths_same lp (List.length rows)).
  - destruct names as [|m ?]; [congruence|]. intros X. assert (In m (map fst lp)) as I by (apply IN; now left). rewrite X in I. destruct I.
  - intros [col cells] I. cbn [snd]. apply in_col in I; [|exact NL]. destruct I as [I E]. apply IN in I. rewrite <- E, CO, (flat_cells_length names) by exact HN. rewrite (count_one names col ND I). lia.
Qed.
