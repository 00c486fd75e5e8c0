(** * SemProg: the program of a whole horizon and the physical dispatches (proofs) *)
From Verif Require Import Base Pulp Params Optimizer Types Assets EVs Site Emit Prim Spec SpecSwitch SpecReport SpecRun SpecWithin Layout Rows Sem SemEv SemNear SemSite.
Open Scope Q_scope.

(** ** The loop over the intervals *)
Definition before (iv : interval_vars) (t : nat) : option (list oneint) := match t with O => None | S j => nth_error iv j end.

Lemma loop c assets fl : NoDup (map asset_name assets) -> forall k iv o iv' o',
  (forall p, prev_row iv = Some p -> row_shape c assets fl (pred (List.length iv)) p) ->
  site_intervals c assets fl iv (seq (List.length iv) k) o = Ok (iv', o') ->
  exists rows css, iv' = (iv ++ rows)%list /\ List.length rows = k /\ List.length css = k /\
    cons_of o' = (cons_of o ++ List.concat css)%list /\ o_obj o' = o_obj o /\ (o_next o <= o_next o')%nat /\
    (forall v row, In row rows -> In v (flat_map oi_vars row) -> (o_next o <= v_id v < o_next o')%nat) /\
    (forall d : setting, reach (o_next o) (o_next o') (fun s => forall j row, nth_error rows j = Some row -> Forall (oi_set d (List.length iv + j) s) row)) /\
    (forall j row cs, nth_error rows j = Some row -> nth_error css j = Some cs ->
       row_shape c assets fl (List.length iv + j) row /\
       row_sem c assets fl (List.length iv + j) (match j with O => prev_row iv | S i => nth_error rows i end) row cs).
Proof.
  intros ND. induction k as [|k IH]; intros iv o iv' o' HP H; cbn [seq site_intervals] in H.
  - apply ret_ok in H. destruct H as [<- <-]. exists [], []. cbn [List.concat]. rewrite !app_nil_r. splits; auto.
    + intros v row [].
    + intros d. apply reach_true. intros s [|j] row; discriminate.
    + intros [|j] row cs; discriminate.
  - rewrite bind_ok in H. destruct H as (iv1 & o1 & H1 & H).
    destruct (interval_step _ _ _ _ _ _ _ _ ND eq_refl HP H1) as (row & cs & -> & SH & C1 & O1 & L1 & V1 & R1 & RS).
    replace (S (List.length iv)) with (List.length (iv ++ [row])%list) in H by (rewrite app_length; cbn; lia).
    destruct (IH (iv ++ [row])%list o1 iv' o') as (rows & css & -> & L2 & L3 & C2 & O2 & N2 & V2 & R2 & K2).
    { rewrite prev_row_app. intros p [= <-]. rewrite app_length. cbn [List.length]. rewrite Nat.add_1_r. exact SH. }
    { exact H. }
    exists (row :: rows), (cs :: css). rewrite <- app_assoc. cbn [app List.length List.concat]. splits; try congruence; try lia.
    + now rewrite C2, C1, app_assoc.
    + intros v r [<-|I] J; [specialize (V1 v J); lia|specialize (V2 v r I J); lia].
    + intros d. eapply reach_impl; [|eapply reach_and; [|exact (R1 d)|exact (R2 d)]]; [|lia]. cbn beta. intros s [A B] [|j] r E; cbn in E.
      * injection E as <-. now rewrite Nat.add_0_r.
      * specialize (B j r E). rewrite app_length in B. cbn [List.length] in B. now replace (List.length iv + S j)%nat with (List.length iv + 1 + j)%nat by lia.
    + intros [|j] r k0 E1 E2; cbn in E1, E2.
      * injection E1 as <-. injection E2 as <-. rewrite Nat.add_0_r. auto.
      * specialize (K2 j r k0 E1 E2). rewrite app_length in K2. cbn [List.length] in K2. replace (List.length iv + S j)%nat with (List.length iv + 1 + j)%nat by lia.
        destruct K2 as [K2 K3]. split; auto. destruct j; cbn [nth_error] in *; [rewrite prev_row_app in K3|]; exact K3.
Qed.

(** ** After the intervals *)
Definition vals_of (d : dispatch) (s : assignment) (iv : interval_vars) : Prop := forall t row, nth_error iv t = Some row -> Forall (oi_val d t s) row.
Definition bins_of (w : switches) (s : assignment) (iv : interval_vars) : Prop := forall t row, nth_error iv t = Some row -> Forall (oi_bin w t s) row.
Definition sets_of (d : setting) (s : assignment) (iv : interval_vars) : Prop := forall t row, nth_error iv t = Some row -> Forall (oi_set d t s) row.
Definition after_sem (a : asset) (f : freq) (fl : flags) (n : nat) (iv : interval_vars) (cs : list constr) : Prop :=
  (forall d s, vals_of d s iv -> all_ok s cs -> asset_ends a d n) /\
  (forall (d : setting) s, sets_of d s iv -> (forall t, (t < n)%nat -> asset_at a f fl d t) -> asset_ends a d n -> all_ok s cs) /\
  (forall eps d s, vals_of d s iv -> near eps s cs -> ends_upto eps a d n).

Lemma py_index_first {A} (x : A) l : py_index (x :: l) 0 = Ok x.
Proof. apply py_index_0. eauto. Qed.
Lemma ends_split {A} (l : list A) : l <> [] -> exists x0 x1 l0 l1, l = x0 :: l0 /\ l = (l1 ++ [x1])%list /\ nth_error l 0 = Some x0 /\ nth_error l (List.length l - 1) = Some x1.
Proof.
  intros N. destruct l as [|x0 l0]; [congruence|]. destruct (exists_last N) as (l1 & x1 & E). exists x0, x1, l0, l1. splits; auto.
  rewrite E, app_length. cbn [List.length]. rewrite nth_error_app2 by lia. replace (List.length l1 + 1 - 1 - List.length l1)%nat with 0%nat by lia. reflexivity.
Qed.

Section after.
Context (c : site_cfg) (assets : list asset) (fl : flags) (iv : interval_vars) (ND : NoDup (map asset_name assets))
  (SH : forall t row, nth_error iv t = Some row -> row_shape c assets fl t row).

Lemma row_owns t row a : nth_error iv t = Some row -> In a assets -> exists xs, owns a t (sc_freq c) fl row xs.
Proof.
  intros E I. destruct (SH t row E) as (r & xss & -> & SR & F). pose proof (owns_exists c assets fl t r xss SR F ND) as FO.
  destruct (Forall2_in_l _ _ _ _ FO I) as (xs & _ & O). eauto.
Qed.

Lemma after_battery b o u o' : In (ABattery b) assets -> battery_constrain_after b iv o = Ok (u, o') ->
  exists cs, extends o o' cs /\ after_sem (ABattery b) (sc_freq c) fl (List.length iv) iv cs.
Proof.
  intros I H. unfold battery_constrain_after in H.
  assert (iv <> []) as NI by (intros X; rewrite X in H; discriminate).
  destruct (ends_split iv NI) as (x0 & x1 & k0 & k1 & E0 & E1 & N0 & N1).
  assert (py_index iv 0 = Ok x0) as PI0 by (rewrite E0; apply py_index_first).
  assert (py_index iv (-1) = Ok x1) as PI1 by (rewrite E1; apply py_index_last).
  destruct (row_owns _ _ _ N0 I) as (xs0 & (r0 & -> & SR0) & IN0 & F0). destruct (row_owns _ _ _ N1 I) as (xs1 & (r1 & -> & SR1) & IN1 & F1).
  specialize (F0 KBattery ltac:(discriminate)). specialize (F1 KBattery ltac:(discriminate)). cbn in F0, F1.
  unfold filter_objective_variables in H. rewrite PI0, PI1 in H. cbn [rbind] in H.
  rewrite F0, F1 in H.
  exists [ceq (evar (boi_initial r0)) (econst (b_initial_charge_mwh (boi_cfg r0))); ceq (evar (boi_final r1)) (econst (b_final_charge_mwh (boi_cfg r1)))].
  split.
  - revert o u o' H. eapply emits_bind_lift; [reflexivity|]. eapply emits_bind_lift; [apply hd_res_cons|]. eapply emits_bind_lift; [reflexivity|]. eapply emits_bind_lift; [apply hd_res_cons|].
    eapply emits_bind_lift; [reflexivity|]. eapply emits_bind_lift; [reflexivity|]. eapply emits_eq; [apply emits_bind; [apply emits_constrain|intros _; apply emits_constrain]|reflexivity].
  - destruct SR0 as (C0 & _ & _ & _ & _ & _ & A0 & _). destruct SR1 as (C1 & _ & _ & _ & _ & _ & _ & A1).
    unfold after_sem. splits; [intros d s V OK|intros d s V AT (Z1 & Z2)|intros eps d s V OK].
    + pose proof (V _ _ N0) as V0. pose proof (V _ _ N1) as V1. rewrite Forall_forall in V0, V1. specialize (V0 _ (IN0 _ (or_introl eq_refl))). specialize (V1 _ (IN1 _ (or_introl eq_refl))).
      cbn [oi_val] in V0, V1. cbv zeta in V0, V1. rewrite C0 in *. rewrite C1 in *. destruct V0 as (_ & _ & _ & V0 & _). destruct V1 as (_ & _ & _ & _ & V1). unfold vset in *.
      rewrite !all_ok_cons, !ceq_ok in OK. destruct OK as ((K0 & _) & (K1 & _) & _). ev_in K0. ev_in K1. rewrite V0 in K0. rewrite V1 in K1. cbn [asset_ends]. auto.
    + pose proof (V _ _ N0) as V0. pose proof (V _ _ N1) as V1. rewrite Forall_forall in V0, V1. specialize (V0 _ (IN0 _ (or_introl eq_refl))). specialize (V1 _ (IN1 _ (or_introl eq_refl))).
      cbn [oi_set] in V0, V1. cbv zeta in V0, V1. rewrite C0 in *. rewrite C1 in *. destruct V0 as (_ & _ & _ & _ & _ & V0 & _). destruct V1 as (_ & _ & _ & _ & _ & _ & V1). unfold vset in *.
      rewrite !all_ok_cons, !ceq_ok, all_ok_nil. ev_goal. rewrite !vars_ok_app, !vars_ok_1, !vars_ok_nil, (cont_var_ok _ _ _ _ A0), (cont_var_ok _ _ _ _ A1), V0, V1.
      assert (0 < List.length iv)%nat as LN by (destruct iv; [congruence|cbn; lia]).
      destruct (AT 0%nat LN) as (_ & _ & _ & _ & _ & _ & _ & B0 & _). destruct (AT (List.length iv - 1)%nat ltac:(lia)) as (_ & _ & _ & _ & _ & _ & _ & _ & B1 & _). unfold between in *. splits; auto; tauto.
    + pose proof (V _ _ N0) as V0. pose proof (V _ _ N1) as V1. rewrite Forall_forall in V0, V1. specialize (V0 _ (IN0 _ (or_introl eq_refl))). specialize (V1 _ (IN1 _ (or_introl eq_refl))).
      cbn [oi_val] in V0, V1. cbv zeta in V0, V1. rewrite C0 in *. rewrite C1 in *. destruct V0 as (_ & _ & _ & V0 & _). destruct V1 as (_ & _ & _ & _ & V1). unfold vset in *.
      rewrite !near_cons, !ceq_near in OK. unfold within in OK. destruct OK as ((K0 & _) & (K1 & _) & _). ev_in K0. ev_in K1. rewrite V0 in K0. rewrite V1 in K1. cbn [ends_upto]. unfold within. auto.
Qed.

Lemma soc_loop (ini fin : evs_array) (S0 S1 : nat -> lpvar) (l : list (nat * charge_event_cfg)) :
  (forall e ec, In (e, ec) l -> ea_soc0 ini e = FVar (S0 e) /\ ea_soc1 fin e = FVar (S1 e)) ->
  emits (forM_ l (fun ee => soc_equals (ea_soc0 ini (fst ee)) 0 ;;; soc_equals (ea_soc1 fin (fst ee)) (ce_capacity_mwh (snd ee))))
    (flat_map (fun ee : nat * charge_event_cfg => [ceq (evar (S0 (fst ee))) (econst 0); ceq (evar (S1 (fst ee))) (econst (ce_capacity_mwh (snd ee)))]) l).
Proof.
  induction l as [|[e ec] l IH]; intros H; cbn [forM_ flat_map]; [apply emits_ret|].
  destruct (H e ec (or_introl eq_refl)) as [E0 E1]. cbn [fst snd]. rewrite E0, E1. cbn [soc_equals].
  eapply emits_eq; [apply emits_bind; [apply emits_bind; [apply emits_constrain|intros _; apply emits_constrain]|intros _; apply IH; intros; eapply H; right; eauto]|reflexivity].
Qed.

Lemma after_evs b o u o' : In (AEVs b) assets -> evs_constrain_after b iv o = Ok (u, o') ->
  exists cs, extends o o' cs /\ after_sem (AEVs b) (sc_freq c) fl (List.length iv) iv cs.
Proof.
  intros I H. unfold evs_constrain_after in H.
  assert (iv <> []) as NI by (intros X; rewrite X in H; discriminate).
  destruct (ends_split iv NI) as (x0 & x1 & k0 & k1 & E0 & E1 & N0 & N1).
  assert (py_index iv 0 = Ok x0) as PI0 by (rewrite E0; apply py_index_first).
  assert (py_index iv (-1) = Ok x1) as PI1 by (rewrite E1; apply py_index_last).
  destruct (row_owns _ _ _ N0 I) as (xs0 & (S0 & T0 & G0 & Sp0 & SH0) & IN0 & F0). destruct (row_owns _ _ _ N1 I) as (xs1 & (S1 & T1 & G1 & Sp1 & SH1) & IN1 & F1).
  destruct (evs_filters _ _ _ _ _ _ _ _ _ _ SH0 F0) as [M0 _]. destruct (evs_filters _ _ _ _ _ _ _ _ _ _ SH1 F1) as [M1 _].
  rewrite bind_ok in H. destruct H as (ini & o1 & H1 & H). apply lift_ok in H1. destruct H1 as [Hi <-].
  rewrite bind_ok in H. destruct H as (fin & o2 & H2 & H). apply lift_ok in H2. destruct H2 as [Hf <-].
  apply (create_main _ _ _ S0 T0 G0 Sp0 0%nat (sc_freq c) fl xs0) in Hi; [|unfold filter_objective_variables; rewrite PI0; cbn [rbind]; now rewrite M0|exact SH0].
  apply (create_main _ _ _ S1 T1 G1 Sp1 (List.length iv - 1)%nat (sc_freq c) fl xs1) in Hf; [|unfold filter_objective_variables; rewrite PI1; cbn [rbind]; now rewrite M1|exact SH1].
  eexists. split.
  - revert o u o' H. apply (soc_loop _ _ S0 T1). intros e ec J. apply enumerate_in in J. destruct Hi as (_ & _ & _ & _ & Hi). destruct Hf as (_ & _ & _ & _ & Hf).
    assert (e < n_events b)%nat as He by (unfold n_events; apply nth_error_Some; congruence). split; [now apply Hi|now apply Hf].
  - assert (0 < n_chargers b)%nat as Hc by apply Hi. destruct (Hi) as (_ & _ & _ & _ & Hi').
    unfold after_sem. splits; [intros d s V OK|intros d s V AT AE|intros eps d s V OK].
    + cbn [asset_ends]. intros e ec Ee. rewrite all_ok_flat_map in OK. specialize (OK (e, ec)). rewrite enumerate_in in OK. specialize (OK Ee). cbn [fst snd] in OK.
      assert (e < n_events b)%nat as He by (unfold n_events; apply nth_error_Some; congruence).
      pose proof (V _ _ N0) as V0. pose proof (V _ _ N1) as V1. assert (Forall (oi_val d 0 s) xs0) as W0 by (rewrite Forall_forall in *; auto). assert (Forall (oi_val d (List.length iv - 1) s) xs1) as W1 by (rewrite Forall_forall in *; auto).
      destruct (evs_vals _ _ _ _ _ _ _ _ _ _ _ SH0 W0) as [Y0 _]. destruct (evs_vals _ _ _ _ _ _ _ _ _ _ _ SH1 W1) as [Y1 _].
      destruct (Y0 e 0%nat He Hc) as (_ & _ & _ & Q0 & _). destruct (Y1 e 0%nat He Hc) as (_ & _ & _ & _ & Q1).
      rewrite !all_ok_cons, !ceq_ok in OK. destruct OK as ((K0 & _) & (K1 & _) & _). ev_in K0. ev_in K1. rewrite Q0 in K0. rewrite Q1 in K1. auto.
    + rewrite all_ok_flat_map. intros [e ec] J. apply enumerate_in in J. cbn [fst snd].
      assert (e < n_events b)%nat as He by (unfold n_events; apply nth_error_Some; congruence).
      pose proof (V _ _ N0) as V0. pose proof (V _ _ N1) as V1. assert (Forall (oi_set d 0 s) xs0) as W0 by (rewrite Forall_forall in *; auto). assert (Forall (oi_set d (List.length iv - 1) s) xs1) as W1 by (rewrite Forall_forall in *; auto).
      destruct (evs_sets _ _ _ _ _ _ _ _ _ _ _ SH0 W0) as [Y0 _]. destruct (evs_sets _ _ _ _ _ _ _ _ _ _ _ SH1 W1) as [Y1 _].
      destruct (Y0 e 0%nat He Hc) as (_ & _ & _ & _ & _ & Q0 & _). destruct (Y1 e 0%nat He Hc) as (_ & _ & _ & _ & _ & _ & Q1).
      assert (0 < List.length iv)%nat as LN by (destruct iv; [congruence|cbn; lia]).
      destruct (AT 0%nat LN) as (_ & _ & _ & _ & B0). destruct (AT (List.length iv - 1)%nat ltac:(lia)) as (_ & _ & _ & _ & B1).
      destruct (B0 e ec J) as (B0' & _). destruct (B1 e ec J) as (_ & B1' & _). destruct (AE e ec J) as (Z0 & Z1).
      destruct SH0 as (_ & SS0 & _). destruct SH1 as (_ & SS1 & _). destruct (SS0 e ec J) as [A0 _]. destruct (SS1 e ec J) as [_ A1].
      rewrite !all_ok_cons, !ceq_ok, all_ok_nil. ev_goal. rewrite !vars_ok_app, !vars_ok_1, !vars_ok_nil, (cont_var_ok _ _ _ _ A0), (cont_var_ok _ _ _ _ A1), Q0, Q1.
      unfold between in *. splits; auto; tauto.
    + cbn [ends_upto]. intros e ec Ee. rewrite near_flat_map in OK. specialize (OK (e, ec)). rewrite enumerate_in in OK. specialize (OK Ee). cbn [fst snd] in OK.
      assert (e < n_events b)%nat as He by (unfold n_events; apply nth_error_Some; congruence).
      pose proof (V _ _ N0) as V0. pose proof (V _ _ N1) as V1. assert (Forall (oi_val d 0 s) xs0) as W0 by (rewrite Forall_forall in *; auto). assert (Forall (oi_val d (List.length iv - 1) s) xs1) as W1 by (rewrite Forall_forall in *; auto).
      destruct (evs_vals _ _ _ _ _ _ _ _ _ _ _ SH0 W0) as [Y0 _]. destruct (evs_vals _ _ _ _ _ _ _ _ _ _ _ SH1 W1) as [Y1 _].
      destruct (Y0 e 0%nat He Hc) as (_ & _ & _ & Q0 & _). destruct (Y1 e 0%nat He Hc) as (_ & _ & _ & _ & Q1).
      rewrite !near_cons, !ceq_near in OK. unfold within in OK. destruct OK as ((K0 & _) & (K1 & _) & _). ev_in K0. ev_in K1. rewrite Q0 in K0. rewrite Q1 in K1. unfold within. auto.
Qed.

Lemma after_asset a o u o' : In a assets -> asset_constrain_after a iv o = Ok (u, o') ->
  exists cs, extends o o' cs /\ after_sem a (sc_freq c) fl (List.length iv) iv cs.
Proof.
  intros I H. destruct a as [b|b|b|b|b|b|n|n]; cbn [asset_constrain_after] in H.
  1: exact (after_battery b o u o' I H). 3: exact (after_evs b o u o' I H).
  all: apply ret_ok in H; destruct H as [_ <-]; exists []; split; [apply extends_refl|]; unfold after_sem; splits; intros; cbn [asset_ends ends_upto]; auto; apply all_ok_nil; exact Logic.I.
Qed.
Lemma afters l o u o' : incl l assets -> forM_ l (fun a => asset_constrain_after a iv) o = Ok (u, o') ->
  exists css, extends o o' (List.concat css) /\ Forall2 (fun a cs => after_sem a (sc_freq c) fl (List.length iv) iv cs) l css.
Proof.
  revert o. induction l as [|a l IH]; intros o IL H; cbn [forM_] in H.
  - apply ret_ok in H. destruct H as [_ <-]. exists []. split; [apply extends_refl|constructor].
  - rewrite bind_ok in H. destruct H as (u1 & o1 & H1 & H). destruct (after_asset a _ _ _ (IL a (or_introl eq_refl)) H1) as (cs & X & S).
    destruct (IH o1) as (css & X' & F); auto; [intros b Ib; apply IL; now right|].
    exists (cs :: css). split; [cbn [List.concat]; eapply extends_trans; eauto|]. constructor; auto.
Qed.
End after.

(** ** The dispatch read off an assignment *)
Definition is_plain (nm : string) (x : oneint) : bool :=
  match x with OISite _ | OIEv _ | OIEvSpill _ => false | _ => (oi_name x =? nm)%string end.
Definition plain_val (s : assignment) (x : oneint) (q : qty) : Q :=
  let v y := s (v_id y) in
  match x, q with
  | OIBattery r, Charge => v (boi_charge r) | OIBattery r, Discharge => v (boi_discharge r) | OIBattery r, Loss => v (boi_loss r)
  | OIBattery r, Soc0 => v (boi_initial r) | OIBattery r, Soc1 => v (boi_final r)
  | OIBoiler r, HtGen => v (kboi_ht r) | OIBoiler r, Gas => v (kboi_gas r)
  | OICHP r, ElecGen => v (coi_elec r) | OICHP r, Gas => v (coi_gas r) | OICHP r, HtGen => v (coi_ht r) | OICHP r, LtGen => v (coi_lt r)
  | OIHeatPump r, ElecLoad => v (hoi_elec r) | OIHeatPump r, LtLoad => v (hoi_lt r) | OIHeatPump r, HtGen => v (hoi_ht r)
  | OIRenewable r, ElecGen => v (roi_elec r)
  | OISpill r, ElecGen => v (soi_elec_gen r) | OISpill r, ElecLoad => v (soi_elec_load r) | OISpill r, HtGen => v (soi_ht_gen r) | OISpill r, LtLoad => v (soi_lt_load r)
  | OIValve r, HtLoad => v (voi_ht_load r) | OIValve r, LtGen => v (voi_lt_gen r)
  | _, _ => 0
  end.
Definition first_val {A} (p : A -> bool) (g : A -> Q) (row : list A) : Q := match find p row with Some x => g x | None => 0 end.
Definition is_site_oi (x : oneint) : bool := match x with OISite _ => true | _ => false end.
Definition is_ev_at (nm : string) (e k : nat) (x : oneint) : bool :=
  match x with OIEv r => ((ev_name (eoi_cfg r) =? nm)%string && (eoi_event r =? e)%nat && (eoi_charger r =? k)%nat)%bool | _ => false end.
Definition is_ev_event (nm : string) (e : nat) (x : oneint) : bool :=
  match x with OIEv r => ((ev_name (eoi_cfg r) =? nm)%string && (eoi_event r =? e)%nat)%bool | _ => false end.
Definition is_spill_event (nm : string) (e : nat) (x : oneint) : bool :=
  match x with OIEvSpill r => ((ev_name (eoi_cfg r) =? nm)%string && (eoi_event r =? e)%nat)%bool | _ => false end.
Definition on_ev (s : assignment) (g : ev_oi -> fval) (x : oneint) : Q := match x with OIEv r | OIEvSpill r => fv s (g r) | _ => 0 end.
Definition d_of (s : assignment) (iv : interval_vars) : dispatch :=
  let row t := nth t iv [] in
  mkDispatch
    (fun t => first_val is_site_oi (fun x => match x with OISite r => s (v_id (tio_import r)) | _ => 0 end) (row t))
    (fun t => first_val is_site_oi (fun x => match x with OISite r => s (v_id (tio_export r)) | _ => 0 end) (row t))
    (fun nm q t => first_val (is_plain nm) (fun x => plain_val s x q) (row t))
    (fun nm e k t => first_val (is_ev_at nm e k) (on_ev s eoi_charge) (row t))
    (fun nm e k t => first_val (is_ev_at nm e k) (on_ev s eoi_discharge) (row t))
    (fun nm e k t => first_val (is_ev_at nm e k) (on_ev s eoi_loss) (row t))
    (fun nm e t => first_val (is_spill_event nm e) (on_ev s eoi_charge) (row t))
    (fun nm e t => first_val (is_spill_event nm e) (on_ev s eoi_loss) (row t))
    (fun nm e t => first_val (is_ev_event nm e) (on_ev s eoi_soc0) (row t))
    (fun nm e t => first_val (is_ev_event nm e) (on_ev s eoi_soc1) (row t)).

Lemma first_val_is {A} (p : A -> bool) (g : A -> Q) row x : In x row -> p x = true ->
  (forall y, In y row -> p y = true -> g y = g x) -> first_val p g row = g x.
Proof.
  intros I P H. unfold first_val. destruct (find p row) as [y|] eqn:E.
  - apply find_some in E. destruct E. now apply H.
  - apply (find_none _ _ E) in I. congruence.
Qed.

(** objects of the same row with the same name belong to the same asset *)
Lemma row_same c assets fl t row x y : NoDup (map asset_name assets) -> row_shape c assets fl t row -> In x row -> In y row ->
  kind_of x <> KSite -> kind_of y <> KSite -> oi_name x = oi_name y ->
  exists a xs, In a assets /\ asset_shape a t (sc_freq c) fl xs /\ In x xs /\ In y xs.
Proof.
  intros ND (r & xss & -> & SR & F) Ix Iy Nx Ny E. pose proof (owns_exists c assets fl t r xss SR F ND) as FO.
  assert (forall z, In z (OISite r :: List.concat xss)%list -> kind_of z <> KSite -> exists a xs, In a assets /\ owns a t (sc_freq c) fl (OISite r :: List.concat xss)%list xs /\ In z xs) as G.
  { intros z [<-|Iz] Nz; [cbn in Nz; congruence|]. apply in_concat in Iz. destruct Iz as (xs & J & K). clear -FO J K. revert FO. generalize (OISite r :: List.concat xss)%list. intros rw FO.
    induction FO as [|a ys l l' O F IH]; [destruct J|]. destruct J as [->|J]; [exists a, xs; splits; auto; now left|]. destruct (IH J) as (b & zs & B1 & B2 & B3). exists b, zs. splits; auto. now right. }
  destruct (G x Ix Nx) as (a & xs & Ia & Oa & Xa). destruct (G y Iy Ny) as (b & ys & Ib & Ob & Yb).
  assert (a = b) as <-. { eapply NoDup_names_inj; eauto. destruct (shape_name _ _ _ _ _ _ (proj1 Oa) Xa) as [<- _]. destruct (shape_name _ _ _ _ _ _ (proj1 Ob) Yb) as [<- _]. exact E. }
  exists a, xs. splits; auto; [apply Oa|]. eapply owns_in; eauto.
Qed.
Lemma plain_same c assets fl t row x y : NoDup (map asset_name assets) -> row_shape c assets fl t row -> In x row -> In y row ->
  is_plain (oi_name x) x = true -> is_plain (oi_name x) y = true -> y = x.
Proof.
  intros ND SH Ix Iy Px Py. destruct (row_same c assets fl t row x y ND SH Ix Iy) as (a & xs & Ia & Sh & Jx & Jy).
  - destruct x; cbn in *; congruence.
  - destruct y; cbn in *; congruence.
  - unfold is_plain in Py. destruct y; try discriminate; apply String.eqb_eq in Py; auto.
  - destruct a as [b|b|b|b|b|b|n|n]; cbn [asset_shape] in Sh.
    4:{ destruct Sh as (S0 & S1 & E & Sp & -> & _). rewrite in_app_iff, !in_map_iff in Jx. destruct Jx as [(r & <- & _)|(r & <- & _)]; discriminate. }
    all: destruct Sh as (r & -> & _); destruct Jx as [<-|[]]; destruct Jy as [<-|[]]; reflexivity.
Qed.

Lemma ev_same c assets fl t row x y : NoDup (map asset_name assets) -> Forall asset_fine assets -> row_shape c assets fl t row -> In (OIEv x) row -> In (OIEv y) row ->
  ev_name (eoi_cfg x) = ev_name (eoi_cfg y) -> eoi_event x = eoi_event y ->
  (eoi_charger x = eoi_charger y -> x = y) /\ eoi_soc0 x = eoi_soc0 y /\ eoi_soc1 x = eoi_soc1 y.
Proof.
  intros ND FN SH Ix Iy E Ee. destruct (row_same c assets fl t row _ _ ND SH Ix Iy) as (a & xs & Ia & Sh & Jx & Jy); try discriminate; auto.
  destruct a as [b|b|b|b|b|b|n|n]; cbn [asset_shape] in Sh.
  4:{ destruct Sh as (S0 & S1 & G & Sp & -> & _ & SE & _). rewrite in_app_iff, !in_map_iff in Jx, Jy.
      destruct Jx as [(r & [= ->] & Jx)|(r & ? & _)]; [|discriminate]. destruct Jy as [(r & [= ->] & Jy)|(r & ? & _)]; [|discriminate].
      apply in_grid in Jx, Jy. destruct Jx as (e & k & He & Hk & ->). destruct Jy as (e' & k' & He' & Hk' & ->).
      destruct (nth_error_lt _ _ He) as (ec & X1). destruct (nth_error_lt _ _ Hk) as (cc & X2). destruct (nth_error_lt _ _ He') as (ec' & X3). destruct (nth_error_lt _ _ Hk') as (cc' & X4).
      destruct (SE _ _ _ _ X1 X2) as (_ & _ & A1 & _ & A2 & _ & _ & _ & _ & A3 & A4). destruct (SE _ _ _ _ X3 X4) as (_ & _ & B1 & _ & B2 & _ & _ & _ & _ & B3 & B4).
      assert (e = e') as <- by congruence. splits; try congruence. }
  all: destruct Sh as (r & -> & _); destruct Jx as [Jx|[]]; discriminate.
Qed.
Lemma spill_same c assets fl t row x y : NoDup (map asset_name assets) -> Forall asset_fine assets -> row_shape c assets fl t row -> In (OIEvSpill x) row -> In (OIEvSpill y) row ->
  ev_name (eoi_cfg x) = ev_name (eoi_cfg y) -> eoi_event x = eoi_event y -> x = y.
Proof.
  intros ND FN SH Ix Iy E Ee. destruct (row_same c assets fl t row _ _ ND SH Ix Iy) as (a & xs & Ia & Sh & Jx & Jy); try discriminate; auto.
  rewrite Forall_forall in FN. specialize (FN a Ia).
  destruct a as [b|b|b|b|b|b|n|n]; cbn [asset_shape] in Sh.
  4:{ destruct Sh as (S0 & S1 & G & Sp & -> & _ & _ & SE). destruct FN as (L1 & _). rewrite in_app_iff, !in_map_iff in Jx, Jy.
      destruct Jx as [(r & ? & _)|(r & [= ->] & Jx)]; [discriminate|]. destruct Jy as [(r & ? & _)|(r & [= ->] & Jy)]; [discriminate|].
      apply in_grid in Jx, Jy. destruct Jx as (e & k & He & Hk & ->). destruct Jy as (e' & k' & He' & Hk' & ->).
      destruct (nth_error_lt _ _ He) as (ec & X1). destruct (nth_error_lt _ _ Hk) as (cc & X2). destruct (nth_error_lt _ _ He') as (ec' & X3). destruct (nth_error_lt _ _ Hk') as (cc' & X4).
      destruct (SE _ _ _ _ X1 X2) as (_ & _ & A1 & _). destruct (SE _ _ _ _ X3 X4) as (_ & _ & B1 & _).
      assert (e = e') as <- by congruence. assert (k = k') as <- by lia. reflexivity. }
  all: destruct Sh as (r & -> & _); destruct Jx as [Jx|[]]; discriminate.
Qed.

Lemma d_of_vals c assets fl iv s : NoDup (map asset_name assets) ->
  (forall t row, nth_error iv t = Some row -> row_shape c assets fl t row) -> (iv <> [] -> Forall asset_fine assets) -> vals_of (d_of s iv) s iv.
Proof.
  intros ND SH FN t row E. specialize (FN ltac:(intros ->; destruct t; discriminate)). specialize (SH t row E).
  assert (nth t iv [] = row) as NR by (now apply nth_error_nth). rewrite Forall_forall. intros x I.
  assert (forall nm q, is_plain (oi_name x) x = true -> nm = oi_name x -> d_qty (d_of s iv) nm q t = plain_val s x q) as PL.
  { intros nm q P ->. cbn [d_of d_qty]. rewrite NR. apply (first_val_is _ (fun y => plain_val s y q) _ x); auto. intros y Iy Py. now rewrite (plain_same c assets fl t row x y ND SH I Iy P Py). }
  destruct x as [r|r|r|r|r|r|r|r|r|r]; cbn [oi_val]; cbv zeta; unfold vset.
  1:{ cbn [d_of d_import d_export]. rewrite NR. split; symmetry; rewrite (first_val_is _ _ _ (OISite r)); auto; intros y Iy Py; destruct SH as (r0 & xss & -> & SR & F);
      (assert (forall z, In z (OISite r0 :: List.concat xss)%list -> is_site_oi z = true -> z = OISite r0) as U;
       [intros z [<-|J] Z; [reflexivity|]; apply in_concat in J; destruct J as (xs & J1 & J2); exfalso; clear -F J1 J2 Z;
        induction F as [|a ys l l' Sh F IH]; [destruct J1|]; destruct J1 as [->|J1]; [|now apply IH]; destruct (shape_name _ _ _ _ _ _ Sh J2) as [_ N]; destruct z; try discriminate; cbn in N; congruence
       | pose proof (U (OISite r) I eq_refl) as X; injection X as ->; rewrite (U _ Iy Py); reflexivity]). }
  all: try (rewrite !PL by (auto; unfold is_plain; apply String.eqb_refl); cbn [plain_val]; splits; reflexivity).
  all: try (rewrite !PL by (auto; unfold is_plain; apply String.eqb_refl); reflexivity).
  - cbn [d_of d_ev_charge d_ev_discharge d_ev_loss d_ev_soc0 d_ev_soc1]. rewrite NR.
    assert (is_ev_at (ev_name (eoi_cfg r)) (eoi_event r) (eoi_charger r) (OIEv r) = true) as P1 by (cbn; now rewrite String.eqb_refl, !Nat.eqb_refl).
    assert (is_ev_event (ev_name (eoi_cfg r)) (eoi_event r) (OIEv r) = true) as P2 by (cbn; now rewrite String.eqb_refl, !Nat.eqb_refl).
    splits; symmetry; rewrite (first_val_is _ _ _ (OIEv r)); auto; intros y Iy Py; destruct y as [?|?|?|?|y|?|?|?|?|?]; try discriminate; cbn in Py; rewrite ?andb_true_iff, String.eqb_eq, ?Nat.eqb_eq in Py.
    1-3: destruct Py as [[Y1 Y2] Y3]; destruct (ev_same c assets fl t row y r ND FN SH Iy I Y1 Y2) as (Z & _); now rewrite (Z Y3).
    all: destruct Py as [Y1 Y2]; destruct (ev_same c assets fl t row y r ND FN SH Iy I Y1 Y2) as (_ & Z1 & Z2); cbn; congruence.
  - cbn [d_of d_spill_charge d_spill_loss]. rewrite NR.
    assert (is_spill_event (ev_name (eoi_cfg r)) (eoi_event r) (OIEvSpill r) = true) as P2 by (cbn; now rewrite String.eqb_refl, !Nat.eqb_refl).
    splits; symmetry; rewrite (first_val_is _ _ _ (OIEvSpill r)); auto; intros y Iy Py; destruct y as [?|?|?|?|?|y|?|?|?|?]; try discriminate; cbn in Py; rewrite ?andb_true_iff, String.eqb_eq, ?Nat.eqb_eq in Py;
    destruct Py as [Y1 Y2]; rewrite (spill_same c assets fl t row y r ND FN SH Iy I Y1 Y2); reflexivity.
Qed.

(** ** The whole program, without custom constraints and objective *)
Lemma Forall2_in_r {A B} (R : A -> B -> Prop) l l' y : Forall2 R l l' -> In y l' -> exists x, In x l /\ R x y.
Proof. induction 1; intros []; [subst; eexists; split; [now left|auto]|]. destruct IHForall2 as (z & I & J); auto. exists z. split; [now right|auto]. Qed.
Lemma in_concat_nth {A} (x : A) (ls : list (list A)) : In x (List.concat ls) <-> exists j l, nth_error ls j = Some l /\ In x l.
Proof.
  rewrite in_concat. split.
  - intros (l & I & J). apply In_nth_error in I. destruct I as (j & E). eauto.
  - intros (j & l & E & J). exists l. split; auto. eapply nth_error_In; eauto.
Qed.

Record program (c : site_cfg) (assets : list asset) (fl : flags) (iv : interval_vars) (lo hi : nat) (cs : list constr) : Prop := mkProgram {
  pr_names : NoDup (map asset_name assets);
  pr_len : List.length iv = n_intervals c;
  pr_shape : forall t row, nth_error iv t = Some row -> row_shape c assets fl t row;
  pr_range : (lo <= hi)%nat;
  pr_vars : forall v row, In row iv -> In v (flat_map oi_vars row) -> (lo <= v_id v < hi)%nat;
  pr_reach : forall d : setting, reach lo hi (fun s => sets_of d s iv);
  pr_fine : iv <> [] -> Forall asset_fine assets;
  pr_sound : forall d s, vals_of d s iv -> Forall chp_fine assets -> all_ok s cs -> physical c assets fl d;
  pr_complete : forall (d : setting) s, sets_of d s iv -> Forall (asset_sane (sc_freq c)) assets -> physical c assets fl d -> switched c assets fl d (st_w d) -> all_ok s cs;
  pr_occurs : Forall chp_fine assets -> forall row x v, In row iv -> In x row -> In v (must_vars x) \/ In v (bal_vars x) -> In v (cs_vars cs);
  pr_switched : forall d w s, vals_of d s iv -> bins_of w s iv -> all_ok s cs -> switched c assets fl d w;
  pr_near : forall eps d s, 0 <= eps < 1 -> vals_of d s iv -> Forall chp_fine assets -> near eps s cs -> physical_upto eps c assets fl d }.

Lemma base_program c assets fl o iv o' : build_base c assets fl o = Ok (iv, o') ->
  exists cs, program c assets fl iv (o_next o) (o_next o') cs /\ cons_of o' = (cons_of o ++ cs)%list /\ o_obj o' = o_obj o.
Proof.
  intros H. unfold build_base in H. rewrite bind_ok in H. destruct H as (u0 & o0 & H0 & H). apply massert_ok in H0. destruct H0 as [ND <-]. apply nodup_str_iff in ND.
  rewrite bind_ok in H. destruct H as (iv1 & o1 & H1 & H). rewrite bind_ok in H. destruct H as (u2 & o2 & H2 & H). apply ret_ok in H. destruct H as [<- <-].
  apply (loop c assets fl ND _ []) in H1; [|discriminate]. destruct H1 as (rows & css & -> & L1 & L2 & C1 & O1 & N1 & V1 & R1 & K1). cbn [app List.length] in *.
  assert (forall t row, nth_error rows t = Some row -> exists cs, nth_error css t = Some cs) as HC.
  { intros t row E. destruct (nth_error css t) as [cs|] eqn:E2; [eauto|]. apply nth_error_None in E2. assert (t < List.length rows)%nat by (apply nth_error_Some; congruence). lia. }
  assert (forall t row, nth_error rows t = Some row -> row_shape c assets fl t row) as SH.
  { intros t row E. destruct (HC t row E) as (cs & E2). apply (K1 t row cs E E2). }
  destruct (afters c assets fl rows ND SH assets o1 u2 o2 (incl_refl _) H2) as (css2 & (N2 & O2 & C2) & F2).
  exists (List.concat css ++ List.concat css2)%list. splits; [|rewrite C2, C1, app_assoc; reflexivity|congruence].
  assert (rows <> [] -> Forall asset_fine assets) as FN.
  { intros X. destruct rows as [|row l]; [congruence|]. destruct (HC 0%nat row eq_refl) as (cs & E). destruct (K1 0%nat row cs eq_refl E) as [_ (F & _)]. exact F. }
  assert (forall t, (t < n_intervals c)%nat -> exists row cs, nth_error rows t = Some row /\ nth_error css t = Some cs /\ row_sem c assets fl t (match t with O => None | S i => nth_error rows i end) row cs) as RS.
  { intros t Ht. destruct (nth_error rows t) as [row|] eqn:E; [|apply nth_error_None in E; unfold n_intervals in *; lia]. destruct (HC t row E) as (cs & E2). exists row, cs. splits; auto. destruct (K1 t row cs E E2) as [_ X].
    destruct t; exact X. }
  constructor; auto.
  - lia.
  - intros v row I J. rewrite N2. eauto.
  - intros d. rewrite N2. exact (R1 d).
  - intros d s V CF OK. rewrite all_ok_app, !all_ok_concat in OK. destruct OK as [OK1 OK2]. rewrite Forall_forall in OK1, OK2.
    assert (forall t, (t < n_intervals c)%nat -> site_at c assets d t /\ forall a, In a assets -> asset_at a (sc_freq c) fl d t /\ (t <> 0%nat -> asset_link a d (pred t))) as G.
    { intros t Ht. destruct (RS t Ht) as (row & cs & E1 & E2 & (_ & S1 & _)). destruct (S1 d s) as [A B]; auto.
      - destruct t as [|i]; [exact I|]. destruct (nth_error rows i) eqn:E3; [|exact I]. cbn [pred]. now apply V.
      - apply OK1. eapply nth_error_In; eauto.
      - split; auto. intros a Ia. destruct (B a Ia) as [B1 B2]. split; auto. intros N. apply B2. destruct t; [congruence|]. intros X. apply nth_error_None in X. unfold n_intervals in *. lia. }
    split; [intros t Ht; apply (G t Ht)|]. intros a Ia. apply asset_physical_iff. splits.
    + intros t Ht. apply (G t Ht); auto.
    + intros t Ht. destruct (G (S t) Ht) as [_ B]. destruct (B a Ia) as [_ B2]. apply B2. lia.
    + destruct (Forall2_in_l _ _ _ _ F2 Ia) as (cs & Ics & (A1 & _)). rewrite <- L1 in *. unfold n_intervals. rewrite <- L1. eapply A1; eauto.
  - intros d s V SN (P1 & P2) SW. rewrite all_ok_app, !all_ok_concat, !Forall_forall. split; intros cs I.
    + apply In_nth_error in I. destruct I as (t & E2). assert (t < n_intervals c)%nat as Ht by (unfold n_intervals; rewrite <- L2; apply nth_error_Some; congruence).
      destruct (RS t Ht) as (row & cs' & E1 & E2' & (_ & _ & S2 & _)). assert (cs' = cs) as -> by congruence. apply (S2 d s); auto.
      * destruct t as [|i]; [exact Logic.I|]. destruct (nth_error rows i) eqn:E3; [|exact Logic.I]. cbn [pred]. now apply V.
      * exact (P1 t Ht).
      * intros a Ia. specialize (P2 a Ia). rewrite asset_physical_iff in P2. destruct P2 as (Q1 & Q2 & _). split; auto. intros NN. destruct t as [|i]; cbn [pred]; [exfalso; now apply NN|].
        split; [apply Q1; lia|apply Q2; lia].
      * apply (SW t Ht).
      * apply (SW t Ht).
    + destruct (Forall2_in_r _ _ _ _ F2 I) as (a & Ia & (_ & A2 & _)). specialize (P2 a Ia). rewrite asset_physical_iff in P2. destruct P2 as (Q1 & Q2 & Q3). apply (A2 d s); auto; unfold n_intervals in *; rewrite L1; auto.
  - intros CF row x v Ir Ix Iv. apply In_nth_error in Ir. destruct Ir as (t & E). destruct (HC t row E) as (cs & E2).
    destruct (K1 t row cs E E2) as [_ (_ & _ & _ & S3 & _)]. rewrite cs_vars_app, in_app_iff. left. eapply in_cs_concat; [eapply nth_error_In; eauto|]. eapply S3; eauto.
  - intros d w s V B OK t Ht. rewrite all_ok_app, !all_ok_concat in OK. destruct OK as [OK1 _]. rewrite Forall_forall in OK1.
    destruct (RS t Ht) as (row & cs & E1 & E2 & (_ & _ & _ & _ & S4 & _)). apply (S4 d w s (V _ _ E1) (B _ _ E1)). apply OK1. eapply nth_error_In; eauto.
  - intros eps d s EP V CF OK. rewrite near_app, !near_concat in OK. destruct OK as [OK1 OK2]. rewrite Forall_forall in OK1, OK2.
    assert (forall t, (t < n_intervals c)%nat -> site_upto eps c assets d t /\ forall a, In a assets -> asset_upto eps a (sc_freq c) fl d t /\ (t <> 0%nat -> link_upto eps a d (pred t))) as G.
    { intros t Ht. destruct (RS t Ht) as (row & cs & E1 & E2 & (_ & _ & _ & _ & _ & S5)). destruct (S5 eps d s) as [A B]; auto.
      - destruct t as [|i]; [exact I|]. destruct (nth_error rows i) eqn:E3; [|exact I]. cbn [pred]. now apply V.
      - apply OK1. eapply nth_error_In; eauto.
      - split; auto. intros a Ia. destruct (B a Ia) as [B1 B2]. split; auto. intros N. apply B2. destruct t; [congruence|]. intros X. apply nth_error_None in X. unfold n_intervals in *. lia. }
    split; [intros t Ht; apply (G t Ht)|]. intros a Ia. splits.
    + intros t Ht. apply (G t Ht); auto.
    + intros t Ht. destruct (G (S t) Ht) as [_ B]. destruct (B a Ia) as [_ B2]. apply B2. lia.
    + destruct (Forall2_in_l _ _ _ _ F2 Ia) as (cs & Ics & (_ & _ & A3)). rewrite <- L1 in *. unfold n_intervals. rewrite <- L1. eapply A3; eauto.
Qed.

(** ** The switches read off an assignment *)
Definition on_bin (s : assignment) (x : oneint) : Q :=
  match x with OIBoiler r => ind (s (v_id (kboi_bin r))) | OICHP r => ind (s (v_id (coi_bin r))) | OIHeatPump r => ind (s (v_id (hoi_bin r))) | _ => 0 end.
Definition charge_bin (s : assignment) (x : oneint) : Q := match x with OIBattery r => ind (s (v_id (boi_charge_bin r))) | _ => 0 end.
Definition discharge_bin (s : assignment) (x : oneint) : Q := match x with OIBattery r => ind (s (v_id (boi_discharge_bin r))) | _ => 0 end.
Definition ev_bin (s : assignment) (g : ev_oi -> fval) (x : oneint) : Q := match x with OIEv r | OIEvSpill r => ind (fv s (g r)) | _ => 0 end.
Definition w_of (s : assignment) (iv : interval_vars) : switches :=
  let row t := nth t iv [] in
  mkSwitches
    (fun t => first_val is_site_oi (fun x => match x with OISite r => ind (s (v_id (tio_import_bin r))) | _ => 0 end) (row t))
    (fun t => first_val is_site_oi (fun x => match x with OISite r => ind (s (v_id (tio_export_bin r))) | _ => 0 end) (row t))
    (fun nm t => first_val (is_plain nm) (on_bin s) (row t))
    (fun nm t => first_val (is_plain nm) (charge_bin s) (row t))
    (fun nm t => first_val (is_plain nm) (discharge_bin s) (row t))
    (fun nm e k t => first_val (is_ev_at nm e k) (ev_bin s eoi_charge_bin) (row t))
    (fun nm e k t => first_val (is_ev_at nm e k) (ev_bin s eoi_discharge_bin) (row t))
    (fun nm e t => first_val (is_spill_event nm e) (ev_bin s eoi_charge_bin) (row t)).

Lemma w_of_bins c assets fl iv s : NoDup (map asset_name assets) ->
  (forall t row, nth_error iv t = Some row -> row_shape c assets fl t row) -> (iv <> [] -> Forall asset_fine assets) -> bins_of (w_of s iv) s iv.
Proof.
  intros ND SH FN t row E. specialize (FN ltac:(intros ->; destruct t; discriminate)). specialize (SH t row E).
  assert (nth t iv [] = row) as NR by (now apply nth_error_nth). rewrite Forall_forall. intros x I.
  assert (forall g nm, is_plain (oi_name x) x = true -> nm = oi_name x -> first_val (is_plain nm) g row = g x) as PL.
  { intros g nm P ->. apply (first_val_is _ g _ x); auto. intros y Iy Py. now rewrite (plain_same c assets fl t row x y ND SH I Iy P Py). }
  destruct x as [r|r|r|r|r|r|r|r|r|r]; cbn [oi_bin]; cbv zeta; try exact Logic.I;
    cbn [w_of w_import w_export w_on w_charge w_discharge w_ev_charge w_ev_discharge w_spill_charge]; rewrite ?NR.
  1:{ split; symmetry; rewrite (first_val_is _ _ _ (OISite r)); auto; intros y Iy Py; destruct SH as (r0 & xss & -> & SR & F);
      (assert (forall z, In z (OISite r0 :: List.concat xss)%list -> is_site_oi z = true -> z = OISite r0) as U;
       [intros z [<-|J] Z; [reflexivity|]; apply in_concat in J; destruct J as (xs & J1 & J2); exfalso; clear -F J1 J2 Z;
        induction F as [|a ys l l' Sh F IH]; [destruct J1|]; destruct J1 as [->|J1]; [|now apply IH]; destruct (shape_name _ _ _ _ _ _ Sh J2) as [_ N]; destruct z; try discriminate; cbn in N; congruence
       | pose proof (U (OISite r) I eq_refl) as X; injection X as ->; rewrite (U _ Iy Py); reflexivity]). }
  all: try (rewrite !PL by (auto; unfold is_plain; apply String.eqb_refl); cbn [on_bin charge_bin discharge_bin]; splits; reflexivity).
  all: try (rewrite !PL by (auto; unfold is_plain; apply String.eqb_refl); reflexivity).
  - assert (is_ev_at (ev_name (eoi_cfg r)) (eoi_event r) (eoi_charger r) (OIEv r) = true) as P1 by (cbn; now rewrite String.eqb_refl, !Nat.eqb_refl).
    splits; symmetry; rewrite (first_val_is _ _ _ (OIEv r)); auto; intros y Iy Py; destruct y as [?|?|?|?|y|?|?|?|?|?]; try discriminate; cbn in Py; rewrite ?andb_true_iff, String.eqb_eq, ?Nat.eqb_eq in Py.
    all: destruct Py as [[Y1 Y2] Y3]; destruct (ev_same c assets fl t row y r ND FN SH Iy I Y1 Y2) as (Z & _); now rewrite (Z Y3).
  - assert (is_spill_event (ev_name (eoi_cfg r)) (eoi_event r) (OIEvSpill r) = true) as P2 by (cbn; now rewrite String.eqb_refl, !Nat.eqb_refl).
    symmetry; rewrite (first_val_is _ _ _ (OIEvSpill r)); auto; intros y Iy Py; destruct y as [?|?|?|?|?|y|?|?|?|?]; try discriminate; cbn in Py; rewrite ?andb_true_iff, String.eqb_eq, ?Nat.eqb_eq in Py;
    destruct Py as [Y1 Y2]; rewrite (spill_same c assets fl t row y r ND FN SH Iy I Y1 Y2); reflexivity.
Qed.

(** ** Switches that fit a given physical dispatch *)
Definition is_chp (nm : string) (a : asset) : bool := match a with ACHP c => (ch_name c =? nm)%string | _ => false end.
Definition natural (assets : list asset) (d : dispatch) : setting :=
  mkSetting d (mkSwitches (fun t => ind (d_import d t)) (fun t => 1 - ind (d_import d t))
    (fun nm t => if existsb (is_chp nm) assets then ind (d_qty d nm ElecGen t) else 1)
    (fun nm t => ind (d_qty d nm Charge t)) (fun nm t => ind (d_qty d nm Discharge t))
    (fun nm e k t => ind (d_ev_charge d nm e k t)) (fun nm e k t => ind (d_ev_discharge d nm e k t))
    (fun nm e t => ind (d_spill_charge d nm e t))).
Lemma ind_on q : ind q == 1 -> ~ q == 0.
Proof. intros E. destruct (ind_spec q) as [[_ I]|[Z _]]; [rewrite I in E; lra|exact Z]. Qed.
Lemma ind_switch q : switch_for (ind q) q.
Proof. split; [apply ind_bit|apply ind_off]. Qed.
Lemma natural_switched c assets fl d : NoDup (map asset_name assets) -> physical c assets fl d -> switched c assets fl d (st_w (natural assets d)).
Proof.
  intros ND (P1 & P2) t Ht. split.
  - destruct (P1 t Ht) as ((_ & _ & G) & _). unfold site_switched. cbn [natural st_w w_import w_export]. splits.
    + apply ind_switch.
    + split; [destruct (ind_01 (d_import d t)) as [Z|Z]; [right|left]; lra|]. intros Z. destruct G as [G|G]; [|exact G].
      exfalso. destruct (ind_spec (d_import d t)) as [[_ E]|[N _]]; [rewrite E in Z; lra|tauto].
    + lra.
  - intros a Ia. pose proof (P2 a Ia) as PA. rewrite asset_physical_iff in PA. destruct PA as (PA & _ & _). specialize (PA t Ht).
    destruct a as [b|b|b|b|b|b|n|n]; cbn [asset_switched asset_at] in *; try exact Logic.I.
    + destruct PA as (_ & _ & _ & _ & X & _). unfold battery_switched. cbn [natural st_w w_charge w_discharge]. splits; try apply ind_switch.
      destruct (ind_spec (d_qty d (b_name b) Charge t)) as [[_ ->]|[N ->]]; destruct (ind_spec (d_qty d (b_name b) Discharge t)) as [[_ ->]|[M ->]]; try lra; tauto.
    + unfold boiler_switched, switch_for, bit. cbn [natural st_w w_on]. replace (existsb (is_chp (bo_name b)) assets) with false; [split; [right; reflexivity|intros Z; exfalso; lra]|].
      symmetry. apply not_true_iff_false. intros X. apply existsb_exists in X. destruct X as (a' & I' & X). destruct a'; cbn in X; try discriminate. apply String.eqb_eq in X.
      pose proof (NoDup_names_inj assets _ _ ND Ia I' (eq_sym X)). discriminate.
    + destruct PA as (_ & X & _). unfold chp_switched. cbn [natural st_w w_on]. replace (existsb (is_chp (ch_name b)) assets) with true.
      2:{ symmetry. apply existsb_exists. exists (ACHP b). split; auto. cbn. apply String.eqb_refl. }
      split; [apply ind_switch|]. intros Z. apply ind_on in Z. tauto.
    + destruct PA as (Q1 & Q2 & Q3 & Q4 & _). unfold evs_switched. cbn [natural st_w w_ev_charge w_ev_discharge w_spill_charge]. cbv zeta. splits.
      * intros e ec k cc Ee Ek. destruct (Q1 _ _ _ _ Ee Ek) as (R1 & R2 & R3 & _). unfold between in *. split.
        -- split; [apply ind_switch|]. intros Z. apply ind_on in Z. tauto.
        -- destruct (allow_evs_discharge fl); [split; [apply ind_switch|]; intros Z; apply ind_on in Z; tauto|]. destruct (ind_spec (d_ev_discharge d (ev_name b) e k t)) as [[_ ->]|[N _]]; [reflexivity|tauto].
      * intros e ec cc Ee Ek. destruct (Q2 _ _ _ Ee Ek) as (R1 & R2 & _). unfold between in *. split; [apply ind_switch|]. intros Z. apply ind_on in Z. tauto.
      * intros e I. specialize (Q3 e I). apply bins_of_at_most_one in Q3. now rewrite map_app, !map_map in Q3.
      * intros k I. specialize (Q4 k I). apply bins_of_at_most_one in Q4. now rewrite map_app, !map_map in Q4.
    + unfold hp_switched, switch_for, bit. cbn [natural st_w w_on]. replace (existsb (is_chp (hp_name b)) assets) with false; [split; [right; reflexivity|intros Z; exfalso; lra]|].
      symmetry. apply not_true_iff_false. intros X. apply existsb_exists in X. destruct X as (a' & I' & X). destruct a'; cbn in X; try discriminate. apply String.eqb_eq in X.
      pose proof (NoDup_names_inj assets _ _ ND Ia I' (eq_sym X)). discriminate.
Qed.
