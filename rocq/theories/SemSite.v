(** * SemSite: from one-interval objects to the site program (proofs) *)
From Verif Require Import Base Pulp Params Optimizer Types Assets EVs Site Emit Prim Spec SpecSwitch SpecReport SpecRun SpecWithin Layout Rows Sem SemEv SemNear.
Open Scope Q_scope.

(** ** Looking objects up by type and name *)
Lemma kind_eqb_iff a b : kind_eqb a b = true <-> a = b.
Proof. destruct a, b; simpl; split; congruence. Qed.

Lemma shape_name a t f fl xs x : asset_shape a t f fl xs -> In x xs -> oi_name x = asset_name a /\ kind_of x <> KSite.
Proof.
  destruct a as [c|c|c|c|c|c|n|n]; cbn [asset_shape].
  4:{ intros (S0 & S1 & E & Sp & -> & _ & SE & SSp) I. rewrite in_app_iff, !in_map_iff in I. destruct I as [(r & <- & I)|(r & <- & I)]; apply in_grid in I;
      destruct I as (e & k & He & Hk & ->); destruct (nth_error_lt _ _ He) as (ec & Ee); destruct (nth_error_lt _ _ Hk) as (cc & Ek);
      [destruct (SE _ _ _ _ Ee Ek) as (Q1 & _)|destruct (SSp _ _ _ _ Ee Ek) as (Q1 & _)]; cbn; rewrite Q1; split; auto; discriminate. }
  all: intros (r & -> & S) [<-|[]]; cbn; destruct S as (S & _); rewrite S; split; auto; discriminate.
Qed.

(** [xs] are the objects of asset [a] in [row] *)
Definition owns (a : asset) (t : nat) (f : freq) (fl : flags) (row xs : list oneint) : Prop :=
  asset_shape a t f fl xs /\ incl xs row /\
  (forall k, k <> KSite -> filter (matches (Some k) (Some (asset_name a))) row = filter (fun x => kind_eqb (kind_of x) k) xs).

Lemma NoDup_names_inj (assets : list asset) a b : NoDup (map asset_name assets) -> In a assets -> In b assets -> asset_name a = asset_name b -> a = b.
Proof. intros H. now apply NoDup_map_inj. Qed.

Lemma filter_matches_own k a t f fl xs : asset_shape a t f fl xs -> k <> KSite ->
  filter (matches (Some k) (Some (asset_name a))) xs = filter (fun x => kind_eqb (kind_of x) k) xs.
Proof.
  intros S N. apply filter_ext_in. intros x I. destruct (shape_name _ _ _ _ _ _ S I) as [E _]. unfold matches. rewrite E, String.eqb_refl, andb_true_r. reflexivity.
Qed.
Lemma filter_matches_other k a b t f fl xs : asset_shape b t f fl xs -> asset_name b <> asset_name a ->
  filter (matches (Some k) (Some (asset_name a))) xs = [].
Proof.
  intros S N. apply filter_none. intros x I. destruct (shape_name _ _ _ _ _ _ S I) as [E _]. unfold matches. rewrite E.
  destruct (String.eqb_spec (asset_name b) (asset_name a)); [tauto|]. apply andb_false_r.
Qed.

Lemma owns_exists c assets fl t r xss : site_shape c r -> Forall2 (fun a xs => asset_shape a t (sc_freq c) fl xs) assets xss ->
  NoDup (map asset_name assets) ->
  Forall2 (fun a xs => owns a t (sc_freq c) fl (OISite r :: List.concat xss)%list xs) assets xss.
Proof.
  intros SR F ND. 
  assert (forall a xs, In a assets -> asset_shape a t (sc_freq c) fl xs -> In (a, xs) (combine assets xss) ->
    owns a t (sc_freq c) fl (OISite r :: List.concat xss)%list xs) as H.
  { intros a xs Ia Sh Ic. split; [exact Sh|split].
    - intros x Ix. right. apply in_concat. exists xs. split; auto. eapply in_combine_r; eauto.
    - intros k Hk. cbn [filter].
      assert (matches (Some k) (Some (asset_name a)) (OISite r) = false) as ->.
      { unfold matches. cbn [kind_of]. destruct (kind_eqb KSite k) eqn:Ek; [apply kind_eqb_iff in Ek; congruence|reflexivity]. }
      rewrite filter_concat. clear SR Sh. revert Ia Ic ND. induction F as [|b ys l l' Sb F IH]; intros Ia Ic ND; [destruct Ic|].
      cbn [map List.concat]. cbn [map] in ND. inversion ND as [|? ? N1 N2]; subst. destruct Ic as [Ic|Ic].
      + injection Ic as -> ->. rewrite (filter_matches_own _ _ _ _ _ _ Sb Hk).
        assert (List.concat (map (filter (matches (Some k) (Some (asset_name a)))) l') = []) as ->.
        { clear -F N1. induction F as [|b ys l l' Sb F IH]; [reflexivity|]. cbn [map List.concat]. cbn [map] in N1.
          rewrite (filter_matches_other _ _ _ _ _ _ _ Sb) by (intros X; apply N1; now left). apply IH. intros X. apply N1. now right. }
        apply app_nil_r.
      + assert (In a l) as Ia' by (eapply in_combine_l; eauto).
        rewrite (filter_matches_other _ _ _ _ _ _ _ Sb); [now apply IH|]. intros X. apply N1. rewrite X. now apply in_map. }
  clear SR ND. revert H. generalize (OISite r :: List.concat xss)%list as row. intros row.
  induction F as [|b ys l l' Sb F IH]; intros H; constructor.
  - apply H; auto; now left.
  - apply IH. intros a xs Ia Sh Ic. apply H; auto; now right.
Qed.

(** ** Values, with rational equality *)
Definition oi_eq (d : dispatch) (t : nat) (s : assignment) (x : oneint) : Prop :=
  match x with
  | OIEv r => let nm := ev_name (eoi_cfg r) in let e := eoi_event r in let k := eoi_charger r in
      fv s (eoi_charge r) == d_ev_charge d nm e k t /\ fv s (eoi_discharge r) == d_ev_discharge d nm e k t /\
      fv s (eoi_loss r) == d_ev_loss d nm e k t /\
      fv s (eoi_soc0 r) == d_ev_soc0 d nm e t /\ fv s (eoi_soc1 r) == d_ev_soc1 d nm e t
  | OIEvSpill r => let nm := ev_name (eoi_cfg r) in let e := eoi_event r in
      fv s (eoi_charge r) == d_spill_charge d nm e t /\ fv s (eoi_discharge r) == 0 /\ fv s (eoi_loss r) == d_spill_loss d nm e t
  | _ => oi_val d t s x
  end.

Definition asset_at (a : asset) (f : freq) (fl : flags) (d : dispatch) (t : nat) : Prop :=
  match a with
  | ABattery c => battery_at c f d t
  | ABoiler c => boiler_at c f d t
  | ACHP c => chp_at c f d t
  | AEVs c => evs_at c f fl d t
  | AHeatPump c => hp_at c f d t
  | ARenewable c => let avail := nth t (rg_available_mwh c) 0 in
      between (avail * rg_lower_pct c) (d_qty d (rg_name c) ElecGen t) avail
  | ASpill nm => let q := d_qty d nm in 0 <= q ElecGen t /\ 0 <= q ElecLoad t /\ 0 <= q HtGen t /\ 0 <= q LtLoad t
  | AValve nm => valve_at nm d t
  end.
Definition asset_link (a : asset) (d : dispatch) (t : nat) : Prop :=
  match a with
  | ABattery c => d_qty d (b_name c) Soc0 (S t) == d_qty d (b_name c) Soc1 t
  | AEVs c => forall e, In e (seq 0 (List.length (ev_event_cfgs c))) -> d_ev_soc0 d (ev_name c) e (S t) == d_ev_soc1 d (ev_name c) e t
  | _ => True
  end.
Definition asset_ends (a : asset) (d : dispatch) (n : nat) : Prop :=
  match a with
  | ABattery c => d_qty d (b_name c) Soc0 0%nat == b_initial_charge_mwh c /\ d_qty d (b_name c) Soc1 (n - 1)%nat == b_final_charge_mwh c
  | AEVs c => forall e ec, nth_error (ev_event_cfgs c) e = Some ec ->
      d_ev_soc0 d (ev_name c) e 0%nat == 0 /\ d_ev_soc1 d (ev_name c) e (n - 1)%nat == ce_capacity_mwh ec
  | _ => True
  end.
Lemma asset_physical_iff a f fl n d : asset_physical a f fl n d <->
  (forall t, (t < n)%nat -> asset_at a f fl d t) /\ (forall t, (S t < n)%nat -> asset_link a d t) /\ asset_ends a d n.
Proof.
  destruct a as [c|c|c|c|c|c|nm|nm]; cbn [asset_physical asset_at asset_link asset_ends].
  - unfold battery_physical, battery_at. tauto.
  - unfold boiler_physical, boiler_at. tauto.
  - unfold chp_physical, chp_at. tauto.
  - unfold evs_physical, evs_at. cbv zeta. split.
    + intros (A & B & C & D & E & F & G). splits; auto. intros t Ht. splits; intros; eauto.
    + intros (A & B & C). splits; auto; intros; destruct (A t H) as (A1 & A2 & A3 & A4 & A5); eauto.
  - unfold hp_physical, hp_at. tauto.
  - unfold rg_physical. tauto.
  - unfold spill_physical. tauto.
  - unfold valve_physical, valve_at. tauto.
Qed.

(** well-formed configurations: what the constructors and pydantic guarantee, and a CHP that uses gas *)
Definition asset_fine (a : asset) : Prop :=
  match a with
  | ABoiler c => ~ bo_efficiency_pct c == 0
  | AEVs c => List.length (ev_spill_chargers c) = 1%nat /\ (0 < n_events c)%nat /\ (0 < n_chargers c)%nat
  | _ => True
  end.

(** ** The variables that appear in the site balances *)
Definition bal_vars (x : oneint) : list lpvar :=
  (fvars (electric_generation_mwh x) ++ fvars (electric_load_mwh x) ++ fvars (electric_charge_mwh x) ++ fvars (electric_discharge_mwh x)
   ++ fvars (high_temperature_generation_mwh x) ++ fvars (high_temperature_load_mwh x)
   ++ fvars (low_temperature_generation_mwh x) ++ fvars (low_temperature_load_mwh x))%list.

(** ** Totals *)
Definition sum_fv (s : assignment) (attr : oneint -> fval) (xs : list oneint) : Q := Qsum (map (fun x => fv s (attr x)) xs).
Lemma sum_fv_app s attr xs ys : sum_fv s attr (xs ++ ys)%list == sum_fv s attr xs + sum_fv s attr ys.
Proof. unfold sum_fv. now rewrite map_app, Qsum_app. Qed.
Lemma sum_fv_grid {A} s attr (w : A -> oneint) (E : nat -> nat -> A) n m :
  sum_fv s attr (map w (grid E n m)) == Qsum (map (fun e => Qsum (map (fun k => fv s (attr (w (E e k)))) (seq 0 m))) (seq 0 n)).
Proof.
  unfold sum_fv, grid. rewrite flat_map_concat_map, concat_map, concat_map, Qsum_concat, !map_map.
  apply Qsum_map_ext. intros e _. now rewrite !map_map.
Qed.

Definition attr_spec : list ((oneint -> fval) * (dispatch -> nat -> asset -> Q)) :=
  [ (electric_generation_mwh, elec_gen); (electric_load_mwh, elec_load); (electric_charge_mwh, charge); (electric_discharge_mwh, discharge);
    (high_temperature_generation_mwh, ht_gen); (high_temperature_load_mwh, ht_load);
    (low_temperature_generation_mwh, lt_gen); (low_temperature_load_mwh, lt_load); (gas_consumption_mwh, gas_use) ].

Lemma evs_eq_vals c t f fl xs S0 S1 E Sp d s : evs_shape c t f fl xs S0 S1 E Sp -> Forall (oi_eq d t s) xs ->
  (forall e k, (e < n_events c)%nat -> (k < n_chargers c)%nat ->
     fv s (eoi_charge (E e k)) == d_ev_charge d (ev_name c) e k t /\ fv s (eoi_discharge (E e k)) == d_ev_discharge d (ev_name c) e k t) /\
  (forall e, (e < n_events c)%nat -> (0 < List.length (ev_spill_chargers c))%nat ->
     fv s (eoi_charge (Sp e 0%nat)) == d_spill_charge d (ev_name c) e t /\ fv s (eoi_discharge (Sp e 0%nat)) == 0).
Proof.
  intros (-> & _ & SE & SSp) H. rewrite Forall_app in H. destruct H as [H1 H2]. rewrite Forall_forall in H1, H2. split.
  - intros e k He Hk. destruct (nth_error_lt _ _ He) as (ec & Ee). destruct (nth_error_lt _ _ Hk) as (cc & Ek).
    specialize (SE e ec k cc Ee Ek). destruct SE as (Q1 & _ & Q2 & _ & Q3 & _ & _ & _ & _ & Q4 & Q5).
    assert (In (OIEv (E e k)) (map OIEv (grid E (n_events c) (n_chargers c)))) as I by (apply in_map, in_grid; eauto).
    specialize (H1 _ I). cbn [oi_eq] in H1. rewrite Q1, Q2, Q3 in H1. tauto.
  - intros e He Hk. destruct (nth_error_lt _ _ He) as (ec & Ee). destruct (nth_error_lt _ _ Hk) as (cc & Ek).
    specialize (SSp e ec 0%nat cc Ee Ek). destruct SSp as (Q1 & _ & Q2 & _ & Q3 & _).
    assert (In (OIEvSpill (Sp e 0%nat)) (map OIEvSpill (grid Sp (n_events c) (List.length (ev_spill_chargers c))))) as I by (apply in_map, in_grid; exists e, 0%nat; auto).
    specialize (H2 _ I). cbn [oi_eq] in H2. rewrite Q1, Q2 in H2. tauto.
Qed.

Lemma asset_sum a t f fl xs d s attr sp : asset_shape a t f fl xs -> asset_fine a -> Forall (oi_eq d t s) xs -> In (attr, sp) attr_spec ->
  sum_fv s attr xs == sp d t a.
Proof.
  intros SH FN V I. destruct a as [c|c|c|c|c|c|n|n]; cbn [asset_shape] in SH.
  4:{ destruct SH as (S0 & S1 & E & Sp & SH). destruct (evs_eq_vals _ _ _ _ _ _ _ _ _ _ _ SH V) as [VM VS]. destruct SH as (-> & _). destruct FN as (P1 & Hn & Hc).
      rewrite sum_fv_app, !sum_fv_grid, P1. cbn [seq map].
      assert (forall g : nat -> Q, Qsum [g 0%nat] == g 0%nat) as One by (intros; cbn; lra).
      simpl in I. repeat (destruct I as [I|I]; [injection I as <- <-|]); try destruct I;
        cbn [electric_generation_mwh electric_load_mwh electric_charge_mwh electric_discharge_mwh high_temperature_generation_mwh high_temperature_load_mwh low_temperature_generation_mwh low_temperature_load_mwh gas_consumption_mwh
             elec_gen elec_load charge discharge ht_gen ht_load lt_gen lt_load gas_use fv].
      3:{ unfold ev_total_charge, ev_spill_total. apply Qplus_comp; apply Qsum_map_ext; intros e J; apply in_seq in J.
          - apply Qsum_map_ext. intros k K. apply in_seq in K. apply VM; unfold n_events, n_chargers in *; lia.
          - cbn [Qsum fold_right]. destruct (VS e) as [W _]; [unfold n_events in *; lia|lia|]. rewrite W. lra. }
      3:{ unfold ev_total_discharge. rewrite (Qsum_map_zero (fun e => Qsum [fv s (eoi_discharge (Sp e 0%nat))])).
          - rewrite Qplus_0_r. apply Qsum_map_ext; intros e J; apply in_seq in J. apply Qsum_map_ext. intros k K. apply in_seq in K. apply VM; unfold n_events, n_chargers in *; lia.
          - intros e J. apply in_seq in J. cbn [Qsum fold_right]. destruct (VS e) as [_ W]; [unfold n_events in *; lia|lia|]. rewrite W. lra. }
      all: rewrite !Qsum_map_zero; try lra; intros; first [reflexivity | apply Qsum_map_zero; intros; reflexivity]. }
  all: destruct SH as (r & -> & SR); inversion V as [|? ? V1 _]; subst; clear V; destruct SR as (SR & _); unfold sum_fv; cbn [map Qsum fold_right];
    simpl in I; repeat (destruct I as [I|I]; [injection I as <- <-|]); try destruct I;
    cbn; cbn [oi_eq oi_val] in V1; unfold vset in V1; rewrite SR in V1; try reflexivity; try lra;
    try (repeat match type of V1 with _ /\ _ => let X := fresh in destruct V1 as [X V1]; try rewrite X end; try rewrite V1; lra).
Qed.

(** ** Values of the objects of one asset *)
Lemma val_eq a t f fl xs d s : asset_shape a t f fl xs -> Forall (oi_val d t s) xs -> Forall (oi_eq d t s) xs.
Proof.
  destruct a as [c|c|c|c|c|c|n|n]; cbn [asset_shape].
  4:{ intros (S0 & S1 & E & Sp & -> & _ & SE & SSp) V. rewrite Forall_forall in *. intros x I. specialize (V x I).
      rewrite in_app_iff, !in_map_iff in I. destruct I as [(r & <- & I)|(r & <- & I)].
      - cbn [oi_val oi_eq] in *. destruct V as (-> & -> & -> & -> & ->). repeat split; reflexivity.
      - apply in_grid in I. destruct I as (e & k & He & Hk & ->). destruct (nth_error_lt _ _ He) as (ec & Ee); destruct (nth_error_lt _ _ Hk) as (cc & Ek).
        destruct (SSp _ _ _ _ Ee Ek) as (_ & _ & _ & _ & _ & _ & _ & (DS & _) & _). cbn [oi_val oi_eq] in *. destruct V as (-> & ->). rewrite DS. splits; reflexivity. }
  all: intros (r & -> & S) V; inversion V; subst; constructor; auto.
Qed.
Lemma set_eq a t f fl xs (d : setting) s : asset_shape a t f fl xs -> asset_fine a -> asset_sane f a -> asset_at a f fl d t -> asset_switched a f fl d (st_w d) t -> Forall (oi_set d t s) xs ->
  Forall (oi_eq d t s) xs /\ Forall (fun x => vars_ok s (bal_vars x)) xs.
Proof.
  destruct a as [c|c|c|c|c|c|n|n]; cbn [asset_shape asset_fine asset_sane asset_at asset_switched]; intros SH FN SN AT SW V.
  4:{ destruct SH as (S0 & S1 & E & Sp & SH). destruct (evs_pairs_complete _ _ _ _ _ _ _ _ _ _ _ SH V SN AT SW) as [VM VS].
      destruct (evs_sets _ _ _ _ _ _ _ _ _ _ _ SH V) as [TM _]. destruct SH as (-> & SS & SE & SSp). destruct FN as (L1 & Hn & Hc). rewrite !Forall_forall.
      assert (forall e k, (e < n_events c)%nat -> (k < n_chargers c)%nat -> oi_eq d t s (OIEv (E e k)) /\ vars_ok s (bal_vars (OIEv (E e k)))) as HM.
      { intros e k He Hk. destruct (nth_error_lt _ _ He) as (ec & Ee); destruct (nth_error_lt _ _ Hk) as (cc & Ek).
        destruct (VM _ _ _ _ Ee Ek) as ((A1 & A2 & A3 & A4 & A5) & (B1 & B2 & B3 & B4 & B5) & C1 & C2). destruct (TM e k He Hk) as (_ & _ & _ & _ & _ & T0 & T1).
        destruct (SE _ _ _ _ Ee Ek) as (Q1 & _ & Q2 & _ & Q3 & _ & _ & _ & _ & Q4 & Q5). cbn [oi_eq]. rewrite Q1, Q2, Q3, Q4, Q5. cbn [fv]. rewrite T0, T1.
        split; [splits; auto; reflexivity|]. unfold bal_vars. cbn [electric_generation_mwh electric_load_mwh electric_charge_mwh electric_discharge_mwh high_temperature_generation_mwh high_temperature_load_mwh low_temperature_generation_mwh low_temperature_load_mwh fvars app].
        rewrite !vars_ok_app, !vars_ok_nil. auto. }
      assert (forall e k, (e < n_events c)%nat -> (k < List.length (ev_spill_chargers c))%nat -> oi_eq d t s (OIEvSpill (Sp e k)) /\ vars_ok s (bal_vars (OIEvSpill (Sp e k)))) as HS.
      { intros e k He Hk. assert (k = 0)%nat as -> by lia. destruct (nth_error_lt _ _ He) as (ec & Ee); destruct (nth_error_lt _ _ Hk) as (cc & Ek).
        destruct (VS _ _ _ Ee Ek) as ((A1 & A2 & A3 & A4 & A5) & C1 & C2).
        destruct (SSp _ _ _ _ Ee Ek) as (Q1 & _ & Q2 & _ & Q3 & _ & _ & (DS & _) & _). cbn [oi_eq]. rewrite Q1, Q2, DS. 
        split; [splits; auto; reflexivity|]. unfold bal_vars. cbn [electric_generation_mwh electric_load_mwh electric_charge_mwh electric_discharge_mwh high_temperature_generation_mwh high_temperature_load_mwh low_temperature_generation_mwh low_temperature_load_mwh fvars app].
        rewrite DS. cbn [fvars]. rewrite !vars_ok_app, !vars_ok_nil. auto. }
      split; intros x I; rewrite in_app_iff, !in_map_iff in I; (destruct I as [(r & <- & I)|(r & <- & I)]; apply in_grid in I; destruct I as (e & k & He & Hk & ->); [apply HM|apply HS]; auto). }
  all: destruct SH as (r & -> & SR); inversion V as [|? ? V1 _]; subst; clear V; split; (constructor; [|constructor]).
  all: cbn [oi_set oi_eq oi_val] in *; try tauto.
  all: unfold bal_vars; cbn [electric_generation_mwh electric_load_mwh electric_charge_mwh electric_discharge_mwh high_temperature_generation_mwh high_temperature_load_mwh low_temperature_generation_mwh low_temperature_load_mwh fvars app];
    rewrite ?vars_ok_cons, ?vars_ok_nil; unfold vset in V1.
  - destruct SR as (<- & A1 & A2 & A3 & A4 & A5 & A6 & A7). destruct AT as (P1 & P2 & _). unfold between in *.
    rewrite (cont_var_ok _ _ _ _ A1), (cont_var_ok _ _ _ _ A2). destruct V1 as (-> & -> & _). rewrite !mw_energy. tauto.
  - destruct SR as (<- & A1 & A2 & A3). destruct AT as (P1 & P2). unfold between in *.
    rewrite (cont_var_ok _ _ _ _ A1). destruct V1 as (-> & _). rewrite !mw_energy. tauto.
  - destruct SR as (<- & A1 & A2 & A3 & A4 & A5). destruct AT as (P1 & P2). unfold between in *.
    rewrite (cont_var_ok _ _ _ _ A1), (cont_var_ok _ _ _ _ A4), (cont_var_ok _ _ _ _ A5). destruct V1 as (-> & _ & _ & -> & ->). rewrite !mw_energy. tauto.
  - destruct SR as (<- & A1 & A2 & A3 & A4). destruct AT as (P1 & P2). unfold between in *.
    rewrite (cont_var_ok _ _ _ _ A1), (cont_var_ok _ _ _ _ A3), (cont_var_ok _ _ _ _ A4). destruct V1 as (-> & _ & -> & ->). rewrite !mw_energy. tauto.
  - destruct SR as (<- & av & Ea & A1). unfold between in *. rewrite (cont_var_ok _ _ _ _ A1), V1. rewrite (nth_error_nth _ _ 0 Ea) in AT. tauto.
  - destruct SR as (<- & A1 & A2 & A3 & A4). 
    rewrite (cont_var_ok _ _ _ _ A1), (cont_var_ok _ _ _ _ A2), (cont_var_ok _ _ _ _ A3), (cont_var_ok _ _ _ _ A4). destruct V1 as (-> & -> & -> & ->). tauto.
  - destruct SR as (<- & A1 & A2). destruct AT as (P1 & P2).
    rewrite (cont_var_ok _ _ _ _ A1), (cont_var_ok _ _ _ _ A2). destruct V1 as (-> & ->). rewrite P1. tauto.
Qed.

(** ** What the constraints of one asset in one interval mean *)
Definition must_vars (x : oneint) : list lpvar :=
  match x with
  | OISite r => [tio_import r; tio_export r]
  | OIBoiler r => [kboi_ht r; kboi_gas r]
  | OICHP r => [coi_elec r; coi_ht r; coi_lt r; coi_gas r]
  | OIBattery r => [boi_charge r; boi_charge_bin r; boi_discharge r; boi_discharge_bin r; boi_loss r; boi_initial r; boi_final r]
  | OIEv r => (fvars (eoi_soc0 r) ++ fvars (eoi_soc1 r) ++ fvars (eoi_charge_bin r) ++ fvars (eoi_discharge_bin r) ++ fvars (eoi_loss r))%list
  | OIEvSpill r => (fvars (eoi_charge_bin r) ++ fvars (eoi_discharge_bin r) ++ fvars (eoi_loss r))%list
  | _ => []
  end.
Lemma battery_cs_vars r v : In v (must_vars (OIBattery r)) -> In v (cs_vars (battery_cs r)).
Proof.
  cbn [must_vars In]. unfold battery_cs, cs_vars. cbn [flat_map c_expr cle ceq]. rewrite !in_app_iff, !evars_esub, !evars_eadd, !in_app_iff. cbn [evars evar e_terms map fst In].
  intros H. repeat (destruct H as [<-|H]; [tauto|]). destruct H.
Qed.
Definition asset_sem (a : asset) (f : freq) (fl : flags) (t : nat) (prev : option (list oneint)) (xs : list oneint) (cs : list constr) : Prop :=
  asset_fine a /\
  (forall d s, Forall (oi_val d t s) xs -> match prev with Some p => Forall (oi_val d (pred t) s) p | None => True end ->
     Forall (fun x => vars_ok s (bal_vars x)) xs -> chp_fine a -> all_ok s cs ->
     asset_at a f fl d t /\ (prev <> None -> asset_link a d (pred t))) /\
  (forall (d : setting) s, Forall (oi_set d t s) xs -> match prev with Some p => Forall (oi_set d (pred t) s) p | None => True end ->
     asset_sane f a -> asset_at a f fl d t -> asset_switched a f fl d (st_w d) t -> (prev <> None -> asset_at a f fl d (pred t) /\ asset_link a d (pred t)) -> all_ok s cs) /\
  (chp_fine a -> forall x v, In x xs -> In v (must_vars x) -> In v (cs_vars cs) \/ In v (bal_vars x)) /\
  (forall d w s, Forall (oi_val d t s) xs -> Forall (oi_bin w t s) xs -> all_ok s cs -> asset_switched a f fl d w t) /\
  (forall eps d s, 0 <= eps < 1 -> Forall (oi_val d t s) xs -> match prev with Some p => Forall (oi_val d (pred t) s) p | None => True end ->
     Forall (fun x => vars_ok s (bal_vars x)) xs -> chp_fine a -> near eps s cs ->
     asset_upto eps a f fl d t /\ (prev <> None -> link_upto eps a d (pred t))).

(** the previous row, if there is one *)
Definition prev_rows (a : asset) (t : nat) (f : freq) (fl : flags) (iv : interval_vars) (prev : option (list oneint)) : Prop :=
  List.length iv = t /\
  match prev with
  | None => iv = []
  | Some p => exists iv0 row0, iv = (iv0 ++ [row0])%list /\ owns a (pred t) f fl row0 p
  end.

Lemma filter_last iv row k name : filter_objective_variables (iv ++ [row])%list (-1) k name = Ok (filter (matches k name) row).
Proof. unfold filter_objective_variables. now rewrite py_index_last. Qed.
Lemma filter_at iv row k name : filter_objective_variables (iv ++ [row])%list (Z.of_nat (List.length iv)) k name = Ok (filter (matches k name) row).
Proof. unfold filter_objective_variables. rewrite py_index_nat, nth_error_app2, Nat.sub_diag; [reflexivity|lia]. Qed.

Ltac in_vars := unfold cs_vars; cbn [flat_map c_expr cle cge ceq evars]; rewrite ?in_app_iff; ev_goal; rewrite ?in_app_iff; cbn [fvars In]; tauto.

Lemma py_index_m2 {A} (l : list A) x y : py_index ((l ++ [x]) ++ [y])%list (-2) = Ok x.
Proof.
  unfold py_index. rewrite !app_length. cbn [List.length]. set (n := List.length l).
  replace (0 <=? -2)%Z with false by reflexivity. cbn [andb].
  replace (-2 <? 0)%Z with true by reflexivity. cbn [andb].
  destruct (Z.leb_spec (- Z.of_nat (n + 1 + 1)) (-2)); [|lia].
  replace (Z.to_nat (Z.of_nat (n + 1 + 1) + -2)) with n by lia.
  rewrite <- app_assoc, nth_error_app2, Nat.sub_diag by (unfold n; lia). reflexivity.
Qed.

Lemma kind_filter_1 {A} (w : A -> oneint) r : filter (fun x => kind_eqb (kind_of x) (kind_of (w r))) [w r] = [w r].
Proof. cbn. now rewrite (proj2 (kind_eqb_iff _ _) eq_refl). Qed.
Lemma hd_res_cons {A} (x : A) l : hd_res (x :: l) = Ok x.
Proof. reflexivity. Qed.
Lemma emits_bind_lift {A B} (r : res A) (f : A -> M B) x cs : r = Ok x -> emits (f x) cs -> emits (bind (lift r) f) cs.
Proof. intros -> H. apply emits_lift. intros a [= <-]. exact H. Qed.

Lemma battery_within c iv row t f fl prev xs : prev_rows (ABattery c) t f fl iv prev -> owns (ABattery c) t f fl row xs ->
  exists cs, emits (battery_constrain_within c (iv ++ [row])%list) cs /\ asset_sem (ABattery c) f fl t prev xs cs.
Proof.
  intros (L & HP) ((r & -> & SR) & _ & HF). cbn [asset_name] in HF. specialize (HF KBattery ltac:(discriminate)) as HB. cbn in HB.
  destruct prev as [p|].
  - destruct HP as (iv0 & row0 & -> & ((r0 & -> & SR0) & _ & HF0)). cbn [asset_name] in HF0. specialize (HF0 KBattery ltac:(discriminate)). cbn in HF0.
    exists (battery_cs r ++ [battery_link r0 r])%list. split.
    + unfold battery_constrain_within. rewrite filter_last, HB.
      eapply emits_bind_lift; [reflexivity|]. eapply emits_bind_lift; [apply hd_res_cons|]. eapply emits_bind_lift; [reflexivity|].
      intros o u o' H. rewrite bind_ok in H. destruct H as (u1 & o1 & H1 & H). rewrite bind_ok in H. destruct H as (u2 & o2 & H2 & H).
      eapply extends_trans; [eapply (battery_emits r); unfold bind; rewrite H1; exact H2|].
      revert H. unfold constrain_connection_batteries_between_intervals, filter_all_intervals.
      rewrite !map_app. cbn [map]. rewrite HF0, HB.
      destruct (Nat.ltb_spec (List.length ((map (filter (matches (Some KBattery) (Some (b_name c)))) iv0 ++ [[OIBattery r0]]) ++ [[OIBattery r]])) 2) as [Lt|_];
        [rewrite !app_length in Lt; cbn in Lt; lia|].
      rewrite py_index_m2, py_index_last. intros H. rewrite bind_ok in H. destruct H as (l1 & o3 & H3 & H). apply lift_ok in H3. destruct H3 as [E3 <-]. injection E3 as <-.
      rewrite bind_ok in H. destruct H as (l2 & o4 & H4 & H). apply lift_ok in H4. destruct H4 as [E4 <-]. injection E4 as <-.
      cbn [connect_batteries] in H. cbn [as_battery] in H. clear H1 H2. revert o2 u o' H.
      change (emits (ra <- lift (Ok r0) ;; rb <- lift (Ok r) ;; (constrain (ceq (evar (boi_final ra)) (evar (boi_initial rb))) ;;; ret tt)) [battery_link r0 r]).
      eapply emits_bind_lift; [reflexivity|]. eapply emits_bind_lift; [reflexivity|]. eapply emits_eq; [apply emits_bind; [apply emits_constrain|intros _; apply emits_ret]|reflexivity].
    + unfold asset_sem. splits; [exact I| | | | |].
      * intros d s V P _ _ H. apply Forall_inv in V. apply Forall_inv in P. rewrite all_ok_app in H. destruct H as [H1 H2]. subst t. cbn [asset_at asset_link]. split.
        -- eapply battery_sound; eauto.
        -- intros _. rewrite app_length in *. cbn [List.length] in *. rewrite Nat.add_1_r in *. cbn [pred] in *. eapply battery_link_sem; [exact SR0|exact SR| | |]; eauto.
      * intros d s V P _ AT SW AP. apply Forall_inv in V. apply Forall_inv in P. rewrite all_ok_app. cbn [asset_at asset_link] in *. subst t. destruct (AP ltac:(discriminate)) as [A1 A2]. split.
        -- eapply battery_complete; eauto.
        -- rewrite app_length in *. cbn [List.length] in *. rewrite Nat.add_1_r in *. cbn [pred] in *. eapply battery_link_complete; [exact SR0|exact SR| | | | |]; eauto.
      * intros _ x v [<-|[]] J. left. rewrite cs_vars_app, in_app_iff. left. now apply battery_cs_vars.
      * intros d w s V B H. apply Forall_inv in V. apply Forall_inv in B. rewrite all_ok_app in H. destruct H as [H _]. eapply battery_bins; eauto.
      * intros eps d s EP V P _ _ H. apply Forall_inv in V. apply Forall_inv in P. rewrite near_app in H. destruct H as [H1 H2]. subst t. cbn [asset_upto link_upto]. split.
        -- eapply battery_near; eauto.
        -- intros _. rewrite app_length in *. cbn [List.length] in *. rewrite Nat.add_1_r in *. cbn [pred] in *. eapply battery_link_near; [exact SR0|exact SR| | |]; eauto.
  - subst iv. cbn [List.length] in L. subst t. exists (battery_cs r). split.
    + unfold battery_constrain_within. rewrite filter_last, HB.
      eapply emits_bind_lift; [reflexivity|]. eapply emits_bind_lift; [apply hd_res_cons|]. eapply emits_bind_lift; [reflexivity|].
      intros o u o' H. rewrite bind_ok in H. destruct H as (u1 & o1 & H1 & H). rewrite bind_ok in H. destruct H as (u2 & o2 & H2 & H).
      cbn in H. apply ret_ok in H. destruct H as [_ <-]. eapply (battery_emits r); unfold bind; rewrite H1; exact H2.
    + unfold asset_sem. splits; [exact I| | | | |].
      * intros d s V P _ _ H. apply Forall_inv in V. cbn [asset_at asset_link]. split; [|intros X; congruence]. eapply battery_sound; eauto.
      * intros d s V P _ AT SW AP. apply Forall_inv in V. cbn [asset_at asset_link] in *. eapply battery_complete; eauto.
      * intros _ x v [<-|[]] J. left. now apply battery_cs_vars.
      * intros d w s V B H. apply Forall_inv in V. apply Forall_inv in B. eapply battery_bins; eauto.
      * intros eps d s EP V P _ _ H. apply Forall_inv in V. cbn [asset_upto link_upto]. split; [|intros X; congruence]. eapply battery_near; eauto.
Qed.

Ltac within_tac HB := first [rewrite filter_last, HB | rewrite filter_at, HB];
  (eapply emits_bind_lift; [reflexivity|]); (eapply emits_bind_lift; [apply hd_res_cons|]); cbv beta iota.

Lemma boiler_within c iv row t f fl prev xs : prev_rows (ABoiler c) t f fl iv prev -> owns (ABoiler c) t f fl row xs ->
  ~ bo_efficiency_pct c == 0 ->
  exists cs, emits (boiler_constrain_within c (iv ++ [row])%list f) cs /\ asset_sem (ABoiler c) f fl t prev xs cs.
Proof.
  intros (L & HP) ((r & -> & SR) & _ & HF) NZ. cbn [asset_name] in HF. specialize (HF KBoiler ltac:(discriminate)) as HB. cbn in HB.
  exists (boiler_cs r f). split.
  - unfold boiler_constrain_within. within_tac HB. destruct (Qeq_bool _ 0).
    + intros o u o' H. rewrite bind_ok in H. destruct H as (? & ? & H & _). destruct (proj1 (raise_ok _ _ _ _) H).
    + unfold constrain_max, constrain_min. eapply emits_eq; [apply emits_bind; [apply emits_ret|intros _]; apply emits_bind; [apply emits_constrain|intros _]; apply emits_bind; [apply emits_constrain|intros _]; apply emits_constrain|reflexivity].
  - unfold asset_sem. splits; [exact NZ| | | | |].
    + intros d s V P _ _ H. apply Forall_inv in V. split; [|intros; exact I]. eapply boiler_sound; eauto.
    + intros d s V P _ AT SW AP. apply Forall_inv in V. eapply boiler_complete; eauto.
    + intros _ x v [<-|[]] [<-|[<-|[]]]; [right; unfold bal_vars; cbn; auto|left]. unfold boiler_cs. in_vars.
    + intros d w s V B H. apply Forall_inv in V. apply Forall_inv in B. eapply boiler_bins; eauto.
    + intros eps d s EP V P _ _ H. apply Forall_inv in V. split; [|intros; exact I]. eapply boiler_near; eauto.
Qed.
Lemma chp_within c iv row t f fl prev xs : prev_rows (ACHP c) t f fl iv prev -> owns (ACHP c) t f fl row xs ->
  exists cs, emits (chp_constrain_within c (iv ++ [row])%list t f) cs /\ asset_sem (ACHP c) f fl t prev xs cs.
Proof.
  intros (L & HP) ((r & -> & SR) & _ & HF). cbn [asset_name] in HF. specialize (HF KCHP ltac:(discriminate)) as HB. cbn in HB. rewrite <- L.
  exists (chp_cs r f). split.
  - unfold chp_constrain_within. within_tac HB. unfold constrain_max, constrain_min, chp_cs. 
    apply emits_bind; [destruct (Qgtb _ 0); [apply emits_constrain|apply emits_ret]|intros _].
    eapply emits_eq; [apply emits_bind; [apply emits_constrain|intros _]; apply emits_bind; [apply emits_constrain|intros _]; apply emits_bind; [apply emits_constrain|intros _]; apply emits_constrain|reflexivity].
  - unfold asset_sem. splits; [exact I| | | | |].
    + intros d s V P _ CF H. apply Forall_inv in V. split; [|intros; exact I]. eapply chp_sound; eauto. eapply chp_gas_nonneg; eauto.
    + intros d s V P _ AT SW AP. apply Forall_inv in V. eapply chp_complete; eauto.
    + intros CF x v [<-|[]] J. cbn [must_vars In] in J. destruct J as [<-|[<-|[<-|[<-|[]]]]]; try (right; unfold bal_vars; cbn; tauto).
      left. destruct SR as (Ec & _). unfold chp_cs. rewrite Ec. cbn [chp_fine] in CF.
      destruct CF as [CF|[CF|CF]].
      * apply Qgtb_iff in CF. rewrite CF. unfold cs_vars. cbn [app flat_map]. rewrite in_app_iff. left. cbn [c_expr ceq]. ev_goal. now left.
      * rewrite cs_vars_app, in_app_iff. right. unfold cs_vars. cbn [flat_map c_expr ceq]. rewrite in_app_iff. left. ev_goal. destruct (Qeq_bool _ 0) eqn:EQ; [apply Qeq_bool_iff in EQ; tauto|]. cbn. auto.
      * rewrite cs_vars_app, in_app_iff. right. unfold cs_vars. cbn [flat_map c_expr ceq]. rewrite !in_app_iff. right. left. ev_goal. destruct (Qeq_bool (ch_lt_efficiency_pct c) 0) eqn:EQ; [apply Qeq_bool_iff in EQ; tauto|]. cbn. auto.
    + intros d w s V B H. apply Forall_inv in V. apply Forall_inv in B. eapply chp_bins; eauto.
    + intros eps d s EP V P _ CF H. apply Forall_inv in V. split; [|intros; exact I]. eapply chp_near; eauto. eapply chp_gas_near; eauto.
Qed.
Lemma hp_within c iv row t f fl prev xs : prev_rows (AHeatPump c) t f fl iv prev -> owns (AHeatPump c) t f fl row xs ->
  exists cs, emits (hp_constrain_within c (iv ++ [row])%list t f) cs /\ asset_sem (AHeatPump c) f fl t prev xs cs.
Proof.
  intros (L & HP) ((r & -> & SR) & _ & HF). cbn [asset_name] in HF. specialize (HF KHeatPump ltac:(discriminate)) as HB. cbn in HB. rewrite <- L.
  exists (hp_cs r f). split.
  - unfold hp_constrain_within. within_tac HB. unfold constrain_max.
    eapply emits_eq; [apply emits_bind; [apply emits_constrain|intros _]; apply emits_bind; [apply emits_constrain|intros _]; apply emits_constrain|reflexivity].
  - unfold asset_sem. splits; [exact I| | | | |].
    + intros d s V P _ CF H. apply Forall_inv in V. split; [|intros; exact I]. eapply hp_sound; eauto.
    + intros d s V P _ AT SW AP. apply Forall_inv in V. eapply hp_complete; eauto.
    + intros _ x v [<-|[]] [].
    + intros d w s V B H. apply Forall_inv in V. apply Forall_inv in B. eapply hp_bins; eauto.
    + intros eps d s EP V P _ _ H. apply Forall_inv in V. split; [|intros; exact I]. eapply hp_near; eauto.
Qed.
Lemma valve_within n iv row t f fl prev xs : prev_rows (AValve n) t f fl iv prev -> owns (AValve n) t f fl row xs ->
  exists cs, emits (valve_constrain_within n (iv ++ [row])%list) cs /\ asset_sem (AValve n) f fl t prev xs cs.
Proof.
  intros (L & HP) ((r & -> & SR) & _ & HF). cbn [asset_name] in HF. specialize (HF KValve ltac:(discriminate)) as HB. cbn in HB.
  exists (valve_cs r). split.
  - unfold valve_constrain_within. within_tac HB. apply emits_constrain.
  - unfold asset_sem. splits; [exact I| | | | |].
    + intros d s V P _ CF H. apply Forall_inv in V. split; [|intros; exact I]. eapply valve_sound; eauto.
    + intros d s V P _ AT SW AP. apply Forall_inv in V. eapply valve_complete; eauto.
    + intros _ x v [<-|[]] [].
    + intros; exact I.
    + intros eps d s EP V P _ CF H. apply Forall_inv in V. split; [|intros; exact I]. eapply valve_near; eauto.
Qed.
Lemma rg_within c iv t f fl prev xs row : owns (ARenewable c) t f fl row xs -> exists cs, emits (asset_constrain_within (ARenewable c) iv t f fl) cs /\ asset_sem (ARenewable c) f fl t prev xs cs.
Proof.
  intros ((r & -> & SR) & _). exists []. split; [apply emits_ret|]. unfold asset_sem. splits; [exact I| | | | |].
  - intros d s V _ B _ _. apply Forall_inv in V. inversion B as [|? ? B1 _]; subst. split; [|intros; exact I]. destruct SR as (<- & av & Ea & A1). cbn [asset_at].
    unfold bal_vars in B1. cbn in B1. rewrite vars_ok_1, (cont_var_ok _ _ _ _ A1) in B1. cbn [oi_val] in *. unfold vset in *. rewrite (nth_error_nth _ _ 0 Ea).
    rewrite V in B1. exact B1.
  - intros. constructor.
  - intros _ x v [<-|[]] [].
  - intros; exact I.
  - intros eps d s _ V _ B _ _. apply Forall_inv in V. inversion B as [|? ? B1 _]; subst. split; [|intros; exact I]. destruct SR as (<- & av & Ea & A1). cbn [asset_upto]. unfold rg_exact.
    unfold bal_vars in B1. cbn in B1. rewrite vars_ok_1, (cont_var_ok _ _ _ _ A1) in B1. cbn [oi_val] in *. unfold vset in *. rewrite (nth_error_nth _ _ 0 Ea).
    rewrite V in B1. exact B1.
Qed.
Lemma spill_within n iv t f fl prev xs row : owns (ASpill n) t f fl row xs -> exists cs, emits (asset_constrain_within (ASpill n) iv t f fl) cs /\ asset_sem (ASpill n) f fl t prev xs cs.
Proof.
  intros ((r & -> & SR) & _). exists []. split; [apply emits_ret|]. unfold asset_sem. splits; [exact I| | | | |].
  - intros d s V _ B _ _. inversion V as [|? ? V1 _]; subst. inversion B as [|? ? B1 _]; subst. split; [|intros; exact I]. destruct SR as (<- & A1 & A2 & A3 & A4). cbn [asset_at].
    unfold bal_vars in B1. cbn in B1. rewrite !vars_ok_cons, (cont_var_ok _ _ _ _ A1), (cont_var_ok _ _ _ _ A2), (cont_var_ok _ _ _ _ A3), (cont_var_ok _ _ _ _ A4) in B1. cbn [oi_val] in V1. unfold vset in V1.
    destruct V1 as (V1 & V2 & V3 & V4). rewrite V1, V2, V3, V4 in B1. tauto.
  - intros. constructor.
  - intros _ x v [<-|[]] [].
  - intros; exact I.
  - intros eps d s _ V _ B _ _. inversion V as [|? ? V1 _]; subst. inversion B as [|? ? B1 _]; subst. split; [|intros; exact I]. destruct SR as (<- & A1 & A2 & A3 & A4). cbn [asset_upto]. unfold spill_exact.
    unfold bal_vars in B1. cbn in B1. rewrite !vars_ok_cons, (cont_var_ok _ _ _ _ A1), (cont_var_ok _ _ _ _ A2), (cont_var_ok _ _ _ _ A3), (cont_var_ok _ _ _ _ A4) in B1. cbn [oi_val] in V1. unfold vset in V1.
    destruct V1 as (V1 & V2 & V3 & V4). rewrite V1, V2, V3, V4 in B1. tauto.
Qed.

Lemma filter_kind_map {A} (w : A -> oneint) k k' l : (forall r, kind_of (w r) = k') -> filter (fun x => kind_eqb (kind_of x) k) (map w l) = if kind_eqb k' k then map w l else [].
Proof.
  intros H. induction l; cbn; [destruct (kind_eqb k' k); reflexivity|]. rewrite H, IHl. destruct (kind_eqb k' k); reflexivity.
Qed.
Lemma evs_filters c t f fl row xs S0 S1 E Sp : evs_shape c t f fl xs S0 S1 E Sp ->
  (forall k, k <> KSite -> filter (matches (Some k) (Some (ev_name c))) row = filter (fun x => kind_eqb (kind_of x) k) xs) ->
  filter (matches (Some KEv) (Some (ev_name c))) row = map OIEv (grid E (n_events c) (n_chargers c)) /\
  filter (matches (Some KEvSpill) (Some (ev_name c))) row = map OIEvSpill (grid Sp (n_events c) (List.length (ev_spill_chargers c))).
Proof.
  intros (-> & _) HF. split.
  - rewrite (HF KEv) by discriminate. rewrite filter_app, (filter_kind_map OIEv _ KEv), (filter_kind_map OIEvSpill _ KEvSpill) by reflexivity. cbn. apply app_nil_r.
  - rewrite (HF KEvSpill) by discriminate. rewrite filter_app, (filter_kind_map OIEv _ KEv), (filter_kind_map OIEvSpill _ KEvSpill) by reflexivity. reflexivity.
Qed.

Lemma evs_within c iv row t f fl prev xs o u o' : prev_rows (AEVs c) t f fl iv prev -> owns (AEVs c) t f fl row xs ->
  evs_constrain_within c (iv ++ [row])%list t f fl o = Ok (u, o') ->
  exists cs, extends o o' cs /\ asset_sem (AEVs c) f fl t prev xs cs.
Proof.
  intros (L & HP) ((S0 & S1 & E & Sp & SH) & _ & HF) H. cbn [asset_name] in HF.
  destruct (evs_filters _ _ _ _ _ _ _ _ _ _ SH HF) as [F1 F2]. unfold evs_constrain_within in H.
  rewrite bind_ok in H. destruct H as (a & o0 & H0 & H). apply lift_ok in H0. destruct H0 as [Ha <-].
  apply (create_main _ _ _ S0 S1 E Sp t f fl xs) in Ha; [|rewrite <- L, filter_at, F1; reflexivity|exact SH].
  rewrite bind_ok in H. destruct H as (u1 & o1 & H1 & H). apply minmax_emits in H1.
  rewrite bind_ok in H. destruct H as (sp & o2 & H2 & H). apply lift_ok in H2. destruct H2 as [Hs <-].
  apply (create_spill _ _ _ S0 S1 E Sp t f fl xs) in Hs; [|rewrite <- L, filter_at, F2; reflexivity|exact SH].
  rewrite bind_ok in H. destruct H as (u3 & o3 & H3 & H). apply minmax_emits in H3.
  rewrite bind_ok in H. destruct H as (u4 & o4 & H4 & H). apply single_emits in H4.
  rewrite bind_ok in H. destruct H as (u5 & o5 & H5 & H). apply balance_emits in H5.
  assert (extends o o5 (evs_cs a sp c f fl t)) as X.
  { unfold evs_cs. eapply extends_trans; [exact H1|]. eapply extends_trans; [exact H3|]. eapply extends_trans; [exact H4|]. exact H5. }
  clear H1 H3 H4 H5.
  assert (asset_fine (AEVs c)) as FN. { destruct Hs as (_ & L1 & Hn & Hc & _). cbn. auto. }
  assert (forall x v, In x xs -> In v (must_vars x) -> In v (cs_vars (evs_cs a sp c f fl t)) \/ In v (bal_vars x)) as OC.
  { intros x v Ix Iv. left. destruct SH as (-> & SS & SE & SSp). destruct Ha as (Ca & _ & _ & Pa & So). destruct Hs as (Cs & L1 & Hn & Hc & Ps & _).
    rewrite in_app_iff, !in_map_iff in Ix. destruct Ix as [(r & <- & Ix)|(r & <- & Ix)].
    - apply in_grid in Ix. destruct Ix as (e & k & He & Hk & ->). destruct (nth_error_lt _ _ He) as (ec & Ee); destruct (nth_error_lt _ _ Hk) as (cc & Ek).
      destruct (SE _ _ _ _ Ee Ek) as (_ & _ & _ & _ & _ & _ & _ & _ & _ & Q4 & Q5). destruct (Pa e k He Hk) as (P1 & P2 & P3 & P4 & P5).
      cbn [must_vars] in Iv. rewrite Q4, Q5, !in_app_iff in Iv. cbn [fvars] in Iv. unfold evs_cs. rewrite !cs_vars_app, !in_app_iff.
      destruct Iv as [Iv|[Iv|[Iv|[Iv|Iv]]]].
      + right. right. right. unfold balance_cs, cs_vars. apply in_flat_map. exists (soc_c a sp e). split.
        * apply in_flat_map. exists (e, ec). rewrite Ca. split; [now apply enumerate_in|]. now left.
        * unfold soc_c. cbv zeta. cbn [c_expr ceq]. rewrite !evars_esub, !evars_eadd, !evars_fexpr. destruct (So e He) as [-> ->]. cbn [fvars]. rewrite !in_app_iff. cbn [In] in *. tauto.
      + right. right. right. unfold balance_cs, cs_vars. apply in_flat_map. exists (soc_c a sp e). split.
        * apply in_flat_map. exists (e, ec). rewrite Ca. split; [now apply enumerate_in|]. now left.
        * unfold soc_c. cbv zeta. cbn [c_expr ceq]. rewrite !evars_esub, !evars_eadd, !evars_fexpr. destruct (So e He) as [-> ->]. cbn [fvars]. rewrite !in_app_iff. cbn [In] in *. tauto.
      + right. right. left. unfold single_cs. rewrite cs_vars_app, in_app_iff. left. unfold cs_vars. apply in_flat_map. eexists. split.
        * apply in_flat_map. exists (e, ec). split; [now apply enumerate_in|]. left. reflexivity.
        * cbn [c_expr cle]. rewrite evars_esub, in_app_iff. left. rewrite evars_esum; apply in_flat_map. exists (fexpr (ea_charge_bin a e k)). rewrite evars_fexpr, P2. split; [|exact Iv].
          apply in_app_iff. left. rewrite <- P2. apply (in_map (fun k => fexpr (ea_charge_bin a e k))). apply in_seq. rewrite Ca. lia.
      + right. right. left. unfold single_cs. rewrite cs_vars_app, in_app_iff. left. unfold cs_vars. apply in_flat_map. eexists. split.
        * apply in_flat_map. exists (e, ec). split; [now apply enumerate_in|]. left. reflexivity.
        * cbn [c_expr cle]. rewrite evars_esub, in_app_iff. left. rewrite evars_esum; apply in_flat_map. exists (fexpr (ea_discharge_bin a e k)). rewrite evars_fexpr, P4. split; [|exact Iv].
          apply in_app_iff. right. rewrite <- P4. apply (in_map (fun k => fexpr (ea_discharge_bin a e k))). apply in_seq. rewrite Ca. lia.
      + right. right. right. unfold balance_cs, cs_vars. apply in_flat_map. eexists. split.
        * apply in_flat_map. exists (e, ec). rewrite Ca. split; [now apply enumerate_in|]. right. apply in_app_iff. left. unfold losses_cs. rewrite Ca. apply in_flat_map. exists (k, cc). split; [now apply enumerate_in|]. left. reflexivity.
        * cbn [c_expr ceq fst snd]. rewrite evars_esub, in_app_iff. right. rewrite evars_esum; apply in_flat_map. eexists. split; [left; reflexivity|]. rewrite evars_fexpr, P5. exact Iv.
    - apply in_grid in Ix. destruct Ix as (e & k & He & Hk & ->). assert (k = 0)%nat as -> by lia. destruct (nth_error_lt _ _ He) as (ec & Ee). destruct (nth_error_lt _ _ Hk) as (cc & Ek). destruct (nth_error_lt _ _ Hc) as (cc0 & Ec).
      destruct (SSp _ _ _ _ Ee Ek) as (_ & _ & _ & _ & _ & _ & CS & DS & _). destruct (Ps e He) as (P1 & P2 & P3 & P4 & P5).
      cbn [must_vars] in Iv. rewrite !in_app_iff in Iv. unfold evs_cs. rewrite !cs_vars_app, !in_app_iff. cbn [andb] in DS.
      destruct Iv as [Iv|[Iv|Iv]].
      + right. left. unfold minmax_cs, cs_vars. apply in_flat_map. unfold charge_shape in CS.
        assert (exists v1, eoi_charge (Sp e 0%nat) = FVar v1) as (v1 & EV) by (destruct CS as [(x & b & E1 & _)|(_ & E2 & _)]; [eauto|rewrite E2 in Iv; destruct Iv]).
        exists (cle (fexpr (ea_charge_bin sp e 0%nat)) (econst (presence c e t))). split.
        * apply in_flat_map. exists (e, ec). split; [now apply enumerate_in|]. apply in_flat_map. exists (0%nat, cc). split; [now apply enumerate_in|]. cbn [fst snd]. apply in_app_iff. left. rewrite P1, EV. cbn [pair_cs In]. auto.
        * cbn [c_expr cle]. rewrite evars_esub, in_app_iff, evars_fexpr, P2. now left.
      + exfalso. unfold discharge_shape in DS. destruct DS as [_ DS]. rewrite DS in Iv. destruct Iv.
      + right. right. right. unfold balance_cs, cs_vars. apply in_flat_map. eexists. split.
        * apply in_flat_map. exists (e, ec). rewrite Ca. split; [now apply enumerate_in|]. right. apply in_app_iff. right. unfold losses_cs. rewrite Cs. apply in_flat_map. exists (0%nat, cc0). split; [now apply enumerate_in|]. left. reflexivity.
        * cbn [c_expr ceq fst snd]. rewrite evars_esub, in_app_iff. right. rewrite evars_esum; apply in_flat_map. eexists. split; [left; reflexivity|]. rewrite evars_fexpr, P5. exact Iv. }
  destruct prev as [p|].
  - destruct HP as (iv0 & row0 & -> & ((T0 & T1 & F & Tp & SH0) & _ & HF0)). cbn [asset_name] in HF0.
    destruct (evs_filters _ _ _ _ _ _ _ _ _ _ SH0 HF0) as [G1 G2]. rewrite app_length in L. cbn [List.length] in L. rewrite Nat.add_1_r in L. subst t. cbn [pred] in *.
    rewrite bind_ok in H. destruct H as (old & o6 & H6 & H). apply lift_ok in H6. destruct H6 as [Ho <-].
    apply (create_main _ _ _ T0 T1 F Tp (List.length iv0) f fl p) in Ho; [| |exact SH0].
    2:{ rewrite <- app_assoc. unfold filter_objective_variables. rewrite py_index_nat, nth_error_app2, Nat.sub_diag by lia. cbn. now rewrite G1. }
    apply (link_emits _ _ _ _ _ _ _ _ _ Ho Ha) in H.
    exists (evs_cs a sp c f fl (S (List.length iv0)) ++ link_cs S0 T1 (n_events c))%list. split; [eapply extends_trans; eauto|].
    unfold asset_sem. cbn [pred]. splits; [exact FN| | | | |].
    + intros d s V P _ _ OK. rewrite all_ok_app, link_iff in OK. destruct OK as [K1 K2]. split.
      * eapply evs_sound; eauto.
      * intros _ e I. apply in_seq in I. assert (e < n_events c)%nat as He by (unfold n_events in *; lia).
        destruct (evs_vals _ _ _ _ _ _ _ _ _ _ _ SH V) as [VM _]. destruct (evs_vals _ _ _ _ _ _ _ _ _ _ _ SH0 P) as [VP _].
        destruct FN as (_ & _ & Hc). destruct (VM e 0%nat He Hc) as (_ & _ & _ & W & _). destruct (VP e 0%nat He Hc) as (_ & _ & _ & _ & W').
        destruct (K2 e He) as (K & _). now rewrite W, W' in K.
    + intros d s V P SN AT SW AP. destruct (AP ltac:(discriminate)) as [A1 A2]. rewrite all_ok_app, link_iff. split.
      * eapply evs_complete; eauto.
      * intros e He. destruct (evs_sets _ _ _ _ _ _ _ _ _ _ _ SH V) as [VM _]. destruct (evs_sets _ _ _ _ _ _ _ _ _ _ _ SH0 P) as [VP _].
        destruct FN as (_ & _ & Hc). destruct (VM e 0%nat He Hc) as (_ & _ & _ & _ & _ & W & _). destruct (VP e 0%nat He Hc) as (_ & _ & _ & _ & _ & _ & W').
        destruct (nth_error_lt _ _ He) as (ec & Ee). destruct SH as (_ & SS & _). destruct SH0 as (_ & SS0 & _). destruct (SS e ec Ee) as [C0 _]. destruct (SS0 e ec Ee) as [_ C1].
        rewrite (cont_var_ok _ _ _ _ C0), (cont_var_ok _ _ _ _ C1), W, W'. cbn [asset_at asset_link] in *.
        destruct AT as (_ & _ & _ & _ & AT). destruct A1 as (_ & _ & _ & _ & A1). destruct (AT _ _ Ee) as (B1 & _). destruct (A1 _ _ Ee) as (_ & B2 & _). unfold between in *.
        splits; try tauto. apply A2. apply in_seq. unfold n_events in *. lia.
    + intros _ x v Ix Iv. rewrite cs_vars_app, in_app_iff. destruct (OC x v Ix Iv); auto.
    + intros d w s V B OK. rewrite all_ok_app in OK. destruct OK as [K1 _]. eapply evs_bins; eauto.
    + intros eps d s EP V P _ _ OK. rewrite near_app in OK. destruct OK as [K1 K2]. split.
      * eapply evs_near; eauto.
      * intros _ e I. apply in_seq in I. assert (e < n_events c)%nat as He by (unfold n_events in *; lia).
        destruct (evs_vals _ _ _ _ _ _ _ _ _ _ _ SH V) as [VM _]. destruct (evs_vals _ _ _ _ _ _ _ _ _ _ _ SH0 P) as [VP _].
        destruct FN as (_ & _ & Hc). destruct (VM e 0%nat He Hc) as (_ & _ & _ & W & _). destruct (VP e 0%nat He Hc) as (_ & _ & _ & _ & W').
        pose proof (link_near _ _ _ _ _ K2 e He) as K. unfold within in *. now rewrite W, W' in K.
  - subst iv. cbn [List.length] in L. subst t. apply ret_ok in H. destruct H as [_ <-].
    exists (evs_cs a sp c f fl 0). split; [exact X|]. unfold asset_sem. cbn [pred]. splits; [exact FN| | |auto| |].
    + intros d s V P _ _ OK. split; [|intros X0; congruence]. eapply evs_sound; eauto.
    + intros d s V P SN AT SW AP. eapply evs_complete; eauto.
    + intros d w s V B OK. eapply evs_bins; eauto.
    + intros eps d s EP V P _ _ OK. split; [|intros X0; congruence]. eapply evs_near; eauto.
Qed.

Lemma asset_within a iv row t f fl prev xs o u o' : prev_rows a t f fl iv prev -> owns a t f fl row xs ->
  asset_constrain_within a (iv ++ [row])%list t f fl o = Ok (u, o') ->
  exists cs, extends o o' cs /\ asset_sem a f fl t prev xs cs.
Proof.
  intros HP HO H. destruct a as [c|c|c|c|c|c|n|n].
  - destruct (battery_within _ _ _ _ _ _ _ _ HP HO) as (cs & A & B). exists cs. split; [eapply A; exact H|exact B].
  - assert (~ bo_efficiency_pct c == 0) as NZ.
    { pose proof HO as ((r & -> & SR) & _ & HF). cbn [asset_name] in HF. specialize (HF KBoiler ltac:(discriminate)). cbn in HF.
      cbn [asset_constrain_within] in H. unfold boiler_constrain_within in H. rewrite filter_last, HF in H. cbn [lift bind] in H. rewrite hd_res_cons in H. cbn in H.
      destruct SR as (Ec & _). rewrite Ec in H. destruct (Qeq_bool (bo_efficiency_pct c) 0) eqn:EQ; [discriminate|]. now apply Qeq_bool_neq in EQ. }
    destruct (boiler_within _ _ _ _ _ _ _ _ HP HO NZ) as (cs & A & B). exists cs. split; [eapply A; exact H|exact B].
  - destruct (chp_within _ _ _ _ _ _ _ _ HP HO) as (cs & A & B). exists cs. split; [eapply A; exact H|exact B].
  - eapply evs_within; eauto.
  - destruct (hp_within _ _ _ _ _ _ _ _ HP HO) as (cs & A & B). exists cs. split; [eapply A; exact H|exact B].
  - destruct (rg_within _ (iv ++ [row])%list _ _ _ prev _ _ HO) as (cs & A & B). exists cs. split; [eapply A; exact H|exact B].
  - destruct (spill_within _ (iv ++ [row])%list _ _ _ prev _ _ HO) as (cs & A & B). exists cs. split; [eapply A; exact H|exact B].
  - destruct (valve_within _ _ _ _ _ _ _ _ HP HO) as (cs & A & B). exists cs. split; [eapply A; exact H|exact B].
Qed.

(** ** The constraints of the site in one interval *)
Definition site_at (c : site_cfg) (assets : list asset) (d : dispatch) (t : nat) : Prop :=
  grid_limits c d t /\ electricity_balanced c assets d t /\ high_temperature_balanced c assets d t /\ low_temperature_balanced c assets d t.

Lemma site_attr_zero s r attr sp : In (attr, sp) attr_spec -> fv s (attr (OISite r)) == 0.
Proof. intros I. simpl in I. repeat (destruct I as [I|I]; [injection I as <- <-; reflexivity|]). destruct I. Qed.
Lemma row_sum c assets fl t r xss d s attr sp : Forall2 (fun a xs => asset_shape a t (sc_freq c) fl xs) assets xss -> Forall asset_fine assets ->
  Forall (Forall (oi_eq d t s)) xss -> In (attr, sp) attr_spec ->
  sum_fv s attr (OISite r :: List.concat xss)%list == total (sp d t) assets.
Proof.
  intros F FN V I. unfold sum_fv. cbn [map Qsum fold_right]. rewrite (site_attr_zero s r _ _ I). fold (Qsum (map (fun x => fv s (attr x)) (List.concat xss))).
  rewrite Qplus_0_l. unfold total. induction F as [|a xs l l' Sh F IH]; [reflexivity|].
  inversion FN; subst. inversion V; subst. cbn [List.concat]. rewrite map_app, Qsum_app, IH by auto. cbn [map Qsum fold_right].
  apply Qplus_comp; [|reflexivity]. eapply asset_sum; eauto.
Qed.

Definition site_sem (c : site_cfg) (assets : list asset) (t : nat) (r : site_oi) (row : list oneint) (cs : list constr) : Prop :=
  (forall d s, oi_val d t s (OISite r) -> (forall attr sp, In (attr, sp) attr_spec -> sum_fv s attr row == total (sp d t) assets) -> all_ok s cs ->
     site_at c assets d t) /\
  (forall s, all_ok s cs -> Forall (fun x => vars_ok s (bal_vars x)) row) /\
  (forall (d : setting) s, oi_set d t s (OISite r) -> (forall attr sp, In (attr, sp) attr_spec -> sum_fv s attr row == total (sp d t) assets) ->
     Forall (fun x => vars_ok s (bal_vars x)) row -> site_at c assets d t -> site_switched d (st_w d) t -> all_ok s cs) /\
  (forall v, In v [tio_import r; tio_export r] -> In v (cs_vars cs)) /\
  (forall x v, In x row -> In v (bal_vars x) -> In v (cs_vars cs)) /\
  (forall d w s, oi_val d t s (OISite r) -> oi_bin w t s (OISite r) -> all_ok s cs -> site_switched d w t) /\
  (forall eps d s, 0 <= eps < 1 -> oi_val d t s (OISite r) -> (forall attr sp, In (attr, sp) attr_spec -> sum_fv s attr row == total (sp d t) assets) -> near eps s cs ->
     site_upto eps c assets d t) /\
  (forall eps s, near eps s cs -> Forall (fun x => vars_ok s (bal_vars x)) row).

Lemma eval_sum_attr s attr l : eval s (sum_attr attr l) == sum_fv s attr l.
Proof. unfold sum_attr, sum_fv. rewrite eval_esum, map_map. apply Qsum_map_ext. intros; apply eval_fexpr. Qed.
Lemma evars_sum_attr attr l : evars (sum_attr attr l) = flat_map (fun x => fvars (attr x)) l.
Proof. unfold sum_attr. rewrite evars_esum, flat_map_map. apply flat_map_ext. intros. apply evars_fexpr. Qed.
Lemma vars_sum_attr s attr l : vars_ok s (evars (sum_attr attr l)) <-> forall x, In x l -> vars_ok s (fvars (attr x)).
Proof. rewrite evars_sum_attr. apply vars_ok_flat_map. Qed.
Lemma in_sum_attr v attr l x : In x l -> In v (fvars (attr x)) -> In v (evars (sum_attr attr l)).
Proof. rewrite evars_sum_attr. intros I J. apply in_flat_map. eauto. Qed.

Definition site_cs (c : site_cfg) (r : site_oi) (row : list oneint) (el hl ll lg : Q) : list constr :=
  [ ceq (eadd (esub (esub (eadd (esub (esub (evar (tio_import r)) (evar (tio_export r))) (econst el))
                                 (sum_attr electric_generation_mwh row))
                           (sum_attr electric_load_mwh row))
                     (sum_attr electric_charge_mwh row))
               (sum_attr electric_discharge_mwh row))
         (econst 0);
    cle (esub (evar (tio_import r)) (escale (evar (tio_import_bin r)) (tio_import_limit r))) (econst 0);
    cle (esub (evar (tio_export r)) (escale (evar (tio_export_bin r)) (tio_export_limit r))) (econst 0);
    ceq (eadd (evar (tio_import_bin r)) (evar (tio_export_bin r))) (econst 1);
    ceq (esub (esub (sum_attr high_temperature_generation_mwh row)
                             (sum_attr high_temperature_load_mwh row)) (econst hl))
                 (econst 0);
    ceq (eadd (esub (esub (sum_attr low_temperature_generation_mwh row)
                                   (sum_attr low_temperature_load_mwh row)) (econst ll))
                       (econst lg))
                 (econst 0) ].

Lemma find_site_spec iv r rest : tio_name r = "site"%string ->
  forall o x o', find_site (iv ++ [OISite r :: rest])%list o = Ok (x, o') -> x = r /\ o = o'.
Proof.
  intros Hn o x o' H. unfold find_site in H. rewrite filter_last in H. cbn [filter] in H. 
  assert (matches (Some KSite) (Some "site"%string) (OISite r) = true) as E by (unfold matches; cbn; now rewrite Hn).
  rewrite E in H. cbn [lift bind] in H. rewrite hd_res_cons in H. unfold bind, lift in H. injection H as <- <-. auto.
Qed.
Lemma nth_res_data l t q : nth_res l t = Ok q -> data l t = q.
Proof. unfold nth_res, data. intros H. apply of_option_ok in H. now apply nth_error_nth. Qed.

Lemma site_emit c iv r rest t o u o' : tio_name r = "site"%string ->
  site_constrain_within (sc_idata c) (iv ++ [OISite r :: rest])%list t o = Ok (u, o') ->
  extends o o' (site_cs c r (OISite r :: rest)%list (data (id_electric_load_mwh (sc_idata c)) t) (data (id_high_temperature_load_mwh (sc_idata c)) t)
    (data (id_low_temperature_load_mwh (sc_idata c)) t) (data (id_low_temperature_generation_mwh (sc_idata c)) t)).
Proof.
  intros Hn H. unfold site_constrain_within in H.
  rewrite bind_ok in H. destruct H as (u1 & o1 & H1 & H). rewrite bind_ok in H. destruct H as (u2 & o2 & H2 & H). rewrite bind_ok in H. destruct H as (u3 & o3 & H3 & H4).
  unfold constrain_site_electricity_balance in H1. rewrite py_index_last in H1.
  rewrite bind_ok in H1. destruct H1 as (x & oa & Ha & H1). apply lift_ok in Ha. destruct Ha as [[= <-] <-].
  rewrite bind_ok in H1. destruct H1 as (x & ob & Hb & H1). apply find_site_spec in Hb; [|exact Hn]. destruct Hb as [-> <-].
  rewrite bind_ok in H1. destruct H1 as (el & oc & Hc & H1). apply lift_ok in Hc. destruct Hc as [Hc <-]. apply nth_res_data in Hc. apply emits_constrain_named in H1. rewrite <- Hc in H1.
  unfold constrain_site_import_export in H2.
  rewrite bind_ok in H2. destruct H2 as (x & od & Hd & H2). apply find_site_spec in Hd; [|exact Hn]. destruct Hd as [-> <-].
  rewrite bind_ok in H2. destruct H2 as (u5 & o5 & H5 & H2). apply emits_constrain in H5. rewrite bind_ok in H2. destruct H2 as (u6 & o6 & H6 & H2). apply emits_constrain in H6. apply emits_constrain in H2.
  unfold constrain_site_high_temperature_heat_balance in H3. rewrite py_index_last in H3.
  rewrite bind_ok in H3. destruct H3 as (x & oe & He & H3). apply lift_ok in He. destruct He as [[= <-] <-].
  rewrite bind_ok in H3. destruct H3 as (hl & of & Hf & H3). apply lift_ok in Hf. destruct Hf as [Hf <-]. apply nth_res_data in Hf. apply emits_constrain in H3. rewrite <- Hf in H3.
  unfold constrain_site_low_temperature_heat_balance in H4. rewrite py_index_last in H4.
  rewrite bind_ok in H4. destruct H4 as (x & og & Hg & H4). apply lift_ok in Hg. destruct Hg as [[= <-] <-].
  rewrite bind_ok in H4. destruct H4 as (ll & oh & Hh & H4). apply lift_ok in Hh. destruct Hh as [Hh <-]. apply nth_res_data in Hh.
  rewrite bind_ok in H4. destruct H4 as (lg & oi & Hi & H4). apply lift_ok in Hi. destruct Hi as [Hi <-]. apply nth_res_data in Hi. apply emits_constrain in H4. rewrite <- Hh, <- Hi in H4.
  pose proof (extends_trans _ _ _ _ _ H1 (extends_trans _ _ _ _ _ H5 (extends_trans _ _ _ _ _ H6 (extends_trans _ _ _ _ _ H2 (extends_trans _ _ _ _ _ H3 H4))))) as X.
  exact X.
Qed.

Ltac vok_in H := repeat first [rewrite vars_ok_app in H | rewrite evars_esub in H | rewrite evars_eadd in H | rewrite vars_sum_attr in H | rewrite vars_ok_1 in H].
Ltac vok_goal := repeat first [rewrite vars_ok_app | rewrite evars_esub | rewrite evars_eadd | rewrite vars_sum_attr | rewrite vars_ok_1].
Lemma site_sem_ok c assets t r row : site_shape c r ->
  site_sem c assets t r row (site_cs c r row (data (id_electric_load_mwh (sc_idata c)) t) (data (id_high_temperature_load_mwh (sc_idata c)) t)
    (data (id_low_temperature_load_mwh (sc_idata c)) t) (data (id_low_temperature_generation_mwh (sc_idata c)) t)).
Proof.
  intros (_ & S1 & S2 & B1 & B2 & L1 & L2). unfold site_sem, site_cs. splits.
  - intros d s (E1 & E2) SU H. unfold vset in *.
    rewrite !all_ok_cons, !ceq_ok, !cle_ok in H. destruct H as ((H1 & V1) & (H2 & V2) & (H3 & V3) & (H4 & V4) & (H5 & _) & (H6 & _) & _).
    ev_in H1. ev_in H2. ev_in H3. ev_in H4. ev_in H5. ev_in H6. ev_in V2. ev_in V3. ev_in V4.
    assert (forall attr sp, In (attr, sp) attr_spec -> eval s (sum_attr attr row) == total (sp d t) assets) as SU' by (intros; rewrite eval_sum_attr; auto). clear SU. rename SU' into SU.
    rewrite (SU electric_generation_mwh elec_gen) in H1 by (simpl; tauto). rewrite (SU electric_load_mwh elec_load) in H1 by (simpl; tauto).
    rewrite (SU electric_charge_mwh charge) in H1 by (simpl; tauto). rewrite (SU electric_discharge_mwh discharge) in H1 by (simpl; tauto).
    rewrite (SU high_temperature_generation_mwh ht_gen) in H5 by (simpl; tauto). rewrite (SU high_temperature_load_mwh ht_load) in H5 by (simpl; tauto).
    rewrite (SU low_temperature_generation_mwh lt_gen) in H6 by (simpl; tauto). rewrite (SU low_temperature_load_mwh lt_load) in H6 by (simpl; tauto).
    vok_in V2. vok_in V3. vok_in V4. destruct V2 as ((V2 & _) & _). destruct V3 as ((V3 & _) & _). destruct V4 as ((V4 & V5) & _).
    rewrite (cont_var_ok _ _ _ _ S1) in V2. rewrite (cont_var_ok _ _ _ _ S2) in V3. rewrite (binary_var_ok _ _ B1) in V4. rewrite (binary_var_ok _ _ B2) in V5.
    rewrite L1 in H2. rewrite L2 in H3. rewrite E1, E2 in *. rewrite !mw_energy in *.
    unfold site_at, grid_limits, electricity_balanced, high_temperature_balanced, low_temperature_balanced, between. splits; try tauto; try lra.
    destruct V4 as [Z|Z]; rewrite Z in *; [left; lra|right]. assert (s (v_id (tio_export_bin r)) == 0) as Y by lra. rewrite Y in *. lra.
  - intros s H. rewrite !all_ok_cons, !ceq_ok in H. destruct H as ((_ & V1) & _ & _ & _ & (_ & V5) & (_ & V6) & _).
    rewrite Forall_forall. intros x I. unfold bal_vars. vok_goal. vok_in V1. vok_in V5. vok_in V6.
    destruct V1 as (((((_ & A1) & A2) & A3) & A4) & _). destruct V5 as (((A5 & A6) & _) & _). destruct V6 as ((((A7 & A8) & _) & _) & _). splits; auto.
  - intros d s (E1 & E2 & E3 & E4) SU BV ((G1 & G2 & G3) & EB & HB & LB) ((W1 & W2) & (W3 & W4) & W5). unfold vset, between in *. rewrite Forall_forall in BV.
    assert (forall attr, In attr [electric_generation_mwh; electric_load_mwh; electric_charge_mwh; electric_discharge_mwh; high_temperature_generation_mwh; high_temperature_load_mwh; low_temperature_generation_mwh; low_temperature_load_mwh] ->
      vars_ok s (evars (sum_attr attr row))) as BV'.
    { intros attr I. rewrite vars_sum_attr. intros x Ix. specialize (BV x Ix). unfold bal_vars in BV. vok_in BV.
      simpl in I. repeat (destruct I as [<-|I]; [tauto|]). destruct I. }
    rewrite !all_ok_cons, all_ok_nil, !ceq_ok, !cle_ok. ev_goal. repeat first [rewrite vars_ok_app | rewrite vars_ok_scaled | rewrite vars_ok_1 | rewrite vars_ok_nil].
    assert (forall attr sp, In (attr, sp) attr_spec -> eval s (sum_attr attr row) == total (sp d t) assets) as SU' by (intros; rewrite eval_sum_attr; auto). clear SU. rename SU' into SU.
    rewrite (SU electric_generation_mwh elec_gen) by (simpl; tauto). rewrite (SU electric_load_mwh elec_load) by (simpl; tauto).
    rewrite (SU electric_charge_mwh charge) by (simpl; tauto). rewrite (SU electric_discharge_mwh discharge) by (simpl; tauto).
    rewrite (SU high_temperature_generation_mwh ht_gen) by (simpl; tauto). rewrite (SU high_temperature_load_mwh ht_load) by (simpl; tauto).
    rewrite (SU low_temperature_generation_mwh lt_gen) by (simpl; tauto). rewrite (SU low_temperature_load_mwh lt_load) by (simpl; tauto).
    rewrite (cont_var_ok _ _ _ _ S1), (cont_var_ok _ _ _ _ S2), (binary_var_ok _ _ B1), (binary_var_ok _ _ B2), E1, E2, E3, E4, L1, L2, !mw_energy.
    unfold electricity_balanced, high_temperature_balanced, low_temperature_balanced in *.
    unfold bit in *. splits; auto; try (apply BV'; simpl; tauto); try tauto; try lra.
    + destruct W1 as [Z|Z]; [rewrite (W2 Z)|]; rewrite Z; lra.
    + destruct W3 as [Z|Z]; [rewrite (W4 Z)|]; rewrite Z; lra.
  - intros v I. unfold cs_vars. cbn [flat_map]. rewrite in_app_iff. left. cbn [c_expr ceq]. rewrite !evars_esub, !evars_eadd, !evars_esub, !evars_eadd, !evars_esub, !evars_evar, !in_app_iff. cbn [In] in *. tauto.
  - intros x v Ix Iv. unfold cs_vars. cbn [flat_map c_expr ceq cle]. rewrite !evars_esub, !evars_eadd, !evars_esub, !evars_eadd, !evars_esub.
    unfold bal_vars in Iv. rewrite !in_app_iff in Iv. rewrite !in_app_iff.
    pose proof (fun attr => in_sum_attr v attr row x Ix) as Q. repeat (destruct Iv as [Iv|Iv]; [apply Q in Iv; tauto|]). apply Q in Iv. tauto.
  - intros d w s (E1 & E2) (F1 & F2) H. unfold vset in *.
    rewrite !all_ok_cons, !ceq_ok, !cle_ok in H. destruct H as (_ & (H2 & V2) & (H3 & V3) & (H4 & V4) & _).
    ev_in H2. ev_in H3. ev_in H4. ev_in V2. ev_in V3. ev_in V4.
    vok_in V2. vok_in V3. vok_in V4. destruct V2 as ((V2 & _) & _). destruct V3 as ((V3 & _) & _). destruct V4 as ((V4 & V5) & _).
    rewrite (cont_var_ok _ _ _ _ S1) in V2. rewrite (cont_var_ok _ _ _ _ S2) in V3. rewrite (binary_var_ok _ _ B1) in V4. rewrite (binary_var_ok _ _ B2) in V5.
    rewrite E1, E2 in *. unfold site_switched, switch_for. rewrite <- F1, <- F2. splits; try apply ind_bit.
    + intros Z. apply ind_off in Z. rewrite Z in *. lra.
    + intros Z. apply ind_off in Z. rewrite Z in *. lra.
    + rewrite (bit_ind _ V4), (bit_ind _ V5). lra.
  - intros eps d s EP (E1 & E2) SU H. unfold vset in *.
    rewrite !near_cons, !ceq_near, !cle_near in H. destruct H as ((H1 & V1) & (H2 & V2) & (H3 & V3) & (H4 & V4) & (H5 & _) & (H6 & _) & _).
    unfold within in H1, H2, H3, H4, H5, H6, V2, V3, V4. ev_in H1. ev_in H2. ev_in H3. ev_in H4. ev_in H5. ev_in H6. ev_in V2. ev_in V3. ev_in V4.
    assert (forall attr sp, In (attr, sp) attr_spec -> eval s (sum_attr attr row) == total (sp d t) assets) as SU' by (intros; rewrite eval_sum_attr; auto). clear SU. rename SU' into SU.
    pose proof (SU electric_generation_mwh elec_gen ltac:(simpl; tauto)) as U1. pose proof (SU electric_load_mwh elec_load ltac:(simpl; tauto)) as U2.
    pose proof (SU electric_charge_mwh charge ltac:(simpl; tauto)) as U3. pose proof (SU electric_discharge_mwh discharge ltac:(simpl; tauto)) as U4.
    pose proof (SU high_temperature_generation_mwh ht_gen ltac:(simpl; tauto)) as U5. pose proof (SU high_temperature_load_mwh ht_load ltac:(simpl; tauto)) as U6.
    pose proof (SU low_temperature_generation_mwh lt_gen ltac:(simpl; tauto)) as U7. pose proof (SU low_temperature_load_mwh lt_load ltac:(simpl; tauto)) as U8.
    vok_in V2. vok_in V3. vok_in V4. destruct V2 as ((V2 & _) & _). destruct V3 as ((V3 & _) & _). destruct V4 as ((V4 & V5) & _).
    rewrite (cont_var_ok _ _ _ _ S1) in V2. rewrite (cont_var_ok _ _ _ _ S2) in V3. rewrite (binary_var_ok _ _ B1) in V4. rewrite (binary_var_ok _ _ B2) in V5.
    rewrite L1 in H2. rewrite L2 in H3. rewrite E1, E2 in *. rewrite !mw_energy in *.
    unfold site_upto, between, within. splits; try tauto; try lra.
    destruct V4 as [Z|Z]; rewrite Z in *; [left; lra|right]. destruct V5 as [Y|Y]; rewrite Y in *; lra.
  - intros eps s H. rewrite !near_cons, !ceq_near in H. destruct H as ((_ & V1) & _ & _ & _ & (_ & V5) & (_ & V6) & _).
    rewrite Forall_forall. intros x I. unfold bal_vars. vok_goal. vok_in V1. vok_in V5. vok_in V6.
    destruct V1 as (((((_ & A1) & A2) & A3) & A4) & _). destruct V5 as (((A5 & A6) & _) & _). destruct V6 as ((((A7 & A8) & _) & _) & _). splits; auto.
Qed.

(** ** One interval of the site *)
Definition row_sem (c : site_cfg) (assets : list asset) (fl : flags) (t : nat) (prev : option (list oneint)) (row : list oneint) (cs : list constr) : Prop :=
  Forall asset_fine assets /\
  (forall d s, Forall (oi_val d t s) row -> match prev with Some p => Forall (oi_val d (pred t) s) p | None => True end ->
     Forall chp_fine assets -> all_ok s cs ->
     site_at c assets d t /\ forall a, In a assets -> asset_at a (sc_freq c) fl d t /\ (prev <> None -> asset_link a d (pred t))) /\
  (forall (d : setting) s, Forall (oi_set d t s) row -> match prev with Some p => Forall (oi_set d (pred t) s) p | None => True end ->
     Forall (asset_sane (sc_freq c)) assets -> site_at c assets d t ->
     (forall a, In a assets -> asset_at a (sc_freq c) fl d t /\ (prev <> None -> asset_at a (sc_freq c) fl d (pred t) /\ asset_link a d (pred t))) ->
     site_switched d (st_w d) t -> (forall a, In a assets -> asset_switched a (sc_freq c) fl d (st_w d) t) ->
     all_ok s cs) /\
  (Forall chp_fine assets -> forall x v, In x row -> In v (must_vars x) \/ In v (bal_vars x) -> In v (cs_vars cs)) /\
  (forall d w s, Forall (oi_val d t s) row -> Forall (oi_bin w t s) row -> all_ok s cs ->
     site_switched d w t /\ forall a, In a assets -> asset_switched a (sc_freq c) fl d w t) /\
  (forall eps d s, 0 <= eps < 1 -> Forall (oi_val d t s) row -> match prev with Some p => Forall (oi_val d (pred t) s) p | None => True end ->
     Forall chp_fine assets -> near eps s cs ->
     site_upto eps c assets d t /\ forall a, In a assets -> asset_upto eps a (sc_freq c) fl d t /\ (prev <> None -> link_upto eps a d (pred t))).

Lemma Forall2_in_l {A B} (R : A -> B -> Prop) l l' x : Forall2 R l l' -> In x l -> exists y, In y l' /\ R x y.
Proof. induction 1; intros []; [subst; eexists; split; [now left|auto]|]. destruct IHForall2 as (z & I & J); auto. exists z. split; [now right|auto]. Qed.
Lemma all_ok_concat s css : all_ok s (List.concat css) <-> Forall (all_ok s) css.
Proof.
  induction css; simpl; [rewrite all_ok_nil; split; auto|]. rewrite all_ok_app, IHcss. split; [intros []; constructor; auto|]. intros H; inversion H; auto.
Qed.
Lemma in_cs_concat v cs css : In cs css -> In v (cs_vars cs) -> In v (cs_vars (List.concat css)).
Proof. intros I J. unfold cs_vars in *. apply in_flat_map in J. destruct J as (k & J1 & J2). apply in_flat_map. exists k. split; auto. apply in_concat. eauto. Qed.

Lemma withins c assets fl iv row t l o u o' : incl l assets ->
  (forall a, In a assets -> exists prev xs, prev_rows a t (sc_freq c) fl iv prev /\ owns a t (sc_freq c) fl row xs) ->
  forM_ l (fun a => asset_constrain_within a (iv ++ [row])%list t (sc_freq c) fl) o = Ok (u, o') ->
  exists css, extends o o' (List.concat css) /\
    Forall2 (fun a cs => exists prev xs, prev_rows a t (sc_freq c) fl iv prev /\ owns a t (sc_freq c) fl row xs /\ asset_sem a (sc_freq c) fl t prev xs cs) l css.
Proof.
  revert o. induction l as [|a l IH]; intros o IL HO H; cbn [forM_] in H.
  - apply ret_ok in H. destruct H as [_ <-]. exists []. split; [apply extends_refl|constructor].
  - rewrite bind_ok in H. destruct H as (u1 & o1 & H1 & H). destruct (HO a (IL a (or_introl eq_refl))) as (prev & xs & P & O).
    destruct (asset_within _ _ _ _ _ _ _ _ _ _ _ P O H1) as (cs & X & S).
    destruct (IH o1) as (css & X' & F); auto; [intros b I; apply IL; now right|].
    exists (cs :: css). split; [cbn [List.concat]; eapply extends_trans; eauto|]. constructor; auto. exists prev, xs. auto.
Qed.

Lemma owns_vals assets xss c fl t row d s : Forall2 (fun a xs => owns a t (sc_freq c) fl row xs) assets xss ->
  Forall (oi_val d t s) row -> Forall (Forall (oi_eq d t s)) xss.
Proof.
  intros F V. induction F as [|a xs l l' (Sh & INC & _) F IH]; constructor; auto. eapply val_eq; [exact Sh|]. rewrite Forall_forall in *. auto.
Qed.
Lemma owns_sets assets xss c fl t row (d : setting) s : Forall2 (fun a xs => owns a t (sc_freq c) fl row xs) assets xss ->
  (forall a, In a assets -> asset_fine a /\ asset_sane (sc_freq c) a /\ asset_at a (sc_freq c) fl d t /\ asset_switched a (sc_freq c) fl d (st_w d) t) ->
  Forall (oi_set d t s) row ->
  Forall2 (fun (a : asset) xs => Forall (oi_eq d t s) xs /\ Forall (fun x => vars_ok s (bal_vars x)) xs) assets xss.
Proof.
  intros F K V. induction F as [|a xs l l' (Sh & INC & _) F IH]; constructor.
  - destruct (K a (or_introl eq_refl)) as (K1 & K2 & K3 & K4). eapply set_eq; eauto. rewrite Forall_forall in *. auto.
  - apply IH. intros b I. apply K. now right.
Qed.
Lemma owns_in a t f fl row xs ys x : owns a t f fl row xs -> owns a t f fl row ys -> In x xs -> In x ys.
Proof.
  intros (S1 & I1 & F1) (S2 & I2 & F2) Ix. destruct (shape_name _ _ _ _ _ _ S1 Ix) as [_ N].
  assert (In x (filter (fun y => kind_eqb (kind_of y) (kind_of x)) xs)) as J by (apply filter_In; split; auto; now apply kind_eqb_iff).
  rewrite <- (F1 _ N), (F2 _ N) in J. apply filter_In in J. tauto.
Qed.

(** the row before interval [t] *)
Definition prev_row (iv : interval_vars) : option (list oneint) :=
  match List.length iv with O => None | S j => nth_error iv j end.
Lemma prev_row_app iv0 row0 : prev_row (iv0 ++ [row0])%list = Some row0.
Proof. unfold prev_row. rewrite app_length, Nat.add_1_r, nth_error_app2, Nat.sub_diag by lia. reflexivity. Qed.
Lemma prev_row_cases iv : (iv = [] /\ prev_row iv = None) \/ exists iv0 row0, iv = (iv0 ++ [row0])%list /\ prev_row iv = Some row0.
Proof.
  destruct iv as [|x iv] using rev_ind; [left; auto|right]. exists iv, x. split; auto. apply prev_row_app.
Qed.

Lemma interval_step c assets fl iv t o iv' o' : NoDup (map asset_name assets) -> List.length iv = t ->
  (forall p, prev_row iv = Some p -> row_shape c assets fl (pred t) p) ->
  site_interval c assets fl iv t o = Ok (iv', o') ->
  exists row cs, iv' = (iv ++ [row])%list /\ row_shape c assets fl t row /\
    cons_of o' = (cons_of o ++ cs)%list /\ o_obj o' = o_obj o /\ (o_next o <= o_next o')%nat /\
    (forall v, In v (flat_map oi_vars row) -> (o_next o <= v_id v < o_next o')%nat) /\
    (forall d, reach (o_next o) (o_next o') (fun s => Forall (oi_set d t s) row)) /\
    row_sem c assets fl t (prev_row iv) row cs.
Proof.
  intros ND L HP H. unfold site_interval in H.
  rewrite bind_ok in H. destruct H as (x0 & o1 & H1 & H). rewrite bind_ok in H. destruct H as (xs0 & o2 & H2 & H).
  assert ((s <- site_one_interval c t ;; xs <- forM assets (fun a => asset_one_interval a t (sc_freq c) fl) ;; ret (s :: List.concat xs)%list) o = Ok ((x0 :: List.concat xs0)%list, o2)) as HA.
  { unfold bind. rewrite H1, H2. reflexivity. }
  clear H1 H2. set (row := (x0 :: List.concat xs0)%list) in *.
  assert (forall d, _) as HR by exact (fun d => row_alloc c assets fl t d o row o2 HA).
  destruct (HR (mkSetting (mkDispatch (fun _ => 0) (fun _ => 0) (fun _ _ _ => 0) (fun _ _ _ _ => 0) (fun _ _ _ _ => 0) (fun _ _ _ _ => 0) (fun _ _ _ => 0) (fun _ _ _ => 0) (fun _ _ _ => 0) (fun _ _ _ => 0))
    (mkSwitches (fun _ => 0) (fun _ => 0) (fun _ _ => 0) (fun _ _ => 0) (fun _ _ => 0) (fun _ _ _ _ => 0) (fun _ _ _ _ => 0) (fun _ _ _ => 0))))
    as (L1 & C1 & O1 & SH & V1 & _).
  assert (forall d, reach (o_next o) (o_next o2) (fun s => Forall (oi_set d t s) row)) as R1 by (intros d; destruct (HR d) as (_ & _ & _ & _ & _ & R); exact R).
  clear HR HA. cbv zeta in H. 
  rewrite bind_ok in H. destruct H as (u3 & o3 & H3 & H). rewrite bind_ok in H. destruct H as (u4 & o4 & H4 & H). apply ret_ok in H. destruct H as [<- <-].
  clearbody row. clear x0 xs0. pose proof SH as (r & xss & -> & SR & F). set (row := (OISite r :: List.concat xss)%list) in *.
  pose proof (owns_exists c assets fl t r xss SR F ND) as FO. fold row in FO.
  assert (tio_name r = "site"%string) as Hn by apply SR.
  apply site_emit in H3; [|exact Hn]. fold row in H3. pose proof (site_sem_ok c assets t r row SR) as SS.
  set (cs0 := site_cs _ _ _ _ _ _ _) in *. clearbody cs0.
  assert (forall a, In a assets -> exists prev xs, prev_rows a t (sc_freq c) fl iv prev /\ owns a t (sc_freq c) fl row xs) as HO.
  { intros a Ia. destruct (Forall2_in_l _ _ _ _ FO Ia) as (xs & _ & OX). destruct (prev_row_cases iv) as [(-> & E)|(iv0 & row0 & -> & E)].
    - exists None, xs. split; auto. split; auto.
    - destruct (HP row0 E) as (r0 & xss0 & E0 & SR0 & F0). pose proof (owns_exists _ _ _ _ _ _ SR0 F0 ND) as FO0. rewrite <- E0 in FO0.
      destruct (Forall2_in_l _ _ _ _ FO0 Ia) as (p & _ & OP). exists (Some p), xs. split; auto. split; auto. exists iv0, row0. auto. }
  destruct (withins _ _ _ _ _ _ _ _ _ _ (incl_refl assets) HO H4) as (css & X4 & FS). clear H4 HO.
  assert (forall a, In a assets -> exists cs prev xs, In cs css /\ prev_rows a t (sc_freq c) fl iv prev /\ owns a t (sc_freq c) fl row xs /\ asset_sem a (sc_freq c) fl t prev xs cs) as HS.
  { intros a Ia. destruct (Forall2_in_l _ _ _ _ FS Ia) as (cs & I & prev & xs & A1 & A2 & A3). exists cs, prev, xs. auto. }
  assert (Forall asset_fine assets) as FN. { rewrite Forall_forall. intros a Ia. destruct (HS a Ia) as (cs & prev & xs & _ & _ & _ & A & _). exact A. }
  assert (forall a p, In a assets -> prev_rows a t (sc_freq c) fl iv (Some p) -> exists row0, prev_row iv = Some row0 /\ incl p row0) as PI.
  { intros a p _ (_ & iv0 & row0 & -> & _ & INC & _). exists row0. split; [apply prev_row_app|exact INC]. }
  assert (forall a prev, prev_rows a t (sc_freq c) fl iv prev -> prev_row iv <> None -> prev <> None) as PN.
  { intros a prev (_ & Hp) N. destruct prev; [discriminate|]. subst iv. exfalso. apply N. reflexivity. }
  assert (forall (P : oneint -> Prop) xs, Forall P row -> incl xs row -> Forall P xs) as FI by (intros P xs A B; rewrite Forall_forall in *; auto).
  pose proof (extends_trans _ _ _ _ _ H3 X4) as (N5 & O5 & C5).
  exists row, (cs0 ++ List.concat css)%list. splits; auto.
  - rewrite C5. unfold cons_of. now rewrite C1.
  - now rewrite O5.
  - lia.
  - intros v I. rewrite N5. now apply V1.
  - intros d. rewrite N5. apply R1.
  - unfold row_sem. splits; auto.
    + intros d s V P CF OK. rewrite all_ok_app, all_ok_concat in OK. destruct OK as [K1 K2]. destruct SS as (SS1 & SS2 & _).
      rewrite Forall_forall in K2. pose proof (SS2 s K1) as BV. rewrite Forall_forall in CF. split.
      * apply (SS1 d s); auto; [now apply (Forall_inv (l := List.concat xss))|]. intros attr sp I. eapply row_sum; eauto.
        eapply owns_vals; eauto.
      * intros a Ia. destruct (HS a Ia) as (cs & prev & xs & I & A1 & A2 & _ & A3 & _). destruct A2 as (_ & INC & _).
        assert (match prev with Some p => Forall (oi_val d (Init.Nat.pred t) s) p | None => True end) as PP.
        { destruct prev as [p|]; [|exact Logic.I]. destruct (PI a p Ia A1) as (row0 & E0 & INC0). rewrite E0 in P. rewrite Forall_forall in *. auto. }
        destruct (A3 d s (FI _ _ V INC) PP (FI _ _ BV INC) (CF a Ia) (K2 cs I)) as [B1 B2].
        split; auto. intros N. apply B2. eapply PN; eauto.
    + intros d s V P SN SA AA SW1 SW2. rewrite all_ok_app, all_ok_concat. destruct SS as (_ & _ & SS3 & _). rewrite Forall_forall in SN.
      assert (Forall2 (fun a xs => Forall (oi_eq d t s) xs /\ Forall (fun x => vars_ok s (bal_vars x)) xs) assets xss) as FE.
      { eapply owns_sets; eauto. intros a Ia. rewrite Forall_forall in FN. destruct (AA a Ia). auto. }
      split.
      * apply (SS3 d s); auto; [now apply (Forall_inv (l := List.concat xss))| |].
        -- intros attr sp I. eapply row_sum; eauto. clear -FE. induction FE as [|a xs l l' [A B] F IH]; constructor; auto.
        -- constructor; [unfold bal_vars; constructor|]. apply Forall_concat. clear -FE. induction FE as [|a xs l l' [A B] F IH]; constructor; auto.
      * rewrite Forall_forall. intros cs I.
        assert (exists a, In a assets /\ exists prev xs, prev_rows a t (sc_freq c) fl iv prev /\ owns a t (sc_freq c) fl row xs /\ asset_sem a (sc_freq c) fl t prev xs cs) as (a & Ia & prev & xs & A1 & A2 & A3).
        { clear -FS I. induction FS as [|a cs' l l' Q F IH]; [destruct I|]. destruct I as [->|I]; [exists a; split; [now left|exact Q]|]. destruct (IH I) as (b & J & K). exists b. split; [now right|exact K]. }
        destruct A3 as (_ & _ & A3 & _). destruct A2 as (_ & INC & _). destruct (AA a Ia) as [B1 B2]. apply (A3 d s (FI _ _ V INC)); auto.
        -- destruct prev as [p|]; [|exact Logic.I]. destruct (PI a p Ia A1) as (row0 & E0 & INC0). rewrite E0 in P. rewrite Forall_forall in *. auto.
        -- intros N. apply B2. destruct prev as [p|]; [|congruence]. destruct (PI a p Ia A1) as (row0 & E0 & _). congruence.
    + intros CF x v Ix Iv. rewrite cs_vars_app, in_app_iff. destruct SS as (_ & _ & _ & SS4 & SS5 & _). destruct Iv as [Iv|Iv]; [|left; eauto].
      destruct Ix as [<-|Ix]; [left; apply SS4; exact Iv|].
      apply in_concat in Ix. destruct Ix as (xs & Ixs & Ix).
      assert (exists a, In a assets /\ owns a t (sc_freq c) fl row xs) as (a & Ia & OX).
      { clear -FO Ixs. revert FO. generalize row. intros rw FO. induction FO as [|a ys l l' Q F IH]; [destruct Ixs|]. destruct Ixs as [->|J]; [exists a; split; [now left|exact Q]|]. destruct (IH J) as (b & K1 & K2). exists b. split; [now right|exact K2]. }
      destruct (HS a Ia) as (cs & prev & ys & Ics & _ & OY & _ & _ & _ & AS & _).
      rewrite Forall_forall in CF. destruct (AS (CF a Ia) x v (owns_in _ _ _ _ _ _ _ _ OX OY Ix) Iv) as [K|K]; [right; eapply in_cs_concat; eauto|left].
      eapply SS5; eauto. right. apply in_concat. eauto.
    + intros d w s V B OK. rewrite all_ok_app, all_ok_concat in OK. destruct OK as [K1 K2]. rewrite Forall_forall in K2. destruct SS as (_ & _ & _ & _ & _ & SS6 & _). split.
      * apply (SS6 d w s); auto; now apply (Forall_inv (l := List.concat xss)).
      * intros a Ia. destruct (HS a Ia) as (cs & prev & xs & I & _ & (_ & INC & _) & (_ & _ & _ & _ & A5 & _)). apply (A5 d w s (FI _ _ V INC) (FI _ _ B INC) (K2 cs I)).
    + intros eps d s EP V P CF OK. rewrite near_app, near_concat in OK. destruct OK as [K1 K2]. destruct SS as (_ & _ & _ & _ & _ & _ & SS7 & SS8).
      rewrite Forall_forall in K2. pose proof (SS8 eps s K1) as BV. rewrite Forall_forall in CF. split.
      * apply (SS7 eps d s); auto; [now apply (Forall_inv (l := List.concat xss))|]. intros attr sp I. eapply row_sum; eauto.
        eapply owns_vals; eauto.
      * intros a Ia. destruct (HS a Ia) as (cs & prev & xs & I & A1 & A2 & A3). destruct A3 as (_ & _ & _ & _ & _ & A3). destruct A2 as (_ & INC & _).
        assert (match prev with Some p => Forall (oi_val d (Init.Nat.pred t) s) p | None => True end) as PP.
        { destruct prev as [p|]; [|exact Logic.I]. destruct (PI a p Ia A1) as (row0 & E0 & INC0). rewrite E0 in P. rewrite Forall_forall in *. auto. }
        destruct (A3 eps d s EP (FI _ _ V INC) PP (FI _ _ BV INC) (CF a Ia) (K2 cs I)) as [B1 B2].
        split; auto. intros N. apply B2. eapply PN; eauto.
Qed.
