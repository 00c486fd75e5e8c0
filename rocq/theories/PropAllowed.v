(** * PropAllowed: nothing but the stated rules is forbidden (C10, C15, C23 - C26, C28) *)
From Verif Require Import Base Pulp Params Optimizer Types Assets EVs Site Constraints Objectives Extract Pipeline Emit Prim Spec SpecReport SpecRun SpecPad SemSite Rows RunFacts Builds Complete Bounded Pad PropSite.
Open Scope Q_scope.
Open Scope string_scope.

(** Any schedule of the other assets and of the grid exchange, each obeying its own rules, is allowed at a site with a
    spill and a valve: assets never restrict each other except through the balances. *)
Theorem C28_every_schedule_allowed : forall base c assets name fl sp va d0, is_named name -> site_ready c assets ->
  Forall chp_fine assets -> Forall (asset_sane (sc_freq c)) assets -> In (ASpill sp) assets -> In (AValve va) assets ->
  scheduled c assets fl sp va d0 ->
  exists d, allowed base c assets [] (ObjName name) fl d /\ same_but [sp; va] d d0.
Proof.
  intros base c assets name fl sp va d0 NM RD CF SN I1 I2 SC. pose proof RD as (Hn & _ & ND & _).
  destruct (pad_physical c assets fl sp va d0 ND I1 I2 SC Hn) as [P S]. exists (pad c assets sp va d0). split; auto.
  apply allowed_iff_physical; auto.
Qed.

(** the site of one asset with a spill and a valve *)
Definition with_spill_valve (l : list asset) (sp va : string) : list asset := (l ++ [ASpill sp; AValve va])%list.
Definition no_exchange (d : dispatch) : Prop := forall t, d_import d t = 0 /\ d_export d t = 0.
Definition plain_dispatch (imp exp : nat -> Q) (f : string -> qty -> nat -> Q) : dispatch :=
  mkDispatch imp exp f (fun _ _ _ _ => 0) (fun _ _ _ _ => 0) (fun _ _ _ _ => 0) (fun _ _ _ => 0) (fun _ _ _ => 0) (fun _ _ _ => 0) (fun _ _ _ => 0).
Definition limits_ok (c : site_cfg) : Prop := 0 <= energy (sc_freq c) (sc_import_limit_mw c) /\ 0 <= energy (sc_freq c) (sc_export_limit_mw c).
Lemma one_asset base c name fl a sp va imp exp f : is_named name -> (0 < n_intervals c)%nat -> data_ready (sc_idata c) ->
  NoDup [asset_name a; sp; va] -> asset_ready (n_intervals c) a -> chp_fine a -> asset_sane (sc_freq c) a ->
  (forall t, (t < n_intervals c)%nat -> grid_limits c (plain_dispatch imp exp f) t) ->
  asset_physical a (sc_freq c) fl (n_intervals c) (plain_dispatch imp exp f) ->
  exists d, allowed base c (with_spill_valve [a] sp va) [] (ObjName name) fl d /\ (forall t, d_import d t = imp t) /\ (forall t, d_export d t = exp t) /\
    (forall q t, d_qty d (asset_name a) q t = f (asset_name a) q t).
Proof.
  intros NM Hn DR ND AR CF SN G P. destruct (C28_every_schedule_allowed base c (with_spill_valve [a] sp va) name fl sp va (plain_dispatch imp exp f)) as (d & A & S); auto.
  - unfold site_ready. splits; auto. repeat constructor; auto.
  - repeat constructor; auto.
  - repeat constructor; auto.
  - cbn. tauto.
  - cbn. tauto.
  - split; auto. intros b Ib N1 N2. cbn in Ib. destruct Ib as [<-|[<-|[<-|[]]]]; auto; contradiction.
  - exists d. destruct S as (S1 & S2 & S3 & _). splits; auto. intros q t. rewrite S3; auto. cbn [In]. inversion ND as [|? ? N _]; subst. cbn [In] in N. tauto.
Qed.
Lemma empty_grid c f t : limits_ok c -> grid_limits c (plain_dispatch (fun _ => 0) (fun _ => 0) f) t.
Proof. intros [A B]. unfold grid_limits, between. cbn. splits; auto; try lra; left; reflexivity. Qed.

(** ** C10: every import / export pair within the limits, one of them zero, is allowed *)
Theorem C10_any_pair_allowed : forall base c name fl sp va (x y : nat -> Q), is_named name -> (0 < n_intervals c)%nat -> data_ready (sc_idata c) -> sp <> va ->
  (forall t, (t < n_intervals c)%nat -> between 0 (x t) (energy (sc_freq c) (sc_import_limit_mw c)) /\
     between 0 (y t) (energy (sc_freq c) (sc_export_limit_mw c)) /\ (x t == 0 \/ y t == 0)) ->
  exists d, allowed base c [ASpill sp; AValve va] [] (ObjName name) fl d /\ forall t, d_import d t = x t /\ d_export d t = y t.
Proof.
  intros base c name fl sp va x y NM Hn DR N G.
  destruct (C28_every_schedule_allowed base c [ASpill sp; AValve va] name fl sp va (plain_dispatch x y (fun _ _ _ => 0))) as (d & A & S1 & S2 & _); auto.
  - unfold site_ready. splits; auto; repeat constructor; cbn; intuition.
  - repeat constructor.
  - repeat constructor.
  - cbn. tauto.
  - cbn. tauto.
  - split; [exact G|]. intros b Ib N1 N2. cbn in Ib. destruct Ib as [<-|[<-|[]]]; contradiction.
  - exists d. splits; auto. 
Qed.

(** ** C15: every battery schedule within the power limits, never both ways, inside the capacity and ending at the final
    charge is allowed *)
Definition level (b : battery_cfg) (ch dis : nat -> Q) (t : nat) : Q :=
  b_initial_charge_mwh b + Qsum (map (fun u => ch u * b_efficiency_pct b - dis u) (seq 0 t)).
Definition battery_schedule (b : battery_cfg) (f : freq) (n : nat) (ch dis : nat -> Q) : Prop :=
  (forall t, (t < n)%nat -> between 0 (ch t) (energy f (b_charge_power_mw b)) /\ between 0 (dis t) (energy f (b_discharge_power_mw b)) /\
     ch t <= b_capacity_mwh b /\ dis t <= b_capacity_mwh b /\ (ch t == 0 \/ dis t == 0)) /\
  (forall t, (t <= n)%nat -> between 0 (level b ch dis t) (b_capacity_mwh b)) /\
  level b ch dis n == b_final_charge_mwh b.
Lemma level_S b ch dis t : level b ch dis (S t) == level b ch dis t + ch t * b_efficiency_pct b - dis t.
Proof. unfold level. rewrite seq_S, map_app, Qsum_app. cbn [map Qsum fold_right Nat.add]. ring. Qed.
Theorem C15_any_schedule_allowed : forall base c name fl b sp va ch dis, is_named name -> (0 < n_intervals c)%nat -> data_ready (sc_idata c) -> limits_ok c ->
  NoDup [b_name b; sp; va] -> b_efficiency_pct b <= 1 -> battery_schedule b (sc_freq c) (n_intervals c) ch dis ->
  exists d, allowed base c [ABattery b; ASpill sp; AValve va] [] (ObjName name) fl d /\
    forall t, d_qty d (b_name b) Charge t = ch t /\ d_qty d (b_name b) Discharge t = dis t.
Proof.
  intros base c name fl b sp va ch dis NM Hn DR LM ND EF (B1 & B2 & B3).
  set (f := fun (nm : string) q t => match q with Charge => ch t | Discharge => dis t | Loss => ch t * (1 - b_efficiency_pct b) | Soc0 => level b ch dis t | Soc1 => level b ch dis (S t) | _ => 0 end).
  destruct (one_asset base c name fl (ABattery b) sp va (fun _ => 0) (fun _ => 0) f) as (d & A & _ & _ & E); cbn; auto.
  - intros. now apply empty_grid.
  - unfold battery_physical. cbn [plain_dispatch d_qty f]. splits.
    + intros t Ht. destruct (B1 t Ht) as (C1 & C2 & C3 & C4 & C5). assert (0 <= ch t * (1 - b_efficiency_pct b)) by (apply Qmult_le_0_compat; [apply C1|lra]).
      splits; auto; try reflexivity; try (apply B2; lia). rewrite level_S. ring.
    + intros. reflexivity.
    + unfold level. cbn. ring.
    + replace (S (n_intervals c - 1)) with (n_intervals c) by lia. exact B3.
  - exists d. split; [exact A|]. intros t. split; apply E.
Qed.

(** ** C23: every CHP operating point is allowed *)
Theorem C23_any_point_allowed : forall base c name fl k sp va (e : nat -> Q), is_named name -> (0 < n_intervals c)%nat -> data_ready (sc_idata c) -> limits_ok c ->
  NoDup [ch_name k; sp; va] -> 0 < ch_electric_efficiency_pct k -> 0 <= ch_ht_efficiency_pct k -> 0 <= ch_lt_efficiency_pct k ->
  0 <= energy (sc_freq c) (ch_max_mw k) ->
  (forall t, (t < n_intervals c)%nat -> e t == 0 \/ (0 <= e t /\ between (energy (sc_freq c) (ch_min_mw k)) (e t) (energy (sc_freq c) (ch_max_mw k)))) ->
  exists d, allowed base c [ACHP k; ASpill sp; AValve va] [] (ObjName name) fl d /\
    forall t, d_qty d (ch_name k) ElecGen t = e t /\ d_qty d (ch_name k) Gas t = e t / ch_electric_efficiency_pct k.
Proof.
  intros base c name fl k sp va e NM Hn DR LM ND EF HT LT MX PT.
  set (g := fun t => e t / ch_electric_efficiency_pct k).
  set (f := fun (nm : string) q t => match q with ElecGen => e t | Gas => g t | HtGen => g t * ch_ht_efficiency_pct k | LtGen => g t * ch_lt_efficiency_pct k | _ => 0 end).
  destruct (one_asset base c name fl (ACHP k) sp va (fun _ => 0) (fun _ => 0) f) as (d & A & _ & _ & E); cbn; auto.
  - intros. now apply empty_grid.
  - unfold chp_physical. cbn [plain_dispatch d_qty f]. intros t Ht.
    assert (0 <= e t) as E0 by (destruct (PT t Ht) as [X|[X _]]; lra).
    assert (0 <= g t) as G0. { unfold g, Qdiv. apply Qmult_le_0_compat; auto. apply Qlt_le_weak, Qinv_lt_0_compat, EF. }
    assert (e t <= energy (sc_freq c) (ch_max_mw k)) by (destruct (PT t Ht) as [X|[_ [_ X]]]; lra).
    splits; try reflexivity; try assumption; try (apply Qmult_le_0_compat; assumption); [split; assumption|]. destruct (PT t Ht) as [X|[_ [X _]]]; auto.
  - exists d. split; [exact A|]. intros t. split; apply E.
Qed.
(** with electric efficiency 0 generation and gas are independent of each other *)
Theorem C23_zero_efficiency_untied : forall base c name fl k sp va (e g : nat -> Q), is_named name -> (0 < n_intervals c)%nat -> data_ready (sc_idata c) -> limits_ok c ->
  NoDup [ch_name k; sp; va] -> ch_electric_efficiency_pct k == 0 -> 0 < ch_ht_efficiency_pct k -> 0 <= ch_lt_efficiency_pct k ->
  (forall t, (t < n_intervals c)%nat -> 0 <= e t /\ between (energy (sc_freq c) (ch_min_mw k)) (e t) (energy (sc_freq c) (ch_max_mw k)) /\ 0 <= g t) ->
  exists d, allowed base c [ACHP k; ASpill sp; AValve va] [] (ObjName name) fl d /\
    forall t, d_qty d (ch_name k) ElecGen t = e t /\ d_qty d (ch_name k) Gas t = g t.
Proof.
  intros base c name fl k sp va e g NM Hn DR LM ND EF HT LT PT.
  set (f := fun (nm : string) q t => match q with ElecGen => e t | Gas => g t | HtGen => g t * ch_ht_efficiency_pct k | LtGen => g t * ch_lt_efficiency_pct k | _ => 0 end).
  destruct (one_asset base c name fl (ACHP k) sp va (fun _ => 0) (fun _ => 0) f) as (d & A & _ & _ & E); cbn; auto.
  - right. left. lra.
  - intros. now apply empty_grid.
  - unfold chp_physical. cbn [plain_dispatch d_qty f]. intros t Ht. destruct (PT t Ht) as (E0 & [E1 E2] & G0).
    splits; try reflexivity; try assumption; try (apply Qmult_le_0_compat; auto; lra); [split; assumption|auto|]. intros X. lra.
  - exists d. split; [exact A|]. intros t. split; apply E.
Qed.

(** ** C24, C25, C26 *)
Theorem C24_any_heat_allowed : forall base c name fl b sp va (h : nat -> Q), is_named name -> (0 < n_intervals c)%nat -> data_ready (sc_idata c) -> limits_ok c ->
  NoDup [bo_name b; sp; va] -> 0 < bo_efficiency_pct b ->
  (forall t, (t < n_intervals c)%nat -> 0 <= h t /\ between (energy (sc_freq c) (bo_min_mw b)) (h t) (energy (sc_freq c) (bo_max_mw b))) ->
  exists d, allowed base c [ABoiler b; ASpill sp; AValve va] [] (ObjName name) fl d /\
    forall t, d_qty d (bo_name b) HtGen t = h t /\ d_qty d (bo_name b) Gas t = h t / bo_efficiency_pct b.
Proof.
  intros base c name fl b sp va h NM Hn DR LM ND EF PT.
  set (f := fun (nm : string) q t => match q with HtGen => h t | Gas => h t / bo_efficiency_pct b | _ => 0 end).
  destruct (one_asset base c name fl (ABoiler b) sp va (fun _ => 0) (fun _ => 0) f) as (d & A & _ & _ & E); cbn; auto.
  - lra.
  - intros. now apply empty_grid.
  - unfold boiler_physical. cbn [plain_dispatch d_qty f]. intros t Ht. destruct (PT t Ht) as (H0 & H1). splits; auto; [reflexivity|].
    apply Qmult_le_0_compat; auto. apply Qlt_le_weak, Qinv_lt_0_compat, EF.
  - exists d. split; [exact A|]. intros t. split; apply E.
Qed.
Theorem C25_any_point_allowed : forall base c name fl h sp va (e : nat -> Q), is_named name -> (0 < n_intervals c)%nat -> data_ready (sc_idata c) -> limits_ok c ->
  NoDup [hp_name h; sp; va] -> 1 <= hp_cop h ->
  (forall t, (t < n_intervals c)%nat -> between 0 (e t) (energy (sc_freq c) (hp_power_mw h))) ->
  exists d, allowed base c [AHeatPump h; ASpill sp; AValve va] [] (ObjName name) fl d /\
    forall t, d_qty d (hp_name h) ElecLoad t = e t /\ d_qty d (hp_name h) HtGen t = e t * hp_cop h /\ d_qty d (hp_name h) LtLoad t = e t * (hp_cop h - 1).
Proof.
  intros base c name fl h sp va e NM Hn DR LM ND CP PT.
  set (f := fun (nm : string) q t => match q with ElecLoad => e t | HtGen => e t * hp_cop h | LtLoad => e t * (hp_cop h - 1) | _ => 0 end).
  destruct (one_asset base c name fl (AHeatPump h) sp va (fun _ => 0) (fun _ => 0) f) as (d & A & _ & _ & E); cbn; auto.
  - intros. now apply empty_grid.
  - unfold hp_physical. cbn [plain_dispatch d_qty f]. intros t Ht. destruct (PT t Ht) as (H0 & H1). splits; auto; try reflexivity; try (apply Qmult_le_0_compat; auto; lra); try (split; assumption); ring.
  - exists d. split; [exact A|]. intros t. splits; apply E.
Qed.
Theorem C26_any_generation_allowed : forall base c name fl g sp va (e : nat -> Q), is_named name -> (0 < n_intervals c)%nat -> data_ready (sc_idata c) -> limits_ok c ->
  NoDup [rg_name g; sp; va] -> rg_is_array g = true -> (n_intervals c <= List.length (rg_available_mwh g))%nat ->
  (forall t, (t < n_intervals c)%nat -> between (nth t (rg_available_mwh g) 0 * rg_lower_pct g) (e t) (nth t (rg_available_mwh g) 0)) ->
  exists d, allowed base c [ARenewable g; ASpill sp; AValve va] [] (ObjName name) fl d /\ forall t, d_qty d (rg_name g) ElecGen t = e t.
Proof.
  intros base c name fl g sp va e NM Hn DR LM ND AR LN PT.
  destruct (one_asset base c name fl (ARenewable g) sp va (fun _ => 0) (fun _ => 0) (fun _ _ t => e t)) as (d & A & _ & _ & E); cbn; auto.
  - intros. now apply empty_grid.
  - exists d. split; [exact A|]. intros t. apply E.
Qed.

(** ** C28 *)
(** What a spill and a valve can do, exactly: at the site of these two, a dispatch is allowed iff the grid limits and the
    balances hold, the four spill quantities are not negative and the valve moves a non negative amount. *)
Theorem C28_spill_exactly : forall base c name fl sp va d, is_named name -> (0 < n_intervals c)%nat -> data_ready (sc_idata c) -> sp <> va ->
  let q := d_qty d in
  (allowed base c [ASpill sp; AValve va] [] (ObjName name) fl d <->
   forall t, (t < n_intervals c)%nat -> grid_limits c d t /\
     (0 <= q sp ElecGen t /\ 0 <= q sp ElecLoad t /\ 0 <= q sp HtGen t /\ 0 <= q sp LtLoad t) /\
     (q va HtLoad t == q va LtGen t /\ 0 <= q va LtGen t) /\
     d_import d t + q sp ElecGen t == d_export d t + data (id_electric_load_mwh (sc_idata c)) t + q sp ElecLoad t /\
     q sp HtGen t == q va HtLoad t + data (id_high_temperature_load_mwh (sc_idata c)) t /\
     q va LtGen t + data (id_low_temperature_generation_mwh (sc_idata c)) t == q sp LtLoad t + data (id_low_temperature_load_mwh (sc_idata c)) t).
Proof.
  intros base c name fl sp va d NM Hn DR N q. subst q. rewrite allowed_iff_physical; auto; [|unfold site_ready; splits; auto; repeat constructor; cbn; intuition|repeat constructor|repeat constructor].
  unfold physical, electricity_balanced, high_temperature_balanced, low_temperature_balanced, total. cbn [map elec_gen elec_load charge discharge ht_gen ht_load lt_gen lt_load asset_name Qsum fold_right].
  split.
  - intros [P1 P2] t Ht. destruct (P1 t Ht) as (G & B1 & B2 & B3). pose proof (P2 (ASpill sp) (or_introl eq_refl) t Ht) as (S1 & S2 & S3 & S4).
    destruct (P2 (AValve va) (or_intror (or_introl eq_refl)) t Ht) as (V1 & V2). splits; auto; lra.
  - intros H. split.
    + intros t Ht. destruct (H t Ht) as (G & _ & _ & B1 & B2 & B3). splits; auto; lra.
    + intros a [<-|[<-|[]]] t Ht; destruct (H t Ht) as (_ & A & B & _); auto.
Qed.
(** so any loads, whatever their sign, can be met *)
Theorem C28_always_feasible : forall base c name fl sp va, is_named name -> (0 < n_intervals c)%nat -> data_ready (sc_idata c) -> limits_ok c -> sp <> va ->
  exists d, allowed base c [ASpill sp; AValve va] [] (ObjName name) fl d /\ no_exchange d.
Proof.
  intros base c name fl sp va NM Hn DR LM N. destruct (C10_any_pair_allowed base c name fl sp va (fun _ => 0) (fun _ => 0) NM Hn DR N) as (d & A & E).
  - intros t Ht. destruct LM. unfold between. splits; try lra; left; reflexivity.
  - exists d. split; [exact A|]. intros t. apply E.
Qed.
(** ... but without a valve (and without a CHP) a low temperature deficit cannot be covered: the spill only absorbs low temperature heat *)
Definition makes_low_temperature (a : asset) : Prop := match a with ACHP _ | AValve _ => True | _ => False end.
Theorem C28_low_temperature_deficit : forall base c assets cons obj fl d t, Forall chp_fine assets -> (forall a, In a assets -> ~ makes_low_temperature a) ->
  (t < n_intervals c)%nat -> data (id_low_temperature_generation_mwh (sc_idata c)) t < data (id_low_temperature_load_mwh (sc_idata c)) t ->
  ~ allowed base c assets cons obj fl d.
Proof.
  intros base c assets cons obj fl d t CF NL Ht DEF A. apply allowed_physical in A; [|lia|exact CF]. destruct A as [P1 P2]. destruct (P1 t Ht) as (_ & _ & _ & B).
  unfold low_temperature_balanced in B.
  assert (total (lt_gen d t) assets == 0) as Z. { unfold total. apply Qsum_map_zero. intros a Ia. specialize (NL a Ia). destruct a; cbn in *; tauto || reflexivity. }
  assert (0 <= total (lt_load d t) assets) as L. { apply Qsum_nonneg. intros a Ia. specialize (P2 a Ia). destruct a; cbn [lt_load asset_physical asset_name] in *; try lra; destruct (P2 t Ht); tauto. }
  lra.
Qed.
(** ... and without a valve a surplus of high temperature heat (here: from a boiler that cannot go below its minimum) cannot be removed *)
Theorem C28_high_temperature_surplus : forall base c assets cons obj fl d t b, Forall chp_fine assets -> (forall v, ~ In (AValve v) assets) ->
  (forall k, In (ABoiler k) assets -> 0 <= energy (sc_freq c) (bo_min_mw k)) -> In (ABoiler b) assets ->
  (t < n_intervals c)%nat -> data (id_high_temperature_load_mwh (sc_idata c)) t < energy (sc_freq c) (bo_min_mw b) ->
  ~ allowed base c assets cons obj fl d.
Proof.
  intros base c assets cons obj fl d t b CF NV BM Ib Ht SUR A. apply allowed_physical in A; [|lia|exact CF]. destruct A as [P1 P2]. destruct (P1 t Ht) as (_ & _ & B & _).
  unfold high_temperature_balanced in B.
  assert (total (ht_load d t) assets == 0) as Z. { unfold total. apply Qsum_map_zero. intros a Ia. destruct a; cbn; try reflexivity. destruct (NV _ Ia). }
  assert (forall l : list asset, (forall a, In a l -> In a assets) -> 0 <= total (ht_gen d t) l) as NN.
  { intros l H. apply Qsum_nonneg. intros a Ia. apply H in Ia. pose proof (P2 a Ia) as PA. destruct a; cbn [ht_gen asset_physical asset_name] in *; try lra.
    - destruct (PA t Ht) as ([X _] & _). pose proof (BM _ Ia). lra.
    - destruct (PA t Ht); tauto.
    - destruct (PA t Ht); tauto.
    - destruct (PA t Ht); tauto. }
  assert (energy (sc_freq c) (bo_min_mw b) <= total (ht_gen d t) assets) as L.
  { destruct (in_split _ _ Ib) as (l1 & l2 & E). pose proof (NN l1) as N1. pose proof (NN l2) as N2. specialize (P2 (ABoiler b) Ib t Ht). destruct P2 as ([X _] & _).
    assert (total (ht_gen d t) assets == total (ht_gen d t) l1 + (d_qty d (bo_name b) HtGen t + total (ht_gen d t) l2)) as -> by (rewrite E; unfold total; rewrite map_app, Qsum_app; reflexivity).
    rewrite E in N1, N2. assert (0 <= total (ht_gen d t) l1) by (apply N1; intros; apply in_app_iff; now left). assert (0 <= total (ht_gen d t) l2) by (apply N2; intros; apply in_app_iff; right; now right). lra. }
  lra.
Qed.
(** in particular no run of such a site is feasible *)
Theorem C28_deficit_never_feasible : forall slv base c assets cons obj fl r t, (forall a, In a assets -> ~ makes_low_temperature a) ->
  (t < n_intervals c)%nat -> data (id_low_temperature_generation_mwh (sc_idata c)) t < data (id_low_temperature_load_mwh (sc_idata c)) t ->
  ~ feasible_run slv base c assets cons obj fl r.
Proof.
  intros slv base c assets cons obj fl r t NL Ht DEF R. destruct (run_facts _ _ _ _ _ _ _ _ R) as (d & (iv & o & s & B & F & _ & RR) & FA).
  eapply (C28_low_temperature_deficit base c assets cons obj fl d t); eauto; [apply R|]. exists iv, o, s. auto.
Qed.

(** ** samples: the hypotheses are met *)
Definition p_site : site_cfg := mkSiteCfg (mkIdata [10; 20] [0; 0] [1; 1] [5; 5] [1; 1] [2; 1] [3; 0] [0; 0] 2 []) 30%Z 4 2.
Definition p_battery : battery_cfg := mkBatteryCfg "battery" 4 4 6 (1#2) 1 (1#1).
Example C15_schedule_sample : battery_schedule p_battery 30%Z 2 (fun t => match t with 0%nat => 2 | _ => 0 end) (fun t => match t with 0%nat => 0 | _ => 1 end) /\
  data_ready (sc_idata p_site) /\ limits_ok p_site.
Proof.
  split; [|split; [repeat split|split; discriminate]]. unfold battery_schedule. splits; [| |vm_compute; reflexivity].
  - intros [|[|t]] Ht; [| |lia]; unfold between; splits; try (vm_compute; discriminate); (left; reflexivity) || (right; reflexivity).
  - intros [|[|[|t]]] Ht; [| | |lia]; split; vm_compute; discriminate.
Qed.
Example C28_deficit_sample : data (id_low_temperature_generation_mwh (sc_idata p_site)) 0 < data (id_low_temperature_load_mwh (sc_idata p_site)) 0 /\
  (forall a, In a [ASpill "spill"; ABoiler (mkBoilerCfg "boiler" 10 5 (1#2))] -> ~ makes_low_temperature a) /\
  data (id_high_temperature_load_mwh (sc_idata p_site)) 0 < energy (sc_freq p_site) (bo_min_mw (mkBoilerCfg "boiler" 10 5 (1#2))).
Proof. splits; [reflexivity| |reflexivity]. intros a [<-|[<-|[]]] []. Qed.
