(** * PropWithin: solvers that meet the rows of the program only up to a tolerance (C76) *)
From Verif Require Import Base Pulp Params Optimizer Types Assets EVs Site Constraints Objectives Extract Pipeline Emit Prim Spec SpecSwitch SpecReport SpecRun SpecWithin SpecCost SpecNames SpecTotals Layout Rows Sem SemEv SemNear SemSite SemProg SemObj SemCells SemRows SemTable SemResults RunFacts Builds Complete ExtractOk Totals Totals2 Returns RowNames PropResults PropChecks PropObjective PropSite SemWithin Check SampleSite SpecTerms SemTerms PropTerms.
Open Scope Q_scope.
Open Scope string_scope.

(** ** An exact answer is within any tolerance *)
Lemma sense_weaken eps k x : 0 <= eps -> sense_holds k x -> sense_within eps k x.
Proof. intros H. destruct k; cbn [sense_holds sense_within]; intros; lra. Qed.
Lemma feasible_weaken eps s o : 0 <= eps -> feasible s o -> feasible_within eps s o.
Proof. intros H [F1 F2]. split; [|exact F2]. eapply Forall_impl; [|exact F1]. cbv beta. intros nc [A B]. split; [now apply sense_weaken|exact B]. Qed.
Theorem C76_exact_is_tolerant eps slv : 0 <= eps -> honest_solver slv -> tolerant_solver eps slv.
Proof. intros H SND o ST. destruct (SND o ST) as (s & F & V). exists s. split; [now apply feasible_weaken|exact V]. Qed.

(** ** The reported dispatch *)
Theorem C76_dispatch eps slv base c assets cons obj fl r : 0 <= eps < 1 -> tolerant_solver eps slv -> Forall chp_fine assets -> names_ok c assets ->
  optimize slv base c assets cons obj fl = Ok r -> r_feasible r = true ->
  exists d, reports (r_results r) c assets d /\ physical_upto eps c assets fl d.
Proof.
  intros EP SND CF NM H FE. destruct (tolerant_run eps slv base c assets cons obj fl r EP SND CF NM H FE) as (iv & o & s & R).
  exists (d_of s iv). split; apply R.
Qed.
Theorem C76_balances eps slv base c assets cons obj fl r : 0 <= eps < 1 -> tolerant_solver eps slv -> Forall chp_fine assets -> names_ok c assets ->
  optimize slv base c assets cons obj fl = Ok r -> r_feasible r = true ->
  forall t, (t < n_intervals c)%nat ->
  (between 0 (r_import r t) (energy (sc_freq c) (sc_import_limit_mw c)) /\ between 0 (r_export r t) (energy (sc_freq c) (sc_export_limit_mw c)) /\
   (r_import r t <= eps \/ r_export r t <= eps)) /\
  within eps (r_import r t + total (r_elec_gen r t) assets + total (r_discharge r t) assets)
   (r_export r t + data (id_electric_load_mwh (sc_idata c)) t + total (r_elec_load r t) assets + total (r_charge r t) assets) /\
  within eps (total (r_ht_gen r t) assets) (total (r_ht_load r t) assets + data (id_high_temperature_load_mwh (sc_idata c)) t) /\
  within eps (total (r_lt_gen r t) assets + data (id_low_temperature_generation_mwh (sc_idata c)) t)
    (total (r_lt_load r t) assets + data (id_low_temperature_load_mwh (sc_idata c)) t).
Proof.
  intros EP SND CF NM H FE t Ht. destruct (tolerant_run eps slv base c assets cons obj fl r EP SND CF NM H FE) as (iv & o & s & R).
  destruct R as [_ _ _ _ _ _ AF [PS _] RP]. specialize (PS t Ht). split; [|exact (s_balances r c assets _ RP AF eps t Ht PS)].
  pose proof (s_import r c assets _ RP t Ht) as I1. pose proof (s_export r c assets _ RP t Ht) as I2. destruct PS as ((P1 & P2 & P3) & _). unfold between in *. lra.
Qed.

(** ** What a battery holds: the tolerances add up, two per interval *)
Lemma drift (eps : Q) (s0 s1 net : nat -> Q) (start : Q) n : within eps (s0 0%nat) start ->
  (forall t, (t < n)%nat -> within eps (s1 t) (s0 t + net t)) -> (forall t, (S t < n)%nat -> within eps (s0 (S t)) (s1 t)) ->
  forall t, (t < n)%nat -> within (inject_Z (Z.of_nat (2 * S t)) * eps) (s1 t) (start + Qsum (map net (seq 0 (S t)))).
Proof.
  unfold within. intros H0 H1 H2. induction t as [|t IH]; intros Ht.
  - specialize (H1 0%nat Ht). cbn [seq map Qsum fold_right]. change (inject_Z (Z.of_nat (2 * 1))) with 2. lra.
  - specialize (IH ltac:(lia)). specialize (H1 (S t) Ht). specialize (H2 t Ht). rewrite seq_S, map_app, Qsum_app. cbn [map Qsum fold_right plus].
    assert (inject_Z (Z.of_nat (2 * S (S t))) == inject_Z (Z.of_nat (2 * S t)) + 2) as E by (change 2 with (inject_Z 2); rewrite <- inject_Z_plus; replace (Z.of_nat (2 * S t) + 2)%Z with (Z.of_nat (2 * S (S t))) by lia; reflexivity).
    set (k := inject_Z (Z.of_nat (2 * S t))) in *. set (k' := inject_Z (Z.of_nat (2 * S (S t)))) in *.
    assert (k' * eps == k * eps + 2 * eps) as E' by (rewrite E; ring). rewrite E'. generalize dependent (k * eps). intros ke IH. 
    set (sm := Qsum (map net (seq 0 (S t)))) in *. lra.
Qed.
Theorem C76_battery eps slv base c assets cons obj fl r b : 0 <= eps < 1 -> tolerant_solver eps slv -> Forall chp_fine assets -> names_ok c assets ->
  optimize slv base c assets cons obj fl = Ok r -> r_feasible r = true -> In (ABattery b) assets ->
  let net t := rep r (b_name b) "electric_charge_mwh" t - rep r (b_name b) "electric_discharge_mwh" t - rep r (b_name b) "electric_loss_mwh" t in
  forall t, (t < n_intervals c)%nat ->
  between 0 (rep r (b_name b) "electric_final_charge_mwh" t) (b_capacity_mwh b) /\
  within (inject_Z (Z.of_nat (2 * S t)) * eps) (rep r (b_name b) "electric_final_charge_mwh" t) (b_initial_charge_mwh b + Qsum (map net (seq 0 (S t)))) /\
  (S t = n_intervals c -> within eps (rep r (b_name b) "electric_final_charge_mwh" t) (b_final_charge_mwh b)).
Proof.
  intros EP SND CF NM H FE Ib net t Ht. destruct (tolerant_run eps slv base c assets cons obj fl r EP SND CF NM H FE) as (iv & o & s & R).
  destruct R as [_ _ _ _ _ HN AF [_ PA] RP]. destruct (PA _ Ib) as (P1 & P2 & P3). cbn [asset_upto link_upto ends_upto] in *. destruct P3 as [P3 P4].
  set (d := d_of s iv) in *.
  assert (forall t', (t' < n_intervals c)%nat -> net t' == d_qty d (b_name b) Charge t' - d_qty d (b_name b) Discharge t' - d_qty d (b_name b) Loss t') as NE.
  { intros t' Ht'. destruct (s_battery r c assets d RP b t' Ib Ht') as (A1 & A2 & A3 & _). unfold net. lra. }
  destruct (s_battery r c assets d RP b t Ib Ht) as (_ & _ & _ & _ & A5). splits.
  - destruct (P1 t Ht) as (_ & _ & _ & _ & _ & _ & _ & _ & B & _). unfold between in *. lra.
  - assert (Qsum (map net (seq 0 (S t))) == Qsum (map (fun t' => d_qty d (b_name b) Charge t' - d_qty d (b_name b) Discharge t' - d_qty d (b_name b) Loss t') (seq 0 (S t)))) as E.
    { apply Qsum_map_ext. intros t' I. apply in_seq in I. apply NE. lia. }
    assert (within (inject_Z (Z.of_nat (2 * S t)) * eps) (d_qty d (b_name b) Soc1 t) (b_initial_charge_mwh b + Qsum (map (fun t' => d_qty d (b_name b) Charge t' - d_qty d (b_name b) Discharge t' - d_qty d (b_name b) Loss t') (seq 0 (S t))))) as D.
    { apply (drift eps (d_qty d (b_name b) Soc0) _ _ _ (n_intervals c)); auto. intros t' Ht'. destruct (P1 t' Ht') as (_ & _ & _ & _ & _ & _ & _ & _ & _ & B). unfold within in *. lra. }
    unfold within in *. rewrite A5, E. exact D.
  - intros L. replace (n_intervals c - 1)%nat with t in P4 by lia. unfold within in *. lra.
Qed.

(** ** The objective *)
Theorem C76_price eps slv base c assets cons fl r : 0 <= eps < 1 -> tolerant_solver eps slv -> Forall chp_fine assets -> names_ok c assets ->
  optimize slv base c assets cons (ObjName "price") fl = Ok r -> r_feasible r = true ->
  exists z, objective_is fl r z /\ z == reported_cost c assets r.
Proof.
  intros EP SND CF NM H FE. destruct (tolerant_run eps slv base c assets cons _ fl r EP SND CF NM H FE) as (iv & o & s & R).
  destruct R as [B _ _ (z & ST & ZV) _ _ AF _ RP]. exists z. split; auto.
  destruct (program_split _ _ _ _ _ _ _ _ B) as (o1 & o2 & cs & extra & e & _ & _ & P & _).
  rewrite ZV. rewrite (named_objective_value _ _ _ _ _ _ _ _ s (d_of s iv) B); [|apply eq_reads; eapply d_of_eq; eauto].
  symmetry. apply (s_reported_cost_eq r c assets _ RP AF).
Qed.
Theorem C76_carbon eps slv base c assets cons fl r : 0 <= eps < 1 -> tolerant_solver eps slv -> Forall chp_fine assets -> names_ok c assets ->
  optimize slv base c assets cons (ObjName "carbon") fl = Ok r -> r_feasible r = true ->
  exists z, objective_is fl r z /\ z == reported_emissions c assets r.
Proof.
  intros EP SND CF NM H FE. destruct (tolerant_run eps slv base c assets cons _ fl r EP SND CF NM H FE) as (iv & o & s & R).
  destruct R as [B _ _ (z & ST & ZV) _ _ AF _ RP]. exists z. split; auto.
  destruct (program_split _ _ _ _ _ _ _ _ B) as (o1 & o2 & cs & extra & e & _ & _ & P & _).
  rewrite ZV. rewrite (named_objective_value _ _ _ _ _ _ _ _ s (d_of s iv) B); [|apply eq_reads; eapply d_of_eq; eauto].
  symmetry. apply (s_reported_cost_eq r c assets _ RP AF).
Qed.
(** no physically possible dispatch is cheaper than the result by more than the gap of the solver *)
Lemma near_best gap eps slv base c assets name fl r : 0 <= eps < 1 -> tolerant_solver eps slv -> Forall chp_fine assets -> names_ok c assets ->
  optimize slv base c assets [] (ObjName name) fl = Ok r -> r_feasible r = true -> solved_within gap slv base c assets [] (ObjName name) fl -> Forall (asset_sane (sc_freq c)) assets ->
  forall d, physical c assets fl d -> exists d0, reports (r_results r) c assets d0 /\ Forall asset_fine assets /\ named_value name c assets d0 <= named_value name c assets d + gap.
Proof.
  intros EP SND CF NM H FE SW SN d PH. destruct (tolerant_run eps slv base c assets [] _ fl r EP SND CF NM H FE) as (iv & o & s & R).
  destruct R as [B F VS _ ST _ AF _ RP]. exists (d_of s iv). splits; auto.
  destruct (program_split _ _ _ _ _ _ _ _ B) as (o1 & o2 & cs & extra & e & _ & _ & P & _).
  destruct (physical_solution _ _ _ _ _ _ _ _ B CF SN PH) as (s' & F' & R').
  rewrite <- (named_objective_value _ _ _ _ _ _ _ _ s' d B R'). rewrite <- (named_objective_value _ _ _ _ _ _ _ _ s (d_of s iv) B); [|apply eq_reads; eapply d_of_eq; eauto].
  exact (SW _ _ B ST s VS s' F').
Qed.
Theorem C76_price_best gap eps slv base c assets fl r : 0 <= eps < 1 -> tolerant_solver eps slv -> Forall chp_fine assets -> names_ok c assets ->
  optimize slv base c assets [] (ObjName "price") fl = Ok r -> r_feasible r = true -> solved_within gap slv base c assets [] (ObjName "price") fl -> Forall (asset_sane (sc_freq c)) assets ->
  forall d, physical c assets fl d -> reported_cost c assets r <= dispatch_cost c assets d + gap.
Proof.
  intros EP SND CF NM H FE SW SN d PH. destruct (near_best gap eps slv base c assets "price" fl r EP SND CF NM H FE SW SN d PH) as (d0 & RP & AF & L).
  destruct (s_reported_cost_eq r c assets d0 RP AF) as [E _]. rewrite E. exact L.
Qed.
Theorem C76_carbon_best gap eps slv base c assets fl r : 0 <= eps < 1 -> tolerant_solver eps slv -> Forall chp_fine assets -> names_ok c assets ->
  optimize slv base c assets [] (ObjName "carbon") fl = Ok r -> r_feasible r = true -> solved_within gap slv base c assets [] (ObjName "carbon") fl -> Forall (asset_sane (sc_freq c)) assets ->
  forall d, physical c assets fl d -> reported_emissions c assets r <= dispatch_emissions c assets d + gap.
Proof.
  intros EP SND CF NM H FE SW SN d PH. destruct (near_best gap eps slv base c assets "carbon" fl r EP SND CF NM H FE SW SN d PH) as (d0 & RP & AF & L).
  destruct (s_reported_cost_eq r c assets d0 RP AF) as [_ E]. rewrite E. exact L.
Qed.

(** ** Custom constraints *)
(** specification: the constraint holds up to [eps], in every interval or for the totals *)
Definition compares_upto (eps : Q) (s : sense) (l r : Q) : Prop := match s with LE => l <= r + eps | GE => r <= l + eps | EQ => within eps l r end.
Definition satisfied_upto (eps : Q) (q : readings) (c : site_cfg) (assets : list asset) (k : constraint) : Prop :=
  if cn_sum k then compares_upto eps (cn_sense k) (side_sum q c assets (cn_lhs k)) (side_sum q c assets (cn_rhs k))
  else forall t, (t < n_intervals c)%nat -> compares_upto eps (cn_sense k) (side_at q c assets t (cn_lhs k)) (side_at q c assets t (cn_rhs k)).

Lemma sense_compares_upto eps k x y x' y' z : x == x' -> y == y' -> z == x - y -> sense_within eps k z -> compares_upto eps k x' y'.
Proof. destruct k; cbn [sense_within compares_upto]; unfold within; intros; lra. Qed.
Section Custom.
Context (c : site_cfg) (assets : list asset) (fl : flags) (iv : interval_vars) (lo hi : nat) (cs : list constr) (P : program c assets fl iv lo hi cs) (eps : Q).
Lemma custom_near k o u o' : (0 < n_intervals c)%nat -> plain_constraint k -> add_custom_constraint k iv (sc_idata c) o = Ok (u, o') ->
  exists ks, extends o o' ks /\ forall d s, eq_of d s iv -> near eps s ks -> satisfied_upto eps (quantity d) c assets k.
Proof.
  intros Hn PL H. unfold plain_constraint in PL. rewrite Forall_app in PL. destruct PL as [PL PR]. unfold add_custom_constraint in H. rewrite bind_ok in H. destruct H as ((l & g) & o1 & H1 & H). cbn [fst snd] in H.
  unfold satisfied_upto. destruct (cn_sum k) eqn:SU.
  - destruct (loop_sum _ _ _ _ SU _ _ _ _ _ _ H1) as (-> & la & lb & F1 & F2 & -> & ->). cbn [app] in H. rewrite SU in *.
    exists [mkC (esub (esum (List.concat la)) (esum (List.concat lb))) (cn_sense k)]. split; [eapply emits_constrain; exact H|]. intros d s V.
    assert (forall side ls, Forall plain_entry side -> Forall2 (fun t a => add_terms side iv (sc_idata c) t true = Ok a) (seq 0 (id_n (sc_idata c))) ls ->
      eval s (esum (List.concat ls)) == side_sum (quantity d) c assets side) as SD.
    { intros side ls PS F. rewrite <- (entry_in_true c assets d side Hn). apply (horizon_sum (fun t => add_terms side iv (sc_idata c) t true)); [now apply rmap_ok|]. intros t x E. apply (side_eval c assets fl iv lo hi cs P d s t true side x V PS E). }
    pose proof (SD _ _ PL F1) as A1. pose proof (SD _ _ PR F2) as B1.
    intros N. apply near_cons in N. destruct N as [(K & _) _]. cbn [c_expr c_sense] in K. eapply sense_compares_upto; [exact A1|exact B1| |exact K]. apply eval_esub.
  - destruct (loop_each _ _ _ _ SU _ _ _ _ H1) as (ks & EX & F). rewrite SU in *. apply ret_ok in H. destruct H as [_ <-]. exists ks. split; auto. intros d s V OK t Ht.
    unfold near in OK. rewrite Forall_forall in OK.
    destruct (nth_error_lt ks t) as (kk & Ek); [rewrite <- (Forall2_len _ _ _ F), seq_length; exact Ht|].
    assert (nth_error (seq 0 (id_n (sc_idata c))) t = Some t) as Es by (rewrite (nth_error_nth' _ 0%nat), seq_nth by (rewrite ?seq_length; exact Ht); reflexivity).
    destruct (Forall2_nth _ _ _ _ _ _ F Es Ek) as (a & b & Ha & Hb & ->). destruct (OK _ (nth_error_In _ _ Ek)) as (K & _). cbn [c_expr c_sense] in K.
    destruct (side_eval c assets fl iv lo hi cs P d s t false _ a V PL Ha) as [A1 _]. destruct (side_eval c assets fl iv lo hi cs P d s t false _ b V PR Hb) as [B1 _]. rewrite entry_in_false in A1, B1.
    rewrite <- eval_esum in A1, B1. eapply sense_compares_upto; [exact A1|exact B1| |exact K]. apply eval_esub.
Qed.
Lemma custom_one_near cons o o' k : (0 < n_intervals c)%nat -> In k cons -> plain_constraint k -> forM_ cons (fun k => add_custom_constraint k iv (sc_idata c)) o = Ok (tt, o') ->
  forall d s, eq_of d s iv -> near eps s (cons_of o') -> satisfied_upto eps (quantity d) c assets k.
Proof.
  intros Hn I PL H d s V OK. revert o H. induction cons as [|k' cons IH]; intros o H; [destruct I|].
  cbn [forM_] in H. rewrite bind_ok in H. destruct H as ([] & o1 & H1 & H). destruct I as [->|I]; [|eauto].
  destruct (custom_near k _ _ _ Hn PL H1) as (k1 & (_ & _ & E1) & S1).
  assert (grows (forM_ cons (fun k => add_custom_constraint k iv (sc_idata c)))) as G2 by (apply grows_forM_; intros; apply grows_custom). destruct (G2 _ _ _ H) as (_ & c2 & C2).
  rewrite C2, E1, !near_app in OK. apply (S1 d s V). tauto.
Qed.
End Custom.
Lemma s_readings r c assets d : reports (r_results r) c assets d -> Forall asset_fine assets -> same_readings (n_intervals c) assets (reported r) (quantity d).
Proof.
  intros RP AF t attr p Ht I Ip. apply piece_in in Ip. destruct p as [|a|e|e].
  - attrs I; cbn; try reflexivity; [exact (s_import r c assets d RP t Ht)|exact (s_export r c assets d RP t Ht)].
  - destruct Ip as [Ia NE]. pose proof (s_bridge r c assets d RP AF t a Ia Ht) as ((B1 & B2 & B3 & B4) & (B5 & B6 & B7 & B8) & B9).
    destruct a as [b|b|b|b|b|b|n|n]; attrs I; cbn [reported quantity String.eqb Ascii.eqb Bool.eqb existsb orb]; try assumption; try reflexivity.
    all: eapply (s_rep_qty r c assets d RP (ABattery b)); eauto; cbn [asset_cells In asset_name]; tauto.
  - attrs I; cbn [reported quantity String.eqb Ascii.eqb Bool.eqb existsb orb]; try reflexivity.
    1-3: unfold rep_chargers, ev_total_charge, ev_total_discharge, over_events, over_chargers; rewrite RunFacts.Qsum_exchange; apply Qsum_index; intros k cc Ek; destruct (s_charger_reported r c assets d RP e k cc t Ip Ht Ek) as (A1 & A2 & A3); assumption.
    all: apply Qsum_map_ext; intros i Ii; apply in_seq in Ii; apply Qsum_map_ext; intros _ _; destruct (s_soc_reported r c assets d RP e i t Ip Ht ltac:(lia)) as (A1 & A2); assumption.
  - pose proof (s_fa_fine_at c assets AF t _ Ht Ip) as FN. cbn in FN. destruct FN as (L1 & _ & _).
    destruct (ev_spill_chargers e) as [|cc [|? ?]] eqn:SP; try discriminate.
    destruct (s_spill_reported r c assets d RP e cc t Ip Ht) as (S1 & _ & S3); [rewrite SP; now left|].
    attrs I; cbn [reported quantity String.eqb Ascii.eqb Bool.eqb existsb orb]; try reflexivity; unfold rep_chargers; rewrite SP; cbn [map Qsum fold_right]; [rewrite S1; unfold ev_spill_total|rewrite S3; unfold over_events]; ring.
Qed.
Theorem C76_custom eps slv base c assets cons obj fl r k : 0 <= eps < 1 -> tolerant_solver eps slv -> Forall chp_fine assets -> names_ok c assets ->
  optimize slv base c assets cons obj fl = Ok r -> r_feasible r = true -> In k cons -> plain_constraint k -> satisfied_upto eps (reported r) c assets k.
Proof.
  intros EP SND CF NM H FE Ik PL. destruct (tolerant_run eps slv base c assets cons obj fl r EP SND CF NM H FE) as (iv & o & s & R).
  destruct R as [B F _ _ _ HN AF _ RP]. pose proof (s_readings r c assets _ RP AF) as RD.
  destruct (program_split _ _ _ _ _ _ _ _ B) as (o1 & o2 & cs & extra & e & _ & CC & P & C1 & (o3 & GO & EO) & OE & CE).
  rewrite near_iff in F. destruct F as (OK & _). destruct (grows_objective _ _ _ _ _ _ GO) as (_ & c3 & C3).
  assert (near eps s (cons_of o2)) as OK2. { rewrite EO in OK. unfold cons_of in OK |- *. cbn [o_cons] in OK. unfold cons_of in C3. rewrite C3, near_app in OK. tauto. }
  pose proof (custom_one_near c assets fl iv _ _ cs P eps cons _ o2 k HN Ik PL CC (d_of s iv) s (d_of_eq _ _ _ _ _ _ _ s P) OK2) as S.
  unfold satisfied_upto in *. unfold plain_constraint in PL. rewrite Forall_app in PL. destruct PL as [PL PR].
  destruct (cn_sum k).
  - pose proof (side_sum_ext _ _ _ _ _ RD PL) as E1. pose proof (side_sum_ext _ _ _ _ _ RD PR) as E2. destruct (cn_sense k); cbn [compares_upto] in *; unfold within in *; lra.
  - intros t Ht. specialize (S t Ht). pose proof (side_at_ext _ _ _ _ _ _ RD Ht PL) as E1. pose proof (side_at_ext _ _ _ _ _ _ RD Ht PR) as E2. destruct (cn_sense k); cbn [compares_upto] in *; unfold within in *; lra.
Qed.

(** ** Acceptance *)
Lemma upto_cell_nonneg eps a f fl d t nm q : asset_upto eps a f fl d t -> asset_fine a -> nonneg_asset a -> (forall b, a = ABoiler b -> 0 <= energy f (bo_min_mw b)) ->
  In (nm, Some q) (asset_cells d t a) -> 0 <= q.
Proof.
  intros PH AF NN BM. destruct a as [b|b|b|b|b|b|m|m]; cbn [asset_upto asset_cells nonneg_asset] in *.
  4:{ destruct PH as (P1 & P2 & _ & _ & P5). cbn in AF. destruct AF as (L1 & _ & _).
      rewrite in_app_iff. unfold ev_main_cells. rewrite !in_app_iff, !in_flat_map. unfold ev_spill_columns, ev_soc_report. cbv zeta. rewrite in_app_iff, !in_map_iff, in_flat_map.
      assert (forall e ec k cc, nth_error (ev_event_cfgs b) e = Some ec -> nth_error (ev_chargers b) k = Some cc -> 0 <= d_ev_charge d (ev_name b) e k t /\ 0 <= d_ev_discharge d (ev_name b) e k t /\ 0 <= d_ev_loss d (ev_name b) e k t) as PP.
      { intros e ec k cc Ee Ek. destruct (P1 e ec k cc Ee Ek) as (A1 & A2 & _ & A3). splits; auto; [apply A1|]. destruct (allow_evs_discharge fl); [apply A2|rewrite A2; discriminate]. }
      intros [[([k cc] & J & H)|[([e ec] & J & H)|[(e & H & J)|(e & H & J)]]]|(cc & J & H)].
      - apply enumerate_in in J. cbn [ev_charger_report fst snd In] in H.
        assert (forall g, (forall e ec, nth_error (ev_event_cfgs b) e = Some ec -> 0 <= g e) -> 0 <= Qsum (map g (seq 0 (List.length (ev_event_cfgs b))))) as SP.
        { intros g Hg. apply Qsum_map_nonneg. intros e Ie. apply in_seq in Ie. destruct (nth_error_lt (ev_event_cfgs b) e ltac:(lia)) as (ec & Ee). eapply Hg; eauto. }
        repeat (destruct H as [H|H]; [first [discriminate H|injection H as _ <-; apply SP; intros e ec Ee; apply (PP e ec k cc Ee J)]|]). destruct H.
      - apply enumerate_in in J. cbn [ev_event_report fst snd In] in H.
        assert (forall g, (forall k cc, nth_error (ev_chargers b) k = Some cc -> 0 <= g k) -> 0 <= Qsum (map g (seq 0 (List.length (ev_chargers b))))) as SP.
        { intros g Hg. apply Qsum_map_nonneg. intros k0 Ie. apply in_seq in Ie. destruct (nth_error_lt (ev_chargers b) k0 ltac:(lia)) as (cc & Ee). eapply Hg; eauto. }
        repeat (destruct H as [H|H]; [first [discriminate H|injection H as _ <-; apply SP; intros k cc Ek; apply (PP e ec k cc J Ek)]|]). destruct H.
      - injection H as _ <-. apply in_seq in J. destruct (nth_error_lt (ev_event_cfgs b) e ltac:(lia)) as (ec & Ee). apply (P5 e ec Ee).
      - injection H as _ <-. apply in_seq in J. destruct (nth_error_lt (ev_event_cfgs b) e ltac:(lia)) as (ec & Ee). apply (P5 e ec Ee).
      - cbn [ev_spill_report fst snd In] in H.
        assert (forall g, (forall e ec, nth_error (ev_event_cfgs b) e = Some ec -> 0 <= g e) -> 0 <= Qsum (map g (seq 0 (List.length (ev_event_cfgs b))))) as SP.
        { intros g Hg. apply Qsum_map_nonneg. intros e Ie. apply in_seq in Ie. destruct (nth_error_lt (ev_event_cfgs b) e ltac:(lia)) as (ec & Ee). eapply Hg; eauto. }
        destruct (ev_spill_chargers b) as [|c0 [|? ?]]; try discriminate.
        assert (forall e ec, nth_error (ev_event_cfgs b) e = Some ec -> 0 <= d_spill_charge d (ev_name b) e t /\ 0 <= d_spill_loss d (ev_name b) e t) as PS by (intros e ec Ee; destruct (P2 e ec c0 Ee eq_refl) as (X1 & _ & X2); split; [apply X1|exact X2]).
        repeat (destruct H as [H|H]; [first [discriminate H|injection H as _ <-; first [apply SP; intros e ec Ee; apply (PS e ec Ee)|discriminate]]|]). destruct H. }
  all: cbn [In asset_name]; intros H.
  - unfold battery_upto, between in PH. cbv zeta in PH. repeat (destruct H as [H|H]; [first [discriminate H|injection H as _ <-; tauto]|]). destruct H.
  - unfold boiler_upto, between in PH. cbv zeta in PH. specialize (BM b eq_refl). repeat (destruct H as [H|H]; [injection H as _ <-; lra|]). destruct H.
  - unfold chp_upto, between in PH. cbv zeta in PH. repeat (destruct H as [H|H]; [injection H as _ <-; tauto|]). destruct H.
  - unfold hp_upto, between in PH. cbv zeta in PH. repeat (destruct H as [H|H]; [injection H as _ <-; tauto|]). destruct H.
  - unfold rg_exact, between in PH. cbv zeta in PH. destruct PH as [K _]. destruct NN as [N1 N2]. destruct H as [H|[]]. injection H as _ <-.
    eapply Qle_trans; [|exact K]. apply Qmult_le_0_compat; [|exact N1]. destruct (nth_in_or_default t (rg_available_mwh b) 0) as [I|E0]; [|rewrite E0; discriminate]. rewrite Forall_forall in N2. auto.
  - unfold spill_exact in PH. cbv zeta in PH. repeat (destruct H as [H|H]; [injection H as _ <-; first [tauto|discriminate]|]). destruct H.
  - unfold valve_upto in PH. cbv zeta in PH. repeat (destruct H as [H|H]; [injection H as _ <-; tauto|]). destruct H.
Qed.
Lemma upto_acceptable eps c assets fl d : 0 <= eps -> eps < 1 # 10000 -> nonneg_site c assets -> Forall asset_fine assets ->
  (forall b, In (ABoiler b) assets -> 0 <= energy (sc_freq c) (bo_min_mw b)) ->
  (forall nm t, In (AValve nm) assets -> (t < n_intervals c)%nat -> d_qty d nm LtGen t == d_qty d nm HtLoad t) ->
  physical_upto eps c assets fl d -> acceptable c assets d.
Proof.
  intros E0 E1 (_ & _ & _ & _ & N5) AF BM VE (PS & PA). rewrite Forall_forall in AF, N5. unfold acceptable. splits; [| |exact VE].
  - intros t Ht. destruct (PS t Ht) as ((G1 & G2 & _) & _). unfold between in *. splits; try tauto. intros a Ia nm q I. eapply upto_cell_nonneg; eauto; [apply (PA a Ia); exact Ht|]. intros b ->. auto.
  - intros t Ht. destruct (PS t Ht) as (_ & B1 & B2 & B3). unfold within, small_gap in *. splits; lra.
Qed.
(** With a tolerance below 1e-4, an Optimal answer that treats the valve exactly (or a site without a valve) passes every check of the report. *)
Theorem C76_accepted eps slv base c assets cons obj fl iv o : 0 <= eps -> eps < 1 # 10000 ->
  tolerant_solver eps slv -> Forall chp_fine assets -> ordinary_site c assets -> site_ready c assets ->
  (forall b, In (ABoiler b) assets -> 0 <= energy (sc_freq c) (bo_min_mw b)) -> (forall nm, ~ In (AValve nm) assets) ->
  build_program c assets cons obj fl (new_optimizer base) = Ok (iv, o) -> NoDup (map v_name (variables o)) ->
  objective_has_value slv o \/ allow_infeasible fl = true ->
  sol_status (slv o) = Optimal -> fail_on_spill_asset_use fl = false ->
  exists r, optimize slv base c assets cons obj fl = Ok r /\ r_feasible r = true.
Proof.
  intros E0 E1 SND CF OS RD BM NOV HB NV HV ST FF.
  assert (forall v, occurs o v = true -> sol_value (slv o) (v_id v) <> None) as AN by (intros v Ov; destruct (SND o ST) as (s & _ & VS); rewrite (VS v Ov); discriminate).
  destruct (solve_ok slv base c assets cons obj fl iv o HB NV AN) as (z & SO); [rewrite ST; tauto|]. unfold optimize. rewrite HB, SO. cbn [rbind fst snd]. rewrite ST. cbn [is_optimal].
  destruct (program_split _ _ _ _ _ _ _ _ HB) as (o1 & o2 & cs & extra & e & _ & _ & P & _ & _ & OE & CE).
  pose proof (values_given slv base c assets cons obj fl iv o HB CF AN) as VG.
  destruct (any_table c assets fl iv _ _ cs P RD (os_data _ _ OS) (os_names _ _ OS) (os_distinct _ _ OS) (os_evs _ _ OS) (var_value o (slv o)) VG) as (rows & HR & d0 & NMS & TB0 & HL).
  destruct (SND o ST) as (s & FS & VS). pose proof FS as FS'. rewrite near_iff, CE, near_app in FS'. destruct FS' as ((OK & _) & _).
  assert (vals_of (d_of s iv) s iv) as VO by (eapply d_of_vals; [apply (pr_names _ _ _ _ _ _ _ P)|apply (pr_shape _ _ _ _ _ _ _ P)|apply (pr_fine _ _ _ _ _ _ _ P)]).
  assert (physical_upto eps c assets fl (d_of s iv)) as PH by (eapply (pr_near _ _ _ _ _ _ _ P); eauto; lra).
  assert (forall v x, var_value o (slv o) v = Some x -> x = s (v_id v)) as V by (intros; eapply var_value_sound; eauto).
  assert (Forall2 (fun t row => row_is row (row_cells c assets (d_of s iv) t)) (seq 0 (n_intervals c)) rows) as RW.
  { apply rmap_ok in HR. eapply Forall2_impl; [|exact HR]. cbv beta. intros t row _ K. eapply (full_row _ s); eauto; [|apply OS].
    intros a t' Ia Ht'. apply (upto_clip eps a (sc_freq c) fl). destruct PH as [_ P2]. apply (P2 a Ia); auto. }
  assert (table_of (map fst (row_cells c assets (d_of s iv) 0)) rows (fold_left append_row rows [])) as TB by (rewrite (row_names c assets (d_of s iv) 0 d0 0); exact TB0).
  assert (Forall asset_fine assets) as AF. { apply (pr_fine _ _ _ _ _ _ _ P). intros X. pose proof (pr_len _ _ _ _ _ _ _ P) as L. rewrite X in L. destruct RD as (R1 & _). cbn in L. lia. }
  pose proof (proj1 RD) as NP.
  unfold extract_results. rewrite HR. cbn [rbind]. cbv zeta. rewrite HL. cbn [rbind]. destruct (add_totals_any c assets OS _ _ _ _ eq_refl TB) as (res & HT). rewrite HT. cbn [rbind st_feasible].
  set (lp := fold_left append_row rows []) in *.
  destruct (add_totals_eq lp res) as (imp & exp & A1 & A2 & ->); [eapply lp_nonempty; eauto|eapply lp_reserved; eauto|exact HT|].
  assert (acceptable c assets (d_of s iv)) as AC by (eapply upto_acceptable; eauto; [apply OS|intros nm t I; destruct (NOV nm I)]).
  rewrite (passes_schema c assets (d_of s iv) rows lp RW TB OS AC AF NP). cbn [rbind]. rewrite (passes_checks c assets (d_of s iv) rows lp RW TB OS AC AF NP imp exp A1 A2). cbn [rbind].
  unfold warn_spills. rewrite FF, andb_false_r. cbn [rbind]. eexists. split; reflexivity.
Qed.
(** What the checks catch: whatever the tolerance of the solver, the total columns of a result balance within 1e-3 (electricity) and 1e-4 (heat), and
    the two columns of the valve agree exactly. *)
Lemma checked slv base c assets cons obj fl r : optimize slv base c assets cons obj fl = Ok r -> r_feasible r = true -> check_results (r_results r) (existsb is_valve assets) = Ok tt.
Proof.
  intros H FE. unfold optimize in H. destruct (build_program c assets cons obj fl (new_optimizer base)) as [[iv o]|]; [|discriminate].
  rewrite rbind_ok in H. destruct H as ([st sol] & HS & H). cbn [fst snd] in H.
  unfold extract_results in H. rewrite rbind_ok in H. destruct H as (rows & HR & H). cbv zeta in H. rewrite rbind_ok in H. destruct H as (u3 & HL & H).
  rewrite rbind_ok in H. destruct H as (res & HT & H). rewrite rbind_ok in H. destruct H as (u4 & HC & H). rewrite rbind_ok in H. destruct H as (sp & HW & H). injection H as <-.
  cbn [r_feasible] in FE. rewrite FE in HC. rewrite rbind_ok in HC. destruct HC as ([] & HSC & HC). destruct u4. exact HC.
Qed.
Theorem C76_checked eps slv base c assets cons obj fl r : 0 <= eps < 1 -> tolerant_solver eps slv -> Forall chp_fine assets -> names_ok c assets ->
  optimize slv base c assets cons obj fl = Ok r -> r_feasible r = true -> forall t, (t < n_intervals c)%nat ->
  (Qabs (r_import r t + rep r "total" "electric_generation_mwh" t + rep r "total" "electric_discharge_mwh" t
         - rep r "total" "electric_charge_mwh" t - r_export r t - rep r "total" "electric_load_mwh" t) < 1#1000 /\
   Qabs (rep r "total" "high_temperature_generation_mwh" t - rep r "total" "high_temperature_load_mwh" t) < 1#10000 /\
   Qabs (rep r "total" "low_temperature_generation_mwh" t - rep r "total" "low_temperature_load_mwh" t) < 1#10000) /\
  (In (AValve "valve") assets -> rep r "valve" "low_temperature_generation_mwh" t == rep r "valve" "high_temperature_load_mwh" t).
Proof.
  intros EP SND CF NM H FE t Ht. pose proof (checked _ _ _ _ _ _ _ _ H FE) as K.
  destruct (C76_dispatch eps slv base c assets cons obj fl r EP SND CF NM H FE) as (d & (LN & _) & _).
  destruct (C39_accepted_table_balances (r_results r) _ (n_intervals c) K LN) as (B & V). split; [exact (B t Ht)|].
  intros I. apply V; [|exact Ht]. apply existsb_exists. exists (AValve "valve"). split; [exact I|reflexivity].
Qed.

(** ** Samples *)
(** a solver that accepts these values when they meet the rows up to [eps] *)
Definition sense_withinb (eps : Q) (k : sense) (x : Q) : bool :=
  match k with LE => Qle_bool x eps | EQ => Qle_bool (- eps) x && Qle_bool x eps | GE => Qle_bool (- eps) x end.
Definition feasible_withinb (eps : Q) (s : assignment) (o : opt) : bool :=
  forallb (fun nc => sense_withinb eps (c_sense (snd nc)) (eval s (c_expr (snd nc))) && forallb (Check.var_okb s) (evars (c_expr (snd nc)))) (o_cons o)
  && match o_obj o with Some e => forallb (Check.var_okb s) (evars e) | None => true end.
Lemma feasible_withinb_sound eps s o : feasible_withinb eps s o = true -> feasible_within eps s o.
Proof.
  unfold feasible_withinb, feasible_within. rewrite andb_true_iff. intros [F1 F2]. split.
  - rewrite forallb_forall in F1. apply Forall_forall. intros nc I. specialize (F1 nc I). apply andb_true_iff in F1. destruct F1 as [A B]. split.
    + destruct (c_sense (snd nc)); cbn [sense_withinb sense_within] in *; [now apply Qle_bool_iff| |now apply Qle_bool_iff]. apply andb_true_iff in A. destruct A as [A1 A2]. split; now apply Qle_bool_iff.
    + apply (Check.forallb_Forall _ _ _ (Check.var_okb_iff s)). exact B.
  - destruct (o_obj o); [|exact Logic.I]. apply (Check.forallb_Forall _ _ _ (Check.var_okb_iff s)). exact F2.
Qed.
Definition rounded (eps : Q) (vals : list Q) : solver := fun o =>
  if feasible_withinb eps (Check.of_list vals) o then mkSol Optimal (fun id => Some (Check.of_list vals id)) None else mkSol Infeasible (fun _ => None) None.
Lemma rounded_tolerant eps vals : tolerant_solver eps (rounded eps vals).
Proof.
  intros o ST. unfold rounded in *. destruct (feasible_withinb eps (Check.of_list vals) o) eqn:F; [|discriminate]. exists (Check.of_list vals).
  split; [now apply feasible_withinb_sound|]. intros v _. reflexivity.
Qed.

Definition wi_battery : battery_cfg := mkBatteryCfg "battery" 4 4 8 (9#10) 0 0.
Definition wi_boiler : boiler_cfg := mkBoilerCfg "boiler" 10 0 (1#2).
Definition wi_assets : list asset := [ABattery wi_battery; ABoiler wi_boiler; ASpill "spill"].
Definition wi_site : site_cfg := mkSiteCfg (mkIdata [10;30] [0;0] [1#10;1#10] [5;5] [3;3] [3;2] [0;0] [0;0] 2 []) 60%Z 100 50.
Definition wi_values : list Q :=
  [5000001#1000000; 0; 1; 0; 2; 0; 1; 0; 2#10; 1#1000000; 1800002#1000000; 3000001#1000000; 1; 6000001#1000000; 0; 0; 0; 0;
   12#10; 0; 1; 0; 0; 1800001#1000000; 0; 1; 0; 1800003#1000000; 1#1000000; 2; 1; 4; 0; 0; 0; 0].
Definition wi_solver : solver := rounded (1#1000000) wi_values.
Definition wi_result : sim_result := Eval vm_compute in SampleSite.result_of (optimize wi_solver 0 wi_site wi_assets [] (ObjName "price") default_flags).
Lemma wi_returns : optimize wi_solver 0 wi_site wi_assets [] (ObjName "price") default_flags = Ok wi_result.
Proof. vm_compute. reflexivity. Qed.
Lemma wi_fine : Forall chp_fine wi_assets.
Proof. unfold wi_assets. repeat (apply Forall_cons || apply Forall_nil); exact Logic.I. Qed.
Lemma wi_names : names_ok wi_site wi_assets.
Proof.
  unfold names_ok. splits.
  - intros a I. unfold wi_assets in I. cbn [In] in I. repeat (destruct I as [<-|I]; [cbn [asset_name wi_battery wi_boiler b_name bo_name]; discriminate|]). destruct I.
  - intros col [].
  - intros e I. unfold wi_assets in I. cbn [In] in I. repeat (destruct I as [I|I]; [discriminate I|]). destruct I.
Qed.
(** the drift bound is met with equality after the first interval: the battery holds 2e-6 more than was charged *)
Example C76_sample : r_feasible wi_result = true /\ rep wi_result "battery" "electric_final_charge_mwh" 0 - (2 - (2#10)) == 2 * (1#1000000) /\
  within (inject_Z 4 * (1#1000000)) (rep wi_result "battery" "electric_final_charge_mwh" 1) (0 + Qsum (map (fun t => rep wi_result "battery" "electric_charge_mwh" t - rep wi_result "battery" "electric_discharge_mwh" t - rep wi_result "battery" "electric_loss_mwh" t) (seq 0 2))).
Proof.
  splits; [reflexivity|vm_compute; reflexivity|].
  apply (C76_battery (1#1000000) wi_solver 0 wi_site wi_assets [] (ObjName "price") default_flags wi_result wi_battery); try exact wi_returns; try exact wi_fine; try exact wi_names.
  - lra.
  - apply rounded_tolerant.
  - reflexivity.
  - unfold wi_assets. now left.
  - vm_compute. lia.
Qed.
(** not an exact answer: the electricity of the first interval does not balance *)
Example C76_sample_inexact : ~ r_import wi_result 0 + total (r_elec_gen wi_result 0) wi_assets + total (r_discharge wi_result 0) wi_assets
  == r_export wi_result 0 + data (id_electric_load_mwh (sc_idata wi_site)) 0 + total (r_elec_load wi_result 0) wi_assets + total (r_charge wi_result 0) wi_assets.
Proof. vm_compute. discriminate. Qed.

(** the hypotheses of C76_accepted and C76_price_best on this sample *)
Lemma wi_ready : site_ready wi_site wi_assets.
Proof.
  unfold site_ready. splits.
  - cbn. lia.
  - repeat split.
  - apply nodup_str_iff. reflexivity.
  - repeat constructor; cbn; try lia; try discriminate.
Qed.
Lemma wi_ordinary : ordinary_site wi_site wi_assets.
Proof.
  constructor.
  - exact wi_names.
  - split; [|intros col []]. intros a I. cbn [wi_assets In] in I. repeat (destruct I as [<-|I]; [cbn [ordinary_asset asset_name]; split; [reflexivity|intros q Iq; cbn [quantities In] in Iq; repeat (destruct Iq as [<-|Iq]; [reflexivity|]); destruct Iq]|]). destruct I.
  - intros d t. apply nodup_str_iff. vm_compute. reflexivity.
  - intros a I H. cbn [wi_assets In] in I. repeat (destruct I as [<-|I]; [discriminate H|]). destruct I.
  - intros n I. cbn [wi_assets In] in I. repeat (destruct I as [I|I]; [discriminate I|]). destruct I.
  - intros col I. cbn in I. repeat (destruct I as [<-|I]; [reflexivity|]). destruct I.
  - unfold nonneg_site. cbv zeta. splits; try (repeat constructor; discriminate).
Qed.
Example C76_sample_accepted : ordinary_site wi_site wi_assets /\ site_ready wi_site wi_assets /\ Forall chp_fine wi_assets /\
  (forall b, In (ABoiler b) wi_assets -> 0 <= energy (sc_freq wi_site) (bo_min_mw b)) /\ (forall nm, ~ In (AValve nm) wi_assets) /\
  (exists iv o, build_program wi_site wi_assets [] (ObjName "price") default_flags (new_optimizer 0) = Ok (iv, o) /\ NoDup (map v_name (variables o)) /\ objective_has_value wi_solver o /\ sol_status (wi_solver o) = Optimal).
Proof.
  splits; [exact wi_ordinary|exact wi_ready|exact wi_fine| | |].
  - intros b I. cbn [wi_assets In] in I. repeat (destruct I as [I|I]; [first [discriminate I|injection I as <-; vm_compute; discriminate]|]). destruct I.
  - intros nm I. cbn [wi_assets In] in I. repeat (destruct I as [I|I]; [discriminate I|]). destruct I.
  - assert (match build_program wi_site wi_assets [] (ObjName "price") default_flags (new_optimizer 0) with Ok (_, o) => (nodup_str (map v_name (variables o)) && match objective_variables o with [] => false | _ => true end && match sol_status (wi_solver o) with Optimal => true | _ => false end)%bool = true | Err _ => False end) as K by (vm_compute; reflexivity).
    destruct (build_program wi_site wi_assets [] (ObjName "price") default_flags (new_optimizer 0)) as [[iv o]|] eqn:B; [|destruct K].
    exists iv, o. apply andb_true_iff in K. destruct K as [K K3]. apply andb_true_iff in K. destruct K as [K1 K2]. splits; [reflexivity|now apply nodup_str_iff| |destruct (sol_status (wi_solver o)); congruence].
    left. destruct (objective_variables o) as [|v l] eqn:OV; [discriminate|]. exists v. now left.
Qed.

(** a custom limit of 5 on the import: the sample imports 5.000001 and is accepted *)
Definition wi_limit : constraint := mkConstraint [CTermOf (mkCterm "import_power_mwh" (Some "site") None None 1)] [CNumber 5] LE false.
Definition wi_limited : sim_result := Eval vm_compute in SampleSite.result_of (optimize wi_solver 0 wi_site wi_assets [wi_limit] (ObjName "price") default_flags).
Example C76_custom_sample : r_feasible wi_limited = true /\ satisfied_upto (1#1000000) (reported wi_limited) wi_site wi_assets wi_limit /\ ~ satisfied (reported wi_limited) wi_site wi_assets wi_limit.
Proof.
  splits; [reflexivity| |].
  - apply (C76_custom (1#1000000) wi_solver 0 wi_site wi_assets [wi_limit] (ObjName "price") default_flags wi_limited); try exact wi_fine; try exact wi_names; [lra|apply rounded_tolerant|vm_compute; reflexivity|reflexivity|now left|].
    unfold plain_constraint, wi_limit. cbn [cn_lhs cn_rhs app]. apply Forall_cons; [|apply Forall_cons; [exact Logic.I|apply Forall_nil]]. cbn [plain_entry ct_variable]. unfold plain_quantities. cbn [In]. auto 15.
  - intros K. specialize (K 0%nat ltac:(vm_compute; lia)). vm_compute in K. apply K. reflexivity.
Qed.

(** The check of the valve has no tolerance: an answer within 1e-9 is rejected. *)
Definition va_assets : list asset := [ABoiler wi_boiler; AValve "valve"; ASpill "spill"].
Definition va_site : site_cfg := mkSiteCfg (mkIdata [10] [0] [1#10] [5] [3] [0] [3] [0] 1 []) 60%Z 100 50.
Definition va_solver : solver := rounded (1#1000000000) [3; 0; 1; 0; 3; 1; 6; 3; 2999999999#1000000000; 0; 0; 0; 0].
Definition va_exact : solver := rounded (1#1000000000) [3; 0; 1; 0; 3; 1; 6; 3; 3; 0; 0; 0; 0].
Theorem C76_valve_refuted :
  tolerant_solver (1#1000000000) va_solver /\ (exists iv o, build_program va_site va_assets [] (ObjName "price") default_flags (new_optimizer 0) = Ok (iv, o) /\ sol_status (va_solver o) = Optimal) /\
  optimize va_solver 0 va_site va_assets [] (ObjName "price") default_flags = Err AssertionErr /\
  (exists r, optimize va_exact 0 va_site va_assets [] (ObjName "price") default_flags = Ok r /\ r_feasible r = true).
Proof.
  splits.
  - apply rounded_tolerant.
  - destruct (build_program va_site va_assets [] (ObjName "price") default_flags (new_optimizer 0)) as [[iv o]|] eqn:B; [|vm_compute in B; discriminate].
    exists iv, o. split; [reflexivity|]. assert (match build_program va_site va_assets [] (ObjName "price") default_flags (new_optimizer 0) with Ok (_, o) => sol_status (va_solver o) = Optimal | Err _ => False end) as K by (vm_compute; reflexivity).
    rewrite B in K. exact K.
  - vm_compute. reflexivity.
  - eexists. split; [vm_compute; reflexivity|reflexivity].
Qed.
