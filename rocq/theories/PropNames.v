(** * PropNames: property C75, names the report depends on *)
From Verif Require Import Base Pulp Params Optimizer Types Assets EVs Site Constraints Objectives Extract Pipeline Lucky Emit Prim Spec SpecSwitch SpecReport SpecRun SpecNames Layout Rows Sem SemEv SemSite SemProg SemCells SemRows SemTable SemResults RunFacts Returns SpecTotals PropChecks SampleSite PropSite PropAccountRun PropPlot.
Open Scope Q_scope.
Open Scope string_scope.

(** What optimize returned went through these steps. *)
Lemma optimize_rows slv base c assets cons obj fl r : optimize slv base c assets cons obj fl = Ok r ->
  exists iv o rows, build_program c assets cons obj fl (new_optimizer base) = Ok (iv, o) /\
    rmap (extract_row (var_value o (slv o)) (sc_idata c) (map asset_name assets) iv) (seq 0 (n_intervals c)) = Ok rows /\
    (r_feasible r = true -> check_results (r_results r) (existsb is_valve assets) = Ok tt).
Proof.
  unfold optimize. destruct (build_program c assets cons obj fl (new_optimizer base)) as [[iv o]|]; [|discriminate]. intros H. exists iv, o.
  rewrite rbind_ok in H. destruct H as ([st sol] & HS & H). unfold solve in HS. rewrite rbind_ok in HS. destruct HS as (? & _ & HS). cbv zeta in HS. rewrite rbind_ok in HS. destruct HS as (? & _ & HS). injection HS as <- <-.
  cbn [fst snd] in H. unfold extract_results in H. rewrite rbind_ok in H. destruct H as (rows & HR & H). cbv zeta in H. rewrite rbind_ok in H. destruct H as (? & _ & H). rewrite rbind_ok in H. destruct H as (R & _ & H).
  rewrite rbind_ok in H. destruct H as (u & CK & H). rewrite rbind_ok in H. destruct H as (sp & W & H). injection H as <-. exists rows. splits; auto. cbn [r_feasible r_results st_feasible] in *. intros F. rewrite F in CK. rewrite rbind_ok in CK. destruct CK as (? & _ & CK). destruct u. exact CK.
Qed.

(** A site with a valve: in every feasible result a valve (or a spill asset) carries the name "valve", because the balance check looks the valve's columns up under that name. *)
Theorem C75_valve_name : forall slv base c assets cons obj fl r n, feasible_run slv base c assets cons obj fl r -> In (AValve n) assets ->
  In (AValve "valve") assets \/ In (ASpill "valve") assets.
Proof.
  intros slv base c assets cons obj fl r n R I. destruct (optimize_rows _ _ _ _ _ _ _ _ (fr_returns _ _ _ _ _ _ _ _ R)) as (iv & o & rows & _ & _ & CK). specialize (CK (fr_feasible _ _ _ _ _ _ _ _ R)).
  assert (existsb is_valve assets = true) as EV by (apply existsb_exists; exists (AValve n); split; auto). rewrite EV in CK. unfold check_results in CK.
  rewrite rbind_ok in CK. destruct CK as (? & _ & CK). rewrite rbind_ok in CK. destruct CK as (? & _ & CK). rewrite rbind_ok in CK. destruct CK as (? & _ & CK). cbv iota in CK.
  rewrite rbind_ok in CK. destruct CK as (lt & _ & CK). rewrite rbind_ok in CK. destruct CK as (ht & G & _). apply get_in in G. apply (in_map fst) in G. cbn [fst] in G.
  destruct (column_origin slv base c assets cons obj fl r R) as (d & _ & _ & OR). destruct (OR _ G) as [(xs1 & E)|[(xs2 & E)|(a & q & Ia & Iq)]]; [discriminate E|discriminate E|].
  assert (dashfree "high_temperature_load_mwh" = true) as DF by reflexivity. change ("valve-high_temperature_load_mwh") with (column "valve" "high_temperature_load_mwh") in Iq.
  destruct (asset_cell_name _ _ _ _ _ Iq) as (px & attr & E & Ca & Z). apply column_inj in E; [|reflexivity|now apply cell_attr_dash]. destruct E as [<- <-].
  assert (forall y z, "valve" <> column y z) as NC.
  { intros y z E. assert (dashfree "valve" = false) as X; [|discriminate X]. rewrite E. clear. unfold column. induction y as [|a y IH]; [reflexivity|]. change (negb (Ascii.eqb a dash) && dashfree (y ++ "-" ++ z) = false)%bool. rewrite IH. apply andb_false_r. }
  destruct Z as [Z|(y & Z)]; [|exfalso; eapply NC; eauto].
  assert (forall nm at', column nm at' = column "valve" "high_temperature_load_mwh" -> dashfree at' = true -> at' = "high_temperature_load_mwh") as CI by (intros nm at' E D; apply column_inj in E; auto; apply E).
  destruct a as [b|b|b|b|b|b|m|m]; cbn [asset_cells asset_name] in *; try subst m; auto; exfalso.
  all: try (repeat (destruct Iq as [Iq|Iq]; [injection Iq as E _; apply CI in E; [discriminate E|reflexivity]|]); destruct Iq).
  assert (exists p at', In at' ["electric_charge_mwh"; "electric_charge_binary"; "electric_discharge_mwh"; "electric_discharge_binary"; "electric_loss_mwh"; "initial_soc_mwh"; "final_soc_mwh"] /\ column "valve" "high_temperature_load_mwh" = column p at') as (p & at' & Ia' & E).
  { apply in_app_iff in Iq. destruct Iq as [Iq|Iq].
    - unfold ev_main_cells in Iq. apply in_app_iff in Iq. destruct Iq as [Iq|Iq]; [|apply in_app_iff in Iq; destruct Iq as [Iq|Iq]].
      + apply in_flat_map in Iq. destruct Iq as (kc & _ & Iq). unfold ev_charger_report in Iq. repeat (destruct Iq as [Iq|Iq]; [injection Iq as E _; do 2 eexists; split; [|symmetry; exact E]; cbn [In]; tauto|]). destruct Iq.
      + apply in_flat_map in Iq. destruct Iq as (kc & _ & Iq). unfold ev_event_report in Iq. repeat (destruct Iq as [Iq|Iq]; [injection Iq as E _; do 2 eexists; split; [|symmetry; exact E]; cbn [In]; tauto|]). destruct Iq.
      + unfold ev_soc_report in Iq. cbv zeta in Iq. apply in_app_iff in Iq. destruct Iq as [Iq|Iq]; apply in_map_iff in Iq; destruct Iq as (k & Iq & _); injection Iq as E _; do 2 eexists; (split; [|symmetry; exact E]); cbn [In]; tauto.
    - unfold ev_spill_columns in Iq. apply in_flat_map in Iq. destruct Iq as (kc & _ & Iq). unfold ev_spill_report in Iq. repeat (destruct Iq as [Iq|Iq]; [injection Iq as E _; do 2 eexists; split; [|symmetry; exact E]; cbn [In]; tauto|]). destruct Iq. }
  symmetry in E. apply CI in E. 2:{ cbn [In] in Ia'. repeat (destruct Ia' as [<-|Ia']; [reflexivity|]). destruct Ia'. }
  subst at'. cbn [In] in Ia'. repeat (destruct Ia' as [Ia'|Ia']; [discriminate Ia'|]). destruct Ia'.
Qed.

(** A site with an EVs asset: whatever optimize returns (feasible or not), no other asset's name contains "evs", because the report collects the EVs assets by that part of the name. *)
Theorem C75_evs_name : forall slv base c assets cons obj fl r e a, optimize slv base c assets cons obj fl = Ok r -> (0 < n_intervals c)%nat -> In (AEVs e) assets ->
  In a assets -> contains "evs" (asset_name a) = true -> exists e', a = AEVs e'.
Proof.
  intros slv base c assets cons obj fl r e a OPT Hn Ie Ia CN. destruct (optimize_rows _ _ _ _ _ _ _ _ OPT) as (iv & o & rows & HB & HR & _).
  destruct (program_split _ _ _ _ _ _ _ _ HB) as (o1 & o2 & cs & extra & e0 & _ & _ & P & _). pose proof (pr_len _ _ _ _ _ _ _ P) as L.
  destruct (nth_error_lt iv 0 ltac:(lia)) as (row & E). assert (iv <> []) as NI by (intros X; rewrite X in E; discriminate).
  apply rmap_ok in HR. assert (In 0%nat (seq 0 (n_intervals c))) as I0 by (apply in_seq; lia). destruct (Forall2_in_l _ _ _ _ HR I0) as (row' & _ & X). unfold extract_row in X.
  do 6 (rewrite rbind_ok in X; destruct X as (? & _ & X)). rewrite rbind_ok in X. destruct X as (r7 & X & _). unfold extract_evs in X. rewrite rbind_ok in X. destruct X as (evs & F & X).
  unfold filter_objective_variables in F. rewrite (py_index_nat_ok _ _ _ E) in F. cbn [rbind] in F. injection F as <-.
  assert (exists xs, owns (AEVs e) 0 (sc_freq c) fl row xs) as (xs & (S0 & S1 & G & Sp & SH) & IN & FT) by (eapply row_owns; eauto; apply P).
  pose proof (pr_fine _ _ _ _ _ _ _ P NI) as FN. rewrite Forall_forall in FN. destruct (FN _ Ie) as (_ & NE & NC).
  assert (In (OIEv (G 0%nat 0%nat)) row) as I1. { destruct SH as (-> & _). apply IN, in_app_iff. left. apply in_map, in_grid. eauto. }
  destruct (filter (matches (Some KEv) None) row) as [|y0 l0] eqn:EF.
  { exfalso. assert (In (OIEv (G 0%nat 0%nat)) []) as []. rewrite <- EF. apply filter_In. split; auto. }
  rewrite rbind_ok in X. destruct X as (pkg & X & _). apply rmap_ok in X.
  assert (In (asset_name a) (filter (contains "evs") (map asset_name assets))) as Inm by (apply filter_In; split; [now apply in_map|exact CN]).
  destruct (Forall2_in_l _ _ _ _ X Inm) as (arr & _ & K). unfold create_evs_array in K. rewrite rbind_ok in K. destruct K as (found & F & K). rewrite rbind_ok in K. destruct K as (rs & RS & K). rewrite rbind_ok in K. destruct K as (r0 & H0 & _).
  unfold filter_objective_variables in F. rewrite (py_index_nat_ok _ _ _ E) in F. cbn [rbind] in F. injection F as <-.
  destruct (filter (matches (Some KEv) (Some (asset_name a))) row) as [|y ys] eqn:EY; [cbn in RS; injection RS as <-; discriminate H0|].
  assert (In y (filter (matches (Some KEv) (Some (asset_name a))) row)) as Iy by (rewrite EY; now left). apply filter_In in Iy. destruct Iy as [Iy M]. unfold matches in M. apply andb_true_iff in M. destruct M as [M1 M2]. apply String.eqb_eq in M2.
  destruct (pr_shape _ _ _ _ _ _ _ P _ _ E) as (rr & xss & -> & _ & F2). destruct Iy as [<-|Iy]; [discriminate M1|]. apply in_concat in Iy. destruct Iy as (zs & Iz & Iy).
  destruct (Forall2_in_r _ _ _ _ F2 Iz) as (a' & Ia' & SA). destruct (shape_name _ _ _ _ _ _ SA Iy) as [NA _].
  assert (a' = a) as ->. { eapply NoDup_map_inj; [apply (pr_names _ _ _ _ _ _ _ P)|exact Ia'|exact Ia|congruence]. }
  destruct a as [b|b|b|b|b|b|m|m]; [exfalso|exfalso|exfalso|eexists; reflexivity|exfalso|exfalso|exfalso|exfalso]; destruct SA as (q & -> & _); destruct Iy as [<-|[]]; discriminate M1.
Qed.

(** The same site, solved by the same solver: optimize returns a feasible result under the usual names and raises KeyError, IndexError or AssertionError after renaming one asset. *)
Definition outcome_of (r : res sim_result) : bool + pyerr := match r with Ok r => inl (r_feasible r) | Err e => inr e end.
Definition with_names (battery valve evs : string) : list asset :=
  [ABattery (mkBatteryCfg battery 2 2 4 (1#2) 0 0); ARenewable x_solar; ACHP x_chp; ABoiler x_boiler; AHeatPump x_hp; AValve valve; ASpill "spill";
   AEVs (mkEvsCfg evs (ev_chargers x_evs) (ev_spill_chargers x_evs) (ev_event_cfgs x_evs) (ev_events x_evs))].
Definition named_outcome (battery valve evs : string) : bool + pyerr := outcome_of (optimize x_solver 0 x_site (with_names battery valve evs) [] (ObjName "price") default_flags).
Theorem C75_names_refuted :
  named_outcome "battery" "valve" "evs" = inl true /\ named_outcome "battery" "valve" "my-evs" = inl true /\
  named_outcome "battery" "steam-valve" "evs" = inr KeyErr /\ named_outcome "evs-battery" "valve" "evs" = inr IndexErr /\ named_outcome "battery" "valve" "fleet" = inr AssertionErr.
Proof. splits; vm_compute; reflexivity. Qed.
(** non-vacuity *)
Example C75_sample : In (AValve "valve") x_assets \/ In (ASpill "valve") x_assets.
Proof. apply (C75_valve_name x_solver 0 x_site x_assets [] (ObjName "price") default_flags x_result "valve" x_run). unfold x_assets. cbn [In]. do 5 right. now left. Qed.
Example C75_evs_sample : exists e', AEVs x_evs = AEVs e'.
Proof. apply (C75_evs_name x_solver 0 x_site x_assets [] (ObjName "price") default_flags x_result x_evs (AEVs x_evs) x_returns); [vm_compute; lia|unfold x_assets; cbn [In]; do 7 right; now left|unfold x_assets; cbn [In]; do 7 right; now left|reflexivity]. Qed.
