(** * PropPossible: property C61 (optimize succeeds exactly when the site can be operated) *)
From Verif Require Import Base Pulp Params Optimizer Types Assets EVs Site Constraints Objectives Extract Pipeline Emit Prim Spec SpecReport SpecRun SpecCost SpecNames SpecColumns SpecPossible SpecTotals.
From Verif Require Import Layout Rows Sem SemEv SemSite SemProg SemObj SemResults RunFacts Builds Complete PropBasics PropObjective PropChecks PropColumns SpecCompare Compare Standby.
Open Scope Q_scope.
Open Scope string_scope.

(** ** The named objectives mention a variable *)
Lemma row_site c assets fl t row : row_shape c assets fl t row -> exists r, In (OISite r) row /\ matches (Some Types.KSite) (Some "site") (OISite r) = true.
Proof. intros SH. pose proof (row_sites _ _ _ _ _ SH) as N. destruct SH as (r & xss & -> & _). exists r. assert (In (OISite r) (OISite r :: List.concat xss)) as I by (now left). split; auto. unfold matches. cbn. now rewrite (N r I). Qed.
Lemma row_asset c assets fl t row a : row_shape c assets fl t row -> In a assets -> exists xs, asset_shape a t (sc_freq c) fl xs /\ incl xs row.
Proof.
  intros (r & xss & -> & _ & F) I. destruct (Forall2_in_l _ _ _ _ F I) as (xs & J & S). exists xs. split; auto.
  intros x Ix. right. apply in_concat. eauto.
Qed.
Lemma rmap_in {A} (F : A -> res aexpr) l ys x : rmap F l = Ok ys -> In x l -> exists y, In y ys /\ F x = Ok y.
Proof. rewrite rmap_ok. intros H I. exact (Forall2_in_l _ _ _ _ H I). Qed.
Lemma escale_var v q : ~ q == 0 -> In v (evars (escale (evar v) q)).
Proof. intros N. rewrite evars_escale. destruct (Qeq_bool q 0) eqn:E; [apply Qeq_bool_eq in E; tauto|]. cbn. now left. Qed.
Lemma fmul_in v q e : fmul (FVar v) q = Ok e -> ~ q == 0 -> In v (evars e).
Proof. cbn. intros [= <-] N. now apply escale_var. Qed.
Lemma fmul_sum_in fs q e v : fmul_sum fs q = Ok e -> ~ q == 0 -> In (FVar v) fs -> In v (evars e).
Proof.
  unfold fmul_sum. rewrite rbind_ok. intros (es & H & [= <-]) N I. rewrite evars_esum. destruct (rmap_in _ _ _ _ H I) as (y & J & E).
  apply in_flat_map. exists y. split; auto. eapply fmul_in; eauto.
Qed.
Lemma penalty_nonzero : ~ d_spill_objective_penalty == 0.
Proof. discriminate. Qed.
Lemma intensity_nonzero : ~ d_gas_carbon_intensity == 0.
Proof. discriminate. Qed.

Section Mentions.
Context (c : site_cfg) (assets : list asset) (fl : flags) (iv : interval_vars) (lo hi : nat) (cs : list constr).
Hypothesis P : program c assets fl iv lo hi cs.
Let mentions (es : list aexpr) : Prop := exists y v, In y es /\ In v (evars y).

Ltac parts H row E := 
  rewrite rbind_ok in H; destruct H as (l0 & H0 & H); rewrite rbind_ok in H; destruct H as (l1 & H1 & H); rewrite rbind_ok in H; destruct H as (l2 & H2 & H);
  rewrite rbind_ok in H; destruct H as (l3 & H3 & H); rewrite rbind_ok in H; destruct H as (l4 & H4 & H);
  rewrite rbind_ok in H; destruct H as (e0 & G0 & H); rewrite rbind_ok in H; destruct H as (e1 & G1 & H); rewrite rbind_ok in H; destruct H as (e2 & G2 & H);
  rewrite rbind_ok in H; destruct H as (e3 & G3 & H); rewrite rbind_ok in H; destruct H as (e4 & G4 & H); injection H as <-;
  apply at_interval_ok in H0, H1, H2, H3, H4; destruct H0 as (row & E & ->); destruct H1 as (row1 & E1 & ->); destruct H2 as (row2 & E2 & ->); destruct H3 as (row3 & E3 & ->); destruct H4 as (row4 & E4 & ->);
  assert (row1 = row) as -> by congruence; assert (row2 = row) as -> by congruence; assert (row3 = row) as -> by congruence; assert (row4 = row) as -> by congruence; clear E1 E2 E3 E4.

Ltac there G x := let y := fresh "y" in let Iy := fresh "Iy" in let Ey := fresh "Ey" in
  destruct (rmap_in _ _ _ x G) as (y & Iy & Ey); [apply filter_In; split; [assumption|first [assumption|reflexivity]]|].
Ltac found y v := exists y, v; split; [rewrite !in_app_iff; tauto|].

Lemma price_mentions t l : price_at iv (sc_idata c) t = Ok l ->
  ~ data (id_electricity_prices (sc_idata c)) t == 0 \/ ~ data (id_export_electricity_prices (sc_idata c)) t == 0 \/
  Exists is_spill_asset assets \/ (Exists burns_gas assets /\ ~ data (id_gas_prices (sc_idata c)) t == 0) -> mentions l.
Proof.
  intros H K. unfold price_at in H. parts H row E. pose proof (pr_shape _ _ _ _ _ _ _ P t row E) as SH.
  destruct K as [K|[K|[K|[K N]]]].
  - destruct (row_site _ _ _ _ _ SH) as (r & I & MS). there G0 (OISite r). found y (tio_import r).
    unfold price_site in Ey. rewrite rbind_ok in Ey. destruct Ey as (z & Z1 & Ey). rewrite rbind_ok in Ey. destruct Ey as (z2 & Z2 & Ey). injection Ey as <-.
    apply nth_res_data in Z1. rewrite Z1 in K. rewrite evars_esub, in_app_iff. left. now apply escale_var.
  - destruct (row_site _ _ _ _ _ SH) as (r & I & MS). there G0 (OISite r). found y (tio_export r).
    unfold price_site in Ey. rewrite rbind_ok in Ey. destruct Ey as (z & Z1 & Ey). rewrite rbind_ok in Ey. destruct Ey as (z2 & Z2 & Ey). injection Ey as <-.
    apply nth_res_data in Z2. rewrite Z2 in K. rewrite evars_esub, in_app_iff. right. now apply escale_var.
  - apply Exists_exists in K. destruct K as (a & Ia & K). destruct a; cbn in K; try tauto. destruct (row_asset _ _ _ _ _ _ SH Ia) as (xs & (r & -> & _) & I).
    assert (In (OISpill r) row) by (apply I; now left). there G1 (OISpill r). found y (soi_elec_gen r).
    eapply fmul_sum_in; [exact Ey|apply penalty_nonzero|]. now left.
  - apply Exists_exists in K. destruct K as (a & Ia & K). destruct a; cbn in K; try tauto; destruct (row_asset _ _ _ _ _ _ SH Ia) as (xs & (r & -> & _) & I).
    + assert (In (OIBoiler r) row) by (apply I; now left). there G4 (OIBoiler r). found y (kboi_gas r).
      unfold price_gas in Ey. rewrite rbind_ok in Ey. destruct Ey as (z & Z1 & Ey). apply nth_res_data in Z1. rewrite Z1 in N. eapply fmul_in; eauto.
    + assert (In (OICHP r) row) by (apply I; now left). there G3 (OICHP r). found y (coi_gas r).
      unfold price_gas in Ey. rewrite rbind_ok in Ey. destruct Ey as (z & Z1 & Ey). apply nth_res_data in Z1. rewrite Z1 in N. eapply fmul_in; eauto.
Qed.
Lemma carbon_mentions t l : carbon_at iv (sc_idata c) t = Ok l ->
  ~ data (id_electricity_carbon_intensities (sc_idata c)) t == 0 \/ Exists is_spill_asset assets \/ Exists burns_gas assets -> mentions l.
Proof.
  intros H K. unfold carbon_at in H. parts H row E. pose proof (pr_shape _ _ _ _ _ _ _ P t row E) as SH.
  destruct K as [K|[K|K]].
  - destruct (row_site _ _ _ _ _ SH) as (r & I & MS). there G0 (OISite r). found y (tio_import r).
    unfold carbon_site in Ey. rewrite rbind_ok in Ey. destruct Ey as (z & Z1 & Ey). injection Ey as <-.
    apply nth_res_data in Z1. rewrite Z1 in K. rewrite evars_esub, in_app_iff. left. now apply escale_var.
  - apply Exists_exists in K. destruct K as (a & Ia & K). destruct a; cbn in K; try tauto. destruct (row_asset _ _ _ _ _ _ SH Ia) as (xs & (r & -> & _) & I).
    assert (In (OISpill r) row) by (apply I; now left). there G1 (OISpill r). found y (soi_elec_gen r).
    eapply fmul_sum_in; [exact Ey|apply penalty_nonzero|]. now left.
  - apply Exists_exists in K. destruct K as (a & Ia & K). destruct a; cbn in K; try tauto; destruct (row_asset _ _ _ _ _ _ SH Ia) as (xs & (r & -> & _) & I).
    + assert (In (OIBoiler r) row) by (apply I; now left). there G4 (OIBoiler r). found y (kboi_gas r).
      eapply fmul_in; [exact Ey|apply intensity_nonzero].
    + assert (In (OICHP r) row) by (apply I; now left). there G3 (OICHP r). found y (coi_gas r).
      eapply fmul_in; [exact Ey|apply intensity_nonzero].
Qed.
Lemma horizon_mentions (F : nat -> res (list aexpr)) ls : rmap F (seq 0 (id_n (sc_idata c))) = Ok ls ->
  (exists t, (t < n_intervals c)%nat /\ forall l, F t = Ok l -> mentions l) -> exists v, In v (evars (esum (List.concat ls))).
Proof.
  rewrite rmap_ok. intros H (t & Ht & K). destruct (Forall2_in_l _ _ _ t H) as (l & Il & E); [apply in_seq; unfold n_intervals in Ht; lia|].
  destruct (K l E) as (y & v & Iy & Iv). exists v. rewrite evars_esum. apply in_flat_map. exists y. split; auto. apply in_concat. eauto.
Qed.
End Mentions.

Definition named_matters (name : string) : site_cfg -> list asset -> Prop := if name =? "price" then price_matters else carbon_matters.
Lemma named_mentions c assets cons name fl base iv o : is_named name -> (0 < n_intervals c)%nat -> named_matters name c assets ->
  build_program c assets cons (ObjName name) fl (new_optimizer base) = Ok (iv, o) -> exists v, In v (objective_variables o).
Proof.
  intros NM N0 K B. destruct (program_split _ _ _ _ _ _ _ _ B) as (o1 & o2 & cs & extra & e & _ & _ & P & _ & (o3 & G & _) & OE & _).
  unfold objective_variables. rewrite OE. cbn [get_objective] in G.
  assert (forall X : Prop, X -> exists t, (t < n_intervals c)%nat /\ X) as AT by (intros X HX; exists 0%nat; auto).
  destruct NM as [->| ->]; cbn [String.eqb Ascii.eqb Bool.eqb] in G; apply lift_ok in G; destruct G as [G _].
  - unfold price_objective in G. rewrite rbind_ok in G. destruct G as (ls & G & [= <-]). refine (horizon_mentions c _ _ G _).
    cbn in K. destruct K as [(t & Ht & K)|[(t & Ht & K)|[K|(K & t & Ht & L)]]].
    + exists t. split; auto. intros l El. eapply price_mentions; eauto.
    + exists t. split; auto. intros l El. eapply price_mentions; eauto.
    + exists 0%nat. split; auto. intros l El. eapply price_mentions; eauto.
    + exists t. split; auto. intros l El. eapply price_mentions; eauto 6.
  - unfold carbon_objective in G. rewrite rbind_ok in G. destruct G as (ls & G & [= <-]). refine (horizon_mentions c _ _ G _).
    cbn in K. destruct K as [(t & Ht & K)|[K|K]].
    + exists t. split; auto. intros l El. eapply carbon_mentions; eauto.
    + exists 0%nat. split; auto. intros l El. eapply carbon_mentions; eauto.
    + exists 0%nat. split; auto. intros l El. eapply carbon_mentions; eauto.
Qed.

(** ** C61: the optimizer finds a result exactly when the site can be operated *)
Record operable_setup (name : string) (c : site_cfg) (assets : list asset) (fl : flags) : Prop := mkSetup {
  ou_name : is_named name;
  ou_ready : site_ready c assets;
  ou_names : ordinary_site c assets;
  ou_separate : separate assets;
  ou_chp : Forall chp_fine assets;
  ou_sane : Forall (asset_sane (sc_freq c)) assets;
  ou_gas : name = "price" -> gas_tied c assets;
  ou_matters : named_matters name c assets;
  ou_spill : fail_on_spill_asset_use fl = false }.
Theorem C61_succeeds_iff_possible slv base c assets name fl : honest_solver slv -> decides slv base c assets [] (ObjName name) fl -> operable_setup name c assets fl ->
  (exists d, physical c assets fl d) <-> (exists r, optimize slv base c assets [] (ObjName name) fl = Ok r /\ r_feasible r = true).
Proof.
  intros HS DS [NM RD OS SEP CF SN GT MT FS]. split.
  - intros (d & PH). destruct (solvable_bounded base c assets name fl d NM RD CF SN GT PH) as (iv & o & s & b & B & F & BD).
    pose proof (DS iv o s b B F BD) as OK.
    refine (C54_accepted slv base c assets [] (ObjName name) fl iv o HS CF OS RD SEP _ B _ OK FS).
    + exact Logic.I.
    + left. left. eapply named_mentions; [exact NM|apply RD|exact MT|exact B].
  - intros (r & R1 & R2). destruct (run_facts slv base c assets [] (ObjName name) fl r) as (d & _ & FA).
    + constructor; auto. apply OS.
    + exists d. apply FA.
Qed.

(** and the result is the best of them *)
Theorem C61_price slv base c assets fl : sound_solver slv -> decides slv base c assets [] (ObjName "price") fl -> operable_setup "price" c assets fl ->
  (exists d, physical c assets fl d) ->
  exists r, optimize slv base c assets [] (ObjName "price") fl = Ok r /\ r_feasible r = true /\
    forall d, physical c assets fl d -> reported_cost c assets r <= dispatch_cost c assets d.
Proof.
  intros SS DS OU PO. pose proof (sound_honest _ SS) as HS. destruct (proj1 (C61_succeeds_iff_possible slv base c assets "price" fl HS DS OU) PO) as (r & R1 & R2).
  exists r. splits; auto. apply (C34_price_optimal slv base c assets fl r); auto; [|apply OU]. constructor; auto; apply OU.
Qed.
Theorem C61_carbon slv base c assets fl : sound_solver slv -> decides slv base c assets [] (ObjName "carbon") fl -> operable_setup "carbon" c assets fl ->
  (exists d, physical c assets fl d) ->
  exists r, optimize slv base c assets [] (ObjName "carbon") fl = Ok r /\ r_feasible r = true /\
    forall d, physical c assets fl d -> reported_emissions c assets r <= dispatch_emissions c assets d.
Proof.
  intros SS DS OU PO. pose proof (sound_honest _ SS) as HS. destruct (proj1 (C61_succeeds_iff_possible slv base c assets "carbon" fl HS DS OU) PO) as (r & R1 & R2).
  exists r. splits; auto. apply (C34_carbon_optimal slv base c assets fl r); auto; [|apply OU]. constructor; auto; apply OU.
Qed.
(** A site that cannot be operated: AssertionError, or with allow_infeasible a result that is marked infeasible. *)
Theorem C61_impossible slv base c assets name fl : honest_solver slv -> operable_setup name c assets fl ->
  (forall d, ~ physical c assets fl d) ->
  (allow_infeasible fl = false -> optimize slv base c assets [] (ObjName name) fl = Err AssertionErr) /\
  (allow_infeasible fl = true -> answering_solver slv -> exists r, optimize slv base c assets [] (ObjName name) fl = Ok r /\ r_feasible r = false).
Proof.
  intros HS OU NO. pose proof OU as [NM RD OS SEP CF SN GT MT FS]. destruct (program_builds c assets fl RD base name NM) as (iv & o & B).
  assert (sol_status (slv o) <> Optimal) as NOPT.
  { intros OK. destruct (C54_accepted slv base c assets [] (ObjName name) fl iv o HS CF OS RD SEP Logic.I B) as (r & R1 & R2); auto.
    - left. left. eapply named_mentions; [exact NM|apply RD|exact MT|exact B].
    - destruct (run_facts slv base c assets [] (ObjName name) fl r) as (d & _ & FA); [constructor; auto; apply OS|]. exact (NO d (fa_physical _ _ _ _ _ FA)). }
  split.
  - intros AI. eapply C50_raises; eauto.
  - intros AI AN. eapply C50_returns_infeasible; eauto. apply (C54_distinct c assets [] (ObjName name) fl base iv o SEP Logic.I B).
Qed.

(** ** C62: sites that can always be operated *)
(** With a Spill asset every site can be operated, whatever its loads, prices and grid limits, if the other assets can stand idle and the
    charge events can use the spill charger; a low temperature load needs a Valve as well. *)
Theorem C62_spill_always_possible c assets fl s : NoDup (map asset_name assets) -> Forall (undemanding (sc_freq c) fl (n_intervals c)) assets ->
  limits_not_negative c -> nonneg_site c assets -> data_ready (sc_idata c) -> In (ASpill s) assets ->
  (forall t, (t < n_intervals c)%nat -> lt_shortage c t <= 0) \/ (exists v, In (AValve v) assets) ->
  exists d, physical c assets fl d.
Proof.
  intros ND UN LM (P1 & P2 & _) DR IS LT.
  assert (forall l t, Forall (fun x => 0 <= x) l -> 0 <= data l t) as DN.
  { intros l t F. unfold data. destruct (nth_in_or_default t l 0) as [K| ->]; [|lra]. rewrite Forall_forall in F. auto. }
  destruct LT as [LT|(v & IV)].
  - apply (spill_covers c assets fl ND UN LM s None IS); [discriminate|]. intros t Ht. splits; auto.
  - apply (spill_covers c assets fl ND UN LM s (Some v) IS); [intros w [= <-]; auto|]. intros t Ht. splits; eauto.
Qed.
Theorem C62_spill_always_solved slv base c assets name fl s : honest_solver slv -> decides slv base c assets [] (ObjName name) fl -> is_named name -> (name = "price" -> gas_tied c assets) ->
  site_ready c assets -> ordinary_site c assets -> separate assets -> Forall chp_fine assets -> Forall (asset_sane (sc_freq c)) assets ->
  Forall (undemanding (sc_freq c) fl (n_intervals c)) assets -> limits_not_negative c -> In (ASpill s) assets ->
  (forall t, (t < n_intervals c)%nat -> lt_shortage c t <= 0) \/ (exists v, In (AValve v) assets) -> fail_on_spill_asset_use fl = false ->
  exists r, optimize slv base c assets [] (ObjName name) fl = Ok r /\ r_feasible r = true.
Proof.
  intros HS DS NM GT RD OS SEP CF SN UN LM IS LT FS. apply (C61_succeeds_iff_possible slv base c assets name fl HS DS).
  - constructor; auto. unfold named_matters. assert (Exists is_spill_asset assets) as EX by (apply Exists_exists; exists (ASpill s); split; [auto|exact Logic.I]).
    destruct (name =? "price"); [right; right; now left|right; now left].
  - eapply C62_spill_always_possible; eauto; [apply RD|apply OS|apply RD].
Qed.
(** Without a Spill asset: the grid connection covers the load and the cars, and there is no heat load. *)
Theorem C62_grid_covers c assets fl : NoDup (map asset_name assets) -> Forall (undemanding (sc_freq c) fl (n_intervals c)) assets -> limits_not_negative c ->
  (forall t, (t < n_intervals c)%nat -> 0 <= data (id_electric_load_mwh (sc_idata c)) t /\
     data (id_electric_load_mwh (sc_idata c)) t + ev_demand assets <= energy (sc_freq c) (sc_import_limit_mw c) /\
     data (id_high_temperature_load_mwh (sc_idata c)) t == 0 /\ lt_shortage c t == 0) ->
  exists d, physical c assets fl d.
Proof. intros ND UN LM H. exact (import_covers c assets fl ND UN LM H). Qed.
(** A Spill asset is no source of low temperature heat: without CHP and Valve nothing covers a low temperature load. *)
Theorem C62_spill_low_temperature_refuted c assets fl t : (t < n_intervals c)%nat -> 0 < lt_shortage c t ->
  (forall a, In a assets -> match a with ACHP _ | AValve _ => False | _ => True end) -> forall d, ~ physical c assets fl d.
Proof.
  intros Ht LT NS d [PT PA]. destruct (PT t Ht) as (_ & _ & _ & B). unfold low_temperature_balanced in B. unfold lt_shortage in LT.
  rewrite (total_zero (lt_gen d t)) in B by (intros a J; specialize (NS a J); destruct a; cbn in *; tauto || reflexivity).
  assert (0 <= total (lt_load d t) assets) as P.
  { unfold total. apply Qsum_map_nonneg. intros a J. specialize (PA a J). specialize (NS a J). destruct a as [b|b|b|b|b|b|x|x]; cbn [lt_load asset_name asset_physical] in *; try lra.
    - unfold hp_physical in PA. specialize (PA t Ht). cbv zeta in PA. intuition.
    - unfold spill_physical in PA. specialize (PA t Ht). cbv zeta in PA. intuition. }
  lra.
Qed.
