(** * PropResults: the results table, its totals, its checks, the spill flag and infeasible programs (C37-C40, C50) *)
From Coq Require Import Permutation.
From Verif Require Import Base Pulp Params Optimizer Types Assets EVs Site Constraints Objectives Extract Pipeline Emit Prim Spec SpecReport SpecRun SpecNames SpecTotals Layout Rows Sem SemEv SemSite SemProg SemObj SemCells SemRows SemTable SemResults RunFacts Builds ExtractOk Totals Totals2 Returns RowNames.
Open Scope Q_scope.
Open Scope string_scope.

(** ** C37 *)
(** The table reports the dispatch the solver found, and has no other columns than the ones of the site, of the assets
    and the twelve columns added afterwards; no two quantities share a column. *)
Theorem C37_table_is_solution slv base c assets cons obj fl r : feasible_run slv base c assets cons obj fl r ->
  exists d, solution_of slv base c assets cons obj fl d /\ physical c assets fl d /\ reports (r_results r) c assets d /\
    (forall t, NoDup (map fst (all_cells c assets d t))) /\
    (forall t, Permutation (map fst (r_results r))
       (map fst (all_cells c assets d t) ++ map (fun q => ("total-" ++ q)%string) quantity_names
         ++ ["total-spills_mwh"; "total-electric_loss_mwh"; "site-electricity_balance_mwh"])%list).
Proof.
  intros [SND OPT FE CF NM]. destruct (optimize_run _ _ _ _ _ _ _ _ SND CF NM OPT FE) as (iv & o & s & lp & rows & R).
  destruct (program_split _ _ _ _ _ _ _ _ (run_built _ _ _ _ _ _ _ _ _ _ _ _ _ R)) as (o1 & o2 & cs & extra & e & _ & _ & P & _).
  exists (d_of s iv).
  assert (forall t, Permutation (map fst lp) (map fst (all_cells c assets (d_of s iv) t))) as PM.
  { intros t. rewrite (to_names _ _ _ (run_table _ _ _ _ _ _ _ _ _ _ _ _ _ R)). rewrite (row_names c assets _ 0 (d_of s iv) t). apply Permutation_map, row_perm. }
  splits.
  - exists iv, o, s. splits; try apply R. apply eq_reads. eapply vals_eq; [exact P|apply R].
  - apply R.
  - eapply run_reports; eauto.
  - intros t. eapply Permutation_NoDup; [apply PM|]. rewrite (to_names _ _ _ (run_table _ _ _ _ _ _ _ _ _ _ _ _ _ R)). apply R.
  - intros t. destruct (run_totals _ _ _ _ _ _ _ _ _ _ _ _ _ R) as (imp & exp & _ & _ & ->). rewrite map_app. apply Permutation_app; [apply PM|]. apply Permutation_refl.
Qed.

(** ** C38 *)
Section run.
Context slv base c assets cons obj fl r (FR : feasible_run slv base c assets cons obj fl r).

Lemma run_ctx : exists d lp rows imp exp, facts (r_results r) c assets fl d /\
  Forall2 (fun t row => row_is row (row_cells c assets d t)) (seq 0 (n_intervals c)) rows /\ table_of (map fst (row_cells c assets d 0)) rows lp /\
  r_results r = (lp ++ totals lp imp exp)%list /\ NoDup (map fst (r_results r)) /\ n_rows lp = n_intervals c.
Proof.
  destruct FR as [SND OPT FE CF NM]. destruct (optimize_run _ _ _ _ _ _ _ _ SND CF NM OPT FE) as (iv & o & s & lp & rows & R).
  destruct (program_split _ _ _ _ _ _ _ _ (run_built _ _ _ _ _ _ _ _ _ _ _ _ _ R)) as (o1 & o2 & cs & extra & e & _ & _ & P & _).
  destruct (run_totals _ _ _ _ _ _ _ _ _ _ _ _ _ R) as (imp & exp & A1 & A2 & A3). pose proof (run_n _ _ _ _ _ _ _ _ _ _ _ _ _ R) as H.
  pose proof (run_table _ _ _ _ _ _ _ _ _ _ _ _ _ R) as TB.
  exists (d_of s iv), lp, rows, imp, exp. splits; try apply R; auto.
  - constructor; [eapply run_reports; eauto|apply R|exact H| |apply P].
    apply (pr_fine _ _ _ _ _ _ _ P). intros X. pose proof (pr_len _ _ _ _ _ _ _ P) as L. rewrite X in L. cbn in L. lia.
  - eapply run_reports; eauto.
  - assert (List.length rows = n_intervals c) as LR by (rewrite <- (Forall2_len _ _ _ (run_rows _ _ _ _ _ _ _ _ _ _ _ _ _ R)), seq_length; reflexivity).
    destruct lp as [|[n cl] lp']; [discriminate|]. cbn. rewrite <- LR. apply (to_len _ _ _ TB n). now left.
Qed.
Lemma num_of_cells (R : table) nm cells t x : NoDup (map fst R) -> In (nm, cells) R -> nth_error cells t = Some (Some x) -> num R nm t = x.
Proof. intros ND I E. unfold num. rewrite (in_assoc _ _ _ ND I). erewrite nth_error_nth; [|exact E]. reflexivity. Qed.
Lemma total_reported q t : ordinary_names c assets -> In q quantities -> (t < n_intervals c)%nat ->
  exists d, facts (r_results r) c assets fl d /\ num (r_results r) ("total-" ++ q) t == of_site q c t + total (of_quantity q d t) assets.
Proof.
  intros ON Iq Ht. destruct run_ctx as (d & lp & rows & imp & exp & FA & RW & TB & E & ND & NR). exists d. split; [exact FA|].
  destruct (total_at c assets d rows lp RW TB q t ON (fa_fine _ _ _ _ _ FA) Iq Ht) as (x & X1 & X2). rewrite <- X2.
  erewrite num_of_cells; [reflexivity|exact ND| |exact X1]. rewrite E. apply in_app_iff. right. unfold totals. apply in_app_iff. left. apply in_map_iff. exists q. split; [reflexivity|exact Iq].
Qed.
End run.

(** Every total column is the sum of its quantity over the assets and the site's own data, in every interval. *)
Theorem C38_total_columns slv base c assets cons obj fl r : feasible_run slv base c assets cons obj fl r -> ordinary_names c assets ->
  forall t, (t < n_intervals c)%nat ->
  let all q := num (r_results r) ("total-" ++ q) t in
  let own l := data (l (sc_idata c)) t in
  all "electric_generation_mwh" == total (r_elec_gen r t) assets /\
  all "electric_load_mwh" == own id_electric_load_mwh + total (r_elec_load r t) assets /\
  all "high_temperature_generation_mwh" == total (r_ht_gen r t) assets /\
  all "low_temperature_generation_mwh" == own id_low_temperature_generation_mwh + total (r_lt_gen r t) assets /\
  all "high_temperature_load_mwh" == own id_high_temperature_load_mwh + total (r_ht_load r t) assets /\
  all "low_temperature_load_mwh" == own id_low_temperature_load_mwh + total (r_lt_load r t) assets /\
  all "gas_consumption_mwh" == total (r_gas r t) assets /\
  all "electric_charge_mwh" == total (r_charge r t) assets /\
  all "electric_discharge_mwh" == total (r_discharge r t) assets.
Proof.
  intros FR ON t Ht all own. unfold all, own.
  assert (forall q, In q quantities -> exists d, facts (r_results r) c assets fl d /\ num (r_results r) ("total-" ++ q) t == of_site q c t + total (of_quantity q d t) assets) as K by (intros q Iq; eapply total_reported; eauto).
  splits.
  all: match goal with |- num _ ("total-" ++ ?q) _ == _ => destruct (K q) as (d & FA & E); [cbn; tauto|]; rewrite E end.
  all: unfold of_site, of_quantity; cbn [String.eqb Ascii.eqb Bool.eqb].
  all: rewrite ?Qplus_0_l; try (apply Qplus_comp; [reflexivity|]); symmetry; unfold total; apply Qsum_map_ext; intros a Ia; apply (bridge r c assets fl d FA t a Ia Ht).
Qed.

(** *** losses and spills *)
Lemma none_cells_of d t a n : In (n, None) (asset_cells d t a) -> exists x attr, n = column x attr /\ In attr ["electric_charge_binary"; "electric_discharge_binary"] /\
  match a with AEVs c => exists cc, In cc (parts c) /\ x = column (ev_name c) (cg_name cc) | _ => x = asset_name a end.
Proof.
  destruct a as [b|b|b|b|b|b|m|m]; cbn [asset_cells asset_name].
  4:{ rewrite in_app_iff. unfold ev_main_cells. rewrite !in_app_iff, !in_flat_map. unfold ev_spill_columns, ev_soc_report. cbv zeta. rewrite in_app_iff, !in_map_iff, in_flat_map.
      intros [[([k cc] & J & H)|[([e ec] & _ & H)|[(e & H & _)|(e & H & _)]]]|(cc & J & H)]; try discriminate.
      - apply enumerate_in in J. apply nth_error_In in J. cbn [ev_charger_report fst snd In] in H. repeat (destruct H as [H|H]; [first [discriminate H|injection H as <-; eexists _, _; splits; [reflexivity|cbn; tauto|exists cc; split; [unfold parts; apply in_app_iff; now left|reflexivity]]]|]). destruct H.
      - cbn [ev_event_report fst snd In] in H. repeat (destruct H as [H|H]; [discriminate H|]). destruct H.
      - cbn [ev_spill_report fst snd In] in H. repeat (destruct H as [H|H]; [first [discriminate H|injection H as <-; eexists _, _; splits; [reflexivity|cbn; tauto|exists cc; split; [unfold parts; apply in_app_iff; now right|reflexivity]]]|]). destruct H. }
  all: cbn [In]; intros H; repeat (destruct H as [H|H]; [first [discriminate H|injection H as <-; eexists _, _; splits; [reflexivity|cbn; tauto|reflexivity]]|]); destruct H.
Qed.
Lemma binary_col x attr : In attr ["electric_charge_binary"; "electric_discharge_binary"] -> contains "charge_binary" (column x attr) = true.
Proof.
  intros I. unfold column. cbn [In] in I. destruct I as [<-|[<-|[]]].
  - exact (contains_mid "charge_binary" x "-electric_charge_binary" "" eq_refl).
  - exact (contains_mid "charge_binary" x "-electric_discharge_binary" "" eq_refl).
Qed.
Lemma binary_col' x attr : In attr ["electric_charge_binary"; "electric_discharge_binary"] -> contains "binary" (column x attr) = true.
Proof.
  intros I. unfold column. cbn [In] in I. destruct I as [<-|[<-|[]]].
  - exact (contains_mid "binary" x "-electric_charge_binary" "" eq_refl).
  - exact (contains_mid "binary" x "-electric_discharge_binary" "" eq_refl).
Qed.
Lemma cells_sum_assets p c assets d t (g : asset -> Q) : cells_sum p (site_cells c d t) == 0 -> (forall a, In a assets -> cells_sum p (asset_cells d t a) == g a) ->
  cells_sum p (all_cells c assets d t) == total g assets.
Proof. intros H0 H. unfold all_cells. rewrite cells_sum_app, H0, cells_sum_flat, Qplus_0_l. unfold total. now apply Qsum_map_ext. Qed.
Lemma enum_seq {A} (l : list A) (f : nat -> Q) : Qsum (map (fun kx : nat * A => f (fst kx)) (enumerate l)) == Qsum (map f (seq 0 (List.length l))).
Proof. rewrite <- enum_from_seq, map_map. reflexivity. Qed.

Section bridges.
Context (r : sim_result) (c : site_cfg) (assets : list asset) (fl : flags) (d : dispatch).
Hypothesis FA : facts (r_results r) c assets fl d.
Lemma lost_bridge t a : In a assets -> (t < n_intervals c)%nat -> r_lost r t a == lost d t a.
Proof.
  intros Ia Ht. destruct a as [b|b|b|b|b|b|m|m]; cbn [r_lost lost]; try reflexivity.
  - eapply rep_qty; eauto. cbn [asset_cells In asset_name]. tauto.
  - unfold rep_chargers. rewrite Qsum_exchange. apply Qsum_index. intros k cc E. exact (proj2 (proj2 (charger_reported _ _ _ _ _ FA b k cc t Ia Ht E))).
Qed.
Lemma ev_spilled_bridge t a : In a assets -> (t < n_intervals c)%nat -> r_ev_spilled r t a == ev_spilled d t a.
Proof.
  intros Ia Ht. destruct a as [b|b|b|b|b|b|m|m]; cbn [r_ev_spilled ev_spilled]; try reflexivity.
  pose proof (fa_fine_at _ _ _ _ _ FA t _ Ht Ia) as FN. cbn in FN. destruct FN as (L1 & _ & _). destruct (ev_spill_chargers b) as [|cc [|? ?]] eqn:SP; try discriminate.
  unfold rep_chargers. cbn [map Qsum fold_right]. destruct (spill_reported _ _ _ _ _ FA b cc t Ia Ht) as (S1 & _ & S2); [rewrite SP; now left|]. unfold Qsum in *. rewrite S1, S2. ring.
Qed.
Lemma dumped_bridge t a : In a assets -> (t < n_intervals c)%nat -> r_dumped r t a == dumped d t a.
Proof.
  intros Ia Ht. destruct a as [b|b|b|b|b|b|m|m]; cbn [r_dumped dumped]; try reflexivity.
  assert (forall attr q, In (column m attr, Some (d_qty d m q t)) (asset_cells d t (ASpill m)) -> rep r m attr t == d_qty d m q t) as K by (intros attr q I; exact (rep_qty _ _ _ _ _ FA (ASpill m) t attr q Ia Ht I)).
  rewrite (K "electric_generation_mwh" ElecGen), (K "electric_load_mwh" ElecLoad), (K "high_temperature_generation_mwh" HtGen), (K "low_temperature_load_mwh" LtLoad); [reflexivity|..]; cbn [asset_cells In asset_name]; tauto.
Qed.
End bridges.

(** The loss total: batteries and EV chargers, each once; the losses of the spill charger are not in it. *)
Theorem C38_loss_column slv base c assets cons obj fl r : feasible_run slv base c assets cons obj fl r ->
  Forall ordinary_loss assets -> no_data_with "electric_loss_mwh" c ->
  forall t, (t < n_intervals c)%nat -> num (r_results r) "total-electric_loss_mwh" t == total (r_lost r t) assets.
Proof.
  intros FR OL ND t Ht. destruct (run_ctx _ _ _ _ _ _ _ _ FR) as (d & lp & rows & imp & exp & FA & RW & TB & E & NDR & NR). rewrite Forall_forall in OL.
  destruct (col_sum_at c assets d rows lp RW TB is_loss_col t Ht) as (x & X1 & X2).
  { intros n I. destruct (none_all _ _ _ _ _ I) as (a & Ia & J). specialize (OL a Ia). destruct (none_cells_of _ _ _ _ J) as (y & attr & -> & At & W).
    assert (contains "electric_loss_mwh" y = false) as Y by (destruct a; cbn [ordinary_loss] in OL; try (destruct OL; congruence); destruct W as (cc & Ic & ->); apply OL; exact Ic).
    rewrite loss_col; [|exact Y|cbn [In] in At; cbn [cell_attrs In]; tauto]. cbn [In] in At. destruct At as [<-|[<-|[]]]; reflexivity. }
  assert (num (r_results r) "total-electric_loss_mwh" t = x) as ->.
  { eapply num_of_cells; [exact NDR| |exact X1]. rewrite E. apply in_app_iff. right. unfold totals. apply in_app_iff. right. right. now left. }
  rewrite X2. rewrite (cells_sum_assets is_loss_col c assets d t (lost d t)); [|now apply loss_site|intros a Ia; apply loss_asset; auto].
  unfold total. apply Qsum_map_ext. intros a Ia. symmetry. eapply lost_bridge; eauto.
Qed.

Lemma no_spill_site c d t p : (forall n, contains "spill" n = false -> p n = false) -> no_data_with "spill" c -> cells_sum p (site_cells c d t) == 0.
Proof.
  intros NP ND. apply cells_sum_none. intros n oq I. apply NP. unfold site_cells in I. destruct I as [I|[I|I]]; try (injection I as <- _; reflexivity).
  apply in_map_iff in I. destruct I as ([m l] & E & J). injection E as <- _. cbn [fst]. change (String "s" (String "i" (String "t" (String "e" (String "-" m))))) with ("site-" ++ m). rewrite site_word by (cbn; tauto). unfold id_columns in J. apply in_app_iff in J. destruct J as [J|J]; [|apply (ND _ J)].
  cbn [In] in J. repeat (destruct J as [J|J]; [injection J as <- _; reflexivity|]). destruct J.
Qed.
(** The spill total: what the EV spill chargers report, energy and losses; what Spill assets report is not in it. *)
Theorem C38_spill_column slv base c assets cons obj fl r : feasible_run slv base c assets cons obj fl r ->
  Forall ordinary_spill assets -> no_data_with "spill" c ->
  forall t, (t < n_intervals c)%nat -> num (r_results r) "total-spills_mwh" t == total (r_ev_spilled r t) assets.
Proof.
  intros FR OL ND t Ht. destruct (run_ctx _ _ _ _ _ _ _ _ FR) as (d & lp & rows & imp & exp & FA & RW & TB & E & NDR & NR). rewrite Forall_forall in OL.
  destruct (col_sum_at c assets d rows lp RW TB is_spill_total_col t Ht) as (x & X1 & X2).
  { intros n I. destruct (none_all _ _ _ _ _ I) as (a & Ia & J). destruct (none_cells_of _ _ _ _ J) as (y & attr & -> & At & W). unfold is_spill_total_col. rewrite binary_col' by exact At. now rewrite andb_false_r. }
  assert (num (r_results r) "total-spills_mwh" t = x) as ->.
  { eapply num_of_cells; [exact NDR| |exact X1]. rewrite E. apply in_app_iff. right. unfold totals. apply in_app_iff. right. now left. }
  pose proof (fa_fine _ _ _ _ _ FA) as AF. rewrite Forall_forall in AF.
  rewrite X2. rewrite (cells_sum_assets is_spill_total_col c assets d t (ev_spilled d t)); [|apply no_spill_site; [intros n H; unfold is_spill_total_col; now rewrite H|exact ND]|intros a Ia; apply spill_total_asset; auto].
  unfold total. apply Qsum_map_ext. intros a Ia. symmetry. eapply ev_spilled_bridge; eauto.
Qed.
