(** * RunFacts: from a feasible result to its dispatch (proofs) *)
From Verif Require Import Base Pulp Params Optimizer Types Assets EVs Site Constraints Objectives Extract Pipeline Emit Prim Spec SpecReport SpecRun Layout Rows Sem SemEv SemSite SemProg SemObj SemCells SemRows SemTable SemResults.
Open Scope Q_scope.
Open Scope string_scope.

Lemma eq_reads d s iv : eq_of d s iv -> reads d s iv.
Proof.
  intros H t row E. specialize (H t row E). rewrite Forall_forall in *. intros x I. specialize (H x I).
  destruct x; cbn [oi_eq oi_val oi_reads] in *; cbv zeta in *; unfold vset in *; auto; repeat match goal with K : _ /\ _ |- _ => destruct K end; splits; match goal with K : _ = ?y |- _ == ?y => rewrite K; reflexivity end.
Qed.

(** all the facts about one result *)
Record facts (r : table) (c : site_cfg) (assets : list asset) (fl : flags) (d : dispatch) : Prop := mkFacts {
  fa_reports : reports r c assets d;
  fa_physical : physical c assets fl d;
  fa_n : (0 < n_intervals c)%nat;
  fa_fine : Forall asset_fine assets;
  fa_names : NoDup (map asset_name assets) }.

Lemma run_facts slv base c assets cons obj fl r : feasible_run slv base c assets cons obj fl r ->
  exists d, solution_of slv base c assets cons obj fl d /\ facts (r_results r) c assets fl d.
Proof.
  intros [SND OPT FE CF NM]. destruct (optimize_run _ _ _ _ _ _ _ _ SND CF NM OPT FE) as (iv & o & s & lp & rows & R).
  destruct (program_split _ _ _ _ _ _ _ _ (run_built _ _ _ _ _ _ _ _ _ _ _ _ _ R)) as (o1 & o2 & cs & extra & e & _ & _ & P & _).
  exists (d_of s iv). split.
  - exists iv, o, s. splits; try apply R. apply eq_reads. eapply vals_eq; [exact P|apply R].
  - pose proof (run_n _ _ _ _ _ _ _ _ _ _ _ _ _ R) as H. constructor; [eapply run_reports; eauto|apply R|exact H| |apply P].
    apply (pr_fine _ _ _ _ _ _ _ P). intros X. pose proof (pr_len _ _ _ _ _ _ _ P) as L. rewrite X in L. cbn in L. lia.
Qed.

Section Reported.
Context (r : table) (c : site_cfg) (assets : list asset) (d : dispatch).
Hypothesis RP : reports r c assets d.

Lemma num_cell t col q : (t < n_intervals c)%nat -> In (col, Some q) (all_cells c assets d t) -> num r col t == q.
Proof.
  intros Ht I. destruct RP as (LN & ND & SH). destruct (SH _ _ _ Ht I) as (cells & x & C1 & C2 & C3).
  unfold num. rewrite (in_assoc _ _ _ ND C1). rewrite (nth_error_nth _ _ _ C2). exact C3.
Qed.
Lemma num_site t col q : (t < n_intervals c)%nat -> In (col, Some q) (site_cells c d t) -> num r col t == q.
Proof. intros Ht I. apply num_cell; auto. unfold all_cells. apply in_app_iff. now left. Qed.
Lemma num_asset a t col q : In a assets -> (t < n_intervals c)%nat -> In (col, Some q) (asset_cells d t a) -> num r col t == q.
Proof. intros Ia Ht I. apply num_cell; auto. unfold all_cells. apply in_app_iff. right. apply in_flat_map. eauto. Qed.
Lemma num_import t : (t < n_intervals c)%nat -> num r "site-import_power_mwh" t == d_import d t.
Proof. intros Ht. apply num_site; auto. now left. Qed.
Lemma num_export t : (t < n_intervals c)%nat -> num r "site-export_power_mwh" t == d_export d t.
Proof. intros Ht. apply num_site; auto. right. now left. Qed.
End Reported.
Arguments num_asset {r c assets d} RP a t col q _ _ _.

Lemma Qsum_exchange {A B} (f : A -> B -> Q) l m :
  Qsum (map (fun x => Qsum (map (f x) m)) l) == Qsum (map (fun y => Qsum (map (fun x => f x y) l)) m).
Proof.
  induction l as [|x l IH]; cbn [map].
  - symmetry. apply Qsum_map_zero. reflexivity.
  - change (Qsum (map (f x) m) + Qsum (map (fun x => Qsum (map (f x) m)) l) == Qsum (map (fun y => f x y + Qsum (map (fun x => f x y) l)) m)).
    rewrite IH, Qsum_map_plus. reflexivity.
Qed.
Lemma Qsum_index {A} (l : list A) (g : A -> Q) (h : nat -> Q) : (forall k x, nth_error l k = Some x -> g x == h k) ->
  Qsum (map g l) == Qsum (map h (seq 0 (List.length l))).
Proof.
  assert (forall n, (forall k x, nth_error l k = Some x -> g x == h (n + k)%nat) -> Qsum (map g l) == Qsum (map h (seq n (List.length l)))) as G.
  { induction l as [|x l IH]; intros n H; [reflexivity|]. cbn [map List.length seq].
    change (g x + Qsum (map g l) == h n + Qsum (map h (seq (S n) (List.length l)))). rewrite (IH (S n)).
    - rewrite (H 0%nat x eq_refl), Nat.add_0_r. reflexivity.
    - intros k y E. rewrite (H (S k) y E). now rewrite Nat.add_succ_r. }
  intros H. now apply (G 0%nat).
Qed.

Section Bridge.
Context (r : sim_result) (c : site_cfg) (assets : list asset) (fl : flags) (d : dispatch).
Hypothesis FA : facts (r_results r) c assets fl d.

Lemma fa_fine_at (t : nat) a : (t < n_intervals c)%nat -> In a assets -> asset_fine a.
Proof. intros Ht Ia. pose proof (fa_fine _ _ _ _ _ FA) as F. rewrite Forall_forall in F. auto. Qed.
Lemma rep_qty a t attr q : In a assets -> (t < n_intervals c)%nat ->
  In (column (asset_name a) attr, Some (d_qty d (asset_name a) q t)) (asset_cells d t a) -> rep r (asset_name a) attr t == d_qty d (asset_name a) q t.
Proof. intros Ia Ht I. unfold rep. eapply num_asset; eauto. apply FA. Qed.
Lemma rep_zero a t attr : In a assets -> (t < n_intervals c)%nat -> In (column (asset_name a) attr, Some 0) (asset_cells d t a) -> rep r (asset_name a) attr t == 0.
Proof. intros Ia Ht I. unfold rep. eapply num_asset; eauto. apply FA. Qed.
Lemma main_cell e t col q : In (AEVs e) assets -> (t < n_intervals c)%nat -> In (col, Some q) (ev_main_cells d t e) -> num (r_results r) col t == q.
Proof. intros Ia Ht I. eapply num_asset; eauto; [apply FA|]. cbn [asset_cells]. apply in_app_iff. now left. Qed.

Lemma charger_reported e k cc t : In (AEVs e) assets -> (t < n_intervals c)%nat -> nth_error (ev_chargers e) k = Some cc ->
  let over f := Qsum (map f (seq 0 (List.length (ev_event_cfgs e)))) in
  rep_part r e (cg_name cc) "electric_charge_mwh" t == over (fun i => d_ev_charge d (ev_name e) i k t) /\
  rep_part r e (cg_name cc) "electric_discharge_mwh" t == over (fun i => d_ev_discharge d (ev_name e) i k t) /\
  rep_part r e (cg_name cc) "electric_loss_mwh" t == over (fun i => d_ev_loss d (ev_name e) i k t).
Proof.
  intros Ia Ht E over. unfold rep_part, rep. splits; (eapply main_cell; [eauto|auto|]); unfold ev_main_cells; apply in_app_iff; left; apply in_flat_map; exists (k, cc); (split; [now apply enumerate_in|]); cbn [ev_charger_report fst snd In]; tauto.
Qed.
Lemma event_reported e i ec t : In (AEVs e) assets -> (t < n_intervals c)%nat -> nth_error (ev_event_cfgs e) i = Some ec ->
  let over f := Qsum (map f (seq 0 (List.length (ev_chargers e)))) in
  rep_part r e (ce_name ec) "electric_charge_mwh" t == over (fun k => d_ev_charge d (ev_name e) i k t) /\
  rep_part r e (ce_name ec) "electric_discharge_mwh" t == over (fun k => d_ev_discharge d (ev_name e) i k t) /\
  rep_part r e (ce_name ec) "electric_loss_mwh" t == over (fun k => d_ev_loss d (ev_name e) i k t).
Proof.
  intros Ia Ht E over. unfold rep_part, rep. splits; (eapply main_cell; [eauto|auto|]); unfold ev_main_cells; apply in_app_iff; right; apply in_app_iff; left; apply in_flat_map; exists (i, ec); (split; [now apply enumerate_in|]); cbn [ev_event_report fst snd In]; tauto.
Qed.
Lemma soc_reported e i t : In (AEVs e) assets -> (t < n_intervals c)%nat -> (i < List.length (ev_event_cfgs e))%nat ->
  rep_event_soc r e i "initial_soc_mwh" t == d_ev_soc0 d (ev_name e) i t /\ rep_event_soc r e i "final_soc_mwh" t == d_ev_soc1 d (ev_name e) i t.
Proof.
  intros Ia Ht Hi. unfold rep_event_soc, rep. splits; (eapply main_cell; [eauto|auto|]); unfold ev_main_cells; apply in_app_iff; right; apply in_app_iff; right; unfold ev_soc_report; cbv zeta; apply in_app_iff;
    [left|right]; apply in_map_iff; exists i; (split; [reflexivity|apply in_seq; lia]).
Qed.
Lemma spill_reported e cc t : In (AEVs e) assets -> (t < n_intervals c)%nat -> In cc (ev_spill_chargers e) ->
  let over f := Qsum (map f (seq 0 (List.length (ev_event_cfgs e)))) in
  rep_part r e (cg_name cc) "electric_charge_mwh" t == over (fun i => d_spill_charge d (ev_name e) i t) /\
  rep_part r e (cg_name cc) "electric_discharge_mwh" t == 0 /\
  rep_part r e (cg_name cc) "electric_loss_mwh" t == over (fun i => d_spill_loss d (ev_name e) i t).
Proof.
  intros Ia Ht E over. unfold rep_part, rep. splits; (eapply num_asset; [apply FA|eauto|auto|]); cbn [asset_cells]; apply in_app_iff; right; unfold ev_spill_columns; apply in_flat_map; exists cc; (split; [exact E|]); cbn [ev_spill_report In]; tauto.
Qed.

Lemma evs_charge_reported e t : In (AEVs e) assets -> (t < n_intervals c)%nat ->
  rep_chargers r e (ev_chargers e ++ ev_spill_chargers e) "electric_charge_mwh" t == ev_total_charge d t e + ev_spill_total d t e /\
  rep_chargers r e (ev_chargers e ++ ev_spill_chargers e) "electric_discharge_mwh" t == ev_total_discharge d t e.
Proof.
  intros Ia Ht. pose proof (fa_fine_at t _ Ht Ia) as FN. cbn in FN. destruct FN as (L1 & _ & _).
  destruct (ev_spill_chargers e) as [|cc [|? ?]] eqn:SP; try discriminate.
  destruct (spill_reported e cc t Ia Ht) as (S1 & S2 & _); [rewrite SP; now left|].
  unfold rep_chargers. rewrite !map_app. split; rewrite Qsum_app; cbn [map Qsum fold_right].
  - rewrite S1. rewrite (Qsum_index (ev_chargers e) _ (fun k => Qsum (map (fun i => d_ev_charge d (ev_name e) i k t) (seq 0 (List.length (ev_event_cfgs e)))))).
    + unfold ev_total_charge, ev_spill_total. rewrite (Qsum_exchange (fun i k => d_ev_charge d (ev_name e) i k t)). ring.
    + intros k x E. apply (charger_reported e k x t Ia Ht E).
  - rewrite S2. rewrite (Qsum_index (ev_chargers e) _ (fun k => Qsum (map (fun i => d_ev_discharge d (ev_name e) i k t) (seq 0 (List.length (ev_event_cfgs e)))))).
    + unfold ev_total_discharge. rewrite (Qsum_exchange (fun i k => d_ev_discharge d (ev_name e) i k t)). ring.
    + intros k x E. apply (charger_reported e k x t Ia Ht E).
Qed.

Lemma bridge t a : In a assets -> (t < n_intervals c)%nat ->
  (r_elec_gen r t a == elec_gen d t a /\ r_elec_load r t a == elec_load d t a /\ r_charge r t a == charge d t a /\ r_discharge r t a == discharge d t a) /\
  (r_ht_gen r t a == ht_gen d t a /\ r_ht_load r t a == ht_load d t a /\ r_lt_gen r t a == lt_gen d t a /\ r_lt_load r t a == lt_load d t a) /\
  r_gas r t a == gas_use d t a.
Proof.
  intros Ia Ht.
  destruct a as [b|b|b|b|b|b|nm|nm]; cbn [r_elec_gen r_elec_load r_charge r_discharge r_ht_gen r_ht_load r_lt_gen r_lt_load r_gas
     elec_gen elec_load charge discharge ht_gen ht_load lt_gen lt_load gas_use];
  repeat match goal with |- _ /\ _ => split end; try reflexivity;
  try (apply (evs_charge_reported b t Ia Ht));
  try (apply rep_qty; auto; cbn [asset_cells In asset_name]; tauto);
  try (apply rep_zero; auto; cbn [asset_cells In asset_name]; tauto).
Qed.
Lemma bridge_total (g h : nat -> asset -> Q) t : (forall a, In a assets -> g t a == h t a) -> total (g t) assets == total (h t) assets.
Proof. intros H. unfold total. now apply Qsum_map_ext. Qed.
End Bridge.
