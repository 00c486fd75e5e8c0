(** * PropAccountRun: the accounts of a simulation (C42, C43) *)
From Coq Require Import Permutation.
From Verif Require Import Base Pulp Params Optimizer Types Assets EVs Site Constraints Objectives Extract Pipeline Emit Prim Spec SpecReport SpecRun SpecNames SpecTotals SpecCost SpecTerms Layout Rows Sem SemEv SemSite SemProg SemObj SemCells SemRows SemTable SemResults RunFacts Builds ExtractOk Totals Totals2 Returns RowNames PropResults PropChecks PropObjective SemTerms PropTerms PropCtors Terms SpecDicts PropDicts Accounting SpecAccounts PropAccounts SampleSite.
Open Scope Q_scope.
Open Scope string_scope.

Section run.
Context slv base c assets cons obj fl r (FR : feasible_run slv base c assets cons obj fl r).
Notation R := (r_results r).

Lemma acc_ctx : exists d lp rows imp exp, facts R c assets fl d /\
  Forall2 (fun t row => row_is row (row_cells c assets d t)) (seq 0 (n_intervals c)) rows /\ table_of (map fst (row_cells c assets d 0)) rows lp /\
  R = (lp ++ totals lp imp exp)%list /\ NoDup (map fst R) /\ n_rows lp = n_intervals c /\ check_results R false = Ok tt.
Proof.
  destruct (run_ctx _ _ _ _ _ _ _ _ FR) as (d & lp & rows & imp & exp & A & B & C & D & E & F).
  exists d, lp, rows, imp, exp. splits; auto.
  destruct FR as [SND OPT FE CF NM]. destruct (optimize_run _ _ _ _ _ _ _ _ SND CF NM OPT FE) as (iv & o & s & lp' & rows' & RN).
  pose proof (run_checks _ _ _ _ _ _ _ _ _ _ _ _ _ RN) as K. unfold check_results in *. binds K.
  rewrite K0, K1, K2. reflexivity.
Qed.
Lemma full_results : full_table R (n_intervals c).
Proof. destruct acc_ctx as (d & lp & rows & imp & exp & FA & _). intros col cells I. apply (fa_reports _ _ _ _ _ FA) in I. exact I. Qed.
Lemma col_present col cells : NoDup (map fst R) -> In (col, cells) R -> get_col R col = Ok cells.
Proof. intros ND I. unfold get_col. rewrite (in_assoc (A := list cell) col R cells ND I). reflexivity. Qed.
Lemma site_col_present n : In n ("import_power_mwh" :: "export_power_mwh" :: map fst (id_columns (sc_idata c))) -> exists cells, get_col R ("site-" ++ n) = Ok cells.
Proof.
  intros I. destruct acc_ctx as (d & lp & rows & imp & exp & FA & _ & _ & _ & ND & _).
  destruct (fa_reports _ _ _ _ _ FA) as (_ & _ & SH). pose proof (fa_n _ _ _ _ _ FA) as H0.
  assert (exists q, In ("site-" ++ n, Some q) (site_cells c d 0)) as (q & Iq).
  { unfold site_cells. destruct I as [<-|[<-|I]]; [eexists; now left|eexists; right; now left|].
    apply in_map_iff in I. destruct I as (x & <- & I). eexists. right. right. apply in_map_iff. exists x. split; eauto. }
  assert (In ("site-" ++ n, Some q) (all_cells c assets d 0)) as IA by (unfold all_cells; apply in_app_iff; now left).
  destruct (SH _ _ _ H0 IA) as (cells & x & C1 & _). exists cells. now apply col_present.
Qed.
Lemma site_num n l t : (t < n_intervals c)%nat -> In (n, l) (id_columns (sc_idata c)) -> num R ("site-" ++ n) t == data l t.
Proof.
  intros Ht I. destruct acc_ctx as (d & lp & rows & imp & exp & FA & _). eapply num_site; [apply FA|exact Ht|].
  unfold site_cells. right. right. apply in_map_iff. exists (n, l). split; auto.
Qed.
Lemma total_col_present : exists cells, get_col R "total-gas_consumption_mwh" = Ok cells.
Proof.
  destruct acc_ctx as (d & lp & rows & imp & exp & FA & _ & _ & E & ND & _). eexists. apply col_present; [auto|].
  rewrite E. apply in_app_iff. right. unfold totals. apply in_app_iff. left. apply in_map_iff. exists "gas_consumption_mwh". split; [reflexivity|cbn; tauto].
Qed.

Lemma accounts_present ts v x : custom_costs R ts = Ok x -> exists a, get_accounts R None ts v = Ok a /\ ac_cost (as_custom a) = x.
Proof.
  intros CU. unfold get_accounts.
  assert ((if v then let! _ := check_results R false in check_results R false else Ok tt) = Ok tt) as ->.
  { destruct acc_ctx as (d & lp & rows & imp & exp & _ & _ & _ & _ & _ & _ & ->). destruct v; reflexivity. }
  cbn [rbind]. unfold get_one_electricity_account, get_one_gas_account.
  destruct (site_col_present "electricity_prices") as (p & P); [cbn; tauto|]. destruct (site_col_present "import_power_mwh") as (i & Hi); [cbn; tauto|].
  destruct (site_col_present "export_power_mwh") as (e & He); [cbn; tauto|]. destruct (site_col_present "electricity_carbon_intensities") as (ca & Hc); [cbn; tauto|].
  destruct (site_col_present "gas_prices") as (g & Hg); [cbn; tauto|]. destruct total_col_present as (tg & Ht). cbn [append] in *.
  rewrite P, Hi, He, Hc, Hg, Ht. cbn [rbind]. rewrite CU. cbn [rbind]. eexists. split; [reflexivity|reflexivity].
Qed.

(** The cost of a simulation: import and export at the import price, and gas; nothing else. *)
Lemma account_of_run ts v a : ordinary_names c assets -> get_accounts R None ts v = Ok a ->
  as_cost a == grid_cost c assets r + ac_cost (as_custom a) /\ as_emissions a == grid_emissions c assets r.
Proof.
  intros ON H. rewrite C41_prices_default in H.
  destruct (C41_accounts _ _ _ _ _ _ H full_results) as (A1 & A2 & A3 & A4 & A5 & A6 & A7 & A8 & A9 & A10 & A11 & A12).
  rewrite A10, A12, A3, A6, A1, A2, A4, A5, A7, A8. unfold value_of_energy, energy_sum, grid_cost, grid_emissions, horizon.
  assert (forall f : nat -> Q, - Qsum (map f (seq 0 (n_intervals c))) == Qsum (map (fun t => - f t) (seq 0 (n_intervals c)))) as N.
  { intros f. setoid_replace (- Qsum (map f (seq 0 (n_intervals c)))) with ((-1) * Qsum (map f (seq 0 (n_intervals c)))) by ring. rewrite <- Qsum_map_scale.
    apply Qsum_map_ext. intros; ring. }
  rewrite <- Qsum_map_scale. rewrite !N. rewrite <- !Qsum_map_plus.
  assert (forall n l t, In t (seq 0 (n_intervals c)) -> In (n, l) (id_columns (sc_idata c)) -> num R ("site-" ++ n) t == data l t) as SN.
  { intros n l t It. apply in_seq in It. apply site_num. lia. }
  assert (forall t, In t (seq 0 (n_intervals c)) -> num R "total-gas_consumption_mwh" t == total (r_gas r t) assets) as G.
  { intros t It. apply in_seq in It. apply (C38_total_columns _ _ _ _ _ _ _ _ FR ON t). lia. }
  split; [apply Qplus_comp; [|reflexivity]|]; apply Qsum_map_ext; intros t It; rewrite (G t It).
  - rewrite (SN "electricity_prices" (id_electricity_prices (sc_idata c)) t It) by (cbn; tauto).
    rewrite (SN "gas_prices" (id_gas_prices (sc_idata c)) t It) by (cbn; tauto). unfold r_import, r_export. ring.
  - rewrite (SN "electricity_carbon_intensities" (id_electricity_carbon_intensities (sc_idata c)) t It) by (cbn; tauto). unfold r_import, r_export. ring.
Qed.
End run.

(** ** C42 *)
(** The accounts of any simulation: imports and exports valued at the import prices, and gas. *)
Theorem C42_account : forall slv base c assets cons obj fl r v,
  feasible_run slv base c assets cons obj fl r -> ordinary_names c assets ->
  exists a, get_accounts (r_results r) None None v = Ok a /\
    as_cost a == grid_cost c assets r /\ as_profit a == - grid_cost c assets r /\ as_emissions a == grid_emissions c assets r.
Proof.
  intros slv base c assets cons obj fl r v FR ON. destruct (accounts_present _ _ _ _ _ _ _ _ FR None v 0 eq_refl) as (a & A & C).
  exists a. split; auto. destruct (account_of_run _ _ _ _ _ _ _ _ FR _ _ _ ON A) as [X Y]. rewrite C in X. rewrite Qplus_0_r in X.
  splits; auto. pose proof A as A'. rewrite C41_prices_default in A'.
  destruct (C41_accounts _ _ _ _ _ _ A' (full_results _ _ _ _ _ _ _ _ FR)) as (_ & _ & _ & _ & _ & _ & _ & _ & _ & _ & P & _). now rewrite P, X.
Qed.
(** How the account and the objective of a price optimization differ: exports at the export price, and spills. *)
Theorem C42_price_difference : forall slv base c assets cons fl r v,
  feasible_run slv base c assets cons (ObjName "price") fl r -> ordinary_names c assets ->
  exists a z, get_accounts (r_results r) None None v = Ok a /\ objective_is fl r z /\
    z == as_cost a
         + horizon c (fun t => r_export r t * (data (id_electricity_prices (sc_idata c)) t - data (id_export_electricity_prices (sc_idata c)) t))
         + horizon c (fun t => total (r_spilled r t) assets * spill_penalty).
Proof.
  intros slv base c assets cons fl r v FR ON. destruct (C42_account _ _ _ _ _ _ _ _ v FR ON) as (a & A & X & _).
  destruct (C31_reported_objective _ _ _ _ _ _ _ FR) as (z & Z & ZE). exists a, z. splits; auto. rewrite ZE, X.
  unfold reported_cost, grid_cost, horizon. rewrite <- !Qsum_map_plus. apply Qsum_map_ext. intros t _. ring.
Qed.
Theorem C42_price : forall slv base c assets cons fl r v,
  feasible_run slv base c assets cons (ObjName "price") fl r -> ordinary_names c assets ->
  (forall t a, (t < n_intervals c)%nat -> In a assets -> r_spilled r t a == 0) ->
  (forall t, (t < n_intervals c)%nat -> data (id_export_electricity_prices (sc_idata c)) t == data (id_electricity_prices (sc_idata c)) t) ->
  exists a z, get_accounts (r_results r) None None v = Ok a /\ objective_is fl r z /\ as_cost a == z.
Proof.
  intros slv base c assets cons fl r v FR ON NS XP. destruct (C42_price_difference _ _ _ _ _ _ _ v FR ON) as (a & z & A & Z & E).
  exists a, z. splits; auto. rewrite E. unfold horizon.
  rewrite (Qsum_map_zero (fun t => r_export r t * _)), (Qsum_map_zero (fun t => total _ _ * _)); [ring| |].
  - intros t It. apply in_seq in It. unfold total. rewrite Qsum_map_zero; [ring|]. intros x Ix. apply NS; [lia|auto].
  - intros t It. apply in_seq in It. rewrite XP by lia. ring.
Qed.
(** The same for emissions; here only spills make a difference. *)
Theorem C42_carbon : forall slv base c assets cons fl r v,
  feasible_run slv base c assets cons (ObjName "carbon") fl r -> ordinary_names c assets ->
  exists a z, get_accounts (r_results r) None None v = Ok a /\ objective_is fl r z /\
    z == as_emissions a + horizon c (fun t => total (r_spilled r t) assets * spill_penalty).
Proof.
  intros slv base c assets cons fl r v FR ON. destruct (C42_account _ _ _ _ _ _ _ _ v FR ON) as (a & A & _ & _ & X).
  destruct (C32_reported_objective _ _ _ _ _ _ _ FR) as (z & Z & ZE). exists a, z. splits; auto. rewrite ZE, X.
  unfold reported_emissions, grid_emissions, horizon. rewrite <- Qsum_map_plus. apply Qsum_map_ext. intros t _. ring.
Qed.

(** ** Names *)
Lemma ends_with_dash v x attr : contains "-" v = false -> ends_with v (x ++ "-" ++ attr) = ends_with v attr.
Proof.
  intros D. assert (forall y, v <> y ++ "-" ++ attr) as NE.
  { intros y E. assert (contains "-" v = true); [|congruence]. apply contains_iff. exists y, attr. now rewrite E. }
  induction x as [|a x IH]; cbn [append ends_with].
  - pose proof (NE "") as H. cbn [append] in H. apply String.eqb_neq in H. rewrite H. reflexivity.
  - pose proof (NE (String a x)) as H. cbn [append] in H. apply String.eqb_neq in H. rewrite H. exact IH.
Qed.
Lemma app_split (x y u w : string) : x ++ u = y ++ w -> (exists z, y = x ++ z) \/ (exists z, x = y ++ z).
Proof.
  revert y. induction x as [|a x IH]; intros y E; [left; exists y; auto|]. destruct y as [|b y]; [right; eexists; reflexivity|].
  cbn [append] in E. injection E as -> E. destruct (IH y E) as [(z & ->)|(z & ->)]; [left|right]; exists z; reflexivity.
Qed.
Lemma dash_end (n m z : string) : m ++ "-" = (n ++ "-") ++ z -> n = m \/ exists w, m = (n ++ "-") ++ w.
Proof.
  revert n z. induction m as [|a m IH]; intros n z E.
  - destruct n as [|b n]; [now left|]. cbn [append] in E. injection E as _ E. destruct n; discriminate.
  - destruct n as [|b n].
    + cbn [append] in E. injection E as -> E. right. exists m. reflexivity.
    + cbn [append] in E. injection E as -> E. destruct (IH n z E) as [->|(w & ->)]; [now left|right; exists w; reflexivity].
Qed.
Lemma app_assoc_s (x y z : string) : (x ++ y) ++ z = x ++ y ++ z.
Proof. induction x as [|a x IH]; cbn [append]; [reflexivity|now rewrite IH]. Qed.
Lemma apart_column n m x : apart n m -> starts_with (n ++ "-") (m ++ "-" ++ x) = false.
Proof.
  intros (NE & A & B). destruct (starts_with (n ++ "-") (m ++ "-" ++ x)) eqn:E; [exfalso|reflexivity].
  unfold starts_with in *. apply prefix_iff in E. destruct E as (after & E). rewrite <- app_assoc_s in E.
  apply app_split in E. destruct E as [(z & E)|(z & E)].
  - symmetry in E. destruct (dash_end m n z (eq_sym E)) as [->|(w & W)]; [congruence|].
    assert (String.prefix (m ++ "-") n = true) by (apply prefix_iff; exists w; exact W). congruence.
  - destruct (dash_end n m z E) as [->|(w & W)]; [congruence|].
    assert (String.prefix (n ++ "-") m = true) by (apply prefix_iff; exists w; exact W). congruence.
Qed.
Lemma plain_dash v : In v plain_quantities -> contains "-" v = false.
Proof. intros I. cbn [plain_quantities In] in I. repeat (destruct I as [<-|I]; [reflexivity|]). destruct I. Qed.

Section pick.
Context slv base c assets cons obj fl r (FR : feasible_run slv base c assets cons obj fl r).
Notation R := (r_results r).
(** a sum over selected columns, row by row *)
Lemma cols_exchange (p : string -> bool) (cols : frame) factor q n : (forall col cells, In (col, cells) cols -> List.length cells = n) -> List.length factor = n ->
  Qsum (map (scaled q factor) cols) ==
  Qsum (map (fun t => Qsum (map (fun nc => zero_none (cell_at (snd nc) t)) cols) * zero_none (nth t factor None) * q) (seq 0 n)).
Proof.
  intros L LF.
  rewrite (Qsum_map_ext _ (fun nc => Qsum (map (fun t => zero_none (cell_at (snd nc) t) * zero_none (nth t factor None) * q) (seq 0 n)))).
  - rewrite Qsum_exchange. apply Qsum_map_ext. intros t _.
    setoid_replace (Qsum (map (fun nc : string * list cell => zero_none (cell_at (snd nc) t)) cols) * zero_none (nth t factor None) * q)
      with ((zero_none (nth t factor None) * q) * Qsum (map (fun nc : string * list cell => zero_none (cell_at (snd nc) t)) cols)) by ring.
    rewrite <- Qsum_map_scale. apply Qsum_map_ext. intros nc _. ring.
  - intros [col cells] I. unfold scaled. cbn [snd]. specialize (L col cells I).
    rewrite (col_sum_rows _ n). 2:{ rewrite map_length. rewrite zip_length; unfold cell in *; lia. }
    apply Qsum_map_ext. intros t It. apply in_seq in It. unfold cell_at.
    destruct (nth_error_lt cells t) as (x & X); [unfold cell in *; lia|]. destruct (nth_error_lt factor t) as (y & Y); [unfold cell in *; lia|].
    rewrite (nth_error_nth _ _ _ X), (nth_error_nth _ _ _ Y).
    rewrite (nth_error_nth (map _ (zip_cells cmul cells factor)) t None (x := cmul (cmul x y) (Some q))).
    + destruct x, y; cbn [cmul zero_none]; ring.
    + rewrite nth_error_map. rewrite (zip_at cmul _ _ _ _ _ X Y). reflexivity.
Qed.
Lemma selected_at p t d lp rows imp exp : (t < n_intervals c)%nat ->
  Forall2 (fun t row => row_is row (row_cells c assets d t)) (seq 0 (n_intervals c)) rows -> table_of (map fst (row_cells c assets d 0)) rows lp ->
  R = (lp ++ totals lp imp exp)%list -> n_rows lp = n_intervals c ->
  (forall n, In (n, None) (all_cells c assets d t) -> p n = false) ->
  Qsum (map (fun nc => zero_none (cell_at (snd nc) t)) (filter (fun nc => p (fst nc)) R)) ==
  cells_sum p (all_cells c assets d t) + Qsum (map (fun nc => zero_none (cell_at (snd nc) t)) (filter (fun nc => p (fst nc)) (totals lp imp exp))).
Proof.
  intros Ht RW TB E NR NN. rewrite E. rewrite filter_app, map_app, Qsum_app. apply Qplus_comp; [|reflexivity].
  destruct (col_sum_at c assets d rows lp RW TB p t Ht NN) as (x & X1 & X2). rewrite <- X2.
  unfold sum_cols in X1. rewrite nth_error_map in X1. rewrite (nth_error_nth' _ 0%nat) in X1 by (rewrite seq_length; lia).
  rewrite seq_nth in X1 by lia. cbn [option_map Nat.add] in X1. injection X1 as <-. reflexivity.
Qed.
Lemma factor_ok k : known_data c k ->
  exists f, match t_interval_data k with Some n => get_col R ("site-" ++ n) | None => Ok (repeat (Some 1) (n_rows R)) end = Ok f /\
    List.length f = n_intervals c /\
    forall t, (t < n_intervals c)%nat -> zero_none (nth t f None) == data_value (sc_idata c) (t_interval_data k) t.
Proof.
  intros KD. unfold known_data in KD. unfold data_value. destruct (t_interval_data k) as [n|].
  - destruct KD as [NI I]. destruct (site_col_present _ _ _ _ _ _ _ _ FR n) as (f & F); [right; now right|].
    exists f. split; [exact F|]. split; [exact (full_results _ _ _ _ _ _ _ _ FR _ _ (get_col_in _ _ _ F))|].
    intros t Ht. rewrite (get_col_num _ _ _ _ F). apply String.eqb_neq in NI. rewrite NI.
    destruct (assoc n (id_columns (sc_idata c))) as [l|] eqn:A.
    + apply assoc_in in A. eapply site_num; eauto.
    + exfalso. apply in_map_iff in I. destruct I as ([m l] & <- & I). cbn [fst] in A. clear - A I.
      induction (id_columns (sc_idata c)) as [|[m' l'] L IH]; [destruct I|]. cbn [assoc] in A. destruct (m =? m') eqn:E; [discriminate|].
      destruct I as [I|I]; [injection I as -> ->; rewrite String.eqb_refl in E; discriminate|auto].
  - destruct (acc_ctx _ _ _ _ _ _ _ _ FR) as (d & lp & rows & imp & exp & FA & _ & _ & E & _ & NR & _).
    assert (n_rows R = n_intervals c) as NRR.
    { apply n_rows_full; [exact (full_results _ _ _ _ _ _ _ _ FR)|]. rewrite E. intros X. apply app_eq_nil in X. destruct X as [_ X]. discriminate. }
    eexists. split; [reflexivity|]. rewrite repeat_length. split; [exact NRR|].
    intros t Ht. rewrite NRR. rewrite (nth_error_nth _ _ None (x := Some 1)); [reflexivity|]. rewrite nth_error_repeat; auto.
Qed.

Lemma none_not_plain d t n v : In v plain_quantities -> In (n, None) (all_cells c assets d t) -> ends_with v n = false.
Proof.
  intros PV I. destruct (none_all _ _ _ _ _ I) as (a & Ia & J). destruct (none_cells_of _ _ _ _ J) as (x & attr & -> & At & _).
  unfold column. rewrite ends_with_dash by now apply plain_dash. cbn [In] in At. cbn [plain_quantities In] in PV.
  destruct At as [<-|[<-|[]]]; repeat (destruct PV as [<-|PV]; [reflexivity|]); destruct PV.
Qed.
(** the cells of one asset that end with a quantity *)
Lemma own_cells a d t v n : In v plain_quantities -> (forall e, a <> AEVs e) -> n = asset_name a ->
  cells_sum (fun k => ends_with v k && starts_with (n ++ "-") k)%bool (asset_cells d t a) == quantity d t v (PAsset a).
Proof.
  intros PV NE ->.
  assert (forall attr, (ends_with v (column (asset_name a) attr) && starts_with (asset_name a ++ "-") (column (asset_name a) attr))%bool = ends_with v attr) as K.
  { intros attr. unfold column. rewrite ends_with_dash by now apply plain_dash.
    assert (starts_with (asset_name a ++ "-") (asset_name a ++ "-" ++ attr) = true) as ->; [|apply andb_true_r].
    unfold starts_with. apply prefix_iff. exists attr. now rewrite app_assoc_s. }
  destruct a as [b|b|b|b|b|b|m|m]; try (exfalso; eapply NE; reflexivity); cbn [asset_cells]; unfold cells_sum; cbn [map Qsum fold_right]; unfold selected; cbn [fst snd]; rewrite !K; clear K;
    cbn [plain_quantities In] in PV; repeat (destruct PV as [<-|PV]; [cbn; ring|]); destruct PV.
Qed.
Lemma apart_cells n d t a v : apart n (asset_name a) -> cells_sum (fun k => ends_with v k && starts_with (n ++ "-") k)%bool (asset_cells d t a) == 0.
Proof.
  intros AP. apply cells_sum_none. intros k q I. assert (exists x, k = asset_name a ++ "-" ++ x) as (x & ->).
  { destruct a as [b|b|b|e|b|b|m|m]; cbn [asset_cells asset_name] in *.
    4:{ apply in_app_iff in I. unfold ev_main_cells, ev_spill_columns, ev_soc_report in I. cbv zeta in I. rewrite !in_app_iff, !in_flat_map, !in_map_iff in I.
        destruct I as [[([i cc] & _ & I)|[([i ec] & _ & I)|[(i & I & _)|(i & I & _)]]]|(cc & _ & I)].
        - cbn [ev_charger_report fst snd In] in I. repeat (destruct I as [I|I]; [injection I as <- _; unfold column; rewrite !app_assoc_s; cbn [append]; eexists; reflexivity|]); destruct I.
        - cbn [ev_event_report fst snd In] in I. repeat (destruct I as [I|I]; [injection I as <- _; unfold column; rewrite !app_assoc_s; cbn [append]; eexists; reflexivity|]); destruct I.
        - injection I as <- _. unfold column. rewrite !app_assoc_s. cbn [append]. eexists; reflexivity.
        - injection I as <- _. unfold column. rewrite !app_assoc_s. cbn [append]. eexists; reflexivity.
        - cbn [ev_spill_report fst snd In] in I. repeat (destruct I as [I|I]; [injection I as <- _; unfold column; rewrite !app_assoc_s; cbn [append]; eexists; reflexivity|]); destruct I. }
    all: cbn [In] in I; repeat (destruct I as [I|I]; [injection I as <- _; unfold column; eexists; reflexivity|]); destruct I. }
  rewrite apart_column by auto. apply andb_false_r.
Qed.
Lemma apart_site n d t v : apart n "site" -> cells_sum (fun k => ends_with v k && starts_with (n ++ "-") k)%bool (site_cells c d t) == 0.
Proof.
  intros AP. apply cells_sum_none. intros k q I. assert (exists x, k = "site" ++ "-" ++ x) as (x & ->).
  { unfold site_cells in I. destruct I as [I|[I|I]]; [injection I as <- _; eexists; reflexivity|injection I as <- _; eexists; reflexivity|].
    apply in_map_iff in I. destruct I as (y & I & _). injection I as <- _. eexists. reflexivity. }
  rewrite apart_column by auto. apply andb_false_r.
Qed.
Lemma totals_named lp imp exp k cells : In (k, cells) (totals lp imp exp) -> (exists x, k = "total" ++ "-" ++ x) \/ k = "site-electricity_balance_mwh".
Proof.
  unfold totals. rewrite in_app_iff. intros [I|I].
  - apply in_map_iff in I. destruct I as (q & I & _). injection I as <- _. left. eexists. reflexivity.
  - cbn [In] in I. destruct I as [I|[I|[I|[]]]]; injection I as <- _; [left; exists "spills_mwh"; reflexivity|left; exists "electric_loss_mwh"; reflexivity|now right].
Qed.
Lemma filter_nil {A} (p : A -> bool) l : (forall x, In x l -> p x = false) -> filter p l = [].
Proof. induction l as [|x l IH]; intros H; [reflexivity|]. cbn [filter]. rewrite (H x) by now left. apply IH. intros; apply H; now right. Qed.

(** one named asset *)
Lemma named_cost k : plain_term k -> known_data c k -> named_term assets k ->
  exists x, simple_cost R k = Ok x /\ x == horizon c (term_at (reported r) c assets k).
Proof.
  intros [_ PV] KD (a & Ia & NE & NM & TY & AS & AT & AO). unfold simple_cost.
  destruct (factor_ok k KD) as (f & -> & LF & VF). cbn [rbind]. eexists. split; [reflexivity|].
  assert (by_type_only k = false) as BT.
  { unfold by_type_only. rewrite NM. destruct TY as [->| ->]; [reflexivity|]. destruct a; try reflexivity. }
  unfold simple_columns. rewrite BT. unfold find_asset_by_name. rewrite NM.
  set (p := fun n => (ends_with (t_variable k) n && starts_with (asset_name a ++ "-") n)%bool).
  change (Qsum (map (scaled (t_coefficient k) f) (filter (fun nc => p (fst nc)) R)) == horizon c (term_at (reported r) c assets k)).
  rewrite (cols_exchange p _ f _ (n_intervals c)); [|intros col cells I; apply filter_In in I; destruct I as [I _]; exact (full_results _ _ _ _ _ _ _ _ FR _ _ I)|exact LF].
  unfold horizon. apply Qsum_map_ext. intros t It. apply in_seq in It. assert (t < n_intervals c)%nat as Ht by lia.
  rewrite (VF t Ht). unfold term_at. apply Qmult_comp; [|reflexivity]. apply Qmult_comp; [|reflexivity].
  destruct (acc_ctx _ _ _ _ _ _ _ _ FR) as (d & lp & rows & imp & exp & FA & RW & TB & E & ND & NR & _).
  rewrite (selected_at p t d lp rows imp exp Ht RW TB E NR).
  2:{ intros n I. unfold p. now rewrite (none_not_plain d t n _ PV I). }
  rewrite (filter_nil _ (totals lp imp exp)).
  2:{ intros [n cells] I. cbn [fst]. unfold p. destruct (totals_named _ _ _ _ _ I) as [(x & ->)| ->].
      - rewrite apart_column by auto. apply andb_false_r.
      - change "site-electricity_balance_mwh" with ("site" ++ "-" ++ "electricity_balance_mwh"). rewrite (apart_column _ "site") by auto. apply andb_false_r. }
  cbn [map Qsum fold_right]. rewrite Qplus_0_r.
  unfold all_cells. rewrite cells_sum_app, cells_sum_flat. unfold p. rewrite apart_site by auto. rewrite Qplus_0_l.
  pose proof (fa_names _ _ _ _ _ FA) as NDN.
  assert (Qsum (map (fun b => cells_sum (fun n => (ends_with (t_variable k) n && starts_with (asset_name a ++ "-") n)%bool) (asset_cells d t b)) assets) == quantity d t (t_variable k) (PAsset a)) as ->.
  { clear - Ia NE AO PV NDN. 
    assert (forall l, (forall b, In b l -> b = a \/ apart (asset_name a) (asset_name b)) -> ~ In (asset_name a) (map asset_name l) ->
      Qsum (map (fun b => cells_sum (fun n => (ends_with (t_variable k) n && starts_with (asset_name a ++ "-") n)%bool) (asset_cells d t b)) l) == 0) as Z.
    { intros l H NI. apply Qsum_map_zero. intros b Ib. destruct (H b Ib) as [->|AP]; [exfalso; apply NI, in_map, Ib|]. now apply apart_cells. }
    induction assets as [|b l IH]; [destruct Ia|]. cbn [map Qsum fold_right]. inversion NDN as [|? ? NI ND']; subst. destruct Ia as [->|Ia].
    - rewrite own_cells by auto. fold (Qsum (map (fun b => cells_sum (fun n => (ends_with (t_variable k) n && starts_with (asset_name a ++ "-") n)%bool) (asset_cells d t b)) l)).
      rewrite Z; [ring|intros; apply AO; now right|auto].
    - fold (Qsum (map (fun b => cells_sum (fun n => (ends_with (t_variable k) n && starts_with (asset_name a ++ "-") n)%bool) (asset_cells d t b)) l)).
      rewrite IH; [|exact Ia|intros; apply AO; now right|exact ND']. destruct (AO b (or_introl eq_refl)) as [->|AP]; [exfalso; apply NI, in_map, Ia|].
      rewrite apart_cells by auto. ring. }
  rewrite (amount_ext (n_intervals c) assets (reported r) (quantity d)); [|apply (facts_readings _ _ _ _ _ FA)|exact Ht|exact PV].
  unfold amount. symmetry.
  assert (forall q, term_picks k q = name_picks (Some (asset_name a)) q && match t_asset_type k with None => true | Some _ => type_picks (piece_type (PAsset a)) q end)%bool as TP.
  { intros q. unfold term_picks, picked. rewrite NM. destruct TY as [TY|TY]; rewrite TY; [cbn [type_picks andb]; symmetry; apply andb_true_r|].
    destruct a; try (exfalso; eapply NE; reflexivity); cbn [piece_type]; try (cbn [String.eqb Ascii.eqb Bool.eqb orb]; apply andb_comm); cbn [type_picks andb]; symmetry; apply andb_true_r. }
  assert (filter (term_picks k) (pieces assets) = [PAsset a]) as ->; [|cbn [map Qsum fold_right]; ring].
  unfold pieces. cbn [filter]. rewrite TP. cbn [name_picks piece_name].
  destruct AS as (ASN & _). apply String.eqb_neq in ASN. rewrite ASN. cbn [andb].
  assert (forall l, ~ In (asset_name a) (map asset_name l) -> filter (term_picks k) (flat_map pieces_of l) = []) as Z.
  { intros l NI. apply filter_nil. intros q Iq. rewrite TP. apply in_flat_map in Iq. destruct Iq as (b & Ib & Iq).
    assert (piece_name q = asset_name b) as PN by (destruct b; cbn in Iq; repeat (destruct Iq as [<-|Iq]; [reflexivity|]); destruct Iq).
    unfold name_picks. rewrite PN. replace (asset_name a =? asset_name b) with false; [reflexivity|]. symmetry. apply String.eqb_neq. intros X. apply NI. rewrite X. now apply in_map. }
  clear - Ia NDN Z TP NE. induction assets as [|b l IH]; [destruct Ia|]. cbn [flat_map]. rewrite filter_app. inversion NDN as [|? ? NI ND']; subst. destruct Ia as [->|Ia].
  - rewrite (Z l NI), app_nil_r. assert (pieces_of a = [PAsset a]) as -> by (destruct a; try reflexivity; exfalso; eapply NE; reflexivity).
    cbn [filter]. rewrite TP. cbn [name_picks piece_name]. rewrite String.eqb_refl. cbn [andb].
    destruct (t_asset_type k); [|reflexivity]. destruct a; try (exfalso; eapply NE; reflexivity); try reflexivity.
  - rewrite (IH Ia ND'). replace (filter (term_picks k) (pieces_of b)) with (@nil piece); [reflexivity|]. symmetry.
    assert (filter (term_picks k) (flat_map pieces_of [b]) = []) as X; [|cbn [flat_map] in X; now rewrite app_nil_r in X].
    apply Z. cbn [map In]. intros [X|[]]. apply NI. rewrite X. now apply in_map.
Qed.
End pick.
