(** * Returns: exact solutions pass the result checks (proofs) *)
From Coq Require Import Permutation.
From Verif Require Import Base Pulp Params Optimizer Types Assets EVs Site Constraints Objectives Extract Pipeline Emit Prim Spec SpecReport SpecRun SpecNames Layout Rows Sem SemEv SemSite SemProg SemObj SemCells SemRows SemTable SemResults RunFacts Builds ExtractOk Totals.
Open Scope Q_scope.
Open Scope string_scope.

(** ** Names *)
Lemma site_ordinary_site c assets : ordinary_site c assets -> data_full (sc_idata c).
Proof. intros O. exact (os_data _ _ O). Qed.

Lemma word_dash_contains q s : word_dash_prefix q s = true -> contains ("-" ++ q) s = true.
Proof.
  induction s as [|c s IH]; cbn [word_dash_prefix]; [discriminate|]. intros H. apply andb_true_iff in H. destruct H as [_ H]. apply contains_tail. apply orb_true_iff in H. destruct H as [H|H]; [|auto].
  unfold starts_with in H. destruct s; cbn [contains]; now rewrite H.
Qed.
Lemma prefix_append_self p : starts_with p p = true.
Proof. unfold starts_with. induction p as [|c p IH]; [reflexivity|]. cbn [prefix]. destruct (ascii_dec c c); [exact IH|congruence]. Qed.
Lemma schema_contains n : schema_col n = true -> n = "site-import_power_mwh" \/ n = "site-export_power_mwh" \/ exists q, In q quantities /\ contains ("-" ++ q) n = true.
Proof.
  unfold schema_col. intros H. apply orb_true_iff in H. destruct H as [H|H].
  - apply orb_true_iff in H. destruct H as [H|H]; apply String.eqb_eq in H; auto.
  - apply existsb_exists in H. destruct H as (q & Iq & H). right. right. exists q. split; [exact Iq|]. apply orb_true_iff in H. destruct H as [H|H]; [now apply word_dash_contains|].
    destruct (prefix_exists _ _ H) as (z & ->). rewrite str_app_assoc. change ("total-" ++ q ++ z) with ("total" ++ ("-" ++ (q ++ z))). rewrite <- (str_app_assoc "-"). apply contains_mid.
    generalize ("-" ++ q). intros p. pose proof (prefix_append_self p). destruct p; cbn [contains]; unfold starts_with in *; now rewrite H0.
Qed.

(** ** Signs *)
Lemma Qsum_pos {A} (g : A -> Q) l : (forall x, In x l -> 0 <= g x) -> 0 <= Qsum (map g l).
Proof. apply Qsum_map_nonneg. Qed.
Lemma over_pos {A} (g : A -> nat -> Q) l n : (forall x t, In x l -> (t < n)%nat -> 0 <= g x t) -> forall t, (t < n)%nat -> 0 <= Qsum (map (fun x => g x t) l).
Proof. intros H t Ht. apply Qsum_map_nonneg. intros x I. now apply H. Qed.

Lemma asset_cell_nonneg a f fl n d t nm q : asset_physical a f fl n d -> asset_fine a -> nonneg_asset a -> (t < n)%nat -> In (nm, Some q) (asset_cells d t a) -> 0 <= q.
Proof.
  intros PH AF NN Ht. destruct a as [b|b|b|b|b|b|m|m]; cbn [asset_physical asset_cells nonneg_asset] in *.
  4:{ destruct PH as (P1 & P2 & _ & _ & P5 & _). cbn in AF. destruct AF as (L1 & _ & _).
      rewrite in_app_iff. unfold ev_main_cells. rewrite !in_app_iff, !in_flat_map. unfold ev_spill_columns, ev_soc_report. cbv zeta. rewrite in_app_iff, !in_map_iff, in_flat_map.
      assert (forall e ec k cc, nth_error (ev_event_cfgs b) e = Some ec -> nth_error (ev_chargers b) k = Some cc -> 0 <= d_ev_charge d (ev_name b) e k t /\ 0 <= d_ev_discharge d (ev_name b) e k t /\ 0 <= d_ev_loss d (ev_name b) e k t) as PP.
      { intros e ec k cc Ee Ek. destruct (P1 t e ec k cc Ht Ee Ek) as (A1 & _ & A2 & _ & A3). splits; auto. destruct (allow_evs_discharge fl); [apply A2|rewrite A2; discriminate]. }
      intros [[([k cc] & J & H)|[([e ec] & J & H)|[(e & H & J)|(e & H & J)]]]|(cc & J & H)].
      - apply enumerate_in in J. cbn [ev_charger_report fst snd In] in H.
        assert (forall g, (forall e ec, nth_error (ev_event_cfgs b) e = Some ec -> 0 <= g e) -> 0 <= Qsum (map g (seq 0 (List.length (ev_event_cfgs b))))) as SP.
        { intros g Hg. apply Qsum_map_nonneg. intros e Ie. apply in_seq in Ie. destruct (nth_error_lt (ev_event_cfgs b) e ltac:(lia)) as (ec & Ee). eapply Hg; eauto. }
        repeat (destruct H as [H|H]; [first [discriminate H|injection H as _ <-; apply SP; intros e ec Ee; apply (PP e ec k cc Ee J)]|]). destruct H.
      - apply enumerate_in in J. cbn [ev_event_report fst snd In] in H.
        assert (forall g, (forall k cc, nth_error (ev_chargers b) k = Some cc -> 0 <= g k) -> 0 <= Qsum (map g (seq 0 (List.length (ev_chargers b))))) as SP.
        { intros g Hg. apply Qsum_map_nonneg. intros k0 Ie. apply in_seq in Ie. destruct (nth_error_lt (ev_chargers b) k0 ltac:(lia)) as (cc & Ee). eapply Hg; eauto. }
        repeat (destruct H as [H|H]; [first [discriminate H|injection H as _ <-; apply SP; intros k cc Ek; apply (PP e ec k cc J Ek)]|]). destruct H.
      - injection H as _ <-. apply in_seq in J. destruct (nth_error_lt (ev_event_cfgs b) e ltac:(lia)) as (ec & Ee). apply (P5 t e ec Ht Ee).
      - injection H as _ <-. apply in_seq in J. destruct (nth_error_lt (ev_event_cfgs b) e ltac:(lia)) as (ec & Ee). apply (P5 t e ec Ht Ee).
      - cbn [ev_spill_report fst snd In] in H.
        assert (forall g, (forall e ec, nth_error (ev_event_cfgs b) e = Some ec -> 0 <= g e) -> 0 <= Qsum (map g (seq 0 (List.length (ev_event_cfgs b))))) as SP.
        { intros g Hg. apply Qsum_map_nonneg. intros e Ie. apply in_seq in Ie. destruct (nth_error_lt (ev_event_cfgs b) e ltac:(lia)) as (ec & Ee). eapply Hg; eauto. }
        destruct (ev_spill_chargers b) as [|c0 [|? ?]]; try discriminate.
        assert (forall e ec, nth_error (ev_event_cfgs b) e = Some ec -> 0 <= d_spill_charge d (ev_name b) e t /\ 0 <= d_spill_loss d (ev_name b) e t) as PS by (intros e ec Ee; split; apply (P2 t e ec c0 Ht Ee eq_refl)).
        repeat (destruct H as [H|H]; [first [discriminate H|injection H as _ <-; first [apply SP; intros e ec Ee; apply (PS e ec Ee)|discriminate]]|]). destruct H. }
  all: cbn [In asset_name]; intros H.
  - specialize (proj1 PH t Ht) as K. unfold between in K. repeat (destruct H as [H|H]; [first [discriminate H|injection H as _ <-; cbv zeta in K; tauto]|]). destruct H.
  - specialize (PH t Ht) as K. cbv zeta in K. destruct K as (_ & K1 & K2). assert (0 <= d_qty d (bo_name b) HtGen t) as K3.
    { assert (d_qty d (bo_name b) HtGen t == d_qty d (bo_name b) Gas t * bo_efficiency_pct b) as -> by (rewrite K1; field; lra). apply Qmult_le_0_compat; [exact K2|lra]. }
    repeat (destruct H as [H|H]; [injection H as _ <-; assumption|]). destruct H.
  - specialize (PH t Ht) as K. unfold between in K. cbv zeta in K. repeat (destruct H as [H|H]; [injection H as _ <-; tauto|]). destruct H.
  - specialize (PH t Ht) as K. unfold between in K. cbv zeta in K. repeat (destruct H as [H|H]; [injection H as _ <-; tauto|]). destruct H.
  - specialize (PH t Ht) as K. unfold between in K. cbv zeta in K. destruct K as [K _]. destruct NN as [N1 N2]. destruct H as [H|[]]. injection H as _ <-.
    eapply Qle_trans; [|exact K]. apply Qmult_le_0_compat; [|exact N1]. destruct (nth_in_or_default t (rg_available_mwh b) 0) as [I|E0]; [|rewrite E0; discriminate]. rewrite Forall_forall in N2. auto.
  - specialize (PH t Ht) as K. cbv zeta in K. repeat (destruct H as [H|H]; [injection H as _ <-; first [tauto|discriminate]|]). destruct H.
  - specialize (PH t Ht) as K. cbv zeta in K. destruct K as [K1 K2]. repeat (destruct H as [H|H]; [injection H as _ <-; rewrite ?K1; exact K2|]). destruct H.
Qed.

(** What the checks of the report need: no quantity of an asset, import or export is negative, the balances close up to the tolerances of the checks,
    and the valve conserves heat exactly. *)
Definition nonneg_cells (c : site_cfg) (assets : list asset) (d : dispatch) : Prop :=
  forall t, (t < n_intervals c)%nat -> 0 <= d_import d t /\ 0 <= d_export d t /\
    forall a, In a assets -> forall nm q, In (nm, Some q) (asset_cells d t a) -> 0 <= q.
Definition small_gap (b x y : Q) : Prop := - b < x - y /\ x - y < b.
Definition near_balances (c : site_cfg) (assets : list asset) (d : dispatch) : Prop :=
  forall t, (t < n_intervals c)%nat ->
    small_gap (1 # 1000) (d_import d t + total (elec_gen d t) assets + total (discharge d t) assets)
      (d_export d t + data (id_electric_load_mwh (sc_idata c)) t + total (elec_load d t) assets + total (charge d t) assets) /\
    small_gap (1 # 10000) (total (ht_gen d t) assets) (total (ht_load d t) assets + data (id_high_temperature_load_mwh (sc_idata c)) t) /\
    small_gap (1 # 10000) (total (lt_gen d t) assets + data (id_low_temperature_generation_mwh (sc_idata c)) t)
      (total (lt_load d t) assets + data (id_low_temperature_load_mwh (sc_idata c)) t).
Definition exact_valves (c : site_cfg) (assets : list asset) (d : dispatch) : Prop :=
  forall nm t, In (AValve nm) assets -> (t < n_intervals c)%nat -> d_qty d nm LtGen t == d_qty d nm HtLoad t.
Definition acceptable (c : site_cfg) (assets : list asset) (d : dispatch) : Prop := nonneg_cells c assets d /\ near_balances c assets d /\ exact_valves c assets d.
Lemma physical_acceptable c assets fl d : nonneg_site c assets -> Forall asset_fine assets -> physical c assets fl d -> acceptable c assets d.
Proof.
  intros (_ & _ & _ & _ & N5) AF (PS & PA). rewrite Forall_forall in AF, N5. unfold acceptable. splits.
  - intros t Ht. destruct (PS t Ht) as ((G1 & G2 & _) & _). unfold between in *. splits; try tauto. intros a Ia nm q I. eapply asset_cell_nonneg; eauto.
  - intros t Ht. destruct (PS t Ht) as (_ & B1 & B2 & B3). unfold electricity_balanced, high_temperature_balanced, low_temperature_balanced in *. unfold small_gap. splits; lra.
  - intros nm t Ia Ht. specialize (PA _ Ia). cbn [asset_physical] in PA. symmetry. apply (PA t Ht).
Qed.
Lemma site_col' q n : contains ("-" ++ q) ("site-" ++ n) = true -> In q quantities -> starts_with q n = true \/ contains ("-" ++ q) n = true.
Proof.
  intros H Iq. cbn [append contains prefix] in H. repeat (destruct (ascii_dec _ _) in H; [first [discriminate|idtac]|cbn [orb] in H]); try congruence; auto.
  all: apply orb_true_iff in H; destruct H; auto.
Qed.
Lemma all_cell_ok c assets d t nm oq : ordinary_site c assets -> nonneg_cells c assets d -> Forall asset_fine assets -> (t < n_intervals c)%nat ->
  In (nm, oq) (all_cells c assets d t) -> schema_col nm = true -> exists q, oq = Some q /\ 0 <= q.
Proof.
  intros OS PH AF Ht I SC. destruct (os_ordinary _ _ OS) as (OA & OD). destruct (os_nonneg _ _ OS) as (N1 & N2 & N3 & N4 & N5). destruct (PH t Ht) as (G1 & G2 & PA).
  assert (forall l, Forall (fun x => 0 <= x) l -> 0 <= data l t) as DP.
  { intros l F. unfold data. destruct (nth_in_or_default t l 0) as [J|E0]; [|rewrite E0; discriminate]. rewrite Forall_forall in F. auto. }
  unfold all_cells in I. apply in_app_iff in I. destruct I as [I|I].
  - unfold site_cells in I. destruct I as [I|[I|I]]; [injection I as <- <-; eexists; split; [reflexivity|apply G1]|injection I as <- <-; eexists; split; [reflexivity|apply G2]|].
    apply in_map_iff in I. destruct I as ([m l] & E & J). cbn [fst snd] in E. injection E as <- <-. eexists. split; [reflexivity|]. unfold id_columns in J. apply in_app_iff in J. destruct J as [J|J].
    + cbn [In] in J. repeat (destruct J as [J|J]; [injection J as <- <-; first [apply DP; assumption|vm_compute in SC; discriminate SC]|]). destruct J.
    + exfalso. destruct (schema_contains _ SC) as [X|[X|(q & Iq & X)]].
      * pose proof (os_distinct _ _ OS d t) as ND. unfold all_cells, site_cells in ND. cbn [app map fst] in ND. apply NoDup_cons_iff in ND. destruct ND as [ND _]. apply ND. right.
        rewrite map_app, in_app_iff. left. rewrite map_map. apply in_map_iff. exists (m, l). split; [exact X|]. unfold id_columns. apply in_app_iff. now right.
      * pose proof (os_distinct _ _ OS d t) as ND. unfold all_cells, site_cells in ND. cbn [app map fst] in ND. apply NoDup_cons_iff in ND. destruct ND as [_ ND]. apply NoDup_cons_iff in ND. destruct ND as [ND _]. apply ND.
        rewrite map_app, in_app_iff. left. rewrite map_map. apply in_map_iff. exists (m, l). split; [exact X|]. unfold id_columns. apply in_app_iff. now right.
      * destruct (site_col' q m X Iq) as [Y|Y]; destruct (OD _ J q Iq) as [Z1 Z2]; cbn [fst] in *; congruence.
  - apply in_flat_map in I. destruct I as (a & Ia & I). rewrite Forall_forall in AF, N5. destruct oq as [q|]; [exists q; split; [reflexivity|eapply PA; eauto]|]. exfalso.
    destruct (none_cells _ _ _ _ I) as (x & attr & -> & At & CL). specialize (CL (OA a Ia)). 
    assert (In attr cell_attrs) as IA by (cbn [In] in At; cbn [cell_attrs In]; tauto).
    destruct (schema_contains _ SC) as [X|[X|(q & Iq & X)]].
    1,2: cbn [In] in At; change "site-import_power_mwh" with (column "site" "import_power_mwh") in X; change "site-export_power_mwh" with (column "site" "export_power_mwh") in X; apply column_inj in X; [|now apply cell_attr_dash|reflexivity]; destruct X as [_ ->]; destruct At as [?|[?|[]]]; discriminate.
    assert (is_quantity_col q (column x attr) = (q =? attr)) as K by (apply clean_col; auto).
    unfold is_quantity_col in K. rewrite X in K. destruct CL as [CL _]. assert (contains "charge-event" (column x attr) = false) as Z.
    { unfold column. destruct (attr_facts q attr Iq IA) as (_ & H2 & _ & H4). rewrite (contains_append _ _ H2), CL, H4. reflexivity. }
    rewrite Z in K. cbn in K. symmetry in K. apply String.eqb_eq in K. subst q. cbn [In] in At. destruct At as [<-|[<-|[]]]; cbn in Iq; repeat (destruct Iq as [Iq|Iq]; [discriminate|]); destruct Iq.
Qed.

Lemma set_col_other r n x m : m <> n -> assoc m (set_col r n x) = assoc m r.
Proof.
  intros N. induction r as [|[k c] r IH]; cbn [set_col assoc]; [destruct (String.eqb_spec m n); [congruence|reflexivity]|].
  destruct (String.eqb_spec n k) as [->|K]; cbn [assoc]; [destruct (String.eqb_spec m k); [congruence|reflexivity]|]. destruct (m =? k); auto.
Qed.
(** ** The table is completed and passes the checks *)
Lemma add_totals_ok lp imp exp : lp <> [] -> (forall n, In n (map fst lp) -> ~ In n reserved) -> assoc "site-import_power_mwh" lp = Some imp -> assoc "site-export_power_mwh" lp = Some exp ->
  add_totals lp = Ok (lp ++ totals lp imp exp)%list.
Proof.
  intros N NR A1 A2. assert (exists r, add_totals lp = Ok r) as (r & E).
  { unfold add_totals. cbv zeta.
    assert (forall l r m x, assoc m r = Some x -> ~ In m (map (fun q => "total-" ++ q) l) -> assoc m (fold_left add_total l r) = Some x) as F.
    { induction l as [|q l IH]; intros r m x A NI; cbn [fold_left]; [exact A|]. apply IH; [|intros J; apply NI; now right]. unfold add_total. rewrite set_col_other; [exact A|]. intros X. apply NI. left. auto. }
    unfold get_col. rewrite !(set_col_other _ _ _ "site-import_power_mwh"), (F quantities lp _ imp A1) by (first [discriminate|cbn; intuition discriminate]). cbn [of_option rbind].
    rewrite !(set_col_other _ _ _ "site-export_power_mwh"), (F quantities lp _ exp A2) by (first [discriminate|cbn; intuition discriminate]). cbn [of_option rbind]. eauto. }
  destruct (add_totals_eq lp r N NR E) as (i & e & B1 & B2 & ->). rewrite A1 in B1. rewrite A2 in B2. injection B1 as <-. injection B2 as <-. exact E.
Qed.
Lemma zip_nth f a : forall b t z, nth_error (zip_cells f a b) t = Some z -> exists x y, nth_error a t = Some x /\ nth_error b t = Some y /\ z = f x y.
Proof. induction a as [|x a IH]; intros [|y b] [|t] z H; cbn in *; try discriminate; [injection H as <-; eauto|eauto]. Qed.
Lemma forallb_nth {A} (f : A -> bool) l : (forall t x, nth_error l t = Some x -> f x = true) -> forallb f l = true.
Proof. intros H. apply forallb_forall. intros x I. destruct (In_nth_error _ _ I) as (t & E). eauto. Qed.
Lemma all_zip_nth f a : forall b, (forall t x y, nth_error a t = Some x -> nth_error b t = Some y -> f x y = true) -> all_zip f a b = true.
Proof. induction a as [|x a IH]; intros [|y b] H; cbn; auto. rewrite (H 0%nat x y eq_refl eq_refl), IH; auto. intros t x' y' E1 E2. exact (H (S t) x' y' E1 E2). Qed.
Lemma small_zero b q : 0 < b -> q == 0 -> cell_abs_lt b (Some q) = true.
Proof.
  intros Hb E. unfold cell_abs_lt, Qltb. apply Bool.negb_true_iff. destruct (Qle_bool b (Qabs q)) eqn:K; [|reflexivity]. apply Qle_bool_iff in K. rewrite E in K. change (Qabs 0) with 0 in K. lra.
Qed.

Lemma small_close b x y q : small_gap b x y -> q == x - y -> cell_abs_lt b (Some q) = true.
Proof.
  intros [H1 H2] E. unfold cell_abs_lt, Qltb. apply Bool.negb_true_iff. destruct (Qle_bool b (Qabs q)) eqn:K; [|reflexivity]. apply Qle_bool_iff in K.
  exfalso. apply (Qlt_not_le (Qabs q) b); [|exact K]. rewrite E. apply Qabs_case; intros _; lra.
Qed.
Lemma ends_form p s : ends_with p s = true -> exists y, s = y ++ p.
Proof.
  induction s as [|c s IH]; cbn [ends_with]; intros H; apply orb_true_iff in H; destruct H as [H|H]; try (apply String.eqb_eq in H; subst; exists ""; reflexivity); try discriminate.
  destruct (IH H) as (y & ->). exists (String c y). reflexivity.
Qed.

Section passes.
Context (c : site_cfg) (assets : list asset) (d : dispatch) (rows : list (list (string * cell))) (lp : frame).
Context (RW : Forall2 (fun t row => row_is row (row_cells c assets d t)) (seq 0 (n_intervals c)) rows).
Context (TB : table_of (map fst (row_cells c assets d 0)) rows lp).
Context (OS : ordinary_site c assets) (PH : acceptable c assets d) (AF : Forall asset_fine assets) (NP : (0 < n_intervals c)%nat).

Lemma rows_length : List.length rows = n_intervals c.
Proof. rewrite <- (Forall2_len _ _ _ RW), seq_length. reflexivity. Qed.
Lemma lp_nodup : NoDup (map fst lp).
Proof. rewrite (to_names _ _ _ TB). apply TB. Qed.
Lemma cell_lookup nm oq t : (t < n_intervals c)%nat -> In (nm, oq) (all_cells c assets d t) ->
  exists cells x, assoc nm lp = Some cells /\ nth_error cells t = Some (Some x) /\ match oq with Some q => x == q | None => True end.
Proof.
  intros Ht I. apply all_in_row in I. destruct (nth_error_lt rows t ltac:(rewrite rows_length; lia)) as (row & E).
  assert (nth_error (seq 0 (n_intervals c)) t = Some t) as S1 by (rewrite nth_error_nth' with (d := 0%nat) by (rewrite seq_length; exact Ht); now rewrite seq_nth by exact Ht).
  pose proof (Forall2_nth _ _ _ _ _ _ RW S1 E) as RI. destruct (row_is_in _ _ _ _ RI I) as (q & J & Q). destruct (to_cell _ _ _ TB _ _ _ _ E J) as (cells & C1 & C2).
  exists cells, q. splits; auto. apply in_assoc; [exact lp_nodup|exact C1].
Qed.
Lemma lp_cells nm cells t x : In (nm, cells) lp -> nth_error cells t = Some x ->
  (t < n_intervals c)%nat /\ exists oq, In (nm, oq) (all_cells c assets d t) /\ match oq with Some q => exists y, x = Some y /\ y == q | None => True end.
Proof.
  intros I E. assert (t < n_intervals c)%nat as Ht by (rewrite <- rows_length, <- (to_len _ _ _ TB _ _ I); apply nth_error_Some; congruence). split; [exact Ht|].
  assert (In nm (map fst (row_cells c assets d t))) as J by (rewrite (row_names c assets d t d 0), <- (to_names _ _ _ TB); now apply (in_map fst) in I).
  apply in_map_iff in J. destruct J as ([m oq] & Em & J). cbn [fst] in Em. subst m. apply all_in_row in J. exists oq. split; [exact J|].
  destruct (cell_lookup _ _ _ Ht J) as (cells' & y & A1 & A2 & A3). rewrite (in_assoc _ _ _ lp_nodup I) in A1. injection A1 as <-. rewrite E in A2. injection A2 as ->. destruct oq; [eauto|exact Logic.I].
Qed.
Lemma lp_nonempty : lp <> [].
Proof. intros X. pose proof (to_names _ _ _ TB) as T. rewrite X in T. discriminate. Qed.
Lemma lp_reserved n : In n (map fst lp) -> ~ In n reserved.
Proof. rewrite (to_names _ _ _ TB). intros I. eapply not_reserved; [apply OS|exact I]. Qed.
Lemma n_rows_lp : n_rows lp = n_intervals c.
Proof. pose proof lp_nonempty as N. destruct lp as [|[n cl] l]; [congruence|]. cbn. rewrite <- rows_length. apply (to_len _ _ _ TB n). now left. Qed.

Lemma totals_lookup imp exp q : In q quantities -> assoc ("total-" ++ q) (lp ++ totals lp imp exp)%list = Some (sum_cols lp (is_quantity_col q)).
Proof.
  intros Iq. rewrite assoc_app. destruct (assoc ("total-" ++ q) lp) as [x|] eqn:E.
  - exfalso. apply assoc_in, (in_map fst) in E. apply (lp_reserved _ E). unfold reserved. apply in_app_iff. left. apply in_map_iff. exists q. split; [reflexivity|exact Iq].
  - cbn [quantities In] in Iq. repeat (destruct Iq as [<-|Iq]; [reflexivity|]). destruct Iq.
Qed.
Lemma lp_lookup imp exp m x : assoc m lp = Some x -> assoc m (lp ++ totals lp imp exp)%list = Some x.
Proof. intros H. rewrite assoc_app. now rewrite H. Qed.

Lemma selected_nonneg q t : In q quantities -> (t < n_intervals c)%nat -> 0 <= of_site q c t + total (of_quantity q d t) assets.
Proof.
  intros Iq Ht. rewrite <- (all_sum c assets d t q (os_ordinary _ _ OS) AF Iq). apply Qsum_map_nonneg. intros [nm oq] I. unfold selected. cbn [fst snd].
  destruct (is_quantity_col q nm) eqn:K; [|discriminate]. destruct oq as [x|]; [|discriminate]. cbn [zero_none].
  unfold all_cells in I. apply in_app_iff in I. destruct I as [I|I].
  2:{ apply in_flat_map in I. destruct I as (a & Ia & I). destruct PH as (PN & _). destruct (PN t Ht) as (_ & _ & PA). eapply PA; eauto. }
  destruct (os_nonneg _ _ OS) as (N1 & N2 & N3 & N4 & _).
  assert (forall l, Forall (fun x => 0 <= x) l -> 0 <= data l t) as DP.
  { intros l F. unfold data. destruct (nth_in_or_default t l 0) as [J|E0]; [|rewrite E0; discriminate]. rewrite Forall_forall in F. auto. }
  unfold site_cells in I. destruct PH as (PS & _). destruct (PS t Ht) as (G1 & G2 & _). destruct I as [I|[I|I]]; [injection I as <- <-; apply G1|injection I as <- <-; apply G2|].
  apply in_map_iff in I. destruct I as ([m l] & E & J). cbn [fst snd] in E. injection E as <- <-. unfold id_columns in J. apply in_app_iff in J. destruct J as [J|J].
  - cbn [quantities In] in Iq. cbn [In] in J.
    repeat (destruct J as [J|J]; [injection J as <- <-; first [apply DP; assumption|exfalso; repeat (destruct Iq as [<-|Iq]; [vm_compute in K; discriminate K|]); destruct Iq]|]). destruct J.
  - exfalso. destruct (os_ordinary _ _ OS) as (_ & OD). destruct (site_col q m K Iq) as [Y|Y]; destruct (OD _ J q Iq) as [Z1 Z2]; cbn [fst] in *; congruence.
Qed.

Lemma passes_schema imp exp : validate_schema (lp ++ totals lp imp exp)%list = Ok tt.
Proof.
  unfold validate_schema.
  assert (forallb (fun q => existsb (word_dash_prefix q) (columns (lp ++ totals lp imp exp)%list)) quantities = true) as ->.
  { apply forallb_forall. intros q Iq. apply existsb_exists. exists ("total-" ++ q). split.
    - unfold columns. rewrite map_app, in_app_iff. right. unfold totals. rewrite map_app, in_app_iff. left. rewrite map_map. cbn [fst]. apply in_map_iff. eauto.
    - cbn [quantities In] in Iq. repeat (destruct Iq as [<-|Iq]; [reflexivity|]). destruct Iq. }
  assert (forall m q, In (m, q) (site_cells c d 0) -> existsb (String.eqb m) (columns (lp ++ totals lp imp exp)%list) = true) as EX.
  { intros m q I. apply existsb_exists. exists m. split; [|apply String.eqb_refl]. destruct (cell_lookup m q 0 NP) as (cells & x & A & _); [unfold all_cells; apply in_app_iff; now left|].
    unfold columns. rewrite map_app, in_app_iff. left. apply assoc_in, (in_map fst) in A. exact A. }
  rewrite (EX "site-import_power_mwh" (Some (d_import d 0))) by (now left). rewrite (EX "site-export_power_mwh" (Some (d_export d 0))) by (right; now left).
  assert (forallb (fun nc => (negb (schema_col (fst nc)) || forallb (cell_ge d_epsilon) (snd nc))%bool) (lp ++ totals lp imp exp)%list = true) as ->; [|reflexivity].
  assert (forall q y, 0 <= q -> y == q -> cell_ge d_epsilon (Some y) = true) as CG.
  { intros q y Hq E. unfold cell_ge. apply Qle_bool_iff. rewrite E. eapply Qle_trans; [|exact Hq]. discriminate. }
  apply forallb_forall. intros [nm cells] I. cbn [fst snd]. destruct (schema_col nm) eqn:SC; [|reflexivity]. cbn [negb orb]. apply forallb_nth. intros t x E. apply in_app_iff in I. destruct I as [I|I].
  - destruct (lp_cells _ _ _ _ I E) as (Ht & oq & J & V). destruct (all_cell_ok _ _ _ _ _ _ OS (proj1 PH) AF Ht J SC) as (q & -> & Hq). destruct V as (y & -> & V). eapply CG; eauto.
  - unfold totals in I. apply in_app_iff in I. destruct I as [I|I].
    + apply in_map_iff in I. destruct I as (q & X & Iq). injection X as <- <-.
      assert (t < n_intervals c)%nat as Ht by (rewrite <- n_rows_lp, <- (sum_cols_length lp (is_quantity_col q)); apply nth_error_Some; congruence).
      destruct (total_at c assets d rows lp RW TB q t (os_ordinary _ _ OS) AF Iq Ht) as (y & Y1 & Y2). rewrite E in Y1. injection Y1 as ->. eapply CG; [|exact Y2]. now apply selected_nonneg.
    + exfalso. cbn [In] in I. repeat (destruct I as [I|I]; [injection I as <- <-; vm_compute in SC; discriminate SC|]). destruct I.
Qed.

Lemma passes_checks imp exp : assoc "site-import_power_mwh" lp = Some imp -> assoc "site-export_power_mwh" lp = Some exp ->
  check_results (lp ++ totals lp imp exp)%list (existsb is_valve assets) = Ok tt.
Proof.
  intros A1 A2. set (R := (lp ++ totals lp imp exp)%list).
  assert (forall q m, m = "total-" ++ q -> In q quantities -> get_col R m = Ok (sum_cols lp (is_quantity_col q))) as GT by (intros q m -> Iq; unfold get_col; subst R; rewrite totals_lookup by exact Iq; reflexivity).
  assert (forall q t x, In q quantities -> nth_error (sum_cols lp (is_quantity_col q)) t = Some x -> (t < n_intervals c)%nat /\ exists y, x = Some y /\ y == of_site q c t + total (of_quantity q d t) assets) as TV.
  { intros q t x Iq E. assert (t < n_intervals c)%nat as Ht by (rewrite <- n_rows_lp, <- (sum_cols_length lp (is_quantity_col q)); apply nth_error_Some; congruence). split; [exact Ht|].
    destruct (total_at c assets d rows lp RW TB q t (os_ordinary _ _ OS) AF Iq Ht) as (y & Y1 & Y2). rewrite E in Y1. injection Y1 as ->. eauto. }
  assert (forall t x, nth_error imp t = Some x -> exists y, x = Some y /\ y == d_import d t) as VI.
  { intros t x E. destruct (lp_cells _ _ _ _ (assoc_in _ _ _ A1) E) as (Ht & _). destruct (cell_lookup "site-import_power_mwh" (Some (d_import d t)) t Ht) as (cells & y & B1 & B2 & B3); [now left|].
    rewrite A1 in B1. injection B1 as <-. rewrite E in B2. injection B2 as ->. eauto. }
  assert (forall t x, nth_error exp t = Some x -> exists y, x = Some y /\ y == d_export d t) as VE.
  { intros t x E. destruct (lp_cells _ _ _ _ (assoc_in _ _ _ A2) E) as (Ht & _). destruct (cell_lookup "site-export_power_mwh" (Some (d_export d t)) t Ht) as (cells & y & B1 & B2 & B3); [right; now left|].
    rewrite A2 in B1. injection B1 as <-. rewrite E in B2. injection B2 as ->. eauto. }
  pose proof (proj1 (proj2 PH)) as PS.
  assert (check_electricity_balance R = Ok tt) as CE.
  { unfold check_electricity_balance. unfold get_col at 1. subst R. rewrite (lp_lookup imp exp _ _ A1). set (R := (lp ++ totals lp imp exp)%list) in *. cbn [of_option rbind].
    rewrite (GT "electric_generation_mwh" "total-electric_generation_mwh" eq_refl) by (cbn; tauto). cbn [rbind]. unfold get_col at 1. subst R. rewrite (lp_lookup imp exp _ _ A2). set (R := (lp ++ totals lp imp exp)%list) in *. cbn [of_option rbind].
    rewrite (GT "electric_load_mwh" "total-electric_load_mwh" eq_refl) by (cbn; tauto). cbn [rbind]. rewrite (GT "electric_discharge_mwh" "total-electric_discharge_mwh" eq_refl) by (cbn; tauto). cbn [rbind]. rewrite (GT "electric_charge_mwh" "total-electric_charge_mwh" eq_refl) by (cbn; tauto). cbn [rbind].
    assert (forall m x, In (m, x) (totals lp imp exp) -> exists y, get_col R m = Ok y) as GX.
    { intros m x I. unfold get_col. destruct (in_fst_assoc m R) as (y & ->); [|cbn; eauto]. subst R. rewrite map_app, in_app_iff. right. now apply (in_map fst) in I. }
    destruct (GX "total-electric_loss_mwh" (sum_cols lp is_loss_col)) as (y1 & ->); [unfold totals; apply in_app_iff; right; cbn; tauto|]. cbn [rbind].
    destruct (GX "total-spills_mwh" (sum_cols lp is_spill_total_col)) as (y2 & ->); [unfold totals; apply in_app_iff; right; cbn; tauto|]. cbn [rbind].
    unfold rassert. match goal with |- (if ?b then _ else _) = _ => assert (b = true) as -> end; [|reflexivity].
    apply forallb_nth. intros t z E. apply zip_nth in E. destruct E as (z1 & z2 & E1 & E2 & ->). apply zip_nth in E1. destruct E1 as (z3 & z4 & E3 & E4 & ->).
    apply zip_nth in E2, E3, E4. destruct E2 as (xe & xl & Ee & El & ->), E3 as (xi & xg & Ei & Eg & ->), E4 as (xd & xc & Ed & Ec & ->).
    destruct (VI _ _ Ei) as (i & -> & Qi). destruct (VE _ _ Ee) as (e & -> & Qe).
    destruct (TV "electric_generation_mwh" _ _ ltac:(cbn; tauto) Eg) as (Ht & g & -> & Qg). destruct (TV "electric_load_mwh" _ _ ltac:(cbn; tauto) El) as (_ & l & -> & Ql).
    destruct (TV "electric_discharge_mwh" _ _ ltac:(cbn; tauto) Ed) as (_ & ds & -> & Qd). destruct (TV "electric_charge_mwh" _ _ ltac:(cbn; tauto) Ec) as (_ & ch & -> & Qc).
    cbn [csub cadd]. destruct (PS t Ht) as (EB & _ & _). eapply small_close; [exact EB|].
    unfold of_site, of_quantity in *. cbn [String.eqb Ascii.eqb Bool.eqb] in *. rewrite Qi, Qe, Qg, Ql, Qd, Qc. change (fun a => elec_gen d t a) with (elec_gen d t). change (fun a => elec_load d t a) with (elec_load d t). change (fun a => charge d t a) with (charge d t). change (fun a => discharge d t a) with (discharge d t). lra. }
  assert (forall g l mg ml, mg = "total-" ++ g -> ml = "total-" ++ l -> In g quantities -> In l quantities -> (forall t, (t < n_intervals c)%nat -> small_gap (1 # 10000) (of_site g c t + total (of_quantity g d t) assets) (of_site l c t + total (of_quantity l d t) assets)) ->
    check_heat_balance R mg ml = Ok tt) as CH.
  { intros g l mg ml -> -> Ig Il H. unfold check_heat_balance. rewrite (GT g _ eq_refl Ig). cbn [rbind]. rewrite (GT l _ eq_refl Il). cbn [rbind]. unfold rassert. match goal with |- (if ?b then _ else _) = _ => assert (b = true) as -> end; [|reflexivity].
    apply forallb_nth. intros t z E. apply zip_nth in E. destruct E as (z1 & z2 & E1 & E2 & ->). destruct (TV g _ _ Ig E1) as (Ht & y1 & -> & Q1). destruct (TV l _ _ Il E2) as (_ & y2 & -> & Q2).
    cbn [csub]. eapply small_close; [exact (H t Ht)|]. rewrite Q1, Q2. ring. }
  unfold check_results. rewrite CE. cbn [rbind].
  rewrite (CH "high_temperature_generation_mwh" "high_temperature_load_mwh" "total-high_temperature_generation_mwh" "total-high_temperature_load_mwh" eq_refl eq_refl); [|cbn; tauto|cbn; tauto|].
  2:{ intros t Ht. destruct (PS t Ht) as (_ & HB & _). unfold small_gap in *. unfold of_site, of_quantity. cbn [String.eqb Ascii.eqb Bool.eqb]. change (fun a => ht_gen d t a) with (ht_gen d t). change (fun a => ht_load d t a) with (ht_load d t). lra. }
  cbn [rbind]. rewrite (CH "low_temperature_generation_mwh" "low_temperature_load_mwh" "total-low_temperature_generation_mwh" "total-low_temperature_load_mwh" eq_refl eq_refl); [|cbn; tauto|cbn; tauto|].
  2:{ intros t Ht. destruct (PS t Ht) as (_ & _ & LB). unfold small_gap in *. unfold of_site, of_quantity. cbn [String.eqb Ascii.eqb Bool.eqb]. change (fun a => lt_gen d t a) with (lt_gen d t). change (fun a => lt_load d t a) with (lt_load d t). lra. }
  cbn [rbind]. destruct (existsb is_valve assets) eqn:EV; [|reflexivity]. apply existsb_exists in EV. destruct EV as (a & Ia & Va). destruct a as [| | | | | | |m]; try discriminate. pose proof (os_valve _ _ OS m Ia) as ->.
  assert (forall t, (t < n_intervals c)%nat -> In ("valve-low_temperature_generation_mwh", Some (d_qty d "valve" LtGen t)) (all_cells c assets d t) /\ In ("valve-high_temperature_load_mwh", Some (d_qty d "valve" HtLoad t)) (all_cells c assets d t)) as VC.
  { intros t Ht. split; unfold all_cells; apply in_app_iff; right; apply in_flat_map; exists (AValve "valve"); (split; [exact Ia|]); cbn; tauto. }
  destruct (cell_lookup _ _ _ NP (proj1 (VC 0%nat NP))) as (lt & x0 & B1 & _). destruct (cell_lookup _ _ _ NP (proj2 (VC 0%nat NP))) as (ht & x1 & B2 & _).
  unfold get_col. subst R. rewrite (lp_lookup imp exp _ _ B1), (lp_lookup imp exp _ _ B2). cbn [of_option rbind].
  assert (all_zip cell_eqb lt ht = true) as ->.
  { apply all_zip_nth. intros t x y E1 E2. destruct (lp_cells _ _ _ _ (assoc_in _ _ _ B1) E1) as (Ht & _). destruct (VC t Ht) as [V1 V2].
    destruct (cell_lookup _ _ _ Ht V1) as (l1 & y1 & C1 & C2 & C3). rewrite B1 in C1. injection C1 as <-. rewrite E1 in C2. injection C2 as ->.
    destruct (cell_lookup _ _ _ Ht V2) as (l2 & y2 & D1 & D2 & D3). rewrite B2 in D1. injection D1 as <-. rewrite E2 in D2. injection D2 as ->.
    cbn [cell_eqb]. apply Qeq_bool_iff. rewrite C3, D3. exact (proj2 (proj2 PH) _ t Ia Ht). }
  unfold rassert. match goal with |- context [forallb ?f ?l] => assert (forallb f l = true) as -> end; [|reflexivity].
  apply forallb_forall. intros [nm cells] I. cbn [fst snd]. apply in_app_iff in I.
  assert (starts_with "charger-" nm && ends_with "-charge_binary" nm && negb (contains "spill" nm) = false)%bool as ->; [|reflexivity].
  assert (forall x a, dashfree a = true -> a <> "charge_binary" -> ends_with "-charge_binary" (column x a) = false) as EW.
  { intros x at_ D N. destruct (ends_with "-charge_binary" (column x at_)) eqn:E; [|reflexivity]. exfalso. apply ends_form in E. destruct E as (y & E).
    apply N. change (y ++ "-charge_binary") with (column y "charge_binary") in E. apply column_inj in E; [tauto|exact D|reflexivity]. }
  destruct I as [I|I].
  - apply (in_map fst) in I. cbn [fst] in I. rewrite (to_names _ _ _ TB) in I. apply in_map_iff in I. destruct I as ([m oq] & Em & J). cbn [fst] in Em. subst m. apply all_in_row in J. unfold all_cells in J. apply in_app_iff in J. destruct J as [J|J].
    + unfold site_cells in J. destruct J as [J|[J|J]]; try (injection J as <- _; reflexivity). apply in_map_iff in J. destruct J as ([m l] & E & _). injection E as <- _. reflexivity.
    + apply in_flat_map in J. destruct J as (b & _ & J). destruct (asset_cell_name _ _ _ _ _ J) as (x & at_ & -> & At & _). rewrite (EW x at_); [now rewrite andb_false_r|now apply cell_attr_dash|]. intros ->. cbn in At. repeat (destruct At as [At|At]; [discriminate|]). destruct At.
  - apply (in_map fst) in I. cbn [fst] in I. change (In nm reserved) in I. destruct (reserved_form _ I) as (x & at_ & -> & D & F). destruct F as [(-> & _)|(-> & _)]; reflexivity.
Qed.
End passes.
