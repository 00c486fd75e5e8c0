(** * PropCustom: custom accounts of a simulation (C43) *)
From Coq Require Import Permutation.
From Verif Require Import Base Pulp Params Optimizer Types Assets EVs Site Constraints Objectives Extract Pipeline Emit Prim Spec SpecReport SpecRun SpecNames SpecTotals SpecCost SpecTerms Layout Rows Sem SemEv SemSite SemProg SemObj SemCells SemRows SemTable SemResults RunFacts Builds ExtractOk Totals Totals2 Returns RowNames PropResults PropChecks PropObjective SemTerms PropTerms PropCtors Terms SpecDicts PropDicts Accounting SpecAccounts PropAccounts PropAccountRun.
Open Scope Q_scope.
Open Scope string_scope.

(** every cell of an asset is a column of one of the attributes *)
Lemma cell_form d t a n q : In (n, q) (asset_cells d t a) -> exists x attr, n = column x attr /\ In attr cell_attrs.
Proof.
  intros I. destruct a as [b|b|b|e|b|b|m|m]; cbn [asset_cells asset_name] in *.
  4:{ apply in_app_iff in I. unfold ev_main_cells, ev_spill_columns, ev_soc_report in I. cbv zeta in I. rewrite !in_app_iff, !in_flat_map, !in_map_iff in I.
      destruct I as [[([i cc] & _ & I)|[([i ec] & _ & I)|[(i & I & _)|(i & I & _)]]]|(cc & _ & I)].
      - cbn [ev_charger_report fst snd In] in I. repeat (destruct I as [I|I]; [injection I as <- _; eexists _, _; split; [reflexivity|attr_in]|]); destruct I.
      - cbn [ev_event_report fst snd In] in I. repeat (destruct I as [I|I]; [injection I as <- _; eexists _, _; split; [reflexivity|attr_in]|]); destruct I.
      - injection I as <- _. eexists _, _; split; [reflexivity|attr_in].
      - injection I as <- _. eexists _, _; split; [reflexivity|attr_in].
      - cbn [ev_spill_report fst snd In] in I. repeat (destruct I as [I|I]; [injection I as <- _; eexists _, _; split; [reflexivity|attr_in]|]); destruct I. }
  all: cbn [In] in I; repeat (destruct I as [I|I]; [injection I as <- _; eexists _, _; split; [reflexivity|attr_in]|]); destruct I.
Qed.
Lemma ends_computed : forallb (fun v => forallb (fun a => Bool.eqb (ends_with v a) (v =? a)) cell_attrs) plain_quantities = true.
Proof. vm_compute. reflexivity. Qed.
Lemma ends_attr v a : In v plain_quantities -> In a cell_attrs -> ends_with v a = (v =? a).
Proof.
  intros Iv Ia. pose proof ends_computed as H. rewrite forallb_forall in H. specialize (H v Iv). cbv beta in H. rewrite forallb_forall in H. specialize (H a Ia). now apply Bool.eqb_prop in H.
Qed.
Lemma ends_col v x a : In v plain_quantities -> In a cell_attrs -> ends_with v (column x a) = (v =? a).
Proof. intros Iv Ia. unfold column. rewrite ends_with_dash by now apply plain_dash. now apply ends_attr. Qed.
Lemma quantities_plain v : In v quantities -> In v plain_quantities.
Proof. intros I. cbn [quantities In] in I. cbn [plain_quantities In]. tauto. Qed.

Section pick.
Context slv base c assets cons obj fl r (FR : feasible_run slv base c assets cons obj fl r).
Notation R := (r_results r).

Lemma column_nodash v m : contains "-" v = false -> ends_with v ("site-" ++ m) = ends_with v m.
Proof. intros D. change ("site-" ++ m) with ("site" ++ "-" ++ m). now apply ends_with_dash. Qed.
Lemma grid_assets v d t a (p : string -> bool) : In v ["import_power_mwh"; "export_power_mwh"] -> (forall n, p n = true -> ends_with v n = true) -> cells_sum p (asset_cells d t a) == 0.
Proof.
  intros Iv P. apply cells_sum_none. intros n q I. destruct (cell_form _ _ _ _ _ I) as (x & attr & -> & IA).
  destruct (p (column x attr)) eqn:E; [exfalso|reflexivity]. apply P in E. rewrite ends_col in E; [|cbn in Iv |- *; tauto|auto].
  apply String.eqb_eq in E. subst attr. cbn [In] in Iv. destruct Iv as [<-|[<-|[]]]; revert IA;
   (assert (forall x, In x cell_attrs -> existsb (String.eqb x) cell_attrs = true) as H by (intros y Iy; apply existsb_exists; exists y; split; [auto|apply String.eqb_refl])); intros IA; apply H in IA; vm_compute in IA; discriminate.
Qed.
Lemma grid_site v d t : In v ["import_power_mwh"; "export_power_mwh"] -> (forall col, In col (id_custom (sc_idata c)) -> ends_with v (fst col) = false) ->
  forall p, (forall m, p ("site-" ++ m) = ends_with v m) -> cells_sum p (site_cells c d t) == quantity d t v PSite.
Proof.
  intros Iv NC p P. unfold site_cells, id_columns. rewrite map_app.
  match goal with |- cells_sum ?p (?a :: ?b :: ?l ++ ?r)%list == _ => change (a :: b :: l ++ r)%list with ((a :: b :: l) ++ r)%list end.
  rewrite cells_sum_app. match goal with |- _ + cells_sum ?p (map ?f ?l) == _ => rewrite (cells_sum_none p (map f l)) end.
  2:{ intros n oq I. apply in_map_iff in I. destruct I as (col & E & J). assert (n = "site-" ++ fst col) as -> by (now apply (f_equal fst) in E). rewrite P. now apply NC. }
  cbn [map fst snd]. unfold cells_sum. cbn [map Qsum fold_right]. unfold selected. cbn [fst snd zero_none].
  change "site-import_power_mwh" with ("site-" ++ "import_power_mwh"). change "site-export_power_mwh" with ("site-" ++ "export_power_mwh").
  rewrite !P. cbn [In] in Iv. destruct Iv as [<-|[<-|[]]]; cbn; ring.
Qed.
Lemma grid_totals v lp imp exp n cells : In v ["import_power_mwh"; "export_power_mwh"] -> In (n, cells) (totals lp imp exp) -> ends_with v n = false.
Proof.
  intros Iv. unfold totals. rewrite in_app_iff. intros [I|I].
  - apply in_map_iff in I. destruct I as (q & I & Iq). injection I as <- _. cbn [In] in Iv. cbn [quantities In] in Iq.
    destruct Iv as [<-|[<-|[]]]; repeat (destruct Iq as [<-|Iq]; [reflexivity|]); destruct Iq.
  - cbn [In] in Iv. destruct Iv as [<-|[<-|[]]]; cbn [In] in I; repeat (destruct I as [I|I]; [injection I as <- _; reflexivity|]); destruct I.
Qed.

Lemma site_piece k : t_asset_type k = Some "site" -> (t_asset_name k = None \/ t_asset_name k = Some "site") -> filter (term_picks k) (pieces assets) = [PSite].
Proof.
  intros TY NM. unfold pieces. cbn [filter]. assert (term_picks k PSite = true) as ->.
  { unfold term_picks. rewrite TY. destruct NM as [->| ->]; reflexivity. }
  f_equal. apply filter_nil. intros q Iq. apply in_flat_map in Iq. destruct Iq as (b & _ & Iq).
  assert (type_picks (Some "site") q = false) as T by (destruct b; cbn in Iq; repeat (destruct Iq as [<-|Iq]; [reflexivity|]); destruct Iq).
  unfold term_picks, picked. rewrite TY, T. reflexivity.
Qed.

Lemma grid_term_cost k : known_data c k -> grid_term c k ->
  exists x, simple_cost R k = Ok x /\ x == horizon c (term_at (reported r) c assets k).
Proof.
  intros KD (Iv & TY & NM & NC). assert (In (t_variable k) plain_quantities) as PV by (cbn in Iv |- *; tauto). unfold simple_cost.
  destruct (factor_ok _ _ _ _ _ _ _ _ FR k KD) as (f & -> & LF & VF). cbn [rbind]. eexists. split; [reflexivity|].
  assert (exists p : string -> bool, simple_columns R k = filter (fun nc => p (fst nc)) R /\ (forall n, p n = true -> ends_with (t_variable k) n = true) /\ (forall m, p ("site-" ++ m) = ends_with (t_variable k) m)) as (p & EP & P1 & P2).
  { unfold simple_columns, by_type_only. rewrite TY. destruct NM as [NM|NM]; rewrite NM; cbn [String.eqb Ascii.eqb Bool.eqb orb].
    - exists (ends_with (t_variable k)). split; [reflexivity|]. split; [auto|]. intros m. apply column_nodash. now apply plain_dash.
    - exists (fun n => ends_with (t_variable k) n && starts_with "site-" n)%bool. unfold find_asset_by_name. rewrite NM. split; [reflexivity|].
      split; [intros n E; apply andb_true_iff in E; tauto|]. intros m. rewrite column_nodash by now apply plain_dash.
      assert (starts_with "site-" ("site-" ++ m) = true) as ->; [|apply andb_true_r]. unfold starts_with. apply prefix_iff. now exists m. }
  rewrite EP.
  change (Qsum (map (scaled (t_coefficient k) f) (filter (fun nc => p (fst nc)) R)) == horizon c (term_at (reported r) c assets k)).
  rewrite (cols_exchange p _ f _ (n_intervals c)); [|intros col cells I; apply filter_In in I; destruct I as [I _]; exact (full_results _ _ _ _ _ _ _ _ FR _ _ I)|exact LF].
  unfold horizon. apply Qsum_map_ext. intros t It. apply in_seq in It. assert (t < n_intervals c)%nat as Ht by lia.
  rewrite (VF t Ht). unfold term_at. apply Qmult_comp; [|reflexivity]. apply Qmult_comp; [|reflexivity].
  destruct (acc_ctx _ _ _ _ _ _ _ _ FR) as (d & lp & rows & imp & exp & FA & RW & TB & E & ND & NR & _).
  rewrite (selected_at _ _ _ p t d lp rows imp exp Ht RW TB E NR).
  2:{ intros n I. destruct (p n) eqn:Pn; [|reflexivity]. apply P1 in Pn. now rewrite (none_not_plain _ _ d t n _ PV I) in Pn. }
  rewrite (filter_nil _ (totals lp imp exp)).
  2:{ intros [n cells] I. cbn [fst]. destruct (p n) eqn:Pn; [|reflexivity]. apply P1 in Pn. now rewrite (grid_totals _ _ _ _ _ _ Iv I) in Pn. }
  cbn [map Qsum fold_right]. rewrite Qplus_0_r.
  unfold all_cells. rewrite cells_sum_app, cells_sum_flat. rewrite (grid_site _ d t Iv NC p P2).
  rewrite (Qsum_map_zero (fun x => cells_sum p (asset_cells d t x))) by (intros b _; eapply grid_assets; eauto). rewrite Qplus_0_r.
  rewrite (amount_ext (n_intervals c) assets (reported r) (quantity d)); [|apply (facts_readings _ _ _ _ _ FA)|exact Ht|exact PV].
  unfold amount. rewrite (site_piece k TY NM). cbn [map Qsum fold_right]. ring.
Qed.

Lemma accountable_costs ks : Forall (accountable c assets) ks ->
  exists x, custom_costs R (as_custom_terms ks) = Ok x /\ x == terms_sum (reported r) c assets ks.
Proof.
  intros FO.
  assert (exists l, rmap (one_simple R) (map TSimple ks) = Ok l /\ Qsum l == terms_sum (reported r) c assets ks) as (l & L1 & L2).
  { induction FO as [|k ks (PT & KD & GN) FO (l & L1 & L2)]; [exists []; split; reflexivity|].
    assert (exists x, simple_cost R k = Ok x /\ x == horizon c (term_at (reported r) c assets k)) as (x & X1 & X2).
    { destruct GN as [G|N]; [now apply grid_term_cost|]. eapply named_cost; eauto. }
    exists (x :: l). split; [|unfold terms_sum in *; cbn [map Qsum fold_right]; fold (Qsum l); rewrite X2, L2; reflexivity].
    cbn [map rmap]. unfold one_simple at 1. cbn [one_term_type]. destruct PT as [-> _]. cbn [String.eqb Ascii.eqb Bool.eqb]. rewrite X1. cbn [rbind]. rewrite L1. reflexivity. }
  assert (Forall (fun k => t_type k = "simple") ks) as TY by (eapply Forall_impl; [|exact FO]; intros k (P & _); apply P).
  assert (rmap term_factory (map (fun k => ArgTerm (TSimple k)) ks) = Ok (map (fun k => (TSimple k, ArgTerm (TSimple k))) ks)) as TF.
  { clear - TY. induction TY as [|k ks E TY IH]; [reflexivity|]. cbn [map rmap]. rewrite (proj1 (C45_factory_object (TSimple k))) by exact I. cbn [rbind]. rewrite IH. reflexivity. }
  assert (rmap (one_two R) (map TSimple ks) = Ok (map (fun _ => 0) ks)) as T2.
  { clear - TY. induction TY as [|k ks E TY IH]; [reflexivity|]. cbn [map rmap]. unfold one_two at 1. cbn [one_term_type]. rewrite E. cbn [String.eqb Ascii.eqb Bool.eqb rbind]. rewrite IH. reflexivity. }
  assert (rmap (one_many R) (map TSimple ks) = Ok (map (fun _ => 0) ks)) as T3.
  { clear - TY. induction TY as [|k ks E TY IH]; [reflexivity|]. cbn [map rmap]. unfold one_many at 1. cbn [one_term_type]. rewrite E. cbn [String.eqb Ascii.eqb Bool.eqb rbind]. rewrite IH. reflexivity. }
  unfold as_custom_terms, custom_costs. rewrite TF. cbn [rbind]. rewrite map_map. cbn [fst]. change (map (fun x : term => TSimple x) ks) with (map TSimple ks).
  unfold add_simple_terms, add_two_variable_terms, add_many_variable_terms. rewrite L1, T2, T3. cbn [rbind].
  eexists. split; [reflexivity|]. rewrite (Qsum_map_zero (fun _ : term => 0)) by reflexivity. rewrite L2. ring.
Qed.
End pick.

(** ** C43 *)
(** The custom account of terms over the grid connection and over single named assets is what the same terms add to
    an objective. *)
Theorem C43_custom_account : forall slv base c assets cons obj fl r ks v,
  feasible_run slv base c assets cons obj fl r -> Forall (accountable c assets) ks ->
  exists a, get_accounts (r_results r) None (as_custom_terms ks) v = Ok a /\
    ac_cost (as_custom a) == terms_sum (reported r) c assets ks /\ ac_emissions (as_custom a) == 0.
Proof.
  intros slv base c assets cons obj fl r ks v FR FO. destruct (accountable_costs _ _ _ _ _ _ _ _ FR ks FO) as (x & X1 & X2).
  destruct (accounts_present _ _ _ _ _ _ _ _ FR _ v _ X1) as (a & A & C). exists a. split; [exact A|]. rewrite C. split; [exact X2|].
  unfold get_accounts in A. cbv zeta in A. apply rbind_ok in A. destruct A as (_ & _ & A). apply rbind_ok in A. destruct A as (? & _ & A). apply rbind_ok in A. destruct A as (? & _ & A).
  apply rbind_ok in A. destruct A as (? & _ & A). injection A as <-. reflexivity.
Qed.
(** So when such terms are the objective, the custom account is its value. *)
Theorem C43_objective : forall slv base c assets cons fl r ks v,
  feasible_run slv base c assets cons (simple_terms ks) fl r -> Forall (accountable c assets) ks ->
  exists a z, get_accounts (r_results r) None (as_custom_terms ks) v = Ok a /\ objective_is fl r z /\ ac_cost (as_custom a) == z.
Proof.
  intros slv base c assets cons fl r ks v FR FO. destruct (C43_custom_account _ _ _ _ _ _ _ _ ks v FR FO) as (a & A & X & _).
  destruct (C33_reported_objective _ _ _ _ _ _ _ _ FR) as (z & Z & ZE); [eapply Forall_impl; [|exact FO]; intros k (P & _); exact P|].
  exists a, z. splits; auto. now rewrite X, ZE.
Qed.

(** ** Terms that select by asset type *)
Lemma twice_computed : forallb (fun q => forallb (fun q' => Bool.eqb (ends_with q ("total-" ++ q')) (q =? q')) quantities
  && negb (ends_with q "total-spills_mwh") && negb (ends_with q "total-electric_loss_mwh") && negb (ends_with q "site-electricity_balance_mwh")) quantities = true.
Proof. vm_compute. reflexivity. Qed.
Lemma nodup_quantities : NoDup quantities.
Proof. apply nodup_str_iff. vm_compute. reflexivity. Qed.
Lemma twice_totals (g : string * list cell -> Q) lp imp exp v : In v quantities ->
  Qsum (map g (filter (fun nc => ends_with v (fst nc)) (totals lp imp exp))) == g ("total-" ++ v, sum_cols lp (is_quantity_col v)).
Proof.
  intros Iv. pose proof twice_computed as H. rewrite forallb_forall in H. specialize (H v Iv). cbv beta in H. rewrite !andb_true_iff, !negb_true_iff in H.
  destruct H as (((H & H1) & H2) & H3). unfold totals. rewrite filter_app. cbn [filter fst]. rewrite H1, H2, H3, app_nil_r. clear H1 H2 H3.
  assert (forall l, (forall q', In q' l -> ends_with v ("total-" ++ q') = (v =? q')) -> NoDup l -> In v l ->
     filter (fun nc : string * list cell => ends_with v (fst nc)) (map (fun q => ("total-" ++ q, sum_cols lp (is_quantity_col q))) l) = [("total-" ++ v, sum_cols lp (is_quantity_col v))]) as K.
  { clear. intros l H ND Iv. induction l as [|q l IH]; [destruct Iv|]. inversion ND as [|? ? NI ND']; subst. cbn [map filter fst]. rewrite (H q) by now left.
    assert (~ In v l -> filter (fun nc : string * list cell => ends_with v (fst nc)) (map (fun q => ("total-" ++ q, sum_cols lp (is_quantity_col q))) l) = []) as Z.
    { intros NV. apply filter_nil. intros x Ix. apply in_map_iff in Ix. destruct Ix as (q' & <- & Iq). cbn [fst]. rewrite H by now right. apply String.eqb_neq. intros ->. auto. }
    destruct (String.eqb_spec v q) as [->|N]; [now rewrite Z|]. destruct Iv as [->|Iv]; [congruence|]. apply IH; auto. intros; apply H; now right. }
  rewrite K; [cbn [map Qsum fold_right]; ring| |apply nodup_quantities|exact Iv].
  rewrite forallb_forall in H. intros q' I. specialize (H q' I). now apply Bool.eqb_prop in H.
Qed.

Lemma cells_sum_ext (p p' : string -> bool) l : (forall n q, In (n, q) l -> p n = p' n) -> cells_sum p l == cells_sum p' l.
Proof. intros H. unfold cells_sum. apply Qsum_map_ext. intros [n q] I. unfold selected. cbn [fst snd]. now rewrite (H n q I). Qed.
Lemma by_type_asset d t a v : ordinary_asset a -> In v quantities ->
  cells_sum (ends_with v) (asset_cells d t a) ==
  cells_sum (is_quantity_col v) (asset_cells d t a) + match a with AEVs e => quantity d t v (PEv e) | _ => 0 end.
Proof.
  intros OA Iv. pose proof (quantities_plain v Iv) as PV.
  assert (forall x attr, clean x -> In attr cell_attrs -> ends_with v (column x attr) = is_quantity_col v (column x attr)) as K.
  { intros x attr CL At. rewrite ends_col, clean_col; auto. }
  destruct a as [b|b|b|e|b|b|m|m]; cbn [ordinary_asset asset_name] in OA.
  4:{ destruct OA as (OC & OE). cbn [asset_cells]. unfold ev_main_cells, ev_spill_columns. rewrite !cells_sum_app, !cells_sum_flat.
      rewrite (cells_sum_none (ends_with v) (ev_soc_report d t e)).
      2:{ intros n q I. unfold ev_soc_report in I. cbv zeta in I. rewrite in_app_iff, !in_map_iff in I.
          destruct I as [(i & I & _)|(i & I & _)]; injection I as <- _; (rewrite ends_col by (auto; attr_in)); cbn [quantities In] in Iv; repeat (destruct Iv as [<-|Iv]; [reflexivity|]); destruct Iv. }
      rewrite soc_sum by exact Iv.
      rewrite (Qsum_map_ext (fun x => cells_sum (ends_with v) (ev_spill_report d t e x)) (fun x => cells_sum (is_quantity_col v) (ev_spill_report d t e x))).
      2:{ intros cc Ic. apply cells_sum_ext. intros n q I. cbn [ev_spill_report In] in I. repeat (destruct I as [I|I]; [injection I as <- _; apply K; [apply OC; auto|attr_in]|]). destruct I. }
      rewrite (Qsum_map_ext (fun x : nat * charger_cfg => cells_sum (ends_with v) (ev_charger_report d t e (fst x) (snd x))) (fun x : nat * charger_cfg => cells_sum (is_quantity_col v) (ev_charger_report d t e (fst x) (snd x)))).
      2:{ intros [i cc] Ic. apply enumerate_in in Ic. apply nth_error_In in Ic. apply cells_sum_ext. intros n q I. cbn [ev_charger_report fst snd In] in I. repeat (destruct I as [I|I]; [injection I as <- _; apply K; [apply OC; auto|attr_in]|]). destruct I. }
      rewrite (Qsum_map_zero (fun x : nat * charge_event_cfg => cells_sum (is_quantity_col v) (ev_event_report d t e (fst x) (snd x)))).
      2:{ intros [i ec] Ic. apply enumerate_in in Ic. apply nth_error_In in Ic. apply event_sum; auto. }
      assert (Qsum (map (fun x : nat * charge_event_cfg => cells_sum (ends_with v) (ev_event_report d t e (fst x) (snd x))) (enumerate (ev_event_cfgs e))) == quantity d t v (PEv e)) as ->; [|ring].
      rewrite (Qsum_map_ext _ (fun x : nat * charge_event_cfg =>
         if v =? "electric_charge_mwh" then Qsum (map (fun k => d_ev_charge d (ev_name e) (fst x) k t) (seq 0 (List.length (ev_chargers e)))) else
         if v =? "electric_discharge_mwh" then Qsum (map (fun k => d_ev_discharge d (ev_name e) (fst x) k t) (seq 0 (List.length (ev_chargers e)))) else 0)).
      2:{ intros [i ec] _. cbn [fst snd]. unfold ev_event_report. cbv zeta. set (s1 := Qsum _). set (s2 := Qsum _). set (s3 := Qsum _).
          unfold cells_sum; cbn [map Qsum fold_right]; unfold selected; cbn [fst snd]. rewrite !ends_col by (auto; attr_in).
          cbn [quantities In] in Iv. repeat (destruct Iv as [<-|Iv]; [cbn; ring|]). destruct Iv. }
      rewrite (enum_sum (fun i => if v =? "electric_charge_mwh" then Qsum (map (fun k => d_ev_charge d (ev_name e) i k t) (seq 0 (List.length (ev_chargers e)))) else
         if v =? "electric_discharge_mwh" then Qsum (map (fun k => d_ev_discharge d (ev_name e) i k t) (seq 0 (List.length (ev_chargers e)))) else 0)).
      cbn [quantities In] in Iv. repeat (destruct Iv as [<-|Iv]; [cbn [quantity String.eqb Ascii.eqb Bool.eqb]; first [reflexivity|apply Qsum_map_zero; reflexivity]|]). destruct Iv. }
  all: rewrite Qplus_0_r; apply cells_sum_ext; intros n q I; cbn [asset_cells asset_name In] in I; repeat (destruct I as [I|I]; [injection I as <- _; apply K; [exact OA|attr_in]|]); destruct I.
Qed.
Lemma by_type_site c d t v : (forall col, In col (id_custom (sc_idata c)) -> ordinary_data (fst col)) -> (forall col, In col (id_custom (sc_idata c)) -> ends_with v (fst col) = false) ->
  In v quantities -> cells_sum (ends_with v) (site_cells c d t) == cells_sum (is_quantity_col v) (site_cells c d t).
Proof.
  intros OD NC Iv. rewrite site_sum by auto. unfold site_cells, id_columns. rewrite map_app.
  match goal with |- cells_sum ?p (?a :: ?b :: ?l ++ ?r)%list == _ => change (a :: b :: l ++ r)%list with ((a :: b :: l) ++ r)%list end.
  rewrite cells_sum_app. match goal with |- _ + cells_sum ?p (map ?f ?l) == _ => rewrite (cells_sum_none p (map f l)) end.
  - cbn [map fst snd]. unfold cells_sum. cbn [map Qsum fold_right]. unfold selected. cbn [fst snd zero_none].
    cbn [quantities In] in Iv. repeat (destruct Iv as [<-|Iv]; [unfold of_site; cbn; ring|]). destruct Iv.
  - intros n oq I. apply in_map_iff in I. destruct I as (col & E & J). assert (n = "site-" ++ fst col) as -> by (now apply (f_equal fst) in E).
    rewrite column_nodash by (apply plain_dash; now apply quantities_plain). now apply NC.
Qed.
Lemma Qsum_pieces (f : piece -> Q) assets :
  Qsum (map f (filter chargers_only (pieces assets))) == Qsum (map (fun a => match a with AEVs e => f (PEv e) | _ => 0 end) assets).
Proof.
  unfold pieces. cbn [filter chargers_only]. induction assets as [|a l IH]; [reflexivity|]. cbn [flat_map map Qsum fold_right]. rewrite filter_app, map_app, Qsum_app, IH.
  apply Qplus_comp; [|reflexivity]. destruct a; cbn [pieces_of filter chargers_only map Qsum fold_right]; ring.
Qed.
(** The custom account of a simple term that selects by type only, or with "*" (the type itself is not looked at): every
    asset, the site's own data and the total column again, and the charge events of EVs once more. *)
Theorem C43_by_type : forall slv base c assets cons obj fl r k v,
  feasible_run slv base c assets cons obj fl r -> ordinary_names c assets ->
  t_type k = "simple" -> In (t_variable k) quantity_names -> known_data c k ->
  (t_asset_type k = Some "*" \/ t_asset_type k <> None /\ t_asset_name k = None) ->
  (forall col, In col (id_custom (sc_idata c)) -> ends_with (t_variable k) (fst col) = false) ->
  exists a, get_accounts (r_results r) None (as_custom_terms [k]) v = Ok a /\
    ac_cost (as_custom a) ==
    horizon c (fun t => (2 * num (r_results r) ("total-" ++ t_variable k) t + amount (reported r) assets t (t_variable k) chargers_only)
                        * data_value (sc_idata c) (t_interval_data k) t * t_coefficient k).
Proof.
  intros slv base c assets cons obj fl r k v FR ON TT Iv KD BT NC.
  assert (by_type_only k = true) as B.
  { unfold by_type_only. destruct BT as [->|(N & ->)]; [reflexivity|]. destruct (t_asset_type k); [apply orb_true_r|congruence]. }
  pose proof (quantities_plain _ Iv) as PV.
  assert (exists x, simple_cost (r_results r) k = Ok x /\ x == horizon c (fun t => (2 * num (r_results r) ("total-" ++ t_variable k) t + amount (reported r) assets t (t_variable k) chargers_only)
                        * data_value (sc_idata c) (t_interval_data k) t * t_coefficient k)) as (x & X1 & X2).
  { unfold simple_cost. destruct (factor_ok _ _ _ _ _ _ _ _ FR k KD) as (f & -> & LF & VF). cbn [rbind]. eexists. split; [reflexivity|].
    unfold simple_columns. rewrite B. unfold find_all_assets_with_variable.
    change (Qsum (map (scaled (t_coefficient k) f) (filter (fun nc => ends_with (t_variable k) (fst nc)) (r_results r))) == horizon c (fun t => (2 * num (r_results r) ("total-" ++ t_variable k) t + amount (reported r) assets t (t_variable k) chargers_only)
                        * data_value (sc_idata c) (t_interval_data k) t * t_coefficient k)).
    rewrite (cols_exchange (ends_with (t_variable k)) _ f _ (n_intervals c)); [|intros col cells I; apply filter_In in I; destruct I as [I _]; exact (full_results _ _ _ _ _ _ _ _ FR _ _ I)|exact LF].
    unfold horizon. apply Qsum_map_ext. intros t It. apply in_seq in It. assert (t < n_intervals c)%nat as Ht by lia.
    rewrite (VF t Ht). apply Qmult_comp; [|reflexivity]. apply Qmult_comp; [|reflexivity].
    destruct (acc_ctx _ _ _ _ _ _ _ _ FR) as (d & lp & rows & imp & exp & FA & RW & TB & E & ND & NR & _).
    rewrite (selected_at _ _ _ (ends_with (t_variable k)) t d lp rows imp exp Ht RW TB E NR).
    2:{ intros n I. eapply none_not_plain; eauto. }
    rewrite (twice_totals _ _ _ _ _ Iv). cbn [snd].
    destruct (col_sum_at c assets d rows lp RW TB (is_quantity_col (t_variable k)) t Ht) as (y & Y1 & Y2).
    { intros n I. eapply none_unselected; eauto. }
    assert (zero_none (cell_at (sum_cols lp (is_quantity_col (t_variable k))) t) == y) as T1.
    { unfold cell_at. rewrite (nth_error_nth _ _ _ Y1). reflexivity. }
    assert (num (r_results r) ("total-" ++ t_variable k) t == y) as T2.
    { rewrite <- T1. unfold cell_at. symmetry. erewrite get_col_num; [reflexivity|]. eapply col_present; [exact ND|].
      rewrite E. apply in_app_iff. right. unfold totals. apply in_app_iff. left. apply in_map_iff. exists (t_variable k). split; [reflexivity|exact Iv]. }
    rewrite T1, T2, Y2. destruct ON as (OA & OD).
    unfold all_cells. rewrite !cells_sum_app, !cells_sum_flat. rewrite (by_type_site _ _ _ _ OD NC Iv).
    rewrite (Qsum_map_ext (fun x => cells_sum (ends_with (t_variable k)) (asset_cells d t x)) _ _ (fun a Ia => by_type_asset d t a (t_variable k) (OA a Ia) Iv)).
    rewrite Qsum_map_plus.
    rewrite (amount_ext (n_intervals c) assets (reported r) (quantity d)); [|apply (facts_readings _ _ _ _ _ FA)|exact Ht|exact PV].
    unfold amount. rewrite Qsum_pieces. ring. }
  assert (custom_costs (r_results r) (as_custom_terms [k]) = Ok (x + 0 + (0 + 0) + (0 + 0))) as CC.
  { unfold as_custom_terms, custom_costs. cbn [map rmap]. rewrite (proj1 (C45_factory_object (TSimple k))) by exact Logic.I. cbn [rbind map fst].
    unfold add_simple_terms, add_two_variable_terms, add_many_variable_terms. cbn [rmap]. unfold one_simple, one_two, one_many. cbn [one_term_type]. rewrite TT. cbn [String.eqb Ascii.eqb Bool.eqb rbind].
    rewrite X1. reflexivity. }
  destruct (accounts_present _ _ _ _ _ _ _ _ FR _ v _ CC) as (a & A & C). exists a. split; [exact A|]. rewrite C, <- X2. ring.
Qed.
