(** * PropPlot: plots and debug functions leave the results usable (C65) *)
From Coq Require Import Permutation Qround.
From Verif Require Import Base Pulp Params Optimizer Types Objectives Extract Pipeline Check Lucky Certified Spec SpecReport SpecRun SpecNames SpecCost SpecTerms Emit Prim Layout Rows SemSite SemProg SemCells SemRows SemTable SemResults RunFacts Totals Totals2 Returns PropChecks PropResults PropCtors Terms Accounting SpecAccounts PropAccounts PropAccountRun PropCustom SampleSite Plot SpecPlot.
Open Scope Q_scope.
Open Scope string_scope.

(** ** One step *)
Lemma among_iff names n : among names n = true <-> In n names.
Proof.
  unfold among. rewrite existsb_exists. split.
  - intros (x & I & E). apply String.eqb_eq in E. now subst.
  - intros I. exists n. split; auto. apply String.eqb_refl.
Qed.
Lemma filter_set (p : string * list cell -> bool) r n c : (forall x, p (n, x) = false) -> filter p (set_col r n c) = filter p r.
Proof.
  intros P. induction r as [|[m x] r IH]; cbn [set_col filter]; [now rewrite P|].
  destruct (n =? m) eqn:E; [apply String.eqb_eq in E; subst m; cbn [filter]; now rewrite !P|]. cbn [filter]. now rewrite IH.
Qed.
Lemma columns_set r n c x : In x (columns r) -> In x (columns (set_col r n c)).
Proof.
  unfold columns. induction r as [|[m y] r IH]; [intros []|]. cbn [map fst set_col]. intros [<-|I]; destruct (n =? m); cbn [map fst]; [now left|now left|now right|right; auto].
Qed.
Lemma keeps_refl names r : keeps names r r.
Proof. split; [reflexivity|apply incl_refl]. Qed.
Lemma keeps_trans names r s u : keeps names r s -> keeps names s u -> keeps names r u.
Proof. intros [A B] [C D]. split; [congruence|eapply incl_tran; eauto]. Qed.
Lemma keeps_set names r n c : In n names -> keeps names r (set_col r n c).
Proof.
  intros I. split; [|intros x; apply columns_set]. apply filter_set. intros x. cbn [fst]. apply among_iff in I. now rewrite I.
Qed.
Lemma other_incl names names' r : incl names names' -> other_columns names' (other_columns names r) = other_columns names' r.
Proof.
  intros I. unfold other_columns. induction r as [|x r IH]; [reflexivity|]. cbn [filter].
  destruct (among names (fst x)) eqn:E; cbn [negb].
  - apply among_iff, I, among_iff in E. rewrite E. exact IH.
  - cbn [filter]. now rewrite IH.
Qed.
Lemma keeps_incl names names' r s : incl names names' -> keeps names r s -> keeps names' r s.
Proof. intros I [A B]. split; [|exact B]. rewrite <- (other_incl _ _ s I), <- (other_incl _ _ r I). now rewrite A. Qed.

Lemma table_rows r n : table_with r n -> n_rows r = n.
Proof. intros [N F]. destruct r as [|[m x] r]; [congruence|]. apply (F m x). now left. Qed.
Lemma set_in r n c col cells : In (col, cells) (set_col r n c) -> In (col, cells) r \/ (col = n /\ cells = c).
Proof.
  induction r as [|[m x] r IH]; cbn [set_col].
  - intros [E|[]]. injection E as <- <-. now right.
  - destruct (n =? m) eqn:E; intros [H|H].
    + apply String.eqb_eq in E. injection H as <- <-. right. now subst.
    + left. now right.
    + left. now left.
    + destruct (IH H) as [J|J]; [left; now right|now right].
Qed.
Lemma table_set r n k c : table_with r n -> List.length c = n -> table_with (set_col r k c) n.
Proof.
  intros [N F] L. split.
  - destruct r as [|[m x] r]; [congruence|]. cbn [set_col]. destruct (k =? m); congruence.
  - intros col cells I. destruct (set_in _ _ _ _ _ I) as [J|[-> ->]]; [eapply F; eauto|exact L].
Qed.

(** what a piece of a plot does to a table of n rows; [post] speaks of what it returns *)
Definition gentle {A} (n : nat) (names : list string) (m : plotting A) (post : A -> Prop) : Prop :=
  forall r, table_with r n -> keeps names r (fst (m r)) /\ table_with (fst (m r)) n /\
    match snd (m r) with Ok a => post a | Err _ => True end.
Definition any {A} : A -> Prop := fun _ => True.
Definition long (n : nat) : list cell -> Prop := fun c => List.length c = n.
Section gentle.
Context (n : nat) (names : list string).
Lemma g_ret {A} (a : A) (P : A -> Prop) : P a -> gentle n names (pret a) P.
Proof. intros Pa r T. cbn. splits; auto. apply keeps_refl. Qed.
Lemma g_raise {A} e post : gentle n names (praise (A := A) e) post.
Proof. intros r T. cbn. splits; auto. apply keeps_refl. Qed.
Lemma g_bind {A B} (m : plotting A) (f : A -> plotting B) (P : A -> Prop) (Q' : B -> Prop) :
  gentle n names m P -> (forall a, P a -> gentle n names (f a) Q') -> gentle n names (pbind m f) Q'.
Proof.
  intros M F r T. unfold pbind. destruct (M r T) as (K & T' & P'). destruct (m r) as [r' [a|e]]; cbn [fst snd] in *.
  - destruct (F a P' r' T') as (K2 & T2 & P2). splits; auto. eapply keeps_trans; eauto.
  - splits; auto.
Qed.
Lemma g_look x : gentle n names (look x) (long n).
Proof.
  intros r T. unfold look. cbn [fst snd]. splits; auto; [apply keeps_refl|]. destruct (get_col r x) as [c|e] eqn:E; [|exact Logic.I].
  apply get_in in E. now apply (proj2 T) in E.
Qed.
Lemma g_put x c : In x names -> long n c -> gentle n names (put x c) any.
Proof. intros I L r T. cbn. splits; auto; [now apply keeps_set|now apply table_set|exact Logic.I]. Qed.
Lemma g_draw x y : gentle n names (draw x y) any.
Proof. unfold draw. eapply g_bind; [apply g_look|]. intros _ _. eapply g_bind; [apply g_look|]. intros _ _. apply g_ret. exact Logic.I. Qed.
Lemma g_number x : In x names -> gentle n names (number_rows x) any.
Proof.
  intros I r T. unfold number_rows. apply g_put; auto. unfold long, row_numbers. rewrite map_length, seq_length. now apply table_rows.
Qed.
Lemma g_find a b : gentle n names (find_column a b) any.
Proof.
  intros r T. unfold find_column. destruct (filter _ _) as [|c [|? ?]]; cbn [fst snd]; splits; auto using keeps_refl; exact Logic.I.
Qed.
Lemma zip_len f k : forall a b, List.length a = k -> List.length b = k -> List.length (zip_cells f a b) = k.
Proof.
  induction k as [|k IH]; intros [|x a] [|y b] A B; try discriminate; [reflexivity|]. cbn [zip_cells List.length] in *. f_equal. apply IH; congruence.
Qed.
Lemma g_difference a b : gentle n names (difference a b) (long n).
Proof.
  unfold difference. eapply g_bind; [apply g_look|]. intros x X. eapply g_bind; [apply g_look|]. intros y Y. apply g_ret. now apply zip_len.
Qed.
Lemma g_round x : In x names -> gentle n names (round_column x) any.
Proof. intros I. unfold round_column. eapply g_bind; [apply g_look|]. intros c L. apply g_put; auto. unfold long in *. now rewrite map_length. Qed.
Lemma g_each f l : (forall x, In x l -> gentle n names (f x) any) -> gentle n names (each f l) any.
Proof.
  induction l as [|x l IH]; intros H; [apply g_ret; exact Logic.I|]. cbn [each]. eapply g_bind; [apply H; now left|]. intros _ _. apply IH. intros; apply H; now right.
Qed.
End gentle.
Lemma g_plot n p : gentle n (touched p) (plot p) any.
Proof.
  destruct p as [|assets name| |name]; cbn [plot].
  - unfold plot_battery. cbn [touched]. eapply g_bind; [apply g_number; cbn; tauto|]. intros _ _. eapply g_bind; [apply g_difference|]. intros b B.
    eapply g_bind; [apply g_put; [cbn; tauto|exact B]|]. intros _ _. eapply g_bind; [apply g_draw|]. intros _ _.
    eapply g_bind; [apply g_find|]. intros c1 _. eapply g_bind; [apply g_look|]. intros c C. eapply g_bind; [apply g_find|]. intros d1 _. eapply g_bind; [apply g_look|]. intros d D.
    eapply g_bind; [apply g_put; [cbn; tauto|now apply zip_len]|]. intros _ _. do 3 (eapply g_bind; [apply g_draw|]; intros _ _). apply g_draw.
  - unfold plot_evs. intros r T. destruct (negb _); [now apply g_raise|]. destruct (_ || _)%bool; [now apply g_raise|].
    destruct (filter _ assets) as [|a [|? ?]]; [now apply g_raise| |now apply g_raise].
    revert r T. eapply g_bind; [apply g_look|]. intros _ _. eapply g_bind; [apply g_look|]. intros _ _. apply g_ret. exact Logic.I.
  - unfold plot_chp. cbn [touched]. eapply g_bind; [apply g_number; cbn; tauto|]. intros _ _. eapply g_bind; [apply g_difference|]. intros b B.
    eapply g_bind; [apply g_put; [cbn; tauto|exact B]|]. intros _ _. do 4 (eapply g_bind; [apply g_draw|]; intros _ _). apply g_draw.
  - unfold plot_heat_pump.
    assert (forall x, In x (low_temperature_columns name) -> In x (touched (PlotHeatPump name))) as H' by (intros x Hx; apply in_app_iff; now right).
    eapply g_bind; [apply g_number; cbn; tauto|]. intros _ _. do 2 (eapply g_bind; [apply g_draw|]; intros _ _).
    eapply g_bind; [apply g_each; intros x Ix; apply g_round, H'; cbn [heat_columns_out low_temperature_columns In] in *; tauto|]. intros _ _.
    eapply g_bind; [apply g_each; intros x Ix; apply g_round, H'; cbn [heat_columns_in low_temperature_columns In] in *; tauto|]. intros _ _.
    eapply g_bind; [apply g_draw|]; intros _ _. apply g_draw.
Qed.

(** ** Any number of plots *)
Lemma g_plots ps : forall r n, table_with r n -> keeps (touched_by ps) r (after_all ps r) /\ table_with (after_all ps r) n.
Proof.
  unfold after_all, touched_by. induction ps as [|p ps IH]; intros r n T; cbn [fold_left flat_map].
  - split; auto. apply keeps_refl.
  - destruct (g_plot n p r T) as (K & T' & _). fold (after p r) in K, T'. destruct (IH _ _ T') as [K2 T2]. split; auto.
    eapply keeps_trans; [eapply keeps_incl; [|exact K]|eapply keeps_incl; [|exact K2]]; [apply incl_appl, incl_refl|apply incl_appr, incl_refl].
Qed.
Lemma assoc_other names n r : ~ In n names -> assoc n (other_columns names r) = assoc n r.
Proof.
  intros N. unfold other_columns. induction r as [|[m x] r IH]; [reflexivity|]. cbn [filter fst assoc].
  destruct (among names m) eqn:E; cbn [negb].
  - rewrite IH. destruct (n =? m) eqn:E2; [|reflexivity]. apply String.eqb_eq in E2. subst m. apply among_iff in E. contradiction.
  - cbn [assoc]. destruct (n =? m); auto.
Qed.
Lemma keeps_assoc names r r' n : keeps names r r' -> ~ In n names -> assoc n r' = assoc n r.
Proof. intros [K _] N. rewrite <- (assoc_other names n r N), <- K. now rewrite assoc_other. Qed.
Lemma keeps_col names r r' n : keeps names r r' -> ~ In n names -> get_col r' n = get_col r n.
Proof. intros K N. unfold get_col. now rewrite (keeps_assoc _ _ _ _ K N). Qed.
Lemma filter_other (p : string * list cell -> bool) names r : (forall x, In (fst x) names -> p x = false) -> filter p (other_columns names r) = filter p r.
Proof.
  intros H. unfold other_columns. induction r as [|x r IH]; [reflexivity|]. cbn [filter]. destruct (among names (fst x)) eqn:E; cbn [negb].
  - apply among_iff in E. now rewrite (H x E).
  - cbn [filter]. now rewrite IH.
Qed.
Lemma keeps_filter (p : string * list cell -> bool) names r r' : keeps names r r' -> (forall x, In (fst x) names -> p x = false) -> filter p r' = filter p r.
Proof. intros [K _] H. rewrite <- (filter_other p names r H), <- K. now apply eq_sym, filter_other. Qed.

(** ** Accounts of the table afterwards *)
Definition not_read (names : list string) : Prop :=
  forall n, In n ["site-import_power_mwh"; "site-export_power_mwh"; "site-electricity_prices"; "site-electricity_carbon_intensities"; "site-gas_prices";
    "total-gas_consumption_mwh"; "total-electric_generation_mwh"; "total-electric_load_mwh"; "total-electric_discharge_mwh"; "total-electric_charge_mwh";
    "total-electric_loss_mwh"; "total-spills_mwh"; "total-high_temperature_generation_mwh"; "total-high_temperature_load_mwh";
    "total-low_temperature_generation_mwh"; "total-low_temperature_load_mwh"] -> ~ In n names.
Section unread.
Context (names : list string) (r r' : frame) (n : nat) (K : keeps names r r') (T : table_with r n) (T' : table_with r' n).
Lemma rows_same : n_rows r' = n_rows r.
Proof. now rewrite (table_rows _ _ T), (table_rows _ _ T'). Qed.
Ltac cols NR := rewrite !(keeps_col _ _ _ _ K) by (apply NR; cbn; tauto).
Lemma check_same : not_read names -> check_results r' false = check_results r false.
Proof. intros NR. unfold check_results, check_electricity_balance, check_heat_balance. cols NR. reflexivity. Qed.
Lemma ends_same v (q : string -> bool) : reads_not names v -> filter (fun nc : string * list cell => ends_with v (fst nc) && q (fst nc))%bool r' = filter (fun nc => ends_with v (fst nc) && q (fst nc))%bool r.
Proof. intros H. apply (keeps_filter _ _ _ _ K). intros x I. now rewrite (H _ I). Qed.
Lemma all_same v : reads_not names v -> filter (fun nc : string * list cell => ends_with v (fst nc)) r' = filter (fun nc => ends_with v (fst nc)) r.
Proof. intros H. apply (keeps_filter _ _ _ _ K). intros x I. now rewrite (H _ I). Qed.
Lemma simple_same t : term_avoids names t -> simple_cost r' t = simple_cost r t.
Proof.
  intros [A B]. unfold simple_cost, simple_columns. rewrite rows_same.
  assert ((if by_type_only t then find_all_assets_with_variable r' t else find_asset_by_name r' t) = if by_type_only t then find_all_assets_with_variable r t else find_asset_by_name r t) as ->.
  { destruct (by_type_only t); [now apply all_same|]. unfold find_asset_by_name. apply (ends_same _ (fun c => starts_with _ c)); auto. }
  destruct (t_interval_data t) as [d|]; [|reflexivity]. now rewrite (keeps_col _ _ _ _ K B).
Qed.
Lemma side_same x : side_avoids names x -> find_values_for_term r' x = find_values_for_term r x.
Proof.
  destruct x as [t|q]; cbn [side_avoids find_values_for_term]; intros A; [now rewrite (keeps_col _ _ _ _ K A)|now rewrite rows_same].
Qed.
Lemma many_same t : reads_not names (t_variable (m_variables t)) -> forall g, many_cost r' t g = many_cost r t g.
Proof.
  intros A g. unfold many_cost, many_columns. rewrite rows_same.
  assert (find_all_assets_with_variable r' (m_variables t) = find_all_assets_with_variable r (m_variables t)) as -> by now apply all_same.
  assert (find_asset_by_name r' (m_variables t) = find_asset_by_name r (m_variables t)) as ->.
  { unfold find_asset_by_name. now apply (ends_same _ (fun c => starts_with _ c)). }
  destruct (t_asset_type (m_variables t)) as [ty|]; [|reflexivity]. destruct (ty =? "*"); [reflexivity|]. destruct (t_asset_name (m_variables t)); [reflexivity|].
  unfold find_asset_type_with_variables. cbv zeta. rewrite (ends_same _ (fun c => existsb (String.eqb (type_part c)) _)) by auto. reflexivity.
Qed.
Lemma rmap_ext {A B} (f g : A -> res B) l : (forall x, In x l -> f x = g x) -> rmap f l = rmap g l.
Proof. induction l as [|x l IH]; intros H; [reflexivity|]. cbn [rmap]. rewrite (H x) by now left. rewrite IH; [reflexivity|]. intros; apply H; now right. Qed.
Lemma custom_same ts : custom_avoids names ts -> custom_costs r' ts = custom_costs r ts.
Proof.
  destruct ts as [args|]; [|reflexivity]. cbn [custom_avoids custom_costs]. intros A. destruct (rmap term_factory args) as [ts|e] eqn:E; [|reflexivity]. cbn [rbind].
  assert (forall t, In t (map fst ts) -> avoids names t) as AV.
  { intros t I. apply in_map_iff in I. destruct I as ([t' x] & <- & I). apply rmap_ok in E. destruct (Forall2_in_r _ _ _ _ E I) as (arg & Ia & F). eapply A; eauto. }
  assert (add_simple_terms r' (map fst ts) = add_simple_terms r (map fst ts)) as ->.
  { unfold add_simple_terms. rewrite (rmap_ext (one_simple r') (one_simple r)); [reflexivity|]. intros t I. apply AV in I. unfold one_simple. destruct (_ =? _); [|reflexivity].
    destruct t as [t|t|t]; try reflexivity. now apply simple_same. }
  assert (add_two_variable_terms r' (map fst ts) = add_two_variable_terms r (map fst ts)) as ->.
  { unfold add_two_variable_terms. rewrite (rmap_ext (one_two r') (one_two r)); [reflexivity|]. intros t I. apply AV in I. unfold one_two. destruct (_ =? _); [|reflexivity].
    destruct (one_term_function t) as [f|e]; [|reflexivity]. cbn [rbind]. destruct (two_function f); [|reflexivity]. destruct t as [t|t|t]; try reflexivity.
    destruct I as [A1 A2]. unfold two_cost. now rewrite (side_same _ A1), (side_same _ A2). }
  assert (add_many_variable_terms r' (map fst ts) = add_many_variable_terms r (map fst ts)) as ->.
  { unfold add_many_variable_terms. rewrite (rmap_ext (one_many r') (one_many r)); [reflexivity|]. intros t I. apply AV in I. unfold one_many. destruct (_ =? _); [|reflexivity].
    destruct (one_term_function t) as [f|e]; [|reflexivity]. cbn [rbind]. destruct (many_function f); [|reflexivity]. destruct t as [t|t|t]; try reflexivity.
    now apply many_same. }
  reflexivity.
Qed.
End unread.
Lemma accounts_same names names2 r r' p p' n m ts v :
  keeps names r r' -> table_with r n -> table_with r' n -> keeps names2 p p' -> table_with p m -> table_with p' m ->
  not_read names -> not_read names2 -> custom_avoids names ts ->
  get_accounts r' (Some p') ts v = get_accounts r (Some p) ts v.
Proof.
  intros K T T' K2 P P' NR NR2 A. unfold get_accounts. rewrite (custom_same _ _ _ _ K T T' _ A).
  assert (get_one_electricity_account r' p' = get_one_electricity_account r p) as ->.
  { unfold get_one_electricity_account. rewrite !(keeps_col _ _ _ _ K2) by (apply NR2; cbn; tauto). rewrite !(keeps_col _ _ _ _ K) by (apply NR; cbn; tauto). reflexivity. }
  assert (get_one_gas_account r' p' = get_one_gas_account r p) as ->.
  { unfold get_one_gas_account. rewrite !(keeps_col _ _ _ _ K2) by (apply NR2; cbn; tauto). rewrite !(keeps_col _ _ _ _ K) by (apply NR; cbn; tauto). reflexivity. }
  rewrite (check_same _ _ _ K NR), (check_same _ _ _ K2 NR2). reflexivity.
Qed.
Lemma append_end s : forall x y : string, x ++ s = y ++ s -> x = y.
Proof.
  assert (forall a b : string, String.length (a ++ b) = (String.length a + String.length b)%nat) as L.
  { induction a as [|c a IH]; intros b; [reflexivity|]. cbn [append String.length]. now rewrite IH. }
  induction x as [|c x IH]; intros [|d y] E; [reflexivity| | |].
  - apply (f_equal String.length) in E. rewrite !L in E. cbn in E. lia.
  - apply (f_equal String.length) in E. rewrite !L in E. cbn in E. lia.
  - cbn [append] in E. injection E as -> E. f_equal. now apply IH.
Qed.
Lemma plots_not_read ps : Forall no_total ps -> not_read (touched_by ps).
Proof.
  intros F n In1 In2. apply in_flat_map in In2. destruct In2 as (p & Ip & Iq). rewrite Forall_forall in F. specialize (F p Ip).
  assert (existsb (String.eqb n) helper_columns = false) as NH by (cbn [In] in In1; repeat (destruct In1 as [<-|In1]; [reflexivity|]); destruct In1).
  assert (~ In n helper_columns) as NH'.
  { intros H. apply (among_iff helper_columns n) in H. unfold among in H. congruence. }
  destruct p as [|assets name| |name]; cbn [touched] in Iq; [contradiction|destruct Iq|contradiction|].
  apply in_app_iff in Iq. destruct Iq as [H|H]; [contradiction|].
  assert (n = name ++ "-low_temperature_load_mwh" \/ existsb (String.eqb n) (low_temperature_columns "") = true) as [E|E].
  { cbn [low_temperature_columns In] in H. rewrite existsb_exists. destruct H as [<-|[<-|[<-|[<-|[<-|[<-|[]]]]]]]; [right|right|now left|right|right|right];
      (eexists; split; [|apply String.eqb_refl]); cbn; tauto. }
  - assert (n = "total-low_temperature_load_mwh") as EN.
    { assert (ends_with "-low_temperature_load_mwh" n = true) as EW.
      { subst n. clear. induction name as [|c name IH]; [reflexivity|]. cbn [append ends_with]. rewrite IH. apply orb_true_r. }
      clear E. cbn [In] in In1. repeat (destruct In1 as [<-|In1]; [first [reflexivity|discriminate EW]|]). destruct In1. }
    rewrite EN in E. change ("total" ++ "-low_temperature_load_mwh" = name ++ "-low_temperature_load_mwh") in E. apply append_end in E. subst name. now apply F.
  - exfalso. cbn [In] in In1. repeat (destruct In1 as [<-|In1]; [discriminate E|]). destruct In1.
Qed.

(** ** C65 *)
(** Plots, any number of them and whether they return or raise, keep every column but their helper columns and the low temperature
    columns that the heat pump plot rounds. *)
Theorem C65_plots_keep : forall ps r n, table_with r n ->
  keeps (touched_by ps) r (after_all ps r) /\ table_with (after_all ps r) n.
Proof. exact g_plots. Qed.
(** The accounts of a simulation that was plotted are the accounts of the simulation. *)
Theorem C65_accounts_after_plots : forall ps ps' r p n m ts v,
  table_with r n -> table_with p m -> Forall no_total ps -> Forall no_total ps' -> custom_avoids (touched_by ps) ts ->
  get_accounts (after_all ps r) (Some (after_all ps' p)) ts v = get_accounts r (Some p) ts v /\
  get_accounts (after_all ps r) None ts v = get_accounts r None ts v.
Proof.
  intros ps ps' r p n m ts v T P NT NT' A. destruct (g_plots ps r n T) as [K T']. destruct (g_plots ps' p m P) as [K2 P'].
  split; [eapply accounts_same; eauto using plots_not_read|].
  rewrite !C41_prices_default. eapply accounts_same; eauto using plots_not_read.
Qed.

(** ** Rounding *)
Lemma Qltb_true a b : Qltb a b = true -> a < b.
Proof. unfold Qltb. intros H. apply negb_true_iff in H. apply Qnot_le_lt. intros L. apply Qle_bool_iff in L. congruence. Qed.
Lemma Qltb_false a b : Qltb a b = false -> b <= a.
Proof. unfold Qltb. intros H. apply negb_false_iff in H. now apply Qle_bool_iff. Qed.
Lemma Qltb_comp a a' b b' : a == a' -> b == b' -> Qltb a b = Qltb a' b'.
Proof.
  intros A B. destruct (Qltb a b) eqn:E; destruct (Qltb a' b') eqn:E'; try reflexivity; exfalso.
  - apply Qltb_true in E. apply Qltb_false in E'. lra.
  - apply Qltb_false in E. apply Qltb_true in E'. lra.
Qed.
Lemma nearest_comp a b : a == b -> nearest a = nearest b.
Proof.
  intros E. unfold nearest. assert (Qfloor a = Qfloor b) as -> by now rewrite E.
  rewrite (Qltb_comp (a - inject_Z (Qfloor b)) (b - inject_Z (Qfloor b)) (1#2) (1#2)) by (rewrite ?E; reflexivity).
  rewrite (Qltb_comp (1#2) (1#2) (a - inject_Z (Qfloor b)) (b - inject_Z (Qfloor b))) by (rewrite ?E; reflexivity). reflexivity.
Qed.
Lemma nearest_whole z : nearest (inject_Z z) = z.
Proof.
  unfold nearest. rewrite Qfloor_Z. rewrite (Qltb_comp (inject_Z z - inject_Z z) 0 (1#2) (1#2)) by (try reflexivity; ring). reflexivity.
Qed.
Lemma nearest_close q : Qabs (q - inject_Z (nearest q)) <= 1 # 2.
Proof.
  unfold nearest. pose proof (Qfloor_le q) as A. pose proof (Qlt_floor q) as B. rewrite inject_Z_plus in B. change (inject_Z 1) with 1 in B.
  apply Qabs_Qle_condition. destruct (Qltb (q - inject_Z (Qfloor q)) (1#2)) eqn:E1; [apply Qltb_true in E1; lra|]. apply Qltb_false in E1.
  destruct (Qltb (1#2) (q - inject_Z (Qfloor q))) eqn:E2; [apply Qltb_true in E2; rewrite inject_Z_plus; change (inject_Z 1) with 1; lra|]. apply Qltb_false in E2.
  destruct (Z.even (Qfloor q)); [lra|rewrite inject_Z_plus; change (inject_Z 1) with 1; lra].
Qed.
Lemma round4_again q : round4 (round4 q) = round4 q.
Proof.
  unfold round4 at 1. rewrite (nearest_comp (round4 q * 10000) (inject_Z (nearest (q * 10000)))); [rewrite nearest_whole; reflexivity|]. unfold round4. field.
Qed.
Lemma round4_close q : Qabs (q - round4 q) <= 1 # 20000.
Proof.
  unfold round4. pose proof (nearest_close (q * 10000)) as H. apply Qabs_Qle_condition in H. apply Qabs_Qle_condition.
  set (z := inject_Z (nearest (q * 10000))) in *. assert (z / 10000 == z * (1 # 10000)) as -> by field. lra.
Qed.
Definition rounded (a b : list cell) : Prop := Forall2 (fun x y => y = x \/ y = option_map round4 x) a b.
Lemma rounded_refl a : rounded a a.
Proof. induction a; constructor; auto. Qed.
Lemma rounded_trans a b c : rounded a b -> rounded b c -> rounded a c.
Proof.
  intros H. revert c. induction H as [|x y a b E H IH]; intros c K; inversion K as [|? z ? c' E' K']; subst; constructor; auto; [|now apply IH].
  destruct E as [E|E], E' as [E'|E']; subst; auto. right. destruct x; cbn [option_map]; [now rewrite round4_again|reflexivity].
Qed.
Lemma rounded_map a : rounded a (map (option_map round4) a).
Proof. induction a; constructor; auto. Qed.
Lemma rounded_close a b : rounded a b -> close_cells (1 # 20000) a b.
Proof.
  intros H. induction H as [|x y a b E H IH]; constructor; auto. destruct E as [->| ->]; destruct x as [q|]; cbn [option_map]; auto; [|apply round4_close].
  setoid_replace (q - q) with 0 by ring. discriminate.
Qed.
Definition tidy {A} (m : plotting A) : Prop :=
  forall r n a, ~ In n helper_columns -> assoc n r = Some a -> exists b, assoc n (fst (m r)) = Some b /\ rounded a b.
Lemma t_same {A} (m : plotting A) : (forall r, fst (m r) = r) -> tidy m.
Proof. intros H r n a _ E. rewrite H. eauto using rounded_refl. Qed.
Lemma t_bind {A B} (m : plotting A) (f : A -> plotting B) : tidy m -> (forall a, tidy (f a)) -> tidy (pbind m f).
Proof.
  intros M F r n a N E. unfold pbind. destruct (M r n a N E) as (b & E' & R). destruct (m r) as [r' [x|e]]; cbn [fst] in *; [|eauto].
  destruct (F x r' n b N E') as (c & E2 & R2). eauto using rounded_trans.
Qed.
Lemma t_put n c : In n helper_columns -> tidy (put n c).
Proof. intros I r m a N E. cbn [put fst]. exists a. split; [|apply rounded_refl]. rewrite set_col_other; [exact E|]. intros ->. contradiction. Qed.
Lemma set_col_same r n c : assoc n (set_col r n c) = Some c.
Proof.
  induction r as [|[m x] r IH]; cbn [set_col assoc]; [now rewrite String.eqb_refl|]. destruct (n =? m) eqn:E; cbn [assoc]; rewrite E; auto.
Qed.
Lemma t_round x : tidy (round_column x).
Proof.
  intros r n a N E. unfold round_column, pbind, look, get_col. destruct (assoc x r) as [c|] eqn:Ex; cbn [of_option fst put]; [|eauto using rounded_refl].
  destruct (String.eqb_spec n x) as [->|NE].
  - rewrite set_col_same. rewrite Ex in E. injection E as ->. eauto using rounded_map.
  - rewrite set_col_other by auto. eauto using rounded_refl.
Qed.
Lemma t_draw x y : tidy (draw x y).
Proof. unfold draw. apply t_bind; [now apply t_same|]. intros _. apply t_bind; [now apply t_same|]. intros _. now apply t_same. Qed.
Lemma t_each f l : (forall x, tidy (f x)) -> tidy (each f l).
Proof. intros H. induction l as [|x l IH]; [now apply t_same|]. cbn [each]. apply t_bind; auto. Qed.
Lemma t_find a b : tidy (find_column a b).
Proof. apply t_same. intros r. unfold find_column. destruct (filter _ _) as [|? [|? ?]]; reflexivity. Qed.
Lemma t_number x : In x helper_columns -> tidy (number_rows x).
Proof. intros I r n a N E. now apply (t_put x (row_numbers r) I). Qed.
Lemma t_difference a b : tidy (difference a b).
Proof. unfold difference. apply t_bind; [now apply t_same|]. intros x. apply t_bind; [now apply t_same|]. intros y. now apply t_same. Qed.
Lemma t_plot p : tidy (plot p).
Proof.
  destruct p as [|assets name| |name]; cbn [plot].
  - unfold plot_battery. apply t_bind; [apply t_number; cbn; tauto|]. intros _. apply t_bind; [apply t_difference|]. intros b.
    apply t_bind; [apply t_put; cbn; tauto|]. intros _. apply t_bind; [apply t_draw|]. intros _. apply t_bind; [apply t_find|]. intros c1. apply t_bind; [now apply t_same|]. intros c.
    apply t_bind; [apply t_find|]. intros d1. apply t_bind; [now apply t_same|]. intros d. apply t_bind; [apply t_put; cbn; tauto|]. intros _.
    do 3 (apply t_bind; [apply t_draw|]; intros _). apply t_draw.
  - apply t_same. intros r. unfold plot_evs. destruct (negb _); [reflexivity|]. destruct (_ || _)%bool; [reflexivity|]. destruct (filter _ assets) as [|a [|? ?]]; try reflexivity.
    unfold pbind, look. destruct (get_col r _); [|reflexivity]. destruct (get_col r _); reflexivity.
  - unfold plot_chp. apply t_bind; [apply t_number; cbn; tauto|]. intros _. apply t_bind; [apply t_difference|]. intros b.
    apply t_bind; [apply t_put; cbn; tauto|]. intros _. do 4 (apply t_bind; [apply t_draw|]; intros _). apply t_draw.
  - unfold plot_heat_pump. apply t_bind; [apply t_number; cbn; tauto|]. intros _. do 2 (apply t_bind; [apply t_draw|]; intros _).
    apply t_bind; [apply t_each; intros; apply t_round|]. intros _. apply t_bind; [apply t_each; intros; apply t_round|]. intros _. apply t_bind; [apply t_draw|]. intros _. apply t_draw.
Qed.
(** No plot, and no sequence of plots, moves a number by more than the rounding to four decimals, once. *)
Theorem C65_plots_close : forall ps r n a, assoc n r = Some a -> ~ In n helper_columns ->
  exists b, assoc n (after_all ps r) = Some b /\ close_cells (1 # 20000) a b.
Proof.
  intros ps r n a E N. assert (exists b, assoc n (after_all ps r) = Some b /\ rounded a b) as (b & E' & R); [|eauto using rounded_close].
  unfold after_all. revert r a E. induction ps as [|p ps IH]; intros r a E; cbn [fold_left]; [eauto using rounded_refl|].
  destruct (t_plot p r n a N E) as (b & Eb & R). destruct (IH (after p r) b Eb) as (c & Ec & R2). eauto using rounded_trans.
Qed.

(** ** When plots work *)
Definition ready (names : list string) (fs : list ((string -> bool) * list string)) (cols : list string) : Prop :=
  incl names cols /\ Forall (fun fx => filter (fst fx) cols = snd fx) fs.
Definition works {A} names fs (m : plotting A) (names' : list string) : Prop :=
  forall r, ready names fs (columns r) -> exists a, snd (m r) = Ok a /\ ready names' fs (columns (fst (m r))).
Lemma w_bind {A B} names names' names2 fs (m : plotting A) (f : A -> plotting B) :
  works names fs m names' -> (forall a, works names' fs (f a) names2) -> works names fs (pbind m f) names2.
Proof.
  intros M F r H. destruct (M r H) as (a & E & H'). unfold pbind. destruct (m r) as [r' o]. cbn [fst snd] in *. subst o. now apply F.
Qed.
Lemma has_col r n : In n (columns r) -> exists c, get_col r n = Ok c.
Proof.
  unfold columns, get_col. induction r as [|[m x] r IH]; [intros []|]. cbn [map fst assoc]. intros [<-|I].
  - rewrite String.eqb_refl. cbn. eauto.
  - destruct (n =? m); [cbn; eauto|auto].
Qed.
Lemma w_look names fs n : In n names -> works names fs (look n) names.
Proof. intros I r H. unfold look. cbn [fst snd]. destruct (has_col r n) as (c & E); [apply H, I|]. exists c. split; auto. Qed.
Lemma w_ret {A} names fs (a : A) : works names fs (pret a) names.
Proof. intros r H. exists a. split; auto. Qed.
Lemma w_draw names fs x y : In x names -> In y names -> works names fs (draw x y) names.
Proof. intros X Y. unfold draw. eapply w_bind; [now apply w_look|]. intros _. eapply w_bind; [now apply w_look|]. intros _. apply w_ret. Qed.
Lemma columns_added r n c : columns (set_col r n c) = columns r \/ columns (set_col r n c) = (columns r ++ [n])%list.
Proof.
  unfold columns. induction r as [|[m x] r IH]; cbn [set_col map fst app]; [now right|]. destruct (n =? m); cbn [map fst]; [now left|]. destruct IH as [-> | ->]; auto.
Qed.
Lemma columns_new r n c : In n (columns (set_col r n c)).
Proof.
  unfold columns. induction r as [|[m x] r IH]; cbn [set_col map fst]; [now left|]. destruct (String.eqb_spec n m); cbn [map fst]; [left; congruence|now right].
Qed.
Lemma w_put names fs n c : Forall (fun fx => fst fx n = false) fs -> works names fs (put n c) (n :: names).
Proof.
  intros F r [H1 H2]. exists tt. cbn [put fst snd]. split; [reflexivity|]. split.
  - intros x [<-|I]; [apply columns_new|apply columns_set, H1, I].
  - destruct (columns_added r n c) as [-> | ->]; [exact H2|]. rewrite Forall_forall in *. intros fx I. rewrite filter_app, (H2 fx I). cbn [filter]. rewrite (F fx I). apply app_nil_r.
Qed.
Lemma w_number names fs n : Forall (fun fx => fst fx n = false) fs -> works names fs (number_rows n) (n :: names).
Proof. intros F r H. unfold number_rows. now apply w_put. Qed.
Lemma w_difference names fs a b : In a names -> In b names -> works names fs (difference a b) names.
Proof. intros A B. unfold difference. eapply w_bind; [now apply w_look|]. intros x. eapply w_bind; [now apply w_look|]. intros y. apply w_ret. Qed.
Lemma w_round names fs n : Forall (fun fx => fst fx n = false) fs -> In n names -> works names fs (round_column n) (n :: names).
Proof. intros F I. unfold round_column. eapply w_bind; [now apply w_look|]. intros c. now apply w_put. Qed.
Lemma w_weaken {A} names fs (m : plotting A) names' names2 : works names fs m names' -> incl names2 names' -> works names fs m names2.
Proof. intros W I r H. destruct (W r H) as (a & E & H1 & H2). exists a. split; auto. split; auto. eapply incl_tran; eauto. Qed.
Lemma w_each names fs f l : (forall x, In x l -> works names fs (f x) names) -> works names fs (each f l) names.
Proof. induction l as [|x l IH]; intros H; [apply w_ret|]. cbn [each]. eapply w_bind; [apply H; now left|]. intros _. apply IH. intros; apply H; now right. Qed.
Lemma works_outcome (m : plotting unit) names fs names' r : works names fs m names' -> ready names fs (columns r) -> snd (m r) = Ok tt.
Proof. intros W H. destruct (W r H) as ([] & E & _). exact E. Qed.

Lemma w_find {B} names fs a b x (f : string -> plotting B) names2 : In ((fun n => starts_with a n && ends_with b n)%bool, [x]) fs ->
  works names fs (f x) names2 -> works names fs (pbind (find_column a b) f) names2.
Proof.
  intros I W r H. unfold pbind, find_column. pose proof (proj2 H) as F. rewrite Forall_forall in F. specialize (F _ I). cbn [fst snd] in F. rewrite F. now apply W.
Qed.
(** ... and when they do not *)
Definition fails {A} names fs (m : plotting A) (e : pyerr) : Prop := forall r, ready names fs (columns r) -> snd (m r) = Err e.
Lemma f_here {A B} names fs (m : plotting A) (f : A -> plotting B) e : fails names fs m e -> fails names fs (pbind m f) e.
Proof. intros F r H. specialize (F r H). unfold pbind. destruct (m r) as [r' o]. cbn [snd] in F. subst o. reflexivity. Qed.
Lemma f_later {A B} names names' fs (m : plotting A) (f : A -> plotting B) e : works names fs m names' -> (forall a, fails names' fs (f a) e) -> fails names fs (pbind m f) e.
Proof. intros W F r H. destruct (W r H) as (a & E & H'). unfold pbind. destruct (m r) as [r' o]. cbn [fst snd] in *. subst o. now apply F. Qed.
Lemma f_look names fs n : In (String.eqb n, []) fs -> fails names fs (look n) KeyErr.
Proof.
  intros I r [_ F]. unfold look. cbn [snd]. rewrite Forall_forall in F. specialize (F _ I). cbn [fst snd] in F. unfold get_col.
  destruct (assoc n r) as [x|] eqn:E; [|reflexivity]. exfalso. assert (In n (columns r)) as K.
  { clear - E. induction r as [|[m y] r IH]; [discriminate|]. cbn [assoc] in E. destruct (n =? m) eqn:Em; [apply String.eqb_eq in Em; left; auto|right; auto]. }
  assert (In n (filter (String.eqb n) (columns r))) as J by (apply filter_In; split; [exact K|apply String.eqb_refl]). rewrite F in J. destruct J.
Qed.
Lemma f_draw {B} names fs x y (f : unit -> plotting B) : (forall u, fails names fs (f u) KeyErr) -> fails names fs (pbind (draw x y) f) KeyErr.
Proof.
  intros F r H. unfold draw, pbind, look. destruct (assoc x r) as [cx|] eqn:Ex; unfold get_col; rewrite Ex; cbn [of_option]; [|reflexivity].
  destruct (assoc y r) as [cy|] eqn:Ey; cbn [of_option]; [|reflexivity]. now apply F.
Qed.
Lemma f_find {B} names fs a b l (f : string -> plotting B) : In ((fun n => starts_with a n && ends_with b n)%bool, l) fs -> List.length l <> 1%nat ->
  fails names fs (pbind (find_column a b) f) AssertionErr.
Proof.
  intros I N r H. unfold pbind, find_column. pose proof (proj2 H) as F. rewrite Forall_forall in F. specialize (F _ I). cbn [fst snd] in F. rewrite F.
  destruct l as [|? [|? ?]]; try reflexivity. now cbn in N.
Qed.
Ltac inn := cbn [In]; tauto.
Lemma ends_suffix s : forall x, ends_with s (x ++ s) = true.
Proof.
  assert (ends_with s s = true) as E by (destruct s; cbn [ends_with]; [reflexivity|now rewrite String.eqb_refl]).
  induction x as [|a x IH]; [exact E|]. cbn [append ends_with]. rewrite IH. apply orb_true_r.
Qed.
Section run.
Context slv base c assets cons obj fl r (FR : feasible_run slv base c assets cons obj fl r).
Notation R := (r_results r).
Lemma r_table : table_with R (n_intervals c).
Proof.
  split; [|exact (full_results _ _ _ _ _ _ _ _ FR)].
  destruct (acc_ctx _ _ _ _ _ _ _ _ FR) as (d & lp & rows & imp & exp & FA & _ & _ & E & _). rewrite E. destruct lp; discriminate.
Qed.
Lemma site_in n : In n ("import_power_mwh" :: "export_power_mwh" :: map fst (id_columns (sc_idata c))) -> In ("site-" ++ n) (columns R).
Proof.
  intros I. destruct (site_col_present _ _ _ _ _ _ _ _ FR n I) as (cells & G). apply get_in in G. apply in_map_iff. exists ("site-" ++ n, cells). split; auto.
Qed.
Lemma asset_in a attr d q : facts R c assets fl d -> In a assets -> In (column (asset_name a) attr, q) (asset_cells d 0 a) -> In (column (asset_name a) attr) (columns R).
Proof.
  intros FA Ia I. destruct (fa_reports _ _ _ _ _ FA) as (_ & _ & SH). pose proof (fa_n _ _ _ _ _ FA) as H0.
  assert (In (column (asset_name a) attr, q) (all_cells c assets d 0)) as IA by (unfold all_cells; apply in_app_iff; right; apply in_flat_map; eauto).
  specialize (SH _ _ _ H0 IA). apply in_map_iff. destruct q as [q|].
  - destruct SH as (cells & x & C1 & _). exists (column (asset_name a) attr, cells). split; [reflexivity|exact C1].
  - unfold has_cell in SH. destruct SH as (cells & x & C1 & _). exists (column (asset_name a) attr, cells). split; [reflexivity|exact C1].
Qed.
(** every column belongs to the site, to the totals or to an asset *)
Lemma column_origin : exists d, facts R c assets fl d /\ NoDup (columns R) /\ forall n, In n (columns R) ->
  (exists x, n = column "site" x) \/ (exists x, n = column "total" x) \/ exists a q, In a assets /\ In (n, q) (asset_cells d 0 a).
Proof.
  destruct (acc_ctx _ _ _ _ _ _ _ _ FR) as (d & lp & rows & imp & exp & FA & _ & TB & E & ND & _). exists d. splits; auto.
  intros n I. unfold columns in I. rewrite E in I. rewrite map_app in I. apply in_app_iff in I. destruct I as [I|I].
  - rewrite (to_names _ _ _ TB) in I. apply in_map_iff in I. destruct I as ([m q] & <- & I). apply (Permutation_in _ (row_perm c assets d 0)) in I.
    unfold all_cells in I. apply in_app_iff in I. destruct I as [I|I].
    + left. unfold site_cells in I. destruct I as [I|[I|I]]; [injection I as <- _; eexists; reflexivity|injection I as <- _; eexists; reflexivity|].
      apply in_map_iff in I. destruct I as (y & I & _). injection I as <- _. exists (fst y). reflexivity.
    + right. right. apply in_flat_map in I. destruct I as (a & Ia & I). exists a, q. split; auto.
  - apply in_map_iff in I. destruct I as ([m cells] & <- & I). apply totals_named in I. cbn [fst]. destruct I as [(x & ->)| ->]; [right; left; exists x; reflexivity|].
    left. exists "electricity_balance_mwh". reflexivity.
Qed.
Lemma filter_single (p : string -> bool) l x : NoDup l -> In x l -> p x = true -> (forall y, In y l -> p y = true -> y = x) -> filter p l = [x].
Proof.
  clear. induction l as [|y l IH]; [intros _ []|]. intros ND I P U. inversion ND as [|? ? N ND']; subst. cbn [filter]. destruct (p y) eqn:E.
  - assert (y = x) by (apply U; [now left|exact E]). subst y. f_equal. apply filter_nil. intros z Iz. destruct (p z) eqn:Ez; [|reflexivity].
    exfalso. assert (z = x) by (apply U; [now right|exact Ez]). subst z. contradiction.
  - destruct I as [->|I]; [congruence|]. apply IH; auto. intros z Iz. apply U. now right.
Qed.
Lemma apart_not_col n m x : apart n m -> starts_with (n ++ "-") (column m x) = false.
Proof. apply apart_column. Qed.
Lemma apart_any n y a : apart n (asset_name a) -> (y = asset_name a \/ exists z, y = column (asset_name a) z) -> forall attr, starts_with (n ++ "-") (column y attr) = false.
Proof.
  intros AP [->|(z & ->)] attr; [now apply apart_column|]. unfold column. rewrite !app_assoc_s. now apply apart_column.
Qed.
(** the battery's charge column is the only one of its kind *)
Lemma battery_column b attr : In (ABattery b) assets -> b_name b = "battery" -> (forall a, In a assets -> a = ABattery b \/ apart "battery" (asset_name a)) ->
  In attr ["electric_charge_mwh"; "electric_discharge_mwh"] ->
  filter (fun n => starts_with "battery-" n && ends_with ("-" ++ attr) n)%bool (columns R) = [("battery-" ++ attr)%string].
Proof.
  intros Ib NM AP At. destruct column_origin as (d & FA & ND & OR). apply filter_single; auto.
  - apply (asset_in (ABattery b) attr d (Some (d_qty d "battery" (if attr =? "electric_charge_mwh" then Charge else Discharge) 0))) in Ib; auto.
    + cbn [asset_name] in Ib. rewrite NM in Ib. exact Ib.
    + cbn [asset_cells asset_name]. rewrite NM. cbn [In] in At. destruct At as [<-|[<-|[]]]; cbn; tauto.
  - cbn [In] in At. destruct At as [<-|[<-|[]]]; reflexivity.
  - intros y Iy P. apply andb_true_iff in P. destruct P as [P1 P2]. destruct (OR y Iy) as [(x & ->)|[(x & ->)|(a & q & Ia & Iq)]].
    + rewrite (apart_not_col "battery" "site") in P1; [discriminate|]. unfold apart; splits; [discriminate|reflexivity|reflexivity].
    + rewrite (apart_not_col "battery" "total") in P1; [discriminate|]. unfold apart; splits; [discriminate|reflexivity|reflexivity].
    + destruct (asset_cell_name _ _ _ _ _ Iq) as (z & at' & -> & Ca & Z). destruct (AP a Ia) as [->|A].
      * cbn [asset_cells asset_name In] in Iq. rewrite NM in Iq. cbn [In] in At.
        repeat (destruct Iq as [Iq|Iq]; [injection Iq as E _; rewrite <- E in P2 |- *; destruct At as [<-|[<-|[]]]; first [discriminate P2|reflexivity]|]). destruct Iq.
      * rewrite (apart_any "battery" z a A Z) in P1. discriminate.
Qed.
Lemma plain_columns : incl ["site-import_power_mwh"; "site-export_power_mwh"; "site-electricity_prices"; "site-electricity_carbon_intensities"; "site-high_temperature_load_mwh"; "site-low_temperature_load_mwh"; "site-low_temperature_generation_mwh"] (columns R).
Proof.
  intros x I. cbn [In] in I. repeat (destruct I as [<-|I]; [match goal with |- In ?s _ => let t := eval cbv in (String.substring 5 100 s) in change (In ("site-" ++ t) (columns R)) end; apply site_in; cbn; tauto|]). destruct I.
Qed.
Lemma battery_plots b : In (ABattery b) assets -> b_name b = "battery" -> (forall a, In a assets -> a = ABattery b \/ apart "battery" (asset_name a)) ->
  outcome PlotBattery R = Ok tt.
Proof.
  intros Ib NM AP. unfold outcome, plot.
  pose (fs := [((fun n => starts_with "battery-" n && ends_with "-electric_charge_mwh" n)%bool, ["battery-electric_charge_mwh"]); ((fun n => starts_with "battery-" n && ends_with "-electric_discharge_mwh" n)%bool, ["battery-electric_discharge_mwh"])]).
  pose (names := ["battery-electric_charge_mwh"; "battery-electric_discharge_mwh"; "battery-electric_final_charge_mwh"; "site-import_power_mwh"; "site-export_power_mwh"; "site-electricity_prices"; "site-electricity_carbon_intensities"]).
  assert (ready names fs (columns R)) as RD.
  { destruct column_origin as (d & FA & ND & OR). split.
    - intros x I. cbn [names In] in I. pose proof (asset_in (ABattery b)) as H. cbn [asset_name] in H. rewrite NM in H.
      destruct I as [<-|[<-|[<-|I]]].
      + eapply (H "electric_charge_mwh" d (Some (d_qty d "battery" Charge 0))); auto. cbn [asset_cells asset_name]. rewrite NM. cbn; tauto.
      + eapply (H "electric_discharge_mwh" d (Some (d_qty d "battery" Discharge 0))); auto. cbn [asset_cells asset_name]. rewrite NM. cbn; tauto.
      + eapply (H "electric_final_charge_mwh" d (Some (d_qty d "battery" Soc1 0))); auto. cbn [asset_cells asset_name]. rewrite NM. cbn; tauto.
      + apply plain_columns. cbn; tauto.
    - constructor; [|constructor; [|constructor]]; cbn [fst snd fs].
      + apply (battery_column b "electric_charge_mwh"); auto. now left.
      + apply (battery_column b "electric_discharge_mwh"); auto. right. now left. }
  subst names fs. eapply works_outcome; [|exact RD]. unfold plot_battery.
  eapply w_bind; [apply w_number; repeat constructor|]. intros _. eapply w_bind; [apply w_difference; inn|]. intros bb. eapply w_bind; [apply w_put; repeat constructor|]. intros _.
  eapply w_bind; [apply w_draw; inn|]. intros _. apply (w_find _ _ _ _ "battery-electric_charge_mwh"); [now left|]. eapply w_bind; [apply w_look; inn|]. intros cc.
  apply (w_find _ _ _ _ "battery-electric_discharge_mwh"); [right; now left|]. eapply w_bind; [apply w_look; inn|]. intros dd. eapply w_bind; [apply w_put; repeat constructor|]. intros _.
  do 3 (eapply w_bind; [apply w_draw; inn|]; intros _). apply w_draw; inn.
Qed.
Lemma chp_plots b : In (ABoiler b) assets -> bo_name b = "boiler" -> In (ASpill "spill") assets -> outcome PlotChp R = Ok tt.
Proof.
  intros Ib NM Is. unfold outcome, plot.
  pose (names := ["boiler-high_temperature_generation_mwh"; "spill-low_temperature_load_mwh"; "site-import_power_mwh"; "site-export_power_mwh"; "site-electricity_prices"; "site-electricity_carbon_intensities"]).
  assert (ready names [] (columns R)) as RD.
  { destruct column_origin as (d & FA & ND & OR). split; [|constructor]. intros x I. cbn [names In] in I. destruct I as [<-|[<-|I]].
    - pose proof (asset_in (ABoiler b)) as H. cbn [asset_name] in H. rewrite NM in H.
      eapply (H "high_temperature_generation_mwh" d (Some (d_qty d "boiler" HtGen 0))); auto. cbn [asset_cells asset_name]. rewrite NM. now left.
    - eapply (asset_in (ASpill "spill") "low_temperature_load_mwh" d (Some (d_qty d "spill" LtLoad 0))); auto. cbn [asset_cells asset_name]. inn.
    - apply plain_columns. inn. }
  subst names. eapply works_outcome; [|exact RD]. unfold plot_chp.
  eapply w_bind; [apply w_number; constructor|]. intros _. eapply w_bind; [apply w_difference; inn|]. intros bb. eapply w_bind; [apply w_put; constructor|]. intros _.
  do 4 (eapply w_bind; [apply w_draw; inn|]; intros _). apply w_draw; inn.
Qed.
Lemma heat_pump_plots h : In (AHeatPump h) assets -> In (ASpill "spill") assets -> In (AValve "valve") assets -> outcome (PlotHeatPump (hp_name h)) R = Ok tt.
Proof.
  intros Ih Is Iv. unfold outcome, plot.
  pose (names := [(hp_name h ++ "-high_temperature_generation_mwh")%string; (hp_name h ++ "-low_temperature_load_mwh")%string; "spill-low_temperature_load_mwh"; "spill-low_temperature_generation_mwh"; "valve-low_temperature_generation_mwh";
    "site-electricity_prices"; "site-electricity_carbon_intensities"; "site-high_temperature_load_mwh"; "site-low_temperature_load_mwh"; "site-low_temperature_generation_mwh"]).
  assert (ready names [] (columns R)) as RD.
  { destruct column_origin as (d & FA & ND & OR). split; [|constructor]. intros x I. cbn [names In] in I. destruct I as [<-|[<-|[<-|[<-|[<-|I]]]]].
    - eapply (asset_in (AHeatPump h) "high_temperature_generation_mwh" d (Some (d_qty d (hp_name h) HtGen 0))); auto. cbn [asset_cells asset_name]. inn.
    - eapply (asset_in (AHeatPump h) "low_temperature_load_mwh" d (Some (d_qty d (hp_name h) LtLoad 0))); auto. cbn [asset_cells asset_name]. inn.
    - eapply (asset_in (ASpill "spill") "low_temperature_load_mwh" d (Some (d_qty d "spill" LtLoad 0))); auto. cbn [asset_cells asset_name]. inn.
    - eapply (asset_in (ASpill "spill") "low_temperature_generation_mwh" d (Some 0)); auto. cbn [asset_cells asset_name]. inn.
    - eapply (asset_in (AValve "valve") "low_temperature_generation_mwh" d (Some (d_qty d "valve" LtGen 0))); auto. cbn [asset_cells asset_name]. inn.
    - apply plain_columns. inn. }
  subst names. eapply works_outcome; [|exact RD]. unfold plot_heat_pump.
  eapply w_bind; [apply w_number; constructor|]. intros _. do 2 (eapply w_bind; [apply w_draw; inn|]; intros _).
  eapply w_bind; [apply w_each; intros x Ix; eapply w_weaken; [apply w_round; [constructor|cbn [heat_columns_out In] in Ix; inn]|apply incl_tl, incl_refl]|]. intros _.
  eapply w_bind; [apply w_each; intros x Ix; eapply w_weaken; [apply w_round; [constructor|cbn [heat_columns_in In] in Ix; inn]|apply incl_tl, incl_refl]|]. intros _.
  eapply w_bind; [apply w_draw; inn|]; intros _. apply w_draw; inn.
Qed.
(** no column of an asset that is not there *)
Lemma absent n attr : In attr cell_attrs -> dashfree n = true -> n <> "site" -> n <> "total" -> (forall a, In a assets -> asset_name a <> n) -> ~ In (column n attr) (columns R).
Proof.
  intros At DF NS NT NA I. destruct column_origin as (d & FA & ND & OR).
  assert (forall m x, dashfree m = true -> column n attr = column m x -> n = m) as FP.
  { clear - DF. revert DF. induction n as [|a n IH]; intros DF m x Dm E.
    - destruct m as [|b m]; [reflexivity|]. unfold column in E. cbn [append] in E. injection E as <- E. cbn in Dm. discriminate.
    - destruct m as [|b m]; unfold column in E; cbn [append] in E; injection E as E1 E2; [subst a; cbn in DF; discriminate|]. subst b.
      cbn [dashfree] in DF, Dm. apply andb_true_iff in DF, Dm. f_equal. apply (IH (proj2 DF) m x (proj2 Dm)). exact E2. }
  destruct (OR _ I) as [(x & E)|[(x & E)|(a & q & Ia & Iq)]].
  - apply NS. now apply (FP "site" x).
  - apply NT. now apply (FP "total" x).
  - destruct (asset_cell_name _ _ _ _ _ Iq) as (y & at' & E & Ca & Z). apply column_inj in E; auto using cell_attr_dash. destruct E as [E _].
    destruct Z as [Z|(z & Z)]; [apply (NA a Ia); congruence|]. rewrite <- E in Z. rewrite Z in DF. unfold column in DF. rewrite dashfree_app in DF. cbn in DF. now rewrite andb_comm in DF.
Qed.
Lemma no_column n : ~ In n (columns R) -> filter (String.eqb n) (columns R) = [].
Proof. intros N. apply filter_nil. intros x I. apply String.eqb_neq. intros ->. contradiction. Qed.
Lemma spill_absent : (forall a, In a assets -> asset_name a <> "spill") -> ~ In "spill-low_temperature_load_mwh" (columns R).
Proof. intros NA. apply (absent "spill" "low_temperature_load_mwh"); [cbn; tauto|reflexivity|discriminate|discriminate|exact NA]. Qed.
Lemma chp_fails : (forall a, In a assets -> asset_name a <> "spill") -> outcome PlotChp R = Err KeyErr.
Proof.
  intros NA. unfold outcome, plot.
  assert (fails ["site-import_power_mwh"; "site-export_power_mwh"] [(String.eqb "spill-low_temperature_load_mwh", [])] plot_chp KeyErr) as F.
  { unfold plot_chp. eapply f_later; [apply w_number; repeat constructor|]. intros _. eapply f_later; [apply w_difference; inn|]. intros bb. eapply f_later; [apply w_put; repeat constructor|]. intros _.
    apply f_draw. intros _. apply f_draw. intros _. apply f_here. unfold draw. eapply f_later; [apply w_look; inn|]. intros _. apply f_here, f_look. now left. }
  apply F. split.
  - intros x I. apply plain_columns. cbn [In] in *. tauto.
  - constructor; [|constructor]. cbn [fst snd]. apply no_column, spill_absent, NA.
Qed.
Lemma heat_pump_fails name : (forall a, In a assets -> asset_name a <> "spill") -> outcome (PlotHeatPump name) R = Err KeyErr.
Proof.
  intros NA. unfold outcome, plot.
  assert (fails [] [(String.eqb "spill-low_temperature_load_mwh", [])] (plot_heat_pump name) KeyErr) as F.
  { unfold plot_heat_pump. eapply f_later; [apply w_number; repeat constructor|]. intros _. apply f_draw. intros _. apply f_draw. intros _. apply f_here.
    cbn [heat_columns_out each]. apply f_here. unfold round_column. apply f_here, f_look. now left. }
  apply F. split; [intros x []|]. constructor; [|constructor]. cbn [fst snd]. apply no_column, spill_absent, NA.
Qed.
Lemma battery_fails l : filter (fun n => starts_with "battery-" n && ends_with "-electric_charge_mwh" n)%bool (columns R) = l -> List.length l <> 1%nat -> outcome PlotBattery R = Err AssertionErr.
Proof.
  intros E N. unfold outcome, plot.
  assert (fails ["site-import_power_mwh"; "site-export_power_mwh"] [((fun n => starts_with "battery-" n && ends_with "-electric_charge_mwh" n)%bool, l)] plot_battery AssertionErr) as F.
  { unfold plot_battery. eapply f_later; [apply w_number; repeat constructor|]. intros _. eapply f_later; [apply w_difference; inn|]. intros bb. eapply f_later; [apply w_put; repeat constructor|]. intros _.
    eapply f_later; [apply w_draw; inn|]. intros _. eapply f_find; [now left|exact N]. }
  apply F. split; [intros x I; apply plain_columns; cbn [In] in *; tauto|]. constructor; [exact E|constructor].
Qed.
Lemma battery_missing : (forall a, In a assets -> apart "battery" (asset_name a)) -> outcome PlotBattery R = Err AssertionErr.
Proof.
  intros AP. apply (battery_fails []); [|discriminate]. apply filter_nil. intros y Iy. destruct column_origin as (d & FA & ND & OR).
  destruct (OR y Iy) as [(x & ->)|[(x & ->)|(a & q & Ia & Iq)]].
  - change "battery-" with ("battery" ++ "-"). rewrite (apart_not_col "battery" "site"); [reflexivity|]. unfold apart; splits; [discriminate|reflexivity|reflexivity].
  - change "battery-" with ("battery" ++ "-"). rewrite (apart_not_col "battery" "total"); [reflexivity|]. unfold apart; splits; [discriminate|reflexivity|reflexivity].
  - destruct (asset_cell_name _ _ _ _ _ Iq) as (z & at' & -> & Ca & Z). change "battery-" with ("battery" ++ "-"). rewrite (apart_any "battery" z a (AP a Ia) Z). reflexivity.
Qed.
Lemma two_long {A} (l : list A) x y : In x l -> In y l -> x <> y -> List.length l <> 1%nat.
Proof. clear. destruct l as [|a [|b l]]; cbn; intros X Y N; [tauto| |lia]. exfalso. apply N. destruct X as [<-|[]], Y as [<-|[]]. reflexivity. Qed.
Lemma battery_two b1 b2 : In (ABattery b1) assets -> In (ABattery b2) assets -> b_name b1 <> b_name b2 ->
  starts_with "battery-" (b_name b1 ++ "-") = true -> starts_with "battery-" (b_name b2 ++ "-") = true -> outcome PlotBattery R = Err AssertionErr.
Proof.
  intros I1 I2 N S1 S2. destruct column_origin as (d & FA & ND & OR). eapply battery_fails; [reflexivity|].
  assert (forall b, In (ABattery b) assets -> starts_with "battery-" (b_name b ++ "-") = true ->
    In (column (b_name b) "electric_charge_mwh") (filter (fun n => starts_with "battery-" n && ends_with "-electric_charge_mwh" n)%bool (columns R))) as K.
  { intros b Ib S. apply filter_In. split.
    - apply (asset_in (ABattery b) "electric_charge_mwh" d (Some (d_qty d (b_name b) Charge 0))); auto. now left.
    - unfold column. rewrite <- app_assoc_s, (prefix_grow "battery-" (b_name b ++ "-") "electric_charge_mwh" S). rewrite app_assoc_s.
      cbn [andb]. apply (ends_suffix "-electric_charge_mwh"). }
  apply (two_long _ _ _ (K b1 I1 S1) (K b2 I2 S2)). intros E. apply column_inj in E; [|reflexivity|reflexivity]. now destruct E.
Qed.

(** electric vehicles *)
Definition cnt (p : string -> bool) (l : list string) : nat := List.length (filter p l).
Lemma cnt_app p l l' : cnt p (l ++ l')%list = (cnt p l + cnt p l')%nat.
Proof. unfold cnt. now rewrite filter_app, app_length. Qed.
Lemma cnt_perm p l l' : Permutation l l' -> cnt p l = cnt p l'.
Proof. unfold cnt. intros H. induction H; cbn [filter]; [reflexivity| | |congruence]; [destruct (p x); cbn; congruence|destruct (p x), (p y); reflexivity]. Qed.
End run.
Definition both (w pre attr n : string) : bool := contains w n && ends_with (pre ++ attr) n.
Definition balanced (w pre : string) (l : list string) : Prop := cnt (both w pre "electric_charge_mwh") l = cnt (both w pre "electric_discharge_mwh") l.
Lemma bal_app w pre l l' : balanced w pre l -> balanced w pre l' -> balanced w pre (l ++ l')%list.
Proof. unfold balanced. rewrite !cnt_app. congruence. Qed.
Lemma bal_flat {A} w pre (f : A -> list string) l : (forall x, In x l -> balanced w pre (f x)) -> balanced w pre (flat_map f l).
Proof. induction l as [|x l IH]; intros H; [reflexivity|]. cbn [flat_map]. apply bal_app; [apply H; now left|apply IH; intros; apply H; now right]. Qed.
Lemma ends_pre pre v x a : pre = "-" \/ pre = "" -> In v plain_quantities -> In a cell_attrs -> ends_with (pre ++ v) (column x a) = (v =? a).
Proof.
  intros [->| ->] V A; [|now apply ends_col]. destruct (String.eqb_spec v a) as [->|N].
  - apply ends_suffix.
  - destruct (ends_with ("-" ++ v) (column x a)) eqn:E; [|reflexivity]. exfalso. apply ends_form in E. destruct E as (y & E).
    change (y ++ "-" ++ v) with (column y v) in E. apply column_inj in E; [destruct E; congruence|now apply cell_attr_dash|].
    clear - V. cbn [plain_quantities In] in V. repeat (destruct V as [<-|V]; [reflexivity|]). destruct V.
Qed.
Definition ev_words : list string := ["charger-"; "charge-event-"].
Lemma word_pair w x : In w ev_words -> contains w (column x "electric_charge_mwh") = contains w (column x "electric_discharge_mwh").
Proof.
  intros W. unfold column. rewrite <- !app_assoc_s. cbn [ev_words In] in W.
  destruct W as [<-|[<-|[]]]; rewrite (contains_append _ "electric_charge_mwh"), (contains_append _ "electric_discharge_mwh") by reflexivity; reflexivity.
Qed.
Section words.
Context (w pre : string) (W : In w ev_words) (PR : pre = "-" \/ pre = "").
Lemma q_charge : In "electric_charge_mwh" plain_quantities. Proof. cbn; tauto. Qed.
Lemma q_discharge : In "electric_discharge_mwh" plain_quantities. Proof. cbn; tauto. Qed.
Lemma both_col v x a : In v ["electric_charge_mwh"; "electric_discharge_mwh"] -> In a cell_attrs -> both w pre v (column x a) = (contains w (column x a) && (v =? a))%bool.
Proof. intros V A. unfold both. rewrite ends_pre; auto. cbn [In] in V. destruct V as [<-|[<-|[]]]; [apply q_charge|apply q_discharge]. Qed.
(** a list of columns of one object with both a charge and a discharge column, or with neither *)
Lemma bal_object x attrs : incl attrs cell_attrs -> count_occ string_dec attrs "electric_charge_mwh" = count_occ string_dec attrs "electric_discharge_mwh" -> balanced w pre (map (column x) attrs).
Proof.
  intros I E. unfold balanced.
  assert (forall v l, In v ["electric_charge_mwh"; "electric_discharge_mwh"] -> incl l cell_attrs -> cnt (both w pre v) (map (column x) l) = if contains w (column x v) then count_occ string_dec l v else 0%nat) as K.
  { intros v l V. induction l as [|a l IH]; intros L; [destruct (contains _ _); reflexivity|]. cbn [map count_occ]. change (column x a :: map (column x) l) with ([column x a] ++ map (column x) l)%list.
    rewrite cnt_app, IH by (intros z Iz; apply L; now right). unfold cnt. cbn [filter]. rewrite both_col by (auto; apply L; now left).
    destruct (string_dec a v) as [->|N].
    - rewrite String.eqb_refl, andb_true_r. destruct (contains w (column x v)); reflexivity.
    - assert ((v =? a) = false) as -> by (apply String.eqb_neq; congruence). rewrite andb_false_r. destruct (contains w (column x v)); reflexivity. }
  rewrite !K by (auto; cbn; tauto). rewrite E, (word_pair w x W). reflexivity.
Qed.
Lemma attrs_in l : forallb (fun a => existsb (String.eqb a) cell_attrs) l = true -> incl l cell_attrs.
Proof. intros H x I. rewrite forallb_forall in H. specialize (H x I). apply existsb_exists in H. destruct H as (y & J & E). apply String.eqb_eq in E. now subst. Qed.
Lemma map_flat {A B C} (g : B -> C) (f : A -> list B) l : map g (flat_map f l) = flat_map (fun x => map g (f x)) l.
Proof. induction l as [|x l IH]; [reflexivity|]. cbn [flat_map]. now rewrite map_app, IH. Qed.
Lemma bal_asset d t a : balanced w pre (map fst (asset_cells d t a)).
Proof.
  destruct a as [b|b|b|e|b|b|m|m]; cbn [asset_cells asset_name map fst].
  1: apply (bal_object (b_name b) ["electric_charge_mwh"; "electric_charge_binary"; "electric_discharge_mwh"; "electric_discharge_binary"; "electric_loss_mwh"; "electric_initial_charge_mwh"; "electric_final_charge_mwh"]); [apply attrs_in; reflexivity|reflexivity].
  1: apply (bal_object (bo_name b) ["high_temperature_generation_mwh"; "gas_consumption_mwh"]); [apply attrs_in; reflexivity|reflexivity].
  1: apply (bal_object (ch_name b) ["electric_generation_mwh"; "gas_consumption_mwh"; "high_temperature_generation_mwh"; "low_temperature_generation_mwh"]); [apply attrs_in; reflexivity|reflexivity].
  2: apply (bal_object (hp_name b) ["electric_load_mwh"; "low_temperature_load_mwh"; "high_temperature_generation_mwh"]); [apply attrs_in; reflexivity|reflexivity].
  2: apply (bal_object (rg_name b) ["electric_generation_mwh"]); [apply attrs_in; reflexivity|reflexivity].
  2: apply (bal_object m ["electric_generation_mwh"; "electric_load_mwh"; "high_temperature_generation_mwh"; "low_temperature_generation_mwh"; "high_temperature_load_mwh"; "low_temperature_load_mwh"; "gas_consumption_mwh"]); [apply attrs_in; reflexivity|reflexivity].
  2: apply (bal_object m ["high_temperature_load_mwh"; "low_temperature_generation_mwh"]); [apply attrs_in; reflexivity|reflexivity].
  unfold ev_main_cells, ev_spill_columns, ev_soc_report. cbv zeta. rewrite !map_app, !map_flat, !map_map. cbn [fst].
  assert (forall x, balanced w pre (map (column x) ["electric_charge_mwh"; "electric_charge_binary"; "electric_discharge_mwh"; "electric_discharge_binary"; "electric_loss_mwh"])) as B1 by (intros x; apply bal_object; [apply attrs_in; reflexivity|reflexivity]).
  assert (forall x, balanced w pre (map (column x) ["electric_charge_mwh"; "electric_discharge_mwh"; "electric_loss_mwh"])) as B2 by (intros x; apply bal_object; [apply attrs_in; reflexivity|reflexivity]).
  assert (forall a f (l : list nat), In a ["initial_soc_mwh"; "final_soc_mwh"] -> balanced w pre (map (fun k => column (f k) a) l)) as B3.
  { intros a f l A. induction l as [|k l IH]; [reflexivity|]. cbn [map]. change (column (f k) a :: map (fun k => column (f k) a) l) with (map (column (f k)) [a] ++ map (fun k => column (f k) a) l)%list.
    apply bal_app; [|exact IH]. cbn [In] in A. destruct A as [<-|[<-|[]]]; (apply bal_object; [apply attrs_in; reflexivity|reflexivity]). }
  repeat apply bal_app.
  - apply bal_flat. intros [k cc] _. cbn [fst snd ev_charger_report map]. apply B1.
  - apply bal_flat. intros [k cc] _. cbn [fst snd ev_event_report map]. apply B2.
  - apply B3. now left.
  - apply B3. right. now left.
  - apply bal_flat. intros cc _. cbn [ev_spill_report map]. apply B1.
Qed.
Lemma bal_none l : (forall n, In n l -> contains w n = false) -> balanced w pre l.
Proof. intros H. unfold balanced, cnt. rewrite !filter_nil; [reflexivity| |]; intros n I; unfold both; now rewrite (H n I). Qed.
End words.
Section evs.
Context slv base c assets cons obj fl r (FR : feasible_run slv base c assets cons obj fl r).
Notation R := (r_results r).
Lemma bal_columns w pre : In w ev_words -> pre = "-" \/ pre = "" -> no_data_with w c -> balanced w pre (columns R).
Proof.
  intros W PR ND. destruct (acc_ctx _ _ _ _ _ _ _ _ FR) as (d & lp & rows & imp & exp & FA & _ & TB & E & _). unfold columns. rewrite E, map_app. apply bal_app.
  - rewrite (to_names _ _ _ TB). unfold balanced. rewrite !(cnt_perm _ _ _ (Permutation_map fst (row_perm c assets d 0))). fold (balanced w pre (map fst (all_cells c assets d 0))).
    unfold all_cells. rewrite map_app, map_flat. apply bal_app; [|apply bal_flat; intros a _; now apply bal_asset].
    apply bal_none. intros n I. apply in_map_iff in I. destruct I as ([m q] & <- & I). cbn [fst]. unfold site_cells in I. cbn [In] in I.
    destruct I as [I|[I|I]]; [injection I as <- _; cbn [ev_words In] in W; destruct W as [<-|[<-|[]]]; reflexivity..|].
    apply in_map_iff in I. destruct I as (y & I & J). injection I as <- _. change (contains w ("site-" ++ fst y) = false). assert (contains w ("site-" ++ fst y) = contains w (fst y)) as -> by (cbn [ev_words In] in W; destruct W as [<-|[<-|[]]]; reflexivity).
    unfold id_columns in J. apply in_app_iff in J. destruct J as [J|J]; [|now apply ND].
    cbn [In] in J. repeat (destruct J as [<-|J]; [cbn [fst]; cbn [ev_words In] in W; destruct W as [<-|[<-|[]]]; reflexivity|]). destruct J.
  - apply bal_none. intros n I. apply in_map_iff in I. destruct I as ([m cells] & <- & I). cbn [fst]. unfold totals in I. apply in_app_iff in I. destruct I as [I|I].
    + apply in_map_iff in I. destruct I as (q & I & J). injection I as <- _. cbn [quantities In] in J. cbn [ev_words In] in W.
      destruct W as [<-|[<-|[]]]; repeat (destruct J as [<-|J]; [reflexivity|]); destruct J.
    + cbn [In] in I. cbn [ev_words In] in W. destruct W as [<-|[<-|[]]]; repeat (destruct I as [I|I]; [injection I as <- _; reflexivity|]); destruct I.
Qed.
Lemma filter_unique_name e : NoDup (map asset_name assets) -> In e assets -> filter (fun a => asset_name a =? asset_name e) assets = [e].
Proof.
  clear. induction assets as [|a l IH]; [intros _ []|]. cbn [map]. intros ND I. inversion ND as [|? ? N ND']; subst. cbn [filter]. destruct I as [->|I].
  - rewrite String.eqb_refl. f_equal. apply filter_nil. intros x Ix. apply String.eqb_neq. intros E. apply N. rewrite <- E. now apply in_map.
  - destruct (String.eqb_spec (asset_name a) (asset_name e)) as [E|_]; [|now apply IH]. exfalso. apply N. rewrite E. now apply in_map.
Qed.
Lemma evs_plots e : In (AEVs e) assets -> (exists cc, In cc (ev_spill_chargers e) /\ cg_name cc = "charger-spill-evs") ->
  no_data_with "charger-" c -> no_data_with "charge-event-" c -> outcome (PlotEvs assets (ev_name e)) R = Ok tt.
Proof.
  intros Ie (cc & Ic & NM) D1 D2. unfold outcome, plot, plot_evs, count_columns.
  pose proof (bal_columns "charger-" "-" (or_introl eq_refl) (or_introl eq_refl) D1) as B1.
  pose proof (bal_columns "charge-event-" "" (or_intror (or_introl eq_refl)) (or_intror eq_refl) D2) as B2.
  unfold balanced, cnt, both in B1, B2. cbn [append] in B1, B2. unfold charger_column, event_column. rewrite B1, B2. cbn [fst snd]. unfold fitting, nothing. cbn [fst snd]. rewrite !Nat.eqb_refl. cbn [orb andb negb].
  destruct (r_table _ _ _ _ _ _ _ _ FR) as [NE FT]. destruct (column_origin _ _ _ _ _ _ _ _ FR) as (d & FA & ND & OR). pose proof (fa_n _ _ _ _ _ FA) as H0.
  rewrite (table_rows R (n_intervals c) (conj NE FT)). assert (Nat.eqb (n_intervals c) 0 = false) as -> by (apply Nat.eqb_neq; lia). cbn [orb].
  assert (In (ev_name e ++ "-charger-spill-evs-electric_charge_mwh") (columns R)) as IS.
  { assert (column (ev_name e) "charger-spill-evs-electric_charge_mwh" = column (column (ev_name e) "charger-spill-evs") "electric_charge_mwh") as EC by (unfold column; now rewrite !app_assoc_s).
    apply (asset_in c assets fl r (AEVs e) "charger-spill-evs-electric_charge_mwh" d
      (Some (Qsum (map (fun k => d_spill_charge d (ev_name e) k 0) (seq 0 (List.length (ev_event_cfgs e))))))); auto.
    cbn [asset_name asset_cells]. rewrite EC. apply in_app_iff. right. unfold ev_spill_columns. apply in_flat_map. exists cc. split; auto. unfold ev_spill_report. rewrite NM. now left. }
  assert (Nat.eqb (List.length (filter (fun n => contains "charger-" n && ends_with "-electric_discharge_mwh" n)%bool (columns R))) 0 = false) as Z.
  { rewrite <- B1. apply Nat.eqb_neq. intros Z.
    assert (In (ev_name e ++ "-charger-spill-evs-electric_charge_mwh") (filter (fun n => contains "charger-" n && ends_with "-electric_charge_mwh" n)%bool (columns R))) as J.
    { apply filter_In. split; [exact IS|]. apply andb_true_iff. split.
      - apply (contains_mid "charger-" (ev_name e) "-charger-" "spill-evs-electric_charge_mwh"). reflexivity.
      - pose proof (ends_suffix "-electric_charge_mwh" (ev_name e ++ "-charger-spill-evs")) as H. rewrite app_assoc_s in H. exact H. }
    destruct (filter _ (columns R)); [destruct J|discriminate Z]. }
  rewrite Z. cbn [orb andb].
  pose proof (filter_unique_name (AEVs e) (fa_names _ _ _ _ _ FA) Ie) as FU. cbn [asset_name] in FU. rewrite FU.
  unfold pbind, look. destruct (has_col R _ IS) as (x & ->). destruct (has_col R "site-electricity_prices") as (y & ->); [apply (plain_columns _ _ _ _ _ _ _ _ FR); cbn [In]; tauto|]. reflexivity.
Qed.
End evs.

(** The plot of a battery works for a battery named "battery", if no other asset's name begins with "battery-"; it raises an
    AssertionError if no battery is called so, or if two of them are. *)
Theorem C65_battery_plot : forall slv base c assets cons obj fl r,
  feasible_run slv base c assets cons obj fl r ->
  (forall b, In (ABattery b) assets -> b_name b = "battery" -> (forall a, In a assets -> a = ABattery b \/ apart "battery" (asset_name a)) ->
     outcome PlotBattery (r_results r) = Ok tt) /\
  ((forall a, In a assets -> apart "battery" (asset_name a)) -> outcome PlotBattery (r_results r) = Err AssertionErr) /\
  (forall b1 b2, In (ABattery b1) assets -> In (ABattery b2) assets -> b_name b1 <> b_name b2 ->
     starts_with "battery-" (b_name b1 ++ "-") = true -> starts_with "battery-" (b_name b2 ++ "-") = true ->
     outcome PlotBattery (r_results r) = Err AssertionErr).
Proof.
  intros slv base c assets cons obj fl r FR. splits.
  - exact (battery_plots _ _ _ _ _ _ _ _ FR).
  - exact (battery_missing _ _ _ _ _ _ _ _ FR).
  - exact (battery_two _ _ _ _ _ _ _ _ FR).
Qed.
(** The plots of a CHP and of a heat pump need a Spill named "spill": without it (the default of their constructors) they raise a KeyError. *)
Theorem C65_heat_plots : forall slv base c assets cons obj fl r,
  feasible_run slv base c assets cons obj fl r ->
  (forall b, In (ABoiler b) assets -> bo_name b = "boiler" -> In (ASpill "spill") assets -> outcome PlotChp (r_results r) = Ok tt) /\
  (forall h, In (AHeatPump h) assets -> In (ASpill "spill") assets -> In (AValve "valve") assets -> outcome (PlotHeatPump (hp_name h)) (r_results r) = Ok tt) /\
  ((forall a, In a assets -> asset_name a <> "spill") ->
     outcome PlotChp (r_results r) = Err KeyErr /\ forall name, outcome (PlotHeatPump name) (r_results r) = Err KeyErr).
Proof.
  intros slv base c assets cons obj fl r FR. splits.
  - exact (chp_plots _ _ _ _ _ _ _ _ FR).
  - exact (heat_pump_plots _ _ _ _ _ _ _ _ FR).
  - intros NA. split; [now apply (chp_fails _ _ _ _ _ _ _ _ FR)|]. intros name. now apply (heat_pump_fails _ _ _ _ _ _ _ _ FR).
Qed.
(** The plot of EVs works with the names the constructor gives to the spill charger, whatever the other assets are. *)
Theorem C65_evs_plot : forall slv base c assets cons obj fl r e,
  feasible_run slv base c assets cons obj fl r -> In (AEVs e) assets ->
  (exists cc, In cc (ev_spill_chargers e) /\ cg_name cc = "charger-spill-evs") -> no_data_with "charger-" c -> no_data_with "charge-event-" c ->
  outcome (PlotEvs assets (ev_name e)) (r_results r) = Ok tt.
Proof. intros slv base c assets cons obj fl r e FR. exact (evs_plots _ _ _ _ _ _ _ _ FR e). Qed.
(** The results of a simulation can be plotted in any order and any number of times: no account of them changes, the balances still
    pass, and no number moves by more than the rounding. *)
Theorem C65_run_plotted : forall slv base c assets cons obj fl r ps ts v,
  feasible_run slv base c assets cons obj fl r -> Forall no_total ps -> custom_avoids (touched_by ps) ts ->
  let after := after_all ps (r_results r) in
  keeps (touched_by ps) (r_results r) after /\
  get_accounts after None ts v = get_accounts (r_results r) None ts v /\
  debug_balances after = Ok tt /\ debug_simulation after = Ok tt /\
  forall n a, assoc n (r_results r) = Some a -> ~ In n helper_columns -> exists b, assoc n after = Some b /\ close_cells (1 # 20000) a b.
Proof.
  intros slv base c assets cons obj fl r ps ts v FR NT A. cbv zeta. pose proof (r_table _ _ _ _ _ _ _ _ FR) as T.
  destruct (g_plots ps _ _ T) as [K T']. pose proof (plots_not_read ps NT) as NR. splits.
  - exact K.
  - exact (proj2 (C65_accounts_after_plots ps ps _ _ _ _ ts v T T NT NT A)).
  - assert (check_results (after_all ps (r_results r)) false = Ok tt) as C.
    { rewrite (check_same _ _ _ K NR). destruct (acc_ctx _ _ _ _ _ _ _ _ FR) as (d & lp & rows & imp & exp & FA & _ & TB & E & ND & _ & C). exact C. }
    unfold check_results in C. unfold debug_balances. destruct (check_electricity_balance _) as [u|e]; [|discriminate C]. cbn [rbind] in *.
    destruct (check_heat_balance _ _ _) as [u'|e]; [|discriminate C]. cbn [rbind] in *. destruct (check_heat_balance _ _ _) as [[]|e]; [reflexivity|discriminate C].
  - unfold debug_simulation. rewrite !(keeps_col _ _ _ _ K) by (apply NR; cbn [In]; tauto).
    pose proof (plain_columns _ _ _ _ _ _ _ _ FR) as PC. destruct (has_col (r_results r) "site-import_power_mwh") as (x & ->); [apply PC; cbn [In]; tauto|].
    destruct (has_col (r_results r) "site-export_power_mwh") as (y & ->); [apply PC; cbn [In]; tauto|].
    destruct (has_col (r_results r) "site-electricity_carbon_intensities") as (z & ->); [apply PC; cbn [In]; tauto|]. reflexivity.
  - intros n a E N. now apply C65_plots_close.
Qed.
(** [debug_asset] shows the columns of an asset, all of them and unchanged. *)
Theorem C65_debug_asset : forall slv base c assets cons obj fl r a,
  feasible_run slv base c assets cons obj fl r -> In a assets ->
  (forall col cells, In (col, cells) (r_results r) -> starts_with (asset_name a ++ "-") col = true -> In (col, cells) (debug_asset (r_results r) (asset_name a))) /\
  incl (debug_asset (r_results r) (asset_name a)) (r_results r) /\
  debug_asset (r_results r) (asset_name a) <> [].
Proof.
  intros slv base c assets cons obj fl r a FR Ia.
  assert (forall col cells, In (col, cells) (r_results r) -> starts_with (asset_name a ++ "-") col = true -> In (col, cells) (debug_asset (r_results r) (asset_name a))) as K.
  { intros col cells I S. unfold debug_asset. apply filter_In. split; auto. cbn [fst]. apply prefix_exists in S. destruct S as (z & ->). apply contains_iff. exists "", ("-" ++ z). now rewrite app_assoc_s. }
  splits; [exact K| |].
  - intros x I. unfold debug_asset in I. apply filter_In in I. apply I.
  - destruct (column_origin _ _ _ _ _ _ _ _ FR) as (d & FA & _). pose proof (fa_fine _ _ _ _ _ FA) as FF. rewrite Forall_forall in FF. specialize (FF a Ia).
    assert (exists x q, In (column (asset_name a) x, q) (asset_cells d 0 a)) as (x & q & I).
    { destruct a as [b|b|b|e|b|b|m|m]; try (eexists _, _; now left).
      cbn [asset_fine] in FF. destruct FF as [L _]. destruct (ev_spill_chargers e) as [|cc l] eqn:E; [discriminate L|].
      exists (cg_name cc ++ "-" ++ "electric_charge_binary"), None. cbn [asset_cells asset_name]. apply in_app_iff. right. unfold ev_spill_columns. rewrite E. cbn [flat_map].
      apply in_app_iff. left. unfold ev_spill_report, column. rewrite !app_assoc_s. cbn [In]. right. now left. }
    pose proof (asset_in c assets fl r a x d q FA Ia I) as J. apply in_map_iff in J. destruct J as ([n cells] & E & J). cbn [fst] in E. subst n.
    specialize (K _ _ J). intros Z. rewrite Z in K. apply K. unfold column. rewrite <- app_assoc_s. apply prefix_grow, prefix_append_self.
Qed.

(** ** Plotting a heat pump changes the results *)
Definition pl_site : site_cfg := mkSiteCfg (mkIdata [10] [0] [1#10] [0] [1] [0] [1#3] [0] 1 []) 60%Z 100 50.
Definition pl_assets : list asset := [AHeatPump (mkHpCfg "heat-pump" 3 2); ABoiler (mkBoilerCfg "boiler" 10 0 (1#2)); AValve "valve"; ASpill "spill"].
Definition pl_solver : solver := stopped 1000 [1; 0; 1; 0; 0; 0; 0; 0; 1#3; 1; 2#3; 1#3; 1#3; 0; 0; 0; 0] [].
Definition pl_result : sim_result := Eval vm_compute in result_of (optimize pl_solver 0 pl_site pl_assets [] (ObjName "price") default_flags).
Lemma pl_run : feasible_run pl_solver 0 pl_site pl_assets [] (ObjName "price") default_flags pl_result.
Proof.
  constructor; [exact (stopped_honest 1000 _ [])|vm_compute; reflexivity|reflexivity|repeat constructor|split; [|split]].
  - intros a H E. cbn in H. repeat (destruct H as [<-|H]; [discriminate|]). destruct H.
  - intros col [].
  - intros e H. cbn in H. repeat (destruct H as [H|H]; [discriminate|]). destruct H.
Qed.
(** The load of the site, the site's own data, is no longer in the results after a plot: 1/3 MWh became 0.3333 MWh, and the reported
    balance of the low temperature heat with it. *)
Theorem C65_plot_changes_results_refuted : exists slv base c assets cons obj fl r h,
  feasible_run slv base c assets cons obj fl r /\ In (AHeatPump h) assets /\ outcome (PlotHeatPump (hp_name h)) (r_results r) = Ok tt /\
  num (r_results r) "site-low_temperature_load_mwh" 0 == 1 # 3 /\
  num (after (PlotHeatPump (hp_name h)) (r_results r)) "site-low_temperature_load_mwh" 0 == 3333 # 10000.
Proof.
  exists pl_solver, 0%nat, pl_site, pl_assets, [], (ObjName "price"), default_flags, pl_result, (mkHpCfg "heat-pump" 3 2).
  split; [exact pl_run|]. split; [now left|]. splits; vm_compute; reflexivity.
Qed.

(** ** Cases that meet the hypotheses *)
Definition every_plot : list plot_call := [PlotBattery; PlotEvs x_assets "evs"; PlotChp; PlotHeatPump "heat-pump"].
(** all four plots of the sample site work, one after the other *)
Example x_plots : Forall (fun p => outcome p (r_results x_result) = Ok tt) every_plot /\
  Forall no_total every_plot /\ table_with (r_results x_result) 2 /\
  outcome (PlotHeatPump "heat-pump") (after_all every_plot (r_results x_result)) = Ok tt.
Proof.
  splits.
  - repeat constructor.
  - repeat constructor; discriminate.
  - exact (r_table _ _ _ _ _ _ _ _ x_run).
  - vm_compute. reflexivity.
Qed.
Example x_battery_plot : (forall a, In a x_assets -> a = ABattery x_battery \/ apart "battery" (asset_name a)).
Proof. intros a I. cbn in I. repeat (destruct I as [<-|I]; [first [now left|right; unfold apart; splits; [discriminate|reflexivity|reflexivity]]|]). destruct I. Qed.
(** a custom term over imports reads none of the touched columns *)
Example x_custom : custom_avoids (touched_by every_plot) (Some [ArgTerm (TSimple (mkTerm "import_power_mwh" (Some "site") (Some "electricity_prices") None 1 "simple"))]).
Proof.
  intros arg t x [<-|[]] E. cbn in E. injection E as <- _. split; cbn [t_variable t_interval_data].
  - intros n I. cbn in I. repeat (destruct I as [<-|I]; [reflexivity|]). destruct I.
  - intros I. cbn in I. repeat (destruct I as [I|I]; [discriminate|]). destruct I.
Qed.
(** a site without a Spill asset *)
Definition pn_assets : list asset := [AHeatPump (mkHpCfg "heat-pump" 3 2); ABoiler (mkBoilerCfg "boiler" 10 0 (1#2)); AValve "valve"].
Definition pn_solver : solver := stopped 1000 [1; 0; 1; 0; 0; 0; 0; 0; 1#3; 1; 2#3; 1#3; 1#3] [].
Definition pn_result : sim_result := Eval vm_compute in result_of (optimize pn_solver 0 pl_site pn_assets [] (ObjName "price") default_flags).
Lemma pn_run : feasible_run pn_solver 0 pl_site pn_assets [] (ObjName "price") default_flags pn_result.
Proof.
  constructor; [exact (stopped_honest 1000 _ [])|vm_compute; reflexivity|reflexivity|repeat constructor|split; [|split]].
  - intros a H E. cbn in H. repeat (destruct H as [<-|H]; [discriminate|]). destruct H.
  - intros col [].
  - intros e H. cbn in H. repeat (destruct H as [H|H]; [discriminate|]). destruct H.
Qed.
Example pn_no_spill : (forall a, In a pn_assets -> asset_name a <> "spill") /\ (forall a, In a pn_assets -> apart "battery" (asset_name a)).
Proof.
  split; intros a I; cbn in I; repeat (destruct I as [<-|I]; [first [discriminate|unfold apart; splits; [discriminate|reflexivity|reflexivity]]|]); destruct I.
Qed.
Example pn_plots : outcome (PlotHeatPump "heat-pump") (r_results pn_result) = Err KeyErr /\ outcome PlotBattery (r_results pn_result) = Err AssertionErr.
Proof.
  split; [apply (C65_heat_plots _ _ _ _ _ _ _ _ pn_run)|apply (C65_battery_plot _ _ _ _ _ _ _ _ pn_run)]; apply pn_no_spill.
Qed.
