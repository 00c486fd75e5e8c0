(** * SemResults: the results of a feasible run report a physical dispatch (proofs) *)
From Verif Require Import Base Pulp Params Optimizer Types Assets EVs Site Constraints Objectives Extract Pipeline Emit Prim Spec SpecReport SpecRun Layout Rows Sem SemEv SemSite SemProg SemObj SemCells SemRows SemTable.
Open Scope Q_scope.
Open Scope string_scope.

(** ** Names of columns *)
Definition dash : ascii := "-"%char.
Fixpoint dashfree (s : string) : bool := match s with EmptyString => true | String c s' => negb (Ascii.eqb c dash) && dashfree s' end.
Fixpoint last_part (s : string) : string :=
  match s with
  | EmptyString => EmptyString
  | String c s' => if dashfree s' then (if Ascii.eqb c dash then s' else s) else last_part s'
  end.
Lemma dashfree_app a b : dashfree (a ++ b) = (dashfree a && dashfree b)%bool.
Proof. induction a as [|c a IH]; cbn; [reflexivity|]. now rewrite IH, andb_assoc. Qed.
Lemma last_part_col x a : dashfree a = true -> last_part (x ++ "-" ++ a) = a.
Proof.
  intros H. induction x as [|c x IH]; cbn [append last_part].
  - now rewrite H.
  - rewrite dashfree_app. cbn [append dashfree]. unfold dash at 1. cbn [Ascii.eqb]. rewrite Bool.andb_comm. cbn. exact IH.
Qed.
Lemma append_length a b : String.length (a ++ b) = (String.length a + String.length b)%nat.
Proof. induction a; cbn; auto. Qed.
Lemma append_cancel_r a b c : a ++ c = b ++ c -> a = b.
Proof.
  revert b. induction a as [|x a IH]; intros [|y b] H; cbn in H; auto.
  - exfalso. apply (f_equal String.length) in H. cbn in H. rewrite append_length in H. lia.
  - exfalso. apply (f_equal String.length) in H. cbn in H. rewrite append_length in H. lia.
  - injection H as -> H. f_equal. auto.
Qed.
Lemma column_inj x a y b : dashfree a = true -> dashfree b = true -> column x a = column y b -> x = y /\ a = b.
Proof.
  unfold column. intros Ha Hb H. assert (a = b) as <- by (rewrite <- (last_part_col x a Ha), <- (last_part_col y b Hb), H; reflexivity). split; auto.
  eapply (append_cancel_r _ _ ("-" ++ a)). exact H.
Qed.

Definition cell_attrs : list string :=
  [ "electric_charge_mwh"; "electric_charge_binary"; "electric_discharge_mwh"; "electric_discharge_binary"; "electric_loss_mwh";
    "electric_initial_charge_mwh"; "electric_final_charge_mwh"; "high_temperature_generation_mwh"; "gas_consumption_mwh";
    "electric_generation_mwh"; "low_temperature_generation_mwh"; "electric_load_mwh"; "low_temperature_load_mwh"; "high_temperature_load_mwh";
    "initial_soc_mwh"; "final_soc_mwh" ].
Lemma cell_attr_dash a : In a cell_attrs -> dashfree a = true.
Proof. cbn [cell_attrs In]. intros H. repeat destruct H as [<-|H]; try reflexivity. destruct H. Qed.
Lemma asset_cell_name d t a n oq : In (n, oq) (asset_cells d t a) ->
  exists x attr, n = column x attr /\ In attr cell_attrs /\ (x = asset_name a \/ exists y, x = column (asset_name a) y).
Proof.
  assert (forall x attr, n = column x attr -> In attr cell_attrs -> (x = asset_name a \/ exists y, x = column (asset_name a) y) ->
    exists x attr, n = column x attr /\ In attr cell_attrs /\ (x = asset_name a \/ exists y, x = column (asset_name a) y)) as G by (intros; eauto).
  assert (column (asset_name a) "" = column (asset_name a) "") as _ by reflexivity.
  destruct a as [b|b|b|b|b|b|m|m]; cbn [asset_cells].
  4:{ rewrite in_app_iff. unfold ev_main_cells. rewrite !in_app_iff, !in_flat_map. unfold ev_spill_columns, ev_soc_report. cbv zeta. rewrite in_app_iff, !in_map_iff, in_flat_map. cbn [asset_name] in *.
      intros [[([k cc] & _ & H)|[([e ec] & _ & H)|[(e & H & _)|(e & H & _)]]]|(cc & _ & H)].
      1,2,5: cbn [fst snd ev_charger_report ev_event_report ev_spill_report In] in H; repeat (destruct H as [H|H]; [injection H as <- <-; eapply G; [reflexivity|cbn; tauto|eauto]|]); destruct H.
      - injection H as <- <-. eapply G; [reflexivity|cbn; tauto|right]. exists ("charge-event" ++ "-" ++ show e). unfold column. now rewrite !str_app_assoc.
      - injection H as <- <-. eapply G; [reflexivity|cbn; tauto|right]. exists ("charge-event" ++ "-" ++ show e). unfold column. now rewrite !str_app_assoc. }
  all: cbn [In]; intros H; repeat (destruct H as [H|H]; [injection H as <- <-; eapply G; [reflexivity|cbn; tauto|left; reflexivity]|]); destruct H.
Qed.

Definition reserved : list string :=
  (map (fun q => ("total-" ++ q)%string) quantities ++ ["total-spills_mwh"; "total-electric_loss_mwh"; "site-electricity_balance_mwh"])%list.

Lemma reserved_form n : In n reserved -> exists x a, n = column x a /\ dashfree a = true /\ ((x = "total" /\ starts_with "site-" n = false) \/ (x = "site" /\ a = "electricity_balance_mwh")).
Proof.
  cbn [reserved map quantities app In]. intros H. repeat (destruct H as [<-|H]; [first [ exists "site", "electricity_balance_mwh"; repeat split; auto; fail
    | match goal with |- exists x a, ?s = _ /\ _ => exists "total", (last_part s); repeat split; left; split; reflexivity end]|]). destruct H.
Qed.
Lemma prefix_app a b : starts_with a (a ++ b) = true.
Proof. unfold starts_with. induction a as [|c a IH]; cbn; [destruct b; reflexivity|]. destruct (ascii_dec c c); [exact IH|congruence]. Qed.

Lemma not_reserved c assets d t n : names_ok c assets -> In n (map fst (row_cells c assets d t)) -> ~ In n reserved.
Proof.
  intros (N1 & N2 & _) I R. apply in_map_iff in I. destruct I as ([n' oq] & E & I). cbn [fst] in E. subst n'. apply all_in_row in I. unfold all_cells in I. apply in_app_iff in I.
  destruct (reserved_form n R) as (x & a & -> & D & F). destruct I as [I|I].
  - unfold site_cells in I. destruct I as [I|[I|I]].
    + injection I as I _. destruct F as [(-> & F)|(-> & ->)]; [|discriminate]. rewrite <- I in F. discriminate.
    + injection I as I _. destruct F as [(-> & F)|(-> & ->)]; [|discriminate]. rewrite <- I in F. discriminate.
    + apply in_map_iff in I. destruct I as ([m l] & I & J). cbn [fst snd] in I. injection I as I _. destruct F as [(-> & F)|(-> & ->)].
      * rewrite <- I in F. cbn in F. destruct m; discriminate.
      * change ("site-" ++ m) with (column "site" m) in I. unfold column in I. cbn in I. injection I as I. subst m.
        unfold id_columns in J. apply in_app_iff in J. destruct J as [J|J]; [cbn [In] in J; repeat (destruct J as [J|J]; [discriminate|]); destruct J|]. destruct (N2 _ J) as [_ X]. now apply X.
  - apply in_flat_map in I. destruct I as (b & Ib & I). destruct (asset_cell_name _ _ _ _ _ I) as (y & attr & E & A & B). apply column_inj in E; auto using cell_attr_dash. destruct E as [-> ->].
    destruct F as [(-> & F)|(-> & ->)].
    + destruct B as [B|(z & B)]; [now apply (N1 b Ib)|]. apply (f_equal dashfree) in B. unfold column in B. rewrite dashfree_app in B. cbn in B. rewrite Bool.andb_comm in B. discriminate.
    + cbn in A. repeat (destruct A as [A|A]; [discriminate|]). destruct A.
Qed.
Lemma prices_once c assets d t : names_ok c assets -> count "site-electricity_prices" (map fst (row_cells c assets d t)) = 1%nat.
Proof.
  intros (N1 & N2 & _).
  assert (forall l : list string, ~ In "site-electricity_prices" l -> count "site-electricity_prices" l = 0%nat) as Z.
  { intros l NI. destruct (Nat.eq_dec (count "site-electricity_prices" l) 0) as [E|E]; [exact E|]. exfalso. apply NI, count_in. lia. }
  assert (forall a b, count "site-electricity_prices" (a ++ b)%list = (count "site-electricity_prices" a + count "site-electricity_prices" b)%nat) as CA.
  { intros a b. unfold count. now rewrite filter_app, app_length. }
  unfold row_cells. rewrite map_app, CA, (Z (map fst (asset_rows assets d t))).
  - unfold site_cells. cbn [map fst]. unfold id_columns. rewrite !map_app. cbn [map fst snd].
    match goal with |- context [(?a :: ?b :: ?l ++ ?r)%list] => change (a :: b :: l ++ r)%list with ((a :: b :: l) ++ r)%list end. rewrite CA.
    match goal with |- context [count _ (map fst (map ?f (id_custom _)))] => rewrite (Z (map fst (map f (id_custom (sc_idata c))))) end; [reflexivity|].
    rewrite map_map. cbn [fst]. rewrite in_map_iff. intros ([m l] & E & J). cbn [fst] in E. injection E as E. subst m. destruct (N2 _ J) as [X _]. now apply X.
  - intros I. apply in_map_iff in I. destruct I as ([n' oq] & E & I). cbn [fst] in E. subst n'. apply assets_in_row, in_flat_map in I. destruct I as (b & Ib & I).
    destruct (asset_cell_name _ _ _ _ _ I) as (y & attr & E & A & B). change "site-electricity_prices" with (column "site" "electricity_prices") in E.
    apply column_inj in E; auto using cell_attr_dash. destruct E as [_ <-]. cbn in A. repeat (destruct A as [A|A]; [discriminate|]). destruct A.
Qed.

(** ** Programs only grow *)
Definition grows {A} (m : M A) : Prop := forall o a o', m o = Ok (a, o') -> (o_next o <= o_next o')%nat /\ exists cs, cons_of o' = (cons_of o ++ cs)%list.
Lemma grows_ret {A} (a : A) : grows (ret a).
Proof. intros o x o' H. apply ret_ok in H. destruct H as [_ <-]. split; [lia|]. exists []. now rewrite app_nil_r. Qed.
Lemma grows_lift {A} (r : res A) : grows (lift r).
Proof. intros o x o' H. apply lift_ok in H. destruct H as [_ <-]. split; [lia|]. exists []. now rewrite app_nil_r. Qed.
Lemma grows_raise {A} e : grows (@raise A e).
Proof. intros o x o' H. discriminate. Qed.
Lemma grows_massert b : grows (massert b).
Proof. destruct b; [apply grows_ret|apply grows_raise]. Qed.
Lemma grows_bind {A B} (m : M A) (f : A -> M B) : grows m -> (forall a, grows (f a)) -> grows (bind m f).
Proof.
  intros H K o x o' E. rewrite bind_ok in E. destruct E as (a & o1 & E1 & E2). destruct (H _ _ _ E1) as (L1 & c1 & C1). destruct (K _ _ _ _ E2) as (L2 & c2 & C2).
  split; [lia|]. exists (c1 ++ c2)%list. now rewrite C2, C1, app_assoc.
Qed.
Lemma grows_constrain c : grows (constrain c).
Proof. intros o x o' H. injection H as _ <-. split; [cbn; lia|]. exists [c]. unfold cons_of. cbn [o_cons]. now rewrite map_app. Qed.
Lemma grows_continuous n a b : grows (continuous n a b).
Proof. intros o x o' H. injection H as _ <-. split; [cbn; lia|]. exists []. unfold cons_of. cbn [o_cons]. now rewrite app_nil_r. Qed.
Lemma grows_binary n : grows (binary n).
Proof. intros o x o' H. injection H as _ <-. split; [cbn; lia|]. exists []. unfold cons_of. cbn [o_cons]. now rewrite app_nil_r. Qed.
Lemma grows_set_objective e : grows (set_objective e).
Proof. intros o x o' H. injection H as _ <-. split; [cbn; lia|]. exists []. unfold cons_of. cbn [o_cons]. now rewrite app_nil_r. Qed.
Lemma grows_forM_ {A} (l : list A) f : (forall x, grows (f x)) -> grows (forM_ l f).
Proof. intros H. induction l; cbn [forM_]; [apply grows_ret|]. now apply grows_bind. Qed.
Lemma grows_forM {A B} (l : list A) (f : A -> M B) : (forall x, grows (f x)) -> grows (forM l f).
Proof. intros H. induction l; cbn [forM]; [apply grows_ret|]. apply grows_bind; [auto|]. intros y. apply grows_bind; [auto|]. intros ys. apply grows_ret. Qed.
Create HintDb grow.
#[global] Hint Resolve grows_ret grows_lift grows_raise grows_massert grows_constrain grows_continuous grows_binary grows_set_objective : grow.
Ltac grow := repeat first [ progress auto with grow | apply grows_bind; [|intros] | apply grows_forM_; intros | apply grows_forM; intros
  | match goal with |- grows (if ?b then _ else _) => destruct b end | match goal with |- grows (match ?b with _ => _ end) => destruct b end ].
Lemma grows_binaries {A} name (l : list A) : forall i, grows (many_binaries name i l).
Proof. induction l; intros i; cbn [many_binaries]; grow. Qed.
Lemma grows_nonneg v : grows (nonneg_check v).
Proof. unfold nonneg_check. grow. Qed.
#[global] Hint Resolve grows_binaries grows_nonneg : grow.
Lemma grows_min2 n a b m : grows (min_two_variables n a b m).
Proof. unfold min_two_variables. grow. Qed.
Lemma grows_max2 n a b m : grows (max_two_variables n a b m).
Proof. unfold max_two_variables. grow. Qed.
Lemma grows_minm n vs m : grows (min_many_variables n vs m).
Proof. unfold min_many_variables. grow. Qed.
Lemma grows_maxm n vs m : grows (max_many_variables n vs m).
Proof. unfold max_many_variables. grow. Qed.
#[global] Hint Resolve grows_min2 grows_max2 grows_minm grows_maxm : grow.
Lemma grows_objective obj iv d : grows (get_objective obj iv d).
Proof.
  destruct obj; cbn [get_objective]; grow; unfold add_two_variable_terms, add_many_variables_terms; grow; unfold add_two_variable_term, add_many_variables_term; grow.
Qed.
Lemma grows_loop c iv d idx : forall l r, grows (custom_loop c iv d l r idx).
Proof. induction idx; intros l r; cbn [custom_loop]; grow. Qed.
Lemma grows_custom c iv d : grows (add_custom_constraint c iv d).
Proof. unfold add_custom_constraint. pose proof grows_loop. grow. Qed.

Lemma program_split c assets cons obj fl base iv o : build_program c assets cons obj fl (new_optimizer base) = Ok (iv, o) ->
  exists o1 o2 cs extra e, build_base c assets fl (new_optimizer base) = Ok (iv, o1) /\
    forM_ cons (fun k => add_custom_constraint k iv (sc_idata c)) o1 = Ok (tt, o2) /\
    program c assets fl iv base (o_next o1) cs /\ cons_of o1 = cs /\
    (exists o3, get_objective obj iv (sc_idata c) o2 = Ok (e, o3) /\ o = mkOpt (o_next o3) (o_cons o3) (Some e)) /\
    o_obj o = Some e /\ cons_of o = (cs ++ extra)%list.
Proof.
  intros H. unfold build_program in H. rewrite bind_ok in H. destruct H as (iv1 & o1 & H1 & H). rewrite bind_ok in H. destruct H as ([] & o2 & H2 & H).
  rewrite bind_ok in H. destruct H as (e & o3 & H3 & H). rewrite bind_ok in H. destruct H as (u & o4 & H4 & H). apply ret_ok in H. destruct H as [<- <-]. injection H4 as _ <-.
  destruct (base_program _ _ _ _ _ _ H1) as (cs & P & C1 & O1). cbn [new_optimizer o_next] in P.
  assert (grows (forM_ cons (fun k => add_custom_constraint k iv1 (sc_idata c)))) as G2 by (apply grows_forM_; intros; apply grows_custom).
  destruct (G2 _ _ _ H2) as (_ & c2 & C2). destruct (grows_objective _ _ _ _ _ _ H3) as (_ & c3 & C3).
  exists o1, o2, cs, (c2 ++ c3)%list, e. splits; auto.
  - exists o3. auto.
  - unfold cons_of in *. cbn [o_cons]. rewrite C3, C2, C1. cbn. now rewrite <- app_assoc.
Qed.

(** ** Totals *)
Lemma set_col_new r n c : ~ In n (map fst r) -> set_col r n c = (r ++ [(n, c)])%list.
Proof.
  induction r as [|[m x] r IH]; cbn [set_col map fst]; [reflexivity|]. intros H. destruct (String.eqb_spec n m) as [->|N]; [exfalso; apply H; now left|]. cbn [app]. rewrite IH; auto. intros I. apply H. now right.
Qed.
Lemma sum_cols_app lp ex p : lp <> [] -> existsb p (map fst ex) = false -> sum_cols (lp ++ ex)%list p = sum_cols lp p.
Proof.
  intros N E. unfold sum_cols. assert (n_rows (lp ++ ex)%list = n_rows lp) as -> by (destruct lp as [|[? ?] ?]; [congruence|reflexivity]).
  rewrite filter_app. assert (filter (fun nc => p (fst nc)) ex = []) as ->; [|now rewrite app_nil_r].
  apply filter_none. intros x I. destruct (p (fst x)) eqn:K; auto. rewrite <- E. symmetry. apply existsb_exists. exists (fst x). split; auto. now apply in_map.
Qed.
Lemma set_total lp ex n p : lp <> [] -> ~ In n (map fst lp) -> existsb (String.eqb n) (map fst ex) = false -> existsb p (map fst ex) = false ->
  set_col (lp ++ ex)%list n (sum_cols (lp ++ ex)%list p) = (lp ++ (ex ++ [(n, sum_cols lp p)]))%list.
Proof.
  intros N NI E1 E2. rewrite sum_cols_app by auto. rewrite set_col_new; [now rewrite app_assoc|]. rewrite map_app, in_app_iff. intros [I|I]; [tauto|].
  assert (existsb (String.eqb n) (map fst ex) = true) by (apply existsb_exists; exists n; split; auto; apply String.eqb_refl). congruence.
Qed.
Definition totals (lp : frame) (imp exp : list cell) : frame :=
  (map (fun q => (("total-" ++ q)%string, sum_cols lp (is_quantity_col q))) quantities
   ++ [("total-spills_mwh", sum_cols lp is_spill_total_col); ("total-electric_loss_mwh", sum_cols lp is_loss_col);
       ("site-electricity_balance_mwh", zip_cells csub imp exp)])%list.
Lemma assoc_app {A} k (l l' : list (string * A)) : assoc k (l ++ l')%list = match assoc k l with Some a => Some a | None => assoc k l' end.
Proof. induction l as [|[k' a] l IH]; cbn; [reflexivity|]. destruct (k =? k'); auto. Qed.
Lemma add_totals_eq lp r : lp <> [] -> (forall n, In n (map fst lp) -> ~ In n reserved) -> add_totals lp = Ok r ->
  exists imp exp, assoc "site-import_power_mwh" lp = Some imp /\ assoc "site-export_power_mwh" lp = Some exp /\ r = (lp ++ totals lp imp exp)%list.
Proof.
  intros N NR H. unfold add_totals in H. cbv zeta in H.
  assert (fold_left add_total quantities lp = (lp ++ map (fun q => (("total-" ++ q)%string, sum_cols lp (is_quantity_col q))) quantities)%list) as E.
  { assert (forall q ex, In q quantities -> existsb (String.eqb ("total-" ++ q)) (map fst ex) = false -> existsb (is_quantity_col q) (map fst ex) = false ->
      add_total (lp ++ ex)%list q = (lp ++ (ex ++ [(("total-" ++ q)%string, sum_cols lp (is_quantity_col q))]))%list) as ST.
    { intros q ex Iq E1 E2. unfold add_total. apply set_total; auto. intros I. apply (NR _ I). unfold reserved. apply in_app_iff. left. apply in_map_iff. eauto. }
    rewrite <- (app_nil_r lp) at 1. unfold quantities at 1. cbn [fold_left].
    repeat (rewrite ST; [|cbn; tauto|reflexivity|reflexivity]). cbn [app map quantities]. reflexivity. }
  rewrite E in H. clear E.
  rewrite set_total in H; [|exact N|intros I; apply (NR _ I); cbn; tauto|reflexivity|reflexivity].
  rewrite set_total in H; [|exact N|intros I; apply (NR _ I); cbn; tauto|reflexivity|reflexivity].
  rewrite rbind_ok in H. destruct H as (imp & H1 & H). rewrite rbind_ok in H. destruct H as (exp & H2 & H). injection H as <-.
  unfold get_col in H1, H2. rewrite assoc_app in H1, H2. exists imp, exp.
  destruct (assoc "site-import_power_mwh" lp) as [i1|]; [|cbn in H1; discriminate]. destruct (assoc "site-export_power_mwh" lp) as [i2|]; [|cbn in H2; discriminate].
  injection H1 as ->. injection H2 as ->. splits; auto. rewrite set_col_new.
  - rewrite <- app_assoc. reflexivity.
  - rewrite map_app, in_app_iff. intros [I|I]; [apply (NR _ I); cbn; tauto|]. cbn in I. repeat (destruct I as [I|I]; [discriminate|]). destruct I.
Qed.

(** ** A feasible run *)
Lemma sum_cols_length lp p : List.length (sum_cols lp p) = n_rows lp.
Proof. unfold sum_cols. now rewrite map_length, seq_length. Qed.
Lemma zip_cells_length f a b : List.length a = List.length b -> List.length (zip_cells f a b) = List.length a.
Proof. revert b. induction a; intros [|y b] H; cbn in *; auto; discriminate. Qed.
Lemma Forall2_nth {A B} (R : A -> B -> Prop) l l' k x y : Forall2 R l l' -> nth_error l k = Some x -> nth_error l' k = Some y -> R x y.
Proof. intros F. revert k. induction F; intros [|k] H1 H2; cbn in *; try discriminate; [congruence|eauto]. Qed.
Lemma row_is_in l l' n oq : row_is l l' -> In (n, oq) l' -> exists q, In (n, Some q) l /\ match oq with Some p => q == p | None => True end.
Proof.
  induction 1 as [|x y l l' (E & q & Q1 & Q2) H IH]; intros I; [destruct I|]. destruct I as [->|I].
  - cbn [fst snd] in *. exists q. split; auto. left. destruct x as [xa xb]. cbn [fst snd] in *. now subst.
  - destruct (IH I) as (q' & A & B). exists q'. split; auto. now right.
Qed.

Record run (slv : solver) (base : nat) (c : site_cfg) (assets : list asset) (cons : list constraint) (obj : objective) (fl : flags) (r : sim_result)
    (iv : interval_vars) (o : opt) (s : assignment) (lp : frame) (rows : list (list (string * cell))) : Prop := mkRun {
  run_built : build_program c assets cons obj fl (new_optimizer base) = Ok (iv, o);
  run_feasible : feasible s o;
  run_best : forall gap, answered_within gap slv o -> forall s', feasible s' o -> objective_value s o <= objective_value s' o + gap;
  run_status : exists x, objective_is fl r x /\ x == objective_value s o;
  run_optimal : st_status (r_status r) = Optimal;
  run_answer : forall v, occurs o v = true -> sol_value (slv o) (v_id v) = Some (s (v_id v));
  run_vals : vals_of (d_of s iv) s iv;
  run_n : (0 < n_intervals c)%nat;
  run_physical : physical c assets fl (d_of s iv);
  run_rows : Forall2 (fun t row => row_is row (row_cells c assets (d_of s iv) t)) (seq 0 (n_intervals c)) rows;
  run_extract : Forall2 (fun t row => extract_row (var_value o (slv o)) (sc_idata c) (map asset_name assets) iv t = Ok row) (seq 0 (n_intervals c)) rows;
  run_table : table_of (map fst (row_cells c assets (d_of s iv) 0)) rows lp;
  run_totals : exists imp exp, assoc "site-import_power_mwh" lp = Some imp /\ assoc "site-export_power_mwh" lp = Some exp /\ r_results r = (lp ++ totals lp imp exp)%list;
  run_schema : validate_schema (r_results r) = Ok tt;
  run_checks : check_results (r_results r) (existsb is_valve assets) = Ok tt;
  run_spill : warn_spills (r_results r) fl = Ok (r_spill r) }.

Lemma terms_value_eval o sol s l : (forall v, occurs o v = true -> sol_value sol (v_id v) = Some (s (v_id v))) ->
  forall x, terms_value o sol l = Some x -> x == Qsum (map (fun vk => snd vk * s (v_id (fst vk))) l).
Proof.
  intros H. induction l as [|[v k] l IH]; intros x E; cbn [terms_value map Qsum fold_right fst snd] in *.
  - injection E as <-. reflexivity.
  - unfold var_value in E. destruct (occurs o v) eqn:O; [|discriminate]. rewrite (H v O) in E. destruct (terms_value o sol l) as [y|]; [|discriminate]. injection E as <-. rewrite (IH y eq_refl). reflexivity.
Qed.

Lemma terms_value_some o sol (l : list (lpvar * Q)) (s : assignment) : (forall v, occurs o v = true -> sol_value sol (v_id v) = Some (s (v_id v))) ->
  (forall v, In v (map fst l) -> occurs o v = true) -> exists x, terms_value o sol l = Some x.
Proof.
  intros H K. induction l as [|[v k] l IH]; cbn [terms_value]; [eauto|]. destruct IH as (y & ->); [intros w I; apply K; now right|].
  unfold var_value. rewrite (K v) by (now left). rewrite H by (apply K; now left). eauto.
Qed.
Lemma var_value_sound o sol s v x : (forall v, occurs o v = true -> sol_value sol (v_id v) = Some (s (v_id v))) -> var_value o sol v = Some x -> x = s (v_id v).
Proof. intros H E. unfold var_value in E. destruct (occurs o v) eqn:O; [|discriminate]. rewrite (H v O) in E. congruence. Qed.

Lemma answer_eval o (s s0 : assignment) e : o_obj o = Some e -> (forall v, occurs o v = true -> s (v_id v) = s0 (v_id v)) -> eval s e == eval s0 e.
Proof.
  intros OE H. unfold eval. apply Qplus_comp; [|reflexivity]. apply Qsum_map_ext. intros vk Ik. unfold tval. rewrite H; [reflexivity|].
  unfold occurs. apply existsb_exists. exists (fst vk). split; [|apply Nat.eqb_refl]. unfold all_occurrences. rewrite OE, in_app_iff. left. unfold evars. now apply in_map.
Qed.
(** a solver that minimises answers within 0 *)
Lemma sound_within slv o : sound_solver slv -> answered_within 0 slv o.
Proof.
  intros H ST s VS s' F. destruct (H o ST) as (s0 & F0 & V0 & BEST). specialize (BEST s' F). unfold objective_value in *. destruct (o_obj o) as [e|] eqn:OE; [|lra].
  rewrite (answer_eval o s s0 e OE); [lra|]. intros v Ov. specialize (VS v Ov). specialize (V0 v Ov). congruence.
Qed.

Theorem optimize_run slv base c assets cons obj fl r : honest_solver slv -> Forall chp_fine assets -> names_ok c assets ->
  optimize slv base c assets cons obj fl = Ok r -> r_feasible r = true ->
  exists iv o s lp rows, run slv base c assets cons obj fl r iv o s lp rows.
Proof.
  intros SND CF NM H FE. unfold optimize in H. destruct (build_program c assets cons obj fl (new_optimizer base)) as [[iv o]|] eqn:HB; [|discriminate].
  destruct (program_split _ _ _ _ _ _ _ _ HB) as (o1 & o2 & cs & extra & e & _ & _ & P & _ & _ & OE & CE).
  rewrite rbind_ok in H. destruct H as ([st sol] & HS & H). cbn [fst snd] in H.
  unfold solve in HS. rewrite rbind_ok in HS. destruct HS as (u1 & _ & HS). cbv zeta in HS. rewrite rbind_ok in HS. destruct HS as (u2 & HOB & HS). injection HS as HS1 HS2.
  unfold extract_results in H. rewrite rbind_ok in H. destruct H as (rows & HR & H). cbv zeta in H. rewrite rbind_ok in H. destruct H as (u3 & HL & H).
  rewrite rbind_ok in H. destruct H as (res & HT & H). rewrite rbind_ok in H. destruct H as (u4 & HC & H). rewrite rbind_ok in H. destruct H as (sp & HW & H). injection H as <-.
  cbn [r_feasible] in FE. rewrite FE in HC. rewrite rbind_ok in HC. destruct HC as ([] & HSC & HC). destruct u4.
  rewrite <- HS1 in FE. cbn [st_feasible] in FE. assert (sol_status (slv o) = Optimal) as ST by (destruct (sol_status (slv o)); cbn in FE; congruence).
  destruct (SND o ST) as (s & FS & VS). assert (forall gap, answered_within gap slv o -> forall s', feasible s' o -> objective_value s o <= objective_value s' o + gap) as BEST by (intros gap AW; exact (AW ST s VS)). rewrite HS2 in *.
  pose proof FS as FS'. rewrite feasible_iff, CE, all_ok_app in FS'. destruct FS' as ((OK & _) & _).
  assert (vals_of (d_of s iv) s iv) as VO by (eapply d_of_vals; [apply (pr_names _ _ _ _ _ _ _ P)|apply (pr_shape _ _ _ _ _ _ _ P)|apply (pr_fine _ _ _ _ _ _ _ P)]).
  assert (physical c assets fl (d_of s iv)) as PH by (eapply (pr_sound _ _ _ _ _ _ _ P); eauto).
  assert (forall v x, var_value o sol v = Some x -> x = s (v_id v)) as V by (intros; eapply var_value_sound; eauto).
  assert (forall row x v, In row iv -> In x row -> In v (must_vars x) -> var_value o sol v <> None) as OC.
  { intros row x v Ir Ix Iv. assert (In v (cs_vars cs)) as IC by (eapply (pr_occurs _ _ _ _ _ _ _ P); eauto).
    assert (occurs o v = true) as OO by (apply occurs_cons; rewrite CE, cs_vars_app, in_app_iff; now left).
    unfold var_value. rewrite OO, (VS v OO). congruence. }
  destruct NM as (N1 & N2 & N3). pose proof (conj N1 (conj N2 N3)) as NM.
  assert (Forall2 (fun t row => row_is row (row_cells c assets (d_of s iv) t)) (seq 0 (n_intervals c)) rows) as RW.
  { pose proof (proj1 (rmap_ok _ _ _) HR) as HR'. eapply Forall2_impl; [|exact HR']. cbv beta. intros t row _ K. eapply (full_row _ s); eauto. intros a t' Ia Ht'. apply (at_clip a (sc_freq c) fl). destruct PH as [_ P2]. specialize (P2 a Ia). rewrite asset_physical_iff in P2. apply P2; auto. }
  assert (forall row, In row rows -> map fst row = map fst (row_cells c assets (d_of s iv) 0)) as NMS.
  { intros row I. destruct (Forall2_in_r _ _ _ _ RW I) as (t & _ & K). rewrite (row_is_names _ _ K). apply row_names. }
  pose proof (build_table _ rows _ _ NMS (prices_once c assets (d_of s iv) 0 NM) HL) as TB.
  set (lp := fold_left append_row rows []) in *.
  assert (lp <> []) as NE by (intros X; unfold check_array_lengths in HL; rewrite X in HL; discriminate).
  destruct (add_totals_eq lp res NE) as (imp & exp & A1 & A2 & A3); [|exact HT|].
  { intros n I. rewrite (to_names _ _ _ TB) in I. eapply not_reserved; eauto. }
  exists iv, o, s, lp, rows. constructor; cbn [r_status r_results r_spill]; auto.
  - rewrite ST, OE in HOB. cbn [is_optimal rassert rbind] in HOB. unfold objective_is. cbn [r_status]. rewrite <- HS1, OE. cbn [st_objective]. unfold expr_value in *.
    destruct (is_constant e && _)%bool eqn:CO.
    { exists (objective_value s o). split; [|reflexivity]. right. split; [reflexivity|]. destruct (allow_infeasible fl); [reflexivity|].
   discriminate HOB. }
    destruct (terms_value_some o sol (e_terms e) s VS) as (x & TV).
    { intros v Iv. unfold occurs. apply existsb_exists. exists v. split; [|apply Nat.eqb_refl]. unfold all_occurrences. rewrite OE. apply in_app_iff. left. exact Iv. }
    rewrite TV. eexists. split; [left; reflexivity|]. rewrite (terms_value_eval _ _ _ _ VS _ TV). unfold objective_value. rewrite OE. unfold eval. reflexivity.
  - rewrite <- HS1. exact ST.
  - intros v Ov. rewrite HS2. now apply VS.
  - destruct (n_intervals c) eqn:N0; [|lia]. exfalso. apply NE. subst lp. apply Forall2_len in RW. destruct rows; [reflexivity|discriminate].
  - rewrite HS2. apply rmap_ok in HR. exact HR.
  - exists imp, exp. auto.
Qed.

Lemma run_cell slv base c assets cons obj fl r iv o s lp rows t col oq : run slv base c assets cons obj fl r iv o s lp rows ->
  (t < n_intervals c)%nat -> In (col, oq) (all_cells c assets (d_of s iv) t) ->
  exists cells q, In (col, cells) lp /\ nth_error cells t = Some (Some q) /\ match oq with Some p => q == p | None => True end.
Proof.
  intros R Ht I. apply all_in_row in I. destruct (nth_error_lt rows t) as (row & E).
  { rewrite <- (Forall2_len _ _ _ (run_rows _ _ _ _ _ _ _ _ _ _ _ _ _ R)), seq_length. exact Ht. }
  assert (row_is row (row_cells c assets (d_of s iv) t)) as RI.
  { pose proof (run_rows _ _ _ _ _ _ _ _ _ _ _ _ _ R) as F. clear -F E Ht. assert (nth_error (seq 0 (n_intervals c)) t = Some t) as S1.
    { rewrite nth_error_nth' with (d := 0%nat) by (rewrite seq_length; exact Ht). now rewrite seq_nth by exact Ht. }
    exact (Forall2_nth _ _ _ _ _ _ F S1 E). }
  destruct (row_is_in _ _ _ _ RI I) as (q & J & Q). destruct (to_cell _ _ _ (run_table _ _ _ _ _ _ _ _ _ _ _ _ _ R) _ _ _ _ E J) as (cells & C1 & C2). eauto.
Qed.

Theorem run_reports slv base c assets cons obj fl r iv o s lp rows : names_ok c assets -> run slv base c assets cons obj fl r iv o s lp rows ->
  reports (r_results r) c assets (d_of s iv).
Proof.
  intros NM R. pose proof (run_table _ _ _ _ _ _ _ _ _ _ _ _ _ R) as TB. destruct (run_totals _ _ _ _ _ _ _ _ _ _ _ _ _ R) as (imp & exp & A1 & A2 & ->).
  assert (List.length rows = n_intervals c) as LR by (rewrite <- (Forall2_len _ _ _ (run_rows _ _ _ _ _ _ _ _ _ _ _ _ _ R)), seq_length; reflexivity).
  assert (forall col cells, In (col, cells) lp -> List.length cells = n_intervals c) as LL by (intros col cells I; rewrite (to_len _ _ _ TB _ _ I); exact LR).
  assert (n_rows lp = n_intervals c) as NRW.
  { destruct lp as [|[n cl] lp']; [discriminate|]. cbn. apply (LL n cl). now left. }
  unfold reports. splits.
  - intros col cells I. apply in_app_iff in I. destruct I as [I|I]; [eauto|]. unfold totals in I. apply in_app_iff in I. destruct I as [I|I].
    + apply in_map_iff in I. destruct I as (q & E & _). injection E as <- <-. now rewrite sum_cols_length.
    + cbn [In] in I. destruct I as [I|[I|[I|[]]]]; injection I as <- <-; try (now rewrite sum_cols_length).
      apply assoc_in in A1, A2. rewrite zip_cells_length; [eauto|]. now rewrite (LL _ _ A1), (LL _ _ A2).
  - rewrite map_app.
    assert (forall l l' : list string, NoDup l -> NoDup l' -> (forall n, In n l -> ~ In n l') -> NoDup (l ++ l')%list) as NDA.
    { induction l as [|x l IH]; intros l' H1 H2 H3; [exact H2|]. inversion H1; subst. cbn [app]. constructor; [|apply IH; auto; intros; apply H3; now right].
      rewrite in_app_iff. intros [I|I]; [tauto|]. eapply H3; eauto. now left. }
    apply NDA.
    + change (NoDup (map fst lp)). rewrite (to_names _ _ _ TB). apply TB.
    + change (NoDup reserved). apply nodup_str_iff. reflexivity.
    + intros n I. change (In n (map fst lp)) in I. rewrite (to_names _ _ _ TB) in I. change (~ In n reserved). eapply not_reserved; eauto.
  - intros t col oq Ht I. destruct (run_cell _ _ _ _ _ _ _ _ _ _ _ _ _ _ _ _ R Ht I) as (cells & q & C1 & C2 & C3).
    destruct oq as [p|]; [exists cells, q|exists cells, q]; splits; auto; apply in_app_iff; now left.
Qed.
