(** * PropAccountFun: accounts of terms over the maximum or minimum (C43) *)
From Verif Require Import Base Pulp Params Optimizer Types Assets EVs Site Constraints Objectives Extract Pipeline Emit Prim Spec SpecReport SpecRun SpecNames SpecTotals SpecCost SpecTerms Layout Rows Sem SemEv SemSite SemProg SemObj SemCells SemRows SemTable SemResults RunFacts Builds ExtractOk Totals Totals2 Returns RowNames PropResults PropChecks PropObjective SemTerms PropTerms PropCtors Terms SpecDicts PropDicts Accounting SpecAccounts PropAccounts PropAccountRun PropCustom.
Open Scope Q_scope.
Open Scope string_scope.

Section run.
Context slv base c assets cons obj fl r (FR : feasible_run slv base c assets cons obj fl r).
Notation R := (r_results r).

Lemma all_some (l : list cell) n : List.length l = n -> (forall t, (t < n)%nat -> exists x, nth t l None = Some x) -> exists xs, l = map Some xs /\ List.length xs = n.
Proof.
  revert n. induction l as [|x l IH]; intros n L H; [exists []; subst; split; reflexivity|]. cbn [List.length] in L. subst n.
  destruct (H 0%nat ltac:(lia)) as (y & Y). cbn [nth] in Y. subst x.
  destruct (IH (List.length l) eq_refl) as (xs & -> & LX). { intros t Ht. apply (H (S t)). lia. }
  exists (y :: xs). cbn [map List.length]. rewrite map_length in *. split; [reflexivity|lia].
Qed.
Lemma site_numbers n : In n ("import_power_mwh" :: "export_power_mwh" :: map fst (id_columns (sc_idata c))) ->
  exists xs, get_col R ("site-" ++ n) = Ok (map Some xs) /\ List.length xs = n_intervals c /\ forall t, (t < n_intervals c)%nat -> nth t xs 0 = num R ("site-" ++ n) t.
Proof.
  intros I. destruct (site_col_present _ _ _ _ _ _ _ _ FR n I) as (cells & G).
  pose proof (full_results _ _ _ _ _ _ _ _ FR _ _ (get_col_in _ _ _ G)) as L.
  destruct (all_some cells (n_intervals c) L) as (xs & -> & LX).
  { intros t Ht. destruct (acc_ctx _ _ _ _ _ _ _ _ FR) as (d & lp & rows & imp & exp & FA & _). destruct (fa_reports _ _ _ _ _ FA) as (_ & ND & SH).
    assert (exists q, In ("site-" ++ n, Some q) (site_cells c d t)) as (q & Iq).
    { unfold site_cells. destruct I as [<-|[<-|I]]; [eexists; now left|eexists; right; now left|].
      apply in_map_iff in I. destruct I as (x & <- & I). eexists. right. right. apply in_map_iff. exists x. split; eauto. }
    destruct (SH t _ _ Ht (in_or_app _ _ _ (or_introl Iq))) as (cells' & x & C1 & C2 & _).
    assert (get_col R ("site-" ++ n) = Ok cells') as G' by (eapply col_present; eauto). rewrite G in G'. injection G' as <-.
    exists x. rewrite (nth_error_nth _ _ _ C2). reflexivity. }
  exists xs. split; [exact G|]. split; [exact LX|]. intros t Ht. rewrite <- (get_col_num _ _ _ t G).
  destruct (nth_error_lt xs t) as (x & X); [lia|]. rewrite (nth_error_nth _ _ _ X). assert (nth t (map Some xs : list cell) None = Some x) as E by (apply nth_error_nth; now rewrite nth_error_map, X). unfold cell in *. now rewrite E.
Qed.
Lemma run_rows : n_rows R = n_intervals c.
Proof.
  destruct (acc_ctx _ _ _ _ _ _ _ _ FR) as (d & lp & rows & imp & exp & FA & _ & _ & E & _).
  apply n_rows_full; [exact (full_results _ _ _ _ _ _ _ _ FR)|]. rewrite E. intros X. apply app_eq_nil in X. destruct X as [_ X]. discriminate.
Qed.
Lemma no_nan_some xs : no_nan (map Some xs) = Ok xs.
Proof. unfold no_nan. induction xs as [|x xs IH]; [reflexivity|]. cbn [map rmap of_option rbind]. rewrite IH. reflexivity. Qed.

Lemma side_values x : site_side c x -> exists xs, find_values_for_term R x = Ok (map Some xs) /\ List.length xs = n_intervals c /\
  forall t, (t < n_intervals c)%nat -> nth t xs 0 == side_value r x t.
Proof.
  destruct x as [k|q]; cbn [site_side side_value find_values_for_term].
  - intros (TY & NM & I). destruct (site_numbers _ I) as (xs & G & L & V). exists xs. rewrite TY. destruct NM as [->| ->]; cbn [String.eqb Ascii.eqb Bool.eqb rbind rassert].
    all: split; [exact G|split; [exact L|intros t Ht; now rewrite (V t Ht)]].
  - intros (z & ->). exists (repeat (truncate (inject_Z z)) (n_intervals c)). rewrite (run_rows), repeat_length.
    split; [induction (n_intervals c) as [|n IH]; [reflexivity|cbn [repeat map]; injection IH as IH; now rewrite IH]|]. split; [reflexivity|]. intros t Ht. rewrite (nth_error_nth _ _ _ (nth_error_repeat _ Ht)). unfold truncate, inject_Z. cbn. rewrite Z.quot_1_r. reflexivity.
Qed.
Lemma sum_combine (g : Q -> Q -> Q) q xs ys n : List.length xs = n -> List.length ys = n ->
  Qsum (map (fun xy => g (fst xy) (snd xy) * q) (combine xs ys)) == Qsum (map (fun t => g (nth t xs 0) (nth t ys 0) * q) (seq 0 n)).
Proof.
  revert ys n. induction xs as [|x xs IH]; intros [|y ys] n L1 L2; cbn [List.length] in *; subst n; try discriminate; [reflexivity|].
  cbn [combine map seq Qsum fold_right nth fst snd]. apply Qplus_comp; [reflexivity|]. rewrite <- seq_shift, map_map. cbn [nth]. apply IH; [reflexivity|lia].
Qed.

Lemma custom_two t x : proper_term (TTwo t) -> w_type t = "complex" -> one_two R (TTwo t) = Ok x -> many_function (w_function t) = None ->
  exists y, custom_costs R (Some [ArgTerm (TTwo t)]) = Ok y /\ y == x.
Proof.
  intros PT TY H MF. unfold custom_costs. cbn [rmap]. rewrite (proj1 (C45_factory_object (TTwo t)) PT). cbn [rbind map fst].
  unfold add_simple_terms, add_two_variable_terms, add_many_variable_terms. cbn [rmap]. rewrite H.
  unfold one_simple, one_many. cbn [one_term_type one_term_function]. rewrite TY. cbn [String.eqb Ascii.eqb Bool.eqb rbind]. rewrite MF. cbn [rbind].
  eexists. split; [reflexivity|]. cbn [Qsum fold_right]. ring.
Qed.
Lemma custom_many t x : proper_term (TMany t) -> m_type t = "complex" -> one_many R (TMany t) = Ok x -> two_function (m_function t) = None ->
  exists y, custom_costs R (Some [ArgTerm (TMany t)]) = Ok y /\ y == x.
Proof.
  intros PT TY H MF. unfold custom_costs. cbn [rmap]. rewrite (proj1 (C45_factory_object (TMany t)) PT). cbn [rbind map fst].
  unfold add_simple_terms, add_two_variable_terms, add_many_variable_terms. cbn [rmap]. rewrite H.
  unfold one_simple, one_two. cbn [one_term_type one_term_function]. rewrite TY. cbn [String.eqb Ascii.eqb Bool.eqb rbind]. rewrite MF. cbn [rbind].
  eexists. split; [reflexivity|]. cbn [Qsum fold_right]. ring.
Qed.
End run.

Lemma Qmax_comp_r a a' b b' : a == a' -> b == b' -> Qmax a b == Qmax a' b'.
Proof. intros H1 H2. now rewrite H1, H2. Qed.

(** The account of a term over the larger (smaller) of two quantities of the grid connection, in every interval. *)
Theorem C43_two_variables : forall slv base c assets cons obj fl r t v pick,
  feasible_run slv base c assets cons obj fl r ->
  (w_function t = "max_two_variables" /\ pick = Qmax \/ w_function t = "min_two_variables" /\ pick = Qmin) ->
  w_type t = "complex" -> w_interval_data t = None -> site_side c (w_a t) -> site_side c (w_b t) ->
  exists a, get_accounts (r_results r) None (Some [ArgTerm (TTwo t)]) v = Ok a /\
    ac_cost (as_custom a) == horizon c (fun i => pick (side_value r (w_a t) i) (side_value r (w_b t) i) * w_coefficient t).
Proof.
  intros slv base c assets cons obj fl r t v pick FR FN TY ID SA SB.
  destruct (side_values _ _ _ _ _ _ _ _ FR _ SA) as (xs & X1 & X2 & X3). destruct (side_values _ _ _ _ _ _ _ _ FR _ SB) as (ys & Y1 & Y2 & Y3).
  assert (two_cost (r_results r) t pick = Ok (Qsum (map (fun xy => pick (fst xy) (snd xy) * w_coefficient t) (combine xs ys)))) as TC.
  { unfold two_cost. rewrite X1, Y1. cbn [rbind]. rewrite !map_length, X2, Y2, Nat.eqb_refl. cbn [rassert rbind]. rewrite !no_nan_some. cbn [rbind]. rewrite ID. reflexivity. }
  assert (one_two (r_results r) (TTwo t) = two_cost (r_results r) t pick) as OT.
  { unfold one_two. cbn [one_term_type one_term_function]. rewrite TY. cbn [String.eqb Ascii.eqb Bool.eqb rbind]. destruct FN as [[-> ->]|[-> ->]]; reflexivity. }
  rewrite TC in OT.
  destruct (custom_two r t (Qsum (map (fun xy => pick (fst xy) (snd xy) * w_coefficient t) (combine xs ys)))) as (y & CC & Y); auto.
  { cbn [proper_term]. unfold two_name. destruct FN as [[-> _]|[-> _]]; reflexivity. }
  { destruct FN as [[-> _]|[-> _]]; reflexivity. }
  destruct (accounts_present _ _ _ _ _ _ _ _ FR _ v _ CC) as (a & A & C). exists a. split; [exact A|]. rewrite C, Y.
  rewrite (sum_combine pick _ _ _ _ X2 Y2). unfold horizon. apply Qsum_map_ext. intros i Ii. apply in_seq in Ii. apply Qmult_comp; [|reflexivity].
  specialize (X3 i ltac:(lia)). specialize (Y3 i ltac:(lia)). destruct FN as [[_ ->]|[_ ->]]; rewrite X3, Y3; reflexivity.
Qed.

(** ** The largest (smallest) value of all *)
Lemma fold_max l : forall x, let m := fold_left Qmax l x in (x <= m /\ forall y, In y l -> y <= m) /\ (m == x \/ exists y, In y l /\ m == y).
Proof.
  induction l as [|y l IH]; intros x; cbn [fold_left]; [split; [split; [apply Qle_refl|intros y []]|left; reflexivity]|].
  destruct (IH (Qmax x y)) as ((H1 & H2) & H3). split.
  - split; [eapply Qle_trans; [apply Q.le_max_l|exact H1]|]. intros z [<-|Iz]; [eapply Qle_trans; [apply Q.le_max_r|exact H1]|auto].
  - destruct H3 as [H3|(z & Iz & H3)]; [|right; exists z; split; [now right|auto]].
    destruct (Q.max_spec x y) as [[_ E]|[_ E]]; pose proof (Qeq_trans _ _ _ H3 E); [right; exists y; split; [now left|auto]|now left].
Qed.
Lemma fold_min l : forall x, let m := fold_left Qmin l x in (m <= x /\ forall y, In y l -> m <= y) /\ (m == x \/ exists y, In y l /\ m == y).
Proof.
  induction l as [|y l IH]; intros x; cbn [fold_left]; [split; [split; [apply Qle_refl|intros y []]|left; reflexivity]|].
  destruct (IH (Qmin x y)) as ((H1 & H2) & H3). split.
  - split; [eapply Qle_trans; [exact H1|apply Q.le_min_l]|]. intros z [<-|Iz]; [eapply Qle_trans; [exact H1|apply Q.le_min_r]|auto].
  - destruct H3 as [H3|(z & Iz & H3)]; [|right; exists z; split; [now right|auto]].
    destruct (Q.min_spec x y) as [[_ E]|[_ E]]; pose proof (Qeq_trans _ _ _ H3 E); [now left|right; exists y; split; [now left|auto]].
Qed.

Section many.
Context slv base c assets cons obj fl r (FR : feasible_run slv base c assets cons obj fl r).
Notation R := (r_results r).
Lemma run_columns n cells : In (n, cells) R -> (exists d q, In (n, q) (all_cells c assets d 0)) \/ exists lp imp exp, In (n, cells) (totals lp imp exp).
Proof.
  intros I. destruct (acc_ctx _ _ _ _ _ _ _ _ FR) as (d & lp & rows & imp & exp & FA & RW & TB & E & _). rewrite E in I. apply in_app_iff in I. destruct I as [I|I]; [left|right; eauto].
  exists d. apply to_names in TB. assert (In n (map fst (row_cells c assets d 0))) as J by (rewrite <- TB; change n with (fst (n, cells)); now apply in_map).
  apply in_map_iff in J. destruct J as ([n' q] & En & J). cbn [fst] in En. subst n'. exists q. now apply all_in_row.
Qed.
Lemma only_grid v p : In v ["import_power_mwh"; "export_power_mwh"] -> (forall col, In col (id_custom (sc_idata c)) -> ends_with v (fst col) = false) ->
  (forall n, p n = true -> ends_with v n = true) -> p ("site-" ++ v) = true ->
  exists cells, get_col R ("site-" ++ v) = Ok cells /\ filter (fun nc => p (fst nc)) R = [("site-" ++ v, cells)].
Proof.
  intros Iv NC P1 P2. assert (In v plain_quantities) as PV by (cbn in Iv |- *; tauto).
  destruct (site_col_present _ _ _ _ _ _ _ _ FR v) as (cells & G); [cbn [In] in Iv; destruct Iv as [<-|[<-|[]]]; [now left|right; now left]|].
  exists cells. split; [exact G|]. pose proof (get_col_in _ _ _ G) as I.
  assert (forall n cells, In (n, cells) R -> p n = true -> n = "site-" ++ v) as ONE.
  { intros n cs J Pn. apply P1 in Pn. destruct (run_columns _ _ J) as [(d & q & K)|(lp & imp & exp & K)]; [|now rewrite (grid_totals _ _ _ _ _ _ Iv K) in Pn].
    unfold all_cells in K. apply in_app_iff in K. destruct K as [K|K].
    - unfold site_cells in K. destruct K as [K|[K|K]].
      + injection K as <- _. cbn [In] in Iv. destruct Iv as [<-|[<-|[]]]; [reflexivity|discriminate].
      + injection K as <- _. cbn [In] in Iv. destruct Iv as [<-|[<-|[]]]; [discriminate|reflexivity].
      + apply in_map_iff in K. destruct K as (col & K & IC). assert (n = "site-" ++ fst col) as -> by (now apply (f_equal fst) in K).
        rewrite column_nodash in Pn by now apply plain_dash. unfold id_columns in IC. apply in_app_iff in IC. destruct IC as [IC|IC]; [|now rewrite NC in Pn].
        cbn [In] in IC, Iv. destruct Iv as [<-|[<-|[]]]; repeat (destruct IC as [<-|IC]; [discriminate|]); destruct IC.
    - apply in_flat_map in K. destruct K as (a & _ & K). destruct (cell_form _ _ _ _ _ K) as (x & attr & -> & IA). exfalso.
      rewrite ends_col in Pn by auto. apply String.eqb_eq in Pn. subst attr. clear - Iv IA.
      assert (existsb (String.eqb v) cell_attrs = true) as H by (apply existsb_exists; exists v; split; [auto|apply String.eqb_refl]).
      cbn [In] in Iv. destruct Iv as [<-|[<-|[]]]; vm_compute in H; discriminate. }
  destruct (acc_ctx _ _ _ _ _ _ _ _ FR) as (_ & _ & _ & _ & _ & _ & _ & _ & _ & ND & _). clear - I ONE ND P2.
  induction R as [|[n cs] l IH]; [destruct I|]. cbn [map] in ND. inversion ND as [|? ? NI ND']; subst. cbn [fst] in NI. cbn [filter fst]. destruct I as [I|I].
  - assert (n = "site-" ++ v) as -> by (now apply (f_equal fst) in I). assert (cs = cells) as -> by (now apply (f_equal snd) in I). rewrite P2. f_equal. apply filter_nil. intros [n' cs'] J. cbn [fst]. destruct (p n') eqn:E; [exfalso|reflexivity].
    apply NI. rewrite <- (ONE n' cs' (or_intror J) E). exact (in_map fst l (n', cs') J).
  - destruct (p n) eqn:E; [exfalso|apply IH; [exact I|intros n' cs' J; apply (ONE n' cs'); now right|exact ND']].
    apply NI. rewrite (ONE n cs (or_introl eq_refl) E). exact (in_map fst l ("site-" ++ v, cells) I).
Qed.
End many.

(** The account of a term over the largest (smallest) import or export of the whole simulation and a constant. *)
Theorem C43_many_variables : forall slv base c assets cons obj fl r t v cap,
  feasible_run slv base c assets cons obj fl r ->
  m_type t = "complex" -> m_constant t = inject_Z cap -> over_grid c (m_variables t) ->
  (m_function t = "max_many_variables" ->
   exists a m, get_accounts (r_results r) None (Some [ArgTerm (TMany t)]) v = Ok a /\ ac_cost (as_custom a) == m * m_coefficient t /\
     largest m (inject_Z cap) (n_intervals c) (fun i => side_value r (TTerm (m_variables t)) i)) /\
  (m_function t = "min_many_variables" ->
   exists a m, get_accounts (r_results r) None (Some [ArgTerm (TMany t)]) v = Ok a /\ ac_cost (as_custom a) == m * m_coefficient t /\
     smallest m (inject_Z cap) (n_intervals c) (fun i => side_value r (TTerm (m_variables t)) i)).
Proof.
  intros slv base c assets cons obj fl r t v cap FR TY CO (Iv & SEL & NC).
  destruct (acc_ctx _ _ _ _ _ _ _ _ FR) as (d & _ & _ & _ & _ & FA & _). pose proof (fa_n _ _ _ _ _ FA) as HN. clear d FA.
  assert (exists cells, get_col (r_results r) ("site-" ++ t_variable (m_variables t)) = Ok cells /\ many_columns (r_results r) (m_variables t) = [("site-" ++ t_variable (m_variables t), cells)]) as (cells & G & MC).
  { unfold many_columns. assert (forall m, ends_with (t_variable (m_variables t)) ("site-" ++ m) = ends_with (t_variable (m_variables t)) m) as EN.
    { intros m. apply column_nodash, plain_dash. cbn in Iv |- *. tauto. }
    assert (forall s : string, ends_with s s = true) as ER by (intros [|a s]; cbn [ends_with]; [reflexivity|]; now rewrite String.eqb_refl).
    assert (forall s, starts_with "site-" ("site-" ++ s) = true) as ST by (intros s; unfold starts_with; apply prefix_iff; now exists s).
    destruct SEL as [TS|[(TS & NS)|NS]].
    - rewrite TS. cbn [String.eqb Ascii.eqb Bool.eqb]. unfold find_all_assets_with_variable.
      eapply (only_grid _ _ _ _ _ _ _ _ FR _ (fun n => ends_with (t_variable (m_variables t)) n)); eauto; rewrite EN; apply ER.
    - rewrite TS, NS. cbn [String.eqb Ascii.eqb Bool.eqb]. unfold find_asset_type_with_variables. cbn [String.eqb Ascii.eqb Bool.eqb].
      eapply (only_grid _ _ _ _ _ _ _ _ FR _ (fun n => ends_with (t_variable (m_variables t)) n && existsb (String.eqb (type_part n)) ["site"])%bool); eauto.
      + intros n E. apply andb_true_iff in E. tauto.
      + cbn [In] in Iv. destruct Iv as [<-|[<-|[]]]; reflexivity.
    - assert (exists cells, get_col (r_results r) ("site-" ++ t_variable (m_variables t)) = Ok cells /\ find_asset_by_name (r_results r) (m_variables t) = [("site-" ++ t_variable (m_variables t), cells)]) as K.
      { unfold find_asset_by_name. destruct NS as (_ & NS). rewrite NS.
        eapply (only_grid _ _ _ _ _ _ _ _ FR _ (fun n => ends_with (t_variable (m_variables t)) n && starts_with ("site" ++ "-") n)%bool); eauto.
        - intros n E. apply andb_true_iff in E. tauto.
        - rewrite EN, ER. apply (ST). }
      destruct NS as (TS & NS). destruct TS as [->| ->]; rewrite ?NS; exact K. }
  assert (In (t_variable (m_variables t)) ("import_power_mwh" :: "export_power_mwh" :: map fst (id_columns (sc_idata c)))) as I.
  { cbn [In] in Iv. destruct Iv as [<-|[<-|[]]]; [now left|right; now left]. }
  destruct (site_numbers _ _ _ _ _ _ _ _ FR _ I) as (xs & X1 & X2 & X3). rewrite G in X1. injection X1 as ->. clear I Iv SEL NC.
  assert (truncate (inject_Z cap) = inject_Z cap) as TR by (unfold truncate, inject_Z; cbn; now rewrite Z.quot_1_r).
  assert (exists x l, (xs ++ repeat (truncate (m_constant t)) (n_rows (r_results r)))%list = x :: l /\
            (forall i, (i < n_intervals c)%nat -> In (side_value r (TTerm (m_variables t)) i) (x :: l)) /\ In (inject_Z cap) (x :: l) /\
            (forall y, In y (x :: l) -> y = inject_Z cap \/ exists i, (i < n_intervals c)%nat /\ y = side_value r (TTerm (m_variables t)) i)) as (x & l & XL & L1 & L2 & L3).
  { rewrite CO, TR, (run_rows _ _ _ _ _ _ _ _ FR). destruct xs as [|x xs]; [cbn in X2; lia|]. exists x, (xs ++ repeat (inject_Z cap) (n_intervals c))%list. split; [reflexivity|].
    change (x :: xs ++ repeat (inject_Z cap) (n_intervals c))%list with ((x :: xs) ++ repeat (inject_Z cap) (n_intervals c))%list. split; [|split].
    - intros i Hi. apply in_app_iff. left. cbn [side_value]. rewrite <- (X3 i Hi). apply nth_In. lia.
    - apply in_app_iff. right. destruct (n_intervals c); [lia|now left].
    - intros y Iy. apply in_app_iff in Iy. destruct Iy as [Iy|Iy]; [right|left; eapply repeat_spec; eauto].
      apply (In_nth _ _ 0) in Iy. destruct Iy as (i & Hi & <-). exists i. split; [lia|]. cbn [side_value]. rewrite X3 by lia. reflexivity. }
  assert (forall g, many_cost (r_results r) t g = Ok (fold_left g l x * m_coefficient t)) as COST.
  { intros g. unfold many_cost. rewrite MC. cbn [map snd List.concat]. rewrite app_nil_r, no_nan_some. cbn [rbind]. rewrite XL. reflexivity. }
  assert (forall g, many_function (m_function t) = Some g -> contains "two_variables" (m_function t) = false -> contains "many_variables" (m_function t) = true -> two_function (m_function t) = None ->
     exists a, get_accounts (r_results r) None (Some [ArgTerm (TMany t)]) v = Ok a /\ ac_cost (as_custom a) == fold_left g l x * m_coefficient t) as ACC.
  { intros g MF C1 C2 TF. destruct (custom_many r t (fold_left g l x * m_coefficient t)) as (y & CC & Y); auto.
    - split; auto.
    - unfold one_many. cbn [one_term_type one_term_function]. rewrite TY. cbn [String.eqb Ascii.eqb Bool.eqb rbind]. rewrite MF. apply COST.
    - destruct (accounts_present _ _ _ _ _ _ _ _ FR _ v _ CC) as (a & A & C). exists a. split; [exact A|]. now rewrite C. }
  split; intros FN.
  - destruct (ACC Qmax) as (a & A & C); try (rewrite FN; reflexivity). exists a, (fold_left Qmax l x). split; [exact A|]. split; [exact C|].
    destruct (fold_max l x) as ((H1 & H2) & H3). assert (forall y, In y (x :: l) -> y <= fold_left Qmax l x) as H by (intros y [<-|Iy]; auto).
    split; [now apply H|]. split; [intros i Hi; now apply H, L1|].
    assert (exists y, In y (x :: l) /\ fold_left Qmax l x == y) as (y & Iy & Y) by (destruct H3 as [H3|(y & Iy & H3)]; [exists x; split; [now left|auto]|exists y; split; [now right|auto]]).
    destruct (L3 y Iy) as [->|(i & Hi & ->)]; [now left|right; eauto].
  - destruct (ACC Qmin) as (a & A & C); try (rewrite FN; reflexivity). exists a, (fold_left Qmin l x). split; [exact A|]. split; [exact C|].
    destruct (fold_min l x) as ((H1 & H2) & H3). assert (forall y, In y (x :: l) -> fold_left Qmin l x <= y) as H by (intros y [<-|Iy]; auto).
    split; [now apply H|]. split; [intros i Hi; now apply H, L1|].
    assert (exists y, In y (x :: l) /\ fold_left Qmin l x == y) as (y & Iy & Y) by (destruct H3 as [H3|(y & Iy & H3)]; [exists x; split; [now left|auto]|exists y; split; [now right|auto]]).
    destruct (L3 y Iy) as [->|(i & Hi & ->)]; [now left|right; eauto].
Qed.

(** ** A term with interval data over two variables cannot be accounted for *)
Lemma rmap_in {A B} (f : A -> res B) l ys x : rmap f l = Ok ys -> In x l -> exists y, f x = Ok y.
Proof. intros H I. apply rmap_ok in H. induction H as [|a b l l' E _ IH]; [destruct I|]. destruct I as [->|I]; eauto. Qed.
Theorem C43_two_variables_data_refuted : forall results prices args v t a name,
  In (ArgTerm (TTwo t)) args -> w_type t = "complex" -> (w_function t = "max_two_variables" \/ w_function t = "min_two_variables") ->
  w_interval_data t = Some name -> name <> "" -> get_accounts results prices (Some args) v <> Ok a.
Proof.
  intros results prices args v t a name I TY FN ID NE H. unfold get_accounts in H. cbv zeta in H.
  apply rbind_ok in H. destruct H as (_ & _ & H). apply rbind_ok in H. destruct H as (? & _ & H). apply rbind_ok in H. destruct H as (? & _ & H).
  apply rbind_ok in H. destruct H as (cc & CC & _). unfold custom_costs in CC. apply rbind_ok in CC. destruct CC as (ts & TS & CC). apply rbind_ok in CC. destruct CC as (? & _ & CC).
  apply rbind_ok in CC. destruct CC as (y & TWO & _). unfold add_two_variable_terms in TWO. apply rbind_ok in TWO. destruct TWO as (l & RM & _).
  assert (term_factory (ArgTerm (TTwo t)) = Ok (TTwo t, ArgTerm (TTwo t))) as TF.
  { apply C45_factory_object. cbn [proper_term]. unfold two_name. destruct FN as [->| ->]; reflexivity. }
  assert (In (TTwo t) (map fst ts)) as IT.
  { clear - TS I TF. apply rmap_ok in TS. induction TS as [|u w us ws E _ IH]; [destruct I|]. destruct I as [->|I]; [|right; auto]. left. rewrite TF in E. injection E as <-. reflexivity. }
  destruct (rmap_in _ _ _ _ RM IT) as (z & Z). unfold one_two in Z. cbn [one_term_type one_term_function] in Z. rewrite TY in Z. cbn [String.eqb Ascii.eqb Bool.eqb rbind] in Z.
  assert (exists g, two_cost results t g = Ok z) as (g & TC) by (destruct FN as [FN|FN]; rewrite FN in Z; eexists; exact Z).
  unfold two_cost in TC. repeat (apply rbind_ok in TC; destruct TC as (? & _ & TC)). rewrite ID in TC. destruct name; [congruence|discriminate].
Qed.
