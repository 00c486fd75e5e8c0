(** * PropPlotted: what plots write into the results (C65) *)
From Verif Require Import Base Pulp Params Optimizer Types Objectives Emit Prim Extract Pipeline Spec SpecReport SpecRun SpecCompare Totals Returns Plot SpecPlot PropPlot Check SampleSite Certified SampleCompare.
Open Scope Q_scope.
Open Scope string_scope.

(** ** Specification *)
(** 0, 1, 2, ... in a column *)
Definition numbered (n : nat) : list cell := map (fun t => Some (inject_Z (Z.of_nat t))) (seq 0 n).
(** column [new] of the table afterwards is column a minus column b of the table before *)
Definition minus_column (r r' : frame) (new a b : string) : Prop :=
  exists x y, assoc a r = Some x /\ assoc b r = Some y /\
    assoc new r' = Some (map (fun xy => match xy with (Some p, Some q) => Some (p - q) | _ => None end) (combine x y)).
(** the only column called battery-...: what [find_column] looks for *)
Definition the_battery_column (r : frame) (quantity col : string) : Prop :=
  In col (columns r) /\ starts_with "battery-" col = true /\ ends_with ("-" ++ quantity) col = true /\
  forall col', In col' (columns r) -> starts_with "battery-" col' = true -> ends_with ("-" ++ quantity) col' = true -> col' = col.

(** ** Proof *)
Lemma bind_ok {A B} (m : plotting A) (f : A -> plotting B) r r2 b : pbind m f r = (r2, Ok b) -> exists a r1, m r = (r1, Ok a) /\ f a r1 = (r2, Ok b).
Proof. unfold pbind. destruct (m r) as [r1 [a|e]]; [eauto|discriminate]. Qed.
Lemma look_ok n r r1 c : look n r = (r1, Ok c) -> r1 = r /\ assoc n r = Some c.
Proof. unfold look, get_col. destruct (assoc n r); cbn [of_option]; [|discriminate]. intros H. injection H as <- <-. auto. Qed.
Lemma put_ok n c r r1 u : put n c r = (r1, Ok u) -> r1 = set_col r n c.
Proof. unfold put. intros H. now injection H as <- _. Qed.
Lemma draw_ok x y r r1 u : draw x y r = (r1, Ok u) -> r1 = r.
Proof.
  unfold draw. intros H. apply bind_ok in H as (a & r2 & H1 & H). apply look_ok in H1 as (-> & _). apply bind_ok in H as (b & r3 & H2 & H). apply look_ok in H2 as (-> & _).
  unfold pret in H. now injection H as <- _.
Qed.
Lemma difference_ok a b r r1 z : difference a b r = (r1, Ok z) -> r1 = r /\ exists x y, assoc a r = Some x /\ assoc b r = Some y /\ z = zip_cells csub x y.
Proof.
  unfold difference. intros H. apply bind_ok in H as (x & r2 & H1 & H). apply look_ok in H1 as (-> & E1). apply bind_ok in H as (y & r3 & H2 & H). apply look_ok in H2 as (-> & E2).
  unfold pret in H. injection H as <- <-. eauto 8.
Qed.
Lemma number_ok n r r1 u : number_rows n r = (r1, Ok u) -> r1 = set_col r n (row_numbers r).
Proof. unfold number_rows. apply put_ok. Qed.
Lemma find_ok a b r r1 c : find_column a b r = (r1, Ok c) -> r1 = r /\ filter (fun n => starts_with a n && ends_with b n)%bool (columns r) = [c].
Proof. unfold find_column. destruct (filter _ _) as [|x [|y l]]; try discriminate. intros H. injection H as <- <-. auto. Qed.
Lemma round_ok n r r1 u : round_column n r = (r1, Ok u) -> exists c, assoc n r = Some c /\ r1 = set_col r n (map (option_map round4) c).
Proof. unfold round_column. intros H. apply bind_ok in H as (c & r2 & H1 & H). apply look_ok in H1 as (-> & E). apply put_ok in H. eauto. Qed.
Lemma zip_minus x : forall y, zip_cells csub x y = map (fun xy => match xy with (Some p, Some q) => Some (p - q) | _ => None end) (combine x y).
Proof. induction x as [|c x IH]; intros [|d y]; cbn [zip_cells combine map]; auto. now rewrite IH. Qed.
Lemma columns_back r n c x : In x (columns (set_col r n c)) -> x = n \/ In x (columns r).
Proof. destruct (columns_added r n c) as [->| ->]; [auto|]. intros I. apply in_app_iff in I as [I|[<-|[]]]; auto. Qed.

Ltac step H := match type of H with
  | pbind _ _ _ = _ => let a := fresh "a" in let r1 := fresh "r" in let H1 := fresh "E" in apply bind_ok in H as (a & r1 & H1 & H); step H1
  | draw _ _ _ = _ => apply draw_ok in H; subst
  | put _ _ _ = _ => apply put_ok in H; subst
  | number_rows _ _ = _ => apply number_ok in H; subst
  | look _ _ = _ => let E := fresh "L" in apply look_ok in H as (-> & E)
  | difference _ _ _ = _ => let x := fresh "x" in let y := fresh "y" in let X := fresh "X" in let Y := fresh "Y" in apply difference_ok in H as (-> & x & y & X & Y & ->)
  | find_column _ _ _ = _ => let F := fresh "F" in apply find_ok in H as (-> & F)
  end.
Ltac other := repeat rewrite set_col_other by discriminate.
Lemma the_only r r2 quantity col : incl (columns r) (columns r2) -> (forall m, In m (columns r2) -> starts_with "battery-" m = true -> In m (columns r)) ->
  filter (fun m => starts_with "battery-" m && ends_with ("-" ++ quantity) m)%bool (columns r2) = [col] -> the_battery_column r quantity col.
Proof.
  intros IN BK F. assert (forall m, In m (columns r2) -> starts_with "battery-" m = true -> ends_with ("-" ++ quantity) m = true -> m = col) as U.
  { intros m I A B. assert (In m [col]) as J by (rewrite <- F; apply filter_In; split; auto; now rewrite A, B). destruct J as [->|[]]. reflexivity. }
  assert (In col [col]) as J by now left. rewrite <- F in J. apply filter_In in J as (J & P). apply andb_true_iff in P as (A & B). unfold the_battery_column. split; [|splits; auto]. auto.
Qed.
Lemma two_incl r n m c d : incl (columns r) (columns (set_col (set_col r n c) m d)).
Proof. intros x I. now apply columns_set, columns_set. Qed.
Lemma two_back r n m c d x : starts_with "battery-" n = false -> starts_with "battery-" m = false -> In x (columns (set_col (set_col r n c) m d)) -> starts_with "battery-" x = true -> In x (columns r).
Proof. intros N M I S. apply columns_back in I as [->|I]; [congruence|]. apply columns_back in I as [->|I]; [congruence|exact I]. Qed.
Lemma numbers r n : table_with r n -> row_numbers r = numbered n.
Proof. intros T. unfold row_numbers. now rewrite (table_rows _ _ T). Qed.
Lemma start_of x c : starts_with "battery-" x = true -> starts_with "battery-" c = false -> x <> c.
Proof. intros A B ->. congruence. Qed.
(** what the plot of a battery writes: the row numbers, the net import and the net charge *)
Theorem C65_battery_columns : forall r n, table_with r n -> outcome PlotBattery r = Ok tt ->
  let r' := after PlotBattery r in
  assoc "Index" r' = Some (numbered n) /\ minus_column r r' "import-export-balance" "site-import_power_mwh" "site-export_power_mwh" /\
  exists c d, the_battery_column r "electric_charge_mwh" c /\ the_battery_column r "electric_discharge_mwh" d /\ minus_column r r' "net-battery-charge" c d.
Proof.
  intros r n T O. cbv zeta. unfold outcome, after in *. cbn [plot] in *. destruct (plot_battery r) as [r' o] eqn:H. cbn [fst snd] in *. subst o. unfold plot_battery in H.
  repeat step H. rewrite set_col_other in X, Y by discriminate. rewrite zip_minus in *. rewrite (numbers r n T) in *.
  pose proof (the_only r _ "electric_charge_mwh" _ (two_incl r _ _ _ _) (fun m => two_back r "Index" "import-export-balance" _ _ m eq_refl eq_refl) F) as C.
  pose proof (the_only r _ "electric_discharge_mwh" _ (two_incl r _ _ _ _) (fun m => two_back r "Index" "import-export-balance" _ _ m eq_refl eq_refl) F0) as D.
  rewrite !set_col_other in L by (apply start_of; [apply C|reflexivity]). rewrite !set_col_other in L0 by (apply start_of; [apply D|reflexivity]).
  splits.
  - other. now rewrite set_col_same.
  - exists x, y. splits; auto. other. now rewrite set_col_same.
  - exists a2, a4. splits; auto. exists a3, a5. splits; auto. rewrite set_col_same. now rewrite zip_minus.
Qed.
(** the plot of a CHP: the row numbers and the net import *)
Theorem C65_chp_columns : forall r n, table_with r n -> outcome PlotChp r = Ok tt ->
  let r' := after PlotChp r in assoc "Index" r' = Some (numbered n) /\ minus_column r r' "import-export-balance" "site-import_power_mwh" "site-export_power_mwh".
Proof.
  intros r n T O. cbv zeta. unfold outcome, after in *. cbn [plot] in *. destruct (plot_chp r) as [r' o] eqn:H. cbn [fst snd] in *. subst o. unfold plot_chp in H.
  repeat step H. rewrite set_col_other in X, Y by discriminate. rewrite zip_minus in *. rewrite (numbers r n T) in *. splits.
  - other. now rewrite set_col_same.
  - exists x, y. splits; auto. now rewrite set_col_same.
Qed.
Lemma each_round l : forall r r' u, each round_column l r = (r', Ok u) -> forall n,
  (In n l -> exists a, assoc n r = Some a /\ assoc n r' = Some (map (option_map round4) a)) /\ (~ In n l -> assoc n r' = assoc n r).
Proof.
  induction l as [|x l IH]; intros r r' u H n; cbn [each] in H.
  - unfold pret in H. injection H as <- _. split; [intros []|auto].
  - apply bind_ok in H as (v & r1 & H1 & H). apply round_ok in H1 as (c & E & ->). destruct (IH _ _ _ H n) as (A & B). split.
    + intros I. destruct (in_dec string_dec n l) as [J|J].
      * destruct (A J) as (a & Ea & Er). destruct (String.eqb_spec n x) as [->|N].
        -- rewrite set_col_same in Ea. injection Ea as <-. exists c. split; auto. rewrite Er, map_map. f_equal. apply map_ext. intros [q|]; cbn [option_map]; [now rewrite round4_again|reflexivity].
        -- rewrite set_col_other in Ea by auto. eauto.
      * destruct I as [->|I]; [|contradiction]. exists c. split; auto. rewrite (B J). now rewrite set_col_same.
    + intros N. rewrite B by (intros I; apply N; now right). apply set_col_other. intros ->. apply N. now left.
Qed.
(** the plot of a heat pump: the row numbers, and the low temperature columns rounded to the fourth decimal, halves to the even digit *)
Theorem C65_heat_pump_columns : forall r n name, table_with r n -> outcome (PlotHeatPump name) r = Ok tt ->
  let r' := after (PlotHeatPump name) r in assoc "index" r' = Some (numbered n) /\
  forall col, In col (low_temperature_columns name) -> exists a, assoc col r = Some a /\ assoc col r' = Some (map (option_map round4) a).
Proof.
  intros r n name T O. cbv zeta. unfold outcome, after in *. cbn [plot] in *. destruct (plot_heat_pump name r) as [r' o] eqn:H. cbn [fst snd] in *. subst o. unfold plot_heat_pump in H.
  apply bind_ok in H as (? & r1 & H1 & H). apply number_ok in H1. apply bind_ok in H as (? & r2 & H2 & H). apply draw_ok in H2. apply bind_ok in H as (? & r3 & H3 & H). apply draw_ok in H3.
  apply bind_ok in H as (? & r4 & H4 & H). apply bind_ok in H as (? & r5 & H5 & H). apply bind_ok in H as (? & r6 & H6 & H). apply draw_ok in H6. apply draw_ok in H. subst r1 r2 r3 r6 r'.
  pose proof (each_round _ _ _ _ H4) as A. pose proof (each_round _ _ _ _ H5) as B. clear H4 H5.
  assert (forall m, ends_with "-low_temperature_load_mwh" m = true \/ ends_with "-low_temperature_generation_mwh" m = true -> m <> "index") as NI.
  { intros m [E|E] ->; discriminate. }
  assert (forall m, In m (heat_columns_out name) -> m <> "index") as N1.
  { intros m I. apply NI. left. unfold heat_columns_out in I. cbn [In] in I. destruct I as [<-|[<-|[<-|[]]]]; [reflexivity|reflexivity|apply ends_suffix]. }
  assert (forall m, In m heat_columns_in -> m <> "index" /\ ~ In m (heat_columns_out name)) as N2.
  { intros m I. split.
    - apply NI. right. unfold heat_columns_in in I. cbn [In] in I. destruct I as [<-|[<-|[<-|[]]]]; reflexivity.
    - assert (ends_with "-low_temperature_load_mwh" m = false) as E by (unfold heat_columns_in in I; cbn [In] in I; destruct I as [<-|[<-|[<-|[]]]]; reflexivity).
      intros J. unfold heat_columns_out in J. cbn [In] in J. destruct J as [<-|[<-|[<-|[]]]]; [discriminate|discriminate|]. now rewrite ends_suffix in E. }
  split.
  - destruct (B "index") as (_ & B'). rewrite B' by (intros I; now apply N2 in I). destruct (A "index") as (_ & A'). rewrite A' by (intros I; now apply N1 in I). rewrite set_col_same. now rewrite (numbers r n T).
  - intros col I. destruct (in_dec string_dec col heat_columns_in) as [J|J].
    + destruct (N2 col J) as (NX & NO). destruct (proj1 (B col) J) as (a & Ea & Er). rewrite (proj2 (A col) NO), set_col_other in Ea by auto. eauto.
    + assert (In col (heat_columns_out name)) as K.
      { unfold low_temperature_columns, heat_columns_out, heat_columns_in in *. cbn [In] in *. destruct I as [I|[I|[I|I]]]; [now left|now right; left|now right; right; left|]. exfalso. apply J. exact I. }
      destruct (proj1 (A col) K) as (a & Ea & Er). rewrite (proj2 (B col) J). rewrite set_col_other in Ea by auto. eauto.
Qed.
(** and the plot of EVs nothing *)
Theorem C65_evs_columns : forall r assets name, after (PlotEvs assets name) r = r.
Proof.
  intros r assets name. unfold after. cbn [plot]. unfold plot_evs, praise. destruct (negb _); [reflexivity|]. destruct (_ || _)%bool; [reflexivity|]. destruct (filter _ assets) as [|a [|b l]]; [reflexivity| |reflexivity].
  unfold pbind, look, pret. destruct (get_col r _); [|reflexivity]. destruct (get_col r _); reflexivity.
Qed.
(** a battery that charges 1 MWh in the first hour, which is imported on top of the load of 1 MWh, and discharges it in the second *)
Example C65_columns_sample : let r := r_results (h_with 1) in outcome PlotBattery r = Ok tt /\ table_with r 2 /\
  let r' := after PlotBattery r in num r' "Index" 1 == 1 /\ num r' "import-export-balance" 0 == 2 /\ num r' "net-battery-charge" 0 == 1 /\ num r' "net-battery-charge" 1 == -1.
Proof.
  cbv zeta. split; [vm_compute; reflexivity|]. split; [exact (r_table _ _ _ _ _ _ _ _ (proj1 h_with_run))|]. splits; vm_compute; reflexivity.
Qed.
