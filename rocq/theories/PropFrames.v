(** * PropFrames: what [epl.check_results] returns (C88) *)
From Verif Require Import Base Pulp Params Optimizer Types Objectives Constraints Extract CheckFrames Pipeline Emit Prim Spec SpecReport SpecRun SpecNames SpecTotals SpecOpt Layout Rows Sem SemEv SemCells SemRows SemTable SemResults RunFacts Totals Totals2 Returns RowNames PropSite PropResults PropChecks SampleSite SpecCompare SampleFunctions SampleCompare SpecWithin SemWithin PropWithin.
Open Scope Q_scope.
Open Scope string_scope.

Lemma forallb_map {A B} (f : A -> B) (p : B -> bool) l : forallb p (map f l) = forallb (fun x => p (f x)) l.
Proof. induction l as [|x l IH]; [reflexivity|]. cbn. now rewrite IH. Qed.
Lemma get_own (R : frame) n : In n (columns R) -> exists cells, get_col R n = Ok cells.
Proof.
  intros I. unfold get_col. destruct (assoc n R) as [cells|] eqn:E; [exists cells; reflexivity|]. exfalso. unfold columns in I. induction R as [|[m x] R IH]; [destruct I|].
  cbn [assoc fst snd] in E. destruct (n =? m) eqn:S; [discriminate|]. cbn [map In fst] in I. destruct I as [->|I]; [rewrite String.eqb_refl in S; discriminate|auto].
Qed.

(** ** The mapper only adds columns: it does not change whether the checks pass *)
(** every column the mapper names for a heat check is in the table *)
Definition mapper_fits (R : frame) (m : mapper) : Prop :=
  m = [] \/ forall q, In q ["high"; "low"] -> forall w, In w ["generation_mwh"; "load_mwh"] ->
    exists l, assoc (q ++ "_temperature_" ++ w) m = Some l /\ forall n, In n l -> In n (columns R).

Lemma copy_ok R l : forall start, (forall n, In n l -> In n (columns R)) -> exists f, copy_cols R (map (fun c => (c, c)) l) start = Ok f.
Proof.
  unfold copy_cols. induction l as [|n l IH]; intros start H; [eexists; reflexivity|]. cbn [map fold_left fst snd rbind].
  destruct (get_own R n) as (cells & E); [apply H; now left|]. rewrite E. cbn [rbind]. apply IH. intros k I. apply H. now right.
Qed.
Lemma electricity_agrees R : match electricity_frame R with Ok _ => Ok tt | Err e => Err e end = check_electricity_balance R.
Proof.
  unfold electricity_frame, check_electricity_balance.
  do 6 (match goal with |- context [rbind (get_col R ?n) _] => destruct (get_col R n) as [?|]; [|reflexivity]; cbn [rbind] end).
  cbv zeta. do 2 (match goal with |- context [rbind (get_col R ?n) _] => destruct (get_col R n) as [?|]; [|reflexivity]; cbn [rbind] end).
  rewrite forallb_map. unfold rassert. match goal with |- context [forallb ?f ?l] => destruct (forallb f l) end; reflexivity.
Qed.
Lemma heat_agrees R m q g l : g = "total-" ++ q ++ "_temperature_generation_mwh" -> l = "total-" ++ q ++ "_temperature_load_mwh" -> In q ["high"; "low"] -> mapper_fits R m ->
  match heat_frame R m q with Ok _ => Ok tt | Err e => Err e end = check_heat_balance R g l.
Proof.
  intros -> -> Iq F. unfold heat_frame, check_heat_balance. cbv zeta.
  do 2 (match goal with |- context [rbind (get_col R ?n) _] => destruct (get_col R n) as [?|]; [|reflexivity]; cbn [rbind] end).
  match goal with |- context [rbind (match m with [] => Ok ?s | _ :: _ => _ end) _] => assert (exists f, match m with [] => Ok s | _ :: _ =>
      rbind (of_option KeyErr (assoc (q ++ "_temperature_generation_mwh") m)) (fun g => rbind (copy_cols R (map (fun c => (c, c)) g) s) (fun f => rbind (of_option KeyErr (assoc (q ++ "_temperature_load_mwh") m)) (fun l => copy_cols R (map (fun c => (c, c)) l) f))) end = Ok f) as (f & ->) end.
  { destruct F as [->|F]; [eexists; reflexivity|]. destruct m as [|p m']; [eexists; reflexivity|]. set (m := p :: m') in *.
    destruct (F q Iq "generation_mwh" ltac:(cbn; tauto)) as (lg & E1 & C1). destruct (F q Iq "load_mwh" ltac:(cbn; tauto)) as (ll & E2 & C2).
    change ("_temperature_" ++ "generation_mwh") with "_temperature_generation_mwh" in E1. change ("_temperature_" ++ "load_mwh") with "_temperature_load_mwh" in E2. rewrite E1. cbn [of_option rbind].
    match goal with |- context [copy_cols R (map _ lg) ?s] => destruct (copy_ok R lg s C1) as (f1 & ->) end. cbn [rbind]. rewrite E2. cbn [of_option rbind]. exact (copy_ok R ll f1 C2). }
  cbn [rbind]. rewrite forallb_map. unfold rassert. match goal with |- context [forallb ?f ?l] => destruct (forallb f l) end; reflexivity.
Qed.
(** What is returned aside, the function is the check that every optimization with a feasible result has already passed. *)
Theorem C88_same_check (R : frame) m valve : mapper_fits R m ->
  match check_results_frames R m valve with Ok _ => Ok tt | Err e => Err e end = check_results R valve.
Proof.
  intros F. unfold check_results_frames, check_results. rewrite <- (electricity_agrees R), <- (heat_agrees R m "high" "total-high_temperature_generation_mwh" "total-high_temperature_load_mwh" eq_refl eq_refl ltac:(cbn; tauto) F), <- (heat_agrees R m "low" "total-low_temperature_generation_mwh" "total-low_temperature_load_mwh" eq_refl eq_refl ltac:(cbn; tauto) F).
  destruct (electricity_frame R) as [e|]; [|reflexivity]. cbn [rbind]. destruct (heat_frame R m "high") as [h|]; [|reflexivity]. cbn [rbind]. destruct (heat_frame R m "low") as [l|]; [|reflexivity]. cbn [rbind].
  match goal with |- match rbind ?x _ with _ => _ end = ?y => change y with x; destruct x as [[]|]; reflexivity end.
Qed.

(** ** A feasible result always passes *)
Lemma no_valve R : check_results R true = Ok tt -> check_results R false = Ok tt.
Proof.
  intros H. unfold check_results in *. destruct (check_electricity_balance R) as [[]|]; [|discriminate]. cbn [rbind] in *.
  destruct (check_heat_balance R "total-high_temperature_generation_mwh" "total-high_temperature_load_mwh") as [[]|]; [|discriminate]. cbn [rbind] in *.
  destruct (check_heat_balance R "total-low_temperature_generation_mwh" "total-low_temperature_load_mwh") as [[]|]; [|discriminate]. reflexivity.
Qed.
(** Whatever the solver, [epl.check_results(simulation.results)] returns its three frames for a feasible simulation, and so it
    does with [check_valve] where the site has a valve. *)
Theorem C88_never_raises slv base c assets cons obj fl r : optimize slv base c assets cons obj fl = Ok r -> r_feasible r = true ->
  forall valve, valve = false \/ (exists n, In (AValve n) assets) -> exists k, check_results_frames (r_results r) [] valve = Ok k.
Proof.
  intros H FE valve V. pose proof (checked _ _ _ _ _ _ _ _ H FE) as K. pose proof (C88_same_check (r_results r) [] valve (or_introl eq_refl)) as S.
  assert (check_results (r_results r) valve = Ok tt) as E.
  { destruct V as [->|(n & I)].
    - destruct (existsb is_valve assets); [now apply no_valve|exact K].
    - assert (existsb is_valve assets = true) as X by (apply existsb_exists; exists (AValve n); split; [exact I|reflexivity]). rewrite X in K. destruct valve; [exact K|now apply no_valve]. }
  rewrite E in S. destruct (check_results_frames (r_results r) [] valve) as [k|]; [exists k; reflexivity|discriminate].
Qed.

Lemma set_col_columns n0 cells R n : In n (columns R) -> In n (columns (set_col R n0 cells)).
Proof.
  unfold columns. induction R as [|[m x] R IH]; intros I; [destruct I|]. cbn [set_col]. destruct (n0 =? m) eqn:E; [exact I|]. cbn [map fst In] in *. destruct I as [->|I]; [now left|right; auto].
Qed.
Lemma mapper_inv l : forall r m, (forall q ns, assoc q m = Some ns -> forall n, In n ns -> In n (columns r)) ->
  let rm := fold_left mapper_step l (r, m) in
  (forall n, In n (columns r) -> In n (columns (fst rm))) /\ (forall q ns, assoc q (snd rm) = Some ns -> forall n, In n ns -> In n (columns (fst rm))) /\
  map fst (snd rm) = (map fst m ++ l)%list /\ fst rm = fold_left add_total l r.
Proof.
  induction l as [|q0 l IH]; intros r m H; cbv zeta; [cbn [fold_left fst snd]; rewrite app_nil_r; auto|]. cbn [fold_left]. unfold mapper_step at 2 4 6 8. cbn [fst snd].
  destruct (IH (add_total r q0) (m ++ [(q0, filter (is_quantity_col q0) (columns r))])%list) as (A & B & C & D).
  - intros q ns E n I. apply set_col_columns. assert (forall (m : mapper) q ns, assoc q (m ++ [(q0, filter (is_quantity_col q0) (columns r))])%list = Some ns -> assoc q m = Some ns \/ ns = filter (is_quantity_col q0) (columns r)) as K.
    { clear. induction m as [|[k v] m IH]; intros q ns E; cbn [app assoc] in E.
      - destruct (q =? q0); [right; congruence|discriminate].
      - cbn [assoc]. destruct (q =? k); [left; exact E|exact (IH _ _ E)]. }
    destruct (K m q ns E) as [E'| ->]; [exact (H _ _ E' _ I)|]. apply filter_In in I. apply I.
  - splits; auto.
    + intros n I. apply A. now apply set_col_columns.
    + rewrite C, map_app, <- app_assoc. reflexivity.
Qed.
(** Every column the mapper of [add_totals] names is in the table it goes with *)
Theorem C88_mapper_fits lp R : add_totals lp = Ok R -> mapper_fits R (total_mapper lp).
Proof.
  intros H. right. intros q Iq w Iw. destruct (mapper_inv quantities lp [] ltac:(intros ? ? E; discriminate E)) as (_ & B & C & D). unfold add_totals in H. cbv zeta in H. rewrite <- D in H. binds H. injection H as <-.
  unfold total_mapper. cbv zeta. set (rm := fold_left mapper_step quantities (lp, [])) in *.
  assert (In (q ++ "_temperature_" ++ w) quantities) as IQ by (cbn [In] in Iq, Iw; destruct Iq as [<-|[<-|[]]], Iw as [<-|[<-|[]]]; cbn; tauto).
  assert (forall (m m' : mapper) x, In x (map fst m) -> exists l, assoc x (m ++ m')%list = Some l /\ assoc x m = Some l) as AK.
  { clear. induction m as [|[k v] m IH]; intros m' x I; [destruct I|]. cbn [app assoc]. destruct (x =? k) eqn:E; [exists v; auto|]. destruct I as [J|I]; [cbn [fst] in J; rewrite J, String.eqb_refl in E; discriminate|auto]. }
  destruct (AK (snd rm) [("spills", filter is_spill_total_col (columns (fst rm))); ("losses", filter is_loss_col (columns (set_col (fst rm) "total-spills_mwh" (sum_cols (fst rm) is_spill_total_col))))] (q ++ "_temperature_" ++ w)) as (l & E1 & E2); [rewrite C; exact IQ|].
  exists l. split; [exact E1|]. intros n I. do 3 apply set_col_columns. exact (B _ _ E2 n I).
Qed.

(** ** What is in the frames *)
Lemma mapped_all {A} (f : A -> bool) l : forallb (fun b => b) (map f l) = true -> map f l = repeat true (List.length l).
Proof. induction l as [|x l IH]; [reflexivity|]. cbn. rewrite andb_true_iff. intros [-> H]. now rewrite IH. Qed.
Lemma zip_length f a b n : List.length a = n -> List.length b = n -> List.length (zip_cells f a b) = n.
Proof. revert b n. induction a as [|x a IH]; intros [|y b] n A B; cbn in *; try congruence. destruct n; [discriminate|]. f_equal. apply IH; congruence. Qed.
Lemma num_get (R : table) col cells t : get_col R col = Ok cells -> num R col t = match nth t cells None with Some q => q | None => 0 end.
Proof.
  unfold get_col. intros H. unfold num. change (assoc col R) with (@assoc (list cell) col R). destruct (@assoc (list cell) col R) as [y|]; [|discriminate]. cbn [of_option] in H. injection H as ->. reflexivity.
Qed.
(** the sum over the columns whose name contains "final_soc" *)
Definition soc_columns (R : table) : table := filter (fun nc => contains "final_soc" (fst nc)) R.
Definition soc_sum (R : table) (t : nat) : Q := Qsum (map (fun nc => match nth t (snd nc) None with Some q => q | None => 0 end) (soc_columns R)).

(** The electricity frame of any table with [n] rows that passes: what goes in and out and what storage gives up, the columns
    they are made of, and "balance" true throughout. *)
Theorem C88_electricity_frame (R : table) m valve n k : check_results_frames R m valve = Ok k -> (forall col cells, In (col, cells) R -> List.length cells = n) ->
  let E := cf_columns (ck_electricity k) in
  cf_balance (ck_electricity k) = repeat true n /\
  (forall col cells, In (col, cells) E -> List.length cells = n) /\
  map fst E = ["input"; "accumulation"; "output"; "import"; "generation"; "export"; "load"; "charge"; "discharge"; "loss"; "spills"; "soc"] /\
  forall t, (t < n)%nat ->
  num E "input" t == num R "site-import_power_mwh" t + num R "total-electric_generation_mwh" t /\
  num E "output" t == num R "site-export_power_mwh" t + num R "total-electric_load_mwh" t /\
  num E "accumulation" t == num R "total-electric_discharge_mwh" t - num R "total-electric_charge_mwh" t /\
  Qabs (num E "input" t + num E "accumulation" t - num E "output" t) < 1#1000 /\
  num E "import" t = num R "site-import_power_mwh" t /\ num E "generation" t = num R "total-electric_generation_mwh" t /\
  num E "export" t = num R "site-export_power_mwh" t /\ num E "load" t = num R "total-electric_load_mwh" t /\
  num E "charge" t = num R "total-electric_charge_mwh" t /\ num E "discharge" t = num R "total-electric_discharge_mwh" t /\
  num E "loss" t = num R "total-electric_loss_mwh" t /\ num E "spills" t = num R "total-spills_mwh" t /\
  num E "soc" t = soc_sum R t.
Proof.
  intros H LN. cbv zeta. unfold check_results_frames in H. rewrite rbind_ok in H. destruct H as (e & HE & H). rewrite rbind_ok in H. destruct H as (h & _ & H). rewrite rbind_ok in H. destruct H as (l & _ & H).
  rewrite rbind_ok in H. destruct H as (u & _ & H). injection H as <-. cbn [ck_electricity].
  unfold electricity_frame in HE. cbv zeta in HE. binds HE.
  pose proof (rassert_ok _ _ K7) as BA. injection HE as <-. cbn [cf_columns cf_balance].
  assert (forall col cells, get_col R col = Ok cells -> List.length cells = n) as LC by (intros col cells G; exact (LN _ _ (get_in _ _ _ G))).
  assert (n_rows R = n) as NR. { destruct R as [|[c0 x0] R']; [discriminate|]. apply (LN c0). now left. }
  assert (List.length (sum_cols R is_soc_col) = n) as LS by (unfold sum_cols; rewrite map_length, seq_length; exact NR).
  pose proof (LC _ _ K) as L1. pose proof (LC _ _ K0) as L2. pose proof (LC _ _ K1) as L3. pose proof (LC _ _ K2) as L4. pose proof (LC _ _ K3) as L5. pose proof (LC _ _ K4) as L6. pose proof (LC _ _ K5) as L7. pose proof (LC _ _ K6) as L8.
  pose proof (zip_length cadd _ _ _ L1 L2) as Z1. pose proof (zip_length cadd _ _ _ L3 L4) as Z2. pose proof (zip_length csub _ _ _ L5 L6) as Z3.
  splits.
  - rewrite (mapped_all _ _ BA). f_equal. apply zip_length; [apply zip_length|]; assumption.
  - intros col cells I. cbn [In] in I. repeat (destruct I as [I|I]; [injection I as _ <-; assumption|]). destruct I.
  - reflexivity.
  - intros t Ht. rewrite forallb_map, forallb_forall in BA.
    assert (forall cells : list cell, List.length cells = n -> exists x, nth_error cells t = Some x) as AT by (intros cells L; apply nth_error_lt; rewrite L; exact Ht).
    destruct (AT _ L1) as (x1 & X1), (AT _ L2) as (x2 & X2), (AT _ L3) as (x3 & X3), (AT _ L4) as (x4 & X4), (AT _ L5) as (x5 & X5), (AT _ L6) as (x6 & X6).
    pose proof (zip_at cadd _ _ _ _ _ X1 X2) as Y1. pose proof (zip_at cadd _ _ _ _ _ X3 X4) as Y2. pose proof (zip_at csub _ _ _ _ _ X5 X6) as Y3.
    pose proof (zip_at csub _ _ _ _ _ (zip_at cadd _ _ _ _ _ Y1 Y3) Y2) as Y. specialize (BA _ (nth_error_In _ _ Y)).
    destruct x1 as [x1|], x2 as [x2|], x3 as [x3|], x4 as [x4|], x5 as [x5|], x6 as [x6|]; try discriminate. cbn [csub cadd] in BA, Y1, Y2, Y3. apply small_abs in BA.
    rewrite (get_num _ _ _ _ _ K X1), (get_num _ _ _ _ _ K0 X2), (get_num _ _ _ _ _ K1 X3), (get_num _ _ _ _ _ K2 X4), (get_num _ _ _ _ _ K3 X5), (get_num _ _ _ _ _ K4 X6).
    rewrite (num_get _ _ _ t K5), (num_get _ _ _ t K6).
    unfold num. cbn [assoc String.eqb Ascii.eqb Bool.eqb]. rewrite (nth_error_nth _ _ None Y1), (nth_error_nth _ _ None Y2), (nth_error_nth _ _ None Y3), (nth_error_nth _ _ None X1), (nth_error_nth _ _ None X2), (nth_error_nth _ _ None X3), (nth_error_nth _ _ None X4), (nth_error_nth _ _ None X5), (nth_error_nth _ _ None X6).
    splits; try reflexivity; [exact BA|].
    unfold sum_cols. rewrite NR. erewrite nth_error_nth; [|rewrite nth_error_map, (nth_error_nth' _ 0%nat) by (now rewrite seq_length); rewrite seq_nth by exact Ht; reflexivity]. reflexivity.
Qed.
(** The heat frames: what is made and what is used, which agree to 1e-4 *)
Theorem C88_heat_frames (R : table) m valve n k : check_results_frames R m valve = Ok k -> (forall col cells, In (col, cells) R -> List.length cells = n) ->
  forall q F, q = "high" /\ F = ck_high k \/ q = "low" /\ F = ck_low k ->
  cf_balance F = repeat true n /\
  (m = [] -> map fst (cf_columns F) = ["in"; "out"]) /\
  forall t, (t < n)%nat ->
  Qabs (num R ("total-" ++ q ++ "_temperature_generation_mwh") t - num R ("total-" ++ q ++ "_temperature_load_mwh") t) < 1#10000 /\
  (m = [] -> num (cf_columns F) "in" t = num R ("total-" ++ q ++ "_temperature_generation_mwh") t /\
             num (cf_columns F) "out" t = num R ("total-" ++ q ++ "_temperature_load_mwh") t).
Proof.
  intros H LN q F QF. unfold check_results_frames in H. rewrite rbind_ok in H. destruct H as (e & _ & H). rewrite rbind_ok in H. destruct H as (h & HH & H). rewrite rbind_ok in H. destruct H as (l & HL & H).
  rewrite rbind_ok in H. destruct H as (u & _ & H). injection H as <-. cbn [ck_high ck_low] in QF.
  assert (heat_frame R m q = Ok F) as HF by (destruct QF as [[-> ->]|[-> ->]]; assumption). clear HH HL QF.
  unfold heat_frame in HF. cbv zeta in HF. binds HF. pose proof (rassert_ok _ _ K2) as BA. injection HF as <-. cbn [cf_columns cf_balance].
  pose proof (LN _ _ (get_in _ _ _ K)) as L1. pose proof (LN _ _ (get_in _ _ _ K0)) as L2. splits.
  - rewrite (mapped_all _ _ BA). f_equal. apply zip_length; assumption.
  - intros ->. injection K1 as <-. reflexivity.
  - intros t Ht. rewrite forallb_map, forallb_forall in BA.
    destruct (nth_error_lt r t ltac:(change (t < @List.length (option Q) r)%nat; rewrite L1; exact Ht)) as (x & X), (nth_error_lt r0 t ltac:(change (t < @List.length (option Q) r0)%nat; rewrite L2; exact Ht)) as (y & Y).
    specialize (BA _ (nth_error_In _ _ (zip_at csub _ _ _ _ _ X Y))). destruct x as [x|], y as [y|]; try discriminate. cbn [csub] in BA. apply small_abs in BA.
    rewrite (get_num _ _ _ _ _ K X), (get_num _ _ _ _ _ K0 Y). split; [exact BA|]. intros ->. injection K1 as <-. unfold num. cbn [assoc String.eqb Ascii.eqb Bool.eqb]. rewrite (nth_error_nth _ _ None X), (nth_error_nth _ _ None Y). split; reflexivity.
Qed.

(** ** What is in them for a simulation *)
(** "final_soc" is not part of the names the user gave *)
Definition soc_free (a : asset) : Prop :=
  contains "final_soc" (asset_name a) = false /\
  match a with
  | AEVs c => (forall cc, In cc (parts c) -> contains "final_soc" (cg_name cc) = false) /\ (forall ec, In ec (ev_event_cfgs c) -> contains "final_soc" (ce_name ec) = false)
  | _ => True
  end.
(** the states of charge an asset reports at the end of an interval: the charge events of EVs, nothing else (the charge
    of a battery is in a column of another name) *)
Definition r_socs (r : sim_result) (t : nat) (a : asset) : Q :=
  match a with
  | AEVs c => Qsum (map (fun e => rep_event_soc r c e "final_soc_mwh" t) (seq 0 (List.length (ev_event_cfgs c))))
  | _ => 0
  end.

Lemma soc_column x a : contains "final_soc" (column x a) = (contains "final_soc" x || contains "final_soc" a)%bool.
Proof. unfold column. apply dash_split; [discriminate|reflexivity]. Qed.
Lemma soc_event x e : contains "final_soc" x = false -> contains "final_soc" (column (column x "charge-event") (show e)) = false.
Proof. intros H. rewrite !soc_column, H. cbn [orb]. rewrite (digits_free "inal_soc" "f" eq_refl eq_refl (show e) (show_digits e)). reflexivity. Qed.
Lemma soc_site c d t : no_data_with "final_soc" c -> cells_sum is_soc_col (site_cells c d t) == 0.
Proof.
  intros ND. apply cells_sum_none. intros n oq J. unfold is_soc_col. unfold site_cells in J. destruct J as [J|[J|J]]; try (injection J as <- _; reflexivity).
  apply in_map_iff in J. destruct J as ([m l] & E & J). injection E as <- _. cbn [fst]. change (String "s" (String "i" (String "t" (String "e" (String "-" m))))) with (column "site" m). rewrite soc_column. cbn [orb]. unfold id_columns in J. apply in_app_iff in J. destruct J as [J|J]; [|apply (ND _ J)].
  cbn [In] in J. repeat (destruct J as [J|J]; [injection J as <- _; reflexivity|]). destruct J.
Qed.
Definition socs (d : dispatch) (t : nat) (a : asset) : Q :=
  match a with AEVs c => Qsum (map (fun e => d_ev_soc1 d (ev_name c) e t) (seq 0 (List.length (ev_event_cfgs c)))) | _ => 0 end.
Ltac no_soc := repeat match goal with H : _ \/ _ |- _ => destruct H as [H|H] | H : (_, _) = (_, _) |- _ => injection H as <- _ | H : False |- _ => destruct H end.
Lemma soc_asset d t a : soc_free a -> cells_sum is_soc_col (asset_cells d t a) == socs d t a.
Proof.
  intros [NM SF]. destruct a as [b|b|b|b|b|b|m|m]; cbn [asset_name] in NM.
  4:{ destruct SF as [SP SE]. cbn [asset_cells socs]. unfold ev_main_cells, ev_spill_columns. rewrite !cells_sum_app, !cells_sum_flat.
      rewrite (Qsum_map_zero _ (enumerate (ev_chargers b))), (Qsum_map_zero _ (enumerate (ev_event_cfgs b))), (Qsum_map_zero _ (ev_spill_chargers b)).
      - unfold ev_soc_report. cbv zeta. rewrite cells_sum_app. rewrite (cells_sum_none _ (map _ _)).
        2:{ intros n oq J. apply in_map_iff in J. destruct J as (e & J & _). injection J as <- _. unfold is_soc_col. rewrite soc_column, soc_event by exact NM. reflexivity. }
        unfold cells_sum. rewrite map_map. rewrite !Qplus_0_l, Qplus_0_r. apply Qsum_map_ext. intros e J. unfold selected. cbn [fst snd]. unfold is_soc_col. rewrite soc_column. replace (contains "final_soc" "final_soc_mwh") with true by reflexivity. rewrite orb_true_r. reflexivity.
      - intros cc J. apply cells_sum_none. intros n oq K. unfold is_soc_col. cbn [ev_spill_report In] in K. assert (contains "final_soc" (column (ev_name b) (cg_name cc)) = false) as X by (rewrite soc_column, NM, (SP cc) by (apply in_app_iff; now right); reflexivity).
        no_soc; rewrite soc_column, X; reflexivity.
      - intros [e ec] J. apply enumerate_in, nth_error_In in J. apply cells_sum_none. intros n oq K. unfold is_soc_col. unfold ev_event_report in K. cbv zeta in K. cbn [fst snd In] in K. assert (contains "final_soc" (column (ev_name b) (ce_name ec)) = false) as X by (rewrite soc_column, NM, (SE ec J); reflexivity).
        no_soc; rewrite soc_column, X; reflexivity.
      - intros [k cc] J. apply enumerate_in, nth_error_In in J. apply cells_sum_none. intros n oq K. unfold is_soc_col. unfold ev_charger_report in K. cbv zeta in K. cbn [fst snd In] in K. assert (contains "final_soc" (column (ev_name b) (cg_name cc)) = false) as X by (rewrite soc_column, NM, (SP cc) by (apply in_app_iff; now left); reflexivity).
        no_soc; rewrite soc_column, X; reflexivity. }
  all: cbn [socs]; apply cells_sum_none; intros n oq J; unfold is_soc_col; cbn [asset_cells asset_name In] in J; no_soc; rewrite soc_column, NM; reflexivity.
Qed.
Lemma socs_run slv base c assets cons obj fl r : feasible_run slv base c assets cons obj fl r -> Forall soc_free assets -> no_data_with "final_soc" c ->
  forall t, (t < n_intervals c)%nat -> soc_sum (r_results r) t == total (r_socs r t) assets.
Proof.
  intros FR SF ND t Ht. destruct (run_ctx _ _ _ _ _ _ _ _ FR) as (d & lp & rows & imp & exp & FA & RW & TB & E & NDR & NR). rewrite Forall_forall in SF.
  destruct (col_sum_at c assets d rows lp RW TB is_soc_col t Ht) as (x & X1 & X2).
  { intros n J. destruct (none_all _ _ _ _ _ J) as (a & Ia & K). destruct (SF a Ia) as [NM PF]. destruct (none_cells_of _ _ _ _ K) as (y & attr & -> & At & W). unfold is_soc_col. rewrite soc_column.
    assert (contains "final_soc" attr = false) as -> by (cbn [In] in At; destruct At as [<-|[<-|[]]]; reflexivity). rewrite orb_false_r.
    destruct a as [b|b|b|b|b|b|m|m]; try (rewrite W; exact NM). destruct W as (cc & Ic & ->). rewrite soc_column, (proj1 PF cc Ic). cbn [asset_name] in NM. rewrite NM. reflexivity. }
  assert (soc_sum (r_results r) t = x) as ->.
  { unfold soc_sum, soc_columns. rewrite E, filter_app. replace (filter (fun nc : string * list (option Q) => contains "final_soc" (fst nc)) (totals lp imp exp)) with (@nil (string * list (option Q))) by reflexivity. rewrite app_nil_r.
    unfold sum_cols in X1. rewrite NR, nth_error_map, (nth_error_nth' _ 0%nat) in X1 by (now rewrite seq_length). rewrite seq_nth in X1 by exact Ht. cbn [option_map Nat.add] in X1. injection X1 as X1. exact X1. }
  rewrite X2. rewrite (cells_sum_assets is_soc_col c assets d t (socs d t)); [|now apply soc_site|intros a Ia; apply soc_asset; auto].
  unfold total. apply Qsum_map_ext. intros a Ia. destruct a as [b|b|b|b|b|b|m|m]; try reflexivity. cbn [socs r_socs]. apply Qsum_map_ext. intros e J. apply in_seq in J. symmetry. apply (soc_reported r c assets fl d FA b e t Ia Ht). lia.
Qed.

(** For the result of a simulation the frames are the site's balances, which hold exactly; the losses, spills and states of charge
    are those of the equipment (where the names given do not interfere). *)
Theorem C88_simulation slv base c assets cons obj fl r : feasible_run slv base c assets cons obj fl r -> ordinary_names c assets ->
  exists k, check_results_frames (r_results r) [] false = Ok k /\ forall t, (t < n_intervals c)%nat ->
  let e x := num (cf_columns (ck_electricity k)) x t in
  let h x := num (cf_columns (ck_high k)) x t in
  let l x := num (cf_columns (ck_low k)) x t in
  let own q := data (q (sc_idata c)) t in
  e "input" == r_import r t + total (r_elec_gen r t) assets /\
  e "output" == r_export r t + (own id_electric_load_mwh + total (r_elec_load r t) assets) /\
  e "accumulation" == total (r_discharge r t) assets - total (r_charge r t) assets /\
  e "input" + e "accumulation" == e "output" /\
  h "in" == total (r_ht_gen r t) assets /\ h "out" == own id_high_temperature_load_mwh + total (r_ht_load r t) assets /\ h "in" == h "out" /\
  l "in" == own id_low_temperature_generation_mwh + total (r_lt_gen r t) assets /\
  l "out" == own id_low_temperature_load_mwh + total (r_lt_load r t) assets /\ l "in" == l "out" /\
  (Forall ordinary_loss assets -> no_data_with "electric_loss_mwh" c -> e "loss" == total (r_lost r t) assets) /\
  (Forall ordinary_spill assets -> no_data_with "spill" c -> e "spills" == total (r_ev_spilled r t) assets) /\
  (Forall soc_free assets -> no_data_with "final_soc" c -> e "soc" == total (r_socs r t) assets).
Proof.
  intros FR ON. destruct (C88_never_raises slv base c assets cons obj fl r (fr_returns _ _ _ _ _ _ _ _ FR) (fr_feasible _ _ _ _ _ _ _ _ FR) false (or_introl eq_refl)) as (k & K). exists k. split; [exact K|].
  destruct (run_ctx _ _ _ _ _ _ _ _ FR) as (d & lp & rows & imp & exp & FA & _). assert (forall col cells, In (col, cells) (r_results r) -> List.length cells = n_intervals c) as LN by apply (fa_reports _ _ _ _ _ FA).
  destruct (C88_electricity_frame _ _ _ _ _ K LN) as (_ & _ & _ & EL). destruct (C88_heat_frames _ _ _ _ _ K LN "high" (ck_high k) (or_introl (conj eq_refl eq_refl))) as (_ & _ & HT).
  destruct (C88_heat_frames _ _ _ _ _ K LN "low" (ck_low k) (or_intror (conj eq_refl eq_refl))) as (_ & _ & LT).
  intros t Ht. cbv zeta. destruct (EL t Ht) as (E1 & E2 & E3 & _ & _ & _ & _ & _ & _ & _ & E4 & E5 & E6). destruct (HT t Ht) as [_ H2]. destruct (H2 eq_refl) as [H3 H4]. destruct (LT t Ht) as [_ L2]. destruct (L2 eq_refl) as [L3 L4].
  pose proof (C38_total_columns _ _ _ _ _ _ _ _ FR ON t Ht) as C. cbv zeta in C. destruct C as (C1 & C2 & C3 & C4 & C5 & C6 & _ & C8 & C9).
  pose proof (C07_electricity_balance _ _ _ _ _ _ _ _ FR t Ht) as B7. pose proof (C08_high_temperature_balance _ _ _ _ _ _ _ _ FR t Ht) as B8. pose proof (C09_low_temperature_balance _ _ _ _ _ _ _ _ FR t Ht) as B9.
  change ("total-" ++ "electric_generation_mwh") with "total-electric_generation_mwh" in C1. change ("total-" ++ "electric_load_mwh") with "total-electric_load_mwh" in C2.
  change ("total-" ++ "electric_charge_mwh") with "total-electric_charge_mwh" in C8. change ("total-" ++ "electric_discharge_mwh") with "total-electric_discharge_mwh" in C9.
  change ("total-" ++ "high" ++ "_temperature_generation_mwh") with ("total-" ++ "high_temperature_generation_mwh") in H3. change ("total-" ++ "high" ++ "_temperature_load_mwh") with ("total-" ++ "high_temperature_load_mwh") in H4.
  change ("total-" ++ "low" ++ "_temperature_generation_mwh") with ("total-" ++ "low_temperature_generation_mwh") in L3. change ("total-" ++ "low" ++ "_temperature_load_mwh") with ("total-" ++ "low_temperature_load_mwh") in L4.
  rewrite C1 in E1. rewrite C2 in E2. rewrite C8, C9 in E3.
  change (num (r_results r) "site-import_power_mwh" t) with (r_import r t) in E1. change (num (r_results r) "site-export_power_mwh" t) with (r_export r t) in E2.
  rewrite E6, E5, E4, H3, H4, L3, L4. splits; auto.
  - rewrite E1, E3, E2. lra.
  - rewrite C3, C5. lra.
  - rewrite C4, C6. lra.
  - intros OL ND. exact (C38_loss_column _ _ _ _ _ _ _ _ FR OL ND t Ht).
  - intros OS ND. exact (C38_spill_column _ _ _ _ _ _ _ _ FR OS ND t Ht).
  - intros SF ND. exact (socs_run _ _ _ _ _ _ _ _ FR SF ND t Ht).
Qed.

(** ** With the mapper, as an optimization calls it *)
Lemma set_col_same n x R : assoc n (set_col R n x) = Some x.
Proof. induction R as [|[m y] R IH]; cbn [set_col assoc]; [now rewrite String.eqb_refl|]. destruct (n =? m) eqn:E; cbn [assoc]; rewrite E; [reflexivity|exact IH]. Qed.
Lemma set_col_differs n m x R : n <> m -> assoc n (set_col R m x) = assoc n R.
Proof.
  intros N. induction R as [|[k y] R IH]; cbn [set_col assoc]; [now rewrite (proj2 (String.eqb_neq n m) N)|].
  destruct (m =? k) eqn:E; cbn [assoc]; [|now rewrite IH]. apply String.eqb_eq in E. subst k. now rewrite (proj2 (String.eqb_neq n m) N).
Qed.
Lemma copied R l : forall start f, copy_cols R (map (fun c => (c, c)) l) start = Ok f ->
  forall n, (In n l \/ assoc n start = assoc n R) -> assoc n f = assoc n R.
Proof.
  unfold copy_cols. induction l as [|m l IH]; intros start f H n I; cbn [map fold_left fst snd rbind] in H; [injection H as <-; destruct I as [[]|I]; exact I|].
  unfold get_col in H. destruct (assoc m R) as [cells|] eqn:E; cbn [of_option rbind] in H.
  - apply (IH _ _ H n). destruct (string_dec n m) as [->|N]; [right; rewrite set_col_same; now symmetry|]. destruct I as [[<-|I]|I]; [congruence|now left|]. right. rewrite set_col_differs by exact N. exact I.
  - exfalso. clear -H. assert (forall l e, fold_left (fun (acc : res frame) (no : string * string) => rbind acc (fun f => rbind (get_col R (snd no)) (fun cells => Ok (set_col f (fst no) cells)))) (map (fun c => (c, c)) l) (Err e) = Err e) as K by (clear; induction l as [|x l IH]; intros e; [reflexivity|cbn [map fold_left rbind]; apply IH]).
    unfold get_col in K. rewrite K in H. discriminate.
Qed.
(** The heat frames also hold every column the mapper names for the two totals. *)
Theorem C88_mapped_columns (R : table) m valve k : check_results_frames R m valve = Ok k -> m <> [] ->
  forall q F, q = "high" /\ F = ck_high k \/ q = "low" /\ F = ck_low k ->
  forall w ns, In w ["generation_mwh"; "load_mwh"] -> assoc (q ++ "_temperature_" ++ w) m = Some ns ->
  forall n, In n ns -> assoc n (cf_columns F) = assoc n R.
Proof.
  intros H MN q F QF w ns Iw EN n J. unfold check_results_frames in H. rewrite rbind_ok in H. destruct H as (e & _ & H). rewrite rbind_ok in H. destruct H as (h & HH & H). rewrite rbind_ok in H. destruct H as (l & HL & H).
  rewrite rbind_ok in H. destruct H as (u & _ & H). injection H as <-. cbn [ck_high ck_low] in QF.
  assert (heat_frame R m q = Ok F) as HF by (destruct QF as [[-> ->]|[-> ->]]; assumption). clear HH HL QF.
  unfold heat_frame in HF. cbv zeta in HF. binds HF. injection HF as <-. cbn [cf_columns]. destruct m as [|p m']; [congruence|]. set (m := p :: m') in *. binds K1.
  cbn [In] in Iw. destruct Iw as [<-|[<-|[]]]; cbn [append] in EN.
  - rewrite EN in K3. injection K3 as <-. apply (copied _ _ _ _ K1 n). right. apply (copied _ _ _ _ K4 n). now left.
  - rewrite EN in K5. injection K5 as <-. apply (copied _ _ _ _ K1 n). now left.
Qed.
(** The call inside an optimization: a feasible result has passed with the mapper [add_totals] returned. *)
Theorem C88_inside slv base c assets cons obj fl r : optimize slv base c assets cons obj fl = Ok r -> r_feasible r = true ->
  exists lp, add_totals lp = Ok (r_results r) /\ exists k, check_results_frames (r_results r) (total_mapper lp) (existsb is_valve assets) = Ok k.
Proof.
  intros H FE. pose proof (checked _ _ _ _ _ _ _ _ H FE) as CK. assert (exists lp, add_totals lp = Ok (r_results r)) as (lp & AT).
  { unfold optimize in H. destruct (build_program c assets cons obj fl (new_optimizer base)) as [[iv o]|]; [|discriminate].
    rewrite rbind_ok in H. destruct H as ([st sol] & HS & H). cbn [fst snd] in H.
    unfold extract_results in H. rewrite rbind_ok in H. destruct H as (rows & HR & H). cbv zeta in H. rewrite rbind_ok in H. destruct H as (u3 & HL & H).
    rewrite rbind_ok in H. destruct H as (res & HT & H). rewrite rbind_ok in H. destruct H as (u4 & HC & H). rewrite rbind_ok in H. destruct H as (sp & HW & H). injection H as <-. eexists. exact HT. }
  exists lp. split; [exact AT|]. pose proof (C88_same_check (r_results r) (total_mapper lp) (existsb is_valve assets) (C88_mapper_fits _ _ AT)) as S. rewrite CK in S.
  destruct (check_results_frames (r_results r) (total_mapper lp) (existsb is_valve assets)) as [k|]; [exists k; reflexivity|discriminate].
Qed.

(** ** A sample: the site with every kind of asset *)
Example C88_sample : exists k, check_results_frames (r_results x_result) [] true = Ok k /\
  num (cf_columns (ck_electricity k)) "input" 0 == 6 + r_import x_result 0 /\ num (cf_columns (ck_electricity k)) "soc" 0 == 1 /\
  cf_balance (ck_electricity k) = [true; true] /\ num (cf_columns (ck_high k)) "in" 0 == 6.
Proof.
  destruct (C88_never_raises _ _ _ _ _ _ _ _ (fr_returns _ _ _ _ _ _ _ _ x_run) (fr_feasible _ _ _ _ _ _ _ _ x_run) true) as (k & K); [right; exists "valve"; vm_compute; tauto|].
  exists k. split; [exact K|]. assert (exists k', check_results_frames (r_results x_result) [] true = Ok k' /\ num (cf_columns (ck_electricity k')) "input" 0 == 6 + r_import x_result 0 /\ num (cf_columns (ck_electricity k')) "soc" 0 == 1 /\
  cf_balance (ck_electricity k') = [true; true] /\ num (cf_columns (ck_high k')) "in" 0 == 6) as (k' & K' & R).
  { eexists. split; [vm_compute; reflexivity|]. splits; vm_compute; reflexivity. }
  rewrite K in K'. injection K' as <-. exact R.
Qed.
(** the charge a battery ends an interval with is not in "soc" *)
Theorem C88_all_storage_refuted : exists slv base c assets fl r k, feasible_run slv base c assets [] (ObjName "price") fl r /\
  check_results_frames (r_results r) [] false = Ok k /\ assets = [h_battery 1] /\
  0 < rep r "battery" "electric_final_charge_mwh" 0 /\ num (cf_columns (ck_electricity k)) "soc" 0 == 0.
Proof.
  exists (h_solver 1 1), 0%nat, h_site, [h_battery 1], default_flags, (h_with 1). eexists. split; [exact (proj1 h_with_run)|]. split; [vm_compute; reflexivity|]. splits; vm_compute; reflexivity.
Qed.
