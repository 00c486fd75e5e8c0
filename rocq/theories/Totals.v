(** * Totals: the total columns of the results table (proofs) *)
From Coq Require Import Permutation.
From Verif Require Import Base Pulp Params Optimizer Types Assets EVs Site Extract Emit Prim Spec SpecReport SpecRun SpecNames Layout Rows Sem SemEv SemSite SemProg SemObj SemCells SemRows SemTable SemResults RunFacts.
Open Scope Q_scope.
Open Scope string_scope.

(** ** Searching in concatenated strings *)
Fixpoint suffixes (s : string) : list string := match s with EmptyString => [] | String _ s' => s :: suffixes s' end.
Definition no_straddle (p y : string) : bool :=
  match p with EmptyString => false | String _ p' => forallb (fun p2 => negb (starts_with p2 y)) (suffixes p') end.
Lemma prefix_append p : forall x y, starts_with p (x ++ y) = true -> starts_with p x = true \/ exists p2, p = x ++ p2 /\ p2 <> "" /\ starts_with p2 y = true.
Proof.
  unfold starts_with. induction p as [|a p IH]; intros x y H; [left; destruct x; reflexivity|]. destruct x as [|b x].
  - right. exists (String a p). splits; [reflexivity|discriminate|exact H].
  - cbn [append prefix] in *. destruct (ascii_dec a b) as [->|N]; [|discriminate]. destruct (IH _ _ H) as [L|(p2 & -> & R)]; [now left|]. right. exists p2. split; [reflexivity|exact R].
Qed.
Lemma prefix_grow p : forall x y, starts_with p x = true -> starts_with p (x ++ y) = true.
Proof.
  unfold starts_with. induction p as [|a p IH]; intros x y H; [destruct (x ++ y); reflexivity|]. destruct x as [|b x]; [discriminate|]. cbn [append prefix] in *. destruct (ascii_dec a b); [auto|discriminate].
Qed.
Lemma suffix_in x : forall p2, p2 <> "" -> In p2 (suffixes (x ++ p2)).
Proof. induction x as [|a x IH]; intros p2 N; cbn [append suffixes]; [destruct p2; [congruence|now left]|]. right. auto. Qed.
Lemma contains_append p y : no_straddle p y = true -> forall x, contains p (x ++ y) = (contains p x || contains p y)%bool.
Proof.
  destruct p as [|a p]; [discriminate|]. cbn [no_straddle]. intros NS x. rewrite forallb_forall in NS. induction x as [|b x IH].
  - change ("" ++ y) with y. cbn [contains prefix orb]. reflexivity.
  - cbn [append contains]. rewrite IH. change (String b (x ++ y)) with (String b x ++ y).
    destruct (prefix (String a p) (String b x ++ y)) eqn:E.
    + apply prefix_append in E. destruct E as [E|(p2 & E & N & S2)]; [unfold starts_with in E; rewrite E; reflexivity|]. exfalso. cbn [append] in E. injection E as -> ->.
      specialize (NS p2 (suffix_in x p2 N)). rewrite S2 in NS. discriminate.
    + destruct (prefix (String a p) (String b x)) eqn:E2; [|reflexivity]. apply (prefix_grow _ _ y) in E2. unfold starts_with in E2. rewrite E2 in E. discriminate.
Qed.

Lemma prefix_exists p : forall s, starts_with p s = true -> exists z, s = p ++ z.
Proof.
  unfold starts_with. induction p as [|c p IH]; intros s H; [exists s; reflexivity|]. destruct s as [|b s]; [discriminate|]. cbn [prefix] in H. destruct (ascii_dec c b) as [->|]; [|discriminate].
  destruct (IH _ H) as (z & ->). exists z. reflexivity.
Qed.
(** ** Sums over selected cells *)
Definition selected (p : string -> bool) (nc : string * option Q) : Q := if p (fst nc) then zero_none (snd nc) else 0.
Definition cells_sum (p : string -> bool) (l : list (string * option Q)) : Q := Qsum (map (selected p) l).
Lemma cells_sum_app p l l' : cells_sum p (l ++ l')%list == cells_sum p l + cells_sum p l'.
Proof. unfold cells_sum. rewrite map_app. apply Qsum_app. Qed.
Lemma cells_sum_flat {A} p (g : A -> list (string * option Q)) l : cells_sum p (flat_map g l) == Qsum (map (fun x => cells_sum p (g x)) l).
Proof. induction l as [|x l IH]; [reflexivity|]. cbn [flat_map map Qsum fold_right]. rewrite cells_sum_app, IH. reflexivity. Qed.
Lemma cells_sum_none p l : (forall n q, In (n, q) l -> p n = false) -> cells_sum p l == 0.
Proof. intros H. apply Qsum_map_zero. intros [n q] I. unfold selected. cbn [fst]. now rewrite (H n q I). Qed.

Lemma Qsum_filter {A} (p : A -> bool) (g : A -> Q) l : Qsum (map g (filter p l)) == Qsum (map (fun x => if p x then g x else 0) l).
Proof. induction l as [|x l IH]; [reflexivity|]. cbn [filter map Qsum fold_right]. destruct (p x); cbn [map Qsum fold_right]; unfold Qsum in *; rewrite IH; ring. Qed.

Lemma row_is_sum p row cells : row_is row cells -> (forall n, In (n, None) cells -> p n = false) -> Qsum (map (fun nc => if p (fst nc) then zero_none (snd nc) else 0) row) == cells_sum p cells.
Proof.
  intros F. induction F as [|x y l l' (E & q & Q1 & Q2) F IH]; intros H; [reflexivity|]. unfold cells_sum in *. cbn [map Qsum fold_right].
  assert (Qsum (map (fun nc => if p (fst nc) then zero_none (snd nc) else 0) l) == Qsum (map (selected p) l')) as E2 by (apply IH; intros n I; apply H; now right).
  unfold Qsum in E2 |- *. rewrite E2. unfold selected at 2. rewrite <- E. destruct (p (fst x)) eqn:K; [|reflexivity]. rewrite Q1. destruct y as [m [w|]]; cbn [fst snd] in *; subst.
  - cbn [zero_none]. rewrite Q2. reflexivity.
  - exfalso. rewrite (H (fst x)) in K; [discriminate|now left].
Qed.

Lemma table_row names rows lp t row : table_of names rows lp -> nth_error rows t = Some row -> map fst row = names ->
  map (fun nc => (fst nc, cell_at (snd nc) t)) lp = row.
Proof.
  intros TB E N. pose proof (to_names _ _ _ TB) as TN. pose proof (to_nodup _ _ _ TB) as ND. pose proof (to_cell _ _ _ TB t row) as TC.
  assert (forall col v, In (col, v) row -> exists cells, In (col, cells) lp /\ nth_error cells t = Some v) as TC' by (intros; eapply TC; eauto). clear TC TB E.
  rewrite <- TN in N, ND. clear TN names rows.
  assert (forall l1 l2 : frame, lp = (l1 ++ l2)%list -> forall r2, incl r2 row -> map fst r2 = map fst l2 -> map (fun nc => (fst nc, cell_at (snd nc) t)) l2 = r2) as G.
  { intros l1 l2. revert l1. induction l2 as [|[n cl] l2 IH]; intros l1 EL r2 IN ER; [destruct r2; [reflexivity|discriminate]|].
    destruct r2 as [|[m v] r2]; [discriminate|]. cbn [map fst] in ER. injection ER as -> ER. cbn [map fst snd]. f_equal.
    - f_equal. destruct (TC' n v (IN _ (or_introl eq_refl))) as (cells & I & Ec).
      assert (In (n, cl) lp) as J by (rewrite EL; apply in_app_iff; right; now left).
      pose proof (in_assoc _ _ _ ND I) as A1. pose proof (in_assoc _ _ _ ND J) as A2. rewrite A1 in A2. injection A2 as ->. unfold cell_at. now apply nth_error_nth.
    - apply (IH (l1 ++ [(n, cl)])%list); [rewrite EL, <- app_assoc; reflexivity|intros z I; apply IN; now right|exact ER]. }
  apply (G [] lp eq_refl); [apply incl_refl|exact N].
Qed.

Lemma sum_cols_at names rows lp t row cells p : table_of names rows lp -> nth_error rows t = Some row -> row_is row cells -> map fst row = names -> rows <> [] -> names <> [] ->
  (forall n, In (n, None) cells -> p n = false) ->
  exists x, nth_error (sum_cols lp p) t = Some (Some x) /\ x == cells_sum p cells.
Proof.
  intros TB E RI NR RN NN H. unfold sum_cols.
  assert (n_rows lp = List.length rows) as NL.
  { destruct lp as [|[n cl] lp']; [exfalso; apply NN; rewrite <- (to_names _ _ _ TB); reflexivity|]. cbn. apply (to_len _ _ _ TB n). now left. }
  assert (nth_error (seq 0 (n_rows lp)) t = Some t) as ST.
  { assert (t < List.length rows)%nat by (apply nth_error_Some; congruence). rewrite nth_error_nth' with (d := 0%nat) by (rewrite seq_length; lia). now rewrite seq_nth by lia. }
  rewrite (map_nth_error _ _ _ ST). eexists. split; [reflexivity|]. rewrite <- (row_is_sum _ _ _ RI H), <- (table_row _ _ _ _ _ TB E NR), map_map.
  rewrite (Qsum_filter (fun nc => p (fst nc)) (fun nc : string * list cell => zero_none (cell_at (snd nc) t))). reflexivity.
Qed.

(** ** The order of the columns does not matter *)
Lemma perm_flat_app {A B} (g h : A -> list B) l : Permutation (flat_map g l ++ flat_map h l) (flat_map (fun x => g x ++ h x) l)%list.
Proof.
  induction l as [|x l IH]; [reflexivity|]. cbn [flat_map]. rewrite <- !app_assoc. apply Permutation_app_head.
  rewrite Permutation_app_comm, <- app_assoc. apply Permutation_app_head. rewrite Permutation_app_comm. exact IH.
Qed.
Lemma row_perm c assets d t : Permutation (row_cells c assets d t) (all_cells c assets d t).
Proof.
  unfold row_cells, all_cells, asset_rows. cbv zeta. apply Permutation_app_head. rewrite !perm_flat_app.
  erewrite flat_map_ext; [reflexivity|]. intros a. cbv beta. destruct a; unfold kind_cells; cbn [kind_of_asset kind_eqb main_cells spill_cells app]; rewrite ?app_nil_r; reflexivity.
Qed.
Lemma Qsum_perm l l' : Permutation l l' -> Qsum l == Qsum l'.
Proof. induction 1; unfold Qsum in *; cbn [fold_right] in *; [reflexivity|rewrite IHPermutation; reflexivity|ring|etransitivity; eauto]. Qed.
Lemma cells_sum_perm p l l' : Permutation l l' -> cells_sum p l == cells_sum p l'.
Proof. intros H. apply Qsum_perm, Permutation_map, H. Qed.

(** ** Which columns a total collects *)
Lemma attrs_computed : forallb (fun q => forallb (fun a =>
    no_straddle ("-" ++ q) ("-" ++ a) && no_straddle "charge-event" ("-" ++ a) && Bool.eqb (contains ("-" ++ q) ("-" ++ a)) (q =? a) && negb (contains "charge-event" ("-" ++ a)))
  cell_attrs) quantities = true.
Proof. vm_compute. reflexivity. Qed.
Lemma attr_facts q a : In q quantities -> In a cell_attrs ->
  no_straddle ("-" ++ q) ("-" ++ a) = true /\ no_straddle "charge-event" ("-" ++ a) = true /\ contains ("-" ++ q) ("-" ++ a) = (q =? a) /\ contains "charge-event" ("-" ++ a) = false.
Proof.
  intros Iq Ia. pose proof attrs_computed as H. rewrite forallb_forall in H. specialize (H q Iq). cbv beta in H. rewrite forallb_forall in H. specialize (H a Ia). cbv beta in H.
  rewrite !andb_true_iff in H. destruct H as (((H1 & H2) & H3) & H4). apply Bool.eqb_prop in H3. apply Bool.negb_true_iff in H4. auto.
Qed.
Lemma clean_col q x a : clean x -> In q quantities -> In a cell_attrs -> is_quantity_col q (column x a) = (q =? a).
Proof.
  intros (C1 & C2) Iq Ia. destruct (attr_facts q a Iq Ia) as (H1 & H2 & H3 & H4). unfold is_quantity_col, column.
  rewrite (contains_append _ _ H1), (contains_append _ _ H2), C1, (C2 q Iq), H3, H4. cbn. now rewrite andb_true_r.
Qed.
Lemma event_col q x a : contains "charge-event" x = true -> In q quantities -> In a cell_attrs -> is_quantity_col q (column x a) = false.
Proof.
  intros C1 Iq Ia. destruct (attr_facts q a Iq Ia) as (H1 & H2 & H3 & H4). unfold is_quantity_col, column. rewrite (contains_append _ _ H2), C1. cbn. now rewrite andb_false_r.
Qed.
Lemma contains_tail p c s : contains p s = true -> contains p (String c s) = true.
Proof. intros H. cbn [contains]. rewrite H. apply orb_true_r. Qed.
Lemma contains_mid p x : forall y z, contains p y = true -> contains p (x ++ y ++ z) = true.
Proof.
  intros y z H. induction x as [|a x IH]; cbn [append]; [|now apply contains_tail].
  revert H. induction y as [|b y IH]; intros H.
  - cbn [contains] in H. destruct p; [destruct z; reflexivity|discriminate].
  - cbn [append contains] in *. apply orb_true_iff in H. destruct H as [H|H]; [|rewrite IH by exact H; apply orb_true_r]. change (String b (y ++ z)) with (String b y ++ z). pose proof (prefix_grow p (String b y) z H) as G. unfold starts_with in G. rewrite G. reflexivity.
Qed.

Definition of_quantity (q : string) (d : dispatch) (t : nat) (a : asset) : Q :=
  if q =? "electric_generation_mwh" then elec_gen d t a else
  if q =? "electric_load_mwh" then elec_load d t a else
  if q =? "high_temperature_generation_mwh" then ht_gen d t a else
  if q =? "low_temperature_generation_mwh" then lt_gen d t a else
  if q =? "high_temperature_load_mwh" then ht_load d t a else
  if q =? "low_temperature_load_mwh" then lt_load d t a else
  if q =? "gas_consumption_mwh" then gas_use d t a else
  if q =? "electric_charge_mwh" then charge d t a else
  if q =? "electric_discharge_mwh" then discharge d t a else 0.
Definition of_site (q : string) (c : site_cfg) (t : nat) : Q :=
  if q =? "electric_load_mwh" then data (id_electric_load_mwh (sc_idata c)) t else
  if q =? "low_temperature_generation_mwh" then data (id_low_temperature_generation_mwh (sc_idata c)) t else
  if q =? "high_temperature_load_mwh" then data (id_high_temperature_load_mwh (sc_idata c)) t else
  if q =? "low_temperature_load_mwh" then data (id_low_temperature_load_mwh (sc_idata c)) t else 0.

Ltac attr_in := cbn [cell_attrs In]; tauto.
Ltac each_cell H := unfold cells_sum; cbn [map Qsum fold_right]; unfold selected; cbn [fst snd]; repeat (rewrite H; [|assumption|attr_in]).

Lemma charger_sum d t c k cc q : clean (column (ev_name c) (cg_name cc)) -> In q quantities ->
  cells_sum (is_quantity_col q) (ev_charger_report d t c k cc) ==
  (if q =? "electric_charge_mwh" then Qsum (map (fun e => d_ev_charge d (ev_name c) e k t) (seq 0 (List.length (ev_event_cfgs c)))) else
   if q =? "electric_discharge_mwh" then Qsum (map (fun e => d_ev_discharge d (ev_name c) e k t) (seq 0 (List.length (ev_event_cfgs c)))) else 0).
Proof.
  intros CL Iq. pose proof (fun a => clean_col q _ a CL) as K. unfold ev_charger_report. cbv zeta.
  set (s1 := Qsum _). set (s2 := Qsum _). set (s3 := Qsum _). each_cell K.
  cbn [quantities In] in Iq. repeat (destruct Iq as [<-|Iq]; [cbn; ring|]). destruct Iq.
Qed.
Lemma spill_sum_q d t c cc q : clean (column (ev_name c) (cg_name cc)) -> In q quantities ->
  cells_sum (is_quantity_col q) (ev_spill_report d t c cc) == (if q =? "electric_charge_mwh" then ev_spill_total d t c else 0).
Proof.
  intros CL Iq. pose proof (fun a => clean_col q _ a CL) as K. unfold ev_spill_report, ev_spill_total. cbv zeta.
  set (s1 := Qsum _). set (s2 := Qsum _). each_cell K.
  cbn [quantities In] in Iq. repeat (destruct Iq as [<-|Iq]; [cbn; ring|]). destruct Iq.
Qed.
Lemma event_sum d t c e ec q : contains "charge-event" (column (ev_name c) (ce_name ec)) = true -> In q quantities -> cells_sum (is_quantity_col q) (ev_event_report d t c e ec) == 0.
Proof.
  intros CL Iq. pose proof (fun a => event_col q _ a CL) as K. apply cells_sum_none. intros n oq I. unfold ev_event_report in I. cbv zeta in I. cbn [In] in I.
  repeat (destruct I as [I|I]; [injection I as <- _; apply K; [assumption|attr_in]|]). destruct I.
Qed.
Lemma soc_sum d t c q : In q quantities -> cells_sum (is_quantity_col q) (ev_soc_report d t c) == 0.
Proof.
  intros Iq. assert (forall e, contains "charge-event" (column (column (ev_name c) "charge-event") (show e)) = true) as K.
  { intros e. unfold column. rewrite !str_app_assoc. rewrite <- (str_app_assoc (ev_name c) "-"). apply contains_mid. reflexivity. }
  apply cells_sum_none. intros n oq I. unfold ev_soc_report in I. cbv zeta in I. rewrite in_app_iff, !in_map_iff in I.
  destruct I as [(e & I & _)|(e & I & _)]; injection I as <- _; (apply event_col; [apply K|assumption|attr_in]).
Qed.

Lemma enum_fst {A} (l : list A) : forall n, map fst (enum_from n l) = seq n (List.length l).
Proof. induction l; intros n; cbn [enum_from map fst List.length seq]; [reflexivity|]. now rewrite IHl. Qed.
Lemma enum_sum {A} (g : nat -> Q) (l : list A) : Qsum (map (fun x : nat * A => g (fst x)) (enumerate l)) = Qsum (map g (seq 0 (List.length l))).
Proof. unfold enumerate. rewrite <- (enum_fst l 0), map_map. reflexivity. Qed.
Lemma asset_sum d t a q : ordinary_asset a -> asset_fine a -> In q quantities -> cells_sum (is_quantity_col q) (asset_cells d t a) == of_quantity q d t a.
Proof.
  intros OA AF Iq. destruct a as [b|b|b|b|b|b|m|m]; cbn [ordinary_asset] in OA.
  4:{ destruct OA as (OC & OE). cbn in AF. destruct AF as (L1 & _ & _). cbn [asset_cells]. unfold ev_main_cells, ev_spill_columns. rewrite !cells_sum_app, !cells_sum_flat, soc_sum by exact Iq.
      assert (Qsum (map (fun x : nat * charge_event_cfg => cells_sum (is_quantity_col q) (ev_event_report d t b (fst x) (snd x))) (enumerate (ev_event_cfgs b))) == 0) as ->.
      { apply Qsum_map_zero. intros [e ec] I. apply event_sum; auto. apply OE. apply enumerate_in in I. eapply nth_error_In; eauto. }
      destruct (ev_spill_chargers b) as [|cc [|? ?]] eqn:SP; try discriminate. cbn [map Qsum fold_right]. rewrite spill_sum_q; [|apply OC; right; now left|exact Iq].
      assert (Qsum (map (fun x : nat * charger_cfg => cells_sum (is_quantity_col q) (ev_charger_report d t b (fst x) (snd x))) (enumerate (ev_chargers b))) ==
         (if q =? "electric_charge_mwh" then ev_total_charge d t b else if q =? "electric_discharge_mwh" then ev_total_discharge d t b else 0)) as ->.
      { rewrite (Qsum_map_ext _ (fun x : nat * charger_cfg => if q =? "electric_charge_mwh" then Qsum (map (fun e => d_ev_charge d (ev_name b) e (fst x) t) (seq 0 (List.length (ev_event_cfgs b)))) else
           if q =? "electric_discharge_mwh" then Qsum (map (fun e => d_ev_discharge d (ev_name b) e (fst x) t) (seq 0 (List.length (ev_event_cfgs b)))) else 0)).
        2:{ intros [k cc'] I. apply charger_sum; auto. apply OC. left. apply enumerate_in in I. eapply nth_error_In; eauto. }
        destruct (q =? "electric_charge_mwh"); [|destruct (q =? "electric_discharge_mwh"); [|apply Qsum_map_zero; reflexivity]].
        - unfold ev_total_charge. rewrite (enum_sum (fun k => Qsum (map (fun e => d_ev_charge d (ev_name b) e k t) _))). apply Qsum_exchange.
        - unfold ev_total_discharge. rewrite (enum_sum (fun k => Qsum (map (fun e => d_ev_discharge d (ev_name b) e k t) _))). apply Qsum_exchange. }
      cbn [quantities In] in Iq. repeat (destruct Iq as [<-|Iq]; [unfold of_quantity; cbn [String.eqb Ascii.eqb Bool.eqb elec_gen elec_load ht_gen ht_load lt_gen lt_load gas_use charge discharge]; ring|]). destruct Iq. }
  all: pose proof (fun a0 => clean_col q _ a0 OA) as K; cbn [asset_cells asset_name] in *; each_cell K; cbn [quantities In] in Iq; (repeat (destruct Iq as [<-|Iq]; [cbn; ring|])); destruct Iq.
Qed.

Lemma site_col q n : is_quantity_col q ("site-" ++ n) = true -> In q quantities -> starts_with q n = true \/ contains ("-" ++ q) n = true.
Proof.
  intros H Iq. unfold is_quantity_col in H. apply andb_true_iff in H. destruct H as [H _].
  cbn [append contains prefix] in H. repeat (destruct (ascii_dec _ _) in H; [first [discriminate|idtac]|cbn [orb] in H]); try congruence; auto.
  all: apply orb_true_iff in H; destruct H; auto.
Qed.
Lemma site_sum c d t q : (forall col, In col (id_custom (sc_idata c)) -> ordinary_data (fst col)) -> In q quantities -> cells_sum (is_quantity_col q) (site_cells c d t) == of_site q c t.
Proof.
  intros OD Iq. unfold site_cells, id_columns. rewrite map_app.
  match goal with |- cells_sum ?p (?a :: ?b :: ?l ++ ?r)%list == _ => change (a :: b :: l ++ r)%list with ((a :: b :: l) ++ r)%list end.
  rewrite cells_sum_app. match goal with |- _ + cells_sum ?p (map ?f ?l) == _ => rewrite (cells_sum_none p (map f l)) end.
  - cbn [map fst snd]. unfold cells_sum. cbn [map Qsum fold_right]. unfold selected. cbn [fst snd zero_none].
    cbn [quantities In] in Iq. repeat (destruct Iq as [<-|Iq]; [unfold of_site; cbn; ring|]). destruct Iq.
  - intros n oq I. apply in_map_iff in I. destruct I as ([m l] & E & J). cbn [fst snd] in E. injection E as <- <-. destruct (is_quantity_col q ("site-" ++ m)) eqn:K; [|exact K].
    destruct (site_col q m K Iq) as [X|X]; destruct (OD _ J q Iq) as [Y Z]; cbn [fst] in *; congruence.
Qed.
Lemma all_sum c assets d t q : ordinary_names c assets -> Forall asset_fine assets -> In q quantities ->
  cells_sum (is_quantity_col q) (all_cells c assets d t) == of_site q c t + total (of_quantity q d t) assets.
Proof.
  intros (OA & OD) AF Iq. unfold all_cells. rewrite cells_sum_app, cells_sum_flat, (site_sum _ _ _ _ OD Iq). unfold total. rewrite Forall_forall in AF.
  rewrite (Qsum_map_ext _ (of_quantity q d t)); [reflexivity|]. intros a Ia. apply asset_sum; auto.
Qed.
Lemma none_cells d t a n : In (n, None) (asset_cells d t a) -> exists x attr, n = column x attr /\ In attr ["electric_charge_binary"; "electric_discharge_binary"] /\
  (forall (OA : ordinary_asset a), clean x).
Proof.
  destruct a as [b|b|b|b|b|b|m|m]; cbn [asset_cells ordinary_asset asset_name].
  4:{ rewrite in_app_iff. unfold ev_main_cells. rewrite !in_app_iff, !in_flat_map. unfold ev_spill_columns, ev_soc_report. cbv zeta. rewrite in_app_iff, !in_map_iff, in_flat_map.
      intros [[([k cc] & J & H)|[([e ec] & _ & H)|[(e & H & _)|(e & H & _)]]]|(cc & J & H)]; try discriminate.
      - apply enumerate_in in J. apply nth_error_In in J. cbn [ev_charger_report fst snd In] in H. repeat (destruct H as [H|H]; [first [discriminate H|injection H as <-; eexists _, _; splits; [reflexivity|cbn; tauto|intros [OC _]; apply OC; now left]]|]). destruct H.
      - cbn [ev_event_report fst snd In] in H. repeat (destruct H as [H|H]; [discriminate H|]). destruct H.
      - cbn [ev_spill_report fst snd In] in H. repeat (destruct H as [H|H]; [first [discriminate H|injection H as <-; eexists _, _; splits; [reflexivity|cbn; tauto|intros [OC _]; apply OC; now right]]|]). destruct H. }
  all: cbn [In]; intros H; repeat (destruct H as [H|H]; [first [discriminate H|injection H as <-; eexists _, _; splits; [reflexivity|cbn; tauto|auto]]|]); destruct H.
Qed.
Lemma none_all c assets d t n : In (n, None) (all_cells c assets d t) -> exists a, In a assets /\ In (n, None) (asset_cells d t a).
Proof.
  unfold all_cells. rewrite in_app_iff, in_flat_map. intros [I|(a & Ia & I)]; [|eauto]. exfalso. unfold site_cells in I. destruct I as [I|[I|I]]; try discriminate. apply in_map_iff in I. destruct I as (? & E & _). discriminate.
Qed.
Lemma none_unselected c assets d t q n : ordinary_names c assets -> In q quantities -> In (n, None) (all_cells c assets d t) -> is_quantity_col q n = false.
Proof.
  intros (OA & _) Iq I. destruct (none_all _ _ _ _ _ I) as (a & Ia & J). destruct (none_cells _ _ _ _ J) as (x & attr & -> & At & CL). rewrite clean_col; auto.
  - cbn [In] in At. cbn [quantities In] in Iq. destruct At as [<-|[<-|[]]]; repeat (destruct Iq as [<-|Iq]; [reflexivity|]); destruct Iq.
  - cbn [In] in At. cbn [cell_attrs In]. tauto.
Qed.

Section table.
Context (c : site_cfg) (assets : list asset) (d : dispatch) (rows : list (list (string * cell))) (lp : frame).
Context (RW : Forall2 (fun t row => row_is row (row_cells c assets d t)) (seq 0 (n_intervals c)) rows).
Context (TB : table_of (map fst (row_cells c assets d 0)) rows lp).

Lemma col_sum_at p t : (t < n_intervals c)%nat -> (forall n, In (n, None) (all_cells c assets d t) -> p n = false) ->
  exists x, nth_error (sum_cols lp p) t = Some (Some x) /\ x == cells_sum p (all_cells c assets d t).
Proof.
  intros Ht H. assert (List.length rows = n_intervals c) as LR by (rewrite <- (Forall2_len _ _ _ RW), seq_length; reflexivity).
  destruct (nth_error_lt rows t ltac:(lia)) as (row & E).
  assert (nth_error (seq 0 (n_intervals c)) t = Some t) as S1 by (rewrite nth_error_nth' with (d := 0%nat) by (rewrite seq_length; exact Ht); now rewrite seq_nth by exact Ht).
  pose proof (Forall2_nth _ _ _ _ _ _ RW S1 E) as RI. cbv beta in RI.
  destruct (sum_cols_at _ _ _ _ _ _ p TB E RI) as (x & X1 & X2).
  - rewrite (row_is_names _ _ RI). apply row_names.
  - intros X. rewrite X in LR. cbn in LR. lia.
  - unfold row_cells, site_cells. discriminate.
  - intros n I. apply H. now apply all_in_row.
  - exists x. split; [exact X1|]. rewrite X2. apply cells_sum_perm, row_perm.
Qed.
Lemma total_at q t : ordinary_names c assets -> Forall asset_fine assets -> In q quantities -> (t < n_intervals c)%nat ->
  exists x, nth_error (sum_cols lp (is_quantity_col q)) t = Some (Some x) /\ x == of_site q c t + total (of_quantity q d t) assets.
Proof.
  intros ON AF Iq Ht. destruct (col_sum_at (is_quantity_col q) t Ht) as (x & X1 & X2); [intros n I; eapply none_unselected; eauto|]. exists x. split; [exact X1|]. rewrite X2. now apply all_sum.
Qed.
End table.
