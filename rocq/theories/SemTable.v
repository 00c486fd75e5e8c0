(** * SemTable: from rows to the results table (proofs) *)
From Verif Require Import Base Pulp Params Optimizer Types EVs Extract Emit Prim Spec SpecReport SpecRun Layout SemSite SemCells SemRows.
Open Scope Q_scope.

(** ** Column names *)
Lemma map_flat_map {A B C} (h : B -> C) (g : A -> list B) l : map h (flat_map g l) = flat_map (fun x => map h (g x)) l.
Proof. induction l; [reflexivity|]. cbn [flat_map]. now rewrite map_app, IHl. Qed.
Lemma map_fst_flat {A B} (g g' : A -> list (string * B)) l : (forall x, map fst (g x) = map fst (g' x)) -> map fst (flat_map g l) = map fst (flat_map g' l).
Proof. intros H. rewrite !map_flat_map. apply flat_map_ext. exact H. Qed.
Lemma main_names d t d' t' a : map fst (main_cells d t a) = map fst (main_cells d' t' a).
Proof.
  destruct a; try reflexivity. cbn [main_cells]. unfold ev_main_cells, ev_soc_report. cbv zeta. rewrite !map_app. apply f_equal2; [apply map_fst_flat; intros; reflexivity|].
  apply f_equal2; [apply map_fst_flat; intros; reflexivity|]. rewrite !map_map. reflexivity.
Qed.
Lemma spill_names d t d' t' a : map fst (spill_cells d t a) = map fst (spill_cells d' t' a).
Proof. destruct a; try reflexivity. cbn [spill_cells]. unfold ev_spill_columns. apply map_fst_flat; intros; reflexivity. Qed.
Lemma asset_names d t d' t' a : map fst (asset_cells d t a) = map fst (asset_cells d' t' a).
Proof.
  destruct a; try reflexivity. cbn [asset_cells]. rewrite !map_app. apply f_equal2; [apply (main_names d t d' t' (AEVs _))|apply (spill_names d t d' t' (AEVs _))].
Qed.
Lemma site_names c d t d' t' : map fst (site_cells c d t) = map fst (site_cells c d' t').
Proof. unfold site_cells. cbn [map fst]. rewrite !map_map. reflexivity. Qed.
Lemma row_names c assets d t d' t' : map fst (row_cells c assets d t) = map fst (row_cells c assets d' t').
Proof.
  unfold row_cells, asset_rows. cbv zeta. rewrite !map_app. rewrite (site_names c d t d' t').
  assert (forall k, map fst (flat_map (kind_cells d t k) assets) = map fst (flat_map (kind_cells d' t' k) assets)) as K.
  { intros k. apply map_fst_flat. intros a. unfold kind_cells. destruct (kind_eqb _ _); [apply asset_names|reflexivity]. }
  rewrite !K, (map_fst_flat (main_cells d t) (main_cells d' t')), (map_fst_flat (spill_cells d t) (spill_cells d' t')); [reflexivity|apply spill_names|apply main_names].
Qed.
Lemma row_is_names l l' : row_is l l' -> map fst l = map fst l'.
Proof. induction 1 as [|x y l l' (E & _) H IH]; [reflexivity|]. cbn [map]. congruence. Qed.

Lemma assets_in_row assets d t x : In x (flat_map (asset_cells d t) assets) <-> In x (asset_rows assets d t).
Proof.
  assert (forall a, In x (asset_cells d t a) <-> In x (kind_cells d t KSpill a ++ kind_cells d t KBattery a ++ kind_cells d t KCHP a ++ kind_cells d t KBoiler a ++ kind_cells d t KValve a ++ main_cells d t a ++ spill_cells d t a ++ kind_cells d t KHeatPump a ++ kind_cells d t KRenewable a)%list) as H.
  { intros a. destruct a; unfold kind_cells; cbn [kind_of_asset kind_eqb main_cells spill_cells]; cbn [app]; rewrite ?app_nil_r; try tauto. }
  unfold asset_rows. cbv zeta. repeat rewrite in_app_iff. repeat rewrite in_flat_map. split.
  - intros (a & Ia & I). apply H in I. repeat rewrite in_app_iff in I.
    repeat match goal with Q : _ \/ _ |- _ => destruct Q end; eauto 12.
  - intros Q. repeat match goal with Q : _ \/ _ |- _ => destruct Q | Q : exists _, _ |- _ => destruct Q as (? & ? & ?) end;
    (eexists; split; [eassumption|]); apply H; repeat rewrite in_app_iff; tauto.
Qed.
Lemma all_in_row c assets d t x : In x (all_cells c assets d t) <-> In x (row_cells c assets d t).
Proof. unfold all_cells, row_cells. now rewrite !in_app_iff, assets_in_row. Qed.

(** ** Appending rows *)
Definition cells_of (col : string) (row : list (string * cell)) : list cell := map snd (filter (fun nc => (col =? fst nc)%string) row).
Lemma append_cell_names r n v : In n (map fst r) -> map fst (append_cell r n v) = map fst r.
Proof.
  induction r as [|[m c] r IH]; cbn [append_cell map fst]; [intros []|]. destruct (String.eqb_spec n m) as [->|N]; [reflexivity|]. intros [E|I]; [congruence|]. cbn [map fst]. now rewrite IH.
Qed.
Lemma append_cell_new r n v : ~ In n (map fst r) -> append_cell r n v = (r ++ [(n, [v])])%list.
Proof.
  induction r as [|[m c] r IH]; cbn [append_cell map fst]; [reflexivity|]. intros H. destruct (String.eqb_spec n m) as [->|N]; [exfalso; apply H; now left|]. cbn [app]. rewrite IH; auto. intros I. apply H. now right.
Qed.
(** every column: what it had before, then the values appended to it *)
Definition col_of (r : frame) (n : string) : list cell := match assoc n r with Some c => c | None => [] end.
Lemma append_cell_col r n v m : col_of (append_cell r n v) m = (col_of r m ++ (if (m =? n)%string then [v] else []))%list.
Proof.
  unfold col_of. induction r as [|[k c] r IH]; cbn [append_cell assoc].
  - destruct (m =? n)%string; reflexivity.
  - destruct (String.eqb_spec n k) as [->|N]; cbn [assoc].
    + destruct (m =? k)%string; [reflexivity|]. now rewrite app_nil_r.
    + destruct (String.eqb_spec m k) as [->|M]; [|exact IH]. destruct (String.eqb_spec k n); [congruence|]. now rewrite app_nil_r.
Qed.
Lemma append_row_col row : forall r m, col_of (append_row r row) m = (col_of r m ++ cells_of m row)%list.
Proof.
  unfold append_row, cells_of. induction row as [|[n v] row IH]; intros r m; cbn [fold_left filter map]; [now rewrite app_nil_r|].
  rewrite IH, append_cell_col. cbn [fst snd]. destruct (m =? n)%string; cbn [map snd]; now rewrite <- app_assoc.
Qed.
Lemma append_rows_col rows : forall r m, col_of (fold_left append_row rows r) m = (col_of r m ++ flat_map (cells_of m) rows)%list.
Proof.
  induction rows as [|row rows IH]; intros r m; cbn [fold_left flat_map]; [now rewrite app_nil_r|]. now rewrite IH, append_row_col, app_assoc.
Qed.
Lemma append_cell_in r n v m : In m (map fst (append_cell r n v)) <-> In m (map fst r) \/ m = n.
Proof.
  induction r as [|[k c] r IH]; cbn [append_cell map fst In]; [intuition|]. destruct (String.eqb_spec n k) as [->|N]; cbn [map fst In]; [intuition|]. rewrite IH. tauto.
Qed.
Lemma append_cell_nodup r n v : NoDup (map fst r) -> NoDup (map fst (append_cell r n v)).
Proof.
  induction r as [|[k c] r IH]; cbn [append_cell map fst]; [repeat constructor; intros []|]. intros ND. inversion ND as [|? ? N1 N2]; subst.
  destruct (String.eqb_spec n k) as [->|N]; cbn [map fst]; [exact ND|]. constructor; auto. rewrite append_cell_in. intros [I|I]; [tauto|congruence].
Qed.
Lemma append_row_nodup row : forall r, NoDup (map fst r) -> NoDup (map fst (append_row r row)).
Proof. unfold append_row. induction row; intros r H; cbn [fold_left]; auto. apply IHrow. now apply append_cell_nodup. Qed.
Lemma append_rows_nodup rows : forall r, NoDup (map fst r) -> NoDup (map fst (fold_left append_row rows r)).
Proof. induction rows; intros r H; cbn [fold_left]; auto. apply IHrows. now apply append_row_nodup. Qed.
Lemma append_row_in row : forall r m, In m (map fst (append_row r row)) <-> In m (map fst r) \/ In m (map fst row).
Proof.
  unfold append_row. induction row as [|[n v] row IH]; intros r m; cbn [fold_left map fst In]; [tauto|]. rewrite IH, append_cell_in. cbn [fst]. intuition.
Qed.
Lemma append_rows_in rows : forall r m, In m (map fst (fold_left append_row rows r)) <-> In m (map fst r) \/ exists row, In row rows /\ In m (map fst row).
Proof.
  induction rows as [|row rows IH]; intros r m; cbn [fold_left]; [firstorder|]. rewrite IH, append_row_in. split.
  - intros [[I|I]|(x & I & J)]; auto; right; [exists row|exists x]; (split; [|auto]); [now left|now right].
  - intros [I|(x & [->|I] & J)]; eauto.
Qed.
Lemma assoc_in {A} (k : string) (l : list (string * A)) a : assoc k l = Some a -> In (k, a) l.
Proof.
  induction l as [|[k' b] l IH]; cbn [assoc]; [discriminate|]. destruct (String.eqb_spec k k') as [->|N]; [intros [= ->]; now left|]. right. auto.
Qed.
Lemma in_assoc {A} (k : string) (l : list (string * A)) a : NoDup (map fst l) -> In (k, a) l -> assoc k l = Some a.
Proof.
  induction l as [|[k' b] l IH]; cbn [assoc map fst]; [intros _ []|]. intros ND. inversion ND as [|? ? N1 N2]; subst. intros [[= -> ->]|I].
  - now rewrite String.eqb_refl.
  - destruct (String.eqb_spec k k') as [->|N]; [exfalso; apply N1; now apply (in_map fst) in I|]. auto.
Qed.
Lemma in_fst_assoc {A} (k : string) (l : list (string * A)) : In k (map fst l) -> exists a, assoc k l = Some a.
Proof.
  induction l as [|[k' b] l IH]; cbn [assoc map fst In]; [intros []|]. destruct (String.eqb_spec k k') as [->|N]; [eauto|]. intros [E|I]; [congruence|auto].
Qed.
Lemma in_col r n x : NoDup (map fst r) -> (In (n, x) r <-> In n (map fst r) /\ col_of r n = x).
Proof.
  intros ND. unfold col_of. split.
  - intros I. split; [now apply (in_map fst) in I|]. now rewrite (in_assoc _ _ _ ND I).
  - intros [I E]. destruct (in_fst_assoc _ _ I) as (a & Ea). rewrite Ea in E. subst. now apply assoc_in.
Qed.

(** the number of columns with a name, the same in every row *)
Definition count (n : string) (names : list string) : nat := List.length (filter (String.eqb n) names).
Lemma cells_of_length n row : List.length (cells_of n row) = count n (map fst row).
Proof.
  unfold cells_of, count. rewrite map_length. induction row as [|[m v] row IH]; [reflexivity|]. cbn [filter map fst]. destruct (n =? m)%string; cbn [List.length]; auto.
Qed.
Lemma count_in n names : In n names <-> (0 < count n names)%nat.
Proof.
  unfold count. induction names as [|m l IH]; cbn [filter In]; [cbn; split; [intros []|lia]|]. destruct (String.eqb_spec n m) as [->|N]; cbn [List.length]; [split; [lia|auto]|]. rewrite <- IH. split; [intros [E|H]; [congruence|exact H]|auto].
Qed.
Lemma count_nodup names : (forall n, (count n names <= 1)%nat) -> NoDup names.
Proof.
  induction names as [|m l IH]; intros H; constructor.
  - intros I. apply count_in in I. specialize (H m). unfold count in *. cbn [filter] in H. rewrite String.eqb_refl in H. cbn [List.length] in H. lia.
  - apply IH. intros n. specialize (H n). unfold count in *. cbn [filter] in H. destruct (n =? m)%string; cbn [List.length] in H; lia.
Qed.
Lemma flat_cells_length names n rows : (forall row, In row rows -> map fst row = names) -> List.length (flat_map (cells_of n) rows) = (List.length rows * count n names)%nat.
Proof.
  induction rows as [|row rows IH]; intros H; [reflexivity|]. cbn [flat_map List.length]. rewrite app_length, IH, cells_of_length, (H row (or_introl eq_refl)) by (intros; apply H; now right). lia.
Qed.

(** ** The table of the rows *)
Lemma check_lengths_ok {A} (r : list (string * list A)) u : check_array_lengths r = Ok u -> r <> [] /\ forall a b, In a r -> In b r -> List.length (snd a) = List.length (snd b).
Proof.
  unfold check_array_lengths. destruct r as [|[n c] r]; [discriminate|]. destruct (forallb _ r) eqn:E; [|discriminate]. intros _. split; [congruence|].
  assert (forall a, In a ((n, c) :: r) -> List.length (snd a) = List.length c) as H; [|intros; rewrite !H; auto].
  rewrite forallb_forall in E. intros a [<-|I]; [reflexivity|]. now apply Nat.eqb_eq, E.
Qed.

Lemma flat_single {A B} (f : A -> list B) (l : list A) t x : (forall y, In y l -> List.length (f y) = 1%nat) -> nth_error l t = Some x -> forall v, f x = [v] -> nth_error (flat_map f l) t = Some v.
Proof.
  revert t. induction l as [|y l IH]; intros [|t] H E v F; cbn [nth_error] in E; try discriminate.
  - injection E as ->. cbn [flat_map]. rewrite F. reflexivity.
  - cbn [flat_map]. specialize (H y (or_introl eq_refl)) as H1. destruct (f y) as [|b [|? ?]]; try discriminate. cbn [app nth_error]. eapply IH; eauto. intros z I. apply H. now right.
Qed.

Record table_of (names : list string) (rows : list (list (string * cell))) (lp : frame) : Prop := mkTable {
  to_names : map fst lp = names;
  to_nodup : NoDup names;
  to_len : forall col cells, In (col, cells) lp -> List.length cells = List.length rows;
  to_cell : forall t row col v, nth_error rows t = Some row -> In (col, v) row -> exists cells, In (col, cells) lp /\ nth_error cells t = Some v }.

Lemma append_row_same row : forall r, incl (map fst row) (map fst r) -> map fst (append_row r row) = map fst r.
Proof.
  unfold append_row. induction row as [|[n v] row IH]; intros r H; cbn [fold_left]; [reflexivity|]. rewrite IH; cbn [fst snd].
  - apply append_cell_names. apply H. now left.
  - intros m I. rewrite append_cell_names by (apply H; now left). apply H. now right.
Qed.
Lemma append_row_fresh row : forall r, NoDup (map fst r ++ map fst row)%list -> map fst (append_row r row) = (map fst r ++ map fst row)%list.
Proof.
  unfold append_row. induction row as [|[n v] row IH]; intros r H; cbn [fold_left map fst]; [now rewrite app_nil_r|]. cbn [map fst] in H.
  assert (~ In n (map fst r)) as NI. { apply NoDup_remove_2 in H. intros I. apply H. apply in_app_iff. now left. }
  rewrite IH; rewrite append_cell_new by exact NI; rewrite map_app; cbn [map fst]; rewrite <- app_assoc; auto.
Qed.
Lemma append_rows_same names rows : forall r, map fst r = names -> (forall row, In row rows -> map fst row = names) -> map fst (fold_left append_row rows r) = names.
Proof.
  induction rows as [|row rows IH]; intros r E H; cbn [fold_left]; [exact E|]. apply IH; [|intros; apply H; now right].
  rewrite append_row_same; auto. rewrite (H row (or_introl eq_refl)), E. apply incl_refl.
Qed.

Lemma build_table names rows one u : (forall row, In row rows -> map fst row = names) -> count one names = 1%nat ->
  check_array_lengths (fold_left append_row rows []) = Ok u -> table_of names rows (fold_left append_row rows []).
Proof.
  intros HN H1 HC. destruct (check_lengths_ok _ _ HC) as [NE HL]. clear HC u.
  set (lp := fold_left append_row rows []) in *.
  assert (rows <> []) as NR by (intros X; apply NE; subst lp; now rewrite X).
  assert (0 < List.length rows)%nat as LR by (destruct rows; [congruence|cbn; lia]).
  assert (NoDup (map fst lp)) as ND by (apply append_rows_nodup; constructor).
  assert (forall m, col_of lp m = flat_map (cells_of m) rows) as CO by (intros m; subst lp; rewrite append_rows_col; reflexivity).
  assert (forall m, In m (map fst lp) <-> In m names) as IN.
  { intros m. subst lp. rewrite append_rows_in. split; [intros [[]|(row & I & J)]; now rewrite <- (HN row I)|]. intros I. right. destruct rows as [|row rows']; [congruence|]. exists row. split; [now left|]. rewrite HN; auto. now left. }
  assert (forall m, In m names -> count m names = 1%nat) as C1.
  { assert (In one names) as I1 by (apply count_in; lia). intros m Im.
    assert (In (m, col_of lp m) lp) as J by (apply in_col; [exact ND|split; [now apply IN|reflexivity]]).
    assert (In (one, col_of lp one) lp) as J1 by (apply in_col; [exact ND|split; [now apply IN|reflexivity]]).
    specialize (HL _ _ J J1). cbn [snd] in HL. rewrite !CO, !(flat_cells_length names) in HL by exact HN. rewrite H1 in HL. nia. }
  assert (NoDup names) as NN.
  { apply count_nodup. intros n. destruct (Nat.eq_dec (count n names) 0) as [E|E]; [lia|]. rewrite C1; [lia|]. apply count_in. lia. }
  constructor; auto.
  - subst lp. destruct rows as [|row rows]; [congruence|]. cbn [fold_left]. apply append_rows_same; [|intros; apply HN; now right].
    rewrite append_row_fresh; cbn [map app]; rewrite (HN row (or_introl eq_refl)); auto.
  - intros col cells I. apply in_col in I; [|exact ND]. destruct I as [I E]. apply IN in I. rewrite <- E, CO, (flat_cells_length names) by exact HN. rewrite C1 by exact I. lia.
  - intros t row col v E I. exists (col_of lp col).
    assert (In row rows) as Ir by (eapply nth_error_In; eauto).
    assert (In col names) as Ic by (rewrite <- (HN row Ir); now apply (in_map fst) in I).
    split; [apply in_col; [exact ND|split; [now apply IN|reflexivity]]|]. rewrite CO.
    assert (forall y, In y rows -> List.length (cells_of col y) = 1%nat) as LL by (intros y Iy; rewrite cells_of_length, (HN y Iy); auto).
    eapply flat_single; eauto. specialize (LL row Ir). assert (In v (cells_of col row)) as Iv.
    { unfold cells_of. apply in_map_iff. exists (col, v). split; auto. apply filter_In. split; auto. cbn [fst]. apply String.eqb_refl. }
    destruct (cells_of col row) as [|w [|? ?]]; try discriminate. destruct Iv as [->|[]]. reflexivity.
Qed.
