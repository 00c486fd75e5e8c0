(** * PropAccounts: accounts are additive (C41) *)
From Verif Require Import Base Params Types Spec SpecReport Constraints Objectives Extract Emit Prim Terms SpecDicts PropDicts Accounting SpecAccounts.
Open Scope Q_scope.
Open Scope string_scope.

(** ** Columns as sums over rows *)
Lemma zip_sum (a b : list cell) n : (List.length b <= n)%nat ->
  dot a b == Qsum (map (fun t => zero_none (nth t a None) * zero_none (nth t b None)) (seq 0 n)).
Proof.
  unfold dot, col_sum. revert a n. induction b as [|y b IH]; intros a n L.
  - assert (zip_cells cmul a [] = []) as -> by (destruct a; reflexivity). cbn [map Qsum fold_right]. symmetry. apply Qsum_map_zero. intros t _.
    assert (nth t (@nil cell) None = None) as -> by (destruct t; reflexivity). cbn [zero_none]. ring.
  - destruct n as [|n]; [cbn in L; lia|]. destruct a as [|x a]; cbn [zip_cells].
    + cbn [map Qsum fold_right]. symmetry. apply Qsum_map_zero. intros t _.
      assert (nth t (@nil cell) None = None) as -> by (destruct t; reflexivity). cbn [zero_none]. ring.
    + cbn [map seq Qsum fold_right nth]. fold (Qsum (map zero_none (zip_cells cmul a b))). rewrite (IH a n) by (cbn in L; lia).
      rewrite <- seq_shift, map_map. cbn [nth]. unfold Qsum. apply Qplus_comp; [|reflexivity].
      destruct x, y; cbn [cmul zero_none]; ring.
Qed.
Lemma col_sum_rows (a : list cell) n : (List.length a <= n)%nat -> col_sum a == Qsum (map (fun t => zero_none (nth t a None)) (seq 0 n)).
Proof.
  unfold col_sum. revert n. induction a as [|x a IH]; intros n L.
  - symmetry. apply Qsum_map_zero. intros t _. destruct t; reflexivity.
  - destruct n as [|n]; [cbn in L; lia|]. cbn [map seq Qsum fold_right nth]. fold (Qsum (map zero_none a)). rewrite (IH n) by (cbn in L; lia).
    rewrite <- seq_shift, map_map. reflexivity.
Qed.
Lemma get_col_in (r : frame) k c : get_col r k = Ok c -> In (k, c) r.
Proof.
  unfold get_col. induction r as [|[m x] r IH]; cbn [assoc of_option]; [discriminate|].
  destruct (k =? m) eqn:E; intros H; [injection H as <-; apply String.eqb_eq in E; subst; now left|right; auto].
Qed.
Lemma get_col_num (r : frame) k c t : get_col r k = Ok c -> zero_none (nth t c None) = num r k t.
Proof.
  unfold get_col, num. change (assoc k r) with (@assoc (list cell) k r). destruct (@assoc (list cell) k r) as [x|]; [|discriminate].
  intros H. injection H as ->. reflexivity.
Qed.
Lemma dot_value (p r : frame) pk rk pc rc n : get_col p pk = Ok pc -> get_col r rk = Ok rc -> full_table r n ->
  dot pc rc == value_of_energy n p pk r rk.
Proof.
  intros P R F. rewrite (zip_sum pc rc n). 2:{ pose proof (F _ _ (get_col_in _ _ _ R)) as L. unfold cell in *. lia. }
  unfold value_of_energy. apply Qsum_map_ext. intros t _. now rewrite (get_col_num _ _ _ _ P), (get_col_num _ _ _ _ R).
Qed.
Lemma col_sum_scale q l : col_sum (map (cmul (Some q)) l) == q * col_sum l.
Proof. unfold col_sum. rewrite map_map, <- Qsum_map_scale. apply Qsum_map_ext. intros [x|] _; cbn [cmul zero_none]; ring. Qed.

(** ** C41: what the accounts are made of *)
(** The energy is read from the results and the prices from the price results (the results themselves unless they are
    given); a row without a price costs nothing. *)
Theorem C41_accounts : forall r p ts v a n, get_accounts r (Some p) ts v = Ok a -> full_table r n ->
  let el := as_electricity a in
  el_import_cost el == value_of_energy n p "site-electricity_prices" r "site-import_power_mwh" /\
  el_export_cost el == - value_of_energy n p "site-electricity_prices" r "site-export_power_mwh" /\
  el_cost el == el_import_cost el + el_export_cost el /\
  el_import_emissions el == value_of_energy n p "site-electricity_carbon_intensities" r "site-import_power_mwh" /\
  el_export_emissions el == - value_of_energy n p "site-electricity_carbon_intensities" r "site-export_power_mwh" /\
  el_emissions el == el_import_emissions el + el_export_emissions el /\
  ac_cost (as_gas a) == value_of_energy n p "site-gas_prices" r "total-gas_consumption_mwh" /\
  ac_emissions (as_gas a) == gas_intensity * energy_sum n r "total-gas_consumption_mwh" /\
  ac_emissions (as_custom a) == 0 /\
  as_cost a == el_cost el + ac_cost (as_gas a) + ac_cost (as_custom a) /\
  as_profit a == - as_cost a /\
  as_emissions a == el_emissions el + ac_emissions (as_gas a).
Proof.
  intros r p ts v a n H F. unfold get_accounts in H. unb H. injection H as <-.
  cbn [as_electricity as_gas as_custom as_cost as_profit as_emissions ac_cost ac_emissions].
  unfold get_one_electricity_account in E0. unb E0. injection E0 as <-.
  unfold get_one_gas_account in E1. unb E1. injection E1 as <-.
  cbn [el_import_cost el_export_cost el_cost el_import_emissions el_export_emissions el_emissions ac_cost ac_emissions].
  splits; try reflexivity; try ring.
  - eapply dot_value; eauto.
  - rewrite (dot_value p r _ _ _ _ n) by eauto. reflexivity.
  - eapply dot_value; eauto.
  - rewrite (dot_value p r _ _ _ _ n) by eauto. reflexivity.
  - eapply dot_value; eauto.
  - rewrite col_sum_scale. unfold gas_intensity, d_gas_carbon_intensity. rewrite (col_sum_rows x7 n).
    2:{ pose proof (F _ _ (get_col_in _ _ _ E7)) as L. unfold cell in *. lia. }
    apply Qmult_comp; [reflexivity|]. unfold energy_sum. apply Qsum_map_ext. intros t _. now rewrite (get_col_num _ _ _ _ E7).
Qed.
Theorem C41_prices_default : forall r ts v, get_accounts r None ts v = get_accounts r (Some r) ts v.
Proof. reflexivity. Qed.
(** The difference of two simulations' accounts values the differences in energy. *)
Theorem C41_difference : forall r1 r2 p v1 v2 a1 a2 n,
  get_accounts r1 (Some p) None v1 = Ok a1 -> get_accounts r2 (Some p) None v2 = Ok a2 -> full_table r1 n -> full_table r2 n ->
  let less col t := num r1 col t - num r2 col t in
  let d := account_sub (of_accounts a1) (of_accounts a2) in
  ac_cost d == Qsum (map (fun t => num p "site-electricity_prices" t * (less "site-import_power_mwh" t - less "site-export_power_mwh" t)
                                   + num p "site-gas_prices" t * less "total-gas_consumption_mwh" t) (seq 0 n)) /\
  ac_emissions d == Qsum (map (fun t => num p "site-electricity_carbon_intensities" t * (less "site-import_power_mwh" t - less "site-export_power_mwh" t)
                                   + gas_intensity * less "total-gas_consumption_mwh" t) (seq 0 n)).
Proof.
  intros r1 r2 p v1 v2 a1 a2 n H1 H2 F1 F2 less d.
  assert (ac_cost (as_custom a1) == 0) as K1 by (unfold get_accounts in H1; unb H1; injection H1 as <-; cbn in E2; injection E2 as <-; reflexivity).
  assert (ac_cost (as_custom a2) == 0) as K2 by (unfold get_accounts in H2; unb H2; injection H2 as <-; cbn in E2; injection E2 as <-; reflexivity).
  destruct (C41_accounts _ _ _ _ _ _ H1 F1) as (A1 & A2 & A3 & A4 & A5 & A6 & A7 & A8 & A9 & A10 & A11 & A12).
  destruct (C41_accounts _ _ _ _ _ _ H2 F2) as (B1 & B2 & B3 & B4 & B5 & B6 & B7 & B8 & B9 & B10 & B11 & B12).
  unfold d, of_accounts, account_sub. cbn [ac_cost ac_emissions].
  rewrite A10, B10, A12, B12, A3, B3, A6, B6, A1, A2, A4, A5, A7, A8, B1, B2, B4, B5, B7, B8, K1, K2.
  unfold value_of_energy, energy_sum. rewrite <- !Qsum_map_scale.
  assert (forall f g : nat -> Q, Qsum (map f (seq 0 n)) - Qsum (map g (seq 0 n)) == Qsum (map (fun t => f t - g t) (seq 0 n))) as M
    by (intros; symmetry; apply Qsum_map_minus).
  assert (forall f g : nat -> Q, Qsum (map f (seq 0 n)) + Qsum (map g (seq 0 n)) == Qsum (map (fun t => f t + g t) (seq 0 n))) as P
    by (intros; symmetry; apply Qsum_map_plus).
  assert (forall f : nat -> Q, - Qsum (map f (seq 0 n)) == Qsum (map (fun t => - f t) (seq 0 n))) as N.
  { intros f. setoid_replace (- Qsum (map f (seq 0 n))) with ((-1) * Qsum (map f (seq 0 n))) by ring. rewrite <- Qsum_map_scale.
    apply Qsum_map_ext. intros; ring. }
  rewrite !Qplus_0_r. repeat (rewrite ?N, ?P, ?M). split; apply Qsum_map_ext; intros t _; unfold less; ring.
Qed.

(** ** Tables below each other *)
Lemma stack_get (r1 r2 : table) k : same_columns r1 r2 -> forall c1 c2, get_col r1 k = Ok c1 -> get_col r2 k = Ok c2 ->
  get_col (stack r1 r2) k = Ok (c1 ++ c2)%list.
Proof.
  unfold same_columns, get_col. revert r2. induction r1 as [|[m x] r1 IH]; intros [|[m' y] r2] S c1 c2; cbn [map] in S; try discriminate.
  cbn [fst] in S. injection S as <- S. cbn [stack assoc]. destruct (k =? m) eqn:E; cbn [of_option].
  - intros H1 H2. injection H1 as ->. injection H2 as ->. reflexivity.
  - intros H1 H2. apply (IH r2 S c1 c2 H1 H2).
Qed.
Lemma stack_filter (p : string -> bool) (r1 r2 : table) : same_columns r1 r2 ->
  filter (fun nc => p (fst nc)) (stack r1 r2) = stack (filter (fun nc => p (fst nc)) r1) (filter (fun nc => p (fst nc)) r2)
  /\ same_columns (filter (fun nc => p (fst nc)) r1) (filter (fun nc => p (fst nc)) r2).
Proof.
  unfold same_columns. revert r2. induction r1 as [|[m x] r1 IH]; intros [|[m' y] r2] S; cbn [map] in S; try discriminate; [cbn; auto|].
  cbn [fst] in S. injection S as <- S. destruct (IH r2 S) as [A B]. cbn [stack filter fst]. destruct (p m); cbn [stack map fst]; rewrite ?A, ?B; auto.
Qed.
Lemma full_cons col c (r : table) n : full_table ((col, c) :: r) n -> List.length c = n /\ full_table r n.
Proof. intros F. split; [eapply F; now left|]. intros k x I. eapply F. right. eauto. Qed.
Lemma full_filter p (r : table) n : full_table r n -> full_table (filter p r) n.
Proof. intros F k c I. apply filter_In in I. eapply F, I. Qed.
Lemma zip_app f (a1 a2 b1 b2 : list cell) : List.length a1 = List.length b1 ->
  zip_cells f (a1 ++ a2) (b1 ++ b2) = (zip_cells f a1 b1 ++ zip_cells f a2 b2)%list.
Proof. revert b1. induction a1 as [|x a1 IH]; intros [|y b1] L; try discriminate; cbn; [auto|]. rewrite IH; auto. Qed.
Lemma zip_length f (a b : list cell) : List.length a = List.length b -> List.length (zip_cells f a b) = List.length a.
Proof. revert b. induction a as [|x a IH]; intros [|y b] L; try discriminate; cbn; [auto|]. rewrite IH; auto. Qed.
Lemma col_sum_app a b : col_sum (a ++ b) == col_sum a + col_sum b.
Proof. unfold col_sum. rewrite map_app. apply Qsum_app. Qed.
Lemma dot_app a1 a2 b1 b2 : List.length a1 = List.length b1 -> dot (a1 ++ a2) (b1 ++ b2) == dot a1 b1 + dot a2 b2.
Proof. intros L. unfold dot. rewrite zip_app by auto. apply col_sum_app. Qed.

Section stacked.
Context (r1 r2 p1 p2 : table) (n1 n2 : nat).
Hypothesis R : same_columns r1 r2.
Hypothesis P : same_columns p1 p2.
Hypothesis FR1 : full_table r1 n1.
Hypothesis FR2 : full_table r2 n2.
Hypothesis FP1 : full_table p1 n1.
Hypothesis FP2 : full_table p2 n2.

Lemma len1 k c : get_col r1 k = Ok c -> List.length c = n1.
Proof. intros G. exact (FR1 _ _ (get_col_in _ _ _ G)). Qed.
Lemma lenp k c : get_col p1 k = Ok c -> List.length c = n1.
Proof. intros G. exact (FP1 _ _ (get_col_in _ _ _ G)). Qed.

Lemma stack_electricity a1 a2 : get_one_electricity_account r1 p1 = Ok a1 -> get_one_electricity_account r2 p2 = Ok a2 ->
  exists a, get_one_electricity_account (stack r1 r2) (stack p1 p2) = Ok a /\ electricity_sum a1 a2 a.
Proof.
  unfold get_one_electricity_account. intros H1 H2. unb H1. unb H2. injection H1 as <-. injection H2 as <-.
  rewrite (stack_get _ _ _ P _ _ E E3), (stack_get _ _ _ R _ _ E0 E4), (stack_get _ _ _ R _ _ E1 E5), (stack_get _ _ _ P _ _ E2 E6).
  cbn [rbind]. eexists. split; [reflexivity|]. unfold electricity_sum.
  cbn [el_import_cost el_export_cost el_cost el_import_emissions el_export_emissions el_emissions].
  assert (List.length x = n1) as L by eauto using lenp. assert (List.length x2 = n1) as L2 by eauto using lenp.
  assert (List.length x0 = n1) as L0 by eauto using len1. assert (List.length x1 = n1) as L1 by eauto using len1.
  rewrite !dot_app by congruence. splits; ring.
Qed.
Lemma stack_gas a1 a2 : get_one_gas_account r1 p1 = Ok a1 -> get_one_gas_account r2 p2 = Ok a2 ->
  exists a, get_one_gas_account (stack r1 r2) (stack p1 p2) = Ok a /\ account_sum a1 a2 a.
Proof.
  unfold get_one_gas_account. intros H1 H2. unb H1. unb H2. injection H1 as <-. injection H2 as <-.
  rewrite (stack_get _ _ _ P _ _ E E1), (stack_get _ _ _ R _ _ E0 E2).
  cbn [rbind]. eexists. split; [reflexivity|]. unfold account_sum. cbn [ac_cost ac_emissions].
  assert (List.length x = n1) as L by eauto using lenp. assert (List.length x0 = n1) as L0 by eauto using len1.
  rewrite !dot_app by congruence. rewrite map_app, col_sum_app. split; reflexivity.
Qed.
End stacked.

Lemma n_rows_full (r : table) n : full_table r n -> r <> [] -> n_rows r = n.
Proof. destruct r as [|[k c] r]; [congruence|]. intros F _. destruct (full_cons _ _ _ _ F). auto. Qed.
Section checks.
Context (r1 r2 : table) (n1 n2 : nat).
Hypothesis R : same_columns r1 r2.
Hypothesis F1 : full_table r1 n1.
Lemma len_get k c : get_col r1 k = Ok c -> List.length c = n1.
Proof. intros G. exact (F1 _ _ (get_col_in _ _ _ G)). Qed.
Lemma rassert_true b u : rassert b = Ok u -> b = true.
Proof. destruct b; [auto|discriminate]. Qed.
Lemma stack_heat g l : check_heat_balance r1 g l = Ok tt -> check_heat_balance r2 g l = Ok tt -> check_heat_balance (stack r1 r2) g l = Ok tt.
Proof.
  unfold check_heat_balance. intros H1 H2. unb H1. unb H2. apply rassert_true in H1, H2.
  rewrite (stack_get _ _ _ R _ _ E E1), (stack_get _ _ _ R _ _ E0 E2). cbn [rbind].
  assert (List.length x = n1) by eauto using len_get. assert (List.length x0 = n1) by eauto using len_get.
  rewrite zip_app by congruence. rewrite forallb_app, H1, H2. reflexivity.
Qed.
Lemma stack_check : check_results r1 false = Ok tt -> check_results r2 false = Ok tt -> check_results (stack r1 r2) false = Ok tt.
Proof.
  unfold check_results. intros H1 H2. unb H1. unb H2. destruct x, x0, x1, x2, x3, x4.
  rewrite (stack_heat _ _ E0 E3), (stack_heat _ _ E1 E4). clear E0 E1 E3 E4 H1 H2.
  enough (check_electricity_balance (stack r1 r2) = Ok tt) as -> by reflexivity.
  unfold check_electricity_balance in E, E2 |- *. unb E. unb E2. apply rassert_true in E, E2.
  rewrite (stack_get _ _ _ R _ _ E0 E9), (stack_get _ _ _ R _ _ E1 E10), (stack_get _ _ _ R _ _ E3 E11), (stack_get _ _ _ R _ _ E4 E12),
    (stack_get _ _ _ R _ _ E5 E13), (stack_get _ _ _ R _ _ E6 E14), (stack_get _ _ _ R _ _ E7 E15), (stack_get _ _ _ R _ _ E8 E16).
  cbn [rbind].
  assert (List.length x = n1) by eauto using len_get. assert (List.length x0 = n1) by eauto using len_get. assert (List.length x1 = n1) by eauto using len_get.
  assert (List.length x2 = n1) by eauto using len_get. assert (List.length x3 = n1) by eauto using len_get. assert (List.length x4 = n1) by eauto using len_get.
  rewrite (zip_app cadd x), (zip_app cadd x1), (zip_app csub x3) by congruence.
  assert (forall f (a b : list cell), List.length a = n1 -> List.length b = n1 -> List.length (zip_cells f a b) = n1) as ZL
    by (intros f a b LA LB; rewrite zip_length; congruence).
  rewrite (zip_app cadd (zip_cells cadd x x0)) by (rewrite !ZL; auto). rewrite (zip_app csub) by (rewrite !ZL; auto).
  rewrite forallb_app, E, E2. reflexivity.
Qed.
End checks.

Section custom.
Context (r1 r2 : table) (n1 n2 : nat).
Hypothesis R : same_columns r1 r2.
Hypothesis F1 : full_table r1 n1.
Hypothesis F2 : full_table r2 n2.
Hypothesis N : r1 <> [].
Lemma stack_rows : n_rows r1 = n1 /\ n_rows r2 = n2 /\ n_rows (stack r1 r2) = (n1 + n2)%nat.
Proof.
  assert (r2 <> []) as N2. { intros ->. unfold same_columns in R. destruct r1; [congruence|discriminate]. }
  rewrite (n_rows_full _ _ F1 N), (n_rows_full _ _ F2 N2). splits; auto.
  destruct r1 as [|[k c] l]; [congruence|]. destruct r2 as [|[k' c'] l']; [congruence|]. cbn [stack n_rows].
  destruct (full_cons _ _ _ _ F1) as [L1 _], (full_cons _ _ _ _ F2) as [L2 _]. rewrite <- L1, <- L2. apply app_length.
Qed.
Definition scaled (q : Q) (factor : list cell) (nc : string * list cell) : Q :=
  col_sum (map (fun x => cmul x (Some q)) (zip_cells cmul (snd nc) factor)).
Lemma scaled_stack q f1 f2 (s1 s2 : table) : same_columns s1 s2 -> full_table s1 n1 -> List.length f1 = n1 ->
  Qsum (map (scaled q (f1 ++ f2)%list) (stack s1 s2)) == Qsum (map (scaled q f1) s1) + Qsum (map (scaled q f2) s2).
Proof.
  intros S FS L. revert s2 S. induction s1 as [|[k c] s1 IH]; intros [|[k' c'] s2] S; try discriminate S; [reflexivity|].
  unfold same_columns in S. cbn [map fst] in S. injection S as <- S. destruct (full_cons _ _ _ _ FS) as [LC FS'].
  cbn [stack map Qsum fold_right]. fold (Qsum (map (scaled q (f1 ++ f2)%list) (stack s1 s2))). fold (Qsum (map (scaled q f1) s1)). fold (Qsum (map (scaled q f2) s2)).
  assert (scaled q (f1 ++ f2)%list (k, (c ++ c')%list) == scaled q f1 (k, c) + scaled q f2 (k, c')) as ->.
  { unfold scaled. cbn [snd]. rewrite zip_app by exact (eq_trans LC (eq_sym L)). rewrite map_app. apply col_sum_app. }
  rewrite (IH FS' s2 S). ring.
Qed.
Lemma stack_simple t x1 x2 : simple_cost r1 t = Ok x1 -> simple_cost r2 t = Ok x2 ->
  exists x, simple_cost (stack r1 r2) t = Ok x /\ x == x1 + x2.
Proof.
  unfold simple_cost. intros H1 H2. unb H1. unb H2. injection H1 as <-. injection H2 as <-.
  destruct stack_rows as (N1 & N2 & N12).
  assert (match t_interval_data t with Some n => get_col (stack r1 r2) ("site-" ++ n) | None => Ok (repeat (Some 1) (n_rows (stack r1 r2))) end
          = Ok (x ++ x0)%list /\ List.length x = n1) as [-> L].
  { destruct (t_interval_data t).
    - split; [apply stack_get; auto|exact (F1 _ _ (get_col_in _ _ _ E))].
    - injection E as <-. injection E0 as <-. rewrite N12, N1, N2, repeat_length. split; auto. now rewrite repeat_app. }
  cbn [rbind]. eexists. split; [reflexivity|].
  assert (exists p : string -> bool, forall r : frame, simple_columns r t = filter (fun nc => p (fst nc)) r) as (p & PF).
  { unfold simple_columns. destruct (by_type_only t); [exists (ends_with (t_variable t)); reflexivity|].
    unfold find_asset_by_name. exists (fun k => (ends_with (t_variable t) k && starts_with ((match t_asset_name t with Some n => n | None => "None" end) ++ "-") k)%bool). reflexivity. }
  rewrite !PF. destruct (stack_filter p r1 r2 R) as [SF S].
  change (Qsum (map (scaled (t_coefficient t) (x ++ x0)%list) (filter (fun nc : string * list (option Q) => p (fst nc)) (stack r1 r2))) ==
    Qsum (map (scaled (t_coefficient t) x) (filter (fun nc => p (fst nc)) r1)) + Qsum (map (scaled (t_coefficient t) x0) (filter (fun nc => p (fst nc)) r2))).
  rewrite SF.
  apply scaled_stack; auto. now apply full_filter.
Qed.
Lemma no_nan_app a b x y : no_nan a = Ok x -> no_nan b = Ok y -> no_nan (a ++ b) = Ok (x ++ y)%list.
Proof.
  unfold no_nan. revert x. induction a as [|c a IH]; intros x H1 H2; cbn [rmap app] in *.
  - injection H1 as <-. exact H2.
  - unb H1. injection H1 as <-. rewrite E. cbn [rbind]. rewrite (IH _ E0 H2). reflexivity.
Qed.
Lemma no_nan_length a x : no_nan a = Ok x -> List.length x = List.length a.
Proof. unfold no_nan. revert x. induction a as [|c a IH]; intros x H; cbn [rmap] in H; [injection H as <-; auto|]. unb H. injection H as <-. cbn. now rewrite (IH _ E0). Qed.
Lemma combine_app {A B} (a1 a2 : list A) (b1 b2 : list B) : List.length a1 = List.length b1 -> combine (a1 ++ a2) (b1 ++ b2) = (combine a1 b1 ++ combine a2 b2)%list.
Proof. revert b1. induction a1 as [|x a1 IH]; intros [|y b1] L; try discriminate; cbn; [auto|]. rewrite IH; auto. Qed.
Lemma stack_values x c1 c2 : find_values_for_term r1 x = Ok c1 -> find_values_for_term r2 x = Ok c2 ->
  find_values_for_term (stack r1 r2) x = Ok (c1 ++ c2)%list /\ List.length c1 = n1.
Proof.
  destruct stack_rows as (N1 & N2 & N12). destruct x as [t|q]; cbn [find_values_for_term].
  - destruct (match t_asset_type t with Some ty => ty =? "site" | None => false end); cbn [rassert rbind]; [|discriminate].
    destruct (match t_asset_name t with Some n => n =? "site" | None => true end); cbn [rassert rbind]; [|discriminate].
    intros H1 H2. split; [apply stack_get; auto|]. exact (F1 _ _ (get_col_in _ _ _ H1)).
  - intros H1 H2. injection H1 as <-. injection H2 as <-. rewrite N1, N2, N12, repeat_app, repeat_length. auto.
Qed.
Lemma stack_two t g y1 y2 : two_cost r1 t g = Ok y1 -> two_cost r2 t g = Ok y2 ->
  exists y, two_cost (stack r1 r2) t g = Ok y /\ y == y1 + y2.
Proof.
  unfold two_cost. intros H1 H2. unb H1. unb H2.
  destruct (stack_values _ _ _ E E4) as [-> L], (stack_values _ _ _ E0 E5) as [-> L0]. cbn [rbind].
  assert (List.length x4 = List.length x5) as L45. { apply rassert_true in E6. now apply Nat.eqb_eq in E6. }
  rewrite !app_length. replace (_ =? _)%nat with true by (symmetry; apply Nat.eqb_eq; lia). cbn [rassert rbind].
  rewrite (no_nan_app _ _ _ _ E2 E7), (no_nan_app _ _ _ _ E3 E8). cbn [rbind].
  pose proof (no_nan_length _ _ E2) as M2. pose proof (no_nan_length _ _ E3) as M3.
  assert (List.length x2 = List.length x3) as M by congruence. clear - H1 H2 M.
  destruct (w_interval_data t) as [[|]|]; try discriminate; injection H1 as <-; injection H2 as <-; eexists; (split; [reflexivity|]);
    rewrite combine_app, map_app by auto; apply Qsum_app.
Qed.
Lemma rmap_sum (f1 f2 f : one_term -> res Q) l x1 x2 :
  (forall t y1 y2, In t l -> f1 t = Ok y1 -> f2 t = Ok y2 -> exists y, f t = Ok y /\ y == y1 + y2) ->
  rmap f1 l = Ok x1 -> rmap f2 l = Ok x2 -> exists x, rmap f l = Ok x /\ Qsum x == Qsum x1 + Qsum x2.
Proof.
  clear. revert x1 x2. induction l as [|t l IH]; intros x1 x2 H H1 H2; cbn [rmap] in *.
  - injection H1 as <-. injection H2 as <-. exists []. split; reflexivity.
  - unb H1. unb H2. injection H1 as <-. injection H2 as <-.
    destruct (H t _ _ (or_introl eq_refl) E E1) as (y & -> & Y). destruct (IH _ _ (fun u a b I => H u a b (or_intror I)) E0 E2) as (ys & -> & YS).
    cbn [rbind]. eexists. split; [reflexivity|]. cbn [Qsum fold_right]. unfold Qsum in YS. rewrite Y, YS. unfold Qsum. ring.
Qed.
Lemma stack_custom args x1 x2 :
  (forall l, args = Some l -> forall a t a', In a l -> term_factory a = Ok (t, a') -> over_time t = false) ->
  custom_costs r1 args = Ok x1 -> custom_costs r2 args = Ok x2 -> exists x, custom_costs (stack r1 r2) args = Ok x /\ x == x1 + x2.
Proof.
  intros OT. destruct args as [args|]; cbn [custom_costs]; [|intros H1 H2; injection H1 as <-; injection H2 as <-; exists 0; split; [auto|ring]].
  intros H1 H2. apply rbind_ok in H1, H2. destruct H1 as (ts & TS & H1), H2 as (ts' & TS' & H2).
  assert (ts' = ts) as -> by congruence. rewrite TS. cbn [rbind].
  assert (forall t, In t (map fst ts) -> over_time t = false) as NT.
  { specialize (OT args eq_refl). clear - TS OT. revert ts TS. induction args as [|a l IH]; intros ts TS; cbn [rmap] in TS.
    - injection TS as <-. intros t [].
    - unb TS. injection TS as <-. intros t [<-|I]; [destruct x; eapply OT; [now left|eauto]|]. eapply IH; eauto. intros; eapply OT; eauto. now right. }
  unb H1. unb H2. injection H1 as <-. injection H2 as <-.
  unfold add_simple_terms, add_two_variable_terms, add_many_variable_terms in *.
  unb E. injection E as <-. unb E0. injection E0 as <-. unb E1. injection E1 as <-. unb E2. injection E2 as <-. unb E3. injection E3 as <-. unb E4. injection E4 as <-.
  edestruct (rmap_sum (one_simple r1) (one_simple r2) (one_simple (stack r1 r2))) as (y1 & -> & Y1); eauto.
  { intros t a b _. unfold one_simple. destruct (one_term_type t =? "simple"); [destruct t; try discriminate; apply stack_simple|].
    intros A B. injection A as <-. injection B as <-. exists 0. split; [auto|ring]. }
  edestruct (rmap_sum (one_two r1) (one_two r2) (one_two (stack r1 r2))) as (y2 & -> & Y2); eauto.
  { intros t a b _. unfold one_two. destruct (one_term_type t =? "complex").
    - destruct (one_term_function t) as [f|]; cbn [rbind]; [|discriminate]. destruct (two_function f) as [g|].
      + destruct t; try discriminate. apply stack_two.
      + intros A B. injection A as <-. injection B as <-. exists 0. split; [auto|ring].
    - intros A B. injection A as <-. injection B as <-. exists 0. split; [auto|ring]. }
  edestruct (rmap_sum (one_many r1) (one_many r2) (one_many (stack r1 r2))) as (y3 & -> & Y3); eauto.
  { intros t a b I. specialize (NT t I). unfold one_many. destruct (one_term_type t =? "complex").
    - destruct (one_term_function t) as [f|]; cbn [rbind]; [|discriminate]. destruct (many_function f) as [g|].
      + destruct t; try discriminate.
      + intros A B. injection A as <-. injection B as <-. exists 0. split; [auto|ring].
    - intros A B. injection A as <-. injection B as <-. exists 0. split; [auto|ring]. }
  cbn [rbind]. eexists. split; [reflexivity|]. rewrite Y1, Y2, Y3. ring.
Qed.
End custom.

(** The accounts of two simulations below each other are the sums of their accounts; only terms over the maximum or
    minimum of a whole simulation are not of that kind. *)
Theorem C41_concatenation : forall r1 r2 p1 p2 n1 n2 ts v a1 a2,
  same_columns r1 r2 -> same_columns p1 p2 -> full_table r1 n1 -> full_table r2 n2 -> full_table p1 n1 -> full_table p2 n2 ->
  (forall l, ts = Some l -> forall x t x', In x l -> term_factory x = Ok (t, x') -> over_time t = false) ->
  get_accounts r1 (Some p1) ts v = Ok a1 -> get_accounts r2 (Some p2) ts v = Ok a2 ->
  exists a, get_accounts (stack r1 r2) (Some (stack p1 p2)) ts v = Ok a /\ accounts_sum a1 a2 a.
Proof.
  intros r1 r2 p1 p2 n1 n2 ts v a1 a2 R P FR1 FR2 FP1 FP2 OT H1 H2. unfold get_accounts in *.
  unb H1. unb H2. injection H1 as <-. injection H2 as <-.
  assert ((if v then let! _ := check_results (stack r1 r2) false in check_results (stack p1 p2) false else Ok tt) = Ok tt) as ->.
  { destruct v; [|auto]. apply rbind_ok in E, E3. destruct E as ([] & A1 & A2), E3 as ([] & B1 & B2). destruct x, x3. rewrite (stack_check r1 r2 n1 R FR1) by assumption. cbn [rbind]. apply (stack_check p1 p2 n1 P FP1); assumption. }
  cbn [rbind].
  destruct (stack_electricity r1 r2 p1 p2 n1 R P FR1 FP1 _ _ E0 E4) as (el & -> & EL). cbn [rbind].
  destruct (stack_gas r1 r2 p1 p2 n1 R P FR1 FP1 _ _ E1 E5) as (ga & -> & GA). cbn [rbind].
  assert (r1 <> []) as N. { intros ->. unfold get_one_electricity_account in E0. destruct (get_col p1 "site-electricity_prices"); discriminate E0. }
  destruct (stack_custom r1 r2 n1 n2 R FR1 FR2 N _ _ _ OT E2 E6) as (cu & -> & CU). cbn [rbind].
  eexists. split; [reflexivity|]. unfold accounts_sum, account_sum. cbn [as_electricity as_gas as_custom as_cost as_profit as_emissions ac_cost ac_emissions].
  destruct EL as (L1 & L2 & L3 & L4 & L5 & L6), GA as [G1 G2].
  splits; auto; try (unfold electricity_sum; splits; assumption); rewrite ?L3, ?G1, ?CU, ?L6, ?G2; ring.
Qed.
