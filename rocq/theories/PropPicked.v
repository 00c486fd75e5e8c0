(** * PropPicked: the data a site hands to the program (C35) and the columns a custom term picks for its account (C43) *)
From Verif Require Import Base Pulp Params Optimizer Types Objectives Constraints Extract Pipeline Terms Emit Prim Spec SpecReport SpecRun SpecNames SpecTerms SpecInput IntervalData PropInput Accounting SpecAccounts PropAccountRun SampleSite SampleAccounts SpecCompare SampleFunctions SampleCompare.
Open Scope Q_scope.
Open Scope string_scope.

(** ** C35: the numbers of the program are the numbers of the site, series by series, unless one is not a number *)
Lemma numbers_iff l q : numbers l = Some q <-> l = map Num q.
Proof.
  split; [apply numbers_length|]. intros ->. unfold numbers. induction q as [|x q IH]; [reflexivity|]. cbn [map num_of all_some]. now rewrite IH.
Qed.
Definition as_numbers (l : list pynum) (q : list Q) : Prop := l = map Num q.
Theorem C35_numbers : forall d q, data_numbers d = Some q <->
  as_numbers (id_electricity_prices d) (id_electricity_prices q) /\ as_numbers (id_export_electricity_prices d) (id_export_electricity_prices q) /\
  as_numbers (id_electricity_carbon_intensities d) (id_electricity_carbon_intensities q) /\ as_numbers (id_gas_prices d) (id_gas_prices q) /\
  as_numbers (id_electric_load_mwh d) (id_electric_load_mwh q) /\ as_numbers (id_high_temperature_load_mwh d) (id_high_temperature_load_mwh q) /\
  as_numbers (id_low_temperature_load_mwh d) (id_low_temperature_load_mwh q) /\ as_numbers (id_low_temperature_generation_mwh d) (id_low_temperature_generation_mwh q) /\
  id_n q = id_n d /\
  Forall2 (fun x y => fst y = fst x /\ as_numbers (snd x) (snd y)) (id_custom d) (id_custom q).
Proof.
  intros d q. unfold as_numbers.
  assert (forall l cu, all_some (map (fun col : string * list pynum => obind (numbers (snd col)) (fun l => Some (fst col, l))) l) = Some cu <->
    Forall2 (fun x y => fst y = fst x /\ snd x = map Num (snd y)) l cu) as CU.
  { induction l as [|[n x] l IH]; intros cu; cbn [map all_some fst snd].
    - split; [intros E; injection E as <-; constructor|intros F; inversion F; reflexivity].
    - split.
      + destruct (numbers x) as [y|] eqn:E; cbn [obind]; [|discriminate]. destruct (all_some _) as [r|] eqn:R; [|discriminate]. intros X. injection X as <-. constructor; [split; [reflexivity|now apply numbers_iff]|now apply IH].
      + intros F. inversion F as [|? [m y] ? r [E1 E2] FR]; subst. cbn [fst snd] in *. subst. rewrite (proj2 (numbers_iff _ y) eq_refl). cbn [obind]. apply IH in FR. rewrite FR. reflexivity. }
  unfold data_numbers. split.
  - intros N. repeat match type of N with obind ?o _ = Some _ => let E := fresh "E" in destruct o eqn:E; cbn [obind] in N; [|discriminate] end.
    injection N as <-. cbn [id_electricity_prices id_export_electricity_prices id_electricity_carbon_intensities id_gas_prices id_electric_load_mwh id_high_temperature_load_mwh id_low_temperature_load_mwh id_low_temperature_generation_mwh id_n id_custom].
    splits; try (apply numbers_iff; assumption); [reflexivity|]. apply CU. assumption.
  - intros (E1 & E2 & E3 & E4 & E5 & E6 & E7 & E8 & EN & EC). apply CU in EC.
    rewrite (proj2 (numbers_iff _ _) E1), (proj2 (numbers_iff _ _) E2), (proj2 (numbers_iff _ _) E3), (proj2 (numbers_iff _ _) E4), (proj2 (numbers_iff _ _) E5), (proj2 (numbers_iff _ _) E6), (proj2 (numbers_iff _ _) E7), (proj2 (numbers_iff _ _) E8), EC.
    cbn [obind]. rewrite <- EN. destruct q; reflexivity.
Qed.
Example C35_numbers_sample : data_numbers (mkIdata [Num 10] [Num 5] [Num (1#10)] [Num 20] [Num 1] [Num 2] [Num 3] [Num 4] 1 [("x", [Num 7])]) =
  Some (mkIdata [10] [5] [1#10] [20] [1] [2] [3] [4] 1 [("x", [7])]).
Proof. reflexivity. Qed.

(** ** C43: which columns *)
Lemma before_split x a : contains "-" a = false -> before_last_dash (x ++ "-" ++ a) = Some x.
Proof.
  assert (forall a, contains "-" a = false -> before_last_dash a = None) as N.
  { clear. induction a as [|b a IH]; intros H; [reflexivity|]. cbn [contains prefix before_last_dash] in *. apply orb_false_iff in H. destruct H as [H1 H2]. rewrite IH by exact H2. destruct (ascii_dec "-" b) as [<-|X]; [destruct a; discriminate H1|]. destruct (Ascii.eqb_spec b "-"); [congruence|reflexivity]. }
  intros H. induction x as [|b x IH]; cbn [append before_last_dash].
  - rewrite (N a H). reflexivity.
  - change ("-" ++ a) with (String "-" a) in IH. cbn [append] in IH |- *. rewrite IH. reflexivity.
Qed.
Lemma before_some s : forall p, before_last_dash s = Some p -> exists a, s = p ++ "-" ++ a /\ contains "-" a = false.
Proof.
  assert (forall a, before_last_dash a = None -> contains "-" a = false) as N.
  { clear. induction a as [|b a IH]; intros H; [reflexivity|]. cbn [contains prefix before_last_dash] in *. destruct (before_last_dash a); [discriminate|]. rewrite IH by reflexivity. destruct (Ascii.eqb_spec b "-") as [->|X]; [discriminate|]. destruct (ascii_dec "-" b) as [<-|Y]; [congruence|reflexivity]. }
  induction s as [|b s IH]; intros p H; [discriminate|]. cbn [before_last_dash] in H. destruct (before_last_dash s) as [p'|] eqn:E.
  - injection H as <-. destruct (IH p' eq_refl) as (a & -> & A). exists a. split; [reflexivity|exact A].
  - destruct (Ascii.eqb_spec b "-") as [->|]; [|discriminate]. injection H as <-. exists s. split; [reflexivity|exact (N s E)].
Qed.
(** A term for an asset type picks the columns "<id>-<attribute>" whose attribute ends with its variable and whose id is the
    type, or "solar" or "wind" for renewable generators. *)
Theorem C43_type_columns : forall (r : table) t ty col cells, contains "-" (t_variable t) = false -> ty <> "" ->
  (In (col, cells) (find_asset_type_with_variables r t ty) <->
   In (col, cells) r /\ exists id attr, col = column id attr /\ contains "-" attr = false /\ ends_with (t_variable t) attr = true /\
     (id = ty \/ ty = "renewable-generator" /\ (id = "solar" \/ id = "wind"))).
Proof.
  intros r t ty col cells D NE. unfold find_asset_type_with_variables. cbv zeta. rewrite filter_In. cbn [fst]. rewrite andb_true_iff, existsb_exists.
  assert (forall id, (exists x, In x (if ty =? "renewable-generator" then ["solar"; "wind"; "renewable-generator"] else [ty]) /\ (id =? x) = true) <->
    id = ty \/ ty = "renewable-generator" /\ (id = "solar" \/ id = "wind")) as W.
  { intros id. destruct (String.eqb_spec ty "renewable-generator") as [->|N].
    - split.
      + intros (x & J & E). apply String.eqb_eq in E. subst x. cbn [In] in J. intuition.
      + intros [->|[_ [->| ->]]]; eexists; (split; [|apply String.eqb_refl]); cbn; tauto.
    - split.
      + intros (x & [<-|[]] & E). apply String.eqb_eq in E. now left.
      + intros [->|[X _]]; [|congruence]. exists ty. split; [now left|apply String.eqb_refl]. }
  rewrite W. split; intros [I K]; (split; [exact I|]).
  - destruct K as [EW T]. unfold type_part in T. destruct (before_last_dash col) as [p|] eqn:B.
    + destruct (before_some _ _ B) as (a & -> & A). exists p, a. splits; auto. rewrite ends_with_dash in EW by exact D. exact EW.
    + exfalso. destruct T as [T|[_ [T|T]]]; [congruence|discriminate|discriminate].
  - destruct K as (id & attr & -> & A & EW & T). unfold column. split; [rewrite ends_with_dash by exact D; exact EW|]. unfold type_part. rewrite before_split by exact A. exact T.
Qed.
(** A term for a name picks every column that starts with "<name>-" and ends with its variable, ... *)
Theorem C43_name_columns : forall (r : table) t n col cells, t_asset_name t = Some n ->
  (In (col, cells) (find_asset_by_name r t) <->
   In (col, cells) r /\ ends_with (t_variable t) col = true /\ exists rest, col = column n rest).
Proof.
  intros r t n col cells E. unfold find_asset_by_name. rewrite E, filter_In. cbn [fst]. rewrite andb_true_iff.
  assert (starts_with (n ++ "-") col = true <-> exists rest, col = column n rest) as K; [|rewrite K; tauto].
  unfold starts_with, column. clear. split.
  - intros H. revert col H. induction n as [|a n IH]; intros col H.
    + destruct col as [|b col]; [discriminate|]. cbn [append prefix] in H. destruct (ascii_dec "-" b) as [<-|]; [|discriminate]. exists col. reflexivity.
    + destruct col as [|b col]; [discriminate|]. cbn [append prefix] in H. destruct (ascii_dec a b) as [<-|]; [|discriminate]. destruct (IH col H) as (rest & ->). exists rest. reflexivity.
  - intros (rest & ->). induction n as [|a n IH]; cbn [append prefix]; [destruct (ascii_dec "-" "-"); [destruct rest; reflexivity|congruence]|]. destruct (ascii_dec a a); [exact IH|congruence].
Qed.
(** ... and so those of an asset whose name only begins that way: a term for "wind" also counts "wind-2". *)
Definition two_winds := [ARenewable (mkRgCfg "wind" 1 [1#4] true); ARenewable (mkRgCfg "wind-2" 1 [1#2] true)].
Definition for_wind := mkTerm "electric_generation_mwh" (Some "renewable-generator") (Some "electricity_prices") (Some "wind") 1 "simple".
Definition windy := run_of (any_solver [1#4; 0; 1; 0; 1#4; 1#2]) h_first two_winds [] (ObjName "price").
Lemma windy_run : feasible_run (any_solver [1#4; 0; 1; 0; 1#4; 1#2]) 0 h_first two_winds [] (ObjName "price") default_flags windy.
Proof. run. Qed.
Theorem C43_prefix_refuted : exists slv base c assets cons obj fl r k a,
  feasible_run slv base c assets cons obj fl r /\ ordinary_names c assets /\ plain_term k /\ known_data c k /\
  t_asset_name k = Some "wind" /\
  get_accounts (r_results r) None (as_custom_terms [k]) true = Ok a /\
  terms_sum (reported r) c assets [k] == 10 * (1#4) /\ ac_cost (as_custom a) == 10 * (3#4).
Proof.
  exists (any_solver [1#4; 0; 1; 0; 1#4; 1#2]), 0%nat, h_first, two_winds, [], (ObjName "price"), default_flags, windy, for_wind. eexists.
  splits; [exact windy_run| |split; [reflexivity|apply in_plain; reflexivity]| |reflexivity|vm_compute; reflexivity|vm_compute; reflexivity|vm_compute; reflexivity].
  - split; [|intros col []]. intros a J. cbn [two_winds In] in J. destruct J as [<-|[<-|[]]]; cbn [ordinary_asset asset_name]; (split; [reflexivity|]); intros q Iq; unfold quantity_names in Iq; cbn [In] in Iq; repeat (destruct Iq as [<-|Iq]; [reflexivity|]); destruct Iq.
  - unfold known_data. change (t_interval_data for_wind) with (Some "electricity_prices"). split; [discriminate|now left].
Qed.
