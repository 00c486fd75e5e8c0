(** * PropWhole: property C63 (from the arguments of the constructors to a result) *)
From Verif Require Import Base Pulp Params Optimizer Types Assets EVs Site Constraints Objectives Extract Pipeline Emit Prim Spec SpecReport SpecRun SpecCost SpecNames SpecColumns SpecCompare SpecTotals.
From Verif Require Import IntervalData Ctors SpecInput SpecPossible SemProg Complete PropBasics PropInput PropCtors PropColumns PropPossible Plain.
Open Scope Q_scope.
Open Scope string_scope.

Lemma held_nonneg f n col l : holds_what 0 f n (map Num col) -> never_negative f -> l = col -> Forall (fun x => 0 <= x) l.
Proof.
  intros (L & H) NN ->. rewrite Forall_forall. intros x Ix. apply In_nth_error in Ix. destruct Ix as (t & E).
  assert (t < n)%nat as Ht by (rewrite <- L, map_length; apply nth_error_Some; congruence). specialize (H t Ht).
  rewrite (nth_error_nth (map Num col) t NaN (map_nth_error Num _ _ E)) in H. destruct f as [|y|y]; cbn in *.
  - injection H as ->. lra.
  - auto.
  - assert (In (Num x) y); auto. rewrite H. apply nth_In. destruct (Nat.lt_ge_cases t (List.length y)); auto. rewrite nth_overflow in H; [discriminate|auto].
Qed.
Lemma map_num_inj l m : map Num l = map Num m -> l = m.
Proof. revert m. induction l as [|x l IH]; intros [|y m] H; try discriminate; auto. cbn in H. injection H as -> H. f_equal. auto. Qed.
Lemma renewable_made av lower name g : renewable_init av lower name = Ok g -> 0 <= rg_lower_pct g /\ Forall (fun x => 0 <= x) (rg_available_mwh g).
Proof.
  intros H. destruct (C48_renewable av lower name) as (A & B & _). destruct (B g H) as (_ & B2 & B3 & _). destruct (proj1 A (ex_intro _ g H)) as (_ & A1 & q & A2 & _ & A3).
  rewrite B2. split; [tauto|]. rewrite B3 in A2. injection A2 as A2. apply map_num_inj in A2. now rewrite A2.
Qed.
Lemma repeats_all {A} (P : A -> Prop) l n col : repeats l n col -> Forall P l -> Forall P col.
Proof.
  intros (L & R) F. apply Forall_forall. intros x Ix. apply In_nth_error in Ix. destruct Ix as (t & E).
  assert (t < n)%nat as Ht by (rewrite <- L; apply nth_error_Some; congruence). rewrite (R t Ht) in E. apply nth_error_In in E. rewrite Forall_forall in F. auto.
Qed.
Lemma fits_name n a a' : fits n a a' -> asset_name a' = asset_name a.
Proof. destruct a; cbn; try (intros ->; reflexivity). intros (c' & -> & N & _). exact N. Qed.
Lemma fits_names n l l' : Forall2 (fits n) l l' -> map asset_name l' = map asset_name l.
Proof. induction 1; cbn; auto. f_equal; auto. eapply fits_name; eauto. Qed.

(** A site made of constructed assets with plain names has readable results. *)
Lemma numbers_of d q : data_numbers d = Some q ->
  id_electric_load_mwh d = map Num (id_electric_load_mwh q) /\ id_high_temperature_load_mwh d = map Num (id_high_temperature_load_mwh q) /\
  id_low_temperature_load_mwh d = map Num (id_low_temperature_load_mwh q) /\ id_low_temperature_generation_mwh d = map Num (id_low_temperature_generation_mwh q) /\
  (id_custom d = [] -> id_custom q = []).
Proof.
  intros N. unfold data_numbers in N.
  repeat match type of N with obind ?o _ = Some _ => let E := fresh "E" in destruct o eqn:E; cbn [obind] in N; [|discriminate] end.
  injection N as <-. cbn. splits; try (now apply numbers_length). intros CU. rewrite CU in E7. cbn in E7. congruence.
Qed.
Section Parts.
Context (assets : list asset) (i : site_input) (d : idata pynum) (assets' : list asset) (q : idata Q) (f : freq) (il el : Q).
Hypothesis MADE : Forall constructed assets.
Hypothesis PLAIN : plain_names assets.
Hypothesis INIT : site_init assets i [] = Ok (d, assets').
Hypothesis NUMS : data_numbers d = Some q.
Hypothesis LOADS : loads_not_negative i.

Lemma fitted_plain : plain_names assets' /\ Forall made_evs_named assets' /\ Forall nonneg_asset assets'.
Proof.
  destruct (C35_site _ _ _ _ _ INIT) as (_ & F & _). destruct PLAIN as [ND PN].
  assert (forall a', In a' assets' -> exists a, In a assets /\ fits (id_n d) a a' /\ constructed a) as BACK.
  { intros a' Ia. destruct (Forall2_in_r _ _ _ _ F Ia) as (a & I0 & FT). exists a. splits; auto. rewrite Forall_forall in MADE. auto. }
  splits.
  - constructor.
    + rewrite <- map_map with (f := asset_name) (g := sanitize). rewrite (fits_names _ _ _ F). now rewrite map_map.
    + intros a' Ia. destruct (BACK a' Ia) as (a & I0 & FT & _). specialize (PN a I0). destruct a; cbn in FT; try (subst a'; exact PN).
      destruct FT as (c' & -> & N & _). cbn in *. now rewrite N.
  - apply Forall_forall. intros a' Ia. destruct (BACK a' Ia) as (a & I0 & FT & K). specialize (PN a I0). destruct a; cbn in FT; try (subst a'; exact Logic.I).
    + subst a'. cbn in *. inversion K as [| | |rows powers caps e td name cc H E| | | |]; subst. exists rows, powers, caps, e, td. rewrite <- PN.
      destruct (C48_evs rows powers caps e td name) as (_ & B). destruct (B _ H) as (-> & _). exact H.
    + destruct FT as (c' & -> & _). exact Logic.I.
  - apply Forall_forall. intros a' Ia. destruct (BACK a' Ia) as (a & I0 & FT & K). destruct a; cbn in FT; try (subst a'; exact Logic.I).
    + subst a'. inversion K as [|name mx mn e b H E| | | | | |]; subst. destruct (C48_boiler name mx mn e) as (A & B & _). rewrite (B _ H). cbn. apply A. eauto.
    + destruct FT as (c' & -> & _ & LP & RP). inversion K as [| | | | |av lower name g H E| |]; subst. destruct (renewable_made _ _ _ _ H) as (H1 & H2). cbn. rewrite LP. split; auto.
      eapply repeats_all; eauto.
Qed.
Theorem C63_readable_site : ordinary_site (mkSiteCfg q f il el) assets' /\ separate assets'.
Proof.
  destruct fitted_plain as (PL & ME & NA). destruct (C35_site _ _ _ _ _ INIT) as (CO & F & CU). cbn [sequences flat_map] in CU. assert (id_custom d = []) as CU' by (inversion CU; auto).
  destruct (numbers_of _ _ NUMS) as (N1 & N2 & N3 & N4 & N5). specialize (N5 CU'). destruct (C35_site_ready _ _ _ _ _ _ INIT NUMS) as (EN & DR & _).
  split; [|now apply plain_separate]. constructor.
  - refine (C48_names_ok assets i [] d assets' q f il el MADE INIT NUMS _ _); [|intros ? ? []]. intros h Ih. pose proof (pn_name _ PLAIN _ Ih) as X. apply X.
  - apply plain_ordinary; auto.
  - apply plain_distinct; auto.
  - intros a Ia X. pose proof (pn_name _ PL a Ia) as PN. destruct a; cbn [asset_name] in *; eauto; try (destruct PN as (_ & _ & PN & _); congruence).
    rewrite PN in X. discriminate.
  - intros n In0. exact (pn_name _ PL _ In0).
  - intros col Ic. cbn [sc_idata] in *. unfold id_columns in Ic. rewrite N5 in Ic. unfold data_ready in DR. cbn in Ic.
    repeat (destruct Ic as [<-|Ic]; [cbn; tauto|]). destruct Ic.
  - destruct CO as (_ & _ & _ & _ & _ & C1 & C2 & C3 & C4). rewrite N1 in C1. rewrite N2 in C2. rewrite N3 in C3. rewrite N4 in C4. destruct LOADS as (L1 & L2 & L3 & L4).
    unfold nonneg_site. cbn [sc_idata]. splits; auto; [exact (held_nonneg _ _ _ _ C1 L1 eq_refl)|exact (held_nonneg _ _ _ _ C2 L2 eq_refl)|exact (held_nonneg _ _ _ _ C3 L3 eq_refl)|exact (held_nonneg _ _ _ _ C4 L4 eq_refl)].
Qed.
End Parts.

(** ** C63: a result for every price series, load series and grid connection *)
(** Assets made by their constructors, with plain names; a Spill asset among them, and a Valve or no low temperature load. *)
Theorem C63_always_a_result : forall slv base assets i d assets' q f il el name fl s,
  honest_solver slv -> decides slv base (mkSiteCfg q f il el) assets' [] (ObjName name) fl -> is_named name ->
  Forall constructed assets -> plain_names assets -> site_init assets i [] = Ok (d, assets') -> data_numbers d = Some q -> (0 < id_n q)%nat ->
  loads_not_negative i -> 0 <= energy f il -> 0 <= energy f el ->
  (forall g, In (ARenewable g) assets -> rg_is_array g = false -> id_n q <> 1%nat) ->
  (forall e, In (AEVs e) assets -> ev_chargers e <> [] /\ forall row, In row (ev_events e) -> (id_n q <= List.length row)%nat) ->
  Forall chp_fine assets' -> Forall (asset_sane f) assets' -> (name = "price" -> gas_tied (mkSiteCfg q f il el) assets') ->
  Forall (undemanding f fl (id_n q)) assets' -> In (ASpill s) assets' ->
  (forall t, (t < id_n q)%nat -> lt_shortage (mkSiteCfg q f il el) t <= 0) \/ (exists v, In (AValve v) assets') ->
  fail_on_spill_asset_use fl = false ->
  exists r, optimize slv base (mkSiteCfg q f il el) assets' [] (ObjName name) fl = Ok r /\ r_feasible r = true.
Proof.
  intros slv base assets i d assets' q f il el name fl s HS DS NM MADE PL INIT NUMS N0 LD L1 L2 AR EV CF SN GT UN IS LT FS.
  destruct (C63_readable_site assets i d assets' q f il el MADE PL INIT NUMS LD) as (OS & SEP).
  eapply C62_spill_always_solved; eauto.
  - eapply C48_site_ready; eauto. now apply sanitized_names.
  - split; assumption.
Qed.

Lemma energy_nonneg f x : (0 <= f)%Z -> 0 <= x -> 0 <= energy f x.
Proof. intros F X. unfold energy. apply Qmult_le_0_compat; auto. apply Qle_shift_div_l; [reflexivity|]. rewrite Qmult_0_l. change 0 with (inject_Z 0). now rewrite <- Zle_Qle. Qed.
Lemma plain_by_check s :
  negb (contains "charge-event" s) && forallb (fun q => negb (contains ("-" ++ q) s)) quantity_names && negb (contains "," s) && negb (contains "=" s) &&
  negb (contains "evs" s) && negb (s =? "site") && negb (s =? "total") = true -> plain_name s.
Proof.
  rewrite !andb_true_iff, !negb_true_iff, forallb_forall, !String.eqb_neq. intros [[[[[[H1 H2] H3] H4] H5] H6] H7]. unfold plain_name, clean, unmarked. splits; auto.
  intros q J. specialize (H2 q J). now apply negb_true_iff in H2.
Qed.
Lemma spill_plain : plain_name "spill".
Proof. apply plain_by_check. reflexivity. Qed.
Lemma boiler_plain : plain_name "boiler".
Proof. apply plain_by_check. reflexivity. Qed.
Lemma missing_load q0 i (d : idata pynum) q f il el : holds_what 0 (in_low_temperature_load_mwh i) (id_n d) (id_low_temperature_load_mwh d) ->
  in_low_temperature_load_mwh i = Missing -> id_low_temperature_load_mwh d = map Num (id_low_temperature_load_mwh q) -> q0 = 0 ->
  forall t, (t < id_n d)%nat -> data (id_low_temperature_load_mwh (sc_idata (mkSiteCfg q f il el))) t == q0.
Proof.
  intros (L & H) E N -> t Ht. specialize (H t Ht). rewrite E in H. cbn [says] in H. rewrite N in H. cbn [sc_idata]. unfold data.
  assert (t < List.length (id_low_temperature_load_mwh q))%nat as Hl by (rewrite N, map_length in L; lia).
  rewrite (nth_indep _ NaN (Num 0)) in H by (now rewrite map_length). rewrite map_nth in H. injection H as ->. reflexivity.
Qed.
Lemma no_low_load assets kw i d assets' q f il el : site_init assets i kw = Ok (d, assets') -> data_numbers d = Some q -> loads_not_negative i -> in_low_temperature_load_mwh i = Missing ->
  forall t, (t < id_n q)%nat -> lt_shortage (mkSiteCfg q f il el) t <= 0.
Proof.
  intros INIT NUMS LD E t Ht. destruct (C35_site _ _ _ _ _ INIT) as ((_ & _ & _ & _ & _ & _ & _ & C3 & C4) & _). destruct (numbers_of _ _ NUMS) as (_ & _ & N3 & N4 & _).
  destruct (C35_site_ready _ _ _ _ _ _ INIT NUMS) as (EN & _). unfold lt_shortage. rewrite (missing_load 0 i d q f il el C3 E N3 eq_refl t) by lia.
  rewrite N4 in C4. assert (0 <= data (id_low_temperature_generation_mwh (sc_idata (mkSiteCfg q f il el))) t); [|lra].
  pose proof (held_nonneg _ _ _ _ C4 (proj2 (proj2 (proj2 LD))) eq_refl) as F. unfold data. cbn [sc_idata].
  destruct (nth_in_or_default t (id_low_temperature_generation_mwh q) 0) as [K| ->]; [|lra]. rewrite Forall_forall in F. auto.
Qed.
Lemma Qmin_bounds x y : 0 <= x -> 0 <= y -> 0 <= Qmin x y <= y.
Proof. intros A B. split; [now apply Q.min_glb|apply Q.le_min_r]. Qed.

Theorem C63_battery : forall slv base power discharge capacity efficiency initial name b i d assets q f il el obj fl,
  battery_init power discharge capacity efficiency initial None name = Ok b -> battery_site b true i [] = Ok (Some (d, assets)) ->
  plain_names assets -> sensible_call i d q f il el fl -> in_low_temperature_load_mwh i = Missing ->
  0 <= power -> (forall x, discharge = Some x -> 0 <= x) -> 0 <= capacity -> 0 <= initial ->
  is_named obj -> honest_solver slv -> decides slv base (mkSiteCfg q f il el) assets [] (ObjName obj) fl ->
  exists r, optimize slv base (mkSiteCfg q f il el) assets [] (ObjName obj) fl = Ok r /\ r_feasible r = true.
Proof.
  intros slv base power discharge capacity efficiency initial name b i d assets q f il el obj fl H S PL [NUMS N0 F0 LD L1 L2 FS] LT P1 P2 P3 P4 NM HS DS.
  destruct (proj2 (C48_battery_site _ _ _ _ _ _ _ _ true i [] H) d assets S) as (_ & EA & _). cbn [spill_too] in EA. pose proof (own_some _ _ _ _ _ S) as INIT. cbn [spill_if] in INIT.
  destruct (C48_battery power discharge capacity efficiency initial None name) as (_ & B & _). destruct (B b H) as (_ & B2 & B3 & B4 & _ & B6 & B7).
  subst assets. eapply C63_always_a_result with (s := "spill") (assets := [ABattery b; ASpill "spill"]); eauto using energy_nonneg.
  - constructor; [eapply made_battery; eauto|exact (spill_made true)].
  - intros g [X|[X|[]]]; discriminate.
  - intros e [X|[X|[]]]; discriminate.
  - repeat constructor.
  - repeat constructor.
  - intros _. right. intros a [X|[X|[]]]; discriminate.
  - constructor; [|repeat constructor]. cbn. rewrite B2, B3, B4. destruct (Qmin_bounds initial capacity P4 P3) as [Q1 Q2]. rewrite <- B6 in Q1, Q2. splits.
    + now apply energy_nonneg.
    + apply energy_nonneg; auto. destruct discharge; auto.
    + split; auto.
    + rewrite B6, B7. reflexivity.
  - right. now left.
  - left. eapply no_low_load; eauto.
Qed.

Theorem C63_chp : forall slv base ee mx mn he le name c i d assets q f il el obj fl,
  chp_init ee mx mn he le name = Ok c -> chp_site c true i [] = Ok (Some (d, assets)) ->
  plain_names assets -> sensible_call i d q f il el fl -> 0 <= mx -> 0 < ee ->
  is_named obj -> honest_solver slv -> decides slv base (mkSiteCfg q f il el) assets [] (ObjName obj) fl ->
  exists r, optimize slv base (mkSiteCfg q f il el) assets [] (ObjName obj) fl = Ok r /\ r_feasible r = true.
Proof.
  intros slv base ee mx mn he le name c i d assets q f il el obj fl H S PL [NUMS N0 F0 LD L1 L2 FS] P1 P2 NM HS DS.
  destruct (proj2 (C48_chp_site _ _ _ _ _ _ _ true i [] H) d assets S) as (_ & EA & _). cbn [spill_too] in EA.
  destruct (C48_chp ee mx mn he le name) as (_ & B & _). specialize (B c H). subst assets.
  assert (site_init [ACHP c; AValve "valve"; ABoiler (mkBoilerCfg "boiler" 10000 0 (8 # 10)); ASpill "spill"] i [] = Ok (d, [ACHP c; AValve "valve"; ABoiler (mkBoilerCfg "boiler" 10000 0 (8 # 10)); ASpill "spill"])) as INIT.
  { unfold chp_site in S. destruct (has_site i); [|discriminate]. apply own_some with (kw := []) in S. exact S. }
  eapply C63_always_a_result with (s := "spill") (assets := [ACHP c; AValve "valve"; ABoiler (mkBoilerCfg "boiler" 10000 0 (8 # 10)); ASpill "spill"]); eauto using energy_nonneg.
  - repeat (apply Forall_cons); [eapply made_chp; eauto|eapply (made_valve "valve"); reflexivity|now apply boiler_made|eapply (made_spill "spill"); reflexivity|constructor].
  - intros g [X|[X|[X|[X|[]]]]]; discriminate.
  - intros e [X|[X|[X|[X|[]]]]]; discriminate.
  - constructor; [subst c; left; exact P2|repeat constructor].
  - repeat constructor.
  - intros _. right. intros a [X|[X|[X|[X|[]]]]]; try discriminate. injection X as <-. subst c. exact P2.
  - subst c. repeat (apply Forall_cons); cbn; try exact Logic.I; [now apply energy_nonneg| |constructor]. split; [|now apply energy_nonneg]. unfold energy. lra.
  - right. right. right. now left.
  - right. exists "valve". right. now left.
Qed.

Theorem C63_heat_pump : forall slv base cop power name h i d assets q f il el obj fl,
  heat_pump_init cop power name = Ok h -> heat_pump_site h true true i [] = Ok (Some (d, assets)) ->
  plain_names assets -> sensible_call i d q f il el fl -> 0 <= power ->
  is_named obj -> honest_solver slv -> decides slv base (mkSiteCfg q f il el) assets [] (ObjName obj) fl ->
  exists r, optimize slv base (mkSiteCfg q f il el) assets [] (ObjName obj) fl = Ok r /\ r_feasible r = true.
Proof.
  intros slv base cop power name h i d assets q f il el obj fl H S PL [NUMS N0 F0 LD L1 L2 FS] P1 NM HS DS.
  destruct (proj2 (C48_heat_pump_site _ _ _ _ true true i [] H) d assets S) as (_ & EA & _). cbn [spill_too app] in EA.
  destruct (C48_heat_pump cop power name) as (_ & B & _). specialize (B h H). subst assets.
  assert (site_init [AHeatPump h; ABoiler (mkBoilerCfg "boiler" 10000 0 (8 # 10)); ASpill "spill"; AValve "valve"] i [] = Ok (d, [AHeatPump h; ABoiler (mkBoilerCfg "boiler" 10000 0 (8 # 10)); ASpill "spill"; AValve "valve"])) as INIT.
  { unfold heat_pump_site in S. destruct (has_site i); [|discriminate]. apply own_some with (kw := []) in S. exact S. }
  eapply C63_always_a_result with (s := "spill") (assets := [AHeatPump h; ABoiler (mkBoilerCfg "boiler" 10000 0 (8 # 10)); ASpill "spill"; AValve "valve"]); eauto using energy_nonneg.
  - repeat (apply Forall_cons); [eapply made_heat_pump; eauto|now apply boiler_made|eapply (made_spill "spill"); reflexivity|eapply (made_valve "valve"); reflexivity|constructor].
  - intros g [X|[X|[X|[X|[]]]]]; discriminate.
  - intros e [X|[X|[X|[X|[]]]]]; discriminate.
  - repeat constructor.
  - repeat constructor.
  - intros _. right. intros a [X|[X|[X|[X|[]]]]]; discriminate.
  - subst h. repeat (apply Forall_cons); cbn; try exact Logic.I; [now apply energy_nonneg| |constructor]. split; [|now apply energy_nonneg]. unfold energy. lra.
  - right. right. now left.
  - right. exists "valve". right. right. right. now left.
Qed.

Theorem C63_renewable : forall slv base available name g i d assets q f il el obj fl,
  renewable_init available 0 name = Ok g -> renewable_site g true i [] = Ok (Some (d, assets)) ->
  plain_names assets -> sensible_call i d q f il el fl -> in_low_temperature_load_mwh i = Missing ->
  (exists l, available = Series l) \/ id_n d <> 1%nat ->
  is_named obj -> honest_solver slv -> decides slv base (mkSiteCfg q f il el) assets [] (ObjName obj) fl ->
  exists r, optimize slv base (mkSiteCfg q f il el) assets [] (ObjName obj) fl = Ok r /\ r_feasible r = true.
Proof.
  intros slv base available name g i d assets q f il el obj fl H S PL [NUMS N0 F0 LD L1 L2 FS] LT AR NM HS DS.
  destruct (proj2 (C48_renewable_site _ _ _ _ true i [] H) d assets S) as (_ & (g' & EA & GN & GL & GR) & _). cbn [spill_too] in EA.
  destruct (C48_renewable available 0 name) as (_ & B & _). destruct (B g H) as (B1 & B2 & _ & _ & B5). pose proof (own_some _ _ _ _ _ S) as INIT. cbn [spill_if] in INIT. subst assets.
  destruct (C35_site_ready _ _ _ _ _ _ INIT NUMS) as (EN & _).
  destruct (renewable_made _ _ _ _ H) as (_ & NN). pose proof (repeats_all _ _ _ _ GR NN) as NN'.
  eapply C63_always_a_result with (s := "spill") (assets := [ARenewable g; ASpill "spill"]); eauto using energy_nonneg.
  - constructor; [eapply made_renewable; eauto|exact (spill_made true)].
  - destruct PL as [PD PN]. constructor; [cbn in *; rewrite GN in PD; now rewrite B1|]. intros a [<-|[<-|[]]].
    + pose proof (PN (ARenewable g') (or_introl eq_refl)) as X. cbn in *. rewrite GN in X. now rewrite B1.
    + apply (PN (ASpill "spill")). right. now left.
  - intros x [X|[X|[]]]; [|discriminate]. injection X as <-. intros NA. destruct AR as [AR|AR]; [|lia]. apply B5 in AR. congruence.
  - intros e [X|[X|[]]]; discriminate.
  - repeat constructor.
  - repeat constructor.
  - intros _. right. intros a [X|[X|[]]]; discriminate.
  - constructor; [|repeat constructor]. cbn. intros t Ht. rewrite GL.
    assert (0 <= data (rg_available_mwh g') t) as D. { unfold data. destruct (nth_in_or_default t (rg_available_mwh g') 0) as [K| ->]; [|lra]. rewrite Forall_forall in NN'. auto. }
    unfold between. lra.
  - right. now left.
  - left. eapply no_low_load; eauto.
Qed.

Lemma some_one row : (forall x, In x row -> x == 0 \/ x == 1) -> 0 < Qsum row -> exists t, (t < List.length row)%nat /\ nth t row 0 == 1.
Proof.
  induction row as [|x row IH]; intros B P; [cbn in P; lra|]. destruct (B x (or_introl eq_refl)) as [X|X].
  - destruct IH as (t & T1 & T2); [intros y Iy; apply B; now right|change (0 < x + Qsum row) in P; lra|]. exists (Datatypes.S t). split; cbn; [lia|exact T2].
  - exists 0%nat. split; cbn; [lia|exact X].
Qed.
Theorem C63_evs : forall slv base rows powers capacities efficiency turndown name c i d assets q f il el obj fl,
  evs_init rows powers capacities efficiency turndown name = Ok c -> evs_site c true i [] = Ok (Some (d, assets)) ->
  plain_names assets -> sensible_call i d q f il el fl -> in_low_temperature_load_mwh i = Missing ->
  (forall row x, In row rows -> In x row -> x == 0 \/ x == 1) -> powers <> [] -> Forall (fun p => 0 <= p) powers ->
  Forall (fun x => 0 <= x <= energy f 10000) capacities -> efficiency <= 1 ->
  is_named obj -> honest_solver slv -> decides slv base (mkSiteCfg q f il el) assets [] (ObjName obj) fl ->
  exists r, optimize slv base (mkSiteCfg q f il el) assets [] (ObjName obj) fl = Ok r /\ r_feasible r = true.
Proof.
  intros slv base rows powers capacities efficiency turndown name c i d assets q f il el obj fl H S PL [NUMS N0 F0 LD L1 L2 FS] LT RW NP PW CP EF NM HS DS.
  destruct (proj2 (C48_evs_site _ _ _ _ _ _ _ true i [] H) d assets S) as (_ & EA & RS & _). cbn [spill_too] in EA.
  destruct (C48_evs rows powers capacities efficiency turndown name) as (A & B). destruct (B c H) as (B1 & B2 & B3 & B4 & B5 & B6 & B7). destruct (proj1 A (ex_intro _ c H)) as (_ & _ & _ & A4). subst assets.
  unfold evs_site in S. apply rbind_ok in S. destruct S as ([s|] & S & V); [|discriminate]. apply rbind_ok in V. destruct V as (u & _ & X). injection X as ->.
  pose proof (own_some _ _ _ _ _ S) as INIT. cbn [spill_if] in INIT. destruct (C35_site_ready _ _ _ _ _ _ INIT NUMS) as (EN & _).
  eapply C63_always_a_result with (s := "spill") (assets := [AEVs c; ASpill "spill"]); eauto using energy_nonneg.
  - constructor; [eapply made_evs; eauto|exact (spill_made true)].
  - intros g [X|[X|[]]]; discriminate.
  - intros e [X|[X|[]]]; [|discriminate]. injection X as <-. split.
    + intros X. rewrite X in B3. destruct powers; [contradiction|discriminate].
    + rewrite B2. intros row Ir. destruct (RS row Ir) as (R1 & _). lia.
  - repeat constructor.
  - constructor; [|repeat constructor]. cbn. split.
    + intros cc [K|K].
      * apply In_nth_error in K. destruct K as (k & K). assert (k < List.length powers)%nat as Hk by (rewrite <- B3; apply nth_error_Some; congruence).
        destruct (nth_error powers k) as [p|] eqn:E; [|apply nth_error_None in E; lia]. rewrite (B5 k p E) in K. injection K as <-. cbn. apply energy_nonneg; auto.
        rewrite Forall_forall in PW. apply PW. eapply nth_error_In; eauto.
      * rewrite B7 in K. destruct K as [<-|[]]. cbn. now apply energy_nonneg.
    + intros e t. unfold presence. rewrite B2. destruct (nth_in_or_default e rows []) as [K| ->]; [|destruct t; cbn; lra].
      destruct (nth_in_or_default t (nth e rows []) 0) as [J| ->]; [|lra]. destruct (RW _ _ K J) as [-> | ->]; lra.
  - intros _. right. intros a [X|[X|[]]]; discriminate.
  - constructor; [|repeat constructor]. cbn. intros e ec Ee. assert (e < List.length capacities)%nat as He by (rewrite <- B4; apply nth_error_Some; congruence).
    destruct (nth_error capacities e) as [x|] eqn:Ex; [|apply nth_error_None in Ex; lia]. rewrite (B6 e x Ex) in Ee. injection Ee as <-. cbn.
    rewrite Forall_forall in CP. destruct (CP x (nth_error_In _ _ Ex)) as (C1 & C2). splits; auto.
    + assert (In (nth e rows []) rows) as Ir by (apply nth_In; lia). destruct (RS _ Ir) as (R1 & R2). destruct (some_one _ (fun x => RW _ x Ir) R2) as (t & T1 & T2).
      exists t. split; [lia|]. unfold can_charge, presence. rewrite B2. destruct (limit_charge_variables_to_valid_events fl); [exact T2|rewrite T2; apply Qle_refl].
    + intros k Ek. rewrite B7 in Ek. injection Ek as <-. cbn. split; auto. unfold energy at 1. lra.
  - right. now left.
  - left. eapply no_low_load; eauto.
Qed.
