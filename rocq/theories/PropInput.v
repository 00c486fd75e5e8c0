(** * PropInput: C35, interval data validation, and the Site constructor *)
From Verif Require Import Base Pulp Params Optimizer Types IntervalData SpecInput Emit Prim Spec SpecReport SpecRun SemProg PropBasics.
Open Scope Q_scope.
Open Scope string_scope.

Lemma existsb_nan l : existsb is_nan l = false <-> ~ In NaN l.
Proof.
  split.
  - intros H I0. assert (existsb is_nan l = true) by (apply existsb_exists; exists NaN; auto). congruence.
  - intros H. destruct (existsb is_nan l) eqn:E; auto. apply existsb_exists in E. destruct E as ([q|] & I0 & X); [discriminate|contradiction].
Qed.
Lemma repeat_nan x n : ~ In NaN (repeat x n) <-> n = 0%nat \/ x <> NaN.
Proof.
  split.
  - intros H. destruct n; auto. right. intros ->. apply H. now left.
  - intros [->|H] I0; [destruct I0|]. apply repeat_spec in I0. congruence.
Qed.
Lemma nth_repeat_lt {A} (x y : A) n t : (t < n)%nat -> nth t (repeat x n) y = x.
Proof. revert t. induction n; intros [|t] H; cbn; try lia; auto. apply IHn. lia. Qed.
Lemma fill_ok default n f col : fill default n f = Ok col -> usable n f /\ holds_what default f n col.
Proof.
  unfold fill, holds_what. intros H. apply rbind_ok in H. destruct H as (l & E & H). apply rbind_ok in H. destruct H as ([] & C & H). injection H as <-.
  unfold rassert in C. destruct (existsb is_nan l) eqn:N; [discriminate|]. apply existsb_nan in N. destruct f as [|x|s].
  - injection E as <-. cbn. splits; auto; [apply repeat_length|]. intros t Ht. now apply nth_repeat_lt.
  - injection E as <-. cbn. apply repeat_nan in N. splits; auto; [apply repeat_length|]. intros t Ht. now apply nth_repeat_lt.
  - apply rbind_ok in E. destruct E as ([] & D & E). injection E as <-. unfold rassert in D. destruct (Nat.eqb_spec (List.length s) n) as [D'|]; [|discriminate].
    cbn. auto.
Qed.
Lemma fill_usable default n f : usable n f -> exists col, fill default n f = Ok col.
Proof.
  intros U. unfold fill. destruct f as [|x|s]; cbn [usable] in U.
  - exists (repeat (Num default) n). cbn. replace (existsb is_nan (repeat (Num default) n)) with false; [reflexivity|].
    symmetry. apply existsb_nan, repeat_nan. right. discriminate.
  - exists (repeat x n). cbn. replace (existsb is_nan (repeat x n)) with false; [reflexivity|]. symmetry. now apply existsb_nan, repeat_nan.
  - exists s. destruct U as [L N]. rewrite L, Nat.eqb_refl. cbn. replace (existsb is_nan s) with false; [reflexivity|]. symmetry. now apply existsb_nan.
Qed.
Lemma fill_err default n f e : fill default n f = Err e -> e = AssertionErr.
Proof.
  unfold fill. destruct f as [|x|s]; cbn.
  - destruct (existsb _ _); cbn; congruence.
  - destruct (existsb _ _); cbn; congruence.
  - destruct (Nat.eqb _ _); cbn; [|congruence]. destruct (existsb _ _); cbn; congruence.
Qed.

Ltac unbind H :=
  repeat match type of H with
  | rbind _ _ = Ok _ => let x := fresh "x" in let E := fresh "E" in apply rbind_ok in H; destruct H as (x & E & H)
  end.
Lemma series_holds default (l : list pynum) : holds_what default (Series l) (List.length l) l.
Proof. split; auto. Qed.

(** An accepted input gives columns of one length that say what the arguments say. *)
Theorem C35_contents : forall i d, site_interval_data i = Ok d -> contents i d.
Proof.
  intros i d H. assert (validate_all_things i = Ok d) as V. { unfold site_interval_data, pyd in H. destruct (validate_all_things i) as [x|[]]; congruence. }
  clear H. unfold validate_all_things in V. unfold contents.
  destruct (in_electricity_prices i) as [|p|p] eqn:EP; [|cbn in V; discriminate|].
  - destruct (in_electricity_carbon_intensities i) as [|c|c] eqn:EC; [discriminate|cbn in V; discriminate|]. cbn [anchor] in V.
    apply rbind_ok in V. destruct V as (c' & E & V). injection E as <-. cbv zeta in V. unbind V. injection V as <-. cbn.
    repeat match goal with X : fill _ _ _ = Ok _ |- _ => apply fill_ok in X; destruct X as [_ X] end.
    assert (holds_what d_export_electricity_prices (in_export_electricity_prices i) (List.length c) x0) as EX by assumption.
    splits; eauto; try apply series_holds; try exact (conj eq_refl eq_refl); try assumption.
    destruct (in_export_electricity_prices i); assumption.
  - cbn [anchor] in V. destruct (in_electricity_carbon_intensities i) as [|c|c] eqn:EC; cbn [rbind] in V; cbv zeta in V; unbind V; injection V as <-; cbn [id_n id_electricity_prices id_export_electricity_prices id_electricity_carbon_intensities id_gas_prices id_electric_load_mwh id_high_temperature_load_mwh id_low_temperature_load_mwh id_low_temperature_generation_mwh].
    all: assert (holds_what 100 (match in_export_electricity_prices i with Missing => Series p | f => f end) (List.length p) x) as EX
      by (destruct (in_export_electricity_prices i); [injection E as <-; apply series_holds|apply fill_ok in E; apply E|apply fill_ok in E; apply E]).
    all: clear E; repeat match goal with X : fill _ _ _ = Ok _ |- _ => apply fill_ok in X; destruct X as [_ X] end.
    all: splits; auto; apply series_holds.
Qed.

Theorem C35_accepts : forall i, (exists d, site_interval_data i = Ok d) <-> acceptable i.
Proof.
  intros i. split.
  - intros (d & H). assert (validate_all_things i = Ok d) as V. { unfold site_interval_data, pyd in H. destruct (validate_all_things i) as [x|[]]; congruence. }
    clear H. unfold validate_all_things in V. unfold acceptable, loads_usable.
    destruct (in_electricity_prices i) as [|p|p] eqn:EP; [|cbn in V; discriminate|].
    + destruct (in_electricity_carbon_intensities i) as [|c|c] eqn:EC; [discriminate|cbn in V; discriminate|]. cbn [anchor] in V.
      apply rbind_ok in V. destruct V as (c' & E & V). injection E as <-. cbv zeta in V. unbind V.
      repeat match goal with X : fill _ _ _ = Ok _ |- _ => apply fill_ok in X; destruct X as [X _] end.
      right. split; auto. exists c. splits; auto.
    + left. exists p. cbn [anchor] in V. destruct (in_electricity_carbon_intensities i) as [|c|c] eqn:EC; cbn [rbind] in V; cbv zeta in V; unbind V.
      all: assert (usable (List.length p) (in_export_electricity_prices i)) as EX
        by (destruct (in_export_electricity_prices i); [exact Logic.I|apply fill_ok in E; apply E|apply fill_ok in E; apply E]).
      all: clear E; repeat match goal with X : fill _ _ _ = Ok _ |- _ => apply fill_ok in X; destruct X as [X _] end.
      all: splits; auto.
  - intros A. cut (exists d, validate_all_things i = Ok d). { intros (d & V). exists d. unfold site_interval_data. now rewrite V. }
    unfold validate_all_things. destruct A as [(l & EP & X & C & G & A1 & A2 & A3 & A4)|(EP & l & EC & X & G & A1 & A2 & A3 & A4)].
    + rewrite EP. cbn [anchor].
      assert (exists x, match in_export_electricity_prices i with Missing => Ok l | f => fill d_export_electricity_prices (List.length l) f end = Ok x) as (x & EX)
        by (destruct (in_export_electricity_prices i); [eauto|now apply fill_usable|now apply fill_usable]).
      destruct (fill_usable d_electricity_carbon_intensities _ _ C) as (c & EC). destruct (fill_usable d_gas_prices _ _ G) as (g & EG).
      destruct (fill_usable d_electric_load_mwh _ _ A1) as (a1 & E1). destruct (fill_usable d_high_temperature_load_mwh _ _ A2) as (a2 & E2).
      destruct (fill_usable d_low_temperature_load_mwh _ _ A3) as (a3 & E3). destruct (fill_usable d_low_temperature_generation_mwh _ _ A4) as (a4 & E4).
      destruct (in_electricity_carbon_intensities i); cbn [rbind]; cbv zeta; rewrite EX; cbn [rbind]; rewrite EC, EG, E1, E2, E3, E4; cbn [rbind]; eauto.
    + rewrite EP, EC. cbn [anchor rbind]. cbv zeta.
      destruct (fill_usable d_electricity_prices (List.length l) Missing Logic.I) as (p & E0).
      destruct (fill_usable d_export_electricity_prices _ _ X) as (x & EX). destruct (fill_usable d_gas_prices _ _ G) as (g & EG).
      destruct (fill_usable d_electric_load_mwh _ _ A1) as (a1 & E1). destruct (fill_usable d_high_temperature_load_mwh _ _ A2) as (a2 & E2).
      destruct (fill_usable d_low_temperature_load_mwh _ _ A3) as (a3 & E3). destruct (fill_usable d_low_temperature_generation_mwh _ _ A4) as (a4 & E4).
      rewrite E0, EX, EG, E1, E2, E3, E4. cbn [rbind]. eauto.
Qed.

(** A rejected input raises pydantic's ValidationError. *)
Theorem C35_rejects : forall i e, site_interval_data i = Err e -> e = ValidationErr.
Proof.
  intros i e. unfold site_interval_data. assert (forall e, validate_all_things i = Err e -> e = AssertionErr \/ e = ValueErr) as V.
  { clear e. intros e. unfold validate_all_things.
    assert (forall {B} default n f (k : list pynum -> res B), (forall c, k c = Err e -> e = AssertionErr \/ e = ValueErr) ->
      rbind (fill default n f) k = Err e -> e = AssertionErr \/ e = ValueErr) as ST.
    { intros B default n f k K H. destruct (fill default n f) as [c|e'] eqn:E; cbn in H; [eauto|]. injection H as <-. left. eapply fill_err, E. }
    assert (forall x : idata pynum, Ok x = Err e -> e = AssertionErr \/ e = ValueErr) as OK by (intros; discriminate).
    destruct (in_electricity_prices i) as [|p|p]; destruct (in_electricity_carbon_intensities i) as [|c|c]; cbn [anchor rbind]; cbv zeta;
      try (intros H; injection H as <-; auto; fail).
    all: try (repeat (apply ST; intros ?); apply OK).
    all: destruct (in_export_electricity_prices i); cbn [rbind]; repeat (apply ST; intros ?); apply OK. }
  unfold pyd. destruct (validate_all_things i) as [x|e'] eqn:E; [discriminate|]. destruct (V e' eq_refl) as [->| ->]; congruence.
Qed.

(** ** The Site constructor *)
Lemma custom_ok n kw cu : custom_data n kw = Ok cu ->
  Forall2 (fun nl col => fst col = fst nl /\ repeats (snd nl) n (snd col)) (sequences kw) cu.
Proof.
  revert cu. induction kw as [|[name [l| |]] kw IH]; intros cu H; cbn in H.
  - injection H as <-. constructor.
  - destruct (name =? "idx"); [discriminate|]. apply rbind_ok in H. destruct H as (l' & E & H). apply rbind_ok in H. destruct H as (r & E2 & H). injection H as <-.
    change (sequences ((name, KwSeq l) :: kw)) with ((name, l) :: sequences kw). constructor; [|now apply IH]. cbn. split; auto.
    assert (l <> []) as N by (intros ->; discriminate). destruct (C36_repeat l n N) as (b & Eb & Lb & Hb). rewrite E in Eb. injection Eb as <-. now split.
  - now apply IH.
  - discriminate.
Qed.
Lemma custom_returns n kw : Forall (fun nk => snd nk <> KwRagged /\ forall l, snd nk = KwSeq l -> l <> [] /\ fst nk <> "idx") kw ->
  exists cu, custom_data n kw = Ok cu.
Proof.
  induction 1 as [|[name [l| |]] kw [A B] _ IH]; cbn [custom_data].
  - eauto.
  - destruct (B l eq_refl) as [N X]. cbn in X. destruct (String.eqb_spec name "idx"); [contradiction|].
    destruct (C36_repeat l n N) as (b & -> & _). cbn. destruct IH as (cu & ->). cbn. eauto.
  - exact IH.
  - cbn in A. congruence.
Qed.
Lemma repeats_same {A} (l : list A) : repeats l (List.length l) l.
Proof. split; auto. intros t Ht. now rewrite Nat.mod_small. Qed.
Lemma fit_ok n a a' : fit_asset n a = Ok a' -> fits n a a' /\
  match a, a' with ARenewable c, ARenewable c' => rg_is_array c' = true \/ (a' = a /\ n = List.length (rg_available_mwh c)) | _, _ => True end.
Proof.
  destruct a; cbn; try (intros H; injection H as <-; auto; fail). destruct (Nat.eqb_spec (List.length (rg_available_mwh c)) n) as [E|E].
  - intros H. injection H as <-. split; [|now right]. exists c. splits; auto. rewrite <- E. apply repeats_same.
  - intros H. apply rbind_ok in H. destruct H as (l & El & H). injection H as <-. split; [|now left].
    eexists. splits; try reflexivity. cbn. assert (rg_available_mwh c <> []) as N by (intros X; rewrite X in El; discriminate).
    destruct (C36_repeat _ n N) as (b & Eb & Lb & Hb). rewrite El in Eb. injection Eb as <-. now split.
Qed.
Lemma fits_fitted n a a' : fits n a a' -> fitted n a' = true.
Proof.
  destruct a; cbn; try (intros ->; reflexivity). intros (c' & -> & _ & _ & L & _). cbn. now apply Nat.eqb_eq.
Qed.
Lemma forallb_fitted n assets assets' : Forall2 (fits n) assets assets' -> forallb (fitted n) assets' = true.
Proof. induction 1; cbn; auto. rewrite (fits_fitted _ _ _ H). auto. Qed.

(** The new site: the interval data as above, the sequences among the keyword arguments repeated to the number of intervals,
    and the renewable generators' availability repeated to the number of intervals; other assets and arguments do not
    change. *)
Theorem C35_site : forall assets i kw d assets', site_init assets i kw = Ok (d, assets') ->
  contents i d /\ Forall2 (fits (id_n d)) assets assets' /\
  Forall2 (fun nl col => fst col = fst nl /\ repeats (snd nl) (id_n d) (snd col)) (sequences kw) (id_custom d).
Proof.
  intros assets i kw d assets' H. unfold site_init in H. apply rbind_ok in H. destruct H as (d0 & E0 & H). unfold validate_interval_data in H.
  unbind H. injection H as <- <-. cbn [with_custom id_n id_custom]. splits.
  - exact (C35_contents _ _ E0).
  - apply rmap_ok in E. clear -E. induction E; constructor; auto. now apply fit_ok in H.
  - now apply custom_ok.
Qed.
(** ... and when it is built. *)
Theorem C35_site_accepts : forall assets i kw, acceptable i ->
  (forall c, In (ARenewable c) assets -> rg_available_mwh c <> []) ->
  (forall name k, In (name, k) kw -> k <> KwRagged /\ (forall l, k = KwSeq l -> l <> [] /\ name <> "idx")) ->
  exists d assets', site_init assets i kw = Ok (d, assets').
Proof.
  intros assets i kw A R K. apply C35_accepts in A. destruct A as (d & E). unfold site_init. rewrite E. cbn [rbind]. unfold validate_interval_data.
  assert (exists assets', rmap (fit_asset (id_n d)) assets = Ok assets') as (assets' & EA).
  { clear -R. induction assets as [|a assets IH]; [eexists; reflexivity|]. cbn [rmap].
    assert (exists a', fit_asset (id_n d) a = Ok a') as (a' & ->).
    { destruct a; cbn; eauto. destruct (Nat.eqb _ _); eauto. destruct (C36_repeat (rg_available_mwh c) (id_n d)) as (b & -> & _); [apply R; now left|]. cbn. eauto. }
    cbn [rbind]. destruct IH as (r & ->); [intros c Ic; apply R; now right|]. cbn. eauto. }
  rewrite EA. cbn [rbind]. destruct (custom_returns (id_n d) kw) as (cu & ->).
  { apply Forall_forall. intros [name k] Ik. cbn. destruct (K _ _ Ik) as [K1 K2]. auto. }
  cbn [rbind]. rewrite (forallb_fitted (id_n d) assets); [cbn; eauto|]. apply rmap_ok in EA. clear -EA. induction EA; constructor; auto. now apply fit_ok in H.
Qed.
Theorem C35_site_requires : forall assets i kw d assets', site_init assets i kw = Ok (d, assets') ->
  acceptable i /\
  (forall c, In (ARenewable c) assets -> rg_available_mwh c = [] -> id_n d = 0%nat) /\
  (forall name k, In (name, k) kw -> k <> KwRagged /\ (forall l, k = KwSeq l -> l <> [] /\ name <> "idx")).
Proof.
  intros assets i kw d assets' H. unfold site_init in H. apply rbind_ok in H. destruct H as (d0 & E0 & H). unfold validate_interval_data in H.
  unbind H. injection H as <- <-. cbn [with_custom id_n]. splits.
  - apply C35_accepts. eauto.
  - intros c Ic Ec. apply rmap_ok in E. clear -E Ic Ec. induction E as [|a a' l l' F _ IH]; [destruct Ic|]. destruct Ic as [->|Ic]; [|auto].
    cbn in F. rewrite Ec in F. cbn in F. destruct (id_n d0); [auto|discriminate].
  - clear -E1. revert x0 E1. induction kw as [|[nm [l| |]] kw IH]; intros cu HE name k I0; cbn in HE; [destruct I0| | |discriminate].
    + destruct (String.eqb_spec nm "idx") as [|N]; [discriminate|]. unbind HE. injection HE as <-. destruct I0 as [I0|I0]; [|eapply IH; eauto].
      injection I0 as <- <-. split; [discriminate|]. intros l0 X. injection X as <-. split; auto. intros ->. discriminate.
    + destruct I0 as [I0|I0]; [|eapply IH; eauto]. injection I0 as <- <-. split; discriminate.
Qed.

(** Nothing is asked of the series that fixes the number of intervals: not-a-number prices are accepted as they are, and
    become the export prices too. *)
Theorem C35_nan_anchor_accepted : forall l, exists d,
  site_interval_data (mkInput (Series l) Missing Missing Missing Missing Missing Missing Missing) = Ok d /\
  id_electricity_prices d = l /\ id_export_electricity_prices d = l.
Proof.
  intros l. destruct (proj2 (C35_accepts (mkInput (Series l) Missing Missing Missing Missing Missing Missing Missing))) as (d & E).
  { left. exists l. unfold loads_usable. cbn. splits; auto. }
  exists d. split; auto. unfold site_interval_data, pyd in E. cbn in E.
  repeat match goal with H : context [existsb ?f ?l] |- _ => destruct (existsb f l); cbn in H; try discriminate end.
  injection E as <-. auto.
Qed.
(** the same column anywhere else is rejected *)
Theorem C35_nan_load_rejected : forall i l, in_electric_load_mwh i = Series l -> In NaN l -> site_interval_data i = Err ValidationErr.
Proof.
  intros i l E N. destruct (site_interval_data i) as [d|e] eqn:S0; [|f_equal; eapply C35_rejects, S0].
  destruct (proj1 (C35_accepts i) (ex_intro _ d S0)) as [(p & _ & _ & _ & _ & U & _)|(_ & p & _ & _ & _ & U & _)]; rewrite E in U; destruct U; contradiction.
Qed.
Theorem C35_no_anchor : forall i, in_electricity_prices i = Missing -> in_electricity_carbon_intensities i = Missing ->
  site_interval_data i = Err ValidationErr.
Proof. intros i E1 E2. unfold site_interval_data, validate_all_things. now rewrite E1, E2. Qed.

(** ** Sites without not-a-number are ready to be optimized *)
Lemma numbers_length l q : numbers l = Some q -> l = map Num q.
Proof.
  unfold numbers. revert q. induction l as [|[x|] l IH]; intros q H; cbn in H; try discriminate.
  - injection H as <-. reflexivity.
  - destruct (all_some (map num_of l)) eqn:E; [|discriminate]. injection H as <-. cbn. f_equal. now apply IH.
Qed.
Theorem C35_site_ready : forall assets i kw d assets' q, site_init assets i kw = Ok (d, assets') -> data_numbers d = Some q ->
  id_n q = id_n d /\ data_ready q /\
  forall a', In a' assets' -> match a' with ARenewable c => List.length (rg_available_mwh c) = id_n q | _ => True end.
Proof.
  intros assets i kw d assets' q H N. apply C35_site in H. destruct H as ((_ & P & X & C & G & L & HT & LT & LG) & F & _).
  unfold data_numbers in N.
  repeat match type of N with obind ?o _ = Some _ => let E := fresh "E" in destruct o eqn:E; cbn [obind] in N; [|discriminate] end.
  injection N as <-. cbn. splits; auto.
  - repeat match goal with K : numbers _ = Some _ |- _ => apply numbers_length in K end.
    unfold data_ready, holds_what in *. cbn.
    repeat match goal with K : ?x = map Num ?y |- _ => rewrite K in *; clear K end. rewrite !map_length in *. tauto.
  - intros a' I0. destruct (Forall2_in_r _ _ _ a' F I0) as (a & _ & FT). destruct a; cbn in FT; try (subst a'; exact Logic.I).
    destruct FT as (c' & -> & _ & _ & LN & _). exact LN.
Qed.
