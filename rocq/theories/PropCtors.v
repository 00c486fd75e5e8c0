(** * PropCtors: C48, the asset constructors; completes C13, C20 and C25 *)
From Verif Require Import Base Pulp Params Optimizer Types Assets EVs Site Constraints Objectives Extract Pipeline IntervalData Ctors SpecInput Emit Prim Spec SpecReport SpecRun Rows SemProg Builds PropBasics PropInput PropSite PropEv.
Open Scope Q_scope.
Open Scope string_scope.

Lemma prefix_iff w : forall s, String.prefix w s = true <-> exists after, s = w ++ after.
Proof.
  induction w as [|a w IH]; intros s; cbn [String.prefix append].
  - split; [intros _; exists s; reflexivity|intros _; destruct s; reflexivity].
  - destruct s as [|b s]; [split; [discriminate|intros (x & X); discriminate]|]. destruct (ascii_dec a b) as [->|N].
    + cbn [String.prefix]. destruct (ascii_dec b b); [|congruence]. rewrite IH. split; intros (x & X); exists x; congruence.
    + cbn [String.prefix]. destruct (ascii_dec a b); [congruence|]. split; [discriminate|]. intros (x & X). congruence.
Qed.
Lemma contains_iff w : forall name, contains w name = true <-> mentions w name.
Proof.
  intros name. unfold mentions. induction name as [|a s IH]; cbn [contains]; rewrite orb_true_iff, prefix_iff.
  - split.
    + intros [(x & X)|X]; [|discriminate]. exists "", x. exact X.
    + intros (b & x & X). left. destruct b as [|? ?]; [exists x; exact X|discriminate].
  - rewrite IH. split.
    + intros [(x & X)|(b & x & X)]; [exists "", x; exact X|exists (String a b), x; cbn; congruence].
    + intros (b & x & X). destruct b as [|a' b]; [left; exists x; exact X|]. right. cbn in X. injection X as _ X. eauto.
Qed.
Lemma pyd_assert_ok b u : pyd_assert b = Ok u <-> b = true.
Proof. destruct u, b; cbn; split; congruence. Qed.
Lemma pyd_assert_err b e : pyd_assert b = Err e -> e = ValidationErr /\ b = false.
Proof. destruct b; cbn; intros H; [discriminate|]. injection H as <-. auto. Qed.
Lemma py_min_ok a b : py_min a b == Qmin a b.
Proof.
  unfold py_min, Qltb. destruct (Qle_bool a b) eqn:E; cbn.
  - apply Qle_bool_iff in E. symmetry. now apply Q.min_l.
  - assert (b < a) by (apply Qnot_le_lt; intros X; apply Qle_bool_iff in X; congruence). symmetry. apply Q.min_r. lra.
Qed.
Lemma qltb_iff a b : Qltb a b = true <-> a < b.
Proof.
  unfold Qltb. rewrite negb_true_iff. split.
  - intros H. apply Qnot_le_lt. intros X. apply Qle_bool_iff in X. congruence.
  - intros H. destruct (Qle_bool b a) eqn:E; auto. apply Qle_bool_iff in E. lra.
Qed.

(** ** Battery *)
Theorem C48_battery : forall power discharge capacity efficiency initial final name,
  let used := match discharge with None => power | Some x => x end in
  ((exists b, battery_init power discharge capacity efficiency initial final name = Ok b) <-> mentions "battery" name /\ ~ used == 0) /\
  (forall b, battery_init power discharge capacity efficiency initial final name = Ok b ->
     b_name b = name /\ b_charge_power_mw b = power /\ b_discharge_power_mw b = used /\ b_capacity_mwh b = capacity /\
     b_efficiency_pct b = efficiency /\ b_initial_charge_mwh b == Qmin initial capacity /\
     b_final_charge_mwh b == Qmin (match final with None => initial | Some x => x end) capacity) /\
  (used == 0 -> battery_init power discharge capacity efficiency initial final name = Err AssertionErr) /\
  (~ used == 0 -> ~ mentions "battery" name -> battery_init power discharge capacity efficiency initial final name = Err ValidationErr).
Proof.
  intros power discharge capacity efficiency initial final name used. unfold battery_init. cbn [setup_initial_final_charge]. fold used.
  destruct (Qeq_bool used 0) eqn:Z; cbn [negb rassert rbind].
  - apply Qeq_bool_iff in Z. splits.
    + split; [intros (b & X); discriminate|]. intros [_ N]. contradiction.
    + intros b X. discriminate.
    + auto.
    + intros N. contradiction.
  - assert (~ used == 0) as N by (intros X; apply Qeq_bool_iff in X; congruence).
    destruct (contains "battery" name) eqn:C; cbn [pyd_assert rassert pyd rbind].
    + apply contains_iff in C. splits.
      * split; eauto.
      * intros b X. injection X as <-. cbn. splits; auto; [apply py_min_ok|]. destruct final; apply py_min_ok.
      * intros X. contradiction.
      * intros _ X. contradiction.
    + assert (~ mentions "battery" name) as M by (intros X; apply contains_iff in X; congruence). splits; auto.
      * split; [intros (b & X); discriminate|]. intros [X _]. contradiction.
      * intros b X. discriminate.
      * intros X. contradiction.
Qed.
(** C13 in terms of the arguments of the constructor *)
Theorem C13_from_arguments : forall power discharge capacity efficiency initial final name b slv base c assets cons obj fl r,
  battery_init power discharge capacity efficiency initial final name = Ok b ->
  feasible_run slv base c assets cons obj fl r -> In (ABattery b) assets ->
  let n := n_intervals c in
  let first := rep r name "electric_initial_charge_mwh" 0%nat in
  let last := rep r name "electric_final_charge_mwh" (n - 1)%nat in
  first == Qmin initial capacity /\
  last == Qmin (match final with None => initial | Some x => x end) capacity /\
  (forall t, (S t < n)%nat -> rep r name "electric_initial_charge_mwh" (S t) == rep r name "electric_final_charge_mwh" t) /\
  last == first + horizon c (rep r name "electric_charge_mwh") - horizon c (rep r name "electric_discharge_mwh")
          - horizon c (rep r name "electric_loss_mwh").
Proof.
  intros power discharge capacity efficiency initial final name b slv base c assets cons obj fl r H R Ib n first last.
  destruct (C48_battery power discharge capacity efficiency initial final name) as (_ & C & _). destruct (C b H) as (N & _ & _ & _ & _ & I0 & F0).
  destruct (C13_battery_accounting _ _ _ _ _ _ _ _ b R Ib) as (A1 & A2 & A3 & A4). rewrite N in *. subst first last n. splits; auto.
  - now rewrite A1.
  - now rewrite A2.
Qed.

(** ** Boiler, CHP, heat pump, spill, valve *)
Theorem C48_boiler : forall name max_mw min_mw efficiency,
  ((exists b, boiler_init name max_mw min_mw efficiency = Ok b) <-> mentions "boiler" name /\ 0 < efficiency <= 1) /\
  (forall b, boiler_init name max_mw min_mw efficiency = Ok b -> b = mkBoilerCfg name max_mw min_mw efficiency) /\
  (forall e, boiler_init name max_mw min_mw efficiency = Err e -> e = ValidationErr).
Proof.
  intros name max_mw min_mw efficiency. unfold boiler_init. splits.
  - split.
    + intros (b & H). apply rbind_ok in H. destruct H as (u & H & _). apply pyd_assert_ok in H. rewrite !andb_true_iff, contains_iff, qltb_iff, Qle_bool_iff in H. tauto.
    + intros (M & E1 & E2). apply contains_iff in M. apply qltb_iff in E1. apply Qle_bool_iff in E2. rewrite M, E1, E2. cbn. eauto.
  - intros b H. apply rbind_ok in H. destruct H as (u & _ & H). congruence.
  - intros e. destruct (pyd_assert _) eqn:E; cbn; intros H; [discriminate|]. apply pyd_assert_err in E. destruct E. congruence.
Qed.
Theorem C48_chp : forall ee mx mn he le name,
  ((exists c, chp_init ee mx mn he le name = Ok c) <-> mentions "chp" name) /\
  (forall c, chp_init ee mx mn he le name = Ok c -> c = mkChpCfg name mx mn ee he le) /\
  (forall e, chp_init ee mx mn he le name = Err e -> e = ValidationErr).
Proof.
  intros ee mx mn he le name. unfold chp_init. rewrite <- contains_iff. destruct (contains "chp" name); cbn; splits; try congruence.
  - split; eauto.
  - split; [intros (x & X); discriminate|discriminate].
Qed.
Theorem C48_heat_pump : forall cop power name,
  ((exists h, heat_pump_init cop power name = Ok h) <-> 1 <= cop) /\
  (forall h, heat_pump_init cop power name = Ok h -> h = mkHpCfg name cop power) /\
  (forall e, heat_pump_init cop power name = Err e -> e = ValidationErr).
Proof.
  intros cop power name. unfold heat_pump_init. destruct (Qltb cop 1) eqn:E; cbn; splits; try congruence.
  - apply qltb_iff in E. split; [intros (x & X); discriminate|lra].
  - split; [|eauto]. intros _. apply Qnot_lt_le. intros X. apply qltb_iff in X. congruence.
Qed.
Theorem C25_low_cop_rejected : forall cop power name, cop < 1 -> heat_pump_init cop power name = Err ValidationErr.
Proof.
  intros cop power name H. destruct (C48_heat_pump cop power name) as (A & _ & B). destruct (heat_pump_init cop power name) as [h|e]; [|f_equal; auto].
  destruct A as [A _]. specialize (A (ex_intro _ h eq_refl)). lra.
Qed.
(** C25 in terms of the arguments of the constructor *)
Theorem C25_from_arguments : forall cop power name h slv base c assets cons obj fl r,
  heat_pump_init cop power name = Ok h -> feasible_run slv base c assets cons obj fl r -> In (AHeatPump h) assets ->
  1 <= cop /\
  forall t, (t < n_intervals c)%nat ->
    let elec := rep r name "electric_load_mwh" t in
    let heat := rep r name "high_temperature_generation_mwh" t in
    heat == cop * elec /\ rep r name "low_temperature_load_mwh" t + elec == heat /\
    between 0 elec (energy (sc_freq c) power) /\ elec <= heat.
Proof.
  intros cop power name h slv base c assets cons obj fl r H R Ih. destruct (C48_heat_pump cop power name) as (A & B & _).
  split; [apply A; eauto|]. intros t Ht elec heat. rewrite (B h H) in Ih. destruct (C25_heat_pump _ _ _ _ _ _ _ _ _ R Ih t Ht) as (P1 & P2 & P3 & P4). cbn in *.
  fold elec heat in P1, P2, P3. splits; auto. lra.
Qed.
Theorem C48_spill_valve : forall name,
  ((exists s, spill_init name = Ok s) <-> mentions "spill" name) /\ ((exists v, valve_init name = Ok v) <-> mentions "valve" name) /\
  (forall s, spill_init name = Ok s -> s = name) /\ (forall v, valve_init name = Ok v -> v = name) /\
  (forall e, spill_init name = Err e -> e = ValidationErr) /\ (forall e, valve_init name = Err e -> e = ValidationErr).
Proof.
  intros name. unfold spill_init, valve_init. rewrite <- !contains_iff.
  destruct (contains "spill" name), (contains "valve" name); cbn; splits; try congruence;
    (split; [intros (x & X); try discriminate; auto|intros X; try discriminate; eauto]).
Qed.

(** ** Renewable generator *)
Definition is_wind (name : string) : Prop := mentions "wind" name \/ mentions "solar" name \/ mentions "renewable-generator" name.
(** the availability given to the constructor: one number or a non-empty series, none of them negative or not-a-number *)
Definition availability (f : field) : option (list pynum) :=
  match f with Missing => None | Scalar x => Some [x] | Series l => Some l end.
Lemma numbers_not_negative l : forallb not_negative l = true -> exists q, numbers l = Some q /\ l = map Num q /\ Forall (fun x => 0 <= x) q.
Proof.
  unfold numbers. induction l as [|[x|] l IH]; cbn; intros H.
  - exists []. auto.
  - apply andb_true_iff in H. destruct H as [H1 H2]. apply Qle_bool_iff in H1. destruct (IH H2) as (q & E & -> & F). rewrite E. exists (x :: q). splits; auto.
  - discriminate.
Qed.
Lemma not_negative_iff q : forallb not_negative (map Num q) = true <-> Forall (fun x => 0 <= x) q.
Proof.
  rewrite forallb_forall, Forall_forall. split; intros H x Ix.
  - assert (not_negative (Num x) = true) as K by (apply H, in_map, Ix). now apply Qle_bool_iff.
  - apply in_map_iff in Ix. destruct Ix as (y & <- & Iy). cbn. apply Qle_bool_iff. auto.
Qed.
Lemma numbers_num q : numbers (map Num q) = Some q.
Proof. unfold numbers. induction q; cbn; auto. now rewrite IHq. Qed.
Theorem C48_renewable : forall available lower name,
  ((exists g, renewable_init available lower name = Ok g) <->
     is_wind name /\ 0 <= lower <= 1 /\ exists q, availability available = Some (map Num q) /\ q <> [] /\ Forall (fun x => 0 <= x) q) /\
  (forall g, renewable_init available lower name = Ok g ->
     rg_name g = name /\ rg_lower_pct g = lower /\ availability available = Some (map Num (rg_available_mwh g)) /\ rg_available_mwh g <> [] /\
     (rg_is_array g = true <-> exists l, available = Series l)) /\
  (forall e, renewable_init available lower name = Err e -> e = ValidationErr).
Proof.
  intros available lower name. unfold renewable_init. set (m := match available with Missing => Err ValueErr | Scalar x => _ | Series _ => _ end).
  assert ((exists q, m = Ok q /\ availability available = Some (map Num q) /\ q <> [] /\ Forall (fun x => 0 <= x) q) \/
          ((m = Err AssertionErr \/ m = Err ValueErr) /\ ~ exists q, availability available = Some (map Num q) /\ q <> [] /\ Forall (fun x => 0 <= x) q)) as CASES.
  { subst m. destruct available as [|x|l].
    - right. split; auto. intros (q & X & _). discriminate.
    - cbn [availability]. destruct (not_negative x) eqn:N.
      + destruct (numbers_not_negative [x]) as (q & E & L & F); [cbn; now rewrite N|]. left. exists q. cbn [rassert rbind]. rewrite E. cbn. rewrite L. splits; auto. intros ->. discriminate.
      + right. split; auto. intros (q & X & _ & F). injection X as X. apply not_negative_iff in F. rewrite <- X in F. cbn in F. rewrite N in F. discriminate.
    - destruct l as [|x l]; [right; split; auto; intros (q & X & NE & _); injection X as X; destruct q; [contradiction|discriminate]|]. cbn [availability].
      destruct (forallb not_negative (x :: l)) eqn:N.
      + destruct (numbers_not_negative _ N) as (q & E & L & F). left. exists q. cbn [rassert rbind]. rewrite E. cbn [of_option]. rewrite L. splits; auto. intros ->. discriminate.
      + right. split; auto. intros (q & X & _ & F). injection X as X. apply not_negative_iff in F. rewrite <- X in F. congruence. }
  clearbody m. assert (forall b1 b2 b3 b4 b5 : bool, ((b1 || b2 || b3) && (b4 && b5))%bool = true <-> (b1 = true \/ b2 = true \/ b3 = true) /\ (b4 = true /\ b5 = true)) as BB
    by (intros [] [] [] [] []; cbn; intuition discriminate).
  assert (forall b, ((contains "wind" name || contains "solar" name || contains "renewable-generator" name) && (Qle_bool 0 lower && Qle_bool lower 1))%bool = b ->
    (b = true <-> is_wind name /\ 0 <= lower <= 1)) as NM.
  { intros b <-. rewrite BB. unfold is_wind. rewrite !contains_iff, !Qle_bool_iff. tauto. }
  destruct CASES as [(q & -> & AV & NE & F)|(ME & NO)].
  - cbn [pyd rbind]. match goal with |- context [pyd_assert ?b] => specialize (NM b eq_refl); destruct b end; cbn.
    + destruct NM as [NM _]. specialize (NM eq_refl). destruct NM as (W & LO). splits.
      * split; [intros _|eauto]. splits; auto; try apply LO. eauto.
      * intros g H. injection H as <-. cbn. splits; auto. split.
        -- intros X. destruct available; try discriminate. eauto.
        -- intros (l & ->). reflexivity.
      * discriminate.
    + splits; try congruence. split; [intros (g & X); discriminate|]. intros (W & LO & _). exfalso. assert (false = true) by (apply NM; auto). discriminate.
  - assert (pyd m = Err ValidationErr) as -> by (destruct ME as [->| ->]; reflexivity). cbn. splits; try congruence.
    split; [intros (g & X); discriminate|]. intros (_ & _ & X). contradiction.
Qed.

(** ** EVs *)
Definition same_lengths (rows : list (list Q)) : Prop := forall r r', In r rows -> In r' rows -> List.length r = List.length r'.
Lemma rectangular_iff rows : rectangular rows = true <-> same_lengths rows.
Proof.
  unfold rectangular, same_lengths. destruct rows as [|r rs]; [split; [intros _ r r' []|auto]|]. rewrite forallb_forall. split.
  - intros H. assert (forall x, In x (r :: rs) -> List.length x = List.length r) as K by (intros x [<-|Ix]; auto; now apply Nat.eqb_eq, H).
    intros x y Ix Iy. rewrite (K x Ix), (K y Iy). reflexivity.
  - intros H x Ix. apply Nat.eqb_eq, H; [now right|now left].
Qed.
Theorem C48_evs : forall rows powers capacities efficiency turndown name,
  ((exists c, evs_init rows powers capacities efficiency turndown name = Ok c) <->
     mentions "evs" name /\ rows <> [] /\ same_lengths rows /\ List.length capacities = List.length rows) /\
  (forall c, evs_init rows powers capacities efficiency turndown name = Ok c ->
     ev_name c = name /\ ev_events c = rows /\
     List.length (ev_chargers c) = List.length powers /\ List.length (ev_event_cfgs c) = List.length capacities /\
     (forall k p, nth_error powers k = Some p -> nth_error (ev_chargers c) k = Some (mkChargerCfg ("charger-" ++ show k) p (p * turndown))) /\
     (forall k q, nth_error capacities k = Some q -> nth_error (ev_event_cfgs c) k = Some (mkEventCfg ("charge-event-" ++ show k) q efficiency)) /\
     ev_spill_chargers c = [mkChargerCfg ("charger-spill-" ++ name) 10000 0]).
Proof.
  intros rows powers capacities efficiency turndown name. unfold evs_init. cbv zeta. rewrite map_length. replace (List.length (enumerate capacities)) with (List.length capacities) by (unfold enumerate; now rewrite enum_from_length). splits.
  - destruct (rectangular rows) eqn:RC; cbn [negb].
    + apply rectangular_iff in RC. split.
      * intros (c & H). apply rbind_ok in H. destruct H as (u & H & K). apply pyd_assert_ok, contains_iff in H. destruct rows as [|r rows]; [discriminate|].
        apply rbind_ok in K. destruct K as (u' & K & _). apply pyd_assert_ok, Nat.eqb_eq in K. splits; auto. discriminate.
      * intros (M & NE & _ & L). apply contains_iff in M. rewrite M. cbn [pyd_assert rassert pyd rbind]. destruct rows as [|r rows]; [contradiction|].
        rewrite L, Nat.eqb_refl. cbn. eauto.
    + split; [intros (c & H); discriminate|]. intros (_ & _ & S & _). apply rectangular_iff in S. congruence.
  - intros c H. destruct (rectangular rows) eqn:RC; cbn [negb] in H; [|discriminate]. apply rbind_ok in H. destruct H as (u & _ & K). destruct rows as [|r rows]; [discriminate|].
    apply rbind_ok in K. destruct K as (u' & _ & K). injection K as <-. cbn. splits; auto.
    + rewrite map_length. unfold enumerate. apply enum_from_length.
    + rewrite map_length. unfold enumerate. apply enum_from_length.
    + intros k p E. rewrite nth_error_map, enum_nth, E. reflexivity.
    + intros k p E. rewrite nth_error_map, enum_nth, E. reflexivity.
Qed.
(** C20 in terms of the arguments of the constructor *)
Theorem C20_from_arguments : forall rows powers capacities efficiency turndown name ev slv base c assets cons obj fl r,
  evs_init rows powers capacities efficiency turndown name = Ok ev ->
  feasible_run slv base c assets cons obj fl r -> In (AEVs ev) assets ->
  forall t k p, (t < n_intervals c)%nat -> nth_error powers k = Some p ->
  let ok q := q == 0 \/ between (energy (sc_freq c) (p * turndown)) q (energy (sc_freq c) p) in
  ok (rep_part r ev ("charger-" ++ show k) "electric_charge_mwh" t) /\ ok (rep_part r ev ("charger-" ++ show k) "electric_discharge_mwh" t).
Proof.
  intros rows powers capacities efficiency turndown name ev slv base c assets cons obj fl r H R IE t k p Ht Ep ok.
  destruct (C48_evs rows powers capacities efficiency turndown name) as (_ & C). destruct (C ev H) as (_ & _ & _ & _ & P & _).
  destruct (C20_charger_limits _ _ _ _ _ _ _ _ ev R IE) as (_ & T & _). specialize (T t (mkChargerCfg ("charger-" ++ show k) p (p * turndown)) Ht).
  cbn in T. apply T. eapply nth_error_In. apply P, Ep.
Qed.

(** ** Assets that came out of a constructor *)
Inductive constructed : asset -> Prop :=
| made_battery : forall power discharge capacity efficiency initial final name b,
    battery_init power discharge capacity efficiency initial final name = Ok b -> constructed (ABattery b)
| made_boiler : forall name max_mw min_mw efficiency b, boiler_init name max_mw min_mw efficiency = Ok b -> constructed (ABoiler b)
| made_chp : forall ee mx mn he le name c, chp_init ee mx mn he le name = Ok c -> constructed (ACHP c)
| made_evs : forall rows powers capacities efficiency turndown name c,
    evs_init rows powers capacities efficiency turndown name = Ok c -> constructed (AEVs c)
| made_heat_pump : forall cop power name h, heat_pump_init cop power name = Ok h -> constructed (AHeatPump h)
| made_renewable : forall available lower name g, renewable_init available lower name = Ok g -> constructed (ARenewable g)
| made_spill : forall name s, spill_init name = Ok s -> constructed (ASpill s)
| made_valve : forall name v, valve_init name = Ok v -> constructed (AValve v).

(** The names say the type (heat pumps can have any name). *)
Theorem C48_names : forall a, constructed a ->
  match a with
  | ABattery b => mentions "battery" (b_name b) | ABoiler b => mentions "boiler" (bo_name b) | ACHP c => mentions "chp" (ch_name c)
  | AEVs c => mentions "evs" (ev_name c) | AHeatPump _ => True | ARenewable g => is_wind (rg_name g)
  | ASpill s => mentions "spill" s | AValve v => mentions "valve" v
  end.
Proof.
  intros a H. destruct H; auto.
  - destruct (C48_battery power discharge capacity efficiency initial final name) as (A & B & _). destruct (B b H) as (-> & _). apply A. eauto.
  - destruct (C48_boiler name max_mw min_mw efficiency) as (A & B & _). rewrite (B b H). apply A. eauto.
  - destruct (C48_chp ee mx mn he le name) as (A & B & _). rewrite (B c H). apply A. eauto.
  - destruct (C48_evs rows powers capacities efficiency turndown name) as (A & B). destruct (B c H) as (-> & _). apply A. eauto.
  - destruct (C48_renewable available lower name) as (A & B & _). destruct (B g H) as (-> & _). apply A. eauto.
  - destruct (C48_spill_valve name) as (A & _ & B & _). rewrite (B s H). apply A. eauto.
  - destruct (C48_spill_valve name) as (_ & A & _ & B & _). rewrite (B v H). apply A. eauto.
Qed.

Lemma fits_constructed_ready n a a' : constructed a -> fit_asset n a = Ok a' -> (0 < n)%nat ->
  (forall g, a = ARenewable g -> rg_is_array g = false -> n <> 1%nat) ->
  (forall e, a = AEVs e -> ev_chargers e <> [] /\ forall row, In row (ev_events e) -> (n <= List.length row)%nat) ->
  asset_ready n a'.
Proof.
  intros C F Hn AR EV. pose proof (fit_ok _ _ _ F) as [FT AF]. destruct C; cbn [fits] in FT; try (subst a'; exact Logic.I).
  - subst a'. cbn. destruct (C48_boiler name max_mw min_mw efficiency) as (A & B & _). rewrite (B b H). cbn. destruct (proj1 A (ex_intro _ b H)) as (_ & E & _). lra.
  - subst a'. destruct (EV c eq_refl) as [NC RW]. destruct (C48_evs rows powers capacities efficiency turndown name) as (A & B). destruct (B c H) as (_ & ER & _ & LC & _ & _ & SP).
    destruct (proj1 A (ex_intro _ c H)) as (_ & NR & _ & LR). cbn. rewrite SP, LC, LR. splits; auto.
    + destruct rows; [contradiction|cbn; lia].
    + destruct (ev_chargers c); [contradiction|cbn; lia].
    + intros e He. apply RW. rewrite ER in *. apply nth_In. lia.
  - destruct FT as (g' & -> & N & L & RP). destruct (C48_renewable available lower name) as (_ & B & _). destruct (B g H) as (_ & _ & _ & NE & _).
    cbn. split; [|destruct RP as [-> _]; auto]. destruct AF as [AF|[AF LN]]; auto. injection AF as ->.
    destruct (rg_is_array g) eqn:EA; auto. exfalso. apply (AR g eq_refl EA). rewrite LN.
    destruct (B g H) as (_ & _ & AV & _ & IA). destruct available as [|x|l].
    + discriminate.
    + injection AV as AV. destruct (rg_available_mwh g) as [|y [|z w]]; try discriminate. reflexivity.
    + assert (rg_is_array g = true) by (apply IA; eauto). congruence.
Qed.
(** The site of constructed assets is ready to be optimized, unless a renewable generator was given a single number and the
    site has one interval, or charge events do not cover the intervals. *)
Theorem C48_site_ready : forall assets i kw d assets' q f il el,
  Forall constructed assets -> NoDup (map asset_name assets) ->
  site_init assets i kw = Ok (d, assets') -> data_numbers d = Some q -> (0 < id_n q)%nat ->
  (forall g, In (ARenewable g) assets -> rg_is_array g = false -> id_n q <> 1%nat) ->
  (forall e, In (AEVs e) assets -> ev_chargers e <> [] /\ forall row, In row (ev_events e) -> (id_n q <= List.length row)%nat) ->
  site_ready (mkSiteCfg q f il el) assets'.
Proof.
  intros assets i kw d assets' q f il el C ND S D Hn AR EV. destruct (C35_site_ready _ _ _ _ _ _ S D) as (EN & DR & _).
  unfold site_init in S. apply rbind_ok in S. destruct S as (d0 & _ & S). unfold validate_interval_data in S. unbind S. injection S as <- <-.
  cbn [with_custom id_n] in EN. rewrite EN in *. apply rmap_ok in E. unfold site_ready, n_intervals. cbn [sc_idata]. rewrite EN. splits; auto.
  - replace (map asset_name x) with (map asset_name assets); auto. clear -E. induction E as [|a a' l l' F _ IH]; auto. cbn. rewrite IH. f_equal.
    apply fit_ok in F. destruct F as [F _]. destruct a; cbn in F; try (subst a'; reflexivity). destruct F as (c' & -> & N & _). cbn. auto.
  - clear -C E Hn AR EV. induction E as [|a a' l l' F _ IH]; constructor.
    + apply Forall_inv in C. eapply fits_constructed_ready; eauto.
      * intros g ->. apply AR. now left.
      * intros e ->. apply EV. now left.
    + apply IH; [now apply Forall_inv_tail in C| |]; intros x Ix; [apply AR|apply EV]; now right.
Qed.
Lemma not_mentions w name : contains w name = false -> mentions w name -> False.
Proof. intros C M. apply contains_iff in M. congruence. Qed.
(** the naming conditions of the other theorems *)
Theorem C48_names_ok : forall assets i kw d assets' q f il el, Forall constructed assets ->
  site_init assets i kw = Ok (d, assets') -> data_numbers d = Some q ->
  (forall h, In (AHeatPump h) assets -> hp_name h <> "total") ->
  (forall name k, In (name, k) kw -> name <> "electricity_prices" /\ name <> "electricity_balance_mwh") ->
  names_ok (mkSiteCfg q f il el) assets'.
Proof.
  intros assets i kw d assets' q f il el C S D HP KW. pose proof (C35_site _ _ _ _ _ S) as (_ & F & CU).
  assert (forall a', In a' assets' -> exists a, In a assets /\ fits (id_n d) a a' /\ constructed a) as BACK.
  { intros a' Ia. destruct (Forall2_in_r _ _ _ _ F Ia) as (a & I0 & FT). exists a. splits; auto. rewrite Forall_forall in C. auto. }
  unfold names_ok. splits.
  - intros a' Ia. destruct (BACK a' Ia) as (a & I0 & FT & K). pose proof (C48_names a K) as NM. assert (asset_name a' = asset_name a) as ->.
    { destruct a; cbn in FT; try (subst a'; reflexivity). destruct FT as (c' & -> & N & _). exact N. }
    intros X. destruct a; cbn in NM, X; try rewrite X in NM; try (refine (not_mentions _ _ _ NM); reflexivity); [eapply HP; eauto|].
    unfold is_wind in NM. destruct NM as [NM|[NM|NM]]; refine (not_mentions _ _ _ NM); reflexivity.
  - intros col Ic. assert (exists name k, In (name, k) kw /\ fst col = name) as (name & k & Ik & ->); [|eapply KW; eauto].
    cbn [sc_idata] in Ic. unfold data_numbers in D.
    repeat match type of D with obind ?o _ = Some _ => let E := fresh "E" in destruct o eqn:E; cbn [obind] in D; [|discriminate] end.
    injection D as <-. cbn [id_custom] in Ic. clear -Ic E7 CU.
    assert (exists col', In col' (id_custom d) /\ fst col' = fst col) as (col' & I1 & <-).
    { clear CU. revert l7 E7 Ic. induction (id_custom d) as [|y ys IH]; intros l E Ic; cbn in E; [injection E as <-; destruct Ic|].
      destruct (obind (numbers (snd y)) (fun l0 => Some (fst y, l0))) as [z|] eqn:EZ; [|discriminate]. destruct (all_some _) as [zs|] eqn:ES; [|discriminate]. injection E as <-.
      destruct Ic as [<-|Ic].
      - exists y. split; [now left|]. destruct (numbers (snd y)); [|discriminate]. injection EZ as <-. reflexivity.
      - destruct (IH zs eq_refl Ic) as (col' & J & K). exists col'. split; [now right|auto]. }
    destruct (Forall2_in_r _ _ _ _ CU I1) as (nl & I2 & E & _). rewrite E. unfold sequences in I2. apply in_flat_map in I2. destruct I2 as ([name k] & J & K).
    cbn in K. destruct k; try destruct K as [<-|[]]; try destruct K. cbn. eauto.
  - intros e Ie. destruct (BACK _ Ie) as (a & I0 & FT & K). destruct a; cbn in FT; try discriminate.
    + injection FT as <-. pose proof (C48_names _ K) as NM. cbn in NM. now apply contains_iff.
    + destruct FT as (c' & X & _). discriminate.
Qed.

(** ** The site of a single asset *)
Definition spill_too (b : bool) : list asset := if b then [ASpill "spill"] else [].
(** every number a site needs to be optimized is there, and the price and carbon programs can be built *)
Definition optimizable (d : idata pynum) (assets : list asset) : Prop :=
  forall q f il el, data_numbers d = Some q -> (0 < id_n q)%nat ->
    site_ready (mkSiteCfg q f il el) assets /\
    forall base fl s, s = "price" \/ s = "carbon" ->
      exists iv o, build_program (mkSiteCfg q f il el) assets [] (ObjName s) fl (new_optimizer base) = Ok (iv, o).
Lemma own_none assets i kw : own_site assets i kw = Ok None <-> in_electricity_prices i = Missing /\ in_electricity_carbon_intensities i = Missing.
Proof.
  unfold own_site, has_site. destruct (in_electricity_prices i), (in_electricity_carbon_intensities i); try (split; auto; fail);
    (split; [intros H; destruct (site_init _ _ _); discriminate|intros [X Y]; discriminate]).
Qed.
Lemma own_some assets i kw d assets' : own_site assets i kw = Ok (Some (d, assets')) -> site_init assets i kw = Ok (d, assets').
Proof. unfold own_site. destruct (has_site i); [|discriminate]. destruct (site_init assets i kw); cbn; congruence. Qed.
Lemma own_optimizable assets i kw d assets' : own_site assets i kw = Ok (Some (d, assets')) -> Forall constructed assets -> NoDup (map asset_name assets) ->
  (forall g, In (ARenewable g) assets -> rg_is_array g = false -> id_n d <> 1%nat) ->
  (forall e, In (AEVs e) assets -> ev_chargers e <> [] /\ forall row, In row (ev_events e) -> (id_n d <= List.length row)%nat) ->
  optimizable d assets'.
Proof.
  intros O C ND AR EV. apply own_some in O. intros q f il el D Hn. destruct (C35_site_ready _ _ _ _ _ _ O D) as (EN & _).
  assert (site_ready (mkSiteCfg q f il el) assets') as R by (eapply C48_site_ready; eauto; rewrite EN; auto). split; auto.
  intros base fl s Hs. now apply program_builds.
Qed.
Lemma no_renewable assets assets' n : Forall2 (fits n) assets assets' -> (forall g, ~ In (ARenewable g) assets) -> assets' = assets.
Proof.
  induction 1 as [|a a' l l' F _ IH]; intros N; auto. f_equal; [|apply IH; intros g I0; apply (N g); now right].
  destruct a; cbn in F; auto. exfalso. apply (N c). now left.
Qed.
Lemma spill_made b : Forall constructed (spill_if b).
Proof. destruct b; constructor; [eapply (made_spill "spill"); reflexivity|constructor]. Qed.
Lemma valve_made b : Forall constructed (valve_if b).
Proof. destruct b; constructor; [eapply (made_valve "valve"); reflexivity|constructor]. Qed.
Lemma boiler_made b : default_boiler = Ok b -> constructed (ABoiler b).
Proof. apply made_boiler. Qed.

Theorem C48_battery_site : forall power discharge capacity efficiency initial final name b spill i kw,
  battery_init power discharge capacity efficiency initial final name = Ok b ->
  (battery_site b spill i kw = Ok None <-> in_electricity_prices i = Missing /\ in_electricity_carbon_intensities i = Missing) /\
  forall d assets, battery_site b spill i kw = Ok (Some (d, assets)) ->
    contents i d /\ assets = ABattery b :: spill_too spill /\ optimizable d assets.
Proof.
  intros power discharge capacity efficiency initial final name b spill i kw H. unfold battery_site. split; [apply own_none|]. intros d assets O.
  pose proof (C35_site _ _ _ _ _ (own_some _ _ _ _ _ O)) as (CO & F & _). assert (constructed (ABattery b)) as CB by (eapply made_battery; eauto).
  splits; auto.
  - apply no_renewable in F; [exact F|]. intros g I0. destruct spill; cbn in I0; intuition discriminate.
  - eapply own_optimizable; eauto.
    + constructor; auto. apply spill_made.
    + pose proof (C48_names _ CB) as NM. cbn in NM. destruct spill; cbn; constructor; try (constructor; auto; constructor); cbn; [|tauto].
      intros [X|[]]. rewrite <- X in NM. refine (not_mentions _ _ _ NM). reflexivity.
    + intros g I0. destruct spill; cbn in I0; intuition discriminate.
    + intros e I0. destruct spill; cbn in I0; intuition discriminate.
Qed.
Theorem C48_chp_site : forall ee mx mn he le name c spill i kw, chp_init ee mx mn he le name = Ok c ->
  (chp_site c spill i kw = Ok None <-> in_electricity_prices i = Missing /\ in_electricity_carbon_intensities i = Missing) /\
  forall d assets, chp_site c spill i kw = Ok (Some (d, assets)) ->
    contents i d /\ assets = (ACHP c :: AValve "valve" :: ABoiler (mkBoilerCfg "boiler" 10000 0 (8 # 10)) :: spill_too spill) /\ optimizable d assets.
Proof.
  intros ee mx mn he le name c spill i kw H. assert (constructed (ACHP c)) as CC by (eapply made_chp; eauto).
  assert (default_boiler = Ok (mkBoilerCfg "boiler" 10000 0 (8 # 10))) as BO by reflexivity.
  assert (chp_site c spill i kw = own_site (ACHP c :: AValve "valve" :: ABoiler (mkBoilerCfg "boiler" 10000 0 (8 # 10)) :: spill_if spill) i kw) as ->.
  { unfold chp_site. rewrite BO. unfold own_site. destruct (has_site i); reflexivity. }
  split; [apply own_none|]. intros d assets O. pose proof (C35_site _ _ _ _ _ (own_some _ _ _ _ _ O)) as (CO & F & _). splits; auto.
  - apply no_renewable in F; [exact F|]. intros g I0. destruct spill; cbn in I0; intuition discriminate.
  - eapply own_optimizable; eauto.
    + repeat (apply Forall_cons); auto; [eapply (made_valve "valve"); reflexivity|now apply boiler_made|apply spill_made].
    + pose proof (C48_names _ CC) as NM. cbn in NM. assert (forall x, contains "chp" x = false -> ch_name c <> x) as NX by (intros x E X; rewrite X in NM; eapply not_mentions; eauto).
      destruct spill; cbn; repeat (constructor; [cbn; intuition (try discriminate; try (eapply NX; [|symmetry; eassumption]; reflexivity))|]); constructor.
    + intros g I0. destruct spill; cbn in I0; intuition discriminate.
    + intros e I0. destruct spill; cbn in I0; intuition discriminate.
Qed.
Theorem C48_heat_pump_site : forall cop power name h spill valve i kw, heat_pump_init cop power name = Ok h ->
  (heat_pump_site h spill valve i kw = Ok None <-> in_electricity_prices i = Missing /\ in_electricity_carbon_intensities i = Missing) /\
  forall d assets, heat_pump_site h spill valve i kw = Ok (Some (d, assets)) ->
    contents i d /\
    assets = (AHeatPump h :: ABoiler (mkBoilerCfg "boiler" 10000 0 (8 # 10)) :: spill_too spill ++ (if valve then [AValve "valve"] else []))%list /\
    (name <> "boiler" -> name <> "spill" -> name <> "valve" -> optimizable d assets).
Proof.
  intros cop power name h spill valve i kw H. assert (constructed (AHeatPump h)) as CC by (eapply made_heat_pump; eauto).
  assert (default_boiler = Ok (mkBoilerCfg "boiler" 10000 0 (8 # 10))) as BO by reflexivity.
  assert (heat_pump_site h spill valve i kw = own_site (AHeatPump h :: ABoiler (mkBoilerCfg "boiler" 10000 0 (8 # 10)) :: spill_if spill ++ valve_if valve)%list i kw) as ->.
  { unfold heat_pump_site. rewrite BO. unfold own_site. destruct (has_site i); reflexivity. }
  split; [apply own_none|]. intros d assets O. pose proof (C35_site _ _ _ _ _ (own_some _ _ _ _ _ O)) as (CO & F & _).
  destruct (C48_heat_pump cop power name) as (_ & B & _). splits; auto.
  - apply no_renewable in F; [exact F|]. intros g I0. destruct spill, valve; cbn in I0; intuition discriminate.
  - intros N1 N2 N3. eapply own_optimizable; eauto.
    + repeat (apply Forall_cons); auto; [now apply boiler_made|]. apply Forall_app. split; [apply spill_made|apply valve_made].
    + rewrite (B h H). destruct spill, valve; cbn; repeat (constructor; [cbn; intuition congruence|]); constructor.
    + intros g I0. destruct spill, valve; cbn in I0; intuition discriminate.
    + intros e I0. destruct spill, valve; cbn in I0; intuition discriminate.
Qed.
Theorem C48_renewable_site : forall available lower name g spill i kw, renewable_init available lower name = Ok g ->
  (renewable_site g spill i kw = Ok None <-> in_electricity_prices i = Missing /\ in_electricity_carbon_intensities i = Missing) /\
  forall d assets, renewable_site g spill i kw = Ok (Some (d, assets)) ->
    contents i d /\
    (exists g', assets = ARenewable g' :: spill_too spill /\ rg_name g' = name /\ rg_lower_pct g' = lower /\ repeats (rg_available_mwh g) (id_n d) (rg_available_mwh g')) /\
    ((exists l, available = Series l) \/ id_n d <> 1%nat -> optimizable d assets).
Proof.
  intros available lower name g spill i kw H. assert (constructed (ARenewable g)) as CC by (eapply made_renewable; eauto). unfold renewable_site.
  split; [apply own_none|]. intros d assets O. pose proof (C35_site _ _ _ _ _ (own_some _ _ _ _ _ O)) as (CO & F & _).
  destruct (C48_renewable available lower name) as (_ & B & _). destruct (B g H) as (B1 & B2 & _ & _ & B5). splits; auto.
  - inversion F as [|a a' l l' FT FR]; subst. destruct FT as (g' & -> & N & L & RP). exists g'. splits; auto.
    f_equal. apply no_renewable in FR; [exact FR|]. intros x I0. destruct spill; cbn in I0; intuition discriminate.
  - intros SC. eapply own_optimizable; eauto.
    + constructor; auto. apply spill_made.
    + pose proof (C48_names _ CC) as NM. cbn in NM. unfold is_wind in NM. destruct spill; cbn; constructor; try (constructor; auto; constructor); cbn; [|tauto].
      intros [X|[]]. rewrite <- X in NM. destruct NM as [NM|[NM|NM]]; refine (not_mentions _ _ _ NM); reflexivity.
    + intros x I0 EA. assert (x = g) as -> by (destruct spill; cbn in I0; intuition congruence).
      destruct SC as [SC|SC]; auto. apply B5 in SC. congruence.
    + intros e I0. destruct spill; cbn in I0; intuition discriminate.
Qed.
Lemma Qltb_sum r : Qltb 0 (Qsum r) = true <-> 0 < Qsum r.
Proof. apply qltb_iff. Qed.
Theorem C48_evs_site : forall rows powers capacities efficiency turndown name c spill i kw,
  evs_init rows powers capacities efficiency turndown name = Ok c ->
  (evs_site c spill i kw = Ok None <-> in_electricity_prices i = Missing /\ in_electricity_carbon_intensities i = Missing) /\
  forall d assets, evs_site c spill i kw = Ok (Some (d, assets)) ->
    contents i d /\ assets = AEVs c :: spill_too spill /\
    (forall row, In row rows -> List.length row = id_n d /\ 0 < Qsum row) /\
    (powers <> [] -> optimizable d assets).
Proof.
  intros rows powers capacities efficiency turndown name c spill i kw H. assert (constructed (AEVs c)) as CC by (eapply made_evs; eauto). unfold evs_site.
  destruct (C48_evs rows powers capacities efficiency turndown name) as (A & B). destruct (B c H) as (B1 & B2 & B3 & _). destruct (proj1 A (ex_intro _ c H)) as (_ & NR & SL & _). split.
  - rewrite <- (own_none (AEVs c :: spill_if spill) i kw). destruct (own_site _ i kw) as [[s|]|e]; cbn; try tauto; try (split; discriminate).
    destruct (validate_ev_interval_data _ _); cbn; split; discriminate.
  - intros d assets O. apply rbind_ok in O. destruct O as ([s|] & O & V); [|discriminate]. apply rbind_ok in V. destruct V as (u & V & X). injection X as ->. cbn [fst] in V.
    pose proof (C35_site _ _ _ _ _ (own_some _ _ _ _ _ O)) as (CO & F & _). unfold validate_ev_interval_data in V. rewrite B2 in V.
    apply rbind_ok in V. destruct V as (u1 & V1 & V). apply rbind_ok in V. destruct V as (u2 & V2 & _). unfold rassert in V1, V2.
    assert (forall row, In row rows -> List.length row = id_n d /\ 0 < Qsum row) as RW.
    { intros row Ir. destruct rows as [|r rows]; [contradiction|]. destruct (Nat.eqb_spec (id_n d) (List.length r)) as [LN|]; [|discriminate]. split.
      - rewrite LN. apply SL; [auto|now left].
      - destruct (forallb _ (r :: rows)) eqn:FB; [|discriminate]. rewrite forallb_forall in FB. now apply Qltb_sum, FB. }
    splits; auto.
    + apply no_renewable in F; [exact F|]. intros g I0. destruct spill; cbn in I0; intuition discriminate.
    + intros NP. eapply own_optimizable; eauto.
      * constructor; auto. apply spill_made.
      * pose proof (C48_names _ CC) as NM. cbn in NM. destruct spill; cbn; constructor; try (constructor; auto; constructor); cbn; [|tauto].
        intros [X|[]]. rewrite <- X in NM. refine (not_mentions _ _ _ NM). reflexivity.
      * intros g I0. destruct spill; cbn in I0; intuition discriminate.
      * intros e I0. assert (e = c) as -> by (destruct spill; cbn in I0; intuition congruence). split.
        -- intros X. rewrite X in B3. cbn in B3. destruct powers; [contradiction|discriminate].
        -- rewrite B2. intros row Ir. destruct (RW row Ir) as [-> _]. auto.
Qed.

(** A renewable generator given a single number cannot be optimized over a single interval: the number is still a Python
    list there, and an assertion fails. *)
Theorem C48_single_number_single_interval_fails : forall x lower name g spill i kw d assets q,
  renewable_init (Scalar x) lower name = Ok g -> renewable_site g spill i kw = Ok (Some (d, assets)) -> id_n d = 1%nat -> data_numbers d = Some q ->
  forall slv base f il el cons obj fl, optimize slv base (mkSiteCfg q f il el) assets cons obj fl = Err AssertionErr.
Proof.
  intros x lower name g spill i kw d assets q H S N1 D slv base f il el cons obj fl.
  destruct (C48_renewable (Scalar x) lower name) as (_ & B & _). destruct (B g H) as (_ & _ & AV & _ & IA). cbn in AV. injection AV as AV.
  assert (rg_is_array g = false) as NA by (destruct (rg_is_array g); auto; destruct (proj1 IA eq_refl) as (l & X); discriminate).
  assert (List.length (rg_available_mwh g) = 1%nat) as LN by (destruct (rg_available_mwh g) as [|y [|z w]]; try discriminate; reflexivity).
  unfold renewable_site in S. apply own_some in S. pose proof (C35_site_ready _ _ _ _ _ _ S D) as (EN & _).
  unfold site_init in S. apply rbind_ok in S. destruct S as (d0 & _ & S). unfold validate_interval_data in S. unbind S. injection S as <- <-.
  cbn [with_custom id_n] in *. assert (exists rest, x0 = ARenewable g :: rest) as (rest & ->).
  { cbn [rmap fit_asset] in E. rewrite N1, LN in E. cbn [Nat.eqb rbind] in E. unbind E. injection E as <-. eauto. }
  unfold optimize. assert (build_program (mkSiteCfg q f il el) (ARenewable g :: rest) cons obj fl (new_optimizer base) = Err AssertionErr) as ->; [|reflexivity].
  unfold build_program, build_base. unfold bind at 1 2. unfold massert at 1. destruct (nodup_str _); [|reflexivity].
  cbn [ret]. unfold ret at 1. cbn [sc_idata]. rewrite EN, N1. cbn [seq site_intervals]. unfold bind at 1 2 3. unfold site_interval.
  cbn [forM asset_one_interval]. unfold rg_one_interval, massert. rewrite NA. reflexivity.
Qed.
