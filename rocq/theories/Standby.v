(** * Standby: operating a site with its assets idle, its cars at the spill charger and the rest through Spill and Valve (proofs) *)
From Coq Require Import Permutation.
From Verif Require Import Base Pulp Params Optimizer Types EVs Emit Prim Spec SpecReport SpecRun SpecCompare SpecPossible Bounded Pad Compare.
Open Scope Q_scope.

Section Standby.
Variables (c : site_cfg) (assets : list asset) (fl : flags).
Variables (imp : nat -> Q) (special : string -> option (qty -> nat -> Q)).
Let f := sc_freq c.
Let n := n_intervals c.

Definition can_chargeb (v : evs_cfg) (e t : nat) : bool :=
  if limit_charge_variables_to_valid_events fl then Qeq_bool (presence v e t) 1 else Qle_bool 1 (presence v e t).
Lemma can_charge_iff v e t : can_chargeb v e t = true <-> can_charge fl v e t.
Proof. unfold can_chargeb, can_charge. destruct (limit_charge_variables_to_valid_events fl); [apply Qeq_bool_iff|apply Qle_bool_iff]. Qed.
(** the interval the car is charged in *)
Definition served_at (v : evs_cfg) (e : nat) : nat := match find (can_chargeb v e) (seq 0 n) with Some t => t | None => 0%nat end.
Lemma served_ok v e : (exists t, (t < n)%nat /\ can_charge fl v e t) -> (served_at v e < n)%nat /\ can_charge fl v e (served_at v e).
Proof.
  intros (t & Ht & K). unfold served_at. destruct (find (can_chargeb v e) (seq 0 n)) as [u|] eqn:E.
  - apply find_some in E. destruct E as [I E]. apply in_seq in I. apply can_charge_iff in E. split; auto. lia.
  - exfalso. apply can_charge_iff in K. rewrite (find_none _ _ E t) in K; [discriminate|]. apply in_seq. lia.
Qed.
Definition ev_named (nm : string) : option evs_cfg :=
  match find (fun a => match a with AEVs v => String.eqb (ev_name v) nm | _ => false end) assets with Some (AEVs v) => Some v | _ => None end.
Lemma find_named (l : list asset) v : NoDup (map asset_name l) -> In (AEVs v) l ->
  find (fun a => match a with AEVs w => String.eqb (ev_name w) (ev_name v) | _ => false end) l = Some (AEVs v).
Proof.
  induction l as [|a l IH]; [intros _ []|]. intros N [->|J].
  - cbn [find]. now rewrite String.eqb_refl.
  - inversion N as [|? ? N1 N2]; subst. cbn [find]. destruct a as [b|b|b|b|b|b|s|s]; auto. destruct (String.eqb (ev_name b) (ev_name v)) eqn:E; auto.
    apply String.eqb_eq in E. exfalso. apply N1. cbn [asset_name]. rewrite E. change (ev_name v) with (asset_name (AEVs v)). now apply in_map.
Qed.
Definition cap (v : evs_cfg) (e : nat) : Q := match nth_error (ev_event_cfgs v) e with Some ec => ce_capacity_mwh ec | None => 0 end.
Definition eff (v : evs_cfg) (e : nat) : Q := match nth_error (ev_event_cfgs v) e with Some ec => ce_efficiency_pct ec | None => 0 end.
Definition with_ev (g : evs_cfg -> nat -> nat -> Q) (nm : string) (e t : nat) : Q := match ev_named nm with Some v => g v e t | None => 0 end.
Definition ev_now (v : evs_cfg) (e t : nat) : Q := if Nat.eqb t (served_at v e) then cap v e else 0.
Definition standby : dispatch :=
  mkDispatch imp (fun _ => 0) (fun nm => match special nm with Some g => g | None => idle assets nm end)
    (fun _ _ _ _ => 0) (fun _ _ _ _ => 0) (fun _ _ _ _ => 0)
    (with_ev ev_now) (with_ev (fun v e t => ev_now v e t * (1 - eff v e)))
    (with_ev (fun v e t => if Nat.ltb (served_at v e) t then cap v e else 0)) (with_ev (fun v e t => if Nat.leb (served_at v e) t then cap v e else 0)).

Hypothesis ND : NoDup (map asset_name assets).
Lemma with_ev_in g v e t : In (AEVs v) assets -> with_ev g (ev_name v) e t = g v e t.
Proof. intros J. unfold with_ev, ev_named. now rewrite (find_named _ _ ND J). Qed.

Lemma Qsum_zeros {A} (l : list A) : Qsum (map (fun _ => 0) l) == 0.
Proof. induction l as [|x l IH]; [reflexivity|]. change (0 + Qsum (map (fun _ => 0) l) == 0). rewrite IH. reflexivity. Qed.
Lemma zeros_one {A B} (l : list A) (m : list B) : at_most_one_nonzero (map (fun _ => 0) l ++ map (fun _ => 0) m).
Proof.
  intros i j x y Hx _ N _. exfalso. apply nth_error_In, in_app_or in Hx. destruct Hx as [Hx|Hx]; apply in_map_iff in Hx; destruct Hx as (? & <- & _); now apply N.
Qed.
Lemma standby_evs v : In (AEVs v) assets -> spill_charger_serves f fl n v -> evs_physical v f fl n standby.
Proof.
  intros J S. unfold evs_physical. cbn [d_ev_charge d_ev_discharge d_ev_loss standby d_spill_charge d_spill_loss d_ev_soc0 d_ev_soc1]. cbv zeta. splits.
  - intros t e ec k cc Ht E K. splits; [lra|left; reflexivity| |ring|lra].
    destruct (allow_evs_discharge fl); [split; [lra|left; reflexivity]|reflexivity].
  - intros t e ec cc Ht E K. rewrite !with_ev_in by auto. destruct (S e ec E) as (S1 & S2 & S3 & S4). destruct (served_ok _ _ S3) as [T1 T2]. specialize (S4 cc K).
    unfold ev_now, cap, eff. rewrite E. destruct (Nat.eqb_spec t (served_at v e)) as [->|N].
    + splits; [exact S1|right; split; [exact S4|exact T2]|reflexivity|apply Qmult_le_0_compat; lra].
    + splits; [lra|left; reflexivity|reflexivity|]. rewrite Qmult_0_l. lra.
  - intros t e Ht Ie. apply zeros_one.
  - intros t k Ht Ik. apply zeros_one.
  - intros t e ec Ht E. rewrite !with_ev_in by auto. destruct (S e ec E) as (S1 & S2 & S3 & S4). rewrite !Qsum_zeros. unfold ev_now, cap. rewrite E. unfold between.
    destruct (Nat.ltb_spec (served_at v e) t), (Nat.leb_spec (served_at v e) t), (Nat.eqb_spec t (served_at v e)); try lia; splits; lra.
  - intros t e Ht Ie. rewrite !with_ev_in by auto. destruct (Nat.ltb_spec (served_at v e) (Datatypes.S t)), (Nat.leb_spec (served_at v e) t); try lia; reflexivity.
  - intros e ec E. rewrite !with_ev_in by auto. destruct (S e ec E) as (S1 & S2 & S3 & S4). destruct (served_ok _ _ S3) as [T1 T2]. unfold cap. rewrite E.
    destruct (Nat.ltb_spec (served_at v e) 0), (Nat.leb_spec (served_at v e) (n - 1)); try lia. split; reflexivity.
Qed.
Lemma standby_idle a : In a assets -> can_idle f n a -> special (asset_name a) = None -> asset_physical a f fl n standby.
Proof. intros J K S. eapply (idle_physical f n standby assets); auto. cbn [d_qty standby]. now rewrite S. Qed.
Lemma ev_flows v t : In (AEVs v) assets ->
  charge standby t (AEVs v) == Qsum (map (fun e => ev_now v e t) (seq 0 (List.length (ev_event_cfgs v)))) /\ discharge standby t (AEVs v) == 0.
Proof.
  intros J. cbn [charge discharge]. unfold ev_total_charge, ev_total_discharge, ev_spill_total. cbn [d_ev_charge d_ev_discharge d_spill_charge standby]. split.
  - assert (Qsum (map (fun _ : nat => Qsum (map (fun _ => 0) (seq 0 (Datatypes.length (ev_chargers v))))) (seq 0 (Datatypes.length (ev_event_cfgs v)))) == 0) as -> by (apply Qsum_map_zero; intros; apply Qsum_zeros).
    rewrite Qplus_0_l. assert (map (fun e => with_ev ev_now (ev_name v) e t) (seq 0 (Datatypes.length (ev_event_cfgs v))) = map (fun e => ev_now v e t) (seq 0 (Datatypes.length (ev_event_cfgs v)))) as ->; [|reflexivity].
    apply map_ext. intros e. now apply with_ev_in.
  - apply Qsum_map_zero. intros. apply Qsum_zeros.
Qed.
(** what the cars take in an interval *)
Definition ev_power (t : nat) (a : asset) : Q := match a with AEVs v => Qsum (map (fun e => ev_now v e t) (seq 0 (List.length (ev_event_cfgs v)))) | _ => 0 end.
Lemma cap_nonneg v e : spill_charger_serves f fl n v -> 0 <= cap v e.
Proof. intros S. unfold cap. destruct (nth_error (ev_event_cfgs v) e) as [ec|] eqn:E; [|lra]. apply (S e ec E). Qed.
Lemma ev_power_bounds t a : undemanding f fl n a -> 0 <= ev_power t a /\ ev_power t a <= match a with AEVs v => Qsum (map ce_capacity_mwh (ev_event_cfgs v)) | _ => 0 end.
Proof.
  destruct a as [b|b|b|v|b|b|s|s]; cbn [undemanding ev_power]; intros S; try (split; lra).
  assert (forall e, 0 <= ev_now v e t <= cap v e) as K.
  { intros e. pose proof (cap_nonneg v e S). unfold ev_now. destruct (Nat.eqb t (served_at v e)); split; lra. }
  split.
  - apply Qsum_map_nonneg. intros e _. apply K.
  - assert (Qsum (map ce_capacity_mwh (ev_event_cfgs v)) == Qsum (map (cap v) (seq 0 (List.length (ev_event_cfgs v))))) as ->.
    { clear. assert (map ce_capacity_mwh (ev_event_cfgs v) = map (cap v) (seq 0 (List.length (ev_event_cfgs v)))) as ->; [|reflexivity].
      unfold cap. generalize (ev_event_cfgs v) as l. intros l. apply nth_ext with (d := 0) (d' := 0); [now rewrite !map_length, seq_length|].
      intros k Hk. rewrite map_length in Hk. destruct (nth_error l k) as [x|] eqn:E; [|apply nth_error_None in E; lia].
      erewrite (nth_error_nth (map ce_capacity_mwh l) k) by (rewrite nth_error_map, E; reflexivity).
      erewrite (nth_error_nth (map _ (seq 0 _)) k) by (rewrite nth_error_map; erewrite nth_error_nth' with (d := 0%nat) by (rewrite seq_length; lia); rewrite seq_nth by lia; cbn; reflexivity).
      cbn. now rewrite E. }
    apply Qsum_le. intros e _. apply K.
Qed.

(** the special assets are Spill and Valve assets *)
Hypothesis UN : Forall (undemanding f fl n) assets.
Lemma standby_asset a : In a assets -> (special (asset_name a) = None \/ asset_physical a f fl n standby) -> asset_physical a f fl n standby.
Proof.
  intros J [S|S]; auto. rewrite Forall_forall in UN. specialize (UN a J). destruct a as [b|b|b|v|b|b|s|s]; cbn [undemanding] in UN; try (apply standby_idle; auto; fail).
  apply standby_evs; auto.
Qed.
Lemma standby_rest a t : In a assets -> special (asset_name a) = None ->
  (elec_gen standby t a == 0 /\ elec_load standby t a == 0 /\ charge standby t a == ev_power t a /\ discharge standby t a == 0) /\
  (ht_gen standby t a == 0 /\ ht_load standby t a == 0 /\ lt_gen standby t a == 0 /\ lt_load standby t a == 0).
Proof.
  intros J S. rewrite Forall_forall in UN. specialize (UN a J).
  assert (can_idle f n a -> _) as K by (intros K; exact (idle_flows f n standby assets a t ND J K ltac:(cbn [d_qty standby]; now rewrite S))).
  destruct a as [b|b|b|v|b|b|s|s]; cbn [undemanding] in UN; cbn [ev_power]; try (destruct (K UN) as (K1 & K2 & _); split; [exact K1|exact K2]).
  clear K. destruct (ev_flows v t J) as [E1 E2]. split; [|splits; reflexivity]. splits; try reflexivity; auto.
Qed.
End Standby.

Lemma total_pick g (l : list asset) a : NoDup (map asset_name l) -> In a l -> (forall b, In b l -> asset_name b <> asset_name a -> g b == 0) -> total g l == g a.
Proof.
  induction l as [|x l IH]; intros N J K; [destruct J|]. inversion N as [|? ? N1 N2]; subst. rewrite total_cons. destruct J as [->|J].
  - rewrite total_zero; [ring|]. intros b Ib. apply K; [now right|]. intros E. apply N1. rewrite <- E. now apply in_map.
  - rewrite IH; auto; [|intros b Ib; apply K; now right]. rewrite (K x (or_introl eq_refl)); [ring|]. intros E. apply N1. rewrite E. now apply in_map.
Qed.
Lemma total_ext g h (l : list asset) : (forall a, In a l -> g a == h a) -> total g l == total h l.
Proof. intros H. unfold total. now apply Qsum_map_ext. Qed.

Section Site.
Variables (c : site_cfg) (assets : list asset) (fl : flags).
Hypothesis ND : NoDup (map asset_name assets).
Hypothesis UN : Forall (undemanding (sc_freq c) fl (n_intervals c)) assets.
Hypothesis LM : limits_not_negative c.
Let load t := data (id_electric_load_mwh (sc_idata c)) t.
Let heat t := data (id_high_temperature_load_mwh (sc_idata c)) t.

Lemma cars_bounds t : 0 <= total (ev_power c fl t) assets /\ total (ev_power c fl t) assets <= ev_demand assets.
Proof.
  rewrite Forall_forall in UN. split.
  - unfold total. apply Qsum_map_nonneg. intros a J. now apply ev_power_bounds, UN.
  - unfold ev_demand, total. apply Qsum_le. intros a J. now apply ev_power_bounds, UN.
Qed.
Lemma import_covers : (forall t, (t < n_intervals c)%nat -> 0 <= load t /\ load t + ev_demand assets <= energy (sc_freq c) (sc_import_limit_mw c) /\ heat t == 0 /\ lt_shortage c t == 0) ->
  exists d, physical c assets fl d.
Proof.
  intros H. set (none := fun _ : string => @None (qty -> nat -> Q)). exists (standby c assets fl (fun t => load t + total (ev_power c fl t) assets) none). split.
  - intros t Ht. destruct (H t Ht) as (H1 & H2 & H3 & H4). destruct (cars_bounds t) as [C1 C2]. destruct LM as [L1 L2].
    assert (forall a, In a assets -> _) as R by (intros a J; exact (standby_rest c assets fl (fun t => load t + total (ev_power c fl t) assets) none ND UN a t J eq_refl)).
    unfold grid_limits, electricity_balanced, high_temperature_balanced, low_temperature_balanced, between, lt_shortage in *.
    rewrite (total_ext (charge _ t) (ev_power c fl t)) by (intros a J; apply (R a J)).
    rewrite (total_zero (elec_gen _ t)) by (intros a J; apply (R a J)).
    rewrite (total_zero (elec_load _ t)) by (intros a J; apply (R a J)).
    rewrite (total_zero (discharge _ t)) by (intros a J; apply (R a J)).
    rewrite (total_zero (ht_gen _ t)) by (intros a J; apply (R a J)).
    rewrite (total_zero (ht_load _ t)) by (intros a J; apply (R a J)).
    rewrite (total_zero (lt_gen _ t)) by (intros a J; apply (R a J)).
    rewrite (total_zero (lt_load _ t)) by (intros a J; apply (R a J)). cbn [d_import d_export standby]. fold (load t) (heat t). splits; try lra; right; reflexivity.
  - intros a J. apply standby_asset; auto.
Qed.
Definition by_spill (q : qty) (t : nat) : Q :=
  match q with
  | ElecGen => load t + total (ev_power c fl t) assets
  | HtGen => heat t + Qmax 0 (lt_shortage c t)
  | LtLoad => Qmax 0 (- lt_shortage c t)
  | _ => 0
  end.
Definition by_valve (q : qty) (t : nat) : Q := match q with HtLoad | LtGen => Qmax 0 (lt_shortage c t) | _ => 0 end.
Definition covering (s : string) (v : option string) (nm : string) : option (qty -> nat -> Q) :=
  if String.eqb nm s then Some by_spill
  else match v with Some v => if String.eqb nm v then Some by_valve else None | None => None end.
Lemma max_nonneg x : 0 <= Qmax 0 x.
Proof. apply Q.le_max_l. Qed.
Lemma max_split x : Qmax 0 x - Qmax 0 (- x) == x.
Proof.
  destruct (Qlt_le_dec x 0) as [L|L].
  - pose proof (Q.max_l 0 x ltac:(lra)) as A. pose proof (Q.max_r 0 (- x) ltac:(lra)) as B. lra.
  - pose proof (Q.max_r 0 x ltac:(lra)) as A. pose proof (Q.max_l 0 (- x) ltac:(lra)) as B. lra.
Qed.
Lemma spill_covers s v : In (ASpill s) assets -> (forall w, v = Some w -> In (AValve w) assets) ->
  (forall t, (t < n_intervals c)%nat -> 0 <= load t /\ 0 <= heat t /\ (lt_shortage c t <= 0 \/ exists w, v = Some w)) ->
  exists d, physical c assets fl d.
Proof.
  intros IS IV H. set (d := standby c assets fl (fun _ => 0) (covering s v)). exists d.
  assert (forall w, v = Some w -> w <> s) as WS.
  { intros w W E. subst w. specialize (IV s W). clear -ND IS IV. induction assets as [|a l IH]; [destruct IS|]. inversion ND as [|? ? N1 N2]; subst.
    destruct IS as [->|IS], IV as [E|IV]; try discriminate; auto.
    - apply N1. cbn [asset_name]. change s with (asset_name (AValve s)). now apply in_map.
    - subst a. apply N1. cbn [asset_name]. change s with (asset_name (ASpill s)). now apply in_map. }
  assert (covering s v s = Some by_spill) as CS by (unfold covering; rewrite String.eqb_refl; reflexivity).
  assert (forall w, v = Some w -> covering s v w = Some by_valve) as CV.
  { intros w ->. unfold covering. destruct (String.eqb_spec w s) as [E|E]; [exfalso; now apply (WS w)|]. rewrite String.eqb_refl. reflexivity. }
  assert (forall nm, nm <> s -> v <> Some nm -> covering s v nm = None) as CN.
  { intros nm N1 N2. unfold covering. destruct (String.eqb_spec nm s); [tauto|]. destruct v as [w|]; auto. destruct (String.eqb_spec nm w); [congruence|auto]. }
  assert (forall a b, In a assets -> In b assets -> asset_name a = asset_name b -> a = b) as INJ.
  { clear -ND. induction assets as [|x l IH]; intros a b Ia Ib E; [destruct Ia|]. inversion ND as [|? ? N1 N2]; subst. destruct Ia as [<-|Ia], Ib as [<-|Ib]; auto.
    - exfalso. apply N1. rewrite E. now apply in_map.
    - exfalso. apply N1. rewrite <- E. now apply in_map. }
  assert (forall w, v = Some w -> forall a, In a assets -> asset_name a = w -> a = AValve w) as OV by (intros w W a J E; apply INJ; auto).
  assert (forall a, In a assets -> asset_name a = s -> a = ASpill s) as OS by (intros a J E; apply INJ; auto).
  assert (forall a t, In a assets -> asset_name a <> s -> (forall w, v = Some w -> asset_name a <> w) ->
    (elec_gen d t a == 0 /\ elec_load d t a == 0 /\ charge d t a == ev_power c fl t a /\ discharge d t a == 0) /\
    (ht_gen d t a == 0 /\ ht_load d t a == 0 /\ lt_gen d t a == 0 /\ lt_load d t a == 0)) as R.
  { intros a t J N1 N2. refine (standby_rest c assets fl (fun _ => 0) (covering s v) ND UN a t J _). apply CN; [exact N1|intros E; exact (N2 _ E eq_refl)]. }
  assert (d_qty d s = by_spill) as QS by (cbn [d_qty d standby]; rewrite CS; reflexivity).
  assert (forall w, v = Some w -> d_qty d w = by_valve) as QV by (intros w W; cbn [d_qty d standby]; rewrite (CV w W); reflexivity).
  assert (forall a, In a assets -> {a = ASpill s} + {asset_name a <> s}) as DS.
  { intros a J. destruct (string_dec (asset_name a) s) as [E|E]; [left; auto|right; exact E]. }
  split.
  - intros t Ht. destruct (H t Ht) as (H1 & H2 & H3). destruct (cars_bounds t) as [C1 C2]. destruct LM as [L1 L2].
    (* sums with one asset that is not zero *)
    assert (forall g, (forall a, In a assets -> asset_name a <> s -> g d t a == 0) -> total (g d t) assets == g d t (ASpill s)) as PS by (intros g K; now apply total_pick).
    assert (total (elec_gen d t) assets == load t + total (ev_power c fl t) assets) as T1.
    { rewrite (PS elec_gen); [cbn [elec_gen asset_name]; rewrite QS; reflexivity|]. intros a J N.
      destruct v as [w|]; [destruct (string_dec (asset_name a) w) as [E|E]; [rewrite (OV w eq_refl a J E); reflexivity|]|];
        apply R; auto; intros w' W'; try discriminate; injection W' as <-; exact E. }
    assert (total (ht_gen d t) assets == heat t + Qmax 0 (lt_shortage c t)) as T2.
    { rewrite (PS ht_gen); [cbn [ht_gen asset_name]; rewrite QS; reflexivity|]. intros a J N.
      destruct v as [w|]; [destruct (string_dec (asset_name a) w) as [E|E]; [rewrite (OV w eq_refl a J E); reflexivity|]|];
        apply R; auto; intros w' W'; try discriminate; injection W' as <-; exact E. }
    assert (total (lt_load d t) assets == Qmax 0 (- lt_shortage c t)) as T3.
    { rewrite (PS lt_load); [cbn [lt_load asset_name]; rewrite QS; reflexivity|]. intros a J N.
      destruct v as [w|]; [destruct (string_dec (asset_name a) w) as [E|E]; [rewrite (OV w eq_refl a J E); reflexivity|]|];
        apply R; auto; intros w' W'; try discriminate; injection W' as <-; exact E. }
    assert (total (elec_load d t) assets == 0) as T4.
    { apply total_zero. intros a J. destruct (DS a J) as [->|N]; [cbn [elec_load asset_name]; rewrite QS; reflexivity|].
      destruct v as [w|]; [destruct (string_dec (asset_name a) w) as [E|E]; [rewrite (OV w eq_refl a J E); reflexivity|]|];
        apply R; auto; intros w' W'; try discriminate; injection W' as <-; exact E. }
    assert (total (discharge d t) assets == 0) as T5.
    { apply total_zero. intros a J. destruct (DS a J) as [->|N]; [reflexivity|].
      destruct v as [w|]; [destruct (string_dec (asset_name a) w) as [E|E]; [rewrite (OV w eq_refl a J E); reflexivity|]|];
        apply R; auto; intros w' W'; try discriminate; injection W' as <-; exact E. }
    assert (total (charge d t) assets == total (ev_power c fl t) assets) as T6.
    { apply total_ext. intros a J. destruct (DS a J) as [->|N]; [reflexivity|].
      destruct v as [w|]; [destruct (string_dec (asset_name a) w) as [E|E]; [rewrite (OV w eq_refl a J E); reflexivity|]|];
        apply R; auto; intros w' W'; try discriminate; injection W' as <-; exact E. }
    assert (exists m, total (ht_load d t) assets == m /\ total (lt_gen d t) assets == m /\ m == Qmax 0 (lt_shortage c t)) as (m & T7 & T8 & M).
    { destruct v as [w|].
      - assert (forall g, (forall a, In a assets -> asset_name a <> w -> g d t a == 0) -> total (g d t) assets == g d t (AValve w)) as PV by (intros g K; apply total_pick; auto).
        exists (Qmax 0 (lt_shortage c t)). splits; [| |reflexivity].
        + rewrite (PV ht_load); [cbn [ht_load asset_name]; rewrite (QV w eq_refl); reflexivity|]. intros a J N. destruct (DS a J) as [->|N']; [reflexivity|]. apply R; auto. intros w' [= <-]. exact N.
        + rewrite (PV lt_gen); [cbn [lt_gen asset_name]; rewrite (QV w eq_refl); reflexivity|]. intros a J N. destruct (DS a J) as [->|N']; [reflexivity|]. apply R; auto. intros w' [= <-]. exact N.
      - destruct H3 as [H3|(w & W)]; [|discriminate]. exists 0. splits; [| |pose proof (Q.max_l 0 (lt_shortage c t) ltac:(lra)); lra].
        + apply total_zero. intros a J. destruct (DS a J) as [->|N]; [reflexivity|]. apply R; auto. intros w W. discriminate.
        + apply total_zero. intros a J. destruct (DS a J) as [->|N]; [reflexivity|]. apply R; auto. intros w W. discriminate. }
    unfold grid_limits, electricity_balanced, high_temperature_balanced, low_temperature_balanced, between.
    rewrite T1, T2, T3, T4, T5, T6, T7, T8, M. fold (load t) (heat t). pose proof (max_split (lt_shortage c t)) as MS. unfold lt_shortage in MS at 3. cbn [d_import d_export d standby]. splits; try lra; right; reflexivity.
  - intros a J. apply standby_asset; auto. destruct (DS a J) as [->|N].
    + right. cbn [asset_physical]. unfold spill_physical. fold d. rewrite QS. cbv zeta. cbn [by_spill]. intros t Ht. destruct (H t Ht) as (H1 & H2 & _). destruct (cars_bounds t) as [C1 _].
      pose proof (max_nonneg (lt_shortage c t)). pose proof (max_nonneg (- lt_shortage c t)). splits; lra.
    + destruct v as [w|]; [destruct (string_dec (asset_name a) w) as [E|E]|].
      * rewrite (OV w eq_refl a J E). right. cbn [asset_physical]. unfold valve_physical. fold d. rewrite (QV w eq_refl). cbv zeta. intros t Ht. split; [reflexivity|apply max_nonneg].
      * left. apply CN; [exact N|congruence].
      * left. apply CN; [exact N|discriminate].
Qed.
End Site.
