(** * C49: generate_random_ev_input_data *)
From Verif Require Import Base Pulp Params Optimizer Types Prim Emit Builds IntervalData Ctors SpecInput PropInput PropCtors DataGen.
Open Scope Q_scope.

(** ** Specification *)
(** integers drawn by [randint(low, high)] are in [low, high) *)
Definition in_range (d : nat -> Z -> Z -> Z) : Prop := forall k low high, (low < high)%Z -> (low <= d k low high < high)%Z.
Definition honest (r : draws) : Prop := in_range (dr_power r) /\ in_range (dr_length r) /\ in_range (dr_start r).
(** one contiguous stay of a car: away, parked for at least one interval, away for at least the two last intervals *)
Definition one_stay (n : nat) (row : list Q) : Prop :=
  exists before parked after, (1 <= parked)%nat /\ (2 <= after)%nat /\ (before + parked + after = n)%nat /\
    row = (repeat 0 before ++ repeat 1 parked ++ repeat 0 after)%list.
(** an integer from 10 to 99 *)
Definition charger_size (p : Q) : Prop := exists z, p = inject_Z z /\ (10 <= z < 100)%Z.

(** ** Proofs *)
Lemma f2_len {A B} (R : A -> B -> Prop) l m : Forall2 R l m -> List.length l = List.length m.
Proof. induction 1; cbn; auto. Qed.
Lemma stay_row (start len n : nat) : (start + len <= n)%nat ->
  map (fun i => if ((Z.of_nat start <=? Z.of_nat i) && (Z.of_nat i <? Z.of_nat start + Z.of_nat len))%Z%bool then 1 else 0) (seq 0 n)
  = (repeat 0 start ++ repeat 1 len ++ repeat 0 (n - start - len))%list.
Proof.
  intros H. assert (n = start + (len + (n - start - len)))%nat as E by lia. rewrite E at 1. rewrite !seq_app, !map_app. cbn [Nat.add].
  assert (forall a m (f : nat -> Q) x, (forall i, (a <= i < a + m)%nat -> f i = x) -> map f (seq a m) = repeat x m) as K.
  { intros a m. revert a. induction m as [|m IH]; intros a f x F; cbn; auto. rewrite F by lia. f_equal. apply IH. intros i Hi. apply F. lia. }
  f_equal; [|f_equal]; apply K; intros i Hi;
    destruct (Z.leb_spec (Z.of_nat start) (Z.of_nat i)); destruct (Z.ltb_spec (Z.of_nat i) (Z.of_nat start + Z.of_nat len)); cbn; auto; lia.
Qed.
Lemma row_ok r idx cl step row : in_range (dr_length r) -> in_range (dr_start r) -> (cl <= idx - 2)%Z ->
  event_row r idx cl step = Ok row -> one_stay (Z.to_nat idx) row.
Proof.
  intros DL DS Hcl H. unfold event_row, np_randint in H. apply rbind_ok in H. destruct H as (len & E1 & H). apply rbind_ok in H. destruct H as (st & E2 & H).
  destruct (Z.ltb_spec 1 cl); [|discriminate]. injection E1 as E1. pose proof (DL step 1%Z cl ltac:(lia)) as B1. rewrite E1 in B1.
  destruct (Z.ltb_spec 0 (idx - len - 1)); [|discriminate]. injection E2 as E2. pose proof (DS step 0%Z (idx - len - 1)%Z ltac:(lia)) as B2. rewrite E2 in B2.
  injection H as <-. exists (Z.to_nat st), (Z.to_nat len), (Z.to_nat idx - Z.to_nat st - Z.to_nat len)%nat. splits; try lia.
  rewrite <- (stay_row (Z.to_nat st) (Z.to_nat len) (Z.to_nat idx)) by lia. rewrite !Z2Nat.id by lia. reflexivity.
Qed.
Lemma normal_len z mu sd n l : np_normal z mu sd n = Ok l -> (0 <= n)%Z /\ List.length l = Z.to_nat n.
Proof.
  unfold np_normal. destruct (Qltb sd 0); [discriminate|]. destruct (Z.ltb_spec n 0); [discriminate|]. intros X. injection X as <-. rewrite map_length, seq_length. auto.
Qed.
Lemma uniform_len z a b n l : np_uniform z a b n = Ok l -> List.length l = Z.to_nat n.
Proof. unfold np_uniform. destruct (Z.ltb_spec n 0); [discriminate|]. intros X. injection X as <-. now rewrite map_length, seq_length. Qed.

(** ** C49: the shape of the data *)
Theorem C49_shape : forall r idx chargers len nm ns um uM events pm ps im is_ out, honest r ->
  generate_random_ev_input_data r idx chargers len nm ns um uM events pm ps im is_ = Ok out ->
  List.length (gd_electricity_prices out) = Z.to_nat idx /\ List.length (gd_electricity_carbon_intensities out) = Z.to_nat idx /\
  List.length (gd_chargers_power_mw out) = Z.to_nat chargers /\ Forall charger_size (gd_chargers_power_mw out) /\
  List.length (gd_charge_events_capacity_mwh out) = Z.to_nat events /\ Forall (fun q => 0 <= q) (gd_charge_events_capacity_mwh out) /\
  List.length (gd_charge_events out) = Z.to_nat events /\ Forall (one_stay (Z.to_nat idx)) (gd_charge_events out).
Proof.
  intros r idx chargers len nm ns um uM events pm ps im is_ out (HP & HL & HS) H. unfold generate_random_ev_input_data in H.
  apply rbind_ok in H. destruct H as (p & Ep & H). apply rbind_ok in H. destruct H as (c & Ec & H). apply rbind_ok in H. destruct H as (m & Em & H).
  destruct (Z.ltb_spec events 0); [discriminate|]. apply rbind_ok in H. destruct H as (rows & Er & H). apply rbind_ok in H. destruct H as (a & Ea & H). apply rbind_ok in H. destruct H as (b & Eb & H).
  injection H as <-. cbn [gd_electricity_prices gd_electricity_carbon_intensities gd_chargers_power_mw gd_charge_events_capacity_mwh gd_charge_events].
  apply normal_len in Ep, Ec, Ea. apply uniform_len in Eb. destruct Ep as [_ Ep]. destruct Ec as [_ Ec]. destruct Ea as [_ Ea].
  unfold np_randints in Em. destruct (Z.ltb_spec chargers 0); [discriminate|]. apply rmap_ok in Em. apply rmap_ok in Er.
  splits; auto.
  - rewrite map_length. apply f2_len in Em. rewrite seq_length in Em. auto.
  - clear - Em HP. induction Em as [|k z ks zs E F IH]; cbn; constructor; auto. exists z. split; auto. unfold np_randint in E. cbn in E. injection E as <-. apply HP. lia.
  - rewrite map_length, combine_length, Ea, Eb. lia.
  - apply Forall_forall. intros q Iq. apply in_map_iff in Iq. destruct Iq as (xy & <- & _). apply Q.le_max_r.
  - apply f2_len in Er. rewrite seq_length in Er. auto.
  - assert (Z.min (idx - 2) len <= idx - 2)%Z as LE by lia. clear - Er HL HS LE.
    induction Er as [|k z ks zs E F IH]; cbn; constructor; auto. exact (row_ok _ _ _ _ _ HL HS LE E).
Qed.

(** ** C49: when the function returns *)
Theorem C49_returns : forall r idx chargers len nm ns um uM events pm ps im is_, honest r ->
  ((exists out, generate_random_ev_input_data r idx chargers len nm ns um uM events pm ps im is_ = Ok out) <->
     0 <= ns /\ 0 <= ps /\ 0 <= is_ /\ (0 <= idx)%Z /\ (0 <= chargers)%Z /\ (0 <= events)%Z /\
     (events = 0%Z \/ (4 <= idx)%Z /\ (2 <= len)%Z)) /\
  (forall e, generate_random_ev_input_data r idx chargers len nm ns um uM events pm ps im is_ = Err e -> e = ValueErr).
Proof.
  intros r idx chargers len nm ns um uM events pm ps im is_ (HP & HL & HS).
  assert (forall z mu sd n, (0 <= sd /\ (0 <= n)%Z /\ exists l, np_normal z mu sd n = Ok l) \/ (~ (0 <= sd /\ (0 <= n)%Z) /\ np_normal z mu sd n = Err ValueErr)) as N.
  { intros z mu sd n. unfold np_normal. destruct (Qltb sd 0) eqn:E.
    - right. split; auto. apply qltb_iff in E. intros [X _]. lra.
    - assert (0 <= sd) by (destruct (Qlt_le_dec sd 0) as [L|]; auto; apply qltb_iff in L; congruence).
      destruct (Z.ltb_spec n 0); [right|left]; splits; eauto. intros [_ X]. lia. }
  assert (forall k cl, cl = Z.min (idx - 2) len -> ((4 <= idx)%Z /\ (2 <= len)%Z /\ exists row, event_row r idx cl k = Ok row) \/
            (~ ((4 <= idx)%Z /\ (2 <= len)%Z) /\ event_row r idx cl k = Err ValueErr)) as RW.
  { intros k cl ->. unfold event_row, np_randint. destruct (Z.ltb_spec 1 (Z.min (idx - 2) len)).
    - left. splits; try lia. cbn [rbind]. pose proof (HL k 1%Z (Z.min (idx - 2) len) ltac:(lia)) as B.
      destruct (Z.ltb_spec 0 (idx - dr_length r k 1 (Z.min (idx - 2) len) - 1)); [|lia]. cbn. eauto.
    - right. split; [lia|reflexivity]. }
  unfold generate_random_ev_input_data.
  destruct (N (dr_price r) pm ps idx) as [(A1 & A2 & p & ->)|(A & ->)]; [|cbn; split; [split; [intros (o & X); discriminate|tauto]|congruence]]. cbn [rbind].
  destruct (N (dr_intensity r) im is_ idx) as [(B1 & _ & c & ->)|(B & ->)]; [|cbn; split; [split; [intros (o & X); discriminate|tauto]|congruence]]. cbn [rbind].
  unfold np_randints. destruct (Z.ltb_spec chargers 0) as [C|C]; [cbn; split; [split; [intros (o & X); discriminate|lia]|congruence]|].
  destruct (rmap_total (fun k => np_randint (dr_power r) k 10 100) (seq 0 (Z.to_nat chargers))) as (m & ->). { intros k _. unfold np_randint. cbn. eauto. }
  cbn [rbind]. destruct (Z.ltb_spec events 0) as [D|D]; [split; [split; [intros (o & X); discriminate|lia]|congruence]|].
  set (cl := Z.min (idx - 2) len). destruct (Z.eq_dec events 0) as [->|NZ].
  - cbn [Z.to_nat seq rmap rbind]. destruct (N (dr_normal r) nm ns 0%Z) as [(E1 & _ & a & ->)|(E & ->)]; [|cbn; split; [split; [intros (o & X); discriminate|]|congruence]].
    + cbn. split; [split; [intros _; splits; auto|intros _; eauto]|discriminate].
    + intros (X & _). destruct E. split; [auto|lia].
  - destruct (RW 0%nat cl eq_refl) as [(F1 & F2 & _)|(F & E)].
    + destruct (rmap_total (event_row r idx cl) (seq 0 (Z.to_nat events))) as (rows & ->). { intros k _. destruct (RW k cl eq_refl) as [(_ & _ & X)|(X & _)]; auto. lia. }
      cbn [rbind]. destruct (N (dr_normal r) nm ns events) as [(E1 & _ & a & ->)|(E & ->)]; [|cbn; split; [split; [intros (o & X); discriminate|]|congruence]].
      * cbn [rbind]. unfold np_uniform. destruct (Z.ltb_spec events 0); [lia|]. cbn [rbind]. split; [split; [intros _; splits; auto|intros _; eauto]|discriminate].
      * intros (X & _). destruct E. split; [auto|lia].
    + assert (exists k, Z.to_nat events = S k) as (k & ->). { exists (Z.to_nat events - 1)%nat. lia. }
      cbn [seq rmap]. rewrite E. cbn [rbind]. split; [split; [intros (o & X); discriminate|]|congruence]. intros (_ & _ & _ & _ & _ & _ & X). destruct X as [X|X]; [lia|]. destruct F. auto.
Qed.

Lemma stay_sum n row : one_stay n row -> List.length row = n /\ 0 < Qsum row.
Proof.
  intros (b & p & a & P & A & E & ->). rewrite !app_length, !repeat_length. split; [lia|]. rewrite !Qsum_app.
  assert (forall k x, Qsum (repeat x k) == inject_Z (Z.of_nat k) * x) as K.
  { intros k x. induction k as [|k IH]; [cbn; ring|]. cbn [repeat Qsum fold_right]. fold (Qsum (repeat x k)). rewrite IH, Nat2Z.inj_succ. unfold Z.succ. rewrite inject_Z_plus. cbn. ring. }
  rewrite !K. assert (0 < inject_Z (Z.of_nat p)) by (rewrite <- (Zlt_Qlt 0); lia). lra.
Qed.

(** ** C49: the data is accepted by [epl.EVs( **data)], with or without a spill asset *)
Definition ev_input (out : ev_data) : site_input :=
  mkInput (Series (map Num (gd_electricity_prices out))) Missing (Series (map Num (gd_electricity_carbon_intensities out))) Missing Missing Missing Missing Missing.
Theorem C49_accepted : forall r idx chargers len nm ns um uM events pm ps im is_ out efficiency turndown name spill, honest r ->
  generate_random_ev_input_data r idx chargers len nm ns um uM events pm ps im is_ = Ok out -> (1 <= events)%Z -> mentions "evs" name ->
  exists c d assets, evs_init (gd_charge_events out) (gd_chargers_power_mw out) (gd_charge_events_capacity_mwh out) efficiency turndown name = Ok c /\
    evs_site c spill (ev_input out) [] = Ok (Some (d, assets)) /\ id_n d = Z.to_nat idx /\
    ((1 <= chargers)%Z -> optimizable d assets).
Proof.
  intros r idx chargers len nm ns um uM events pm ps im is_ out efficiency turndown name spill HR G EV NM.
  destruct (C49_shape _ _ _ _ _ _ _ _ _ _ _ _ _ _ HR G) as (S1 & S2 & S3 & S4 & S5 & S6 & S7 & S8).
  assert (gd_charge_events out <> []) as NE. { intros X. rewrite X in S7. cbn in S7. lia. }
  assert (forall row, In row (gd_charge_events out) -> List.length row = Z.to_nat idx /\ 0 < Qsum row) as RW.
  { intros row Ir. rewrite Forall_forall in S8. apply stay_sum. auto. }
  destruct (proj2 (proj1 (C48_evs (gd_charge_events out) (gd_chargers_power_mw out) (gd_charge_events_capacity_mwh out) efficiency turndown name))) as (c & Ec).
  { splits; auto. - intros x y Ix Iy. destruct (RW x Ix) as [-> _]. destruct (RW y Iy) as [-> _]. auto. - congruence. }
  exists c.
  assert (ev_events c = gd_charge_events out) as EE by (destruct (C48_evs (gd_charge_events out) (gd_chargers_power_mw out) (gd_charge_events_capacity_mwh out) efficiency turndown name) as (_ & X); apply (X c Ec)).
  assert (forall l, ~ In NaN (map Num l)) as NN by (intros l I0; apply in_map_iff in I0; destruct I0 as (x & X & _); discriminate).
  assert (exists d assets, site_init (AEVs c :: spill_if spill) (ev_input out) [] = Ok (d, assets)) as (d & assets & SI).
  { apply C35_site_accepts.
    - left. exists (map Num (gd_electricity_prices out)). unfold ev_input, loads_usable, usable. cbn. rewrite !map_length, S1, S2. splits; auto.
    - intros g Ig. destruct spill; cbn in Ig; intuition discriminate.
    - intros nm0 k []. }
  assert (id_n d = Z.to_nat idx) as ID. { pose proof (C35_site _ _ _ _ _ SI) as (CO & _). unfold contents in CO. cbn in CO. destruct CO as [CO _]. rewrite CO, map_length. auto. }
  assert (evs_site c spill (ev_input out) [] = Ok (Some (d, assets))) as ES.
  { unfold evs_site, own_site. cbn [has_site ev_input in_electricity_prices in_electricity_carbon_intensities]. rewrite SI. cbn [rbind fst]. unfold validate_ev_interval_data. rewrite EE.
    assert ((match gd_charge_events out with [] => true | r0 :: _ => Nat.eqb (id_n d) (List.length r0) end) = true) as ->.
    { destruct (gd_charge_events out) as [|row rows] eqn:EG; auto. apply Nat.eqb_eq. rewrite ID. symmetry. apply RW. now left. }
    assert (forallb (fun r0 => Qltb 0 (Qsum r0)) (gd_charge_events out) = true) as ->. { apply forallb_forall. intros row Ir. apply Qltb_sum. now apply RW. }
    reflexivity. }
  exists d, assets. splits; auto. intros CH.
  destruct (C48_evs_site _ _ _ _ _ _ c spill (ev_input out) [] Ec) as (_ & X). destruct (X d assets ES) as (_ & _ & _ & OP). apply OP. intros Y. rewrite Y in S3. cbn in S3. lia.
Qed.

(** ** A concrete source of numbers *)
Definition low_draws : draws :=
  mkDraws (fun k => inject_Z (Z.of_nat k)) (fun _ => 0) (fun _ lo _ => lo) (fun _ lo _ => lo) (fun _ _ hi => (hi - 1)%Z) (fun _ => - (20)) (fun _ => 1 # 2).
Example low_draws_honest : honest low_draws.
Proof. unfold honest, in_range. splits; intros k lo hi H; cbn; lia. Qed.
Example low_data : generate_random_ev_input_data low_draws 5 1 3 0 1 0 10 2 100 20 (1 # 2) 1 =
  Ok (mkEvData [100 + 20 * 0; 100 + 20 * 1; 100 + 20 * 2; 100 + 20 * 3; 100 + 20 * 4] (repeat ((1 # 2) + 1 * 0) 5) [10] [0; 0] [[0; 0; 1; 0; 0]; [0; 0; 1; 0; 0]]).
Proof. reflexivity. Qed.
Example low_data_short : generate_random_ev_input_data low_draws 3 1 3 0 1 0 10 2 100 20 (1 # 2) 1 = Err ValueErr.
Proof. reflexivity. Qed.
