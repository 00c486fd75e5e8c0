(** * PropDraws: the numbers in random EV data (C49) *)
From Verif Require Import Base Emit Prim Spec DataGen PropDataGen.
Open Scope Q_scope.

(** a draw from [np.random.uniform()] is between 0 and 1 *)
Definition uniform_draws (r : draws) : Prop := forall k, 0 <= dr_uniform r k <= 1.

Lemma nth_seq_map {B} (f : nat -> B) n k x : nth_error (map f (seq 0 n)) k = Some x -> x = f k /\ (k < n)%nat.
Proof.
  intros H. assert (k < n)%nat as L. { assert (nth_error (map f (seq 0 n)) k <> None) as N by congruence. apply nth_error_Some in N. now rewrite map_length, seq_length in N. }
  rewrite nth_error_map, (nth_error_nth' _ 0%nat) in H by (now rewrite seq_length). rewrite seq_nth in H by exact L. cbn [option_map Nat.add] in H. split; [congruence|exact L].
Qed.
Lemma normal_at z mu std n l : np_normal z mu std n = Ok l -> forall k x, nth_error l k = Some x -> x = mu + std * z k.
Proof. unfold np_normal. destruct (Qltb std 0); [discriminate|]. destruct (n <? 0)%Z; [discriminate|]. intros H k x E. injection H as <-. now apply nth_seq_map in E. Qed.
Lemma uniform_at u low high n l : np_uniform u low high n = Ok l -> forall k x, nth_error l k = Some x -> x = low + (high - low) * u k.
Proof. unfold np_uniform. destruct (n <? 0)%Z; [discriminate|]. intros H k x E. injection H as <-. now apply nth_seq_map in E. Qed.
Lemma combine_at {A B} (l : list A) (m : list B) k p : nth_error (combine l m) k = Some p -> nth_error l k = Some (fst p) /\ nth_error m k = Some (snd p).
Proof. revert m k. induction l as [|x l IH]; intros [|y m] [|k] H; cbn in *; try discriminate; [injection H as <-; auto|auto]. Qed.

(** The energy of a charge event is a normal part (of mean [normal_mu] and deviation [normal_std]) plus a uniform part between
    [uniform_min] and [uniform_max], and nothing where that is negative. *)
Theorem C49_energies : forall r idx chargers len nm ns um uM events pm ps im is_ out, uniform_draws r -> um <= uM ->
  generate_random_ev_input_data r idx chargers len nm ns um uM events pm ps im is_ = Ok out ->
  forall k q, nth_error (gd_charge_events_capacity_mwh out) k = Some q ->
  exists u, um <= u <= uM /\ (0 <= nm + ns * dr_normal r k + u -> q == nm + ns * dr_normal r k + u) /\ (nm + ns * dr_normal r k + u <= 0 -> q == 0).
Proof.
  intros r idx chargers len nm ns um uM events pm ps im is_ out UD LE H k q E. unfold generate_random_ev_input_data in H.
  apply rbind_ok in H. destruct H as (p & Ep & H). apply rbind_ok in H. destruct H as (c & Ec & H). apply rbind_ok in H. destruct H as (m & Em & H).
  destruct (Z.ltb_spec events 0); [discriminate|]. apply rbind_ok in H. destruct H as (rows & Er & H). apply rbind_ok in H. destruct H as (a & Ea & H). apply rbind_ok in H. destruct H as (b & Eb & H).
  injection H as <-. cbn [gd_charge_events_capacity_mwh] in E. rewrite nth_error_map in E. destruct (nth_error (combine a b) k) as [[x y]|] eqn:C; [|discriminate]. cbn [option_map] in E. injection E as <-.
  apply combine_at in C. cbn [fst snd] in *. destruct C as [X Y]. apply (normal_at _ _ _ _ _ Ea) in X. apply (uniform_at _ _ _ _ _ Eb) in Y. subst x y.
  specialize (UD k). exists (um + (uM - um) * dr_uniform r k). split; [split; nra|].
  destruct (Q.max_spec (nm + ns * dr_normal r k + (um + (uM - um) * dr_uniform r k)) 0) as [[L ->]|[L ->]]; split; intros G; try reflexivity; lra.
Qed.
(** Without deviation the energies are within the uniform range around the mean, and the prices and intensities are the means. *)
Theorem C49_without_deviation : forall r idx chargers len nm um uM events pm im out, uniform_draws r -> um <= uM -> 0 <= nm + um ->
  generate_random_ev_input_data r idx chargers len nm 0 um uM events pm 0 im 0 = Ok out ->
  Forall (fun q => nm + um <= q <= nm + uM) (gd_charge_events_capacity_mwh out) /\
  Forall (fun p => p == pm) (gd_electricity_prices out) /\ Forall (fun i => i == im) (gd_electricity_carbon_intensities out).
Proof.
  intros r idx chargers len nm um uM events pm im out UD LE NN H. splits.
  - apply Forall_forall. intros q J. apply In_nth_error in J. destruct J as (k & E). destruct (C49_energies _ _ _ _ _ _ _ _ _ _ _ _ _ _ UD LE H k q E) as (u & U & A & _). rewrite A by lra. lra.
  - unfold generate_random_ev_input_data in H. apply rbind_ok in H. destruct H as (p & Ep & H). apply rbind_ok in H. destruct H as (c & Ec & H). apply rbind_ok in H. destruct H as (m & Em & H).
    destruct (Z.ltb_spec events 0); [discriminate|]. apply rbind_ok in H. destruct H as (rows & Er & H). apply rbind_ok in H. destruct H as (a & Ea & H). apply rbind_ok in H. destruct H as (b & Eb & H).
    injection H as <-. cbn [gd_electricity_prices]. apply Forall_forall. intros q J. apply In_nth_error in J. destruct J as (k & E). rewrite (normal_at _ _ _ _ _ Ep k q E). ring.
  - unfold generate_random_ev_input_data in H. apply rbind_ok in H. destruct H as (p & Ep & H). apply rbind_ok in H. destruct H as (c & Ec & H). apply rbind_ok in H. destruct H as (m & Em & H).
    destruct (Z.ltb_spec events 0); [discriminate|]. apply rbind_ok in H. destruct H as (rows & Er & H). apply rbind_ok in H. destruct H as (a & Ea & H). apply rbind_ok in H. destruct H as (b & Eb & H).
    injection H as <-. cbn [gd_electricity_carbon_intensities]. apply Forall_forall. intros q J. apply In_nth_error in J. destruct J as (k & E). rewrite (normal_at _ _ _ _ _ Ec k q E). ring.
Qed.
(** Prices and carbon intensities move with their mean and deviation: the same draws with other parameters give the same
    numbers of deviations away from the mean. *)
Theorem C49_prices : forall r idx chargers len nm ns um uM events pm ps im is_ out idx' chargers' len' nm' ns' um' uM' events' pm' ps' im' is' out',
  generate_random_ev_input_data r idx chargers len nm ns um uM events pm ps im is_ = Ok out ->
  generate_random_ev_input_data r idx' chargers' len' nm' ns' um' uM' events' pm' ps' im' is' = Ok out' ->
  forall k p p', nth_error (gd_electricity_prices out) k = Some p -> nth_error (gd_electricity_prices out') k = Some p' ->
  (p - pm) * ps' == (p' - pm') * ps.
Proof.
  assert (forall r idx chargers len nm ns um uM events pm ps im is_ out k p, generate_random_ev_input_data r idx chargers len nm ns um uM events pm ps im is_ = Ok out ->
    nth_error (gd_electricity_prices out) k = Some p -> p = pm + ps * dr_price r k) as K.
  { intros r idx chargers len nm ns um uM events pm ps im is_ out k q H. unfold generate_random_ev_input_data in H. apply rbind_ok in H. destruct H as (p & Ep & H). apply rbind_ok in H. destruct H as (c & Ec & H). apply rbind_ok in H. destruct H as (m & Em & H).
    destruct (Z.ltb_spec events 0); [discriminate|]. apply rbind_ok in H. destruct H as (rows & Er & H). apply rbind_ok in H. destruct H as (a & Ea & H). apply rbind_ok in H. destruct H as (b & Eb & H).
    injection H as <-. cbn [gd_electricity_prices]. apply (normal_at _ _ _ _ _ Ep). }
  intros. rewrite (K _ _ _ _ _ _ _ _ _ _ _ _ _ _ _ _ H H1), (K _ _ _ _ _ _ _ _ _ _ _ _ _ _ _ _ H0 H2). ring.
Qed.
(** energies between 3 and 7 around a mean of 1 *)
Example C49_energies_sample : uniform_draws low_draws /\ 3 <= 7 /\ 0 <= 1 + 3 /\
  match generate_random_ev_input_data low_draws 5 1 3 1 0 3 7 2 100 0 (1 # 2) 0 with
  | Ok out => forallb (fun q => Qeq_bool q 6) (gd_charge_events_capacity_mwh out) = true /\ List.length (gd_charge_events_capacity_mwh out) = 2%nat
  | Err _ => False
  end.
Proof. split; [intros k; cbn; lra|]. split; [lra|]. split; [lra|]. vm_compute. split; reflexivity. Qed.
