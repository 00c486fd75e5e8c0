(** * PropEv: properties C16 - C21 of every feasible result (electric vehicles) *)
From Verif Require Import Base Pulp Params Optimizer Types Assets EVs Site Constraints Objectives Extract Pipeline Emit Prim Spec SpecReport SpecRun SemEv SemSite RunFacts SampleSite PropSite.
Open Scope Q_scope.
Open Scope string_scope.

(** a sum with at most one non zero element is zero or that element *)
Lemma at_most_one_tail x l : at_most_one_nonzero (x :: l) -> at_most_one_nonzero l.
Proof. intros H i j a b A B NA NB. specialize (H (S i) (S j) a b A B NA NB). lia. Qed.
Lemma sum_at_most_one l : at_most_one_nonzero l -> Qsum l == 0 \/ exists x, In x l /\ ~ x == 0 /\ Qsum l == x.
Proof.
  induction l as [|x l IH]; intros H; [left; reflexivity|].
  change (Qsum (x :: l)) with (x + Qsum l). destruct (Qeq_dec x 0) as [Z|NZ].
  - destruct (IH (at_most_one_tail _ _ H)) as [E|(y & I & N & E)]; [left; rewrite Z, E; reflexivity|right]. exists y. splits; [now right|exact N|]. rewrite Z, E. ring.
  - right. exists x. splits; [now left|exact NZ|].
    assert (Qsum l == 0) as E; [|rewrite E; ring].
    assert (forall y, In y l -> y == 0) as ZE.
    { intros y I. destruct (Qeq_dec y 0) as [Q|Q]; [exact Q|]. apply In_nth_error in I. destruct I as (k & E). specialize (H 0%nat (S k) x y eq_refl E NZ Q). discriminate. }
    rewrite <- (map_id l). apply (Qsum_map_zero (fun y => y)). exact ZE.
Qed.
Lemma at_most_one_app_l l l' : at_most_one_nonzero (l ++ l') -> at_most_one_nonzero l.
Proof. intros H i j a b A B. apply H; (rewrite nth_error_app1; [assumption|apply nth_error_Some; congruence]). Qed.
Lemma at_most_one_app_r l l' : at_most_one_nonzero (l ++ l') -> at_most_one_nonzero l'.
Proof.
  intros H i j a b A B NA NB. assert (List.length l + i = List.length l + j)%nat; [|lia].
  apply (H _ _ a b); auto; rewrite nth_error_app2 by lia; rewrite Nat.add_comm, Nat.add_sub; assumption.
Qed.
Lemma at_most_one_cross l l' : at_most_one_nonzero (l ++ l') -> (forall x, In x l -> x == 0) \/ (forall x, In x l' -> x == 0).
Proof.
  intros H. destruct (Exists_dec (fun x => ~ x == 0) l) as [E|E].
  { intros x. destruct (Qeq_dec x 0); [right; tauto|left; auto]. }
  - right. intros y I. destruct (Qeq_dec y 0) as [Q|Q]; [exact Q|exfalso]. apply Exists_exists in E. destruct E as (x & J & N).
    apply In_nth_error in I. destruct I as (b & B). apply In_nth_error in J. destruct J as (a & A). assert (a < List.length l)%nat by (apply nth_error_Some; congruence).
    assert (a = (List.length l + b)%nat); [|lia]. apply (H _ _ x y); auto; [rewrite nth_error_app1 by lia; exact A|rewrite nth_error_app2 by lia; now rewrite Nat.add_comm, Nat.add_sub].
  - left. intros x I. destruct (Qeq_dec x 0) as [Q|Q]; [exact Q|exfalso]. apply E. apply Exists_exists. eauto.
Qed.

Section Facts.
Context (r : sim_result) (c : site_cfg) (assets : list asset) (fl : flags) (d : dispatch) (ev : evs_cfg).
Hypothesis FA : facts (r_results r) c assets fl d.
Hypothesis IE : In (AEVs ev) assets.
Notation nm := (ev_name ev).
Notation n := (n_intervals c).
Notation f := (sc_freq c).

Lemma ev_phys : evs_physical ev f fl n d.
Proof. exact (phys_asset r c assets fl d FA _ IE). Qed.
Lemma ev_fine : List.length (ev_spill_chargers ev) = 1%nat.
Proof. pose proof (fa_fine _ _ _ _ _ FA) as F. rewrite Forall_forall in F. apply (F _ IE). Qed.
Lemma event_at e : (e < List.length (ev_event_cfgs ev))%nat -> exists ec, nth_error (ev_event_cfgs ev) e = Some ec.
Proof. apply nth_error_lt. Qed.
Lemma event_lt e ec : nth_error (ev_event_cfgs ev) e = Some ec -> (e < List.length (ev_event_cfgs ev))%nat.
Proof. intros E. apply nth_error_Some. congruence. Qed.
Lemma charger_lt k cc : nth_error (ev_chargers ev) k = Some cc -> (k < List.length (ev_chargers ev))%nat.
Proof. intros E. apply nth_error_Some. congruence. Qed.
Lemma spill_charger : exists cc, nth_error (ev_spill_chargers ev) 0 = Some cc /\ ev_spill_chargers ev = [cc].
Proof. pose proof ev_fine as F. destruct (ev_spill_chargers ev) as [|cc [|? ?]]; try discriminate. exists cc. auto. Qed.
Lemma can_charge_present e t : can_charge fl ev e t -> 1 <= presence ev e t.
Proof. unfold can_charge. destruct (limit_charge_variables_to_valid_events fl); intros H; [rewrite H; apply Qle_refl|exact H]. Qed.

Lemma absent t e : (t < n)%nat -> (e < List.length (ev_event_cfgs ev))%nat -> ~ 1 <= presence ev e t ->
  (forall k, (k < List.length (ev_chargers ev))%nat -> d_ev_charge d nm e k t == 0 /\ d_ev_discharge d nm e k t == 0 /\ d_ev_loss d nm e k t == 0) /\ d_spill_charge d nm e t == 0.
Proof.
  intros Ht He AB. destruct (event_at e He) as (ec & Ee). destruct ev_phys as (P1 & P2 & _). split.
  - intros k Hk. destruct (nth_error_lt _ _ Hk) as (cc & Ek). destruct (P1 t e ec k cc Ht Ee Ek) as (_ & C & D & L & _).
    assert (d_ev_charge d nm e k t == 0) as Z by (destruct C as [C|[_ C]]; [exact C|exfalso; apply AB; now apply can_charge_present]).
    splits; auto; [|rewrite L, Z; ring].
    destruct (allow_evs_discharge fl); [|exact D]. destruct D as [_ [D|[_ D]]]; [exact D|tauto].
  - destruct spill_charger as (cc & Es & _). destruct (P2 t e ec cc Ht Ee Es) as (_ & [C|[_ C]] & _); [exact C|exfalso; apply AB; now apply can_charge_present].
Qed.
Lemma losses t e ec : (t < n)%nat -> nth_error (ev_event_cfgs ev) e = Some ec ->
  let ks := seq 0 (List.length (ev_chargers ev)) in
  Qsum (map (fun k => d_ev_loss d nm e k t) ks) == (1 - ce_efficiency_pct ec) * Qsum (map (fun k => d_ev_charge d nm e k t) ks).
Proof.
  intros Ht Ee ks. rewrite <- Qsum_map_scale. apply Qsum_map_ext. intros k I. apply in_seq in I. destruct (nth_error_lt (ev_chargers ev) k) as (cc & Ek); [lia|].
  destruct ev_phys as (P1 & _). destruct (P1 t e ec k cc Ht Ee Ek) as (_ & _ & _ & L & _). rewrite L. ring.
Qed.
(** the energy equation of one charge event in one interval *)
Lemma energy_step t e ec : (t < n)%nat -> nth_error (ev_event_cfgs ev) e = Some ec ->
  rep_event_soc r ev e "final_soc_mwh" t == rep_event_soc r ev e "initial_soc_mwh" t +
    (rep_part r ev (ce_name ec) "electric_charge_mwh" t * ce_efficiency_pct ec + d_spill_charge d nm e t - rep_part r ev (ce_name ec) "electric_discharge_mwh" t).
Proof.
  intros Ht Ee. destruct (soc_reported r c assets fl d FA ev e t IE Ht (event_lt _ _ Ee)) as [S0 S1]. destruct (event_reported r c assets fl d FA ev e ec t IE Ht Ee) as (E1 & E2 & _).
  destruct ev_phys as (_ & _ & _ & _ & P5 & _). destruct (P5 t e ec Ht Ee) as (_ & _ & EQ). rewrite S0, S1, E1, E2, EQ, (losses t e ec Ht Ee). ring.
Qed.
End Facts.

(** ** C16: a charge event exchanges energy only while it is present.  In the table: its charge, discharge and
    loss columns are zero and its state of charge does not move; and in the solution, charger by charger (the
    table does not show which event the spill charger serves). *)
Theorem C16_charge_only_in_event : forall slv base c assets cons obj fl r ev, feasible_run slv base c assets cons obj fl r ->
  In (AEVs ev) assets ->
  (forall t e ec, (t < n_intervals c)%nat -> nth_error (ev_event_cfgs ev) e = Some ec -> ~ 1 <= presence ev e t ->
     rep_part r ev (ce_name ec) "electric_charge_mwh" t == 0 /\ rep_part r ev (ce_name ec) "electric_discharge_mwh" t == 0 /\
     rep_part r ev (ce_name ec) "electric_loss_mwh" t == 0 /\
     rep_event_soc r ev e "final_soc_mwh" t == rep_event_soc r ev e "initial_soc_mwh" t) /\
  (exists d, solution_of slv base c assets cons obj fl d /\ reports (r_results r) c assets d /\
     forall t e, (t < n_intervals c)%nat -> (e < List.length (ev_event_cfgs ev))%nat -> ~ 1 <= presence ev e t ->
       d_spill_charge d (ev_name ev) e t == 0 /\
       forall k, (k < List.length (ev_chargers ev))%nat -> d_ev_charge d (ev_name ev) e k t == 0 /\ d_ev_discharge d (ev_name ev) e k t == 0).
Proof.
  intros slv base c assets cons obj fl r ev R IE. destruct (run_facts _ _ _ _ _ _ _ _ R) as (d & SO & FA). split.
  - intros t e ec Ht Ee AB. destruct (absent r c assets fl d ev FA IE t e Ht (event_lt _ _ _ Ee) AB) as [A1 A2].
    destruct (event_reported r c assets fl d FA ev e ec t IE Ht Ee) as (E1 & E2 & E3).
    assert (forall g : nat -> Q, (forall k, (k < List.length (ev_chargers ev))%nat -> g k == 0) -> Qsum (map g (seq 0 (List.length (ev_chargers ev)))) == 0) as Z by (intros g G; apply Qsum_map_zero; intros k I; apply in_seq in I; apply G; lia).
    rewrite Z in E1 by (intros k Hk; apply (A1 k Hk)). rewrite Z in E2 by (intros k Hk; apply (A1 k Hk)). rewrite Z in E3 by (intros k Hk; apply (A1 k Hk)).
    splits; auto. rewrite (energy_step r c assets fl d ev FA IE t e ec Ht Ee), E1, E2, A2. ring.
  - exists d. splits; [exact SO|apply FA|]. intros t e Ht He AB. destruct (absent r c assets fl d ev FA IE t e Ht He AB) as [A1 A2]. split; [exact A2|]. intros k Hk. destruct (A1 k Hk) as (B1 & B2 & _). auto.
Qed.

(** ** C17: in every interval a charge event uses at most one charger in one direction, and a charger serves at
    most one charge event (in the solution, and visible in the table as: an event / a charger never both charges
    and discharges) *)
Theorem C17_one_charger_per_event : forall slv base c assets cons obj fl r ev, feasible_run slv base c assets cons obj fl r ->
  In (AEVs ev) assets ->
  let es := seq 0 (List.length (ev_event_cfgs ev)) in
  let ks := seq 0 (List.length (ev_chargers ev)) in
  (exists d, solution_of slv base c assets cons obj fl d /\ reports (r_results r) c assets d /\
     let ch := d_ev_charge d (ev_name ev) in
     let dc := d_ev_discharge d (ev_name ev) in
     forall t, (t < n_intervals c)%nat ->
       (forall e, In e es -> at_most_one_nonzero (map (fun k => ch e k t) ks ++ map (fun k => dc e k t) ks)) /\
       (forall k, In k ks -> at_most_one_nonzero (map (fun e => ch e k t) es ++ map (fun e => dc e k t) es))) /\
  (forall t ec, (t < n_intervals c)%nat -> In ec (ev_event_cfgs ev) ->
     rep_part r ev (ce_name ec) "electric_charge_mwh" t == 0 \/ rep_part r ev (ce_name ec) "electric_discharge_mwh" t == 0) /\
  (forall t cc, (t < n_intervals c)%nat -> In cc (ev_chargers ev) ->
     rep_part r ev (cg_name cc) "electric_charge_mwh" t == 0 \/ rep_part r ev (cg_name cc) "electric_discharge_mwh" t == 0).
Proof.
  intros slv base c assets cons obj fl r ev R IE es ks. destruct (run_facts _ _ _ _ _ _ _ _ R) as (d & SO & FA).
  pose proof (ev_phys r c assets fl d ev FA IE) as (_ & _ & P3 & P4 & _). splits.
  - exists d. splits; [exact SO|apply FA|]. cbv zeta. intros t Ht. split; intros i I; [now apply P3|now apply P4].
  - intros t ec Ht I. apply In_nth_error in I. destruct I as (e & Ee). destruct (event_reported r c assets fl d FA ev e ec t IE Ht Ee) as (E1 & E2 & _). rewrite E1, E2.
    pose proof (event_lt _ _ _ Ee) as L. specialize (P3 t e Ht ltac:(apply in_seq; lia)). apply at_most_one_cross in P3.
    destruct P3 as [Z|Z]; [left|right]; apply Qsum_map_zero; intros k I; apply Z; (apply in_map_iff; exists k; auto).
  - intros t cc Ht I. apply In_nth_error in I. destruct I as (k & Ek). destruct (charger_reported r c assets fl d FA ev k cc t IE Ht Ek) as (E1 & E2 & _). rewrite E1, E2.
    pose proof (charger_lt _ _ _ Ek) as L. specialize (P4 t k Ht ltac:(apply in_seq; lia)). apply at_most_one_cross in P4.
    destruct P4 as [Z|Z]; [left|right]; apply Qsum_map_zero; intros e I; apply Z; (apply in_map_iff; exists e; auto).
Qed.

(** ** C18: state of charge of a charge event *)
Theorem C18_event_starts_empty_ends_full : forall slv base c assets cons obj fl r ev e ec, feasible_run slv base c assets cons obj fl r ->
  In (AEVs ev) assets -> nth_error (ev_event_cfgs ev) e = Some ec ->
  rep_event_soc r ev e "initial_soc_mwh" 0 == 0 /\
  rep_event_soc r ev e "final_soc_mwh" (n_intervals c - 1) == ce_capacity_mwh ec /\
  (forall t, (t < n_intervals c)%nat ->
     between 0 (rep_event_soc r ev e "initial_soc_mwh" t) (ce_capacity_mwh ec) /\
     between 0 (rep_event_soc r ev e "final_soc_mwh" t) (ce_capacity_mwh ec)) /\
  (forall t, (S t < n_intervals c)%nat -> rep_event_soc r ev e "initial_soc_mwh" (S t) == rep_event_soc r ev e "final_soc_mwh" t).
Proof.
  intros slv base c assets cons obj fl r ev e ec R IE Ee. destruct (run_facts _ _ _ _ _ _ _ _ R) as (d & SO & FA). pose proof (event_lt _ _ _ Ee) as L. pose proof (fa_n _ _ _ _ _ FA) as Hn.
  pose proof (fun t Ht => soc_reported r c assets fl d FA ev e t IE Ht L) as S. pose proof (ev_phys r c assets fl d ev FA IE) as (_ & _ & _ & _ & P5 & P6 & P7). destruct (P7 e ec Ee) as [F0 F1]. splits.
  - destruct (S 0%nat Hn) as [S0 _]. now rewrite S0.
  - destruct (S (n_intervals c - 1)%nat ltac:(lia)) as [_ S1]. now rewrite S1.
  - intros t Ht. destruct (S t Ht) as [S0 S1]. destruct (P5 t e ec Ht Ee) as (B0 & B1 & _). unfold between in *. rewrite S0, S1. auto.
  - intros t Ht. destruct (S t ltac:(lia)) as [_ S1]. destruct (S (Datatypes.S t) Ht) as [S0 _]. rewrite S0, S1. apply P6; auto. apply in_seq. lia.
Qed.

(** ** C19: energy equation, per charge event (with its share of the spill charger, which the table only shows
    summed over the events), over the horizon, and summed over the events in terms of the table alone *)
Theorem C19_event_energy : forall slv base c assets cons obj fl r ev, feasible_run slv base c assets cons obj fl r ->
  In (AEVs ev) assets ->
  (exists d, solution_of slv base c assets cons obj fl d /\ reports (r_results r) c assets d /\
     forall e ec, nth_error (ev_event_cfgs ev) e = Some ec ->
       let charge := rep_part r ev (ce_name ec) "electric_charge_mwh" in
       let discharge := rep_part r ev (ce_name ec) "electric_discharge_mwh" in
       let spill := d_spill_charge d (ev_name ev) e in
       (forall t, (t < n_intervals c)%nat -> rep_event_soc r ev e "final_soc_mwh" t ==
          rep_event_soc r ev e "initial_soc_mwh" t + (charge t * ce_efficiency_pct ec + spill t - discharge t)) /\
       horizon c charge * ce_efficiency_pct ec + horizon c spill - horizon c discharge == ce_capacity_mwh ec) /\
  (forall t cc, (t < n_intervals c)%nat -> ev_spill_chargers ev = [cc] ->
     Qsum (map (fun ee : nat * charge_event_cfg => rep_event_soc r ev (fst ee) "final_soc_mwh" t - rep_event_soc r ev (fst ee) "initial_soc_mwh" t)
               (enumerate (ev_event_cfgs ev))) ==
     Qsum (map (fun ec => rep_part r ev (ce_name ec) "electric_charge_mwh" t * ce_efficiency_pct ec
                          - rep_part r ev (ce_name ec) "electric_discharge_mwh" t) (ev_event_cfgs ev))
     + rep_part r ev (cg_name cc) "electric_charge_mwh" t).
Proof.
  intros slv base c assets cons obj fl r ev R IE. destruct (run_facts _ _ _ _ _ _ _ _ R) as (d & SO & FA). pose proof (fa_n _ _ _ _ _ FA) as Hn. split.
  - exists d. splits; [exact SO|apply FA|]. cbv zeta. intros e ec Ee.
    pose proof (fun t Ht => energy_step r c assets fl d ev FA IE t e ec Ht Ee) as ST. split; [exact ST|].
    destruct (C18_event_starts_empty_ends_full _ _ _ _ _ _ _ _ ev e ec R IE Ee) as (F0 & F1 & _ & LK).
    pose proof (telescope (n_intervals c) _ _ _ Hn ST LK) as T. rewrite F0, F1 in T. rewrite T. clear.
    rewrite (Qsum_map_minus (fun t => _ * ce_efficiency_pct ec + d_spill_charge d (ev_name ev) e t)). rewrite Qsum_map_plus.
    assert (forall g : nat -> Q, Qsum (map (fun t => g t * ce_efficiency_pct ec) (seq 0 (n_intervals c))) == horizon c g * ce_efficiency_pct ec) as SC.
    { intros g. unfold horizon. rewrite (Qmult_comm (Qsum _)). rewrite <- Qsum_map_scale. apply Qsum_map_ext. intros. ring. }
    rewrite SC. unfold horizon. ring.
  - intros t cc Ht SP. destruct (spill_reported r c assets fl d FA ev cc t IE Ht ltac:(rewrite SP; now left)) as (S1 & _). rewrite S1.
    rewrite (Qsum_index (enumerate (ev_event_cfgs ev)) _ (fun e => d_ev_soc1 d (ev_name ev) e t - d_ev_soc0 d (ev_name ev) e t)).
    2:{ intros k [e ec] E. rewrite Rows.enum_nth in E. destruct (nth_error (ev_event_cfgs ev) k) as [y|] eqn:E2; [|discriminate]. cbn in E. injection E as <- <-. cbn [fst].
        destruct (soc_reported r c assets fl d FA ev k t IE Ht (event_lt _ _ _ E2)) as [A B]. rewrite A, B. reflexivity. }
    assert (List.length (enumerate (ev_event_cfgs ev)) = List.length (ev_event_cfgs ev)) as -> by (unfold enumerate; apply Emit.enum_from_length).
    rewrite (Qsum_index (ev_event_cfgs ev) _ (fun e => d_ev_soc1 d (ev_name ev) e t - d_ev_soc0 d (ev_name ev) e t - d_spill_charge d (ev_name ev) e t)).
    2:{ intros e ec Ee. pose proof (energy_step r c assets fl d ev FA IE t e ec Ht Ee) as ST. destruct (soc_reported r c assets fl d FA ev e t IE Ht (event_lt _ _ _ Ee)) as [A B]. rewrite A, B in ST. rewrite ST. ring. }
    rewrite (Qsum_map_minus (fun e => d_ev_soc1 d (ev_name ev) e t - d_ev_soc0 d (ev_name ev) e t)). ring.
Qed.

(** ** C20: charger power limits and turndown.  In the solution for every charge event / charger pair, and in the
    table for every charger and every charge event (because only one of the summed numbers is not zero). *)
Theorem C20_charger_limits : forall slv base c assets cons obj fl r ev, feasible_run slv base c assets cons obj fl r ->
  In (AEVs ev) assets ->
  let ok cc q := q == 0 \/ between (energy (sc_freq c) (cg_min_mw cc)) q (energy (sc_freq c) (cg_max_mw cc)) in
  (exists d, solution_of slv base c assets cons obj fl d /\ reports (r_results r) c assets d /\
     forall t e k cc, (t < n_intervals c)%nat -> (e < List.length (ev_event_cfgs ev))%nat -> nth_error (ev_chargers ev) k = Some cc ->
       ok cc (d_ev_charge d (ev_name ev) e k t) /\ ok cc (d_ev_discharge d (ev_name ev) e k t)) /\
  (forall t cc, (t < n_intervals c)%nat -> In cc (ev_chargers ev) ->
     ok cc (rep_part r ev (cg_name cc) "electric_charge_mwh" t) /\ ok cc (rep_part r ev (cg_name cc) "electric_discharge_mwh" t)) /\
  (forall t ec, (t < n_intervals c)%nat -> In ec (ev_event_cfgs ev) ->
     (rep_part r ev (ce_name ec) "electric_charge_mwh" t == 0 \/ exists cc, In cc (ev_chargers ev) /\ ok cc (rep_part r ev (ce_name ec) "electric_charge_mwh" t)) /\
     (rep_part r ev (ce_name ec) "electric_discharge_mwh" t == 0 \/ exists cc, In cc (ev_chargers ev) /\ ok cc (rep_part r ev (ce_name ec) "electric_discharge_mwh" t))).
Proof.
  intros slv base c assets cons obj fl r ev R IE ok. destruct (run_facts _ _ _ _ _ _ _ _ R) as (d & SO & FA).
  pose proof (ev_phys r c assets fl d ev FA IE) as (P1 & _ & P3 & P4 & _).
  assert (forall t e k cc, (t < n_intervals c)%nat -> (e < List.length (ev_event_cfgs ev))%nat -> nth_error (ev_chargers ev) k = Some cc ->
       ok cc (d_ev_charge d (ev_name ev) e k t) /\ ok cc (d_ev_discharge d (ev_name ev) e k t)) as PAIR.
  { intros t e k cc Ht He Ek. destruct (nth_error_lt _ _ He) as (ec & Ee). destruct (P1 t e ec k cc Ht Ee Ek) as (_ & C & D & _). unfold ok. split.
    - destruct C as [C|[C _]]; auto.
    - destruct (allow_evs_discharge fl); [destruct D as [_ [D|[D _]]]; auto|auto]. }
  assert (forall cc x y, x == y -> ok cc y -> ok cc x) as OKE by (intros cc x y E; unfold ok, between; rewrite E; auto).
  splits.
  - exists d. splits; [exact SO|apply FA|exact PAIR].
  - intros t cc Ht I. apply In_nth_error in I. destruct I as (k & Ek). destruct (charger_reported r c assets fl d FA ev k cc t IE Ht Ek) as (E1 & E2 & _).
    pose proof (charger_lt _ _ _ Ek) as L. specialize (P4 t k Ht ltac:(apply in_seq; lia)).
    split; [apply (OKE _ _ _ E1); apply at_most_one_app_l in P4|apply (OKE _ _ _ E2); apply at_most_one_app_r in P4];
      (destruct (sum_at_most_one _ P4) as [Z|(x & Ix & _ & E)]; [left; exact Z|apply (OKE _ _ _ E)]);
      apply in_map_iff in Ix; destruct Ix as (e & <- & Ie); apply in_seq in Ie; apply PAIR; auto; lia.
  - intros t ec Ht I. apply In_nth_error in I. destruct I as (e & Ee). destruct (event_reported r c assets fl d FA ev e ec t IE Ht Ee) as (E1 & E2 & _).
    pose proof (event_lt _ _ _ Ee) as L. specialize (P3 t e Ht ltac:(apply in_seq; lia)). rewrite E1, E2.
    split; [apply at_most_one_app_l in P3|apply at_most_one_app_r in P3];
      (destruct (sum_at_most_one _ P3) as [Z|(x & Ix & _ & E)]; [left; exact Z|right]);
      apply in_map_iff in Ix; destruct Ix as (k & <- & Ik); apply in_seq in Ik; (destruct (nth_error_lt (ev_chargers ev) k) as (cc & Ek); [lia|]);
      exists cc; (split; [eapply nth_error_In; eauto|]); [apply (OKE _ _ _ E1)|apply (OKE _ _ _ E2)]; apply (OKE _ _ _ E); apply (PAIR t e k cc); auto.
Qed.

(** ** C21: no vehicle to grid unless the flag allows it; the spill charger never discharges *)
Theorem C21_no_discharge : forall slv base c assets cons obj fl r ev, feasible_run slv base c assets cons obj fl r ->
  In (AEVs ev) assets ->
  (allow_evs_discharge fl = false -> forall t, (t < n_intervals c)%nat ->
     (forall cc, In cc (ev_chargers ev) -> rep_part r ev (cg_name cc) "electric_discharge_mwh" t == 0) /\
     (forall ec, In ec (ev_event_cfgs ev) -> rep_part r ev (ce_name ec) "electric_discharge_mwh" t == 0) /\
     r_discharge r t (AEVs ev) == 0) /\
  (forall t cc, (t < n_intervals c)%nat -> In cc (ev_spill_chargers ev) -> rep_part r ev (cg_name cc) "electric_discharge_mwh" t == 0).
Proof.
  intros slv base c assets cons obj fl r ev R IE. destruct (run_facts _ _ _ _ _ _ _ _ R) as (d & SO & FA).
  pose proof (ev_phys r c assets fl d ev FA IE) as (P1 & _).
  assert (forall t cc, (t < n_intervals c)%nat -> In cc (ev_spill_chargers ev) -> rep_part r ev (cg_name cc) "electric_discharge_mwh" t == 0) as SP.
  { intros t cc Ht I. apply (spill_reported r c assets fl d FA ev cc t IE Ht I). }
  split; [|exact SP]. intros OFF t Ht. rewrite OFF in P1.
  assert (forall e k, (e < List.length (ev_event_cfgs ev))%nat -> (k < List.length (ev_chargers ev))%nat -> d_ev_discharge d (ev_name ev) e k t == 0) as Z.
  { intros e k He Hk. destruct (nth_error_lt _ _ He) as (ec & Ee). destruct (nth_error_lt _ _ Hk) as (cc & Ek). apply (P1 t e ec k cc Ht Ee Ek). }
  assert (forall cc, In cc (ev_chargers ev) -> rep_part r ev (cg_name cc) "electric_discharge_mwh" t == 0) as CH.
  { intros cc I. apply In_nth_error in I. destruct I as (k & Ek). destruct (charger_reported r c assets fl d FA ev k cc t IE Ht Ek) as (_ & E2 & _). rewrite E2.
    apply Qsum_map_zero. intros e I. apply in_seq in I. apply Z; [lia|]. eapply charger_lt; eauto. }
  splits; [exact CH| |].
  - intros ec I. apply In_nth_error in I. destruct I as (e & Ee). destruct (event_reported r c assets fl d FA ev e ec t IE Ht Ee) as (_ & E2 & _). rewrite E2.
    apply Qsum_map_zero. intros k I. apply in_seq in I. apply Z; [|lia]. eapply event_lt; eauto.
  - cbn [r_discharge]. unfold rep_chargers. apply Qsum_map_zero. intros cc I. apply in_app_iff in I. destruct I as [I|I]; [now apply CH|now apply SP].
Qed.

(** the hypotheses of C16 - C21 are met by the sample site: two charge events, the first present in interval 0, the
    second in interval 1, each charging 2 MWh at efficiency 1/2 *)
Example C16_C21_sample :
  feasible_run x_solver 0 x_site x_assets [] (ObjName "price") default_flags x_result /\ In (AEVs x_evs) x_assets /\
  presence x_evs 0 0 == 1 /\ presence x_evs 0 1 == 0 /\ allow_evs_discharge default_flags = false /\
  rep_part x_result x_evs "charge-event-0" "electric_charge_mwh" 0 == 2 /\
  rep_part x_result x_evs "charge-event-0" "electric_charge_mwh" 1 == 0 /\
  rep_part x_result x_evs "charge-event-1" "electric_charge_mwh" 1 == 2 /\
  rep_part x_result x_evs "charger-0" "electric_charge_mwh" 0 == 2 /\
  rep_part x_result x_evs "charger-0" "electric_charge_mwh" 1 == 2 /\
  rep_event_soc x_result x_evs 0 "final_soc_mwh" 0 == 1 /\
  rep_event_soc x_result x_evs 1 "final_soc_mwh" 0 == 0 /\
  rep_event_soc x_result x_evs 1 "final_soc_mwh" 1 == 1.
Proof. split; [exact x_run|]. split; [cbn; tauto|]. splits; vm_compute; reflexivity. Qed.
