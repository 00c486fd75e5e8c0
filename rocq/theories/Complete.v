(** * Complete: the program of a site allows exactly the physically possible dispatches *)
From Verif Require Import Base Pulp Params Optimizer Types Assets EVs Site Constraints Objectives Extract Pipeline Emit Prim Spec SpecReport SpecRun Layout Rows Sem SemEv SemSite SemProg SemObj SemResults RunFacts Builds.
Open Scope Q_scope.

(** ** dispatches with the same numbers *)
Definition qtys_of (a : asset) : list qty :=
  match a with
  | ABattery _ => [Charge; Discharge; Loss; Soc0; Soc1]
  | ABoiler _ => [HtGen; Gas]
  | ACHP _ => [ElecGen; Gas; HtGen; LtGen]
  | AEVs _ => []
  | AHeatPump _ => [ElecLoad; LtLoad; HtGen]
  | ARenewable _ => [ElecGen]
  | ASpill _ => [ElecGen; ElecLoad; HtGen; LtLoad]
  | AValve _ => [HtLoad; LtGen]
  end.
Definition same_ev (d d' : dispatch) (c : evs_cfg) (t : nat) : Prop :=
  let nm := ev_name c in forall e, (e < List.length (ev_event_cfgs c))%nat ->
    (forall k, (k < List.length (ev_chargers c))%nat -> d_ev_charge d nm e k t == d_ev_charge d' nm e k t /\
       d_ev_discharge d nm e k t == d_ev_discharge d' nm e k t /\ d_ev_loss d nm e k t == d_ev_loss d' nm e k t) /\
    d_spill_charge d nm e t == d_spill_charge d' nm e t /\ d_spill_loss d nm e t == d_spill_loss d' nm e t /\
    d_ev_soc0 d nm e t == d_ev_soc0 d' nm e t /\ d_ev_soc1 d nm e t == d_ev_soc1 d' nm e t.
Definition same_asset (d d' : dispatch) (t : nat) (a : asset) : Prop :=
  (forall q, In q (qtys_of a) -> d_qty d (asset_name a) q t == d_qty d' (asset_name a) q t) /\
  match a with AEVs c => same_ev d d' c t | _ => True end.
Definition same_dispatch (n : nat) (assets : list asset) (d d' : dispatch) : Prop :=
  forall t, (t < n)%nat -> d_import d t == d_import d' t /\ d_export d t == d_export d' t /\ (forall a, In a assets -> same_asset d d' t a).

Lemma reads_same c assets fl iv lo hi cs d d' s : program c assets fl iv lo hi cs -> reads d s iv -> reads d' s iv -> same_dispatch (n_intervals c) assets d d'.
Proof.
  intros P R R' t Ht. destruct (nth_error_lt iv t) as (row & E); [rewrite (pr_len _ _ _ _ _ _ _ P); exact Ht|].
  assert (Forall asset_fine assets) as FN by (apply (pr_fine _ _ _ _ _ _ _ P); intros ->; destruct t; discriminate).
  specialize (R t row E). specialize (R' t row E). rewrite Forall_forall in R, R'. pose proof (pr_shape _ _ _ _ _ _ _ P t row E) as SH.
  splits.
  - destruct SH as (r & xss & -> & _). destruct (R _ (or_introl eq_refl)) as [A _]. destruct (R' _ (or_introl eq_refl)) as [A' _]. now rewrite <- A, <- A'.
  - destruct SH as (r & xss & -> & _). destruct (R _ (or_introl eq_refl)) as [_ A]. destruct (R' _ (or_introl eq_refl)) as [_ A']. now rewrite <- A, <- A'.
  - intros a Ia. destruct (row_owns c assets fl iv (pr_names _ _ _ _ _ _ _ P) (pr_shape _ _ _ _ _ _ _ P) t row a E Ia) as (xs & AS & IN & _).
    rewrite Forall_forall in FN. specialize (FN a Ia).
    destruct a as [b|b|b|b|b|b|nm|nm]; cbn [asset_shape] in AS.
    4:{ split; [intros q []|]. destruct AS as (S0 & S1 & G & Sp & -> & _ & SE & SS). destruct FN as (F1 & F2 & F3). intros e He.
        assert (forall k, (k < n_chargers b)%nat -> exists r, In (OIEv r) row /\ eoi_cfg r = b /\ eoi_event r = e /\ eoi_charger r = k) as EV.
        { intros k Hk. destruct (nth_error_lt _ _ He) as (ec & Ee). destruct (nth_error_lt _ _ Hk) as (cc & Ek). destruct (SE e ec k cc Ee Ek) as (A1 & _ & A3 & _ & A5 & _). exists (G e k). splits; auto.
          apply IN. apply in_or_app. left. apply in_map. apply in_grid. eauto. }
        assert (exists r, In (OIEvSpill r) row /\ eoi_cfg r = b /\ eoi_event r = e) as (r & Ir & C1 & C2).
        { destruct (nth_error_lt _ _ He) as (ec & Ee). destruct (nth_error_lt (ev_spill_chargers b) 0 ltac:(lia)) as (cc & Ek). destruct (SS e ec 0%nat cc Ee Ek) as (A1 & _ & A3 & _). exists (Sp e 0%nat). splits; auto.
          apply IN. apply in_or_app. right. apply in_map. apply in_grid. exists e, 0%nat. splits; auto. lia. }
        pose proof (R _ Ir) as K. pose proof (R' _ Ir) as K'. cbn [oi_reads] in K, K'. rewrite C1, C2 in K, K'. destruct K as (K1 & _ & K3). destruct K' as (K1' & _ & K3').
        splits.
        - intros k Hk. destruct (EV k Hk) as (r' & Ir' & D1 & D2 & D3). pose proof (R _ Ir') as J. pose proof (R' _ Ir') as J'. cbn [oi_reads] in J, J'. rewrite D1, D2, D3 in J, J'.
          destruct J as (J1 & J2 & J3 & _). destruct J' as (J1' & J2' & J3' & _). splits; (etransitivity; [symmetry; eassumption|eassumption]).
        - etransitivity; [symmetry|]; eassumption.
        - etransitivity; [symmetry|]; eassumption.
        - destruct (EV 0%nat ltac:(lia)) as (r' & Ir' & D1 & D2 & D3). pose proof (R _ Ir') as J. pose proof (R' _ Ir') as J'. cbn [oi_reads] in J, J'. rewrite D1, D2, D3 in J, J'.
          destruct J as (_ & _ & _ & J1 & _). destruct J' as (_ & _ & _ & J1' & _). etransitivity; [symmetry|]; eassumption.
        - destruct (EV 0%nat ltac:(lia)) as (r' & Ir' & D1 & D2 & D3). pose proof (R _ Ir') as J. pose proof (R' _ Ir') as J'. cbn [oi_reads] in J, J'. rewrite D1, D2, D3 in J, J'.
          destruct J as (_ & _ & _ & _ & J1). destruct J' as (_ & _ & _ & _ & J1'). etransitivity; [symmetry|]; eassumption. }
    all: split; [|exact Logic.I]; destruct AS as (r & -> & AS); destruct AS as (AS & _); specialize (R _ (IN _ (or_introl eq_refl))); specialize (R' _ (IN _ (or_introl eq_refl))); cbn [oi_reads] in R, R'; cbv zeta in R, R'; rewrite AS in R, R'.
    all: repeat match goal with H : _ /\ _ |- _ => destruct H end; intros q Iq; cbn [qtys_of In asset_name] in *; repeat (destruct Iq as [<-|Iq]; [etransitivity; [symmetry|]; eassumption|]); destruct Iq.
Qed.

Lemma same_flows d d' t a : same_asset d d' t a ->
  (elec_gen d t a == elec_gen d' t a /\ elec_load d t a == elec_load d' t a /\ charge d t a == charge d' t a /\ discharge d t a == discharge d' t a) /\
  (ht_gen d t a == ht_gen d' t a /\ ht_load d t a == ht_load d' t a /\ lt_gen d t a == lt_gen d' t a /\ lt_load d t a == lt_load d' t a) /\
  gas_use d t a == gas_use d' t a /\ spilled d t a == spilled d' t a.
Proof.
  intros [Q E]. destruct a as [b|b|b|b|b|b|nm|nm]; cbn [qtys_of asset_name elec_gen elec_load charge discharge ht_gen ht_load lt_gen lt_load gas_use spilled] in *.
  4:{ assert (ev_total_charge d t b == ev_total_charge d' t b /\ ev_total_discharge d t b == ev_total_discharge d' t b /\ ev_spill_total d t b == ev_spill_total d' t b) as (A & B & C).
      { splits; apply Qsum_map_ext; intros e Ie; apply in_seq in Ie; destruct (E e ltac:(lia)) as (K & S & _); [| |exact S]; apply Qsum_map_ext; intros k Ik; apply in_seq in Ik; apply K; lia. }
      rewrite A, B, C. splits; reflexivity. }
  all: splits; try reflexivity; try (apply Q; cbn; tauto). rewrite !Q by (cbn; tauto). reflexivity.
Qed.
Lemma total_ext g g' (assets : list asset) : (forall a, In a assets -> g a == g' a) -> total g assets == total g' assets.
Proof. intros H. unfold total. now apply Qsum_map_ext. Qed.
Lemma at_most_one_ext l l' : Forall2 Qeq l l' -> at_most_one_nonzero l -> at_most_one_nonzero l'.
Proof.
  intros F H i j x y Ei Ej Nx Ny.
  destruct (nth_error_lt l i) as (x0 & E0); [rewrite (Forall2_len _ _ _ F); apply nth_error_Some; congruence|]. destruct (nth_error_lt l j) as (y0 & E1); [rewrite (Forall2_len _ _ _ F); apply nth_error_Some; congruence|].
  assert (forall k a b, nth_error l k = Some a -> nth_error l' k = Some b -> a == b) as EQ.
  { clear -F. induction F as [|a b l l' A F IH]; intros [|k] u v U V; cbn in *; try discriminate; [congruence|eauto]. }
  apply (H i j x0 y0 E0 E1); [rewrite (EQ _ _ _ E0 Ei)|rewrite (EQ _ _ _ E1 Ej)]; assumption.
Qed.
Lemma Forall2_map_ext {A} (f g : A -> Q) l : (forall x, In x l -> f x == g x) -> Forall2 Qeq (map f l) (map g l).
Proof. induction l as [|x l IH]; intros H; constructor; [apply H; now left|apply IH; intros; apply H; now right]. Qed.

Ltac qsteps E := repeat match type of E with forall q, In q (?x :: ?l) -> d_qty ?d ?nm q ?t == d_qty ?d' ?nm q ?t =>
    let K := fresh "K" in pose proof (E x (or_introl eq_refl)) as K; let E' := fresh in assert (E' : forall q, In q l -> d_qty d nm q t == d_qty d' nm q t) by (intros q Iq; apply E; now right); clear E; rename E' into E end.
Ltac qrew := repeat match goal with P : context [d_qty ?d ?nm ?q ?t], K : d_qty ?d ?nm ?q ?t == _ |- _ => lazymatch P with K => fail | _ => rewrite K in P end end.
Lemma asset_physical_ext a f fl n d d' : (forall t, (t < n)%nat -> same_asset d d' t a) -> (0 < n)%nat -> asset_physical a f fl n d -> asset_physical a f fl n d'.
Proof.
  intros S Hn. destruct a as [b|b|b|b|b|b|nm|nm]; cbn [asset_physical].
  4:{ assert (forall t, (t < n)%nat -> same_ev d d' b t) as E by (intros t Ht; apply (S t Ht)). clear S.
      unfold evs_physical. cbv zeta. intros (P1 & P2 & P3 & P4 & P5 & P6 & P7).
      splits.
      - intros t e ec k cc Ht Ee Ek. assert (e < List.length (ev_event_cfgs b))%nat as He by (apply nth_error_Some; congruence). assert (k < List.length (ev_chargers b))%nat as Hk by (apply nth_error_Some; congruence).
        destruct (E t Ht e He) as (K & _). destruct (K k Hk) as (K1 & K2 & K3). specialize (P1 t e ec k cc Ht Ee Ek). unfold between in *. rewrite K1, K3 in P1. destruct (allow_evs_discharge fl); rewrite K2 in P1; exact P1.
      - intros t e ec cc Ht Ee Ek. assert (e < List.length (ev_event_cfgs b))%nat as He by (apply nth_error_Some; congruence).
        destruct (E t Ht e He) as (_ & K1 & K2 & _). specialize (P2 t e ec cc Ht Ee Ek). unfold between in *. rewrite K1, K2 in P2. exact P2.
      - intros t e Ht Ie. eapply at_most_one_ext; [|exact (P3 t e Ht Ie)]. apply in_seq in Ie. destruct (E t Ht e ltac:(lia)) as (K & _).
        apply Forall2_app; apply Forall2_map_ext; intros k Ik; apply in_seq in Ik; apply (K k); lia.
      - intros t k Ht Ik. eapply at_most_one_ext; [|exact (P4 t k Ht Ik)]. apply in_seq in Ik.
        apply Forall2_app; apply Forall2_map_ext; intros e Ie; apply in_seq in Ie; (destruct (E t Ht e ltac:(lia)) as (K & _)); apply (K k); lia.
      - intros t e ec Ht Ee. assert (e < List.length (ev_event_cfgs b))%nat as He by (apply nth_error_Some; congruence). destruct (E t Ht e He) as (K & K1 & _ & K3 & K4).
        destruct (P5 t e ec Ht Ee) as (A & B & C). unfold between in *. rewrite K3 in A. rewrite K4 in B. rewrite K4, K3, K1 in C. splits; try apply A; try apply B. rewrite C.
        assert (forall g g' : nat -> Q, (forall k, (k < List.length (ev_chargers b))%nat -> g k == g' k) -> Qsum (map g (seq 0 (List.length (ev_chargers b)))) == Qsum (map g' (seq 0 (List.length (ev_chargers b))))) as SX.
        { intros g g' H. apply Qsum_map_ext. intros k Ik. apply in_seq in Ik. apply H. lia. }
        rewrite (SX _ _ (fun k Hk => proj1 (K k Hk))), (SX _ _ (fun k Hk => proj1 (proj2 (K k Hk)))), (SX _ _ (fun k Hk => proj2 (proj2 (K k Hk)))). reflexivity.
      - intros t e Ht Ie. pose proof (P6 t e Ht Ie) as Q. apply in_seq in Ie. destruct (E t ltac:(lia) e ltac:(lia)) as (_ & _ & _ & _ & K4). destruct (E (Datatypes.S t) Ht e ltac:(lia)) as (_ & _ & _ & K3 & _). now rewrite <- K3, <- K4.
      - intros e ec Ee. assert (e < List.length (ev_event_cfgs b))%nat as He by (apply nth_error_Some; congruence). destruct (P7 e ec Ee) as [A B].
        destruct (E 0%nat Hn e He) as (_ & _ & _ & K3 & _). destruct (E (n - 1)%nat ltac:(lia) e He) as (_ & _ & _ & _ & K4). now rewrite <- K3, <- K4. }
  { assert (forall t q, (t < n)%nat -> In q [Charge; Discharge; Loss; Soc0; Soc1] -> d_qty d (b_name b) q t == d_qty d' (b_name b) q t) as E by (intros t q Ht; apply (S t Ht)).
    unfold battery_physical, between. cbv zeta. intros (P1 & P2 & P3 & P4). splits.
    - intros t Ht. specialize (P1 t Ht). rewrite !(E t Charge), !(E t Discharge), !(E t Loss), !(E t Soc0), !(E t Soc1) in P1 by (auto; cbn; tauto). exact P1.
    - intros t Ht. specialize (P2 t Ht). rewrite (E (Datatypes.S t) Soc0), (E t Soc1) in P2 by (auto; cbn; try tauto; lia). exact P2.
    - rewrite <- (E 0%nat Soc0) by (auto; cbn; tauto). exact P3.
    - rewrite <- (E (n - 1)%nat Soc1) by (try lia; cbn; tauto). exact P4. }
  all: unfold boiler_physical, chp_physical, hp_physical, rg_physical, spill_physical, valve_physical, between; cbv zeta; intros P t Ht; specialize (P t Ht); destruct (S t Ht) as [E _]; cbn [qtys_of asset_name] in E; clear S Ht; qsteps E; qrew; exact P.
Qed.
Theorem physical_ext c assets fl d d' : (0 < n_intervals c)%nat -> same_dispatch (n_intervals c) assets d d' -> physical c assets fl d -> physical c assets fl d'.
Proof.
  intros Hn S [P1 P2]. split.
  - intros t Ht. destruct (S t Ht) as (SI & SE & SA). destruct (P1 t Ht) as (G & E & H & L). unfold grid_limits, between, electricity_balanced, high_temperature_balanced, low_temperature_balanced in *.
    assert (forall g : dispatch -> nat -> asset -> Q, (forall a, same_asset d d' t a -> g d t a == g d' t a) -> total (g d t) assets == total (g d' t) assets) as TX by (intros g Hg; apply total_ext; auto).
    rewrite SI, SE in G. rewrite SI, SE in E.
    rewrite (TX elec_gen (fun a K => proj1 (proj1 (same_flows d d' t a K)))), (TX elec_load (fun a K => proj1 (proj2 (proj1 (same_flows d d' t a K))))), (TX charge (fun a K => proj1 (proj2 (proj2 (proj1 (same_flows d d' t a K)))))), (TX discharge (fun a K => proj2 (proj2 (proj2 (proj1 (same_flows d d' t a K)))))) in E.
    rewrite (TX ht_gen (fun a K => proj1 (proj1 (proj2 (same_flows d d' t a K))))), (TX ht_load (fun a K => proj1 (proj2 (proj1 (proj2 (same_flows d d' t a K)))))) in H.
    rewrite (TX lt_gen (fun a K => proj1 (proj2 (proj2 (proj1 (proj2 (same_flows d d' t a K))))))), (TX lt_load (fun a K => proj2 (proj2 (proj2 (proj1 (proj2 (same_flows d d' t a K))))))) in L.
    auto.
  - intros a Ia. eapply asset_physical_ext; [|exact Hn|apply P2, Ia]. intros t Ht. now apply S.
Qed.
Lemma same_sym n assets d d' : same_dispatch n assets d d' -> same_dispatch n assets d' d.
Proof.
  intros S t Ht. destruct (S t Ht) as (A & B & C). splits; [now symmetry..|]. intros a Ia. destruct (C a Ia) as [K E]. split; [intros q Iq; symmetry; auto|].
  destruct a; auto. intros e He. destruct (E e He) as (K1 & K2 & K3 & K4 & K5). splits; [|now symmetry..]. intros k Hk. destruct (K1 k Hk) as (J1 & J2 & J3). splits; now symmetry.
Qed.

Lemma cost_ext c assets d d' : same_dispatch (n_intervals c) assets d d' -> dispatch_cost c assets d == dispatch_cost c assets d'.
Proof.
  intros S. apply Qsum_map_ext. intros t It. apply in_seq in It. destruct (S t ltac:(lia)) as (SI & SE & SA). unfold interval_cost. rewrite SI, SE.
  rewrite (total_ext (gas_use d t) (gas_use d' t)), (total_ext (spilled d t) (spilled d' t)) by (intros a Ia; apply (same_flows d d' t a (SA a Ia))). reflexivity.
Qed.
Lemma emissions_ext c assets d d' : same_dispatch (n_intervals c) assets d d' -> dispatch_emissions c assets d == dispatch_emissions c assets d'.
Proof.
  intros S. apply Qsum_map_ext. intros t It. apply in_seq in It. destruct (S t ltac:(lia)) as (SI & SE & SA). unfold interval_emissions. rewrite SI, SE.
  rewrite (total_ext (gas_use d t) (gas_use d' t)), (total_ext (spilled d t) (spilled d' t)) by (intros a Ia; apply (same_flows d d' t a (SA a Ia))). reflexivity.
Qed.

(** ** soundness: for any custom constraints and objective *)
Lemma solution_dispatch c assets fl iv lo hi cs s d : program c assets fl iv lo hi cs -> reads d s iv -> same_dispatch (n_intervals c) assets (d_of s iv) d.
Proof.
  intros P R. eapply reads_same; [exact P| |exact R]. apply eq_reads. eapply vals_eq; [exact P|].
  eapply d_of_vals; [apply (pr_names _ _ _ _ _ _ _ P)|apply (pr_shape _ _ _ _ _ _ _ P)|apply (pr_fine _ _ _ _ _ _ _ P)].
Qed.
Lemma d_of_eq c assets fl iv lo hi cs s : program c assets fl iv lo hi cs -> eq_of (d_of s iv) s iv.
Proof. intros P. eapply vals_eq; [exact P|]. eapply d_of_vals; [apply (pr_names _ _ _ _ _ _ _ P)|apply (pr_shape _ _ _ _ _ _ _ P)|apply (pr_fine _ _ _ _ _ _ _ P)]. Qed.
Theorem allowed_physical base c assets cons obj fl d : (0 < n_intervals c)%nat -> Forall chp_fine assets ->
  allowed base c assets cons obj fl d -> physical c assets fl d.
Proof.
  intros Hn CF (iv & o & s & B & F & R). destruct (program_split _ _ _ _ _ _ _ _ B) as (o1 & o2 & cs & extra & e & _ & _ & P & _ & _ & _ & CE).
  rewrite feasible_iff, CE, all_ok_app in F. destruct F as ((OK & _) & _). eapply physical_ext; [exact Hn|eapply solution_dispatch; eauto|].
  eapply (pr_sound _ _ _ _ _ _ _ P); eauto. eapply d_of_vals; [apply (pr_names _ _ _ _ _ _ _ P)|apply (pr_shape _ _ _ _ _ _ _ P)|apply (pr_fine _ _ _ _ _ _ _ P)].
Qed.

(** ** the value of the named objectives *)
Definition named_value (name : string) (c : site_cfg) (assets : list asset) (d : dispatch) : Q :=
  if String.eqb name "price" then dispatch_cost c assets d else dispatch_emissions c assets d.
Lemma named_value_ext name c assets d d' : same_dispatch (n_intervals c) assets d d' -> named_value name c assets d == named_value name c assets d'.
Proof. intros S. unfold named_value. destruct (String.eqb _ _); [now apply cost_ext|now apply emissions_ext]. Qed.
Theorem named_objective_value name base c assets cons fl iv o s d : build_program c assets cons (ObjName name) fl (new_optimizer base) = Ok (iv, o) ->
  reads d s iv -> objective_value s o == named_value name c assets d.
Proof.
  intros B R. destruct (program_split _ _ _ _ _ _ _ _ B) as (o1 & o2 & cs & extra & e & _ & _ & P & _ & (o3 & GO & _) & OE & _).
  unfold objective_value. rewrite OE. rewrite <- (named_value_ext name c assets _ _ (solution_dispatch _ _ _ _ _ _ _ _ _ P R)).
  pose proof (d_of_eq _ _ _ _ _ _ _ s P) as V. cbn [get_objective] in GO. unfold named_value.
  destruct (String.eqb name "price"); [|destruct (String.eqb name "carbon"); [|destruct (proj1 (raise_ok _ _ _ _) GO)]]; apply lift_ok in GO; destruct GO as [GO _].
  - eapply price_eval; eauto.
  - eapply carbon_eval; eauto.
Qed.

(** ** completeness *)
Definition is_named (name : string) : Prop := name = "price"%string \/ name = "carbon"%string.
Theorem physical_solution base c assets name fl d iv o : build_program c assets [] (ObjName name) fl (new_optimizer base) = Ok (iv, o) ->
  Forall chp_fine assets -> Forall (asset_sane (sc_freq c)) assets -> physical c assets fl d ->
  exists s, feasible s o /\ reads d s iv.
Proof.
  intros B CF SN PH. destruct (program_split _ _ _ _ _ _ _ _ B) as (o1 & o2 & cs & extra & e & _ & CC & P & C1 & (o3 & GO & EO) & OE & CE).
  destruct (pr_reach _ _ _ _ _ _ _ P (natural assets d)) as (tg & T). set (s := tg). assert (sets_of (natural assets d) s iv) as SE by (apply T; reflexivity). pose proof (natural_switched _ _ _ _ (pr_names _ _ _ _ _ _ _ P) PH) as SWD.
  assert (all_ok s cs) as OK by exact (pr_complete _ _ _ _ _ _ _ P _ s SE SN PH SWD).
  assert (cons_of o = cs) as CO.
  { cbn [forM_] in CC. injection CC as <-. assert (o_cons o3 = o_cons o1) as X.
    { cbn [get_objective] in GO. destruct (String.eqb name "price"); [|destruct (String.eqb name "carbon"); [|destruct (proj1 (raise_ok _ _ _ _) GO)]]; apply lift_ok in GO; destruct GO as [_ ->]; reflexivity. }
    rewrite EO. unfold cons_of in *. cbn [o_cons]. now rewrite X. }
  exists s. split.
  - rewrite feasible_iff, CO, OE. split; auto. unfold vars_ok. rewrite Forall_forall. intros v Iv. eapply occurs_ok; [exact OK|]. eapply cared_occurs; eauto. eapply named_objective_vars; eauto.
  - apply eq_reads. exact (sets_eq _ _ _ _ _ _ _ _ _ P SE SN PH SWD).
Qed.
Theorem allowed_iff_physical base c assets name fl d : is_named name -> site_ready c assets -> Forall chp_fine assets -> Forall (asset_sane (sc_freq c)) assets ->
  (allowed base c assets [] (ObjName name) fl d <-> physical c assets fl d).
Proof.
  intros Hnm RD CF SN. split.
  - apply allowed_physical; auto. apply RD.
  - intros PH. destruct (program_builds c assets fl RD base name Hnm) as (iv & o & B). destruct (physical_solution _ _ _ _ _ _ _ _ B CF SN PH) as (s & F & R). exists iv, o, s. auto.
Qed.
