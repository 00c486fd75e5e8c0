(** * PropTerms: C29, C30, C33: custom constraints and custom objectives *)
From Verif Require Import Base Pulp Params Optimizer Types Assets EVs Site Constraints Objectives Extract Pipeline Emit Prim Spec SpecReport SpecRun SpecCost SpecTerms Layout Rows Sem SemEv SemSite SemProg SemObj SemResults SemTerms RunFacts Builds Complete Lucky SampleSite PropSite PropObjective.
Open Scope Q_scope.
Open Scope string_scope.

(** ** the reported quantities *)
Ltac attrs I := cbn [plain_quantities In] in I; repeat (destruct I as [<-|I]; [|]); try destruct I.
Lemma piece_in assets p : In p (pieces assets) -> match p with PSite => True | PAsset a => In a assets /\ (forall c, a <> AEVs c) | PEv c | PEvSpill c => In (AEVs c) assets end.
Proof.
  intros [<-|I]; [exact Logic.I|]. apply in_flat_map in I. destruct I as (a & Ia & I).
  destruct a; cbn [pieces_of In] in I; repeat (destruct I as [<-|I]; [try (split; [exact Ia|discriminate]); exact Ia|]); destruct I.
Qed.
Lemma reported_quantity r c assets fl d (FA : facts (r_results r) c assets fl d) t attr p : In p (pieces assets) -> (t < n_intervals c)%nat -> In attr plain_quantities ->
  reported r t attr p == quantity d t attr p.
Proof.
  intros Ip Ht I. apply piece_in in Ip. destruct p as [|a|e|e].
  - attrs I; cbn; try reflexivity; [eapply r_import_eq; eauto|eapply r_export_eq; eauto].
  - destruct Ip as [Ia NE]. pose proof (bridge r c assets fl d FA t a Ia Ht) as ((B1 & B2 & B3 & B4) & (B5 & B6 & B7 & B8) & B9).
    destruct a as [b|b|b|b|b|b|n|n]; attrs I; cbn [reported quantity String.eqb Ascii.eqb Bool.eqb existsb orb]; try assumption; try reflexivity.
    all: eapply (rep_qty r c assets fl d FA (ABattery b)); eauto; cbn [asset_cells In asset_name]; tauto.
  - attrs I; cbn [reported quantity String.eqb Ascii.eqb Bool.eqb existsb orb]; try reflexivity.
    1-3: unfold rep_chargers, ev_total_charge, ev_total_discharge, over_events, over_chargers; rewrite Qsum_exchange; apply Qsum_index; intros k cc Ek; destruct (charger_reported r c assets fl d FA e k cc t Ip Ht Ek) as (A1 & A2 & A3); assumption.
    all: apply Qsum_map_ext; intros i Ii; apply in_seq in Ii; apply Qsum_map_ext; intros _ _; destruct (soc_reported r c assets fl d FA e i t Ip Ht ltac:(lia)) as (A1 & A2); assumption.
  - pose proof (fa_fine_at r c assets fl d FA t _ Ht Ip) as FN. cbn in FN. destruct FN as (L1 & _ & _).
    destruct (ev_spill_chargers e) as [|cc [|? ?]] eqn:SP; try discriminate.
    destruct (spill_reported r c assets fl d FA e cc t Ip Ht) as (S1 & _ & S3); [rewrite SP; now left|].
    attrs I; cbn [reported quantity String.eqb Ascii.eqb Bool.eqb existsb orb]; try reflexivity; unfold rep_chargers; rewrite SP; cbn [map Qsum fold_right]; [rewrite S1; unfold ev_spill_total|rewrite S3; unfold over_events]; ring.
Qed.
(** readings that agree on a site give the same meaning *)
Definition same_readings (n : nat) (assets : list asset) (q q' : readings) : Prop :=
  forall t attr p, (t < n)%nat -> In attr plain_quantities -> In p (pieces assets) -> q t attr p == q' t attr p.
Lemma amount_ext n assets q q' t attr pick : same_readings n assets q q' -> (t < n)%nat -> In attr plain_quantities -> amount q assets t attr pick == amount q' assets t attr pick.
Proof. intros S Ht I. apply Qsum_map_ext. intros p Ip. apply filter_In in Ip. apply S; tauto. Qed.
Lemma entry_at_ext c assets q q' t e : same_readings (n_intervals c) assets q q' -> (t < n_intervals c)%nat -> plain_entry e -> entry_at q c assets t e == entry_at q' c assets t e.
Proof. intros S Ht PL. destruct e; cbn [entry_at plain_entry] in *; [reflexivity|]. now rewrite (amount_ext _ _ _ _ _ _ _ S Ht PL). Qed.
Lemma side_at_ext c assets q q' t side : same_readings (n_intervals c) assets q q' -> (t < n_intervals c)%nat -> Forall plain_entry side -> side_at q c assets t side == side_at q' c assets t side.
Proof. intros S Ht PL. apply Qsum_map_ext. intros e Ie. rewrite Forall_forall in PL. apply entry_at_ext; auto. Qed.
Lemma side_sum_ext c assets q q' side : same_readings (n_intervals c) assets q q' -> Forall plain_entry side -> side_sum q c assets side == side_sum q' c assets side.
Proof.
  intros S PL. apply Qsum_map_ext. intros e Ie. rewrite Forall_forall in PL. specialize (PL e Ie). destruct e as [x|k]; [reflexivity|]. cbn [entry_sum]. apply Qsum_map_ext. intros t It. apply in_seq in It. apply entry_at_ext; auto; lia.
Qed.
Lemma satisfied_ext c assets q q' k : same_readings (n_intervals c) assets q q' -> plain_constraint k -> satisfied q c assets k -> satisfied q' c assets k.
Proof.
  intros S PL. unfold plain_constraint in PL. rewrite Forall_app in PL. destruct PL as [PL PR]. unfold satisfied, holds_in_total, holds_at. destruct (cn_sum k).
  - now rewrite (compares_ext _ _ _ _ _ (side_sum_ext _ _ _ _ _ S PL) (side_sum_ext _ _ _ _ _ S PR)).
  - intros H t Ht. specialize (H t Ht). now rewrite (compares_ext _ _ _ _ _ (side_at_ext _ _ _ _ _ _ S Ht PL) (side_at_ext _ _ _ _ _ _ S Ht PR)) in H.
Qed.
Lemma terms_sum_ext c assets q q' ks : same_readings (n_intervals c) assets q q' -> Forall plain_term ks -> terms_sum q c assets ks == terms_sum q' c assets ks.
Proof.
  intros S PL. apply Qsum_map_ext. intros k Ik. rewrite Forall_forall in PL. destruct (PL k Ik) as [_ PK]. apply Qsum_map_ext. intros t It. apply in_seq in It. unfold term_at. now rewrite (amount_ext _ _ _ _ _ _ _ S) by (auto; lia).
Qed.
Lemma facts_readings r c assets fl d : facts (r_results r) c assets fl d -> same_readings (n_intervals c) assets (reported r) (quantity d).
Proof. intros FA t attr p Ht I Ip. eapply reported_quantity; eauto. Qed.
Lemma dispatch_readings c assets d d' : same_dispatch (n_intervals c) assets d d' -> same_readings (n_intervals c) assets (quantity d) (quantity d').
Proof.
  intros S t attr p Ht I Ip. destruct (S t Ht) as (SI & SE & SA). apply piece_in in Ip. destruct p as [|a|e|e].
  - attrs I; cbn; auto; reflexivity.
  - destruct Ip as [Ia NE]. pose proof (SA a Ia) as K. pose proof (same_flows d d' t a K) as ((B1 & B2 & B3 & B4) & (B5 & B6 & B7 & B8) & B9 & _). destruct K as [K _].
    destruct a as [b|b|b|b|b|b|n|n]; attrs I; cbn [quantity String.eqb Ascii.eqb Bool.eqb]; try assumption; try reflexivity; apply K; cbn; tauto.
  - destruct (SA _ Ip) as [_ K]. attrs I; cbn [quantity String.eqb Ascii.eqb Bool.eqb]; try reflexivity; unfold ev_total_charge, ev_total_discharge, over_events, over_chargers; apply Qsum_map_ext; intros i Ii; apply in_seq in Ii; apply Qsum_map_ext; intros k Ik; apply in_seq in Ik;
      destruct (K i ltac:(lia)) as (K1 & _ & _ & K4 & K5); try assumption; apply (K1 k); lia.
  - destruct (SA _ Ip) as [_ K]. attrs I; cbn [quantity String.eqb Ascii.eqb Bool.eqb]; try reflexivity; unfold ev_spill_total, over_events; apply Qsum_map_ext; intros i Ii; apply in_seq in Ii; apply (K i); lia.
Qed.

(** ** the solution behind a feasible result *)
Lemma run_solution slv base c assets cons obj fl r : feasible_run slv base c assets cons obj fl r ->
  exists iv o s z, build_program c assets cons obj fl (new_optimizer base) = Ok (iv, o) /\ facts (r_results r) c assets fl (d_of s iv) /\ feasible s o /\
    (forall gap, answered_within gap slv o -> forall s', feasible s' o -> objective_value s o <= objective_value s' o + gap) /\ objective_is fl r z /\ z == objective_value s o /\ eq_of (d_of s iv) s iv.
Proof.
  intros [SND OPT FE CF NM]. destruct (optimize_run _ _ _ _ _ _ _ _ SND CF NM OPT FE) as (iv & o & s & lp & rows & R).
  pose proof (run_built _ _ _ _ _ _ _ _ _ _ _ _ _ R) as B. destruct (run_status _ _ _ _ _ _ _ _ _ _ _ _ _ R) as (z & ST & ZV).
  destruct (program_split _ _ _ _ _ _ _ _ B) as (o1 & o2 & cs & extra & e & _ & _ & P & _).
  exists iv, o, s, z. splits; try apply R; auto.
  - pose proof (run_n _ _ _ _ _ _ _ _ _ _ _ _ _ R) as Hn. constructor; [eapply run_reports; eauto|apply R|exact Hn| |apply P].
    apply (pr_fine _ _ _ _ _ _ _ P). intros X. pose proof (pr_len _ _ _ _ _ _ _ P) as L. rewrite X in L. cbn in L. lia.
  - eapply d_of_eq; eauto.
Qed.
Lemma run_satisfied slv base c assets cons obj fl r k : feasible_run slv base c assets cons obj fl r -> In k cons -> plain_constraint k -> satisfied (reported r) c assets k.
Proof.
  intros R Ik PL. destruct (run_solution _ _ _ _ _ _ _ _ R) as (iv & o & s & z & B & FA & F & _ & _ & _ & V).
  eapply satisfied_ext; [|exact PL|]. { intros t attr p Ht I Ip. symmetry. exact (facts_readings _ _ _ _ _ FA t attr p Ht I Ip). }
  destruct (program_split _ _ _ _ _ _ _ _ B) as (o1 & o2 & cs & extra & e & _ & CC & P & C1 & (o3 & GO & EO) & OE & CE).
  rewrite feasible_iff in F. destruct F as (OK & _). destruct (grows_objective _ _ _ _ _ _ GO) as (_ & c3 & C3).
  assert (all_ok s (cons_of o2)) as OK2. { rewrite EO in OK. unfold cons_of in OK |- *. cbn [o_cons] in OK. unfold cons_of in C3. rewrite C3, all_ok_app in OK. tauto. }
  eapply custom_one; [exact P|apply FA|exact Ik|exact PL|exact CC|exact V|exact OK2].
Qed.
(** C29: a custom constraint without aggregation holds in every interval of the reported results. *)
Theorem C29_holds_in_every_interval : forall slv base c assets cons obj fl r k, feasible_run slv base c assets cons obj fl r -> In k cons -> cn_sum k = false -> plain_constraint k ->
  forall t, (t < n_intervals c)%nat -> holds_at (reported r) c assets k t.
Proof. intros slv base c assets cons obj fl r k R Ik SU PL. pose proof (run_satisfied _ _ _ _ _ _ _ _ _ R Ik PL) as H. unfold satisfied in H. now rewrite SU in H. Qed.
(** C30: with interval_aggregation = "sum" it holds for the totals, a number counting once. *)
Theorem C30_holds_in_total : forall slv base c assets cons obj fl r k, feasible_run slv base c assets cons obj fl r -> In k cons -> cn_sum k = true -> plain_constraint k ->
  holds_in_total (reported r) c assets k.
Proof. intros slv base c assets cons obj fl r k R Ik SU PL. pose proof (run_satisfied _ _ _ _ _ _ _ _ _ R Ik PL) as H. unfold satisfied in H. now rewrite SU in H. Qed.

(** ** completeness *)
Lemma simple_objective_sem c assets fl iv lo hi cs ks o e o' : program c assets fl iv lo hi cs -> Forall plain_term ks -> get_objective (simple_terms ks) iv (sc_idata c) o = Ok (e, o') ->
  o' = o /\ (forall v, In v (evars e) -> cared iv v) /\ forall d s, eq_of d s iv -> eval s e == terms_sum (quantity d) c assets ks.
Proof.
  intros P PL H. cbn [get_objective simple_terms] in H. rewrite bind_ok in H. destruct H as (sm & o1 & H1 & H). apply lift_ok in H1. destruct H1 as [H1 <-].
  assert (forall m, (forall k, In k ks -> m (TSimple k) = ret []) -> forall o, forM (map TSimple ks) m o = Ok (map (fun _ => @nil aexpr) ks, o)) as NO.
  { intros m Hm. clear -Hm. induction ks as [|k ks IH]; intros o; [reflexivity|]. cbn [map forM]. rewrite (Hm k (or_introl eq_refl)). unfold bind at 1. cbn [ret]. unfold bind. rewrite IH by (intros; apply Hm; now right). reflexivity. }
  assert (forall k, In k ks -> t_type k = "simple") as TY by (intros k Ik; rewrite Forall_forall in PL; apply (PL k Ik)).
  rewrite bind_ok in H. destruct H as (tw & o2 & H2 & H). unfold add_two_variable_terms in H2. rewrite bind_ok in H2. destruct H2 as (ls & o3 & H2 & H3).
  rewrite NO in H2 by (intros k Ik; unfold add_two_variable_term; cbn [one_term_type]; rewrite (TY k Ik); reflexivity). injection H2 as <- <-. apply ret_ok in H3. destruct H3 as [<- <-].
  rewrite bind_ok in H. destruct H as (mn & o4 & H4 & H). unfold add_many_variables_terms in H4. rewrite bind_ok in H4. destruct H4 as (ls & o3 & H4 & H5).
  rewrite NO in H4 by (intros k Ik; unfold add_many_variables_term; cbn [one_term_type]; rewrite (TY k Ik); reflexivity). injection H4 as <- <-. apply ret_ok in H5. destruct H5 as [<- <-].
  apply ret_ok in H. destruct H as [<- <-]. split; auto.
  assert (List.concat (map (fun _ : term => @nil aexpr) ks) = []) as CN by (clear; induction ks; auto). rewrite CN, !app_nil_r.
  unfold add_simple_terms in H1. rewrite rbind_ok in H1. destruct H1 as (ls & H1 & [= <-]). rewrite rmap_ok in H1.
  assert (Forall2 (fun k l => exists xs, rmap (simple_term_at iv (sc_idata c) k) (seq 0 (id_n (sc_idata c))) = Ok xs /\ l = List.concat xs) ks ls) as F2.
  { clear -H1 TY. revert ls H1. induction ks as [|k ks IH]; intros ls H1; inversion H1 as [|? ? ? ? E F]; subst; constructor; [|apply IH; auto; intros; apply TY; now right].
    unfold simple_term_all in E. cbn [one_term_type] in E. rewrite (TY k (or_introl eq_refl)) in E. cbn [String.eqb Ascii.eqb Bool.eqb] in E. rewrite rbind_ok in E. destruct E as (xs & E & [= <-]). eauto. }
  clear H1 TY NO. split.
  - intros v Iv. rewrite evars_esum in Iv. apply in_flat_map in Iv. destruct Iv as (y & Iy & Iv). apply in_concat in Iy. destruct Iy as (l & Il & Iy).
    destruct (Forall2_in_r _ _ _ _ F2 Il) as (k & Ik & xs & E & ->). apply in_concat in Iy. destruct Iy as (x & Ix & Iy). rewrite rmap_ok in E. destruct (Forall2_in_r _ _ _ _ E Ix) as (t & _ & Et).
    rewrite Forall_forall in PL. set (s0 := fun _ : nat => 0).
    apply (proj2 (simple_at_eval c assets fl iv lo hi cs P (d_of s0 iv) s0 k t x (d_of_eq _ _ _ _ _ _ _ s0 P) (proj2 (PL k Ik)) Et) y v Iy Iv).
  - intros d s V. rewrite eval_esum, concat_map, Qsum_concat, map_map. unfold terms_sum.
    clear -F2 PL V P. induction F2 as [|k l ks ls (xs & E & ->) F IH]; [reflexivity|]. inversion PL as [|? ? [_ P1] P2]; subst. cbn [map]. unfold Qsum in *. cbn [fold_right]. apply Qplus_comp; [|auto].
    fold (Qsum (map (eval s) (List.concat xs))). rewrite <- eval_esum. unfold horizon, n_intervals. eapply horizon_sum; [exact E|]. intros t x Et. apply (simple_at_eval c assets fl iv lo hi cs P d s k t x V P1 Et).
Qed.
Lemma plain_objective_sem c assets fl iv lo hi cs obj o e o' : program c assets fl iv lo hi cs -> plain_objective obj -> get_objective obj iv (sc_idata c) o = Ok (e, o') ->
  o' = o /\ forall v, In v (evars e) -> cared iv v.
Proof.
  intros P [(n & ->)|(ks & -> & PL)] H.
  - split; [|intros v; eapply named_objective_vars; eauto]. cbn [get_objective] in H. destruct (String.eqb n "price"); [|destruct (String.eqb n "carbon"); [|destruct (proj1 (raise_ok _ _ _ _) H)]]; apply lift_ok in H; symmetry; apply H.
  - destruct (simple_objective_sem _ _ _ _ _ _ _ _ _ _ _ P PL H) as (A & B & _). auto.
Qed.
Lemma plain_solution base c assets cons obj fl d iv o : build_program c assets cons obj fl (new_optimizer base) = Ok (iv, o) -> (0 < n_intervals c)%nat ->
  plain_objective obj -> Forall plain_constraint cons -> Forall chp_fine assets -> Forall (asset_sane (sc_freq c)) assets ->
  physical c assets fl d -> Forall (satisfied (quantity d) c assets) cons ->
  exists s, feasible s o /\ reads d s iv.
Proof.
  intros B Hn PO PC CF SN PH SAT. destruct (program_split _ _ _ _ _ _ _ _ B) as (o1 & o2 & cs & extra & e & _ & CC & P & C1 & (o3 & GO & EO) & OE & CE).
  destruct (pr_reach _ _ _ _ _ _ _ P (natural assets d)) as (tg & T). set (s := tg). assert (sets_of (natural assets d) s iv) as SE by (apply T; reflexivity). pose proof (natural_switched _ _ _ _ (pr_names _ _ _ _ _ _ _ P) PH) as SWD.
  assert (all_ok s cs) as OK by exact (pr_complete _ _ _ _ _ _ _ P _ s SE SN PH SWD). assert (eq_of d s iv) as V by exact (sets_eq _ _ _ _ _ _ _ _ _ P SE SN PH SWD).
  assert (forall v, cared iv v -> var_ok s v) as VO by (intros v Cv; eapply occurs_ok; [exact OK|]; eapply cared_occurs; eauto).
  destruct (customs_sem c assets fl iv _ _ cs P cons o1 o2 Hn PC CC) as (ks & (_ & _ & EX) & SEM). destruct (plain_objective_sem _ _ _ _ _ _ _ _ _ _ _ P PO GO) as (-> & EV).
  exists s. split; [|now apply eq_reads].
  rewrite feasible_iff, OE. split; [|unfold vars_ok; rewrite Forall_forall; auto].
  rewrite EO. unfold cons_of in *. cbn [o_cons]. rewrite EX, C1, all_ok_app. split; auto. apply (SEM d s V); auto.
Qed.
(** C29, C30: nothing else is forbidden: the program allows exactly the physical dispatches that satisfy the constraints. *)
Theorem C29_allowed_iff : forall base c assets cons obj fl iv o d, build_program c assets cons obj fl (new_optimizer base) = Ok (iv, o) -> (0 < n_intervals c)%nat ->
  plain_objective obj -> Forall plain_constraint cons -> Forall chp_fine assets -> Forall (asset_sane (sc_freq c)) assets ->
  (allowed base c assets cons obj fl d <-> physical c assets fl d /\ Forall (satisfied (quantity d) c assets) cons).
Proof.
  intros base c assets cons obj fl iv o d B Hn PO PC CF SN. split.
  - intros A. split; [eapply allowed_physical; eauto|]. destruct A as (iv' & o' & s & B' & F & R). rewrite B in B'. injection B' as <- <-.
    destruct (program_split _ _ _ _ _ _ _ _ B) as (o1 & o2 & cs & extra & e & _ & CC & P & C1 & (o3 & GO & EO) & OE & CE).
    destruct (customs_sem c assets fl iv _ _ cs P cons o1 o2 Hn PC CC) as (ks & (_ & _ & EX) & SEM). destruct (plain_objective_sem _ _ _ _ _ _ _ _ _ _ _ P PO GO) as (-> & EV).
    rewrite feasible_iff, EO in F. destruct F as (OK & _). unfold cons_of in *. cbn [o_cons] in OK. rewrite EX, all_ok_app in OK. destruct OK as (_ & OK).
    pose proof (proj1 (SEM (d_of s iv) s (d_of_eq _ _ _ _ _ _ _ s P)) OK) as SAT. rewrite Forall_forall in *. intros k Ik.
    eapply satisfied_ext; [|exact (PC k Ik)|exact (SAT k Ik)]. apply dispatch_readings. eapply solution_dispatch; eauto.
  - intros [PH SAT]. destruct (plain_solution _ _ _ _ _ _ _ _ _ B Hn PO PC CF SN PH SAT) as (s & F & R). exists iv, o, s. auto.
Qed.

(** ** C33 *)
Theorem C33_objective_value : forall base c assets cons ks fl iv o s d, Forall plain_term ks ->
  build_program c assets cons (simple_terms ks) fl (new_optimizer base) = Ok (iv, o) -> reads d s iv -> objective_value s o == terms_sum (quantity d) c assets ks.
Proof.
  intros base c assets cons ks fl iv o s d PL B R. destruct (program_split _ _ _ _ _ _ _ _ B) as (o1 & o2 & cs & extra & e & _ & CC & P & C1 & (o3 & GO & EO) & OE & CE).
  destruct (simple_objective_sem _ _ _ _ _ _ _ _ _ _ _ P PL GO) as (_ & _ & EV). unfold objective_value. rewrite OE. rewrite (EV _ s (d_of_eq _ _ _ _ _ _ _ s P)).
  apply terms_sum_ext; auto. apply dispatch_readings. eapply solution_dispatch; eauto.
Qed.
Theorem C33_reported_objective : forall slv base c assets cons ks fl r, feasible_run slv base c assets cons (simple_terms ks) fl r -> Forall plain_term ks ->
  exists z, objective_is fl r z /\ z == terms_sum (reported r) c assets ks.
Proof.
  intros slv base c assets cons ks fl r R PL. destruct (run_solution _ _ _ _ _ _ _ _ R) as (iv & o & s & z & B & FA & F & _ & ST & ZV & V). exists z. split; auto.
  rewrite ZV, (terms_sum_ext _ _ _ _ _ (facts_readings _ _ _ _ _ FA) PL). eapply C33_objective_value; eauto. now apply eq_reads.
Qed.
(** C53: within the gap of the solver *)
Theorem C53_terms_within : forall gap slv base c assets cons ks fl r, feasible_run slv base c assets cons (simple_terms ks) fl r -> solved_within gap slv base c assets cons (simple_terms ks) fl -> Forall plain_term ks ->
  Forall plain_constraint cons -> Forall (asset_sane (sc_freq c)) assets ->
  forall d, physical c assets fl d -> Forall (satisfied (quantity d) c assets) cons -> terms_sum (reported r) c assets ks <= terms_sum (quantity d) c assets ks + gap.
Proof.
  intros gap slv base c assets cons ks fl r R SW PL PC SN d PH SAT. destruct (run_solution _ _ _ _ _ _ _ _ R) as (iv & o & s & z & B & FA & F & BEST & ST & ZV & V).
  destruct (plain_solution _ _ _ _ _ _ d _ _ B (fa_n _ _ _ _ _ FA) (or_intror (ex_intro _ ks (conj eq_refl PL))) PC (fr_chp _ _ _ _ _ _ _ _ R) SN PH SAT) as (s' & F' & R').
  rewrite (terms_sum_ext _ _ _ _ _ (facts_readings _ _ _ _ _ FA) PL). rewrite <- (C33_objective_value _ _ _ _ _ _ _ _ _ _ PL B R'), <- (C33_objective_value _ _ _ _ _ _ _ _ _ _ PL B (eq_reads _ _ _ V)).
  exact (BEST gap (SW _ _ B) s' F').
Qed.
Theorem C53_price_within_constrained : forall gap slv base c assets cons fl r, feasible_run slv base c assets cons (ObjName "price") fl r -> solved_within gap slv base c assets cons (ObjName "price") fl ->
  Forall plain_constraint cons -> Forall (asset_sane (sc_freq c)) assets ->
  forall d, physical c assets fl d -> Forall (satisfied (quantity d) c assets) cons -> reported_cost c assets r <= dispatch_cost c assets d + gap.
Proof.
  intros gap slv base c assets cons fl r R SW PC SN d PH SAT. destruct (run_solution _ _ _ _ _ _ _ _ R) as (iv & o & s & z & B & FA & F & BEST & ST & ZV & V).
  destruct (plain_solution _ _ _ _ _ _ d _ _ B (fa_n _ _ _ _ _ FA) (or_introl (ex_intro _ "price" eq_refl)) PC (fr_chp _ _ _ _ _ _ _ _ R) SN PH SAT) as (s' & F' & R').
  destruct (reported_cost_eq _ _ _ _ _ FA) as [-> _]. rewrite <- (C31_price_objective _ _ _ _ _ _ _ _ _ B R'), <- (C31_price_objective _ _ _ _ _ _ _ _ _ B (eq_reads _ _ _ V)). exact (BEST gap (SW _ _ B) s' F').
Qed.
Theorem C53_carbon_within_constrained : forall gap slv base c assets cons fl r, feasible_run slv base c assets cons (ObjName "carbon") fl r -> solved_within gap slv base c assets cons (ObjName "carbon") fl ->
  Forall plain_constraint cons -> Forall (asset_sane (sc_freq c)) assets ->
  forall d, physical c assets fl d -> Forall (satisfied (quantity d) c assets) cons -> reported_emissions c assets r <= dispatch_emissions c assets d + gap.
Proof.
  intros gap slv base c assets cons fl r R SW PC SN d PH SAT. destruct (run_solution _ _ _ _ _ _ _ _ R) as (iv & o & s & z & B & FA & F & BEST & ST & ZV & V).
  destruct (plain_solution _ _ _ _ _ _ d _ _ B (fa_n _ _ _ _ _ FA) (or_introl (ex_intro _ "carbon" eq_refl)) PC (fr_chp _ _ _ _ _ _ _ _ R) SN PH SAT) as (s' & F' & R').
  destruct (reported_cost_eq _ _ _ _ _ FA) as [_ ->]. rewrite <- (C32_carbon_objective _ _ _ _ _ _ _ _ _ B R'), <- (C32_carbon_objective _ _ _ _ _ _ _ _ _ B (eq_reads _ _ _ V)). exact (BEST gap (SW _ _ B) s' F').
Qed.
Theorem C33_optimal : forall slv base c assets cons ks fl r, feasible_run slv base c assets cons (simple_terms ks) fl r -> sound_solver slv -> Forall plain_term ks ->
  Forall plain_constraint cons -> Forall (asset_sane (sc_freq c)) assets ->
  forall d, physical c assets fl d -> Forall (satisfied (quantity d) c assets) cons -> terms_sum (reported r) c assets ks <= terms_sum (quantity d) c assets ks.
Proof.
  intros slv base c assets cons ks fl r R SS PL PC SN d PH SAT. pose proof (C53_terms_within 0 _ _ _ _ _ _ _ _ R (fun _ o _ => sound_within slv o SS) PL PC SN d PH SAT). lra.
Qed.
(** the named objectives stay optimal under custom constraints *)
Theorem C29_price_optimal : forall slv base c assets cons fl r, feasible_run slv base c assets cons (ObjName "price") fl r -> sound_solver slv ->
  Forall plain_constraint cons -> Forall (asset_sane (sc_freq c)) assets ->
  forall d, physical c assets fl d -> Forall (satisfied (quantity d) c assets) cons -> reported_cost c assets r <= dispatch_cost c assets d.
Proof.
  intros slv base c assets cons fl r R SS PC SN d PH SAT. pose proof (C53_price_within_constrained 0 _ _ _ _ _ _ _ R (fun _ o _ => sound_within slv o SS) PC SN d PH SAT). lra.
Qed.
Theorem C29_carbon_optimal : forall slv base c assets cons fl r, feasible_run slv base c assets cons (ObjName "carbon") fl r -> sound_solver slv ->
  Forall plain_constraint cons -> Forall (asset_sane (sc_freq c)) assets ->
  forall d, physical c assets fl d -> Forall (satisfied (quantity d) c assets) cons -> reported_emissions c assets r <= dispatch_emissions c assets d.
Proof.
  intros slv base c assets cons fl r R SS PC SN d PH SAT. pose proof (C53_carbon_within_constrained 0 _ _ _ _ _ _ _ R (fun _ o _ => sound_within slv o SS) PC SN d PH SAT). lra.
Qed.
(** an unknown objective name raises ValueError, once the rest of the program is built *)
Theorem C33_unknown_objective : forall slv base c assets cons fl name iv o1 o2, name <> "price" -> name <> "carbon" ->
  build_base c assets fl (new_optimizer base) = Ok (iv, o1) -> forM_ cons (fun k => add_custom_constraint k iv (sc_idata c)) o1 = Ok (tt, o2) ->
  optimize slv base c assets cons (ObjName name) fl = Err ValueErr.
Proof.
  intros slv base c assets cons fl name iv o1 o2 N1 N2 B CC. unfold optimize, build_program, bind. rewrite B, CC. cbn [get_objective].
  now rewrite (proj2 (String.eqb_neq _ _) N1), (proj2 (String.eqb_neq _ _) N2).
Qed.
Theorem C33_unknown_objective_ready : forall slv base c assets fl name, name <> "price" -> name <> "carbon" -> site_ready c assets ->
  optimize slv base c assets [] (ObjName name) fl = Err ValueErr.
Proof.
  intros slv base c assets fl name N1 N2 RD. destruct (base_builds c assets fl RD base) as (iv & o & B). eapply C33_unknown_objective; eauto. reflexivity.
Qed.
(** In an objective the name of a "*" term is not looked at; in a constraint it is. *)
Theorem C33_star_ignores_name : forall q c assets k t n, t_asset_type k = Some "*" ->
  term_at q c assets k t == term_at q c assets (mkTerm (t_variable k) None (t_interval_data k) None (t_coefficient k) (t_type k)) t /\
  term_at q c assets (mkTerm (t_variable k) (Some "*") (t_interval_data k) n (t_coefficient k) (t_type k)) t == term_at q c assets k t.
Proof.
  intros q c assets k t n E. unfold term_at, amount, term_picks. cbn. rewrite E. cbn. split; reflexivity.
Qed.
Theorem C29_star_honours_name : forall ty n p, ty = Some "*" \/ ty = None -> (picked ty (Some n) p = true <-> piece_name p = n).
Proof.
  intros ty n p [->| ->]; unfold picked; cbn [type_picks name_picks String.eqb Ascii.eqb Bool.eqb orb andb]; rewrite String.eqb_eq; split; auto.
Qed.

(** ** a concrete case *)
(** in each interval at most 1 MWh is exported, what the battery charges (twice, valued at the prices) is at most 40;
    over both intervals the cars charge exactly 4 *)
Definition y_cons : list constraint :=
  [ mkConstraint [CTermOf (mkCterm "export_power_mwh" (Some "site") None None 1)] [CNumber 1] LE false;
    mkConstraint [CTermOf (mkCterm "electric_charge_mwh" (Some "*") (Some "electricity_prices") (Some "battery") 2); CNumber 1] [CNumber 41] LE false;
    mkConstraint [CTermOf (mkCterm "electric_charge_mwh" (Some "evs") None None 1)] [CNumber 3; CNumber 1] EQ true ].
Definition y_terms : list term :=
  [ mkTerm "import_power_mwh" (Some "site") (Some "electricity_prices") None 1 "simple";
    mkTerm "electric_generation_mwh" (Some "spill") None None 1000 "simple";
    mkTerm "electric_charge_mwh" (Some "spill_evs") (Some "idx") (Some "evs") 5 "simple" ].
Definition y_result : sim_result := Eval vm_compute in result_of (optimize x_solver 0 x_site x_assets y_cons (simple_terms y_terms) default_flags).
Lemma y_run : feasible_run x_solver 0 x_site x_assets y_cons (simple_terms y_terms) default_flags y_result.
Proof.
  constructor.
  - apply sound_honest, lucky_sound.
  - vm_compute. reflexivity.
  - reflexivity.
  - exact (fr_chp _ _ _ _ _ _ _ _ x_run).
  - exact (fr_names _ _ _ _ _ _ _ _ x_run).
Qed.
Example y_plain : Forall plain_constraint y_cons /\ Forall plain_term y_terms.
Proof.
  assert (forall x, existsb (String.eqb x) plain_quantities = true -> In x plain_quantities) as IN.
  { intros x H. apply existsb_exists in H. destruct H as (y & Iy & H). apply String.eqb_eq in H. now subst. }
  split; unfold y_cons, y_terms; repeat (apply Forall_cons || apply Forall_nil); unfold plain_constraint, plain_term; cbn [cn_lhs cn_rhs app t_type t_variable];
    [repeat (apply Forall_cons || apply Forall_nil); cbn [plain_entry ct_variable]; first [exact Logic.I|apply IN; reflexivity]..|split; [reflexivity|apply IN; reflexivity]|split; [reflexivity|apply IN; reflexivity]|split; [reflexivity|apply IN; reflexivity]].
Qed.
Example y_exported : map (r_export y_result) [0%nat; 1%nat] = [0; 1].
Proof. reflexivity. Qed.
Example C29_sample : forall t, (t < 2)%nat -> holds_at (reported y_result) x_site x_assets (hd (mkConstraint [] [] LE false) y_cons) t.
Proof. apply (C29_holds_in_every_interval _ _ _ _ _ _ _ _ _ y_run); [left; reflexivity|reflexivity|exact (Forall_inv (proj1 y_plain))]. Qed.
Example C30_sample : side_sum (reported y_result) x_site x_assets [CTermOf (mkCterm "electric_charge_mwh" (Some "evs") None None 1)] == 4.
Proof. vm_compute. reflexivity. Qed.
Example C33_sample : exists z, objective_is default_flags y_result z /\ z == terms_sum (reported y_result) x_site x_assets y_terms.
Proof. exact (C33_reported_objective _ _ _ _ _ _ _ _ y_run (proj2 y_plain)). Qed.
Example C29_iff_sample : exists d, allowed 0 x_site x_assets y_cons (simple_terms y_terms) default_flags d.
Proof.
  destruct (run_solution _ _ _ _ _ _ _ _ y_run) as (iv & o & s & z & B & _ & F & _ & _ & _ & V). exists (d_of s iv), iv, o, s. split; [exact B|split; [exact F|exact (eq_reads _ _ _ V)]].
Qed.
