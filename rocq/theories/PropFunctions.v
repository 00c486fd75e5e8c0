(** * PropFunctions: C51, C52: objectives with max/min terms *)
From Verif Require Import Base Pulp Params Optimizer Types Assets EVs Site Constraints Objectives Extract Pipeline SpecOpt Emit Prim OptFacts Spec SpecReport SpecRun SpecTerms SpecFunctions Layout Rows Sem SemEv SemSite SemProg SemObj SemResults SemTerms RunFacts Builds Complete PropTerms Mono ShiftRun SemFun SemFunTerms.
From Coq Require Import Qminmax Qabs.
Open Scope Q_scope.
Open Scope string_scope.

(** ** readings that agree give the same values *)
Definition same_singles (n : nat) (assets : list asset) (m : many_term) (v v' : singles) : Prop :=
  forall t p, (t < n)%nat -> In p (pieces assets) -> many_picks (m_variables m) p = true -> eqs (v t (t_variable (m_variables m)) p) (v' t (t_variable (m_variables m)) p).
Lemma many_values_eqs c assets m v v' : same_singles (n_intervals c) assets m v v' -> eqs (many_values v c assets m) (many_values v' c assets m).
Proof.
  intros S. apply eqs_flat. intros t It. apply in_seq in It. apply eqs_flat. intros p Ip. apply filter_In in Ip. destruct Ip as [Ip PK]. apply S; auto; lia.
Qed.
Lemma operand_ext c assets q q' t x : same_readings (n_intervals c) assets q q' -> (t < n_intervals c)%nat -> grid_operand x -> operand_value q t x == operand_value q' t x.
Proof.
  intros S Ht G. destruct x as [k|n]; [|reflexivity]. cbn [operand_value grid_operand] in *. apply S; auto; [|now left].
  destruct G as [<-|[<-|[]]]; [do 0 right|do 1 right]; cbn; tauto.
Qed.
Lemma term_value_ext c assets q q' v v' k : same_readings (n_intervals c) assets q q' -> (forall m, k = TMany m -> same_singles (n_intervals c) assets m v v') -> usual_term k ->
  term_value q v c assets k == term_value q' v' c assets k.
Proof.
  intros S SV U. destruct k as [k|w|m]; cbn [term_value].
  - apply Qsum_map_ext. intros t It. apply in_seq in It. unfold term_at. destruct U as [_ U]. now rewrite (amount_ext _ _ _ _ _ _ _ S) by (auto; lia).
  - destruct U as (_ & _ & GA & GB). apply Qsum_map_ext. intros t It. apply in_seq in It. unfold two_value, of_two. assert (t < n_intervals c)%nat as Ht by lia.
    destruct (w_function w =? "max_two_variables"); rewrite (operand_ext c assets q q' t (w_a w) S Ht GA), (operand_ext c assets q q' t (w_b w) S Ht GB); reflexivity.
  - pose proof (many_values_eqs c assets m v v' (SV m eq_refl)) as E. unfold many_value, of_many. destruct (m_function m =? "max_many_variables"); [now rewrite (biggest_eqs _ _ _ E)|now rewrite (least_eqs _ _ _ E)].
Qed.
Lemma within_ext c assets q q' v v' k : same_readings (n_intervals c) assets q q' -> (forall m, k = TMany m -> same_singles (n_intervals c) assets m v v') -> usual_term k ->
  within_M q v c assets k -> within_M q' v' c assets k.
Proof.
  intros S SV U K. destruct k as [k|w|m]; cbn [within_M] in *; auto.
  - destruct U as (_ & _ & GA & GB). intros t Ht. specialize (K t Ht). rewrite <- (operand_ext c assets q q' t (w_a w) S Ht GA), <- (operand_ext c assets q q' t (w_b w) S Ht GB). exact K.
  - pose proof (many_values_eqs c assets m v v' (SV m eq_refl)) as E. intros FU. specialize (K FU). cbv zeta in *. intros x Ix.
    assert (exists y, In y (m_constant m :: many_values v c assets m) /\ x == y) as (y & Iy & Ey). { destruct Ix as [<-|Ix]; [exists (m_constant m); split; [now left|reflexivity]|]. destruct (eqs_in _ _ x (eqs_sym _ _ E) Ix) as (y & Iy & Ey). exists y. split; [now right|auto]. }
    specialize (K y Iy). rewrite Ey, <- (least_eqs _ _ _ E). exact K.
Qed.
Lemma covered_ext c assets q q' v v' k : same_readings (n_intervals c) assets q q' -> (forall m, k = TMany m -> same_singles (n_intervals c) assets m v v') -> usual_term k ->
  covered q v c assets k -> covered q' v' c assets k.
Proof.
  intros S SV U K. destruct k as [k|w|m]; cbn [covered] in *; auto.
  - destruct U as (_ & _ & GA & GB). intros t Ht. specialize (K t Ht). rewrite <- (operand_ext c assets q q' t (w_a w) S Ht GA), <- (operand_ext c assets q q' t (w_b w) S Ht GB). exact K.
  - pose proof (many_values_eqs c assets m v v' (SV m eq_refl)) as E. intros x y Ix Iy.
    assert (forall x, In x (m_constant m :: many_values v' c assets m) -> exists y, In y (m_constant m :: many_values v c assets m) /\ x == y) as BK. { intros u [<-|Iu]; [exists (m_constant m); split; [now left|reflexivity]|]. destruct (eqs_in _ _ u (eqs_sym _ _ E) Iu) as (z & Iz & Ez). exists z. split; [now right|auto]. }
    destruct (BK x Ix) as (x' & Ix' & Ex). destruct (BK y Iy) as (y' & Iy' & Ey). rewrite Ex, Ey. auto.
Qed.
Lemma objective_sum_ext c assets q q' v v' ks : same_readings (n_intervals c) assets q q' -> (forall m, In (TMany m) ks -> same_singles (n_intervals c) assets m v v') -> Forall usual_term ks ->
  objective_sum q v c assets ks == objective_sum q' v' c assets ks.
Proof. intros S SV U. apply Qsum_map_ext. intros k Ik. rewrite Forall_forall in U. apply term_value_ext; auto. intros m ->. auto. Qed.

Lemma in_without attr : In attr plain_quantities -> existsb (String.eqb attr) site_without = true \/ existsb (String.eqb attr) site_without = false.
Proof. intros _. destruct (existsb (String.eqb attr) site_without); auto. Qed.
Lemma shown_singles r c assets fl d m : facts (r_results r) c assets fl d -> usual_term (TMany m) -> shown_term assets (TMany m) -> same_singles (n_intervals c) assets m (shown r) (single d).
Proof.
  intros FA (_ & _ & PL & _) SH t p Ht Ip PK. specialize (SH p Ip PK). destruct p as [|a|e|e]; try destruct SH; cbn [shown single].
  - destruct (existsb _ site_without); [constructor|]. constructor; [|constructor]. eapply reported_quantity; eauto.
  - constructor; [|constructor]. eapply reported_quantity; eauto.
Qed.
Lemma dispatch_singles c assets d d' m : same_dispatch (n_intervals c) assets d d' -> usual_term (TMany m) -> same_singles (n_intervals c) assets m (single d) (single d').
Proof.
  intros S (_ & _ & PL & _) t p Ht Ip PK. pose proof (dispatch_readings c assets d d' S t _ p Ht PL Ip) as RD. destruct p as [|a|e|e]; cbn [single].
  - destruct (existsb _ site_without); [constructor|]. constructor; [exact RD|constructor].
  - constructor; [exact RD|constructor].
  - destruct (S t Ht) as (_ & _ & SA). apply piece_in in Ip. destruct (SA _ Ip) as [_ K]. apply eqs_flat. intros i Ii. apply in_seq in Ii. destruct (K i ltac:(lia)) as (K1 & _ & _ & K4 & K5).
    assert (forall l, (forall k, In k l -> (k < List.length (ev_chargers e))%nat) -> eqs (map (pair_quantity d t (t_variable (m_variables m)) e i) l) (map (pair_quantity d' t (t_variable (m_variables m)) e i) l)) as Z.
    { induction l as [|k l IH]; intros Hl; constructor; [|apply IH; intros; apply Hl; now right]. destruct (K1 k (Hl k (or_introl eq_refl))) as (Q1 & Q2 & Q3).
      unfold pair_quantity. repeat match goal with |- (if ?b then _ else _) == _ => destruct b end; auto; reflexivity. }
    apply Z. intros k Ik. apply in_seq in Ik. lia.
  - destruct (S t Ht) as (_ & _ & SA). apply piece_in in Ip. destruct (SA _ Ip) as [_ K].
    assert (forall l, (forall i, In i l -> (i < List.length (ev_event_cfgs e))%nat) -> eqs (map (spill_quantity d t (t_variable (m_variables m)) e) l) (map (spill_quantity d' t (t_variable (m_variables m)) e) l)) as Z.
    { induction l as [|i l IH]; intros Hl; constructor; [|apply IH; intros; apply Hl; now right]. destruct (K i (Hl i (or_introl eq_refl))) as (_ & Q1 & Q2 & _).
      unfold spill_quantity. repeat match goal with |- (if ?b then _ else _) == _ => destruct b end; auto; reflexivity. }
    apply Z. intros i Ii. apply in_seq in Ii. lia.
Qed.

(** ** the program of an objective with function terms *)
Definition silent {A} (m : M A) : Prop := forall o x o', m o = Ok (x, o') -> o_obj o' = o_obj o.
Lemma silent_bind {A B} (m : M A) (f : A -> M B) : silent m -> (forall x, silent (f x)) -> silent (bind m f).
Proof. intros H K o y o' E. rewrite bind_ok in E. destruct E as (x & o1 & E1 & E2). rewrite (K _ _ _ _ E2). eauto. Qed.
Lemma silent_ret {A} (x : A) : silent (ret x).
Proof. intros o y o' E. apply ret_ok in E. destruct E as [_ <-]. reflexivity. Qed.
Lemma silent_lift {A} (x : res A) : silent (lift x).
Proof. intros o y o' E. apply lift_ok in E. destruct E as [_ <-]. reflexivity. Qed.
Lemma silent_constrain k : silent (constrain k).
Proof. intros o y o' E. injection E as _ <-. reflexivity. Qed.
Lemma silent_massert b : silent (massert b).
Proof. intros o y o' E. apply massert_ok in E. destruct E as [_ <-]. reflexivity. Qed.
Lemma silent_loop k iv d idx : forall l r, silent (custom_loop k iv d l r idx).
Proof.
  induction idx as [|i idx IH]; intros l r; cbn [custom_loop]; [apply silent_ret|]. repeat (apply silent_bind; [apply silent_lift || apply silent_massert|intros]). destruct (cn_sum k); repeat (apply silent_bind; [apply silent_massert || apply silent_constrain|intros]); apply IH.
Qed.
Lemma silent_customs cons iv d : silent (forM_ cons (fun k => add_custom_constraint k iv d)).
Proof.
  induction cons as [|k cons IH]; cbn [forM_]; [apply silent_ret|]. apply silent_bind; [|intros; exact IH]. unfold add_custom_constraint. apply silent_bind; [apply silent_loop|]. intros x. destruct (cn_sum k); [apply silent_constrain|apply silent_ret].
Qed.
Lemma objective_step base c assets cons ks fl iv o : build_program c assets cons (ObjTerms ks) fl (new_optimizer base) = Ok (iv, o) -> Forall usual_term ks -> (0 < n_intervals c)%nat ->
  exists o1 o2 o3 cs e, forM_ cons (fun k => add_custom_constraint k iv (sc_idata c)) o1 = Ok (tt, o2) /\ program c assets fl iv base (o_next o1) cs /\ cons_of o1 = cs /\ o_obj o1 = None /\
    good (o_next o1) o2 /\ (exists more, cons_of o2 = (cs ++ more)%list) /\
    step_means iv (o_next o1) o2 [e] o3 (fun d => objective_sum (quantity d) (single d) c assets ks) (fun d => Forall (covered (quantity d) (single d) c assets) ks) (fun d => Forall (obj_cut c assets d) ks) /\
    (forall s, feasible s o <-> feasible s o3 /\ vars_ok s (evars e)) /\ forall s, objective_value s o = eval s e.
Proof.
  intros B U Hn. destruct (program_split _ _ _ _ _ _ _ _ B) as (o1 & o2 & cs & extra & e & BB & CC & P & C1 & (o3 & GO & EO) & OE & CE).
  assert (grows (forM_ cons (fun k => add_custom_constraint k iv (sc_idata c)))) as G2 by (apply grows_forM_; intros; apply grows_custom).
  destruct (base_program _ _ _ _ _ _ BB) as (_ & _ & _ & O1). cbn in O1.
  assert (build_program c assets cons (ObjTerms []) fl (new_optimizer base) = Ok (iv, mkOpt (o_next o2) (o_cons o2) (Some (esum [])))) as B0.
  { unfold build_program, bind. rewrite BB, CC. reflexivity. }
  pose proof (program_upper _ _ _ _ _ _ _ _ B0) as UP. cbn [o_next] in UP.
  assert (o_obj o2 = None /\ (o_next o1 <= o_next o2)%nat) as [O2 N2].
  { split; [rewrite (silent_customs _ _ _ _ _ _ CC); exact O1|apply (G2 _ _ _ CC)]. }
  assert (good (o_next o1) o2) as G.
  { split; [|auto]. intros v Iv. apply UP. unfold all_occurrences in *. rewrite O2 in Iv. cbn [o_obj o_cons]. apply in_app_iff. now right. }
  exists o1, o2, o3, cs, e. splits; auto.
  - destruct (G2 _ _ _ CC) as (_ & c2 & C2). exists c2. unfold cons_of in *. congruence.
  - exact (means_objective c assets fl iv base (o_next o1) cs P Hn ks U o2 e o3 G GO).
  - intros s. destruct (means_objective c assets fl iv base (o_next o1) cs P Hn ks U o2 e o3 G GO) as [(_ & N3 & _) _ _ _ _]. rewrite !feasible_iff, N3, EO. cbn [o_obj]. unfold cons_of. cbn [o_cons]. tauto.
  - intros s. unfold objective_value. now rewrite OE.
Qed.

Lemma reads_agree c assets fl iv lo hi cs d s s' : program c assets fl iv lo hi cs -> (forall id, (id < hi)%nat -> s' id = s id) -> reads d s iv -> reads d s' iv.
Proof.
  intros P A V t row E. specialize (V t row E). rewrite Forall_forall in *. intros x Ix. specialize (V x Ix).
  assert (forall v, In v (oi_vars x) -> s' (v_id v) = s (v_id v)) as K.
  { intros v Iv. apply A. eapply (pr_vars _ _ _ _ _ _ _ P); [eapply nth_error_In; eauto|]. apply in_flat_map. eauto. }
  assert (forall f, incl (fvars f) (oi_vars x) -> fv s' f = fv s f) as KF by (intros f L; apply fv_agree; auto). clear A.
  destruct x; cbn [oi_reads oi_vars] in *.
  5-6: rewrite !KF by (intros v Iv; rewrite !in_app_iff; tauto); exact V.
  all: rewrite !K by (cbn; tauto); exact V.
Qed.
Section Program.
Context (base : nat) (c : site_cfg) (assets : list asset) (cons : list constraint) (ks : list one_term) (fl : flags) (iv : interval_vars) (o : opt).
Context (B : build_program c assets cons (ObjTerms ks) fl (new_optimizer base) = Ok (iv, o)) (U : Forall usual_term ks) (Hn : (0 < n_intervals c)%nat).
(** every solution keeps within M and costs no less than its terms *)
Lemma solution_worth s d : feasible s o -> eq_of d s iv -> Forall (obj_cut c assets d) ks /\ objective_sum (quantity d) (single d) c assets ks <= objective_value s o.
Proof.
  intros F V. destruct (objective_step _ _ _ _ _ _ _ _ B U Hn) as (o1 & o2 & o3 & cs & e & CC & P & C1 & O1 & G & MO & [SG SN SV SB (ok & K1 & K2 & K3 & K4)] & FO & OV).
  apply FO in F. destruct (K3 d s V (proj1 F)) as [OK LE]. split; auto. rewrite OV. unfold total_of in LE. cbn [map Qsum fold_right] in LE. now rewrite Qplus_0_r in LE.
Qed.
(** and there is one of exactly that value *)
Lemma solution_exact s d : Forall chp_fine assets -> feasible s o -> eq_of d s iv -> exists s', feasible s' o /\ (forall d', reads d' s iv -> reads d' s' iv) /\ objective_value s' o == objective_sum (quantity d) (single d) c assets ks.
Proof.
  intros CF F V. destruct (objective_step _ _ _ _ _ _ _ _ B U Hn) as (o1 & o2 & o3 & cs & e & CC & P & C1 & O1 & G & (more & MO) & [SG SN SV SB (ok & K1 & K2 & K3 & K4)] & FO & OV).
  apply FO in F. destruct (K3 d s V (proj1 F)) as [OK LE]. pose proof (SB s (proj1 F)) as F2.
  assert (fine iv s) as FI. { rewrite feasible_iff, MO, all_ok_app in F2. destruct F2 as ((F2 & _) & _). intros v Cv. eapply occurs_ok; [exact F2|]. eapply cared_occurs; [exact P|exact CF|exact Cv]. }
  destruct (K4 d s V FI F2 OK) as (s' & A & F' & VO & T). exists s'. splits.
  - apply FO. split; [exact F'|apply VO; now left].
  - intros d'. eapply reads_agree; [exact P|]. intros id L. apply A. destruct G as (_ & _ & G). lia.
  - rewrite OV, <- T. unfold total_of. cbn [map Qsum fold_right]. ring.
Qed.
Lemma covered_solution d : Forall plain_constraint cons -> Forall chp_fine assets -> Forall (asset_sane (sc_freq c)) assets -> physical c assets fl d -> Forall (satisfied (quantity d) c assets) cons ->
  Forall (covered (quantity d) (single d) c assets) ks -> exists s, feasible s o /\ eq_of d s iv /\ objective_value s o == objective_sum (quantity d) (single d) c assets ks.
Proof.
  intros PC CF SN PH SAT CV. destruct (objective_step _ _ _ _ _ _ _ _ B U Hn) as (o1 & o2 & o3 & cs & e & CC & P & C1 & O1 & G & (more & MO) & [SG SN' SV SB (ok & K1 & K2 & K3 & K4)] & FO & OV).
  destruct (pr_reach _ _ _ _ _ _ _ P (natural assets d)) as (s & T). assert (sets_of (natural assets d) s iv) as SE by (apply T; reflexivity). pose proof (natural_switched _ _ _ _ (pr_names _ _ _ _ _ _ _ P) PH) as SWD.
  assert (all_ok s cs) as OK by exact (pr_complete _ _ _ _ _ _ _ P _ s SE SN PH SWD). assert (eq_of d s iv) as V by exact (sets_eq _ _ _ _ _ _ _ _ _ P SE SN PH SWD).
  assert (fine iv s) as VO by (intros v Cv; eapply occurs_ok; [exact OK|]; eapply cared_occurs; eauto).
  destruct (customs_sem c assets fl iv _ _ cs P cons o1 o2 Hn PC CC) as (k2 & (_ & _ & EX) & SEM).
  assert (feasible s o2) as F2. { rewrite feasible_iff. destruct G as (_ & -> & _). split; [|exact Logic.I]. rewrite EX, C1, all_ok_app. split; auto. apply (SEM d s V); auto. }
  destruct (K4 d s V VO F2 (K1 d CV)) as (s' & A & F' & VO' & TT). exists s'. splits.
  - apply FO. split; [exact F'|apply VO'; now left].
  - eapply eq_below; [exact P|exact Hn|exact G|exact A|exact V].
  - rewrite OV, <- TT. unfold total_of. cbn [map Qsum fold_right]. ring.
Qed.
End Program.

Lemma cut_within c assets d ks : Forall (obj_cut c assets d) ks -> Forall (within_M (quantity d) (single d) c assets) ks.
Proof. apply Forall_impl. intros k. destruct k; cbn [obj_cut within_M covered]; auto. Qed.

(** ** C51 *)
(** C53: with a solver that stops early the reported objective may exceed the worth of the reported numbers (the function variables need not be tight), by at most the gap; it is never below. *)
Theorem C53_function_value : forall gap slv base c assets cons ks fl r, feasible_run slv base c assets cons (ObjTerms ks) fl r -> solved_within gap slv base c assets cons (ObjTerms ks) fl -> Forall usual_term ks -> Forall (shown_term assets) ks ->
  exists z, objective_is fl r z /\ objective_sum (reported r) (shown r) c assets ks <= z /\ z <= objective_sum (reported r) (shown r) c assets ks + gap.
Proof.
  intros gap slv base c assets cons ks fl r R SW U SH. destruct (run_solution _ _ _ _ _ _ _ _ R) as (iv & o & s & z & B & FA & F & BEST & ST & ZV & V). exists z. split; auto.
  pose proof (fa_n _ _ _ _ _ FA) as Hn. rewrite ZV. assert (objective_sum (reported r) (shown r) c assets ks == objective_sum (quantity (d_of s iv)) (single (d_of s iv)) c assets ks) as ->.
  { apply objective_sum_ext; auto; [exact (facts_readings _ _ _ _ _ FA)|]. intros m Im. rewrite Forall_forall in U, SH. eapply shown_singles; eauto; apply SH; exact Im. }
  destruct (solution_worth _ _ _ _ _ _ _ _ B U Hn s _ F V) as [_ LE]. destruct (solution_exact _ _ _ _ _ _ _ _ B U Hn s _ (fr_chp _ _ _ _ _ _ _ _ R) F V) as (s' & F' & V' & E). split; [exact LE|]. rewrite <- E. exact (BEST gap (SW _ _ B) s' F').
Qed.
(** The objective value reported with an optimal status is the sum of the terms, function terms included, over the numbers of the results table. *)
Theorem C51_reported_objective : forall slv base c assets cons ks fl r, feasible_run slv base c assets cons (ObjTerms ks) fl r -> sound_solver slv -> Forall usual_term ks -> Forall (shown_term assets) ks ->
  exists z, objective_is fl r z /\ z == objective_sum (reported r) (shown r) c assets ks.
Proof.
  intros slv base c assets cons ks fl r R SS U SH. destruct (C53_function_value 0 _ _ _ _ _ _ _ _ R (fun _ o _ => sound_within slv o SS) U SH) as (z & ST & L1 & L2). exists z. split; auto. lra.
Qed.
(** Any M, also one too small, leaves the terms right and keeps the numbers within M. *)
Theorem C51_within_M : forall slv base c assets cons ks fl r, feasible_run slv base c assets cons (ObjTerms ks) fl r -> Forall usual_term ks -> Forall (shown_term assets) ks ->
  Forall (within_M (reported r) (shown r) c assets) ks.
Proof.
  intros slv base c assets cons ks fl r R U SH. destruct (run_solution _ _ _ _ _ _ _ _ R) as (iv & o & s & z & B & FA & F & BEST & ST & ZV & V).
  destruct (solution_worth _ _ _ _ _ _ _ _ B U (fa_n _ _ _ _ _ FA) s _ F V) as [C _]. apply cut_within in C. rewrite Forall_forall in *. intros k Ik.
  eapply within_ext; [| |exact (U k Ik)|exact (C k Ik)].
  - intros t attr p Ht I Ip. symmetry. exact (facts_readings _ _ _ _ _ FA t attr p Ht I Ip).
  - intros m -> t p Ht Ip PK. apply eqs_sym. exact (shown_singles _ _ _ _ _ m FA (U _ Ik) (SH _ Ik) t p Ht Ip PK).
Qed.
(** For the program: a dispatch costs at least its terms, and some solution of that dispatch costs exactly that. *)
Theorem C51_worth : forall base c assets cons ks fl iv o s d, build_program c assets cons (ObjTerms ks) fl (new_optimizer base) = Ok (iv, o) -> Forall usual_term ks -> (0 < n_intervals c)%nat -> Forall chp_fine assets ->
  feasible s o -> reads d s iv ->
  objective_sum (quantity d) (single d) c assets ks <= objective_value s o /\
  exists s', feasible s' o /\ reads d s' iv /\ objective_value s' o == objective_sum (quantity d) (single d) c assets ks.
Proof.
  intros base c assets cons ks fl iv o s d B U Hn CF F R. destruct (program_split _ _ _ _ _ _ _ _ B) as (o1 & o2 & cs & extra & e & _ & _ & P & _).
  pose proof (d_of_eq _ _ _ _ _ _ _ s P) as V. pose proof (solution_dispatch _ _ _ _ _ _ _ _ _ P R) as SD.
  assert (objective_sum (quantity (d_of s iv)) (single (d_of s iv)) c assets ks == objective_sum (quantity d) (single d) c assets ks) as E.
  { apply objective_sum_ext; auto; [now apply dispatch_readings|]. intros m Im. apply dispatch_singles; auto. rewrite Forall_forall in U. auto. }
  split.
  - rewrite <- E. apply (solution_worth _ _ _ _ _ _ _ _ B U Hn s _ F V).
  - destruct (solution_exact _ _ _ _ _ _ _ _ B U Hn s _ CF F V) as (s' & F' & V' & E'). exists s'. splits; auto. now rewrite E', E.
Qed.

(** ** C52 *)
(** C53: within the gap of the solver, among the dispatches whose compared numbers are within M of each other. *)
Theorem C53_functions_within : forall gap slv base c assets cons ks fl r, feasible_run slv base c assets cons (ObjTerms ks) fl r -> solved_within gap slv base c assets cons (ObjTerms ks) fl -> Forall usual_term ks -> Forall (shown_term assets) ks ->
  Forall plain_constraint cons -> Forall (asset_sane (sc_freq c)) assets ->
  forall d, physical c assets fl d -> Forall (satisfied (quantity d) c assets) cons -> Forall (covered (quantity d) (single d) c assets) ks ->
  objective_sum (reported r) (shown r) c assets ks <= objective_sum (quantity d) (single d) c assets ks + gap.
Proof.
  intros gap slv base c assets cons ks fl r R SW U SH PC SN d PH SAT CV. destruct (run_solution _ _ _ _ _ _ _ _ R) as (iv & o & s & z & B & FA & F & BEST & ST & ZV & V). pose proof (fa_n _ _ _ _ _ FA) as Hn.
  assert (objective_sum (reported r) (shown r) c assets ks == objective_sum (quantity (d_of s iv)) (single (d_of s iv)) c assets ks) as ->.
  { apply objective_sum_ext; auto; [exact (facts_readings _ _ _ _ _ FA)|]. intros m Im. rewrite Forall_forall in U, SH. eapply shown_singles; eauto; apply SH; exact Im. }
  eapply Qle_trans; [exact (proj2 (solution_worth _ _ _ _ _ _ _ _ B U Hn s _ F V))|].
  destruct (covered_solution _ _ _ _ _ _ _ _ B U (fa_n _ _ _ _ _ FA) d PC (fr_chp _ _ _ _ _ _ _ _ R) SN PH SAT CV) as (s' & F' & _ & E). rewrite <- E. exact (BEST gap (SW _ _ B) s' F').
Qed.
(** The reported results are the best among the dispatches whose compared numbers are within M of each other. *)
Theorem C52_optimal : forall slv base c assets cons ks fl r, feasible_run slv base c assets cons (ObjTerms ks) fl r -> sound_solver slv -> Forall usual_term ks -> Forall (shown_term assets) ks ->
  Forall plain_constraint cons -> Forall (asset_sane (sc_freq c)) assets ->
  forall d, physical c assets fl d -> Forall (satisfied (quantity d) c assets) cons -> Forall (covered (quantity d) (single d) c assets) ks ->
  objective_sum (reported r) (shown r) c assets ks <= objective_sum (quantity d) (single d) c assets ks.
Proof.
  intros slv base c assets cons ks fl r R SS U SH PC SN d PH SAT CV. pose proof (C53_functions_within 0 _ _ _ _ _ _ _ _ R (fun _ o _ => sound_within slv o SS) U SH PC SN d PH SAT CV). lra.
Qed.
(** also with EVs in the terms: the value then is that of the dispatch found *)
Theorem C52_optimal_dispatch : forall slv base c assets cons ks fl r, feasible_run slv base c assets cons (ObjTerms ks) fl r -> sound_solver slv -> Forall usual_term ks ->
  Forall plain_constraint cons -> Forall (asset_sane (sc_freq c)) assets ->
  exists d0 z, facts (r_results r) c assets fl d0 /\ objective_is fl r z /\ z == objective_sum (quantity d0) (single d0) c assets ks /\
  forall d, physical c assets fl d -> Forall (satisfied (quantity d) c assets) cons -> Forall (covered (quantity d) (single d) c assets) ks -> z <= objective_sum (quantity d) (single d) c assets ks.
Proof.
  intros slv base c assets cons ks fl r R SS U PC SN. destruct (run_solution _ _ _ _ _ _ _ _ R) as (iv & o & s & z & B & FA & F & BEST0 & ST & ZV & V). pose proof (fa_n _ _ _ _ _ FA) as Hn.
  assert (forall s', feasible s' o -> objective_value s o <= objective_value s' o) as BEST by (intros s' F'; pose proof (BEST0 0 (sound_within slv o SS) s' F'); lra).
  exists (d_of s iv), z. splits; auto.
  - rewrite ZV. destruct (solution_worth _ _ _ _ _ _ _ _ B U Hn s _ F V) as [_ LE]. destruct (solution_exact _ _ _ _ _ _ _ _ B U Hn s _ (fr_chp _ _ _ _ _ _ _ _ R) F V) as (s' & F' & V' & E). apply Qle_antisym; [|exact LE]. rewrite <- E. auto.
  - intros d PH SAT CV. destruct (covered_solution _ _ _ _ _ _ _ _ B U Hn d PC (fr_chp _ _ _ _ _ _ _ _ R) SN PH SAT CV) as (s' & F' & _ & E). rewrite ZV, <- E. auto.
Qed.
(** What the terms allow: at least every dispatch covered by M, at most the dispatches within M. *)
Theorem C52_allowed : forall base c assets cons ks fl iv o d, build_program c assets cons (ObjTerms ks) fl (new_optimizer base) = Ok (iv, o) -> (0 < n_intervals c)%nat -> Forall usual_term ks ->
  Forall plain_constraint cons -> Forall chp_fine assets -> Forall (asset_sane (sc_freq c)) assets ->
  (physical c assets fl d -> Forall (satisfied (quantity d) c assets) cons -> Forall (covered (quantity d) (single d) c assets) ks -> allowed base c assets cons (ObjTerms ks) fl d) /\
  (allowed base c assets cons (ObjTerms ks) fl d -> physical c assets fl d /\ Forall (satisfied (quantity d) c assets) cons /\ Forall (within_M (quantity d) (single d) c assets) ks).
Proof.
  intros base c assets cons ks fl iv o d B Hn U PC CF SN. split.
  - intros PH SAT CV. destruct (covered_solution _ _ _ _ _ _ _ _ B U Hn d PC CF SN PH SAT CV) as (s & F & V & _). exists iv, o, s. splits; auto. now apply eq_reads.
  - intros A. split; [eapply allowed_physical; eauto|]. destruct A as (iv' & o' & s & B' & F & R). rewrite B in B'. injection B' as <- <-.
    destruct (objective_step _ _ _ _ _ _ _ _ B U Hn) as (o1 & o2 & o3 & cs & e & CC & P & C1 & O1 & G & _ & [SG SN' SV SB _] & FO & OV).
    pose proof (d_of_eq _ _ _ _ _ _ _ s P) as V. pose proof (solution_dispatch _ _ _ _ _ _ _ _ _ P R) as SD.
    destruct (solution_worth _ _ _ _ _ _ _ _ B U Hn s _ F V) as [CT _]. apply cut_within in CT. apply FO in F. pose proof (SB s (proj1 F)) as F2.
    destruct (customs_sem c assets fl iv _ _ cs P cons o1 o2 Hn PC CC) as (k2 & (_ & _ & EX) & SEM). rewrite feasible_iff, EX, all_ok_app in F2. destruct F2 as ((_ & OK) & _).
    pose proof (proj1 (SEM (d_of s iv) s V) OK) as SAT. split; rewrite Forall_forall in *; intros k Ik.
    + eapply satisfied_ext; [|exact (PC k Ik)|exact (SAT k Ik)]. now apply dispatch_readings.
    + (eapply (within_ext c assets _ _ (single (d_of s iv)) _ k (dispatch_readings _ _ _ _ SD)); [|exact (U k Ik)|exact (CT k Ik)]); intros m ->; apply dispatch_singles; auto.
Qed.
