(** * Lucky: a concrete sound solver for the examples

    It is given the values of the variables 0, 1, 2, ... (in order of creation); it answers Optimal only if these values are
    feasible and the objective is a sum of non negative terms that is zero there (so nothing can be
    better), and gives up (Infeasible) otherwise. *)
From Verif Require Import Base Pulp Params Optimizer SpecOpt Check.
Open Scope Q_scope.
Open Scope string_scope.

Definition nonneg_term (t : lpvar * Q) : bool :=
  Qle_bool 0 (snd t) && match v_low (fst t) with Some l => Qle_bool 0 l | None => false end.
Definition nonneg_objective (o : opt) : bool :=
  match o_obj o with Some e => Qle_bool 0 (e_const e) && forallb nonneg_term (e_terms e) | None => false end.
Definition lucky (vals : list Q) : solver := fun o =>
  let s := of_list vals in
  if (feasibleb s o && nonneg_objective o && Qeq_bool (objective_value s o) 0)%bool
  then mkSol Optimal (fun id => Some (s id)) None else mkSol Infeasible (fun _ => None) None.

Lemma nonneg_objective_sound o s : nonneg_objective o = true -> feasible s o -> 0 <= objective_value s o.
Proof.
  unfold nonneg_objective, objective_value, feasible. destruct (o_obj o) as [e|]; [|discriminate]. intros H [_ F].
  apply andb_true_iff in H. destruct H as [H1 H2]. apply Qle_bool_iff in H1. rewrite forallb_forall in H2. unfold eval.
  assert (0 <= Qsum (map (tval s) (e_terms e))) as H.
  { unfold evars in F. revert H2 F. generalize (e_terms e) as l. induction l as [|t l IH]; intros H2 F; [apply Qle_refl|].
    cbn [map Qsum fold_right]. cbn [map] in F. apply Forall_cons_iff in F. destruct F as [F0 F].
    specialize (IH (fun x I => H2 x (or_intror I)) F). fold (Qsum (map (tval s) l)). specialize (H2 t (or_introl eq_refl)). unfold nonneg_term in H2.
    apply andb_true_iff in H2. destruct H2 as [H2 H3]. apply Qle_bool_iff in H2. destruct F0 as (L & _). destruct (v_low (fst t)) as [l0|]; [|discriminate].
    apply Qle_bool_iff in H3. specialize (L l0 eq_refl). unfold tval. assert (0 <= s (v_id (fst t))) as P by lra.
    pose proof (Qmult_le_0_compat _ _ H2 P). unfold Qsum, tval in *. lra. }
  lra.
Qed.
Lemma lucky_sound vals : sound_solver (lucky vals).
Proof.
  intros o. unfold lucky. cbv zeta. destruct (feasibleb _ o && nonneg_objective o && Qeq_bool _ 0)%bool eqn:E; [|discriminate]. intros _.
  apply andb_true_iff in E. destruct E as [E E3]. apply andb_true_iff in E. destruct E as [E1 E2]. apply feasibleb_iff in E1. apply Qeq_bool_iff in E3.
  exists (of_list vals). split; [exact E1|]. split; [reflexivity|]. intros s' F. rewrite E3. now apply nonneg_objective_sound.
Qed.
