(** * Capped: the solver of Certified, with multipliers for the bounds of variables too *)
From Verif Require Import Base Pulp Params Optimizer SpecOpt Check Emit Certified.
Open Scope Q_scope.

(** the program with the upper and lower bounds of some variables as constraints *)
Definition bound_rows (o : opt) (ids : list nat) : list (option string * constr) :=
  flat_map (fun id => flat_map (fun v => if (v_id v =? id)%nat then [(None, cle (evar v) (match v_up v with Some u => econst u | None => evar v end)); (None, cge (evar v) (match v_low v with Some l => econst l | None => evar v end))] else []) (variables o)) ids.
Definition with_bounds (o : opt) (ids : list nat) : opt := mkOpt (o_next o) (o_cons o ++ bound_rows o ids) (o_obj o).
Definition capped (gap : Q) (vals ls : list Q) (us : list (nat * (Q * Q))) : solver := fun o =>
  stopped gap vals (ls ++ repeat 0 (List.length (o_cons o) - List.length ls) ++ flat_map (fun u => [fst (snd u); snd (snd u)]) us) (with_bounds o (map fst us)).

Lemma dedup_in v : forall l seen, In v (dedup_id seen l) -> In v l.
Proof.
  induction l as [|w l IH]; intros seen; cbn [dedup_id]; [auto|]. destruct (existsb _ seen); [right; eauto|]. intros [->|I]; [now left|right; eauto].
Qed.
Lemma all_ok s o : feasible s o -> forall v, In v (all_occurrences o) -> var_ok s v.
Proof.
  intros [F1 F2] v I. unfold all_occurrences in I. apply in_app_iff in I. destruct I as [I|I].
  - destruct (o_obj o); [|destruct I]. rewrite Forall_forall in F2. auto.
  - apply in_flat_map in I. destruct I as (nc & I & J). rewrite Forall_forall in F1. destruct (F1 nc I) as [_ V]. rewrite Forall_forall in V. auto.
Qed.
Lemma bounds_feasible s o ids : feasible s o <-> feasible s (with_bounds o ids).
Proof.
  split.
  - intros F. pose proof (all_ok s o F) as A. destruct F as [F1 F2]. split; [|exact F2]. cbn [with_bounds o_cons]. apply Forall_app. split; [exact F1|].
    apply Forall_forall. intros nc I. unfold bound_rows in I. apply in_flat_map in I. destruct I as (id & _ & I). apply in_flat_map in I. destruct I as (v & Iv & I).
    destruct (v_id v =? id)%nat; [|destruct I]. apply dedup_in in Iv. specialize (A v Iv). destruct A as (A1 & A2 & A3). assert (vars_ok s [v]) as VO by (constructor; [now split|constructor]).
    destruct I as [<-|[<-|[]]]; cbn [snd].
    + apply cle_ok. destruct (v_up v) as [u|]; split.
      * specialize (A2 u eq_refl). unfold eval, evar, econst, tval. cbn. lra.
      * exact VO.
      * apply Qle_refl.
      * now apply Forall_app.
    + apply cge_ok. destruct (v_low v) as [l|]; split.
      * specialize (A1 l eq_refl). unfold eval, evar, econst, tval. cbn. lra.
      * exact VO.
      * apply Qle_refl.
      * now apply Forall_app.
  - intros [F1 F2]. split; [|exact F2]. cbn [with_bounds o_cons] in F1. apply Forall_app in F1. apply F1.
Qed.
Lemma capped_best gap vals ls us o : sol_status (capped gap vals ls us o) = Optimal ->
  feasible (of_list vals) o /\ (forall v, sol_value (capped gap vals ls us o) (v_id v) = Some (of_list vals (v_id v))) /\
  forall s', feasible s' o -> objective_value (of_list vals) o <= objective_value s' o + gap.
Proof.
  unfold capped. intros ST. destruct (stopped_best _ _ _ _ ST) as (F & V & BEST). split; [|split].
  - now apply bounds_feasible in F.
  - exact V.
  - intros s' F'. apply (bounds_feasible s' o (map fst us)) in F'. exact (BEST s' F').
Qed.
Lemma capped_honest gap vals ls us : honest_solver (capped gap vals ls us).
Proof. intros o ST. destruct (capped_best gap vals ls us o ST) as (F & V & _). exists (of_list vals). auto. Qed.
Lemma capped_within gap vals ls us o : answered_within gap (capped gap vals ls us) o.
Proof.
  intros ST s V s' F. destruct (capped_best gap vals ls us o ST) as (_ & V0 & BEST). specialize (BEST s' F). unfold objective_value in *. destruct (o_obj o) as [e|] eqn:OE; [|exact BEST].
  eapply Qle_trans; [|exact BEST]. apply Qle_lteq. right. unfold eval. apply Qplus_comp; [|reflexivity]. apply Qsum_map_ext. intros vk Ik. unfold tval.
  assert (occurs o (fst vk) = true) as O. { unfold occurs. apply existsb_exists. exists (fst vk). split; [|apply Nat.eqb_refl]. unfold all_occurrences. rewrite OE, in_app_iff. left. unfold evars. now apply in_map. }
  specialize (V _ O). rewrite V0 in V. injection V as <-. reflexivity.
Qed.
