(** * Blind: a sound solver can always be made blind (so the hypothesis [blind] of C47 can be met) *)
From Verif Require Import Base Pulp Params Optimizer Prim Shift ShiftRun.
Open Scope Q_scope.

Section Ren.
Variable f : nat -> nat.
Definition rv (v : lpvar) : lpvar := mkVar (f (v_id v)) (v_name v) (v_int v) (v_low v) (v_up v).
Definition re (e : aexpr) : aexpr := mkExpr (map (fun t => (rv (fst t), snd t)) (e_terms e)) (e_const e).
Definition rcs (c : constr) : constr := mkC (re (c_expr c)) (c_sense c).
Definition ro (o : opt) : opt := mkOpt (f (o_next o)) (map (fun nc => (fst nc, rcs (snd nc))) (o_cons o)) (option_map re (o_obj o)).
Lemma evars_re e : evars (re e) = map rv (evars e).
Proof. unfold evars, re. cbn. now rewrite !map_map. Qed.
Lemma eval_re s e : eval s (re e) = eval (fun i => s (f i)) e.
Proof. unfold eval, re. cbn [e_terms e_const]. now rewrite map_map. Qed.
Lemma var_ok_re s v : var_ok s (rv v) <-> var_ok (fun i => s (f i)) v.
Proof. unfold var_ok, rv. cbn. tauto. Qed.
Lemma vars_ok_re s l : Forall (var_ok s) (map rv l) <-> Forall (var_ok (fun i => s (f i))) l.
Proof. rewrite Forall_map, !Forall_forall. split; intros H x I; specialize (H x I); now apply (var_ok_re s x). Qed.
Lemma feasible_re s o : feasible s (ro o) <-> feasible (fun i => s (f i)) o.
Proof.
  unfold feasible, ro. cbn [o_cons o_obj]. rewrite Forall_map. cbn [snd].
  assert (forall c, constr_ok s (rcs c) <-> constr_ok (fun i => s (f i)) c) as C.
  { intros c. unfold constr_ok, rcs. cbn [c_expr c_sense]. rewrite eval_re, evars_re, vars_ok_re. tauto. }
  assert (forall l, Forall (fun x : option string * constr => constr_ok s (rcs (snd x))) l <-> Forall (fun nc => constr_ok (fun i => s (f i)) (snd nc)) l) as ->.
  { intros l. rewrite !Forall_forall. split; intros H x I; specialize (H x I); now apply (C (snd x)). }
  destruct (o_obj o); cbn [option_map]; [rewrite evars_re, vars_ok_re|]; tauto.
Qed.
Lemma objective_re s o : objective_value s (ro o) = objective_value (fun i => s (f i)) o.
Proof. unfold objective_value, ro. cbn. destruct (o_obj o); cbn; auto. apply eval_re. Qed.
Lemma occurrences_re o : all_occurrences (ro o) = map rv (all_occurrences o).
Proof.
  unfold all_occurrences. rewrite map_app. f_equal.
  - cbn. destruct (o_obj o); cbn; [apply evars_re|reflexivity].
  - cbn [ro o_cons]. induction (o_cons o) as [|x l IH]; cbn; auto. rewrite map_app, IH. f_equal. apply evars_re.
Qed.
End Ren.

(** two assignments that agree on the occurring variables *)
Lemma eval_agree s s' e : (forall v, In v (evars e) -> s (v_id v) = s' (v_id v)) -> eval s e = eval s' e.
Proof.
  intros H. unfold eval. f_equal. f_equal. apply map_ext_in. intros t I. unfold tval. f_equal. apply H. unfold evars. now apply in_map.
Qed.
Lemma var_ok_agree s s' v : s (v_id v) = s' (v_id v) -> var_ok s v -> var_ok s' v.
Proof. unfold var_ok. intros ->. auto. Qed.
Lemma feasible_agree s s' o : (forall v, In v (all_occurrences o) -> s (v_id v) = s' (v_id v)) -> feasible s o -> feasible s' o.
Proof.
  unfold all_occurrences, feasible. intros H [F1 F2]. split.
  - rewrite Forall_forall in *. intros nc I. specialize (F1 nc I). destruct F1 as [E V].
    assert (forall v, In v (evars (c_expr (snd nc))) -> s (v_id v) = s' (v_id v)) as A.
    { intros v J. apply H, in_or_app. right. apply in_flat_map. eauto. }
    split; [now rewrite <- (eval_agree s s' _ A)|]. rewrite Forall_forall in *. intros v J. apply (var_ok_agree s); auto.
  - destruct (o_obj o); auto. rewrite Forall_forall in *. intros v J. apply (var_ok_agree s); auto. apply H, in_or_app. now left.
Qed.
Lemma objective_agree s s' o : (forall v, In v (all_occurrences o) -> s (v_id v) = s' (v_id v)) -> objective_value s o = objective_value s' o.
Proof. unfold all_occurrences, objective_value. intros H. destruct (o_obj o); auto. apply eval_agree. intros v I. apply H, in_or_app. now left. Qed.

(** Renumber the variables from the smallest one that occurs, solve, and number back. *)
Definition smallest_id (o : opt) : nat := fold_right (fun v m => Nat.min (v_id v) m) (o_next o) (all_occurrences o).
Definition blindly (slv : solver) : solver := fun o =>
  let m := smallest_id o in
  let sol := slv (ro (fun i => i - m)%nat o) in
  mkSol (sol_status sol) (fun i => sol_value sol (i - m)) (sol_dummy sol).

Lemma smallest_le o v : In v (all_occurrences o) -> (smallest_id o <= v_id v)%nat.
Proof. unfold smallest_id. induction (all_occurrences o) as [|w l IH]; cbn; [tauto|]. intros [->|I]; [lia|]. specialize (IH I). lia. Qed.
Lemma smallest_shift d o : smallest_id (so (fun v => (v_id v + d)%nat) (fun i => (i + d)%nat) o) = (smallest_id o + d)%nat.
Proof.
  unfold smallest_id. rewrite occurrences_by. induction (all_occurrences o) as [|w l IH]; cbn [map fold_right Shift.so o_next]; auto.
  cbn [Shift.so o_next] in IH. rewrite IH. cbn [Shift.sv v_id]. lia.
Qed.
Theorem blindly_blind slv : blind (blindly slv).
Proof.
  intros d o. unfold blindly. rewrite smallest_shift.
  assert (ro (fun i => i - (smallest_id o + d))%nat (so (fun v => (v_id v + d)%nat) (fun i => (i + d)%nat) o) = ro (fun i => i - smallest_id o)%nat o) as ->.
  { generalize (smallest_id o) as m. intros m. unfold ro, Shift.so. cbn [o_next o_cons o_obj].
    assert (forall e, re (fun i => i - (m + d))%nat (se (fun v => (v_id v + d)%nat) e) = re (fun i => i - m)%nat e) as E.
    { intros e. unfold re, Shift.se. cbn [e_terms e_const]. f_equal. rewrite map_map. apply map_ext. intros [v k]. cbn [fst snd]. f_equal. unfold rv, Shift.sv. cbn. f_equal. lia. }
    f_equal.
    - lia.
    - rewrite map_map. apply map_ext. intros [n c]. cbn [fst snd]. f_equal. unfold rcs, Shift.sc. cbn. now rewrite E.
    - destruct (o_obj o); cbn; auto. now rewrite E. }
  unfold same_answer. cbn [sol_status sol_value sol_dummy]. splits; auto. intros i. f_equal. lia.
Qed.
Theorem blindly_sound slv : sound_solver slv -> sound_solver (blindly slv).
Proof.
  intros S o. unfold blindly. cbn [sol_status sol_value]. set (m := smallest_id o). intros H. specialize (S _ H). destruct S as (s & F & V & B).
  exists (fun i => s (i - m)%nat). splits.
  - exact (proj1 (feasible_re _ _ _) F).
  - intros v O. apply (V (rv (fun i => i - m)%nat v)). unfold occurs in *. rewrite occurrences_re. apply existsb_exists in O. destruct O as (w & I & E). apply existsb_exists.
    exists (rv (fun i => i - m)%nat w). split; [now apply in_map|]. apply Nat.eqb_eq in E. apply Nat.eqb_eq. cbn. now rewrite E.
  - intros s' F'. assert (forall v, In v (all_occurrences o) -> s' (v_id v) = s' (v_id v - m + m)%nat) as A.
    { intros v I. apply smallest_le in I. f_equal. subst m. lia. }
    rewrite <- (objective_re (fun i => (i - m)%nat) s), (objective_agree s' (fun i => s' (i - m + m)%nat) o A).
    rewrite <- (objective_re (fun i => (i - m)%nat) (fun i => s' (i + m)%nat)). apply B. apply (proj2 (feasible_re _ _ _)). eapply feasible_agree; [exact A|exact F'].
Qed.
Theorem blindly_complete slv : complete_solver slv -> complete_solver (blindly slv).
Proof.
  intros S o s F. unfold blindly. cbn [sol_status]. set (m := smallest_id o). apply (S _ (fun i => s (i + m)%nat)). apply (proj2 (feasible_re _ _ _)).
  eapply feasible_agree; [|exact F]. intros v I. apply smallest_le in I. cbn. f_equal. subst m. lia.
Qed.
