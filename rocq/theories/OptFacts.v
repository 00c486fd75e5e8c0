(** * OptFacts: the statements C01 - C06 assembled from Prim *)
From Verif Require Import Base Pulp Params Optimizer Types Emit Prim.
Open Scope Q_scope.

Lemma fv_below s s' n f : agree_below n s s' -> (forall v, In v (fvars f) -> (v_id v < n)%nat) -> fv s' f = fv s f.
Proof. intros A H. apply fv_agree. intros v I. apply A. auto. Qed.

Lemma min_two_exact name a b M o cv o' : min_two_variables name a b M o = Ok (cv, o') -> wf_opt o ->
  (forall s, feasible s o' -> s (v_id cv) == Qmin (fv s a) (fv s b)) /\
  (forall s, feasible s o -> operand_ok s o a -> operand_ok s o b ->
     (extends_to s o o' <-> Qabs (fv s a - fv s b) <= M)).
Proof.
  intros H W. split.
  - intros s F. now apply (min_two_sound _ _ _ _ _ _ _ H).
  - intros s F Oa Ob. split.
    + intros (s' & A & F'). destruct (min_two_sound _ _ _ _ _ _ _ H s' F') as [_ B].
      rewrite (fv_below s s' _ a A), (fv_below s s' _ b A) in B; auto; intros v I; [apply Ob|apply Oa]; auto.
    + intros G. now apply (min_two_complete _ _ _ _ _ _ _ H).
Qed.
Lemma max_two_exact name a b M o cv o' : max_two_variables name a b M o = Ok (cv, o') -> wf_opt o ->
  (forall s, feasible s o' -> s (v_id cv) == Qmax (fv s a) (fv s b)) /\
  (forall s, feasible s o -> operand_ok s o a -> operand_ok s o b ->
     (extends_to s o o' <-> Qabs (fv s a - fv s b) <= M)).
Proof.
  intros H W. split.
  - intros s F. now apply (max_two_sound _ _ _ _ _ _ _ H).
  - intros s F Oa Ob. split.
    + intros (s' & A & F'). destruct (max_two_sound _ _ _ _ _ _ _ H s' F') as [_ B].
      rewrite (fv_below s s' _ a A), (fv_below s s' _ b A) in B; auto; intros v I; [apply Ob|apply Oa]; auto.
    + intros G. now apply (max_two_complete _ _ _ _ _ _ _ H).
Qed.

Lemma min_many_exact name vs M o mv o' : min_many_variables name vs M o = Ok (mv, o') -> wf_opt o ->
  (forall s, feasible s o' -> is_min (s (v_id mv)) (map (fv s) vs)) /\
  (forall s, feasible s o -> Forall (operand_ok s o) vs ->
     (extends_to s o o' <->
      exists m, is_min m (map (fv s) vs) /\ forall v, In v vs -> fv s v == m \/ fv s v - m <= M)).
Proof.
  intros H W. split.
  - intros s F. now apply (min_many_sound _ _ _ _ _ _ H).
  - intros s F Ov. split.
    + intros (s' & A & F'). destruct (min_many_sound _ _ _ _ _ _ H s' F') as [B C].
      exists (s' (v_id mv)). rewrite Forall_forall in Ov.
      assert (forall v, In v vs -> fv s' v = fv s v) as E.
      { intros v I. apply (fv_below s s' (o_next o)); auto. intros w J. now apply (Ov v I w J). }
      split.
      * erewrite map_ext_in; [exact B|]. intros v I. symmetry. auto.
      * intros v I. rewrite <- (E v I). auto.
    + intros (m & ((y & Iy & Ey) & L) & G). apply in_map_iff in Iy. destruct Iy as (w & <- & Iw).
      apply (min_many_complete _ _ _ _ _ _ H W s F Ov w Iw).
      * intros v I. rewrite Ey. apply L. now apply in_map.
      * intros v I. rewrite Ey. auto.
Qed.

Lemma eval_with_value s v q e : eval (with_value s v q) e == eval s e + coefficient e v * (q - s (v_id v)).
Proof.
  unfold eval, coefficient. induction (e_terms e) as [|[w k] l]; cbn [map Qsum fold_right fst snd].
  - lra.
  - fold (Qsum (map (tval (with_value s v q)) l)). fold (Qsum (map (tval s) l)).
    fold (Qsum (map (fun t => if Nat.eqb (v_id (fst t)) (v_id v) then snd t else 0) l)).
    unfold tval at 1 3. cbn [fst snd]. unfold with_value at 1.
    destruct (Nat.eqb_spec (v_id w) (v_id v)) as [E|E].
    + rewrite E. set (x := Qsum _) in *. set (y := Qsum (map (tval s) l)) in *. set (z := Qsum (map (fun t => _) l)) in *.
      rewrite <- !Qplus_assoc. rewrite IHl. ring.
    + set (x := Qsum _) in *. set (y := Qsum (map (tval s) l)) in *. set (z := Qsum (map (fun t => _) l)) in *.
      rewrite <- !Qplus_assoc. rewrite IHl. ring.
Qed.

Lemma finish_feasible s o later e : feasible s (finish o later e) <->
  all_ok s (cons_of o) /\ all_ok s later /\ vars_ok s (evars e).
Proof.
  rewrite feasible_iff. unfold finish, cons_of; cbn [o_cons o_obj]. rewrite map_app, map_map, map_id, all_ok_app. tauto.
Qed.

Lemma max_many_exact name vs M o mv o' : max_many_variables name vs M o = Ok (mv, o') -> wf_opt o -> o_obj o = None ->
  (forall v w, In v vs -> In w (fvars v) -> (v_id w < o_next o)%nat) -> vs <> [] ->
  forall later e, (forall w, In w (flat_map (fun c => evars (c_expr c)) later) -> v_id w <> v_id mv) ->
  (forall w, In w (evars e) -> v_id w = v_id mv -> w = mv) ->
  0 < coefficient e mv ->
  forall s, optimal s (finish o' later e) -> is_max (s (v_id mv)) (map (fv s) vs).
Proof.
  intros H W On Wv Ne later e Hl He Hc s [F Opt].
  rewrite finish_feasible in F. destruct F as (F1 & F2 & F3).
  pose proof H as H0. apply max_many_run in H0. destruct H0 as (bs & Hmv & Ib & Fb & _ & Eo & Ec).
  assert (forall s, feasible s o' <-> all_ok s (cons_of o')) as Fo.
  { intros s0. rewrite feasible_iff, Eo, On. tauto. }
  assert (v_id mv = o_next o) as Im by now rewrite Hmv.
  destruct (Qlist_max (map (fv s) vs)) as (j & m & Ej & Hm). { destruct vs; simpl; congruence. }
  assert (forall v, In v vs -> fv s v <= s (v_id mv)) as Up. { apply (max_many_meaning _ _ _ _ _ _ H). now apply Fo. }
  assert (In m (map (fv s) vs)) as Inm by (eapply nth_error_In; eauto).
  assert (m <= s (v_id mv)) as Lm. { apply in_map_iff in Inm. destruct Inm as (v & <- & I). auto. }
  assert (s (v_id mv) <= m) as Gm.
  { set (s' := with_value s mv m).
    assert (feasible s' (finish o' later e)) as F'.
    { rewrite finish_feasible. splits.
      - apply Fo. apply (max_many_lower name vs M o mv o' s m); auto; [now apply Fo|].
        intros v I. apply Hm. now apply in_map.
      - apply (all_ok_agree s); auto. intros v I. unfold s', with_value. specialize (Hl v I).
        destruct (Nat.eqb_spec (v_id v) (v_id mv)); [contradiction|reflexivity].
      - unfold vars_ok in *. rewrite Forall_forall in *. intros w I.
        destruct (Nat.eq_dec (v_id w) (v_id mv)) as [E|E].
        + rewrite (He w I E). apply (var_ok_cont s' mv None None); try (rewrite Hmv; reflexivity). split; exact Logic.I.
        + apply (var_ok_agree s); auto. unfold s', with_value. destruct (Nat.eqb_spec (v_id w) (v_id mv)); [contradiction|reflexivity]. }
    specialize (Opt s' F'). unfold objective_value, finish in Opt; cbn [o_obj] in Opt.
    unfold s' in Opt. rewrite eval_with_value in Opt.
    destruct (Qlt_le_dec m (s (v_id mv))) as [L|L]; auto.
    assert (0 < coefficient e mv * (s (v_id mv) - m)). { apply Qmult_lt_0_compat; lra. }
    lra. }
  split.
  - exists m. split; auto. lra.
  - intros y I. specialize (Hm y I). lra.
Qed.

Lemma feasible_with_fresh s o b q : (forall v, In v (all_occurrences o) -> v_id v <> v_id b) -> feasible s o -> feasible (with_value s b q) o.
Proof.
  intros N F. apply (feasible_agree s); auto. intros v I. unfold with_value. specialize (N v I).
  destruct (Nat.eqb_spec (v_id v) (v_id b)); [contradiction|reflexivity].
Qed.
Lemma semicontinuous_exact x b mx mn o o1 o2 :
  constrain_max (FVar x) (FVar b) mx o = Ok (tt, o1) -> constrain_min (FVar x) (FVar b) mn o1 = Ok (tt, o2) ->
  is_binary_var b -> v_low x = Some 0 -> v_id b <> v_id x -> mn <= mx ->
  (forall v, In v (all_occurrences o) -> v_id v <> v_id b) ->
  (forall s, feasible s o2 -> s (v_id x) == 0 \/ (mn <= s (v_id x) /\ s (v_id x) <= mx)) /\
  (forall s, feasible s o -> var_ok s x ->
    ((exists q, feasible (with_value s b q) o2) <-> s (v_id x) == 0 \/ (mn <= s (v_id x) /\ s (v_id x) <= mx))).
Proof.
  intros H1 H2 B Lx Nb Hm Fr.
  assert (forall s, feasible s o2 -> s (v_id x) == 0 \/ (mn <= s (v_id x) /\ s (v_id x) <= mx)) as S.
  { intros s F. apply (semicontinuous_sound x b mx mn o o1 o2 s); auto. exists 0. split; auto. lra. }
  split; auto. intros s F Vx.
  assert (forall q, with_value s b q (v_id x) = s (v_id x)) as Ex.
  { intros q. unfold with_value. destruct (Nat.eqb_spec (v_id x) (v_id b)); [congruence|reflexivity]. }
  assert (forall q, with_value s b q (v_id b) = q) as Eb. { intros q. unfold with_value. now rewrite Nat.eqb_refl. }
  split.
  - intros (q & Fq). specialize (S _ Fq). now rewrite Ex in S.
  - intros [Z|[L U]].
    + exists 0. apply (semicontinuous_complete x b mx mn o o1 o2); auto using feasible_with_fresh.
      * apply (var_ok_agree s); auto.
      * left. rewrite Ex, Eb. split; [auto|reflexivity].
    + exists 1. apply (semicontinuous_complete x b mx mn o o1 o2); auto using feasible_with_fresh.
      * apply (var_ok_agree s); auto.
      * right. rewrite Ex, Eb. splits; auto. reflexivity.
Qed.

Lemma solve_unique_names slv ai o r : solve slv ai o = Ok r ->
  forall v w, In v (all_occurrences o) -> In w (all_occurrences o) -> v_name v = v_name w ->
  (forall x y, In x (all_occurrences o) -> In y (all_occurrences o) -> v_id x = v_id y -> v_name x = v_name y) ->
  v_id v = v_id w.
Proof.
  destruct r as [st sol]. intros H v w Iv Iw E Fn. apply solve_ok in H. destruct H as (N & _). unfold variables in N.
  destruct (dedup_complete (all_occurrences o) [] v Iv eq_refl) as (v' & Iv' & Ev').
  destruct (dedup_complete (all_occurrences o) [] w Iw eq_refl) as (w' & Iw' & Ew').
  assert (v' = w') as ->; [|congruence].
  apply (NoDup_map_inj v_name _ _ _ N Iv' Iw').
  rewrite (Fn v' v), (Fn w' w); auto; eapply dedup_in; eauto.
Qed.
Lemma solve_rejects_duplicates slv ai o v w : In v (variables o) -> In w (variables o) -> v_id v <> v_id w ->
  v_name v = v_name w -> solve slv ai o = Err AssertionErr.
Proof.
  intros Iv Iw N E. unfold solve, assert_no_duplicate_variables.
  destruct (nodup_str (map v_name (variables o))) eqn:D; [|reflexivity].
  apply nodup_str_iff in D. exfalso. apply N. f_equal. apply (NoDup_map_inj v_name _ _ _ D Iv Iw E).
Qed.

(** ** Samples and witnesses *)
From Verif Require Import Check.

(** two variables a, b in [0, 10], fixed by constraints *)
Definition va := mkVar 0 "a" false (Some 0) (Some 10).
Definition vb := mkVar 1 "b" false (Some 0) (Some 10).
Definition ab_program : opt := mkOpt 2 [(None, ceq (evar va) (econst 1)); (None, ceq (evar vb) (econst 4))] None.
Lemma ab_wf : wf_opt ab_program.
Proof. intros v [<-|[<-|[]]]; simpl; lia. Qed.
Lemma ab_feasible l : feasible (of_list (1 :: 4 :: l)) ab_program.
Proof. apply feasibleb_iff. reflexivity. Qed.
Lemma ab_operands l : operand_ok (of_list (1 :: 4 :: l)) ab_program (FVar va) /\ operand_ok (of_list (1 :: 4 :: l)) ab_program (FVar vb).
Proof. split; intros v [<-|[]]; (split; [simpl; lia|apply Check.var_okb_iff; reflexivity]). Qed.

Definition run_of {A} (r : res (A * opt)) (d : A) : A * opt := match r with Ok p => p | Err _ => (d, new_optimizer 0) end.
Definition mm := Eval vm_compute in run_of (max_many_variables "max_many" [FVar va; FVar vb] 10 ab_program) va.
Definition mm_var := Eval vm_compute in fst mm.
Definition mm_opt := Eval vm_compute in snd mm.
(** minimise - max_many: the optimum takes the big-M slack *)
Definition neg_mm : aexpr := eneg (evar mm_var).
Definition neg_solution : assignment := of_list [1; 4; 11; 0; 0].

Lemma max_many_negative :
  exists name vs M o mv o' later e s,
    max_many_variables name vs M o = Ok (mv, o') /\ wf_opt o /\ o_obj o = None /\ vs <> [] /\
    (forall v w, In v vs -> In w (fvars v) -> (v_id w < o_next o)%nat) /\
    (forall w, In w (flat_map (fun c => evars (c_expr c)) later) -> v_id w <> v_id mv) /\
    optimal s (finish o' later e) /\ coefficient e mv == - (1) /\
    ~ is_max (s (v_id mv)) (map (fv s) vs).
Proof.
  exists "max_many"%string, [FVar va; FVar vb], 10, ab_program, mm_var, mm_opt, [], neg_mm, neg_solution. splits.
  - reflexivity.
  - exact ab_wf.
  - reflexivity.
  - discriminate.
  - intros v w [<-|[<-|[]]] [<-|[]]; simpl; lia.
  - intros w [].
  - split; [apply feasibleb_iff; reflexivity|]. intros s' F.
    apply finish_feasible in F. destruct F as (F & _ & _).
    unfold mm_opt, cons_of in F; cbn [o_cons map snd] in F. rewrite !all_ok_cons in F.
    destruct F as ([E1 _] & _ & _ & [E2 V] & _). clear - E1 E2 V.
    unfold mm_var, neg_mm in *. cbn [c_expr evars map fst e_terms] in V.
    repeat match type of V with Forall _ (_ :: _) => apply Forall_cons_iff in V; let V1 := fresh "V1" in destruct V as [V1 V] end.
    unfold var_ok in *.
    cbn [v_low v_up v_int v_id c_sense c_expr e_terms e_const map tval snd fst Qsum fold_right objective_value finish o_obj eneg evar sense_holds] in *.
    repeat match goal with H : _ /\ _ |- _ => destruct H end.
    repeat match goal with H : forall l, Some ?q = Some l -> _ |- _ => specialize (H q eq_refl) end.
    unfold mm_var, objective_value, eval, tval in *; cbn [finish o_obj eneg evar mm_var e_terms e_const map fst snd v_id Qsum fold_right neg_solution of_list nth] in *.
    lra.
  - reflexivity.
  - intros [(y & I & E) _]. simpl in I. destruct I as [<-|[<-|[]]]; vm_compute in E; discriminate.
Qed.
Lemma max_many_positive_sample : exists s, optimal s (finish mm_opt [] (evar mm_var)) /\ 0 < coefficient (evar mm_var) mm_var /\
  max_many_variables "max_many" [FVar va; FVar vb] 10 ab_program = Ok (mm_var, mm_opt) /\ s (v_id mm_var) == 4.
Proof.
  exists (of_list [1; 4; 4; 0; 0]). splits; [|reflexivity..].
  split; [apply feasibleb_iff; reflexivity|]. intros s' F.
  apply finish_feasible in F. destruct F as (F & _ & _).
  unfold mm_opt, cons_of in F; cbn [o_cons map snd] in F. rewrite !all_ok_cons in F.
  destruct F as (_ & [E1 _] & _ & _ & [E2 _] & _).
  unfold eval, mm_var, objective_value, tval in *.
  cbn [c_sense c_expr e_terms e_const map tval snd fst Qsum fold_right finish o_obj eneg evar sense_holds v_id of_list nth] in *.
  unfold eval, tval; cbn [e_terms map fst snd v_id Qsum fold_right e_const evar of_list nth].
  lra.
Qed.

Lemma dedup_exact seen l v : In v l -> existsb (Nat.eqb (v_id v)) seen = false ->
  (forall x, In x l -> v_id x = v_id v -> x = v) -> In v (dedup_id seen l).
Proof.
  intros I E U. destruct (dedup_complete l seen v I E) as (w & J & K).
  rewrite <- (U w); auto. eapply dedup_in; eauto.
Qed.
Lemma clash_rejected slv allow_inf n1 n2 l1 u1 l2 u2 o v o1 w o2 c later e :
  continuous n1 l1 u1 o = Ok (v, o1) -> continuous n2 l2 u2 o1 = Ok (w, o2) ->
  wf_opt o -> sanitize n1 = sanitize n2 ->
  In v (evars (c_expr c)) -> In w (evars (c_expr c)) ->
  (forall x, In x (all_occurrences (finish o2 (c :: later) e)) -> (v_id x = v_id v -> x = v) /\ (v_id x = v_id w -> x = w)) ->
  solve slv allow_inf (finish o2 (c :: later) e) = Err AssertionErr.
Proof.
  intros H1 H2 W S Iv Iw U. apply cont_ok in H1, H2. destruct H1 as [Ev ->], H2 as [Ew ->]. cbn [o_next o_cons o_obj] in *.
  set (p := finish _ _ _) in *.
  assert (forall x, In x (evars (c_expr c)) -> In x (all_occurrences p)) as Occ.
  { intros x I. apply all_occ_iff. right. unfold p, finish, cons_of; cbn [o_cons]. rewrite map_app, map_map, map_id, cs_vars_app. 
    apply in_or_app. right. cbn [snd]. simpl. apply in_or_app. now left. }
  apply (solve_rejects_duplicates slv allow_inf p v w).
  - apply dedup_exact; auto. intros x I. apply (U x I).
  - apply dedup_exact; auto. intros x I. apply (U x I).
  - rewrite Ev, Ew; simpl. lia.
  - rewrite Ev, Ew; simpl. auto.
Qed.
