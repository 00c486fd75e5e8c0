(** * Certified: a concrete sound solver for examples with any optimal value

    Like Lucky, but its answer comes with one multiplier for each constraint: if the objective less the multiples of the
    constraints has no negative coefficient and its constant is the objective value, nothing can be better (weak duality). *)
From Verif Require Import Base Pulp Params Optimizer SpecOpt Check Emit.
Open Scope Q_scope.
Open Scope string_scope.

Definition multiplied (l : Q) (k : constr) : aexpr := escale (c_expr k) l.
Definition sign_ok (l : Q) (k : constr) : bool := match c_sense k with GE => Qle_bool 0 l | LE => Qle_bool l 0 | EQ => true end.
Definition coefficient (id : nat) (l : list (lpvar * Q)) : Q := Qsum (map snd (filter (fun t => v_id (fst t) =? id)%nat l)).
(** no negative coefficient; a positive one only with a variable that is not negative *)
Definition nonneg_sum (e : aexpr) : bool :=
  forallb (fun v => let q := coefficient (v_id v) (e_terms e) in
    (Qeq_bool q 0 || (Qle_bool 0 q && match v_low v with Some l => Qle_bool 0 l | None => false end))%bool) (evars e).
Definition remainder (o : opt) (e : aexpr) (ls : list Q) : aexpr := esub e (esum (map (fun p => multiplied (fst p) (snd p)) (combine ls (map snd (o_cons o))))).
(** it stops when its answer is within [gap] of the lower bound *)
Definition stopped (gap : Q) (vals ls : list Q) : solver := fun o =>
  let s := of_list vals in
  match o_obj o with
  | Some e => let r := remainder o e ls in
      if (feasibleb s o && forallb (fun p => sign_ok (fst p) (snd p)) (combine ls (map snd (o_cons o))) && nonneg_sum r && Qle_bool (objective_value s o) (e_const r + gap))%bool
      then mkSol Optimal (fun id => Some (s id)) None else mkSol Infeasible (fun _ => None) None
  | None => mkSol Infeasible (fun _ => None) None
  end.
Definition certified (vals ls : list Q) : solver := stopped 0 vals ls.

Definition rest (id : nat) (l : list (lpvar * Q)) := filter (fun t => negb (v_id (fst t) =? id)%nat) l.
Lemma split_terms s id l : Qsum (map (tval s) l) == coefficient id l * s id + Qsum (map (tval s) (rest id l)).
Proof.
  unfold coefficient, rest. induction l as [|t l IH]; [cbn; ring|]. cbn [map filter]. destruct (Nat.eqb_spec (v_id (fst t)) id) as [E|E]; cbn [negb map]; unfold Qsum in *; cbn [fold_right]; rewrite IH; unfold tval; rewrite ?E; ring.
Qed.
Lemma coefficient_rest id id' l : id' <> id -> coefficient id' (rest id l) = coefficient id' l.
Proof.
  intros N. unfold coefficient, rest. f_equal. f_equal. induction l as [|t l IH]; [reflexivity|]. cbn [filter]. destruct (Nat.eqb_spec (v_id (fst t)) id) as [E|E]; cbn [negb filter].
  - destruct (Nat.eqb_spec (v_id (fst t)) id'); [congruence|exact IH].
  - destruct (Nat.eqb_spec (v_id (fst t)) id'); now rewrite IH.
Qed.
Lemma rest_shorter id l : (List.length (rest id l) <= List.length l)%nat.
Proof. unfold rest. induction l as [|t l IH]; cbn; [lia|]. destruct (negb _); cbn; lia. Qed.
Lemma nonneg_terms s : forall n l, (List.length l <= n)%nat ->
  (forall v, In v (map fst l) -> coefficient (v_id v) l == 0 \/ 0 <= coefficient (v_id v) l /\ 0 <= s (v_id v)) -> 0 <= Qsum (map (tval s) l).
Proof.
  induction n as [|n IH]; intros l L H; [destruct l; [apply Qle_refl|cbn in L; lia]|]. destruct l as [|t l]; [apply Qle_refl|].
  rewrite (split_terms s (v_id (fst t))). assert (0 <= coefficient (v_id (fst t)) (t :: l) * s (v_id (fst t))) as A.
  { destruct (H (fst t) (or_introl eq_refl)) as [E|[E1 E2]]; [rewrite E; lra|]. now apply Qmult_le_0_compat. }
  assert (0 <= Qsum (map (tval s) (rest (v_id (fst t)) (t :: l)))); [|lra]. apply IH.
  - cbn [rest filter]. rewrite Nat.eqb_refl. cbn [negb]. pose proof (rest_shorter (v_id (fst t)) l). unfold rest in *. cbn in L. lia.
  - intros v Iv. apply in_map_iff in Iv. destruct Iv as (u & <- & Iu). unfold rest in Iu. apply filter_In in Iu. destruct Iu as [Iu NE].
    assert (v_id (fst u) <> v_id (fst t)) as N by (intros E; rewrite E, Nat.eqb_refl in NE; discriminate). rewrite (coefficient_rest _ _ _ N). apply H. now apply in_map.
Qed.
Lemma stopped_best gap vals ls o : sol_status (stopped gap vals ls o) = Optimal ->
  feasible (of_list vals) o /\ (forall v, sol_value (stopped gap vals ls o) (v_id v) = Some (of_list vals (v_id v))) /\
  forall s', feasible s' o -> objective_value (of_list vals) o <= objective_value s' o + gap.
Proof.
  unfold stopped. cbv zeta. destruct (o_obj o) as [e|] eqn:OE; [|discriminate].
  destruct (feasibleb _ o && _ && _ && _)%bool eqn:E; [|discriminate]. intros _. apply andb_true_iff in E. destruct E as [E E4]. apply andb_true_iff in E. destruct E as [E E3]. apply andb_true_iff in E. destruct E as [E1 E2].
  apply feasibleb_iff in E1. apply Qle_bool_iff in E4. split; [exact E1|]. split; [reflexivity|]. intros s' F. eapply Qle_trans; [exact E4|].
  unfold objective_value. rewrite OE. set (r := remainder o e ls) in *.
  assert (eval s' e == eval s' r + eval s' (esum (map (fun p => multiplied (fst p) (snd p)) (combine ls (map snd (o_cons o)))))) as EQ by (unfold r, remainder; rewrite eval_esub; ring).
  destruct F as [F FO]. rewrite OE in FO.
  assert (forall p, In p (combine ls (map snd (o_cons o))) -> constr_ok s' (snd p)) as CO.
  { intros [l k] I. apply in_combine_r in I. apply in_map_iff in I. destruct I as (nc & <- & I). rewrite Forall_forall in F. now apply F. }
  assert (0 <= eval s' (esum (map (fun p => multiplied (fst p) (snd p)) (combine ls (map snd (o_cons o)))))) as POS.
  { rewrite eval_esum, map_map. apply Emit.Qsum_map_nonneg. intros [l k] I. cbn [fst snd]. unfold multiplied. rewrite eval_escale. rewrite forallb_forall in E2. specialize (E2 _ I). cbn [fst snd] in E2. destruct (CO _ I) as [S _]. cbn [snd] in S.
    unfold sign_ok in E2. destruct (c_sense k); cbn [sense_holds] in S; [|rewrite S; lra|].
    - apply Qle_bool_iff in E2. nra.
    - apply Qle_bool_iff in E2. now apply Qmult_le_0_compat. }
  assert (0 <= Qsum (map (tval s') (e_terms r))) as NN.
  { apply (nonneg_terms s' (List.length (e_terms r)) _ (le_n _)). intros v Iv. unfold nonneg_sum in E3. rewrite forallb_forall in E3. specialize (E3 v Iv). cbv zeta in E3. apply orb_true_iff in E3. destruct E3 as [E3|E3]; [left; now apply Qeq_bool_iff|right].
    apply andb_true_iff in E3. destruct E3 as [E3 E5]. apply Qle_bool_iff in E3. split; auto. destruct (v_low v) as [l|] eqn:LV; [|discriminate]. apply Qle_bool_iff in E5.
    assert (var_ok s' v) as VO; [|destruct VO as (LO & _); specialize (LO l LV); lra].
    change (In v (evars r)) in Iv. unfold r, remainder in Iv. rewrite evars_esub, in_app_iff in Iv. rewrite Forall_forall in FO. destruct Iv as [Iv|Iv]; [now apply FO|].
    rewrite evars_esum in Iv. apply in_flat_map in Iv. destruct Iv as (y & Iy & Iv). apply in_map_iff in Iy. destruct Iy as (p & <- & Ip). unfold multiplied in Iv. rewrite evars_escale in Iv. destruct (Qeq_bool _ 0); [destruct Iv|].
    destruct (CO p Ip) as [_ V]. rewrite Forall_forall in V. auto. }
  rewrite EQ. unfold eval at 1. lra.
Qed.
Lemma certified_sound vals ls : sound_solver (certified vals ls).
Proof.
  intros o ST. destruct (stopped_best 0 vals ls o ST) as (F & V & BEST). exists (of_list vals). split; [exact F|]. split; [intros v _; apply V|]. intros s' F'. specialize (BEST s' F'). lra.
Qed.
Lemma stopped_honest gap vals ls : honest_solver (stopped gap vals ls).
Proof. intros o ST. destruct (stopped_best gap vals ls o ST) as (F & V & _). exists (of_list vals). auto. Qed.
Lemma stopped_within gap vals ls o : answered_within gap (stopped gap vals ls) o.
Proof.
  intros ST s V s' F. destruct (stopped_best gap vals ls o ST) as (_ & V0 & BEST). specialize (BEST s' F). unfold objective_value in *. destruct (o_obj o) as [e|] eqn:OE; [|exact BEST].
  eapply Qle_trans; [|exact BEST]. apply Qle_lteq. right. unfold eval. apply Qplus_comp; [|reflexivity]. apply Qsum_map_ext. intros vk Ik. unfold tval.
  assert (occurs o (fst vk) = true) as O. { unfold occurs. apply existsb_exists. exists (fst vk). split; [|apply Nat.eqb_refl]. unfold all_occurrences. rewrite OE, in_app_iff. left. unfold evars. now apply in_map. }
  specialize (V _ O). rewrite V0 in V. injection V as <-. reflexivity.
Qed.
