(** * Prim: proofs about the building blocks of the optimizer (C01 - C06) *)
From Verif Require Import Base Pulp Params Optimizer Types Emit.
Open Scope Q_scope.


Lemma Qsum_map_ext_eq {A} (f g : A -> Q) l : (forall x, In x l -> f x = g x) -> Qsum (map f l) = Qsum (map g l).
Proof.
  induction l; simpl; intros H; [reflexivity|].
  rewrite (H a (or_introl eq_refl)), IHl; [reflexivity|]. intros; apply H; now right.
Qed.
Lemma eval_agree s s' e : (forall v, In v (evars e) -> s' (v_id v) = s (v_id v)) -> eval s' e = eval s e.
Proof.
  intros H. unfold eval. f_equal. apply Qsum_map_ext_eq. intros [v k] I. unfold tval; simpl.
  rewrite H; [reflexivity|]. unfold evars. change v with (fst (v, k)). now apply in_map.
Qed.
Lemma var_ok_agree s s' v : s' (v_id v) = s (v_id v) -> var_ok s v -> var_ok s' v.
Proof. intros E (A & B & C). unfold var_ok. rewrite E. auto. Qed.
Lemma vars_ok_agree s s' l : (forall v, In v l -> s' (v_id v) = s (v_id v)) -> vars_ok s l -> vars_ok s' l.
Proof.
  unfold vars_ok. rewrite !Forall_forall. intros H K v I. apply (var_ok_agree s); auto.
Qed.
Lemma constr_ok_agree s s' c : (forall v, In v (evars (c_expr c)) -> s' (v_id v) = s (v_id v)) -> constr_ok s c -> constr_ok s' c.
Proof.
  intros H [A B]. split.
  - rewrite (eval_agree s s'); auto.
  - apply (vars_ok_agree s); auto.
Qed.
Lemma all_ok_agree s s' cs : (forall v, In v (cs_vars cs) -> s' (v_id v) = s (v_id v)) -> all_ok s cs -> all_ok s' cs.
Proof.
  unfold all_ok. rewrite !Forall_forall. intros H K c I. apply (constr_ok_agree s); auto.
  intros v J. apply H. unfold cs_vars. apply in_flat_map. eauto.
Qed.
Lemma cs_vars_occ o v : In v (cs_vars (cons_of o)) -> In v (all_occurrences o).
Proof.
  intros H. unfold all_occurrences. apply in_or_app. right. unfold cs_vars, cons_of in H.
  apply in_flat_map in H. destruct H as (c & I & J). apply in_map_iff in I. destruct I as (nc & <- & I).
  apply in_flat_map. eauto.
Qed.
Lemma all_occ_iff o v : In v (all_occurrences o) <->
  (exists e, o_obj o = Some e /\ In v (evars e)) \/ In v (cs_vars (cons_of o)).
Proof.
  unfold all_occurrences. rewrite in_app_iff. split.
  - intros [H|H].
    + destruct (o_obj o); [eauto|destruct H].
    + right. apply in_flat_map in H. destruct H as (nc & I & J). unfold cs_vars, cons_of. apply in_flat_map.
      exists (snd nc). split; auto. now apply in_map.
  - intros [(e & E & I)|H].
    + left. now rewrite E.
    + right. unfold cs_vars, cons_of in H. apply in_flat_map in H. destruct H as (c & I & J).
      apply in_map_iff in I. destruct I as (nc & <- & I). apply in_flat_map. eauto.
Qed.
Lemma feasible_agree s s' o : (forall v, In v (all_occurrences o) -> s' (v_id v) = s (v_id v)) -> feasible s o -> feasible s' o.
Proof.
  rewrite !feasible_iff. intros H [A B]. split.
  - apply (all_ok_agree s); auto. intros v I. apply H. apply all_occ_iff. now right.
  - destruct (o_obj o) eqn:E; auto. apply (vars_ok_agree s); auto. intros v I. apply H. apply all_occ_iff. left. eauto.
Qed.

(** state after an allocation followed by constraints *)
Lemma cont_ok name l u o v o' : continuous name l u o = Ok (v, o') ->
  v = mkVar (o_next o) (sanitize name) false l u /\ o' = mkOpt (S (o_next o)) (o_cons o) (o_obj o).
Proof. unfold continuous. intros E; injection E as <- <-; auto. Qed.
Lemma bin_ok name o v o' : binary name o = Ok (v, o') ->
  v = mkVar (o_next o) (sanitize name) true (Some 0) (Some 1) /\ o' = mkOpt (S (o_next o)) (o_cons o) (o_obj o).
Proof. unfold binary. intros E; injection E as <- <-; auto. Qed.
Lemma constrain_ok c o u o' : constrain c o = Ok (u, o') -> o' = mkOpt (o_next o) (o_cons o ++ [(None, c)]) (o_obj o).
Proof. unfold constrain, constrain_named. intros E; injection E as _ <-; auto. Qed.

Ltac ok_simpl :=
  repeat match goal with
  | |- context [constr_ok _ (cle _ _)] => rewrite cle_ok
  | |- context [constr_ok _ (cge _ _)] => rewrite cge_ok
  | |- context [constr_ok _ (ceq _ _)] => rewrite ceq_ok
  end;
  rewrite ?evars_esub, ?evars_eadd, ?evars_escale, ?evars_esub, ?evars_eadd, ?evars_evar, ?evars_econst, ?evars_fexpr, ?evars_eneg, ?evars_fexpr, ?evars_esum;
  rewrite ?eval_esub, ?eval_eadd, ?eval_escale, ?eval_esub, ?eval_eadd, ?eval_evar, ?eval_econst, ?eval_fexpr, ?eval_eneg, ?eval_fexpr, ?eval_esum.

Ltac ev_in H := repeat first
  [rewrite eval_esub in H | rewrite eval_eadd in H | rewrite eval_escale in H | rewrite eval_evar in H
  | rewrite eval_econst in H | rewrite eval_fexpr in H | rewrite eval_eneg in H | rewrite eval_esum in H
  | rewrite evars_esub in H | rewrite evars_eadd in H | rewrite evars_escale in H | rewrite evars_evar in H
  | rewrite evars_econst in H | rewrite evars_fexpr in H | rewrite evars_eneg in H | rewrite evars_esum in H].
Ltac ev_goal := repeat first
  [rewrite eval_esub | rewrite eval_eadd | rewrite eval_escale | rewrite eval_evar
  | rewrite eval_econst | rewrite eval_fexpr | rewrite eval_eneg | rewrite eval_esum
  | rewrite evars_esub | rewrite evars_eadd | rewrite evars_escale | rewrite evars_evar
  | rewrite evars_econst | rewrite evars_fexpr | rewrite evars_eneg | rewrite evars_esum].

Ltac splits := repeat match goal with |- _ /\ _ => split end.

(** ** Two variables *)
Section Two.
  Variables (name : string) (a b : fval) (bigM : Q).
  Definition two_cs_min (cv cb : lpvar) : list constr :=
    [ cge (fexpr a) (evar cv); cge (fexpr b) (evar cv);
      cge (evar cv) (esub (fexpr a) (escale (esub (econst 1) (evar cb)) bigM));
      cge (evar cv) (esub (fexpr b) (escale (evar cb) bigM)) ].
  Definition two_cs_max (cv cb : lpvar) : list constr :=
    [ cge (evar cv) (fexpr a); cge (evar cv) (fexpr b);
      cge (eadd (fexpr a) (escale (evar cb) bigM)) (evar cv);
      cge (eadd (fexpr b) (escale (esub (econst 1) (evar cb)) bigM)) (evar cv) ].
  Definition two_vars (n : nat) : lpvar * lpvar :=
    (mkVar n (sanitize (name ++ "-continuous")) false None None,
     mkVar (S n) (sanitize (name ++ "-binary")) true (Some 0) (Some 1)).

  Lemma min_two_run o cv o' : min_two_variables name a b bigM o = Ok (cv, o') ->
    cv = fst (two_vars (o_next o)) /\ o_next o' = S (S (o_next o)) /\ o_obj o' = o_obj o /\
    cons_of o' = (cons_of o ++ two_cs_min cv (snd (two_vars (o_next o))))%list /\
    is_float a && is_float b = false /\ contains "min" name = true.
  Proof.
    unfold min_two_variables. intros H. minv H.
    repeat match goal with
    | H : continuous _ _ _ _ = Ok _ |- _ => apply cont_ok in H; destruct H as [-> ->]
    | H : binary _ _ = Ok _ |- _ => apply bin_ok in H; destruct H as [-> ->]
    | H : constrain _ _ = Ok _ |- _ => apply constrain_ok in H; subst
    end.
    cbn [o_next o_cons o_obj]. unfold cons_of; cbn [o_cons]. rewrite !map_app, <- !app_assoc.
    apply negb_true_iff in E. unfold two_vars; cbn [fst snd]. repeat split; auto.
  Qed.
  Lemma max_two_run o cv o' : max_two_variables name a b bigM o = Ok (cv, o') ->
    cv = fst (two_vars (o_next o)) /\ o_next o' = S (S (o_next o)) /\ o_obj o' = o_obj o /\
    cons_of o' = (cons_of o ++ two_cs_max cv (snd (two_vars (o_next o))))%list /\
    is_float a && is_float b = false /\ contains "max" name = true.
  Proof.
    unfold max_two_variables. intros H. minv H.
    repeat match goal with
    | H : continuous _ _ _ _ = Ok _ |- _ => apply cont_ok in H; destruct H as [-> ->]
    | H : binary _ _ = Ok _ |- _ => apply bin_ok in H; destruct H as [-> ->]
    | H : constrain _ _ = Ok _ |- _ => apply constrain_ok in H; subst
    end.
    cbn [o_next o_cons o_obj]. unfold cons_of; cbn [o_cons]. rewrite !map_app, <- !app_assoc.
    apply negb_true_iff in E. unfold two_vars; cbn [fst snd]. repeat split; auto.
  Qed.

  (** meaning of the constraints *)
  Definition two_meaning (small : bool) (s : assignment) (cv cb : lpvar) : Prop :=
    (if small then s (v_id cv) == Qmin (fv s a) (fv s b) else s (v_id cv) == Qmax (fv s a) (fv s b)).

  Lemma bin_choice s cb : v_low cb = Some 0 -> v_up cb = Some 1 -> v_int cb = true ->
    var_ok s cb -> s (v_id cb) == 0 \/ s (v_id cb) == 1.
  Proof. intros A B C. apply var_ok_bin; auto. Qed.

  Lemma two_cs_min_sound s cv cb : v_low cb = Some 0 -> v_up cb = Some 1 -> v_int cb = true ->
    all_ok s (two_cs_min cv cb) ->
    s (v_id cv) == Qmin (fv s a) (fv s b) /\ Qabs (fv s a - fv s b) <= bigM.
  Proof.
    intros L U I. unfold two_cs_min. rewrite !all_ok_cons. ok_simpl.
    intros ((H1 & _) & (H2 & _) & (H3 & V) & (H4 & _) & _).
    destruct (Qeq_bool bigM 0) eqn:E.
    - apply Qeq_bool_iff in E. rewrite E in *.
      assert (fv s a == fv s b) by lra. split.
      + destruct (Q.min_spec (fv s a) (fv s b)) as [[? ->]|[? ->]]; lra.
      + setoid_replace (fv s a - fv s b) with 0 by lra. simpl. lra.
    - rewrite !vars_ok_app in V. destruct V as (_ & _ & _ & Vb). rewrite vars_ok_cons in Vb. destruct Vb as [Vb _].
      destruct (bin_choice s cb L U I Vb) as [Z|Z]; rewrite Z in *.
      + assert (s (v_id cv) == fv s b) by lra. split.
        * destruct (Q.min_spec (fv s a) (fv s b)) as [[? ->]|[? ->]]; lra.
        * apply Qabs_Qle_condition. lra.
      + assert (s (v_id cv) == fv s a) by lra. split.
        * destruct (Q.min_spec (fv s a) (fv s b)) as [[? ->]|[? ->]]; lra.
        * apply Qabs_Qle_condition. lra.
  Qed.
  Lemma two_cs_max_sound s cv cb : v_low cb = Some 0 -> v_up cb = Some 1 -> v_int cb = true ->
    all_ok s (two_cs_max cv cb) ->
    s (v_id cv) == Qmax (fv s a) (fv s b) /\ Qabs (fv s a - fv s b) <= bigM.
  Proof.
    intros L U I. unfold two_cs_max. rewrite !all_ok_cons. ok_simpl.
    intros ((H1 & _) & (H2 & _) & (H3 & V) & (H4 & _) & _).
    destruct (Qeq_bool bigM 0) eqn:E.
    - apply Qeq_bool_iff in E. rewrite E in *.
      assert (fv s a == fv s b) by lra. split.
      + destruct (Q.max_spec (fv s a) (fv s b)) as [[? ->]|[? ->]]; lra.
      + setoid_replace (fv s a - fv s b) with 0 by lra. simpl. lra.
    - rewrite !vars_ok_app in V. destruct V as ((_ & Vb) & _). rewrite vars_ok_cons in Vb. destruct Vb as [Vb _].
      destruct (bin_choice s cb L U I Vb) as [Z|Z]; rewrite Z in *.
      + assert (s (v_id cv) == fv s a) by lra. split.
        * destruct (Q.max_spec (fv s a) (fv s b)) as [[? ->]|[? ->]]; lra.
        * apply Qabs_Qle_condition. lra.
      + assert (s (v_id cv) == fv s b) by lra. split.
        * destruct (Q.max_spec (fv s a) (fv s b)) as [[? ->]|[? ->]]; lra.
        * apply Qabs_Qle_condition. lra.
  Qed.

  Lemma vars_ok_if s c l : vars_ok s l -> vars_ok s (if c : bool then [] else l).
  Proof. destruct c; auto. intros _; constructor. Qed.

  Lemma two_cs_min_complete s cv cb :
    v_low cv = None -> v_up cv = None -> v_int cv = false ->
    v_low cb = Some 0 -> v_up cb = Some 1 -> v_int cb = true ->
    vars_ok s (fvars a) -> vars_ok s (fvars b) ->
    s (v_id cv) = Qmin (fv s a) (fv s b) -> s (v_id cb) = (if Qle_bool (fv s a) (fv s b) then 1 else 0) ->
    Qabs (fv s a - fv s b) <= bigM -> all_ok s (two_cs_min cv cb).
  Proof.
    intros Lc Uc Ic L U I Va Vb Ec Eb Hab.
    assert (vars_ok s [cv]) as Vc.
    { rewrite vars_ok_cons, vars_ok_nil, (var_ok_cont s cv None None); auto. }
    assert (vars_ok s [cb]) as Vcb.
    { rewrite vars_ok_cons, vars_ok_nil, var_ok_bin by auto. rewrite Eb. destruct (Qle_bool _ _); split; auto; [right|left]; reflexivity. }
    apply Qabs_Qle_condition in Hab. destruct Hab as [Hab Hba].
    pose proof (Q.min_spec (fv s a) (fv s b)) as Hm. rewrite <- Ec in Hm.
    assert ((s (v_id cb) == 1 /\ fv s a <= fv s b) \/ (s (v_id cb) == 0 /\ fv s b <= fv s a)) as Hc.
    { rewrite Eb. destruct (Qle_bool _ _) eqn:E; [left|right].
      - apply Qle_bool_iff in E. split; [reflexivity|auto].
      - split; [reflexivity|]. apply Qlt_le_weak. apply Qnot_le_lt. intros F. apply Qle_bool_iff in F. congruence. }
    unfold two_cs_min. rewrite !all_ok_cons, all_ok_nil. ok_simpl. rewrite !vars_ok_app.
    pose proof (vars_ok_if s (Qeq_bool bigM 0) [cb] Vcb) as Vcb'.
    pose proof (vars_ok_if s (Qeq_bool bigM 0) ([] ++ [cb]) Vcb) as Vcb2.
    destruct Hc as [[E1 E2]|[E1 E2]]; repeat split; auto; try (rewrite E1); destruct Hm as [[Hm1 Hm2]|[Hm1 Hm2]]; rewrite ?Hm2; try lra.
  Qed.
  Lemma two_cs_max_complete s cv cb :
    v_low cv = None -> v_up cv = None -> v_int cv = false ->
    v_low cb = Some 0 -> v_up cb = Some 1 -> v_int cb = true ->
    vars_ok s (fvars a) -> vars_ok s (fvars b) ->
    s (v_id cv) = Qmax (fv s a) (fv s b) -> s (v_id cb) = (if Qle_bool (fv s a) (fv s b) then 1 else 0) ->
    Qabs (fv s a - fv s b) <= bigM -> all_ok s (two_cs_max cv cb).
  Proof.
    intros Lc Uc Ic L U I Va Vb Ec Eb Hab.
    assert (vars_ok s [cv]) as Vc.
    { rewrite vars_ok_cons, vars_ok_nil, (var_ok_cont s cv None None); auto. }
    assert (vars_ok s [cb]) as Vcb.
    { rewrite vars_ok_cons, vars_ok_nil, var_ok_bin by auto. rewrite Eb. destruct (Qle_bool _ _); split; auto; [right|left]; reflexivity. }
    apply Qabs_Qle_condition in Hab. destruct Hab as [Hab Hba].
    pose proof (Q.max_spec (fv s a) (fv s b)) as Hm. rewrite <- Ec in Hm.
    assert ((s (v_id cb) == 1 /\ fv s a <= fv s b) \/ (s (v_id cb) == 0 /\ fv s b <= fv s a)) as Hc.
    { rewrite Eb. destruct (Qle_bool _ _) eqn:E; [left|right].
      - apply Qle_bool_iff in E. split; [reflexivity|auto].
      - split; [reflexivity|]. apply Qlt_le_weak. apply Qnot_le_lt. intros F. apply Qle_bool_iff in F. congruence. }
    unfold two_cs_max. rewrite !all_ok_cons, all_ok_nil. ok_simpl. rewrite !vars_ok_app.
    pose proof (vars_ok_if s (Qeq_bool bigM 0) [cb] Vcb) as Vcb'.
    pose proof (vars_ok_if s (Qeq_bool bigM 0) ([] ++ [cb]) Vcb) as Vcb2.
    destruct Hc as [[E1 E2]|[E1 E2]]; repeat split; auto; try (rewrite E1); destruct Hm as [[Hm1 Hm2]|[Hm1 Hm2]]; rewrite ?Hm2; try lra.
  Qed.
End Two.

Definition upd (s : assignment) (i : nat) (q : Q) : assignment := fun j => if Nat.eqb j i then q else s j.
Lemma upd_same s i q : upd s i q i = q.
Proof. unfold upd. now rewrite Nat.eqb_refl. Qed.
Lemma upd_other s i q j : j <> i -> upd s i q j = s j.
Proof. unfold upd. intros H. destruct (Nat.eqb_spec j i); [contradiction|reflexivity]. Qed.

Lemma fv_agree s s' f : (forall v, In v (fvars f) -> s' (v_id v) = s (v_id v)) -> fv s' f = fv s f.
Proof. destruct f; simpl; auto. Qed.

(** operand created before *)

Lemma feasible_extend o o' cs : o_obj o' = o_obj o -> cons_of o' = (cons_of o ++ cs)%list ->
  forall s, feasible s o' <-> feasible s o /\ all_ok s cs.
Proof. intros E C s. rewrite !feasible_iff, E, C, all_ok_app. tauto. Qed.

Lemma operand_agree s s' o f : agree_below (o_next o) s s' -> operand_ok s o f -> fv s' f = fv s f /\ vars_ok s' (fvars f).
Proof.
  intros A H. split.
  - apply fv_agree. intros v I. apply A. now apply H.
  - unfold vars_ok. apply Forall_forall. intros v I. destruct (H v I). apply (var_ok_agree s); auto.
Qed.

Lemma min_two_sound name a b bigM o cv o' : min_two_variables name a b bigM o = Ok (cv, o') ->
  forall s, feasible s o' -> s (v_id cv) == Qmin (fv s a) (fv s b) /\ Qabs (fv s a - fv s b) <= bigM.
Proof.
  intros H s F. apply min_two_run in H. destruct H as (-> & _ & E & C & _).
  rewrite (feasible_extend _ _ _ E C) in F. destruct F as [_ F].
  eapply two_cs_min_sound in F; [exact F|reflexivity..].
Qed.
Lemma max_two_sound name a b bigM o cv o' : max_two_variables name a b bigM o = Ok (cv, o') ->
  forall s, feasible s o' -> s (v_id cv) == Qmax (fv s a) (fv s b) /\ Qabs (fv s a - fv s b) <= bigM.
Proof.
  intros H s F. apply max_two_run in H. destruct H as (-> & _ & E & C & _).
  rewrite (feasible_extend _ _ _ E C) in F. destruct F as [_ F].
  eapply two_cs_max_sound in F; [exact F|reflexivity..].
Qed.
Lemma min_two_complete name a b bigM o cv o' : min_two_variables name a b bigM o = Ok (cv, o') ->
  wf_opt o -> forall s, feasible s o -> operand_ok s o a -> operand_ok s o b ->
  Qabs (fv s a - fv s b) <= bigM -> exists s', agree_below (o_next o) s s' /\ feasible s' o'.
Proof.
  intros H W s F Oa Ob Hab. apply min_two_run in H. destruct H as (Hcv & Nx & E & C & _).
  set (cb := snd (two_vars name (o_next o))) in *.
  set (s' := upd (upd s (v_id cv) (Qmin (fv s a) (fv s b))) (v_id cb) (if Qle_bool (fv s a) (fv s b) then 1 else 0)).
  assert (v_id cv = o_next o) as I1 by now rewrite Hcv.
  assert (v_id cb = S (o_next o)) as I2 by reflexivity.
  assert (agree_below (o_next o) s s') as A.
  { intros id L. unfold s'. rewrite !upd_other; auto; lia. }
  exists s'. split; auto. rewrite (feasible_extend _ _ _ E C). split.
  - apply (feasible_agree s); [intros v I; apply A; now apply W|exact F].
  - destruct (operand_agree _ _ _ _ A Oa) as [Ea Va]. destruct (operand_agree _ _ _ _ A Ob) as [Eb Vb].
    apply two_cs_min_complete; auto; try (rewrite Hcv; reflexivity).
    + unfold s'. rewrite upd_other by lia. rewrite upd_same. fold s'. now rewrite Ea, Eb.
    + rewrite Ea, Eb. unfold s'. now rewrite upd_same.
    + now rewrite Ea, Eb.
Qed.
Lemma max_two_complete name a b bigM o cv o' : max_two_variables name a b bigM o = Ok (cv, o') ->
  wf_opt o -> forall s, feasible s o -> operand_ok s o a -> operand_ok s o b ->
  Qabs (fv s a - fv s b) <= bigM -> exists s', agree_below (o_next o) s s' /\ feasible s' o'.
Proof.
  intros H W s F Oa Ob Hab. apply max_two_run in H. destruct H as (Hcv & Nx & E & C & _).
  set (cb := snd (two_vars name (o_next o))) in *.
  set (s' := upd (upd s (v_id cv) (Qmax (fv s a) (fv s b))) (v_id cb) (if Qle_bool (fv s a) (fv s b) then 1 else 0)).
  assert (v_id cv = o_next o) as I1 by now rewrite Hcv.
  assert (v_id cb = S (o_next o)) as I2 by reflexivity.
  assert (agree_below (o_next o) s s') as A.
  { intros id L. unfold s'. rewrite !upd_other; auto; lia. }
  exists s'. split; auto. rewrite (feasible_extend _ _ _ E C). split.
  - apply (feasible_agree s); [intros v I; apply A; now apply W|exact F].
  - destruct (operand_agree _ _ _ _ A Oa) as [Ea Va]. destruct (operand_agree _ _ _ _ A Ob) as [Eb Vb].
    apply two_cs_max_complete; auto; try (rewrite Hcv; reflexivity).
    + unfold s'. rewrite upd_other by lia. rewrite upd_same. fold s'. now rewrite Ea, Eb.
    + rewrite Ea, Eb. unfold s'. now rewrite upd_same.
    + now rewrite Ea, Eb.
Qed.

(** ** Many variables *)

Lemma many_binaries_run {A} name (l : list A) : forall i o bs o', many_binaries name i l o = Ok (bs, o') ->
  o' = mkOpt (o_next o + List.length l) (o_cons o) (o_obj o) /\
  map v_id bs = seq (o_next o) (List.length l) /\ Forall is_binary_var bs.
Proof.
  induction l; simpl; intros i o bs o' H.
  - minv H. rewrite Nat.add_0_r. destruct o'; simpl. repeat split; constructor.
  - minv H. apply bin_ok in H0. destruct H0 as [-> ->].
    apply IHl in H1. cbn [o_next o_cons o_obj] in H1. destruct H1 as (-> & E & F).
    repeat split.
    + f_equal. lia.
    + simpl. now rewrite E.
    + constructor; auto. repeat split.
Qed.

Lemma emits_nonneg v : emits (nonneg_check v) [].
Proof.
  destruct v; simpl; try apply emits_massert; try apply emits_raise.
  destruct (v_low v); [apply emits_massert|apply emits_raise].
Qed.
Lemma flat_map_nil {A B} (f : A -> list B) l : (forall x, f x = []) -> flat_map f l = [].
Proof. intros H. induction l; simpl; auto. now rewrite H, IHl. Qed.

Definition min_many_cs (mv : lpvar) (vs : list fval) (bs : list lpvar) (bigM : Q) : list constr :=
  (flat_map (fun vb => [cle (evar mv) (fexpr (fst vb));
                        cle (esub (fexpr (fst vb)) (escale (evar (snd vb)) bigM)) (evar mv)]) (combine vs bs)
   ++ [cle (esum (map evar bs)) (econst (inject_Z (Z.of_nat (List.length vs) - 1)))])%list.
Definition max_many_cs (mv : lpvar) (vs : list fval) (bs : list lpvar) (bigM : Q) : list constr :=
  flat_map (fun vb => cge (evar mv) (fexpr (fst vb)) ::
      match fst vb with
      | FVar v => [cge (eadd (evar v) (escale (esub (econst 1) (evar (snd vb))) bigM)) (evar mv)]
      | _ => [] end) (combine vs bs).

Lemma min_many_run name vs bigM o mv o' : min_many_variables name vs bigM o = Ok (mv, o') ->
  exists bs,
    mv = mkVar (o_next o) (sanitize (name ++ "-continuous")) false None None /\
    map v_id bs = seq (S (o_next o)) (List.length vs) /\ Forall is_binary_var bs /\
    o_next o' = (S (o_next o) + List.length vs)%nat /\ o_obj o' = o_obj o /\
    cons_of o' = (cons_of o ++ min_many_cs mv vs bs bigM)%list.
Proof.
  unfold min_many_variables. intros H. minv H.
  match goal with H : continuous _ _ _ _ = Ok _ |- _ => apply cont_ok in H; destruct H as [-> ->] end.
  match goal with H : many_binaries _ _ _ _ = Ok (?b, _) |- _ => exists b; apply many_binaries_run in H; cbn [o_next o_cons o_obj] in H; destruct H as (-> & Eb & Fb) end.
  match goal with H : forM_ vs nonneg_check _ = Ok _ |- _ =>
    pose proof (emits_forM_ vs nonneg_check (fun _ => []) (fun x _ => emits_nonneg x) _ _ _ H) as (N1 & O1 & C1) end.
  rewrite flat_map_nil in C1 by auto. rewrite app_nil_r in C1. cbn [o_next o_cons o_obj] in *.
  match goal with H : constrain _ _ = Ok _ |- _ => pose proof (emits_constrain _ _ _ _ H) as (N3 & O3 & C3) end.
  match goal with H : forM_ (combine _ _) _ _ = Ok _ |- _ =>
    eapply emits_forM_ with (g := fun vb => [cle (evar _) (fexpr (fst vb));
                        cle (esub (fexpr (fst vb)) (escale (evar (snd vb)) bigM)) (evar _)]) in H;
    [destruct H as (N2 & O2 & C2)|] end.
  2:{ intros x _. eapply emits_eq; [apply emits_bind; [apply emits_constrain|intros; apply emits_constrain]|reflexivity]. }
  repeat split; auto.
  - rewrite N3, N2, N1. reflexivity.
  - rewrite O3, O2, O1. reflexivity.
  - rewrite C3, C2, C1. unfold min_many_cs. rewrite <- app_assoc. reflexivity.
Qed.
Lemma max_many_run name vs bigM o mv o' : max_many_variables name vs bigM o = Ok (mv, o') ->
  exists bs,
    mv = mkVar (o_next o) (sanitize (name ++ "-continuous")) false None None /\
    map v_id bs = seq (S (o_next o)) (List.length vs) /\ Forall is_binary_var bs /\
    o_next o' = (S (o_next o) + List.length vs)%nat /\ o_obj o' = o_obj o /\
    cons_of o' = (cons_of o ++ max_many_cs mv vs bs bigM)%list.
Proof.
  unfold max_many_variables. intros H. minv H.
  match goal with H : continuous _ _ _ _ = Ok _ |- _ => apply cont_ok in H; destruct H as [-> ->] end.
  match goal with H : many_binaries _ _ _ _ = Ok (?b, _) |- _ => exists b; apply many_binaries_run in H; cbn [o_next o_cons o_obj] in H; destruct H as (-> & Eb & Fb) end.
  match goal with H : forM_ vs nonneg_check _ = Ok _ |- _ =>
    pose proof (emits_forM_ vs nonneg_check (fun _ => []) (fun x _ => emits_nonneg x) _ _ _ H) as (N1 & O1 & C1) end.
  rewrite flat_map_nil in C1 by auto. rewrite app_nil_r in C1. cbn [o_next o_cons o_obj] in *.
  match goal with H : forM_ (combine _ _) _ _ = Ok _ |- _ =>
    eapply emits_forM_ with (g := fun vb => cge (evar _) (fexpr (fst vb)) ::
      match fst vb with
      | FVar v => [cge (eadd (evar v) (escale (esub (econst 1) (evar (snd vb))) bigM)) (evar _)]
      | _ => [] end) in H;
    [destruct H as (N2 & O2 & C2)|] end.
  2:{ intros [x y] _. cbn [fst snd]. eapply emits_eq; [apply emits_bind; [apply emits_constrain|]|reflexivity].
      intros _. destruct x; [apply emits_constrain|apply emits_ret..]. }
  repeat split; auto.
  - rewrite N2, N1. reflexivity.
  - rewrite O2, O1. reflexivity.
  - rewrite C2, C1. reflexivity.
Qed.

(** minimum / maximum of a list of numbers *)

Lemma exists_zero (l : list Q) : Forall (fun x => x == 0 \/ x == 1) l -> Qsum l <= inject_Z (Z.of_nat (List.length l) - 1) ->
  exists i x, nth_error l i = Some x /\ x == 0.
Proof.
  induction l as [|x l]; intros F H.
  - exfalso. cbn in H. change (inject_Z (-1)) with (-1) in H. lra.
  - inversion F as [|? ? Hx Hl]; subst. destruct Hx as [Z|O].
    + exists 0%nat, x. split; auto.
    + destruct IHl as (i & y & E & Y); auto.
      * cbn [Qsum fold_right List.length] in H. fold (Qsum l) in H. rewrite O in H.
        rewrite Nat2Z.inj_succ in H. replace (Z.succ (Z.of_nat (List.length l)) - 1)%Z with (Z.of_nat (List.length l) - 1 + 1)%Z in H by lia.
        rewrite inject_Z_plus in H. change (inject_Z 1) with 1 in H. lra.
      * exists (S i), y. auto.
Qed.
Lemma combine_nth_error {A B} (l : list A) (l' : list B) i : forall a b, nth_error l i = Some a -> nth_error l' i = Some b ->
  In (a, b) (combine l l').
Proof.
  revert l l'. induction i; intros l l' a b; destruct l, l'; simpl; try discriminate.
  - intros E F. injection E as ->. injection F as ->. now left.
  - intros E F. right. eapply IHi; eauto.
Qed.
Lemma in_combine_left {A B} (l : list A) (l' : list B) x : List.length l = List.length l' -> In x l -> exists y, In (x, y) (combine l l').
Proof.
  revert l'. induction l; simpl; intros [|b l'] L; try discriminate; [intros []|].
  intros [->|I]; [exists b; now left|]. injection L as L. destruct (IHl l' L I) as [y J]. exists y. now right.
Qed.

Lemma vars_ok_in s l v : vars_ok s l -> In v l -> var_ok s v.
Proof. unfold vars_ok. rewrite Forall_forall. auto. Qed.

Lemma min_many_sound name vs bigM o mv o' : min_many_variables name vs bigM o = Ok (mv, o') ->
  forall s, feasible s o' ->
    is_min (s (v_id mv)) (map (fv s) vs) /\
    (forall v, In v vs -> fv s v == s (v_id mv) \/ fv s v - s (v_id mv) <= bigM).
Proof.
  intros H s F. apply min_many_run in H. destruct H as (bs & -> & Ib & Fb & _ & Eo & Ec).
  set (mv := mkVar _ _ _ _ _) in *.
  rewrite (feasible_extend _ _ _ Eo Ec) in F. destruct F as [_ F].
  assert (List.length bs = List.length vs) as L.
  { rewrite <- (map_length v_id bs), Ib. apply seq_length. }
  unfold min_many_cs in F. rewrite all_ok_app, all_ok_cons, all_ok_flat_map in F. destruct F as (F1 & F2 & _).
  rewrite cle_ok, evars_esum, eval_esum, eval_econst, vars_ok_app in F2. destruct F2 as (F2 & V & _).
  rewrite map_map in F2.
  assert (Forall (fun x => x == 0 \/ x == 1) (map (fun b => s (v_id b)) bs)) as B01.
  { apply Forall_forall. intros x I. apply in_map_iff in I. destruct I as (b & <- & I).
    rewrite Forall_forall in Fb. destruct (Fb b I) as (A1 & A2 & A3). apply var_ok_bin; auto.
    apply (vars_ok_in _ _ _ V). apply in_flat_map. exists (evar b). split; [now apply in_map|now left]. }
  assert (exists i x, nth_error (map (fun b => s (v_id b)) bs) i = Some x /\ x == 0) as (i & x & Ex & Zx).
  { apply exists_zero; auto. rewrite map_length, L. eapply Qle_trans; [|exact F2].
    apply Qle_lteq. right. apply Qsum_map_ext. intros b _. now rewrite eval_evar. }
  rewrite nth_error_map in Ex. destruct (nth_error bs i) as [b|] eqn:Eb; [|discriminate]. injection Ex as <-.
  destruct (nth_error vs i) as [v|] eqn:Ev.
  2:{ apply nth_error_None in Ev. assert (i < List.length bs)%nat by (apply nth_error_Some; congruence). lia. }
  assert (forall v b, In (v, b) (combine vs bs) -> s (v_id mv) <= fv s v /\ fv s v - s (v_id b) * bigM <= s (v_id mv)) as K.
  { intros v' b' I. specialize (F1 _ I). cbn [fst snd] in F1. rewrite !all_ok_cons in F1. destruct F1 as (G1 & G2 & _).
    rewrite cle_ok in G1, G2. ev_in G1; ev_in G2. split; [apply G1|apply G2]. }
  assert (forall v, In v vs -> s (v_id mv) <= fv s v) as K1.
  { intros v' I. destruct (in_combine_left vs bs v' (eq_sym L) I) as (b' & J). now apply K in J. }
  split; [split|].
  - exists (fv s v). split; [apply in_map; eapply nth_error_In; eauto|].
    pose proof (K v b (combine_nth_error _ _ _ _ _ Ev Eb)) as [K2 K3]. rewrite Zx in K3.
    apply Qle_antisym; [|exact K2]. lra.
  - intros y I. apply in_map_iff in I. destruct I as (v' & <- & I). auto.
  - intros v' I. destruct (in_combine_left vs bs v' (eq_sym L) I) as (b' & J).
    assert (s (v_id b') == 0 \/ s (v_id b') == 1) as D.
    { rewrite Forall_forall in B01. apply B01. apply in_combine_r in J. now apply (in_map (fun b => s (v_id b))). }
    apply K in J. destruct J as [J1 J2]. destruct D as [D|D]; rewrite D in J2.
    + left. lra.
    + right. lra.
Qed.

(** extension of an assignment on fresh consecutive identities *)
Definition upd_list (s : assignment) (start : nat) (l : list Q) : assignment :=
  fun j => if (start <=? j)%nat then nth (j - start) l (s j) else s j.
Lemma upd_list_below s st l j : (j < st)%nat -> upd_list s st l j = s j.
Proof. intros H. unfold upd_list. destruct (Nat.leb_spec st j); [lia|reflexivity]. Qed.
Lemma upd_list_nth s st l i x : nth_error l i = Some x -> upd_list s st l (st + i)%nat = x.
Proof.
  intros H. unfold upd_list. destruct (Nat.leb_spec st (st + i)); [|lia].
  replace (st + i - st)%nat with i by lia. now apply nth_error_nth.
Qed.

Lemma Qlist_min (l : list Q) : l <> [] -> exists i x, nth_error l i = Some x /\ forall y, In y l -> x <= y.
Proof.
  induction l as [|a l]; [congruence|]. intros _. destruct l as [|b l].
  - exists 0%nat, a. split; auto. intros y [->|[]]. lra.
  - destruct IHl as (i & x & E & H); [congruence|]. destruct (Qlt_le_dec a x).
    + exists 0%nat, a. split; auto. intros y [->|I]; [lra|]. specialize (H y I). lra.
    + exists (S i), x. split; auto. intros y [->|I]; auto.
Qed.
Lemma Qlist_max (l : list Q) : l <> [] -> exists i x, nth_error l i = Some x /\ forall y, In y l -> y <= x.
Proof.
  induction l as [|a l]; [congruence|]. intros _. destruct l as [|b l].
  - exists 0%nat, a. split; auto. intros y [->|[]]. lra.
  - destruct IHl as (i & x & E & H); [congruence|]. destruct (Qlt_le_dec x a).
    + exists 0%nat, a. split; auto. intros y [->|I]; [lra|]. specialize (H y I). lra.
    + exists (S i), x. split; auto. intros y [->|I]; auto.
Qed.

Lemma sum_one_zero {A} (f : A -> Q) l w : (forall x, In x l -> f x <= 1) -> In w l -> f w == 0 ->
  Qsum (map f l) <= inject_Z (Z.of_nat (List.length l) - 1).
Proof.
  assert (forall l, (forall x, In x l -> f x <= 1) -> Qsum (map f l) <= inject_Z (Z.of_nat (List.length l))) as B.
  { clear. induction l; intros H; [apply Qle_refl|].
    cbn [map Qsum fold_right List.length]. rewrite Nat2Z.inj_succ. unfold Z.succ. rewrite inject_Z_plus.
    change (inject_Z 1) with 1. fold (Qsum (map f l)).
    pose proof (H a (or_introl eq_refl)). pose proof (IHl (fun x I => H x (or_intror I))). lra. }
  induction l; intros H I Z; [destruct I|].
  cbn [map Qsum fold_right List.length]. rewrite Nat2Z.inj_succ. replace (Z.succ (Z.of_nat (List.length l)) - 1)%Z with (Z.of_nat (List.length l)) by lia.
  fold (Qsum (map f l)). destruct I as [->|I].
  - pose proof (B l (fun x I => H x (or_intror I))). lra.
  - pose proof (H a (or_introl eq_refl)). specialize (IHl (fun x I => H x (or_intror I)) I Z).
    assert (inject_Z (Z.of_nat (List.length l)) == inject_Z (Z.of_nat (List.length l) - 1) + 1).
    { change 1 with (inject_Z 1). rewrite <- inject_Z_plus. apply inject_Z_injective. lia. }
    lra.
Qed.

Lemma min_many_complete name vs bigM o mv o' : min_many_variables name vs bigM o = Ok (mv, o') ->
  wf_opt o -> forall s, feasible s o -> Forall (operand_ok s o) vs -> forall w, In w vs ->
  (forall v, In v vs -> fv s w <= fv s v) ->
  (forall v, In v vs -> fv s v == fv s w \/ fv s v - fv s w <= bigM) ->
  exists s', agree_below (o_next o) s s' /\ feasible s' o'.
Proof.
  intros H W s F Ov w Iw Hm Hgap. apply min_many_run in H. destruct H as (bs & Hmv & Ib & Fb & Nx & Eo & Ec).
  set (n := o_next o) in *. set (m := fv s w) in *.
  set (bv := fun v => if Qeq_bool (fv s v) m then 0 else 1).
  set (s' := upd_list s n (m :: map bv vs)).
  assert (s' (v_id mv) = m) as Sm.
  { rewrite Hmv. cbn [v_id]. unfold s'. replace n with (n + 0)%nat at 2 by lia. now apply upd_list_nth. }
  assert (List.length bs = List.length vs) as L. { rewrite <- (map_length v_id bs), Ib. apply seq_length. }
  assert (forall i b v, nth_error bs i = Some b -> nth_error vs i = Some v -> s' (v_id b) = bv v) as Sb.
  { intros i b v E E2. assert (nth_error (map v_id bs) i = Some (v_id b)) as E' by now rewrite nth_error_map, E.
    rewrite Ib in E'. assert (i < List.length vs)%nat as Li. { apply nth_error_Some. congruence. }
    rewrite (nth_error_nth' _ 0%nat) in E' by now rewrite seq_length. rewrite seq_nth in E' by auto. injection E' as E'.
    unfold s'. replace (v_id b) with (n + S i)%nat by lia.
    apply upd_list_nth. simpl. now rewrite nth_error_map, E2. }
  assert (map (fun b => s' (v_id b)) bs = map bv vs) as Smap.
  { clearbody s'. clear - Sb L. revert vs L Sb. induction bs as [|b bs]; intros [|v vs] L Sb; simpl in *; try discriminate; auto.
    f_equal; [apply (Sb 0%nat); reflexivity|]. apply IHbs; [lia|]. intros i. apply (Sb (S i)). }
  assert (agree_below n s s') as A. { intros id Li. apply upd_list_below. exact Li. }
  assert (forall v, In v vs -> fv s' v = fv s v /\ vars_ok s' (fvars v)) as Ops.
  { intros v I. rewrite Forall_forall in Ov. apply (operand_agree s s' o); auto. }
  assert (forall b, In b bs -> var_ok s' b) as Vb.
  { intros b I. rewrite Forall_forall in Fb. destruct (Fb b I) as (A1 & A2 & A3). apply var_ok_bin; auto.
    assert (In (s' (v_id b)) (map bv vs)) as J. { rewrite <- Smap. apply in_map_iff. eauto. }
    apply in_map_iff in J. destruct J as (v & E & _). rewrite <- E. unfold bv. destruct (Qeq_bool (fv s v) m); [left|right]; reflexivity. }
  assert (var_ok s' mv) as Vm. { rewrite (var_ok_cont s' mv None None); auto; rewrite Hmv; reflexivity. }
  exists s'. split; auto. rewrite (feasible_extend _ _ _ Eo Ec). split.
  - apply (feasible_agree s); [intros v I; apply A; now apply W|exact F].
  - unfold min_many_cs. rewrite all_ok_app, all_ok_cons, all_ok_nil, all_ok_flat_map. splits; [| |exact I].
    + intros [v b] I. cbn [fst snd].
      pose proof (in_combine_l _ _ _ _ I) as Iv. pose proof (in_combine_r _ _ _ _ I) as Ibb.
      destruct (Ops v Iv) as [Ev Vv].
      pose proof (Hm v Iv) as Hmin. pose proof (Hgap v Iv) as G.
      rewrite !all_ok_cons, all_ok_nil, !cle_ok. ev_goal. rewrite Sm, Ev, !vars_ok_app, vars_ok_cons, vars_ok_nil.
      assert (vars_ok s' [b]) as Vb1 by (constructor; [auto|constructor]).
      splits; auto.
      * apply In_nth_error in I. destruct I as [i E].
        assert (nth_error vs i = Some v /\ nth_error bs i = Some b) as [E1 E2].
        { clear - E. revert i E. generalize bs; induction vs; intros l [|i] E; destruct l; simpl in *; try discriminate.
          - injection E as -> ->. auto.
          - eauto. }
        rewrite (Sb i b v E2 E1). unfold bv. destruct (Qeq_bool (fv s v) m) eqn:Q0.
        -- apply Qeq_bool_iff in Q0. rewrite Q0. lra.
        -- destruct G as [G|G]; [apply Qeq_bool_iff in G; congruence|]. lra.
      * now apply vars_ok_if.
    + rewrite cle_ok, eval_esum, eval_econst, evars_esum. split.
      * rewrite map_map. rewrite (Qsum_map_ext _ (fun b => s' (v_id b))) by (intros b _; apply eval_evar).
        rewrite Smap. apply (sum_one_zero bv vs w); auto.
        -- intros x _. unfold bv. destruct (Qeq_bool (fv s x) m); lra.
        -- unfold bv. assert (Qeq_bool (fv s w) m = true) as -> by (apply Qeq_bool_iff; reflexivity). reflexivity.
      * rewrite evars_econst, app_nil_r. unfold vars_ok. apply Forall_forall. intros v I. apply in_flat_map in I.
        destruct I as (e & I & J). apply in_map_iff in I. destruct I as (b & <- & I). rewrite evars_evar in J. destruct J as [<-|[]]. auto.
Qed.

(** max: the returned variable is an upper bound ... *)
Lemma max_many_meaning name vs bigM o mv o' : max_many_variables name vs bigM o = Ok (mv, o') ->
  forall s, feasible s o' -> forall v, In v vs -> fv s v <= s (v_id mv).
Proof.
  intros H s F. apply max_many_run in H. destruct H as (bs & -> & Ib & Fb & _ & Eo & Ec).
  set (mv := mkVar _ _ _ _ _) in *.
  rewrite (feasible_extend _ _ _ Eo Ec) in F. destruct F as [_ F].
  assert (List.length bs = List.length vs) as L. { rewrite <- (map_length v_id bs), Ib. apply seq_length. }
  intros v I. destruct (in_combine_left vs bs v (eq_sym L) I) as (b & J).
  unfold max_many_cs in F. rewrite all_ok_flat_map in F. specialize (F _ J). cbn [fst snd] in F. rewrite all_ok_cons in F.
  destruct F as [F _]. rewrite cge_ok, eval_evar, eval_fexpr in F. apply F.
Qed.

(** ... and lowering it to any other upper bound keeps the program feasible *)
Lemma max_many_lower name vs bigM o mv o' s q : max_many_variables name vs bigM o = Ok (mv, o') ->
  wf_opt o -> (forall v w, In v vs -> In w (fvars v) -> (v_id w < o_next o)%nat) ->
  feasible s o' -> (forall v, In v vs -> fv s v <= q) -> q <= s (v_id mv) ->
  feasible (upd s (v_id mv) q) o'.
Proof.
  intros H W Wv F Hq Hle. apply max_many_run in H. destruct H as (bs & Hmv & Ib & Fb & _ & Eo & Ec).
  rewrite (feasible_extend _ _ _ Eo Ec) in F |- *. destruct F as [F1 F2].
  assert (v_id mv = o_next o) as Im by now rewrite Hmv.
  set (s' := upd s (v_id mv) q).
  assert (forall id, id <> o_next o -> s' id = s id) as Ag. { intros id N. unfold s'. apply upd_other. congruence. }
  split.
  - apply (feasible_agree s); auto. intros v I. apply Ag. specialize (W v I). lia.
  - unfold max_many_cs in *. rewrite all_ok_flat_map in *. intros [v b] I. specialize (F2 _ I). cbn [fst snd] in *.
    pose proof (in_combine_l _ _ _ _ I) as Iv. pose proof (in_combine_r _ _ _ _ I) as Ibb.
    assert (s' (v_id b) = s (v_id b)) as Eb.
    { apply Ag. apply (in_map v_id) in Ibb. rewrite Ib in Ibb. apply in_seq in Ibb. lia. }
    assert (fv s' v = fv s v) as Ev. { apply fv_agree. intros w Iw. apply Ag. specialize (Wv v w Iv Iw). lia. }
    assert (s' (v_id mv) = q) as Eq by apply upd_same.
    assert (var_ok s' mv) as Vm. { rewrite (var_ok_cont s' mv None None); auto; rewrite Hmv; reflexivity. }
    rewrite all_ok_cons in *. destruct F2 as [G1 G2]. split.
    + rewrite cge_ok in *. rewrite eval_evar, eval_fexpr, Eq, Ev, evars_evar, evars_fexpr. split; [auto|].
      destruct G1 as [_ G1]. rewrite vars_ok_app in *. split; [constructor; [auto|constructor]|].
      apply (vars_ok_agree s); [|rewrite <- evars_fexpr; apply G1]. intros w Iw. apply Ag. specialize (Wv v w Iv Iw). lia.
    + destruct v as [v| | |]; [|constructor..]. rewrite all_ok_cons in *. destruct G2 as [G2 _]. split; [|constructor].
      rewrite cge_ok in G2 |- *. rewrite eval_eadd, eval_escale, eval_esub, eval_econst, !eval_evar in G2 |- *.
      simpl in Ev. rewrite Eq, Ev, Eb. destruct G2 as [G2 V]. split; [lra|].
      rewrite !vars_ok_app, !evars_eadd, !vars_ok_app in *. destruct V as ((V1 & V2) & _). split; [split|constructor; [auto|constructor]].
      * apply (vars_ok_agree s); auto. intros w [<-|[]]. exact Ev.
      * apply (vars_ok_agree s); auto. intros w J. rewrite evars_escale, evars_esub, evars_econst, evars_evar in J.
        destruct (Qeq_bool bigM 0); [destruct J|]. destruct J as [<-|[]]. exact Eb.
Qed.

(** ** Semicontinuity (C05) *)
Lemma semicontinuous_sound x b mx mn o o1 o2 s :
  constrain_max (FVar x) (FVar b) mx o = Ok (tt, o1) -> constrain_min (FVar x) (FVar b) mn o1 = Ok (tt, o2) ->
  is_binary_var b -> (exists l, v_low x = Some l /\ 0 <= l) -> mn <= mx ->
  feasible s o2 -> s (v_id x) == 0 \/ (mn <= s (v_id x) /\ s (v_id x) <= mx).
Proof.
  intros H1 H2 (B1 & B2 & B3) (l & El & Hl) Hmm F.
  apply constrain_ok in H1, H2. subst. unfold feasible in F. cbn [o_cons o_obj] in F. rewrite !Forall_app in F.
  destruct F as [[[_ F1] F2] _]. inversion F1 as [|? ? C1 _]; subst. inversion F2 as [|? ? C2 _]; subst. cbn [snd] in *.
  rewrite cle_ok in C1, C2. ev_in C1; ev_in C2.
  cbn [fv fvars] in *. destruct C1 as [C1 V1], C2 as [C2 V2]. rewrite !vars_ok_app in *.
  destruct V1 as ((Vx & Vb) & _). rewrite vars_ok_cons in Vx. destruct Vx as [(Vx & _) _]. specialize (Vx _ El).
  destruct (Qeq_bool mx 0) eqn:E.
  - apply Qeq_bool_iff in E. rewrite E in *. left. lra.
  - rewrite vars_ok_cons in Vb. destruct Vb as [Vb _]. apply var_ok_bin in Vb; auto. destruct Vb as [Z|Z]; rewrite Z in *.
    + left. lra.
    + right. lra.
Qed.
Lemma semicontinuous_complete x b mx mn o o1 o2 s :
  constrain_max (FVar x) (FVar b) mx o = Ok (tt, o1) -> constrain_min (FVar x) (FVar b) mn o1 = Ok (tt, o2) ->
  is_binary_var b -> feasible s o -> var_ok s x ->
  (s (v_id x) == 0 /\ s (v_id b) == 0) \/ (mn <= s (v_id x) /\ s (v_id x) <= mx /\ s (v_id b) == 1) ->
  feasible s o2.
Proof.
  intros H1 H2 (B1 & B2 & B3) F Vx D.
  assert (var_ok s b) as Vb. { apply var_ok_bin; auto. tauto. }
  apply constrain_ok in H1, H2. subst. unfold feasible in *. cbn [o_cons o_obj]. rewrite !Forall_app.
  destruct F as [F1 F2]. split; [split; [split|]|]; auto; constructor; auto; cbn [snd]; rewrite cle_ok;
  ev_goal;
  cbn [fv fvars]; rewrite !vars_ok_app; (split; [destruct D as [[D1 D2]|(D1 & D2 & D3)]; [rewrite D1, D2|rewrite D3]; lra|]);
  repeat split; try (constructor; [auto|constructor]); try apply vars_ok_if; try (constructor; [auto|constructor]); try constructor.
Qed.

(** ** Names (C06) *)
Lemma dedup_in seen l v : In v (dedup_id seen l) -> In v l.
Proof.
  revert seen. induction l; simpl; intros seen; [auto|].
  destruct (existsb _ seen); simpl; [|intros [->|H]; [now left|]]; eauto.
Qed.
Lemma dedup_complete l : forall seen v, In v l -> existsb (Nat.eqb (v_id v)) seen = false ->
  exists w, In w (dedup_id seen l) /\ v_id w = v_id v.
Proof.
  induction l; simpl; intros seen v; [tauto|]. intros [->|I] E.
  - rewrite E. exists v. split; [now left|reflexivity].
  - destruct (existsb (Nat.eqb (v_id a)) seen) eqn:E2; [eauto|].
    destruct (Nat.eq_dec (v_id v) (v_id a)) as [Q|N].
    + exists a. split; [now left|auto].
    + destruct (IHl (v_id a :: seen) v I) as (w & J & K).
      * simpl. rewrite E, orb_false_r. now apply Nat.eqb_neq.
      * exists w. split; [now right|exact K].
Qed.
Lemma solve_ok slv ai o st sol : solve slv ai o = Ok (st, sol) ->
  NoDup (map v_name (variables o)) /\ sol = slv o /\
  st_status st = sol_status sol /\ st_feasible st = is_optimal (sol_status sol) /\
  (ai = false -> sol_status sol = Optimal /\ st_objective st <> None) /\
  st_objective st = match o_obj o with Some e => expr_value o sol e | None => None end.
Proof.
  unfold solve. rewrite rbind_ok. intros (u & H1 & H). unfold assert_no_duplicate_variables in H1. rewrite rassert_ok in H1.
  apply nodup_str_iff in H1. rewrite rbind_ok in H. destruct H as (u2 & H2 & H). injection H as <- <-. cbn [st_status st_feasible st_objective].
  splits; auto. intros ->; rewrite rbind_ok in H2; destruct H2 as (u3 & H3 & H4). rewrite rassert_ok in H3, H4. split.
  - destruct (sol_status (slv o)); try discriminate; reflexivity.
  - destruct (o_obj o); [destruct (expr_value o (slv o) a)|]; congruence.
Qed.
Lemma NoDup_map_inj {A B} (f : A -> B) l x y : NoDup (map f l) -> In x l -> In y l -> f x = f y -> x = y.
Proof.
  induction l; simpl; intros N; [tauto|]. inversion N as [|? ? Hn Hl]; subst. intros [->|I] [->|J] E; auto.
  - exfalso. apply Hn. rewrite E. now apply in_map.
  - exfalso. apply Hn. rewrite <- E. now apply in_map.
Qed.
