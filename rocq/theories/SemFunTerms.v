(** * SemFunTerms: objectives with function terms in a built program (proofs) *)
From Verif Require Import Base Pulp Params Optimizer Types Assets EVs Site Constraints Objectives Extract Pipeline SpecOpt Emit Prim OptFacts Spec SpecReport SpecRun SpecTerms SpecFunctions Layout Rows Sem SemEv SemSite SemProg SemObj SemResults SemTerms RunFacts Builds Complete PropTerms Mono ShiftRun SemFun.
From Coq Require Import Qminmax Qabs.
Open Scope Q_scope.
Open Scope string_scope.

(** ** the largest of many values can be completed *)
Lemma max_many_complete name vs bigM o mv o' : max_many_variables name vs bigM o = Ok (mv, o') ->
  wf_opt o -> forall s, feasible s o -> Forall (operand_ok s o) vs -> forall q,
  (forall v, In v vs -> fv s v <= q) ->
  (forall x, In (FVar x) vs -> s (v_id x) == q \/ q - s (v_id x) <= bigM) ->
  exists s', agree_below (o_next o) s s' /\ feasible s' o' /\ s' (v_id mv) = q.
Proof.
  intros H W s F Ov m Hm Hgap. apply max_many_run in H. destruct H as (bs & Hmv & Ib & Fb & Nx & Eo & Ec).
  set (n := o_next o) in *.
  set (bv := fun v => if Qeq_bool (fv s v) m then 1 else 0).
  set (s' := upd_list s n (m :: map bv vs)).
  assert (s' (v_id mv) = m) as Sm.
  { rewrite Hmv. cbn [v_id]. unfold s'. replace n with (n + 0)%nat at 2 by lia. now apply upd_list_nth. }
  assert (List.length bs = List.length vs) as L. { rewrite <- (map_length v_id bs), Ib. apply seq_length. }
  assert (forall i b v, nth_error bs i = Some b -> nth_error vs i = Some v -> s' (v_id b) = bv v) as Sb.
  { intros i b v E E2. assert (nth_error (map v_id bs) i = Some (v_id b)) as E' by now rewrite nth_error_map, E.
    rewrite Ib in E'. assert (i < List.length vs)%nat as Li. { apply nth_error_Some. congruence. }
    rewrite (nth_error_nth' _ 0%nat) in E' by now rewrite seq_length. rewrite seq_nth in E' by auto. injection E' as E'.
    unfold s'. replace (v_id b) with (n + S i)%nat by lia.
    apply upd_list_nth. simpl. now rewrite nth_error_map, E2. }
  assert (agree_below n s s') as A. { intros id Li. apply upd_list_below. exact Li. }
  assert (forall v, In v vs -> fv s' v = fv s v /\ vars_ok s' (fvars v)) as Ops.
  { intros v I. rewrite Forall_forall in Ov. apply (operand_agree s s' o); auto. }
  assert (var_ok s' mv) as Vm. { rewrite (var_ok_cont s' mv None None); auto; rewrite Hmv; reflexivity. }
  exists s'. splits; auto. rewrite (feasible_extend _ _ _ Eo Ec). split.
  - apply (feasible_agree s); [intros v I; apply A; now apply W|exact F].
  - unfold max_many_cs. rewrite all_ok_flat_map. intros [v b] I. cbn [fst snd].
    pose proof (in_combine_l _ _ _ _ I) as Iv. pose proof (in_combine_r _ _ _ _ I) as Ibb. destruct (Ops v Iv) as [Ev Vv].
    apply In_nth_error in I. destruct I as [i E].
    assert (nth_error vs i = Some v /\ nth_error bs i = Some b) as [E1 E2].
    { clear - E. revert i E. generalize bs; induction vs; intros l [|i] E; destruct l; simpl in *; try discriminate.
      - injection E as -> ->. auto.
      - eauto. }
    pose proof (Sb i b v E2 E1) as SB.
    assert (var_ok s' b) as Vb.
    { rewrite Forall_forall in Fb. destruct (Fb b Ibb) as (A1 & A2 & A3). apply var_ok_bin; auto. rewrite SB. unfold bv. destruct (Qeq_bool (fv s v) m); [right|left]; reflexivity. }
    rewrite all_ok_cons. split.
    + rewrite cge_ok, eval_evar, eval_fexpr, Sm, Ev, evars_evar, evars_fexpr, vars_ok_app. splits; auto. constructor; [auto|constructor].
    + destruct v as [v| | |]; [|constructor..]. rewrite all_ok_cons. split; [|constructor].
      rewrite cge_ok, eval_eadd, eval_escale, eval_esub, eval_econst, !eval_evar, Sm. cbn [fv] in Ev. rewrite Ev, SB. split.
      * unfold bv. cbn [fv]. destruct (Qeq_bool (s (v_id v)) m) eqn:Q0.
        -- apply Qeq_bool_iff in Q0. rewrite Q0. lra.
        -- destruct (Hgap v Iv) as [G|G]; [apply Qeq_bool_iff in G; congruence|]. lra.
      * rewrite !vars_ok_app, !evars_eadd, !vars_ok_app, evars_evar. splits; auto.
        -- unfold vars_ok. rewrite Forall_forall. intros w J. rewrite evars_escale, evars_esub, evars_econst, evars_evar in J. destruct (Qeq_bool bigM 0); [destruct J|]. destruct J as [<-|[]]. auto.
        -- constructor; [auto|constructor].
Qed.
Lemma max_many_gap name vs bigM o mv o' : max_many_variables name vs bigM o = Ok (mv, o') ->
  forall s, feasible s o' -> forall x, In (FVar x) vs -> s (v_id x) == s (v_id mv) \/ s (v_id mv) - s (v_id x) <= bigM.
Proof.
  intros H s F x Ix. pose proof (max_many_meaning _ _ _ _ _ _ H s F (FVar x) Ix) as UP. cbn [fv] in UP. apply max_many_run in H. destruct H as (bs & Hmv & Ib & Fb & _ & Eo & Ec). rewrite (feasible_extend _ _ _ Eo Ec) in F. destruct F as [_ F].
  assert (List.length bs = List.length vs) as L. { rewrite <- (map_length v_id bs), Ib. apply seq_length. }
  destruct (in_combine_left vs bs _ (eq_sym L) Ix) as (b & J). unfold max_many_cs in F. rewrite all_ok_flat_map in F. specialize (F _ J). cbn [fst snd] in F. rewrite !all_ok_cons in F. destruct F as (_ & F & _).
  rewrite cge_ok, eval_eadd, eval_escale, eval_esub, eval_econst, !eval_evar in F. destruct F as [F V].
  destruct (Qeq_dec bigM 0) as [Z|Z]; [rewrite Z in *; right; lra|].
  assert (s (v_id b) == 0 \/ s (v_id b) == 1) as [B|B]; [|rewrite B in F; right; lra|rewrite B in F; left; lra].
  apply in_combine_r in J. rewrite Forall_forall in Fb. destruct (Fb b J) as (A1 & A2 & A3). apply var_ok_bin; auto. apply (vars_ok_in _ _ _ V).
  rewrite !in_app_iff, evars_eadd, in_app_iff, evars_escale, evars_esub. left. right. destruct (Qeq_bool bigM 0) eqn:Q0; [apply Qeq_bool_iff in Q0; contradiction|]. cbn. tauto.
Qed.

(** ** the building blocks keep a program well formed *)
Lemma two_wf name a b bigM o cv o' : (max_two_variables name a b bigM o = Ok (cv, o') \/ min_two_variables name a b bigM o = Ok (cv, o')) -> wf_opt o -> o_obj o = None ->
  (forall v, In v (fvars a) \/ In v (fvars b) -> (v_id v < o_next o)%nat) -> wf_opt o' /\ o_obj o' = None /\ (o_next o <= o_next o')%nat /\ (v_id cv < o_next o')%nat /\ v_low cv = None /\ v_up cv = None /\ v_int cv = false /\ (forall s, feasible s o' -> feasible s o).
Proof.
  intros H W N OP.
  assert (exists ks, cv = fst (two_vars name (o_next o)) /\ o_next o' = S (S (o_next o)) /\ o_obj o' = o_obj o /\ cons_of o' = (cons_of o ++ ks)%list /\ forall v, In v (cs_vars ks) -> v = cv \/ v = snd (two_vars name (o_next o)) \/ In v (fvars a) \/ In v (fvars b)) as (ks & -> & NX & EO & EC & KV).
  { destruct H as [H|H]; [apply max_two_run in H|apply min_two_run in H]; destruct H as (E1 & E2 & E3 & E4 & _); eexists; splits; eauto; intros v I; unfold two_cs_max, two_cs_min, cs_vars in I; cbn [flat_map c_expr cge] in I;
    rewrite !in_app_iff, !evars_esub, !in_app_iff, ?evars_eadd, ?evars_esub, ?in_app_iff, ?evars_escale, ?evars_fexpr, ?evars_evar in I; cbn [In] in I; destruct (Qeq_bool bigM 0); rewrite ?evars_esub, ?evars_econst, ?evars_evar in I; cbn [In app] in I; intuition auto. }
  splits; try reflexivity; try congruence; try lia.
  - eapply (wf_grow o o' ks); eauto; [lia|]. intros v I. destruct (KV v I) as [->|[->|K]]; cbn [two_vars fst snd v_id]; [lia|lia|]. specialize (OP v K). lia.
  - cbn. lia.
  - intros s F. apply (feasible_extend _ _ _ EO EC) in F. tauto.
Qed.
Lemma many_wf name vs bigM o mv o' : (max_many_variables name vs bigM o = Ok (mv, o') \/ min_many_variables name vs bigM o = Ok (mv, o')) -> wf_opt o -> o_obj o = None ->
  (forall f v, In f vs -> In v (fvars f) -> (v_id v < o_next o)%nat) -> wf_opt o' /\ o_obj o' = None /\ (o_next o <= o_next o')%nat /\ (v_id mv < o_next o')%nat /\ v_low mv = None /\ v_up mv = None /\ v_int mv = false /\ (forall s, feasible s o' -> feasible s o).
Proof.
  intros H W N OP.
  assert (exists bs ks, mv = mkVar (o_next o) (sanitize (name ++ "-continuous")) false None None /\ map v_id bs = seq (S (o_next o)) (List.length vs) /\ o_next o' = (S (o_next o) + List.length vs)%nat /\ o_obj o' = o_obj o /\ cons_of o' = (cons_of o ++ ks)%list /\
     forall v, In v (cs_vars ks) -> v = mv \/ In v bs \/ exists f, In f vs /\ In v (fvars f)) as (bs & ks & EM & IB & NX & EO & EC & KV).
  { destruct H as [H|H]; [apply max_many_run in H|apply min_many_run in H]; destruct H as (bs & E1 & E2 & _ & E3 & E4 & E5); eexists bs, _; splits; eauto; intros v I.
    - unfold max_many_cs, cs_vars in I. apply in_flat_map in I. destruct I as (k & Ik & I). apply in_flat_map in Ik. destruct Ik as ([f b] & J & Ik). cbn [fst snd] in Ik. pose proof (in_combine_l _ _ _ _ J) as J1. pose proof (in_combine_r _ _ _ _ J) as J2.
      destruct Ik as [<-|Ik].
      + cbn [c_expr cge] in I. rewrite evars_esub, in_app_iff, evars_evar, evars_fexpr in I. cbn [In] in I. destruct I as [[->|[]]|I]; eauto.
      + destruct f as [x| | |]; cbn [In] in Ik; [|tauto..]. destruct Ik as [<-|[]]. cbn [c_expr cge] in I. rewrite evars_esub, in_app_iff, evars_eadd, in_app_iff, evars_escale, !evars_evar, evars_esub, evars_econst in I.
        cbn [In app] in I. destruct I as [[[->|[]]|I]|[->|[]]]; [right; right; exists (FVar v); split; [auto|now left]| |auto]. destruct (Qeq_bool bigM 0); [destruct I|]. cbn in I. destruct I as [->|[]]. auto.
    - unfold min_many_cs, cs_vars in I. rewrite flat_map_app, in_app_iff in I. destruct I as [I|I].
      + apply in_flat_map in I. destruct I as (k & Ik & I). apply in_flat_map in Ik. destruct Ik as ([f b] & J & Ik). cbn [fst snd] in Ik. pose proof (in_combine_l _ _ _ _ J) as J1. pose proof (in_combine_r _ _ _ _ J) as J2.
        destruct Ik as [<-|[<-|[]]]; cbn [c_expr cle] in I.
        * rewrite evars_esub, in_app_iff, evars_evar, evars_fexpr in I. cbn [In] in I. destruct I as [[->|[]]|I]; eauto.
        * rewrite !evars_esub, !in_app_iff, evars_escale, !evars_evar, evars_fexpr in I. cbn [In] in I. destruct I as [[I|I]|[->|[]]]; eauto. destruct (Qeq_bool bigM 0); [destruct I|]. destruct I as [->|[]]. auto.
      + cbn [flat_map c_expr cle] in I. rewrite app_nil_r, evars_esub, in_app_iff, evars_esum, evars_econst in I. destruct I as [I|[]]. apply in_flat_map in I. destruct I as (e & Ie & I). apply in_map_iff in Ie. destruct Ie as (b & <- & Ib). destruct I as [<-|[]]. auto. }
  splits; try (rewrite EM; reflexivity); try congruence; try lia.
  - eapply (wf_grow o o' ks); eauto; [lia|]. intros v I. destruct (KV v I) as [->|[I'|(f & If & I')]].
    + rewrite EM. cbn. lia.
    + apply (in_map v_id) in I'. rewrite IB in I'. apply in_seq in I'. lia.
    + specialize (OP f v If I'). lia.
  - rewrite EM. cbn. lia.
  - intros s F. apply (feasible_extend _ _ _ EO EC) in F. tauto.
Qed.

Lemma forM_cons_ok {A B} (f : A -> M B) x xs o l o' : forM (x :: xs) f o = Ok (l, o') -> exists y o1 ys, f x o = Ok (y, o1) /\ forM xs f o1 = Ok (ys, o') /\ l = y :: ys.
Proof. cbn [forM]. rewrite bind_ok. intros (y & o1 & H1 & H). rewrite bind_ok in H. destruct H as (ys & o2 & H2 & H). apply ret_ok in H. destruct H as [<- <-]. exists y, o1, ys. auto. Qed.

Section Means.
Context (c : site_cfg) (assets : list asset) (fl : flags) (iv : interval_vars) (lo hi : nat) (cs : list constr) (P : program c assets fl iv lo hi cs) (Hn : (0 < n_intervals c)%nat).

Definition good (o : opt) : Prop := wf_opt o /\ o_obj o = None /\ (hi <= o_next o)%nat.
Definition fine (s : assignment) : Prop := forall v, cared iv v -> var_ok s v.
Definition total_of (s : assignment) (l : list aexpr) : Q := Qsum (map (eval s) l).
(** the expressions [l] added by a step from [o] to [o'] are worth [val d] for a dispatch [d], if the dispatch is possible: [cut d];
    possible are at least the dispatches with [adq d] *)
Record step_means (o : opt) (l : list aexpr) (o' : opt) (val : dispatch -> Q) (adq cut : dispatch -> Prop) : Prop := mkStep {
  sm_good : good o';
  sm_next : (o_next o <= o_next o')%nat;
  sm_vars : forall y v, In y l -> In v (evars y) -> (v_id v < o_next o')%nat;
  sm_back : forall s, feasible s o' -> feasible s o;
  sm_ok : exists ok : dispatch -> Prop, (forall d, adq d -> ok d) /\ (forall d, ok d -> cut d) /\
    (forall d s, eq_of d s iv -> feasible s o' -> ok d /\ val d <= total_of s l) /\
    (forall d s, eq_of d s iv -> fine s -> feasible s o -> ok d -> exists s', agree_below (o_next o) s s' /\ feasible s' o' /\ (forall y, In y l -> vars_ok s' (evars y)) /\ total_of s' l == val d) }.

Lemma eq_below o d s s' : good o -> agree_below (o_next o) s s' -> eq_of d s iv -> eq_of d s' iv.
Proof. intros (_ & _ & G) A. eapply eq_of_agree; [exact P|]. intros id L. apply A. lia. Qed.
Lemma fine_below o s s' : good o -> agree_below (o_next o) s s' -> fine s -> fine s'.
Proof. intros (_ & _ & G) A F v Cv. apply (var_ok_agree s); auto. apply A. pose proof (cared_below c assets fl iv lo hi cs P v Cv). lia. Qed.
Lemma total_below n s s' l : agree_below n s s' -> (forall y v, In y l -> In v (evars y) -> (v_id v < n)%nat) -> total_of s' l == total_of s l.
Proof. intros A K. apply Qsum_map_ext. intros y Iy. rewrite (eval_agree s s'); [reflexivity|]. intros v Iv. apply A. eauto. Qed.
Lemma total_app s a b : total_of s (a ++ b) == total_of s a + total_of s b.
Proof. unfold total_of. now rewrite map_app, Qsum_app. Qed.

Lemma step_pure o l val : good o -> (forall y v, In y l -> In v (evars y) -> cared iv v) -> (forall d s, eq_of d s iv -> total_of s l == val d) -> step_means o l o val (fun _ => True) (fun _ => True).
Proof.
  intros G K V. constructor; auto.
  - intros y v Iy Iv. pose proof (cared_below c assets fl iv lo hi cs P v (K y v Iy Iv)). destruct G as (_ & _ & G). lia.
  - exists (fun _ => True). splits; auto.
    + intros d s Vd F. split; auto. rewrite (V d s Vd). apply Qle_refl.
    + intros d s Vd Fs F _. exists s. splits; auto; [intros id _; reflexivity|]. intros y Iy. unfold vars_ok. rewrite Forall_forall. intros v Iv. apply Fs. eauto.
Qed.
Lemma step_seq o l1 o1 l2 o2 v1 v2 a1 a2 c1 c2 : good o -> step_means o l1 o1 v1 a1 c1 -> step_means o1 l2 o2 v2 a2 c2 ->
  step_means o (l1 ++ l2) o2 (fun d => v1 d + v2 d) (fun d => a1 d /\ a2 d) (fun d => c1 d /\ c2 d).
Proof.
  intros G [G1 N1 V1 B1 (k1 & K1a & K1c & K1s & K1f)] [G2 N2 V2 B2 (k2 & K2a & K2c & K2s & K2f)]. constructor; auto; try lia.
  - intros y v Iy Iv. apply in_app_iff in Iy. destruct Iy as [Iy|Iy]; [specialize (V1 y v Iy Iv); lia|eauto].
  - exists (fun d => k1 d /\ k2 d). splits.
    + intros d [X Y]. auto.
    + intros d [X Y]. auto.
    + intros d s Vd F. destruct (K2s d s Vd F) as [X1 X2]. destruct (K1s d s Vd (B2 s F)) as [Y1 Y2]. splits; auto. rewrite total_app. lra.
    + intros d s Vd Fs F [X Y]. destruct (K1f d s Vd Fs F X) as (s1 & A1 & F1 & W1 & T1).
      destruct (K2f d s1 (eq_below o d s s1 G A1 Vd) (fine_below o s s1 G A1 Fs) F1 Y) as (s2 & A2 & F2 & W2 & T2). exists s2. splits; auto.
      * intros id L. rewrite A2 by lia. apply A1. lia.
      * intros y Iy. apply in_app_iff in Iy. destruct Iy as [Iy|Iy]; [|auto]. apply (vars_ok_agree s1); [|auto]. intros v Iv. apply A2. eauto.
      * rewrite total_app, T2, (total_below (o_next o1) s1 s2 l1 A2 V1), T1. reflexivity.
Qed.
Lemma step_ext o l o' v v' (a a' k k' : dispatch -> Prop) : step_means o l o' v a k -> (forall d, v d == v' d) -> (forall d, a' d -> a d) -> (forall d, k d -> k' d) -> step_means o l o' v' a' k'.
Proof.
  intros [G N V B (ok & K1 & K2 & K3 & K4)] E1 E2 E3. constructor; auto. exists ok. splits; auto.
  - intros d s Vd F. destruct (K3 d s Vd F) as [X Y]. rewrite <- E1. auto.
  - intros d s Vd Fs F X. destruct (K4 d s Vd Fs F X) as (s' & A1 & A2 & A3 & A4). exists s'. splits; auto. now rewrite <- E1.
Qed.

(** steps one after the other *)
Definition means {A} (m : M A) (out : A -> list aexpr) (val : dispatch -> Q) (adq cut : dispatch -> Prop) : Prop :=
  forall o x o', good o -> m o = Ok (x, o') -> step_means o (out x) o' val adq cut.
Lemma means_forM {A B} (xs : list A) (f : A -> M B) out (val : A -> dispatch -> Q) (adq cut : A -> dispatch -> Prop) :
  (forall x, In x xs -> means (f x) out (val x) (adq x) (cut x)) ->
  means (forM xs f) (flat_map out) (fun d => Qsum (map (fun x => val x d) xs)) (fun d => forall x, In x xs -> adq x d) (fun d => forall x, In x xs -> cut x d).
Proof.
  induction xs as [|x xs IH]; intros H o l o' G E.
  - cbn in E. injection E as <- <-. eapply step_ext; [apply (step_pure o [] (fun _ => 0) G); [intros y v []|intros; reflexivity]|reflexivity|intros; exact Logic.I|intros d _ x []].
  - destruct (forM_cons_ok _ _ _ _ _ _ E) as (y & o1 & ys & E1 & E2 & ->). pose proof (H x (or_introl eq_refl) _ _ _ G E1) as S1.
    pose proof (IH (fun x' I => H x' (or_intror I)) _ _ _ (sm_good _ _ _ _ _ _ S1) E2) as S2. cbn [flat_map].
    eapply step_ext; [exact (step_seq _ _ _ _ _ _ _ _ _ _ _ G S1 S2)|reflexivity|..].
    + intros d K. split; [apply K; now left|intros x' I; apply K; now right].
    + intros d [K1 K2] x' [<-|I]; auto.
Qed.

(** ** two numbers *)
Lemma means_two w t : (t < n_intervals c)%nat -> In (w_function w) ["max_two_variables"; "min_two_variables"] -> grid_operand (w_a w) -> grid_operand (w_b w) ->
  means (two_term_at iv (sc_idata c) w t) (fun e => [e]) (fun d => two_value (quantity d) c w t)
    (fun d => Qabs (operand_value (quantity d) t (w_a w) - operand_value (quantity d) t (w_b w)) <= w_M w)
    (fun d => Qabs (operand_value (quantity d) t (w_a w) - operand_value (quantity d) t (w_b w)) <= w_M w).
Proof.
  intros Ht FU GA GB o e o' G H. unfold two_term_at in H.
  rewrite bind_ok in H. destruct H as ([] & oo & H1 & H). apply lift_ok in H1. destruct H1 as [CA <-]. rewrite bind_ok in H. destruct H as ([] & oo & H1 & H). apply lift_ok in H1. destruct H1 as [CB <-].
  rewrite bind_ok in H. destruct H as (a & oo & H1 & H). apply lift_ok in H1. destruct H1 as [OA <-]. rewrite bind_ok in H. destruct H as (b & oo & H1 & H). apply lift_ok in H1. destruct H1 as [OB <-].
  cbv zeta in H. rewrite bind_ok in H. destruct H as (cv & o1 & HC & H). rewrite bind_ok in H. destruct H as (q & oo & H1 & H). apply lift_ok in H1. destruct H1 as [DF <-]. apply ret_ok in H. destruct H as [<- <-].
  destruct (two_operand_sem c assets fl iv lo hi cs P t (w_a w) a CA GA OA) as [VA EA]. destruct (two_operand_sem c assets fl iv lo hi cs P t (w_b w) b CB GB OB) as [VB EB].
  pose proof (data_factor_value _ _ _ _ DF) as DV. destruct G as (W & N & L). set (nm := (w_function w ++ _)%string) in HC.
  assert (max_two_variables nm a b (w_M w) o = Ok (cv, o1) \/ min_two_variables nm a b (w_M w) o = Ok (cv, o1)) as HH by (destruct (w_function w =? "max_two_variables"); auto).
  destruct (two_wf _ _ _ _ _ _ _ HH W N) as (W1 & N1 & L1 & LC & U1 & U2 & U3 & BK).
  { intros v [Iv|Iv]; [pose proof (cared_below c assets fl iv lo hi cs P v (VA v Iv))|pose proof (cared_below c assets fl iv lo hi cs P v (VB v Iv))]; lia. }
  assert (forall s, feasible s o1 -> s (v_id cv) == of_two w (fv s a) (fv s b) /\ Qabs (fv s a - fv s b) <= w_M w) as SND.
  { unfold of_two. intros s F. destruct (w_function w =? "max_two_variables"); [eapply max_two_sound; eauto|eapply min_two_sound; eauto]. }
  assert (forall d s, eq_of d s iv -> feasible s o1 -> total_of s [escale (escale (evar cv) q) (w_coefficient w)] == two_value (quantity d) c w t) as VAL.
  { intros d s Vd F. unfold total_of. cbn [map Qsum fold_right]. rewrite !eval_escale, eval_evar, (proj1 (SND s F)), DV, Qplus_0_r. unfold two_value, of_two.
    destruct (w_function w =? "max_two_variables"); rewrite (EA d s Vd), (EB d s Vd); ring. }
  constructor; auto.
  - split; [auto|split; [auto|lia]].
  - intros y v [<-|[]] Iv. rewrite !evars_escale, evars_evar in Iv. destruct (Qeq_bool (w_coefficient w) 0); [destruct Iv|]. destruct (Qeq_bool q 0); [destruct Iv|]. destruct Iv as [<-|[]]. exact LC.
  - exists (fun d => Qabs (operand_value (quantity d) t (w_a w) - operand_value (quantity d) t (w_b w)) <= w_M w). splits; auto.
    + intros d s Vd F. split; [|rewrite (VAL d s Vd F); apply Qle_refl]. rewrite <- (EA d s Vd), <- (EB d s Vd). apply (SND s F).
    + intros d s Vd Fs F K. rewrite <- (EA d s Vd), <- (EB d s Vd) in K.
      assert (operand_ok s o a) as Oa by (intros v Iv; split; [pose proof (cared_below c assets fl iv lo hi cs P v (VA v Iv)); lia|auto]).
      assert (operand_ok s o b) as Ob by (intros v Iv; split; [pose proof (cared_below c assets fl iv lo hi cs P v (VB v Iv)); lia|auto]).
      assert (exists s', agree_below (o_next o) s s' /\ feasible s' o1) as (s' & A & F').
      { destruct (w_function w =? "max_two_variables"); [eapply max_two_complete; eauto|eapply min_two_complete; eauto]. }
      exists s'. splits; auto.
      * intros y [<-|[]]. unfold vars_ok. rewrite Forall_forall. intros v Iv. rewrite !evars_escale, evars_evar in Iv. destruct (Qeq_bool (w_coefficient w) 0); [destruct Iv|]. destruct (Qeq_bool q 0); [destruct Iv|]. destruct Iv as [<-|[]].
        apply (var_ok_cont s' cv None None); auto; try (split; exact Logic.I).
      * apply VAL; auto. eapply eq_of_agree; [exact P| |exact Vd]. intros id X. apply A. lia.
Qed.

(** ** many values *)
Definition near (d : dispatch) (m : many_term) : Prop :=
  m_function m = "min_many_variables" -> forall x, In x (m_constant m :: many_values (single d) c assets m) -> x == least (m_constant m) (many_values (single d) c assets m) \/ x - least (m_constant m) (many_values (single d) c assets m) <= m_M m.
Lemma scaled s mv k : total_of s [escale (evar mv) k] == s (v_id mv) * k.
Proof. unfold total_of. cbn [map Qsum fold_right]. rewrite eval_escale, eval_evar. ring. Qed.
Lemma eqs_map_in (s s' : assignment) fs l : eqs (map (fv s) fs) l -> eqs (map (fv s') fs) l -> forall f, In f fs -> fv s f == fv s' f.
Proof.
  revert l. induction fs as [|g fs IH]; intros l H1 H2 f []; inversion H1 as [|? x ? l' A1 B1]; subst; inversion H2 as [|? ? ? ? A2 B2]; subst; [rewrite A1, A2; reflexivity|eauto].
Qed.
Lemma means_many m : usual_term (TMany m) ->
  means (add_many_variables_term iv (TMany m)) (fun l => l) (fun d => many_value (single d) c assets m) (fun d => covered (quantity d) (single d) c assets (TMany m)) (fun d => near d m).
Proof.
  intros (TY & FU & PL & CO) o l o' G H. unfold add_many_variables_term in H. cbn [one_term_type one_term_function] in H. rewrite TY in H. cbn [String.eqb Ascii.eqb Bool.eqb] in H.
  rewrite bind_ok in H. destruct H as (fn & oo & H1 & H). apply lift_ok in H1. destruct H1 as [[= <-] <-].
  assert (is_many_function (m_function m) = true) as IM by (destruct FU as [<-|[<-|[]]]; reflexivity). rewrite IM in H.
  rewrite bind_ok in H. destruct H as (u & oo & H1 & H). apply massert_ok in H1. destruct H1 as [_ <-]. rewrite bind_ok in H. destruct H as (vs & oo & H1 & H). apply lift_ok in H1. destruct H1 as [MO <-].
  cbv zeta in H. rewrite bind_ok in H. destruct H as (mv & o1 & HC & H). apply ret_ok in H. destruct H as [<- <-]. set (nm := (m_function m ++ _)%string) in HC.
  destruct (many_operands_sem c assets fl iv lo hi cs P Hn m vs PL MO) as (fs & -> & CV & EV). destruct G as (W & N & L).
  assert (forall f v, In f (fs ++ [FFloat (m_constant m)])%list -> In v (fvars f) -> cared iv v) as CV'.
  { intros f v If Iv. apply in_app_iff in If. destruct If as [If|[<-|[]]]; [eauto|destruct Iv]. }
  assert (max_many_variables nm (fs ++ [FFloat (m_constant m)]) (m_M m) o = Ok (mv, o1) \/ min_many_variables nm (fs ++ [FFloat (m_constant m)]) (m_M m) o = Ok (mv, o1)) as HH by (destruct (m_function m =? "max_many_variables"); auto).
  destruct (many_wf _ _ _ _ _ _ HH W N) as (W1 & N1 & L1 & LC & U1 & U2 & U3 & BK).
  { intros f v If Iv. pose proof (cared_below c assets fl iv lo hi cs P v (CV' f v If Iv)). lia. }
  assert (forall s, fine s -> Forall (operand_ok s o) (fs ++ [FFloat (m_constant m)])) as OPS.
  { intros s Fs. rewrite Forall_forall. intros f If v Iv. split; [pose proof (cared_below c assets fl iv lo hi cs P v (CV' f v If Iv)); lia|]. apply Fs. eauto. }
  assert (forall d s, eq_of d s iv -> eqs (map (fv s) (fs ++ [FFloat (m_constant m)])) (many_values (single d) c assets m ++ [m_constant m])) as EVS.
  { intros d s Vd. rewrite map_app. apply eqs_app; [auto|]. apply eqs_refl. }
  assert (forall s', agree_below (o_next o) s' s' -> forall y, In y [escale (evar mv) (m_coefficient m)] -> vars_ok s' (evars y)) as VO.
  { intros s' _ y [<-|[]]. unfold vars_ok. rewrite Forall_forall. intros v Iv. rewrite evars_escale, evars_evar in Iv. destruct (Qeq_bool (m_coefficient m) 0); [destruct Iv|]. destruct Iv as [<-|[]]. apply (var_ok_cont s' mv None None); auto; split; exact Logic.I. }
  constructor; auto.
  { split; [auto|split; [auto|lia]]. }
  { intros y v [<-|[]] Iv. rewrite evars_escale, evars_evar in Iv. destruct (Qeq_bool (m_coefficient m) 0); [destruct Iv|]. destruct Iv as [<-|[]]. exact LC. }
  assert (forall d f s, eq_of d s iv -> In f (fs ++ [FFloat (m_constant m)])%list -> exists y, In y (m_constant m :: many_values (single d) c assets m) /\ fv s f == y) as TO.
  { intros d f s Vd If. destruct (eqs_in _ _ (fv s f) (EVS d s Vd) (in_map _ _ _ If)) as (y & Iy & E). exists y. split; auto. apply in_app_iff in Iy. cbn in *. tauto. }
  assert (forall d y s, eq_of d s iv -> In y (m_constant m :: many_values (single d) c assets m) -> exists f, In f (fs ++ [FFloat (m_constant m)])%list /\ fv s f == y) as FROM.
  { intros d y s Vd Iy. destruct (eqs_in _ _ y (eqs_sym _ _ (EVS d s Vd))) as (z & Iz & E); [rewrite in_app_iff; cbn in *; tauto|]. apply in_map_iff in Iz. destruct Iz as (f & <- & If). exists f. split; auto. now symmetry. }
  unfold many_value, of_many. destruct FU as [FU|[FU|[]]]; rewrite <- FU in *; cbn [String.eqb Ascii.eqb Bool.eqb] in *; clear HH.
  - (* the largest *)
    specialize (CO eq_refl). set (B := fun d => biggest (m_constant m) (many_values (single d) c assets m)).
    assert (forall d y, In y (m_constant m :: many_values (single d) c assets m) -> y <= B d) as UB by (intros d y [<-|Iy]; [apply (proj1 (biggest_up _ _))|now apply (proj2 (biggest_up _ _))]).
    exists (fun d => forall s, eq_of d s iv -> forall x, In (FVar x) (fs ++ [FFloat (m_constant m)])%list -> s (v_id x) == B d \/ B d - s (v_id x) <= m_M m). splits.
    + intros d AD s Vd x Ix. right. destruct (TO d (FVar x) s Vd Ix) as (y & Iy & E). cbn [fv] in E. rewrite E. unfold B. destruct (biggest_in (m_constant m) (many_values (single d) c assets m)) as (z & Iz & Ez). rewrite Ez. apply AD; auto.
    + intros d _ X. rewrite <- FU in X. discriminate.
    + intros d s Vd F. split.
      * intros s' Vd' x Ix. assert (s (v_id x) == s' (v_id x)) as E by (apply (eqs_map_in s s' _ _ (EVS d s Vd) (EVS d s' Vd') (FVar x) Ix)). rewrite <- E.
        assert (B d <= s (v_id mv)) as LB. { unfold B. destruct (biggest_in (m_constant m) (many_values (single d) c assets m)) as (z & Iz & Ez). rewrite Ez. destruct (FROM d z s Vd Iz) as (f & If & Ef). rewrite <- Ef. eapply max_many_meaning; eauto. }
        assert (s (v_id x) <= B d) as UX. { destruct (TO d (FVar x) s Vd Ix) as (y & Iy & Ey). cbn [fv] in Ey. rewrite Ey. auto. }
        destruct (max_many_gap _ _ _ _ _ _ HC s F x Ix) as [K|K]; [left; lra|right; lra].
      * rewrite scaled. apply Qmult_le_compat_r; [|exact CO]. destruct (biggest_in (m_constant m) (many_values (single d) c assets m)) as (z & Iz & Ez). rewrite Ez. destruct (FROM d z s Vd Iz) as (f & If & Ef). rewrite <- Ef. eapply max_many_meaning; eauto.
    + intros d s Vd Fs F K. destruct (max_many_complete _ _ _ _ _ _ HC W s F (OPS s Fs) (B d)) as (s' & A & F' & E).
      * intros f If. destruct (TO d f s Vd If) as (y & Iy & Ey). rewrite Ey. auto.
      * apply K. exact Vd.
      * exists s'. splits; auto; [apply VO; intros id _; reflexivity|]. rewrite scaled, E. reflexivity.
  - (* the smallest *)
    set (B := fun d => least (m_constant m) (many_values (single d) c assets m)).
    assert (forall d y, In y (m_constant m :: many_values (single d) c assets m) -> B d <= y) as LB by (intros d y [<-|Iy]; [apply (proj1 (least_low _ _))|now apply (proj2 (least_low _ _))]).
    assert (forall d s, eq_of d s iv -> feasible s o1 -> s (v_id mv) == B d) as VAL.
    { intros d s Vd F. destruct (min_many_sound _ _ _ _ _ _ HC s F) as [[(y & Iy & Ey) LY] _]. apply in_map_iff in Iy. destruct Iy as (f & <- & If). apply Qle_antisym.
      - unfold B. destruct (least_in (m_constant m) (many_values (single d) c assets m)) as (z & Iz & Ez). rewrite Ez. destruct (FROM d z s Vd Iz) as (g & Ig & Eg). rewrite <- Eg. apply LY. now apply in_map.
      - rewrite <- Ey. destruct (TO d f s Vd If) as (z & Iz & Ez). rewrite Ez. auto. }
    exists (fun d => forall x, In x (m_constant m :: many_values (single d) c assets m) -> x == B d \/ x - B d <= m_M m). splits.
    + intros d AD x Ix. right. unfold B. destruct (least_in (m_constant m) (many_values (single d) c assets m)) as (z & Iz & Ez). rewrite Ez. apply AD; auto.
    + intros d K _. exact K.
    + intros d s Vd F. split.
      * intros x Ix. destruct (FROM d x s Vd Ix) as (f & If & Ef). rewrite <- Ef, <- (VAL d s Vd F). apply (proj2 (min_many_sound _ _ _ _ _ _ HC s F)). exact If.
      * rewrite scaled, (VAL d s Vd F). apply Qle_refl.
    + intros d s Vd Fs F K. destruct (least_in (m_constant m) (many_values (single d) c assets m)) as (z & Iz & Ez). destruct (FROM d z s Vd Iz) as (w & Iw & Ew).
      assert (fv s w == B d) as WB by (rewrite Ew; unfold B; rewrite Ez; reflexivity).
      destruct (min_many_complete _ _ _ _ _ _ HC W s F (OPS s Fs) w Iw) as (s' & A & F').
      * intros f If. rewrite WB. destruct (TO d f s Vd If) as (y & Iy & Ey). rewrite Ey. auto.
      * intros f If. rewrite WB. destruct (TO d f s Vd If) as (y & Iy & Ey). rewrite Ey. apply K. exact Iy.
      * exists s'. splits; auto; [apply VO; intros id _; reflexivity|]. rewrite scaled, (VAL d s'); [reflexivity| |exact F']. eapply eq_of_agree; [exact P| |exact Vd]. intros id X. apply A. lia.
Qed.

(** ** a whole objective *)
Definition simple_val (d : dispatch) (k : one_term) : Q := match k with TSimple k => horizon c (term_at (quantity d) c assets k) | _ => 0 end.
Definition two_val (d : dispatch) (k : one_term) : Q := match k with TTwo w => horizon c (two_value (quantity d) c w) | _ => 0 end.
Definition many_val (d : dispatch) (k : one_term) : Q := match k with TMany m => many_value (single d) c assets m | _ => 0 end.
Lemma simple_part ks l : Forall usual_term ks -> add_simple_terms iv (sc_idata c) ks = Ok l ->
  (forall y v, In y l -> In v (evars y) -> cared iv v) /\ (forall d s, eq_of d s iv -> total_of s l == Qsum (map (simple_val d) ks)).
Proof.
  intros U H. unfold add_simple_terms in H. rewrite rbind_ok in H. destruct H as (ls & H & [= <-]). rewrite rmap_ok in H.
  revert ls H. induction ks as [|k ks IH]; intros ls H; inversion H as [|? x ? ls' E F]; subst.
  - split; [intros y v []|intros d s _; reflexivity].
  - inversion U as [|? ? U1 U2]; subst. destruct (IH U2 _ F) as [A B]. cbn [List.concat].
    assert ((forall y v, In y x -> In v (evars y) -> cared iv v) /\ (forall d s, eq_of d s iv -> total_of s x == simple_val d k)) as [A1 B1].
    { unfold simple_term_all in E. destruct k as [k|w|m]; cbn [one_term_type] in E.
      - destruct U1 as [TY PL]. rewrite TY in E. cbn [String.eqb Ascii.eqb Bool.eqb] in E. rewrite rbind_ok in E. destruct E as (xs & E & [= <-]). split.
        + intros y v Iy Iv. apply in_concat in Iy. destruct Iy as (x & Ix & Iy). rewrite rmap_ok in E. destruct (Forall2_in_r _ _ _ _ E Ix) as (t & _ & Et). set (s0 := fun _ : nat => 0).
          apply (proj2 (simple_at_eval c assets fl iv lo hi cs P (d_of s0 iv) s0 k t x (d_of_eq _ _ _ _ _ _ _ s0 P) PL Et) y v Iy Iv).
        + intros d s V. unfold total_of. rewrite <- eval_esum. cbn [simple_val]. unfold horizon, n_intervals. eapply horizon_sum; [exact E|]. intros t x Et. apply (simple_at_eval c assets fl iv lo hi cs P d s k t x V PL Et).
      - destruct U1 as (TY & _). rewrite TY in E. injection E as <-. split; [intros y v []|reflexivity].
      - destruct U1 as (TY & _). rewrite TY in E. injection E as <-. split; [intros y v []|reflexivity]. }
    split.
    + intros y v Iy Iv. apply in_app_iff in Iy. destruct Iy; eauto.
    + intros d s V. rewrite total_app, (B1 d s V), (B d s V). reflexivity.
Qed.
Lemma means_ret A (x : A) out : out x = [] -> means (ret x) out (fun _ => 0) (fun _ => True) (fun _ => True).
Proof. intros E o y o' G H. apply ret_ok in H. destruct H as [<- <-]. rewrite E. apply (step_pure o [] (fun _ => 0) G); [intros y v []|reflexivity]. Qed.
Definition two_fits (d : dispatch) (k : one_term) : Prop := match k with TTwo w => covered (quantity d) (single d) c assets (TTwo w) | _ => True end.
Definition many_fits (d : dispatch) (k : one_term) : Prop := match k with TMany m => covered (quantity d) (single d) c assets (TMany m) | _ => True end.
Definition many_cut (d : dispatch) (k : one_term) : Prop := match k with TMany m => near d m | _ => True end.
Lemma flat_single {A} (l : list A) : flat_map (fun e => [e]) l = l.
Proof. induction l; cbn; congruence. Qed.
Lemma flat_id {A} (l : list (list A)) : flat_map (fun x => x) l = List.concat l.
Proof. induction l; cbn; congruence. Qed.
Lemma means_two_term k : usual_term k -> means (add_two_variable_term iv (sc_idata c) k) (fun l => l) (fun d => two_val d k) (fun d => two_fits d k) (fun d => two_fits d k).
Proof.
  intros U o l o' G H. unfold add_two_variable_term in H. destruct k as [k|w|m]; cbn [one_term_type one_term_function] in H; cbn [two_val two_fits].
  - destruct U as [TY _]. rewrite TY in H. exact (means_ret _ (@nil aexpr) (fun l => l) eq_refl o l o' G H).
  - destruct U as (TY & FU & GA & GB). rewrite TY in H. cbn [String.eqb Ascii.eqb Bool.eqb] in H. rewrite bind_ok in H. destruct H as (fn & oo & H1 & H). apply lift_ok in H1. destruct H1 as [[= <-] <-].
    assert (is_two_function (w_function w) = true) as IM by (destruct FU as [<-|[<-|[]]]; reflexivity). rewrite IM in H.
    pose proof (means_forM (seq 0 (id_n (sc_idata c))) (two_term_at iv (sc_idata c) w) (fun e => [e]) (fun t d => two_value (quantity d) c w t)
      (fun t d => Qabs (operand_value (quantity d) t (w_a w) - operand_value (quantity d) t (w_b w)) <= w_M w) (fun t d => Qabs (operand_value (quantity d) t (w_a w) - operand_value (quantity d) t (w_b w)) <= w_M w)) as MF.
    assert (forall t, In t (seq 0 (id_n (sc_idata c))) <-> (t < n_intervals c)%nat) as SQ by (intros t; rewrite in_seq; unfold n_intervals; lia).
    specialize (MF (fun t It => means_two w t (proj1 (SQ t) It) FU GA GB) o l o' G H). rewrite flat_single in MF.
    eapply step_ext; [exact MF|reflexivity|..]; intros d K t It; apply K; now apply SQ.
  - destruct U as (TY & FU & _). rewrite TY in H. cbn [String.eqb Ascii.eqb Bool.eqb] in H. rewrite bind_ok in H. destruct H as (fn & oo & H1 & H). apply lift_ok in H1. destruct H1 as [[= <-] <-].
    assert (is_two_function (m_function m) = false) as IM by (destruct FU as [<-|[<-|[]]]; reflexivity). rewrite IM in H. exact (means_ret _ (@nil aexpr) (fun l => l) eq_refl o l o' G H).
Qed.
Lemma means_many_term k : usual_term k -> means (add_many_variables_term iv k) (fun l => l) (fun d => many_val d k) (fun d => many_fits d k) (fun d => many_cut d k).
Proof.
  intros U. destruct k as [k|w|m]; cbn [many_val many_fits many_cut]; [| |now apply means_many]; intros o l o' G H; unfold add_many_variables_term in H; cbn [one_term_type one_term_function] in H.
  - destruct U as [TY _]. rewrite TY in H. exact (means_ret _ (@nil aexpr) (fun l => l) eq_refl o l o' G H).
  - destruct U as (TY & FU & _). rewrite TY in H. cbn [String.eqb Ascii.eqb Bool.eqb] in H. rewrite bind_ok in H. destruct H as (fn & oo & H1 & H). apply lift_ok in H1. destruct H1 as [[= <-] <-].
    assert (is_many_function (w_function w) = false) as IM by (destruct FU as [<-|[<-|[]]]; reflexivity). rewrite IM in H. exact (means_ret _ (@nil aexpr) (fun l => l) eq_refl o l o' G H).
Qed.
Definition obj_cut (d : dispatch) (k : one_term) : Prop := match k with TTwo w => covered (quantity d) (single d) c assets (TTwo w) | TMany m => near d m | TSimple _ => True end.
Lemma means_objective ks : Forall usual_term ks ->
  means (get_objective (ObjTerms ks) iv (sc_idata c)) (fun e => [e]) (fun d => objective_sum (quantity d) (single d) c assets ks)
    (fun d => Forall (covered (quantity d) (single d) c assets) ks) (fun d => Forall (obj_cut d) ks).
Proof.
  intros U o e o' G H. cbn [get_objective] in H. rewrite bind_ok in H. destruct H as (sm & o1 & H1 & H). apply lift_ok in H1. destruct H1 as [H1 <-].
  rewrite bind_ok in H. destruct H as (tw & o2 & H2 & H). unfold add_two_variable_terms in H2. rewrite bind_ok in H2. destruct H2 as (ls2 & o3 & H2 & H3). apply ret_ok in H3. destruct H3 as [<- <-].
  rewrite bind_ok in H. destruct H as (mn & o4 & H4 & H). unfold add_many_variables_terms in H4. rewrite bind_ok in H4. destruct H4 as (ls4 & o5 & H4 & H5). apply ret_ok in H5. destruct H5 as [<- <-].
  apply ret_ok in H. destruct H as [<- <-]. destruct (simple_part ks sm U H1) as [VS ES]. pose proof U as U'. rewrite Forall_forall in U'.
  pose proof (step_pure o sm _ G VS ES) as S1.
  pose proof (means_forM ks _ _ (fun k d => two_val d k) (fun k d => two_fits d k) (fun k d => two_fits d k) (fun k Ik => means_two_term k (U' k Ik)) _ _ _ G H2) as S2.
  pose proof (means_forM ks _ _ (fun k d => many_val d k) (fun k d => many_fits d k) (fun k d => many_cut d k) (fun k Ik => means_many_term k (U' k Ik)) _ _ _ (sm_good _ _ _ _ _ _ S2) H4) as S3.
  rewrite flat_id in S2, S3. pose proof (step_seq _ _ _ _ _ _ _ _ _ _ _ G S1 (step_seq _ _ _ _ _ _ _ _ _ _ _ G S2 S3)) as S.
  destruct S as [SG SN SV SB (ok & K1 & K2 & K3 & K4)]. set (L := (sm ++ List.concat ls2 ++ List.concat ls4)%list) in *.
  assert (forall s, total_of s [esum L] == total_of s L) as TT by (intros s; unfold total_of; cbn [map]; unfold Qsum at 1; cbn [fold_right]; rewrite eval_esum; ring).
  assert (forall d, Qsum (map (simple_val d) ks) + (Qsum (map (fun k => two_val d k) ks) + Qsum (map (fun k => many_val d k) ks)) == objective_sum (quantity d) (single d) c assets ks) as SUM.
  { intros d. rewrite <- !Qsum_map_plus. apply Qsum_map_ext. intros k _. destruct k; cbn [simple_val two_val many_val term_value]; ring. }
  constructor; auto.
  - intros y v [<-|[]] Iv. rewrite evars_esum in Iv. apply in_flat_map in Iv. destruct Iv as (y & Iy & Iv). eauto.
  - exists ok. splits.
    + intros d AD. apply K1. splits; auto; intros k Ik; rewrite Forall_forall in AD; specialize (AD k Ik); destruct k; auto; exact Logic.I.
    + intros d OK. destruct (K2 d OK) as (_ & C1 & C2). rewrite Forall_forall. intros k Ik. specialize (C1 k Ik). specialize (C2 k Ik). destruct k; cbn [obj_cut]; auto.
    + intros d s V F. destruct (K3 d s V F) as [A B]. split; auto. rewrite TT, <- SUM. exact B.
    + intros d s V Fs F OK. destruct (K4 d s V Fs F OK) as (s' & A1 & A2 & A3 & A4). exists s'. splits; auto.
      * intros y [<-|[]]. unfold vars_ok. rewrite Forall_forall. intros v Iv. rewrite evars_esum in Iv. apply in_flat_map in Iv. destruct Iv as (y & Iy & Iv). specialize (A3 y Iy). unfold vars_ok in A3. rewrite Forall_forall in A3. auto.
      * rewrite TT, A4. apply SUM.
Qed.
End Means.
