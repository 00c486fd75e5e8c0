(** * ShiftRun: solving and reading the results does not look at identities either *)
From Verif Require Import Base Pulp Params Optimizer Types Assets EVs Site Constraints Objectives Extract Pipeline Prim Emit Shift.
Open Scope Q_scope.

Section ShiftRun.
Variable d : nat.
Notation rho := (fun v => (v_id v + d)%nat). Notation nxt := (fun i => (i + d)%nat).
Notation sv := (sv rho). Notation se := (se rho). Notation sf := (sf rho). Notation so := (so rho nxt). Notation soi := (soi rho). Notation siv := (siv rho).

Lemma occurrences_by o : all_occurrences (so o) = map sv (all_occurrences o).
Proof.
  unfold all_occurrences. rewrite map_app. f_equal.
  - cbn. destruct (o_obj o); cbn; [apply evars_se|reflexivity].
  - cbn [Shift.so o_cons]. induction (o_cons o) as [|x l IH]; cbn; auto. rewrite map_app, IH. f_equal. apply evars_se.
Qed.
Lemma eqb_shift a b : Nat.eqb (a + d) (b + d) = Nat.eqb a b.
Proof. destruct (Nat.eqb_spec a b), (Nat.eqb_spec (a + d) (b + d)); auto; lia. Qed.
Lemma occurs_by o v : occurs (so o) (sv v) = occurs o v.
Proof. unfold occurs. rewrite occurrences_by. induction (all_occurrences o) as [|x l IH]; auto. cbn [map existsb]. rewrite IH. cbn [Shift.sv v_id]. now rewrite eqb_shift. Qed.
Lemma dedup_by l : forall seen, dedup_id (map (fun i => i + d)%nat seen) (map sv l) = map sv (dedup_id seen l).
Proof.
  induction l as [|v l IH]; intros seen; cbn; auto.
  assert (existsb (Nat.eqb (v_id v + d)) (map (fun i => (i + d)%nat) seen) = existsb (Nat.eqb (v_id v)) seen) as ->.
  { induction seen as [|i s IHs]; cbn; auto. now rewrite IHs, eqb_shift. }
  destruct (existsb _ seen); auto. cbn. f_equal. apply (IH (v_id v :: seen)).
Qed.
Lemma names_by o : map v_name (variables (so o)) = map v_name (variables o).
Proof. unfold variables. rewrite occurrences_by, (dedup_by _ []), map_map. reflexivity. Qed.

(** two answers of a solver that say the same about renamed variables *)
Definition same_answer (s s' : solution) : Prop := sol_status s' = sol_status s /\ (forall i, sol_value s' (i + d) = sol_value s i) /\ sol_dummy s' = sol_dummy s.
Variables (o : opt) (sol sol' : solution).
Hypothesis SA : same_answer sol sol'.
Lemma value_by v : var_value (so o) sol' (sv v) = var_value o sol v.
Proof. unfold var_value. rewrite occurs_by. destruct (occurs o v); auto. apply SA. Qed.
Lemma terms_by l : terms_value (so o) sol' (map (fun t => (sv (fst t), snd t)) l) = terms_value o sol l.
Proof. induction l as [|[v k] l IH]; cbn [map terms_value fst snd]; auto. now rewrite value_by, IH. Qed.
Lemma expr_by e : expr_value (so o) sol' (se e) = expr_value o sol e.
Proof. unfold expr_value. destruct SA as (_ & _ & ->). cbn [Shift.se e_terms e_const]. rewrite terms_by. unfold is_constant, Shift.se. cbn [e_terms]. destruct (e_terms e); reflexivity. Qed.

Section Values.
Variables (V V' : values).
Hypothesis HV : forall v, V' (sv v) = V v.
Lemma value_of_by f cl : value_of V' (sf f) cl = value_of V f cl.
Proof. destruct f; cbn [Shift.sf value_of]; auto. unfold value_of. now rewrite HV. Qed.
Lemma dot_by f : dot_value V' (sf f) = dot_value V f.
Proof. destruct f; cbn [Shift.sf dot_value]; auto. now rewrite HV. Qed.
Definition sa (a : string * fval) : string * fval := (fst a, sf (snd a)).
Lemma cells_by n cl l : attr_cells V' n cl (map sa l) = attr_cells V n cl l.
Proof. unfold attr_cells. induction l as [|x l IH]; cbn [map rmap]; auto. unfold sa at 1. cbn [snd fst]. now rewrite value_of_by, IH. Qed.
Lemma cells_raw_by n l : attr_cells_raw V' n (map sa l) = attr_cells_raw V n l.
Proof. unfold attr_cells_raw. induction l as [|x l IH]; cbn [map rmap]; auto. unfold sa at 1. cbn [snd fst]. now rewrite dot_by, IH. Qed.
Lemma object_by x : extract_object V' (soi x) = extract_object V x.
Proof.
  destruct x; cbn [extract_object Shift.soi]; auto; (rewrite <- cells_by; reflexivity) || (rewrite <- cells_raw_by; reflexivity).
Qed.
Lemma req_same_map {A B C} (f : A -> B) (F : A -> res C) (G : B -> res C) l : (forall x, G (f x) = F x) -> rmap G (map f l) = rmap F l.
Proof. intros H. induction l as [|x l IH]; cbn; auto. now rewrite H, IH. Qed.
Lemma kind_by iv i k : extract_kind V' (siv iv) i k = extract_kind V iv i k.
Proof.
  symmetry. apply req_eq. unfold extract_kind. eapply req_bind; [apply req_filter|]. intros l ? ->. rewrite (req_same_map soi (extract_object V)) by apply object_by. apply req_refl.
Qed.
Lemma site_by dt iv i : extract_site V' dt (siv iv) i = extract_site V dt iv i.
Proof.
  symmetry. apply req_eq. unfold extract_site. eapply req_bind; [apply req_filter|]. intros l ? ->. destruct l as [|x [|y l]]; cbn [map]; try reflexivity; destruct x; cbn [Shift.soi]; try reflexivity.
  cbn [Shift.s_site tio_import tio_export]. rewrite !HV. apply req_refl.
Qed.
Lemma sum_values_by fs : sum_values V' (map sf fs) = sum_values V fs.
Proof. unfold sum_values. rewrite (req_same_map sf (fun f => value_of V f false)); auto. intros x. apply value_of_by. Qed.
Lemma sum_values_ext {A} (f g : A -> fval) l : (forall x, g x = sf (f x)) -> sum_values V' (map g l) = sum_values V (map f l).
Proof. intros H. rewrite (map_ext g (fun x => sf (f x)) H), <- (map_map f sf). apply sum_values_by. Qed.
Lemma charger_by a b kc : same_arr rho a b -> ev_charger_cells V' b kc = ev_charger_cells V a kc.
Proof.
  intros (H & H1 & H2 & H3 & H4 & H5 & H6 & H7). unfold ev_charger_cells. cbv zeta. rewrite H. destruct (Nat.ltb _ _); auto. unfold ev_charger_attrs. cbn [rmap snd].
  rewrite (sum_values_ext (fun e => ea_charge a e (fst kc)) (fun e => ea_charge b e (fst kc))) by (intros e; apply H3).
  rewrite (sum_values_ext (fun e => ea_charge_bin a e (fst kc)) (fun e => ea_charge_bin b e (fst kc))) by (intros e; apply H4).
  rewrite (sum_values_ext (fun e => ea_discharge a e (fst kc)) (fun e => ea_discharge b e (fst kc))) by (intros e; apply H5).
  rewrite (sum_values_ext (fun e => ea_discharge_bin a e (fst kc)) (fun e => ea_discharge_bin b e (fst kc))) by (intros e; apply H6).
  rewrite (sum_values_ext (fun e => ea_loss a e (fst kc)) (fun e => ea_loss b e (fst kc))) by (intros e; apply H7). reflexivity.
Qed.
Lemma event_by a b ee : same_arr rho a b -> ev_event_cells V' b ee = ev_event_cells V a ee.
Proof.
  intros (H & H1 & H2 & H3 & H4 & H5 & H6 & H7). unfold ev_event_cells. cbv zeta. rewrite H. unfold ev_event_attrs. cbn [rmap snd].
  rewrite (sum_values_ext (fun k => ea_charge a (fst ee) k) (fun k => ea_charge b (fst ee) k)) by (intros e; apply H3).
  rewrite (sum_values_ext (fun k => ea_discharge a (fst ee) k) (fun k => ea_discharge b (fst ee) k)) by (intros e; apply H5).
  rewrite (sum_values_ext (fun k => ea_loss a (fst ee) k) (fun k => ea_loss b (fst ee) k)) by (intros e; apply H7). reflexivity.
Qed.
Lemma rmap_ext {A B} (F G : A -> res B) l : (forall x, G x = F x) -> rmap G l = rmap F l.
Proof. intros H. induction l as [|x l IH]; cbn; auto. now rewrite H, IH. Qed.
Lemma soc_by a b n f g : same_arr rho a b -> same1 rho f g -> ev_soc_cells V' b (n, g) = ev_soc_cells V a (n, f).
Proof. intros (H & _) S. unfold ev_soc_cells. cbv zeta. rewrite H. apply rmap_ext. intros e. cbn [snd fst]. now rewrite S, dot_by. Qed.
Lemma ev_cells_by a b : same_arr rho a b -> ev_cells V' b = ev_cells V a.
Proof.
  intros S. pose proof S as (H & H1 & H2 & _). unfold ev_cells. cbv zeta. rewrite H. rewrite (rmap_ext (ev_charger_cells V a) (ev_charger_cells V' b)) by (intros; now apply charger_by).
  rewrite (rmap_ext (ev_event_cells V a) (ev_event_cells V' b)) by (intros; now apply event_by). cbn [rmap].
  rewrite (soc_by a b _ (ea_soc0 a) (ea_soc0 b)), (soc_by a b _ (ea_soc1 a) (ea_soc1 b)) by auto. reflexivity.
Qed.
Lemma ev_spill_by a b : same_arr rho a b -> ev_spill_cells V' b = ev_spill_cells V a.
Proof.
  intros S. pose proof S as (H & _). unfold ev_spill_cells. rewrite H. rewrite (rmap_ext (ev_charger_cells V a) (ev_charger_cells V' b)) by (intros; now apply charger_by). reflexivity.
Qed.
Lemma rmap_f2 {A B C} (R : A -> B -> Prop) (F : A -> res C) (G : B -> res C) l l' : (forall a b, R a b -> G b = F a) -> Forall2 R l l' -> rmap G l' = rmap F l.
Proof. intros H K. induction K as [|a b l l' r K IH]; cbn; auto. now rewrite (H _ _ r), IH. Qed.
Lemma evs_by names iv i : extract_evs V' names (siv iv) i = extract_evs V names iv i.
Proof.
  symmetry. apply req_eq. unfold extract_evs. eapply req_bind; [apply req_filter|]. intros l ? ->. destruct l as [|x l]; [reflexivity|]. cbn [map]. cbv zeta.
  eapply req_bind; [eapply (req_map eq (same_arr rho)); [apply f2_same|intros n ? <-; apply req_array]|]. intros p q K. rewrite (rmap_f2 _ _ _ _ _ ev_cells_by K). eapply req_bind; [apply req_refl|]. intros l1 ? <-.
  eapply req_bind; [eapply (req_map eq (same_arr rho)); [apply f2_same|intros n ? <-; apply req_array]|]. intros p2 q2 K2. rewrite (rmap_f2 _ _ _ _ _ ev_spill_by K2). apply req_refl.
Qed.
Lemma row_by dt names iv i : extract_row V' dt names (siv iv) i = extract_row V dt names iv i.
Proof. unfold extract_row. now rewrite site_by, !kind_by, evs_by. Qed.
Lemma results_by dt assets iv st fl : extract_results V' dt assets (siv iv) st fl = extract_results V dt assets iv st fl.
Proof. unfold extract_results. now rewrite (rmap_ext (extract_row V dt (map asset_name assets) iv)) by (intros; apply row_by). Qed.
End Values.
End ShiftRun.

(** A solver that does not look at identities *)
Definition blind (slv : solver) : Prop := forall d o, same_answer d (slv o) (slv (so (fun v => (v_id v + d)%nat) (fun i => (i + d)%nat) o)).

Lemma program_shift d c assets cons obj fl base :
  match build_program c assets cons obj fl (new_optimizer base) with
  | Ok (iv, o) => build_program c assets cons obj fl (new_optimizer (base + d)) = Ok (siv (fun v => (v_id v + d)%nat) iv, so (fun v => (v_id v + d)%nat) (fun i => (i + d)%nat) o)
  | Err e => build_program c assets cons obj fl (new_optimizer (base + d)) = Err e
  end.
Proof.
  pose proof (eqv_program (fun v => (v_id v + d)%nat) (fun i => (i + d)%nat) None (fun n _ _ _ _ _ => conj eq_refl eq_refl) c assets cons obj fl (new_optimizer base)) as E.
  change (so (fun v => (v_id v + d)%nat) (fun i => (i + d)%nat) (new_optimizer base)) with (new_optimizer (base + d)) in E.
  destruct (build_program c assets cons obj fl (new_optimizer base)) as [[iv o]|e]; [|auto]. specialize (E I).
  destruct (build_program c assets cons obj fl (new_optimizer (base + d))) as [[iv' o']|e']; [|contradiction]. destruct E as [-> ->]. reflexivity.
Qed.
Lemma optimize_shift slv base d c assets cons obj fl : blind slv ->
  optimize slv (base + d) c assets cons obj fl = optimize slv base c assets cons obj fl.
Proof.
  intros B. unfold optimize. pose proof (program_shift d c assets cons obj fl base) as E.
  destruct (build_program c assets cons obj fl (new_optimizer base)) as [[iv o]|e]; rewrite E; [|reflexivity]. clear E.
  unfold solve, assert_no_duplicate_variables. rewrite names_by. destruct (rassert _); cbn [rbind]; auto.
  pose proof (B d o) as SA. destruct SA as (S1 & S2 & S3). rewrite S1.
  assert (match o_obj (so (fun v => (v_id v + d)%nat) (fun i => (i + d)%nat) o) with Some e => expr_value (so (fun v => (v_id v + d)%nat) (fun i => (i + d)%nat) o) (slv (so (fun v => (v_id v + d)%nat) (fun i => (i + d)%nat) o)) e | None => None end = match o_obj o with Some e => expr_value o (slv o) e | None => None end) as ->.
  { cbn. destruct (o_obj o) as [e|]; cbn; auto. apply expr_by. now splits. }
  destruct (if allow_infeasible fl then _ else _); cbn [rbind fst snd]; auto. apply results_by. intros v. apply value_by. now splits.
Qed.

(** ** The variables of a program are those made while it was built *)
Lemma program_lower c assets cons obj fl base iv o : build_program c assets cons obj fl (new_optimizer base) = Ok (iv, o) ->
  forall v, In v (all_occurrences o) -> (base <= v_id v)%nat.
Proof.
  intros E. pose proof (program_shift base c assets cons obj fl 0) as S. destruct (build_program c assets cons obj fl (new_optimizer 0)) as [[iv0 o0]|e]; cbn [Nat.add] in S; rewrite E in S; [|discriminate].
  injection S as _ ->. intros v I. rewrite occurrences_by in I. apply in_map_iff in I. destruct I as (w & <- & _). cbn. lia.
Qed.
Lemma program_upper c assets cons obj fl base iv o : build_program c assets cons obj fl (new_optimizer base) = Ok (iv, o) ->
  forall v, In v (all_occurrences o) -> (v_id v < o_next o)%nat.
Proof.
  intros E v I. set (K := o_next o) in *. set (g := fun v => if (v_id v <? K)%nat then v_id v else S (v_id v)).
  assert (forall n name int lo up, below (Some K) (S n) -> id n = g (mkVar n name int lo up) /\ id (S n) = S (id n)) as H.
  { intros n nm it lo up L. cbn in L. unfold g, id. cbn [v_id]. destruct (Nat.ltb_spec n K); lia. }
  pose proof (eqv_program g id (Some K) H c assets cons obj fl (new_optimizer base)) as S. change (so g id (new_optimizer base)) with (new_optimizer base) in S.
  rewrite E in S. destruct (S (le_n _)) as [_ S2].
  assert (all_occurrences o = map (sv g) (all_occurrences o)) as X.
  { rewrite S2 at 1. unfold all_occurrences. rewrite map_app. f_equal.
    - cbn. destruct (o_obj o); cbn; [apply evars_se|reflexivity].
    - cbn [Shift.so o_cons]. clear. induction (o_cons o) as [|x l IH]; cbn; auto. rewrite map_app, IH. f_equal. apply evars_se. }
  assert (v = sv g v) as Y. { revert I X. generalize (all_occurrences o) as l. induction l as [|x l IH]; intros [] X; cbn in X; injection X as X1 X2; [now subst x|auto]. }
  apply (f_equal v_id) in Y. cbn in Y. unfold g in Y. destruct (Nat.ltb_spec (v_id v) K); lia.
Qed.
