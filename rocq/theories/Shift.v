(** * Shift: building a program does not look at the identities of variables.
    Everything is renamed by a function [rho] giving the new identities of variables that maps the next
    identity to the next one, as long as no identity above [top] is made.  The functions that make no
    variables need no assumption on [rho]. *)
From Verif Require Import Base Pulp Params Optimizer Types Assets EVs Site Constraints Objectives Extract Pipeline Prim Emit Mono.
Open Scope Q_scope.

Section Shift.
Variable rho : lpvar -> nat.    (* the new identities of variables *)
Variable nxt : nat -> nat.      (* the counter of identities *)
Variable top : option nat.
Definition below (n : nat) : Prop := match top with Some K => (n <= K)%nat | None => True end.
Hypothesis rho_S : forall n name int lo up, below (S n) -> nxt n = rho (mkVar n name int lo up) /\ nxt (S n) = S (nxt n).
Lemma below_le m n : (m <= n)%nat -> below n -> below m.
Proof. unfold below. destruct top; auto. lia. Qed.
Definition sv (v : lpvar) : lpvar := mkVar (rho v) (v_name v) (v_int v) (v_low v) (v_up v).
Definition se (e : aexpr) : aexpr := mkExpr (map (fun t => (sv (fst t), snd t)) (e_terms e)) (e_const e).
Definition sc (c : constr) : constr := mkC (se (c_expr c)) (c_sense c).
Definition sf (f : fval) : fval := match f with FVar v => FVar (sv v) | f => f end.
Definition so (o : opt) : opt :=
  mkOpt (nxt (o_next o)) (map (fun nc => (fst nc, sc (snd nc))) (o_cons o)) (option_map se (o_obj o)).
Definition s_battery (r : battery_oi) := mkBatteryOI (boi_cfg r) (sv (boi_charge r)) (sv (boi_charge_bin r)) (sv (boi_discharge r)) (sv (boi_discharge_bin r)) (sv (boi_loss r)) (sv (boi_initial r)) (sv (boi_final r)).
Definition s_boiler (r : boiler_oi) := mkBoilerOI (kboi_cfg r) (sv (kboi_ht r)) (sv (kboi_gas r)) (sv (kboi_bin r)).
Definition s_chp (r : chp_oi) := mkChpOI (coi_cfg r) (sv (coi_bin r)) (sv (coi_elec r)) (sv (coi_gas r)) (sv (coi_ht r)) (sv (coi_lt r)).
Definition s_hp (r : hp_oi) := mkHpOI (hoi_cfg r) (sv (hoi_elec r)) (sv (hoi_bin r)) (sv (hoi_lt r)) (sv (hoi_ht r)).
Definition s_rg (r : rg_oi) := mkRgOI (roi_cfg r) (sv (roi_elec r)).
Definition s_spill (r : spill_oi) := mkSpillOI (soi_name r) (sv (soi_elec_gen r)) (sv (soi_elec_load r)) (sv (soi_ht_gen r)) (sv (soi_lt_load r)).
Definition s_valve (r : valve_oi) := mkValveOI (voi_name r) (sv (voi_ht_load r)) (sv (voi_lt_gen r)).
Definition s_ev (r : ev_oi) := mkEvOI (eoi_cfg r) (eoi_i r) (eoi_event r) (eoi_event_cfg r) (eoi_charger r) (eoi_charger_cfg r)
  (sf (eoi_charge r)) (sf (eoi_charge_bin r)) (sf (eoi_discharge r)) (sf (eoi_discharge_bin r)) (sf (eoi_soc0 r)) (sf (eoi_soc1 r)) (sf (eoi_loss r)).
Definition s_site (r : site_oi) := mkSiteOI (tio_name r) (sv (tio_import r)) (sv (tio_export r)) (sv (tio_import_bin r)) (sv (tio_export_bin r)) (tio_import_limit r) (tio_export_limit r).
Definition soi (x : oneint) : oneint :=
  match x with
  | OISite r => OISite (s_site r) | OIBattery r => OIBattery (s_battery r) | OIBoiler r => OIBoiler (s_boiler r)
  | OICHP r => OICHP (s_chp r) | OIEv r => OIEv (s_ev r) | OIEvSpill r => OIEvSpill (s_ev r)
  | OIHeatPump r => OIHeatPump (s_hp r) | OIRenewable r => OIRenewable (s_rg r) | OISpill r => OISpill (s_spill r)
  | OIValve r => OIValve (s_valve r)
  end.
Definition siv (iv : interval_vars) : interval_vars := map (map soi) iv.

(** ** Expressions *)
Lemma se_var v : se (evar v) = evar (sv v).
Proof. reflexivity. Qed.
Lemma se_const q : se (econst q) = econst q.
Proof. reflexivity. Qed.
Lemma se_add a b : se (eadd a b) = eadd (se a) (se b).
Proof. unfold se, eadd. cbn. now rewrite map_app. Qed.
Lemma se_scale a q : se (escale a q) = escale (se a) q.
Proof. unfold se, escale. destruct (Qeq_bool q 0); [reflexivity|]. cbn. now rewrite !map_map. Qed.
Lemma se_neg a : se (eneg a) = eneg (se a).
Proof. unfold se, eneg. cbn. now rewrite !map_map. Qed.
Lemma se_sub a b : se (esub a b) = esub (se a) (se b).
Proof. unfold esub. now rewrite se_add, se_neg. Qed.
Lemma se_sum l : se (esum l) = esum (map se l).
Proof.
  unfold esum. rewrite <- (se_const 0) at 2. generalize (econst 0) as a. induction l as [|x l IH]; intros a; cbn; auto. now rewrite IH, se_add.
Qed.
Lemma se_f f : se (fexpr f) = fexpr (sf f).
Proof. destruct f; reflexivity. Qed.
Lemma sc_le a b : sc (cle a b) = cle (se a) (se b).
Proof. unfold sc, cle. cbn. now rewrite se_sub. Qed.
Lemma sc_ge a b : sc (cge a b) = cge (se a) (se b).
Proof. unfold sc, cge. cbn. now rewrite se_sub. Qed.
Lemma sc_eq a b : sc (ceq a b) = ceq (se a) (se b).
Proof. unfold sc, ceq. cbn. now rewrite se_sub. Qed.
Hint Rewrite se_var se_const se_add se_scale se_neg se_sub se_sum se_f sc_le sc_ge sc_eq : sh.
Lemma evars_se e : evars (se e) = map sv (evars e).
Proof. unfold evars, se. cbn. now rewrite !map_map. Qed.

(** ** Results and computations *)
Definition rfun {A B} (f : A -> B) (r : res A) : res B := match r with Ok a => Ok (f a) | Err e => Err e end.
Definition req {A B} (R : A -> B -> Prop) (r : res A) (r' : res B) : Prop :=
  match r, r' with Ok a, Ok b => R a b | Err e, Err e' => e = e' | _, _ => False end.
Definition by_f {A B} (f : A -> B) (a : A) (b : B) : Prop := b = f a.
Definition eqv {A B} (R : A -> B -> Prop) (m : M A) (m' : M B) : Prop :=
  forall o, match m o with
            | Ok (a, o1) => below (o_next o1) -> match m' (so o) with Ok (b, o2) => R a b /\ o2 = so o1 | Err _ => False end
            | Err e => top = None -> m' (so o) = Err e
            end.
Lemma req_bind {A B A' B'} (R : A -> A' -> Prop) (S : B -> B' -> Prop) m m' f f' :
  req R m m' -> (forall a a', R a a' -> req S (f a) (f' a')) -> req S (rbind m f) (rbind m' f').
Proof. destruct m, m'; cbn; intros H K; try contradiction; auto. Qed.
Lemma req_refl {A} (r : res A) : req eq r r.
Proof. destruct r; cbn; auto. Qed.
Lemma req_map {A B A' B'} (R : A -> A' -> Prop) (S : B -> B' -> Prop) f f' l l' : Forall2 R l l' ->
  (forall a a', R a a' -> req S (f a) (f' a')) -> req (Forall2 S) (rmap f l) (rmap f' l').
Proof.
  intros F K. induction F as [|a a' l l' H F IH]; cbn; [constructor|]. eapply req_bind; [apply K, H|]. intros b b' Hb.
  eapply req_bind; [exact IH|]. intros c c' Hc. cbn. now constructor.
Qed.
Lemma req_impl {A B} (R S : A -> B -> Prop) r r' : req R r r' -> (forall a b, R a b -> S a b) -> req S r r'.
Proof. destruct r, r'; cbn; auto. Qed.
Lemma req_eq {A} (r r' : res A) : req eq r r' -> r = r'.
Proof. destruct r, r'; cbn; try tauto; congruence. Qed.
Lemma f2_by {A B} (f : A -> B) l l' : Forall2 (by_f f) l l' <-> l' = map f l.
Proof.
  split. - induction 1 as [|a b l l' H F IH]; cbn; auto. unfold by_f in H. congruence. - intros ->. induction l; cbn; constructor; auto. reflexivity.
Qed.
Lemma f2_same {A} (l : list A) : Forall2 eq l l.
Proof. induction l; auto. Qed.
Lemma eqv_ret {A B} (R : A -> B -> Prop) a b : R a b -> eqv R (ret a) (ret b).
Proof. intros H o. cbn. auto. Qed.
Lemma eqv_bind {A B A' B'} (R : A -> A' -> Prop) (S : B -> B' -> Prop) m m' f f' :
  eqv R m m' -> (forall a a', R a a' -> eqv S (f a) (f' a')) -> (forall a, Mono (f a)) -> eqv S (bind m f) (bind m' f').
Proof.
  intros H K MF o. specialize (H o). unfold bind. destruct (m o) as [[a o1]|e]; [|intros T; now rewrite (H T)].
  destruct (f a o1) as [[b o2]|e] eqn:F.
  - intros L. assert (below (o_next o1)) as L1 by (exact (below_le _ _ (MF a o1 b o2 F) L)). specialize (H L1).
    destruct (m' (so o)) as [[a' o1']|]; [|contradiction]. destruct H as [H ->]. specialize (K a a' H o1). rewrite F in K. exact (K L).
  - intros T. assert (below (o_next o1)) as L1 by (unfold below; now rewrite T). specialize (H L1).
    destruct (m' (so o)) as [[a' o1']|]; [|contradiction]. destruct H as [H ->]. specialize (K a a' H o1). rewrite F in K. auto.
Qed.
Ltac bound := eapply eqv_bind; [| |typeclasses eauto].
Ltac bound_by R := eapply (eqv_bind R); [| |typeclasses eauto].
Lemma eqv_raise {A B} (R : A -> B -> Prop) e : eqv R (raise e) (raise e).
Proof. intros o. cbn. reflexivity. Qed.
Lemma eqv_lift {A B} (R : A -> B -> Prop) r r' : req R r r' -> eqv R (lift r) (lift r').
Proof. intros H o. unfold lift. destruct r, r'; cbn in H; try tauto; auto. intros _. congruence. Qed.
Lemma eqv_massert b b' : b = b' -> eqv eq (massert b) (massert b').
Proof. intros <- o. destruct b; cbn; auto. Qed.
Lemma eqv_forM_ {A A'} (R : A -> A' -> Prop) l l' f f' : Forall2 R l l' -> (forall a a', R a a' -> eqv eq (f a) (f' a')) -> (forall x, Mono (f x)) -> eqv eq (forM_ l f) (forM_ l' f').
Proof.
  intros F K MF. induction F as [|a a' l l' H F IH]; cbn; [now apply eqv_ret|]. bound; [apply K, H|]. intros _ _ _. exact IH.
Qed.
Lemma eqv_forM {A A' B B'} (R : A -> A' -> Prop) (S : B -> B' -> Prop) l l' f f' : Forall2 R l l' -> (forall a a', R a a' -> eqv S (f a) (f' a')) -> (forall x, Mono (f x)) ->
  eqv (Forall2 S) (forM l f) (forM l' f').
Proof.
  intros F K MF. induction F as [|a a' l l' H F IH]; cbn; [now apply eqv_ret|]. bound; [apply K, H|]. intros b b' Hb.
  bound; [exact IH|]. intros c c' Hc. apply eqv_ret. now constructor.
Qed.
Lemma eqv_impl {A B} (R S : A -> B -> Prop) m m' : eqv R m m' -> (forall a b, R a b -> S a b) -> eqv S m m'.
Proof. intros H K o. specialize (H o). destruct (m o) as [[a o1]|]; auto. intros L. specialize (H L). destruct (m' (so o)) as [[b o2]|]; try tauto. destruct H. auto. Qed.
Lemma eqv_continuous n l u : eqv (by_f sv) (continuous n l u) (continuous n l u).
Proof. intros o. cbn. intros L. destruct (rho_S _ (sanitize n) false l u L) as [R1 R2]. unfold by_f, so, sv. cbn. now rewrite R1, R2, <- R1. Qed.
Lemma eqv_binary n : eqv (by_f sv) (binary n) (binary n).
Proof. intros o. cbn. intros L. destruct (rho_S _ (sanitize n) true (Some 0) (Some 1) L) as [R1 R2]. unfold by_f, so, sv. cbn. now rewrite R1, R2, <- R1. Qed.
Lemma eqv_named c c' n : c' = sc c -> eqv eq (constrain_named c n) (constrain_named c' n).
Proof.
  intros -> o. unfold constrain_named. destruct n as [n|].
  - cbn [so o_cons]. assert (existsb (fun nc : option string * constr => match fst nc with Some m => String.eqb n m | None => false end) (map (fun nc => (fst nc, sc (snd nc))) (o_cons o))
      = existsb (fun nc : option string * constr => match fst nc with Some m => String.eqb n m | None => false end) (o_cons o)) as ->.
    { induction (o_cons o) as [|x l IH]; cbn; auto. now rewrite IH. }
    destruct (existsb _ _); auto. split; auto. unfold so. cbn. now rewrite map_app.
  - split; auto. unfold so. cbn. now rewrite map_app.
Qed.
Lemma eqv_constrain c c' : c' = sc c -> eqv eq (constrain c) (constrain c').
Proof. apply eqv_named. Qed.
Lemma eqv_objective e e' : e' = se e -> eqv eq (set_objective e) (set_objective e').
Proof. intros -> o. cbn. auto. Qed.
Lemma eqv_max c b q : eqv eq (constrain_max c b q) (constrain_max (sf c) (sf b) q).
Proof. apply eqv_constrain. now autorewrite with sh. Qed.
Lemma eqv_min c b q : eqv eq (constrain_min c b q) (constrain_min (sf c) (sf b) q).
Proof. apply eqv_constrain. now autorewrite with sh. Qed.

Ltac step :=
  match goal with
  | |- eqv _ (bind _ _) (bind _ _) => bound
  | |- eqv _ (continuous _ _ _) _ => apply eqv_continuous
  | |- eqv _ (binary _) _ => apply eqv_binary
  | |- eqv _ (constrain _) _ => apply eqv_constrain; autorewrite with sh; try reflexivity
  | |- eqv _ (constrain_named _ _) _ => apply eqv_named; autorewrite with sh; try reflexivity
  | |- eqv _ (constrain_max _ _ _) _ => apply eqv_max
  | |- eqv _ (constrain_min _ _ _) _ => apply eqv_min
  | |- eqv _ (massert _) _ => apply eqv_massert
  | |- eqv _ (raise _) _ => apply eqv_raise
  | |- eqv _ (ret _) (ret _) => apply eqv_ret
  | |- forall _ _, eq _ _ -> _ => intros ? ? <-
  | |- forall _ _, by_f _ _ _ -> _ => intros ? ? ->
  end.
Ltac steps := repeat step.

(** ** The optimizer's functions *)
Lemma sf_float f : is_float (sf f) = is_float f.
Proof. destruct f; reflexivity. Qed.
Lemma eqv_min_two n a b q : eqv (by_f sv) (min_two_variables n a b q) (min_two_variables n (sf a) (sf b) q).
Proof. unfold min_two_variables. steps; try reflexivity. now rewrite !sf_float. Qed.
Lemma eqv_max_two n a b q : eqv (by_f sv) (max_two_variables n a b q) (max_two_variables n (sf a) (sf b) q).
Proof. unfold max_two_variables. steps; try reflexivity. now rewrite !sf_float. Qed.
Lemma eqv_nonneg v : eqv eq (nonneg_check v) (nonneg_check (sf v)).
Proof. destruct v; cbn; steps; auto. destruct (v_low v); steps; reflexivity. Qed.
Lemma eqv_binaries n {A B} (l : list A) (l' : list B) : forall i, List.length l = List.length l' -> eqv (by_f (map sv)) (many_binaries n i l) (many_binaries n i l').
Proof.
  revert l'. induction l as [|x l IH]; intros [|y l'] i L; cbn in L; try discriminate; cbn; steps; try reflexivity.
  - apply IH. now injection L.
  - steps. reflexivity.
Qed.
Lemma combine_by {A B A' B'} (f : A -> A') (g : B -> B') l m : combine (map f l) (map g m) = map (fun xy => (f (fst xy), g (snd xy))) (combine l m).
Proof. revert m. induction l as [|x l IH]; intros [|y m]; cbn; auto. now rewrite IH. Qed.
Lemma eqv_nonnegs vs : eqv eq (forM_ vs nonneg_check) (forM_ (map sf vs) nonneg_check).
Proof. eapply (eqv_forM_ (by_f sf)); [now apply f2_by| |typeclasses eauto]. intros v v' ->. apply eqv_nonneg. Qed.
Lemma eqv_min_many n vs q : eqv (by_f sv) (min_many_variables n vs q) (min_many_variables n (map sf vs) q).
Proof.
  unfold min_many_variables. steps; try reflexivity. { apply eqv_binaries. now rewrite map_length. }
  steps. { apply eqv_nonnegs. } steps.
  { rewrite combine_by. eapply (eqv_forM_ (by_f _)); [now apply f2_by| |typeclasses eauto]. intros v v' ->. cbn [fst snd]. steps. }
  steps; [|reflexivity]. rewrite map_length. f_equal. f_equal. now rewrite !map_map.
Qed.
Lemma eqv_max_many n vs q : eqv (by_f sv) (max_many_variables n vs q) (max_many_variables n (map sf vs) q).
Proof.
  unfold max_many_variables. steps; try reflexivity. { apply eqv_binaries. now rewrite map_length. }
  steps. { apply eqv_nonnegs. } steps.
  { rewrite combine_by. eapply (eqv_forM_ (by_f _)); [now apply f2_by| |typeclasses eauto]. intros v v' ->. cbn [fst snd]. steps. destruct (fst v); cbn [sf]; steps; reflexivity. }
  steps. reflexivity.
Qed.

(** ** Objects and filters *)
Lemma soi_name x : oi_name (soi x) = oi_name x.
Proof. destruct x; reflexivity. Qed.
Lemma soi_kind x : kind_of (soi x) = kind_of x.
Proof. destruct x; reflexivity. Qed.
Lemma soi_matches k n x : matches k n (soi x) = matches k n x.
Proof. unfold matches. now rewrite soi_name, soi_kind. Qed.
Lemma filter_by {A B} (f : A -> B) p p' l : (forall x, p' (f x) = p x) -> filter p' (map f l) = map f (filter p l).
Proof. intros H. induction l as [|x l IH]; cbn; auto. rewrite H. destruct (p x); cbn; now rewrite IH. Qed.
Lemma filter_soi k n l : filter (matches k n) (map soi l) = map soi (filter (matches k n) l).
Proof. apply filter_by. intros x. apply soi_matches. Qed.
Lemma index_by {A B} (f : A -> B) l i : req (by_f f) (py_index l i) (py_index (map f l) i).
Proof.
  unfold py_index. rewrite map_length. destruct (_ && _)%bool; [|destruct (_ && _)%bool; [|reflexivity]]; rewrite nth_error_map; destruct (nth_error _ _); cbn; reflexivity.
Qed.
Lemma hd_by {A B} (f : A -> B) l : req (by_f f) (hd_res l) (hd_res (map f l)).
Proof. apply index_by. Qed.
Lemma req_filter iv i k n : req (by_f (map soi)) (filter_objective_variables iv i k n) (filter_objective_variables (siv iv) i k n).
Proof. unfold filter_objective_variables. eapply req_bind; [apply index_by|]. intros a a' ->. cbn. unfold by_f. now rewrite filter_soi. Qed.
Lemma req_filter_str iv i t n : req (by_f (map soi)) (filter_objective_variables_str iv i t n) (filter_objective_variables_str (siv iv) i t n).
Proof. unfold filter_objective_variables_str. eapply req_bind; [apply req_refl|]. intros a a' <-. apply req_filter. Qed.
Lemma filter_all_by iv k n : filter_all_intervals (siv iv) k n = siv (filter_all_intervals iv k n).
Proof. unfold filter_all_intervals, siv. rewrite !map_map. apply map_ext. intros l. apply filter_soi. Qed.
Lemma req_filter_all_str iv t n : req (by_f siv) (filter_all_intervals_str iv t n) (filter_all_intervals_str (siv iv) t n).
Proof.
  unfold filter_all_intervals_str. destruct iv as [|x iv]; [reflexivity|]. change (siv (x :: iv)) with (map soi x :: siv iv). cbv iota. eapply req_bind; [apply req_refl|].
  intros k k' <-. cbn [req]. unfold by_f. change (map soi x :: siv iv) with (siv (x :: iv)). apply filter_all_by.
Qed.
Lemma attrs_by (f : oneint -> fval) : In f [electric_generation_mwh; high_temperature_generation_mwh; low_temperature_generation_mwh; electric_load_mwh; high_temperature_load_mwh;
    low_temperature_load_mwh; electric_charge_mwh; electric_discharge_mwh; gas_consumption_mwh; binary_attr] -> forall x, f (soi x) = sf (f x).
Proof. cbn. intros H x. repeat (destruct H as [<-|H]; [destruct x; reflexivity|]). contradiction. Qed.
Lemma req_getattr x a : req (by_f sf) (getattr x a) (getattr (soi x) a).
Proof.
  unfold getattr. assert (getattr_base (soi x) a = option_map sf (getattr_base x a)) as ->.
  { unfold getattr_base. repeat (destruct (String.eqb _ _); [cbn; f_equal; destruct x; reflexivity|]). reflexivity. }
  destruct (getattr_base x a) as [f|]; cbn [option_map]; [reflexivity|].
  assert (getattr_extra (soi x) a = option_map sf (getattr_extra x a)) as ->.
  { destruct x; cbn [getattr_extra soi]; repeat (destruct (String.eqb _ _); [reflexivity|]); reflexivity. }
  destruct (getattr_extra x a) as [f|]; cbn [option_map]; [reflexivity|]. destruct (existsb _ _); reflexivity.
Qed.

(** ** Assets *)
Ltac tick := first [step | match goal with
  | |- eqv _ (lift (filter_objective_variables _ _ _ _)) _ => apply eqv_lift, req_filter
  | |- eqv _ (lift (hd_res _)) _ => apply eqv_lift, hd_by
  end].
Ltac ticks := repeat tick.
Lemma eqv_battery c i f : eqv (by_f soi) (battery_one_interval c i f) (battery_one_interval c i f).
Proof. unfold battery_one_interval. ticks. reflexivity. Qed.
Lemma eqv_boiler c i f : eqv (by_f soi) (boiler_one_interval c i f) (boiler_one_interval c i f).
Proof. unfold boiler_one_interval. ticks. reflexivity. Qed.
Lemma eqv_chp c i f : eqv (by_f soi) (chp_one_interval c i f) (chp_one_interval c i f).
Proof. unfold chp_one_interval. ticks. reflexivity. Qed.
Lemma eqv_hp c i f : eqv (by_f soi) (hp_one_interval c i f) (hp_one_interval c i f).
Proof. unfold hp_one_interval. cbv zeta. ticks. reflexivity. Qed.
Lemma eqv_rg c i : eqv (by_f soi) (rg_one_interval c i) (rg_one_interval c i).
Proof. unfold rg_one_interval. cbv zeta. ticks; try reflexivity. { apply eqv_lift, req_refl. } ticks. reflexivity. Qed.
Lemma eqv_spill n i : eqv (by_f soi) (spill_one_interval n i) (spill_one_interval n i).
Proof. unfold spill_one_interval. ticks. reflexivity. Qed.
Lemma eqv_valve n i : eqv (by_f soi) (valve_one_interval n i) (valve_one_interval n i).
Proof. unfold valve_one_interval. ticks. reflexivity. Qed.
Lemma req_as_battery x : req (by_f s_battery) (as_battery x) (as_battery (soi x)).
Proof. destruct x; reflexivity. Qed.
Lemma eqv_connect l : forall m, eqv eq (connect_batteries l m) (connect_batteries (map soi l) (map soi m)).
Proof.
  induction l as [|a l IH]; intros [|b m]; cbn [connect_batteries map]; ticks; try reflexivity. { apply eqv_lift, req_as_battery. }
  ticks. { apply eqv_lift, req_as_battery. } ticks. apply IH.
Qed.
Lemma eqv_battery_within c iv : eqv eq (battery_constrain_within c iv) (battery_constrain_within c (siv iv)).
Proof.
  unfold battery_constrain_within. ticks. { apply eqv_lift, req_as_battery. } ticks.
  { unfold constrain_only_charge_or_discharge. ticks; try exact (eqv_max (FVar _) (FVar _) _). } ticks.
  { unfold constrain_battery_electricity_balance. ticks. } ticks.
  rewrite filter_all_by. unfold constrain_connection_batteries_between_intervals. unfold siv at 1. rewrite map_length. destruct (Nat.ltb _ 2); ticks; auto.
  { apply eqv_lift, index_by. } ticks. { apply eqv_lift, index_by. } ticks. apply eqv_connect.
Qed.
Lemma eqv_battery_after c iv : eqv eq (battery_constrain_after c iv) (battery_constrain_after c (siv iv)).
Proof. unfold battery_constrain_after. ticks. { apply eqv_lift, req_as_battery. } ticks. { apply eqv_lift, req_as_battery. } ticks. Qed.
Lemma eqv_boiler_within c iv f : eqv eq (boiler_constrain_within c iv f) (boiler_constrain_within c (siv iv) f).
Proof.
  unfold boiler_constrain_within. ticks. destruct a0; cbn [soi]; ticks. { cbn [s_boiler kboi_cfg]. destruct (Qeq_bool _ 0); ticks. reflexivity. } ticks.
Qed.
Lemma eqv_chp_within c iv i f : eqv eq (chp_constrain_within c iv i f) (chp_constrain_within c (siv iv) i f).
Proof.
  unfold chp_constrain_within. ticks. destruct a0; cbn [soi]; ticks. { cbn [s_chp coi_cfg]. destruct (Qgtb _ 0); ticks. reflexivity. } ticks.
Qed.
Lemma eqv_hp_within c iv i f : eqv eq (hp_constrain_within c iv i f) (hp_constrain_within c (siv iv) i f).
Proof. unfold hp_constrain_within. ticks. destruct a0; cbn [soi]; ticks. Qed.
Lemma eqv_valve_within n iv : eqv eq (valve_constrain_within n iv) (valve_constrain_within n (siv iv)).
Proof. unfold valve_constrain_within. ticks. destruct a0; cbn [soi]; ticks. Qed.

(** ** EVs *)
Lemma eqv_ev_pair c i f fl cd sp e ec s0 s1 k cc : eqv (by_f soi) (ev_pair c i f fl cd sp e ec s0 s1 k cc) (ev_pair c i f fl cd sp e ec (sf s0) (sf s1) k cc).
Proof.
  unfold ev_pair. cbv zeta. bound_by (by_f (fun xy => (sf (fst xy), sf (snd xy)))).
  { destruct (limit_charge_variables_to_valid_events fl); ticks; try reflexivity. { apply eqv_lift, req_refl. } ticks. destruct (Qeq_bool _ 1); ticks; reflexivity. }
  intros a ? ->. bound_by (by_f (fun xy => (sf (fst xy), sf (snd xy)))).
  { destruct (_ && _)%bool; ticks; reflexivity. } ticks. destruct sp; reflexivity.
Qed.
Lemma eqv_ev_event c ch i f fl cs cd sp e ec : eqv (by_f (map soi)) (ev_event c ch i f fl cs cd sp e ec) (ev_event c ch i f fl cs cd sp e ec).
Proof.
  unfold ev_event. cbv zeta. bound_by (by_f (fun xy => (sf (fst xy), sf (snd xy)))). { destruct cs; ticks; reflexivity. }
  ticks. eapply eqv_impl; [eapply (eqv_forM eq (by_f soi)); [apply f2_same| |typeclasses eauto]|intros x y H; now apply f2_by]. intros x x' <-. apply eqv_ev_pair.
Qed.
Lemma concat_by {A B} (f : A -> B) l : List.concat (map (map f) l) = map f (List.concat l).
Proof. now rewrite concat_map. Qed.
Lemma eqv_evs_for c ch i f fl cs cd sp : eqv (by_f (map soi)) (evs_one_interval_for c ch i f fl cs cd sp) (evs_one_interval_for c ch i f fl cs cd sp).
Proof.
  unfold evs_one_interval_for. bound; [eapply (eqv_forM eq (by_f (map soi))); [apply f2_same|intros x x' <-; apply eqv_ev_event|typeclasses eauto]|].
  intros l l' H. apply f2_by in H. subst l'. apply eqv_ret. apply concat_by.
Qed.
Lemma eqv_evs c i f fl : eqv (by_f (map soi)) (evs_one_interval c i f fl) (evs_one_interval c i f fl).
Proof.
  unfold evs_one_interval. bound; [apply eqv_evs_for|]. intros a ? ->. bound; [apply eqv_evs_for|]. ticks. unfold by_f. now rewrite map_app.
Qed.

Definition same1 (f g : nat -> fval) : Prop := forall e, g e = sf (f e).
Definition same2 (f g : nat -> nat -> fval) : Prop := forall e k, g e k = sf (f e k).
Definition same_arr (a b : evs_array) : Prop :=
  ea_cfg b = ea_cfg a /\ same1 (ea_soc0 a) (ea_soc0 b) /\ same1 (ea_soc1 a) (ea_soc1 b) /\ same2 (ea_charge a) (ea_charge b) /\ same2 (ea_charge_bin a) (ea_charge_bin b) /\
  same2 (ea_discharge a) (ea_discharge b) /\ same2 (ea_discharge_bin a) (ea_discharge_bin b) /\ same2 (ea_loss a) (ea_loss b).
Lemma same_upd1 f g e x : same1 f g -> same1 (upd1 f e x) (upd1 g e (sf x)).
Proof. intros H e'. unfold upd1. destruct (Nat.eqb e' e); auto. Qed.
Lemma same_upd2 f g e k x : same2 f g -> same2 (upd2 f e k x) (upd2 g e k (sf x)).
Proof. intros H e' k'. unfold upd2. destruct (_ && _)%bool; auto. Qed.
Lemma req_fill a b r : same_arr a b -> req same_arr (fill_array a r) (fill_array b (s_ev r)).
Proof.
  intros (H & H1 & H2 & H3 & H4 & H5 & H6 & H7). unfold fill_array. cbv zeta. cbn [s_ev eoi_event eoi_charger]. rewrite H. destruct (_ && _)%bool; cbn; [|reflexivity].
  unfold same_arr. cbn. splits; try apply same_upd1; try apply same_upd2; auto.
Qed.
Lemma req_fill_all l : forall a b, same_arr a b -> req same_arr (fill_all a l) (fill_all b (map s_ev l)).
Proof. induction l as [|r l IH]; intros a b H; cbn; auto. eapply req_bind; [apply req_fill, H|]. intros x y K. now apply IH. Qed.
Lemma req_as_ev x : req (by_f s_ev) (as_ev x) (as_ev (soi x)).
Proof. destruct x; reflexivity. Qed.
Lemma req_array iv i n sp : req same_arr (create_evs_array iv i n sp) (create_evs_array (siv iv) i n sp).
Proof.
  unfold create_evs_array. eapply req_bind; [apply req_filter|]. intros l l' ->. eapply req_bind; [eapply (req_map (by_f soi) (by_f s_ev)); [now apply f2_by|intros x y ->; apply req_as_ev]|].
  intros rs rs' H. apply f2_by in H. subst rs'. eapply req_bind; [apply hd_by|]. intros r0 r1 ->. cbv zeta. cbn [s_ev eoi_cfg]. rewrite map_length.
  eapply req_bind; [apply req_refl|]. intros _ _ _. apply req_fill_all. unfold same_arr, same1, same2. cbn. splits; intros; reflexivity.
Qed.
Lemma eqv_pair c f cc i e x b : eqv eq (constrain_pair c f cc i e x b) (constrain_pair c f cc i e (sf x) (sf b)).
Proof.
  destruct x; cbn [constrain_pair sf]; ticks; try reflexivity; try exact (eqv_max (FVar _) _ _); try exact (eqv_min (FVar _) _ _). { apply eqv_lift, req_refl. } ticks.
Qed.
Lemma eqv_min_max a b c f ch i al : same_arr a b -> eqv eq (constrain_charge_discharge_min_max a c f ch i al) (constrain_charge_discharge_min_max b c f ch i al).
Proof.
  intros (H & H1 & H2 & H3 & H4 & H5 & H6 & H7). unfold constrain_charge_discharge_min_max. apply (eqv_forM_ eq); [apply f2_same| |typeclasses eauto]. intros ee ? <-. apply (eqv_forM_ eq); [apply f2_same| |typeclasses eauto].
  intros kc ? <-. rewrite H3, H4, H5, H6. bound; [apply eqv_pair|]. intros _ _ _. destruct al; [apply eqv_pair|]. now apply eqv_ret.
Qed.
Lemma map_fexpr {A} (f g : A -> fval) l : (forall x, g x = sf (f x)) -> map (fun x => fexpr (g x)) l = map se (map (fun x => fexpr (f x)) l).
Proof. intros H. rewrite map_map. apply map_ext. intros x. now rewrite H, se_f. Qed.
Lemma eqv_single a b c : same_arr a b -> eqv eq (constrain_single_charger_charge_event a c) (constrain_single_charger_charge_event b c).
Proof.
  intros (H & H1 & H2 & H3 & H4 & H5 & H6 & H7). unfold constrain_single_charger_charge_event. bound.
  - apply (eqv_forM_ eq); [apply f2_same| |typeclasses eauto]. intros ee ? <-. step. rewrite H, map_app. repeat f_equal; apply map_fexpr; auto.
  - intros _ _ _. apply (eqv_forM_ eq); [apply f2_same| |typeclasses eauto]. intros ee ? <-. step. rewrite H, map_app. repeat f_equal; apply map_fexpr; intros x; auto.
Qed.
Lemma eqv_losses a b e ec : same_arr a b -> eqv eq (constrain_losses a e ec) (constrain_losses b e ec).
Proof.
  intros (H & H1 & H2 & H3 & H4 & H5 & H6 & H7). unfold constrain_losses. rewrite H. apply (eqv_forM_ eq); [apply f2_same| |typeclasses eauto]. intros ee ? <-. step. cbn [map]. now rewrite !se_f, <- H3, <- H7.
Qed.
Lemma sum_row_by f g e n : same2 f g -> sum_row g e n = se (sum_row f e n).
Proof. intros H. unfold sum_row. rewrite se_sum. f_equal. now apply map_fexpr. Qed.
Lemma eqv_ev_balance a b p q : same_arr a b -> same_arr p q -> eqv eq (constrain_charge_event_electricity_balance a p) (constrain_charge_event_electricity_balance b q).
Proof.
  intros H K. pose proof H as (H0 & H1 & H2 & H3 & H4 & H5 & H6 & H7). pose proof K as (K0 & K1 & K2 & K3 & K4 & K5 & K6 & K7).
  unfold constrain_charge_event_electricity_balance. rewrite H0. apply (eqv_forM_ eq); [apply f2_same| |typeclasses eauto]. intros ee ? <-. cbv zeta. bound; [|intros _ _ _; bound; [now apply eqv_losses|intros _ _ _; now apply eqv_losses]].
  step. rewrite K0, H1, H2, (sum_row_by _ _ _ _ H3), (sum_row_by _ _ _ _ H5), (sum_row_by _ _ _ _ H7), (sum_row_by _ _ _ _ K3), (sum_row_by _ _ _ _ K5). reflexivity.
Qed.
Lemma eqv_socs l : forall m, eqv eq (connect_socs l m) (connect_socs (map sf l) (map sf m)).
Proof.
  induction l as [|x l IH]; intros [|y m]; cbn [connect_socs map]; steps; auto. { destruct x, y; cbn [sf]; steps; reflexivity. }
Qed.
Lemma eqv_connection a b p q : same_arr a b -> same_arr p q -> eqv eq (constrain_connection_charge_events a p) (constrain_connection_charge_events b q).
Proof.
  intros (H0 & H1 & H2 & _) (K0 & K1 & K2 & _). unfold constrain_connection_charge_events. rewrite H0, K0.
  rewrite (map_ext (ea_soc0 q) (fun e => sf (ea_soc0 p e)) K1), (map_ext (ea_soc1 b) (fun e => sf (ea_soc1 a e)) H2), <- (map_map (ea_soc0 p) sf), <- (map_map (ea_soc1 a) sf). apply eqv_socs.
Qed.
Lemma eqv_evs_within c iv i f fl : eqv eq (evs_constrain_within c iv i f fl) (evs_constrain_within c (siv iv) i f fl).
Proof.
  unfold evs_constrain_within. bound; [apply eqv_lift, req_array|]. intros a b H. bound; [now apply eqv_min_max|]. intros _ _ _.
  bound; [apply eqv_lift, req_array|]. intros p q K. bound; [now apply eqv_min_max|]. intros _ _ _. bound; [now apply eqv_single|]. intros _ _ _.
  bound; [now apply eqv_ev_balance|]. intros _ _ _. destruct i as [|j]; [now apply eqv_ret|]. bound; [apply eqv_lift, req_array|]. intros x y Hx. now apply eqv_connection.
Qed.
Lemma eqv_soc x q : eqv eq (soc_equals x q) (soc_equals (sf x) q).
Proof. destruct x; cbn; steps. Qed.
Lemma eqv_evs_after c iv : eqv eq (evs_constrain_after c iv) (evs_constrain_after c (siv iv)).
Proof.
  unfold evs_constrain_after. bound; [apply eqv_lift, req_array|]. intros a b H. bound; [apply eqv_lift, req_array|]. intros p q K.
  apply (eqv_forM_ eq); [apply f2_same| |typeclasses eauto]. intros ee ? <-. destruct H as (H0 & H1 & H2 & _). destruct K as (K0 & K1 & K2 & _). rewrite H1, K2. bound; [apply eqv_soc|]. intros _ _ _. apply eqv_soc.
Qed.

(** ** The site *)
Lemma eqv_site c i : eqv (by_f soi) (site_one_interval c i) (site_one_interval c i).
Proof. unfold site_one_interval. ticks. reflexivity. Qed.
Lemma eqv_find_site iv : eqv (by_f s_site) (find_site iv) (find_site (siv iv)).
Proof. unfold find_site. ticks. destruct a0; cbn [soi]; ticks. reflexivity. Qed.
Lemma sum_attr_by f l : (forall x, f (soi x) = sf (f x)) -> sum_attr f (map soi l) = se (sum_attr f l).
Proof. intros H. unfold sum_attr. rewrite se_sum, !map_map. f_equal. apply map_ext. intros x. now rewrite H, se_f. Qed.
Ltac attr := apply attrs_by; cbn; tauto.
Lemma eqv_electricity dt iv i : eqv eq (constrain_site_electricity_balance dt iv i) (constrain_site_electricity_balance dt (siv iv) i).
Proof.
  unfold constrain_site_electricity_balance. bound; [apply eqv_lift, index_by|]. ticks. { apply eqv_find_site. } ticks. { apply eqv_lift, req_refl. } ticks.
  rewrite !sum_attr_by by attr. reflexivity.
Qed.
Lemma eqv_import_export iv : eqv eq (constrain_site_import_export iv) (constrain_site_import_export (siv iv)).
Proof. unfold constrain_site_import_export. bound; [apply eqv_find_site|]. ticks. Qed.
Lemma eqv_high dt iv i : eqv eq (constrain_site_high_temperature_heat_balance dt iv i) (constrain_site_high_temperature_heat_balance dt (siv iv) i).
Proof.
  unfold constrain_site_high_temperature_heat_balance. bound; [apply eqv_lift, index_by|]. ticks. { apply eqv_lift, req_refl. } ticks. rewrite !sum_attr_by by attr. reflexivity.
Qed.
Lemma eqv_low dt iv i : eqv eq (constrain_site_low_temperature_heat_balance dt iv i) (constrain_site_low_temperature_heat_balance dt (siv iv) i).
Proof.
  unfold constrain_site_low_temperature_heat_balance. bound; [apply eqv_lift, index_by|]. ticks. { apply eqv_lift, req_refl. } ticks. { apply eqv_lift, req_refl. } ticks. rewrite !sum_attr_by by attr. reflexivity.
Qed.
Lemma eqv_site_within dt iv i : eqv eq (site_constrain_within dt iv i) (site_constrain_within dt (siv iv) i).
Proof.
  unfold site_constrain_within. bound; [apply eqv_electricity|]. intros _ _ _. bound; [apply eqv_import_export|]. intros _ _ _.
  bound; [apply eqv_high|]. intros _ _ _. apply eqv_low.
Qed.
Lemma eqv_asset a i f fl : eqv (by_f (map soi)) (asset_one_interval a i f fl) (asset_one_interval a i f fl).
Proof.
  destruct a; cbn [asset_one_interval]; try apply eqv_evs;
    (bound; [first [apply eqv_battery|apply eqv_boiler|apply eqv_chp|apply eqv_hp|apply eqv_rg|apply eqv_spill|apply eqv_valve]|ticks; reflexivity]).
Qed.
Lemma eqv_asset_within a iv i f fl : eqv eq (asset_constrain_within a iv i f fl) (asset_constrain_within a (siv iv) i f fl).
Proof.
  destruct a; cbn [asset_constrain_within]; first [apply eqv_battery_within|apply eqv_boiler_within|apply eqv_chp_within|apply eqv_evs_within|apply eqv_hp_within|apply eqv_valve_within|now apply eqv_ret].
Qed.
Lemma eqv_asset_after a iv : eqv eq (asset_constrain_after a iv) (asset_constrain_after a (siv iv)).
Proof. destruct a; cbn [asset_constrain_after]; first [apply eqv_battery_after|apply eqv_evs_after|now apply eqv_ret]. Qed.
Lemma eqv_interval c assets fl iv i : eqv (by_f siv) (site_interval c assets fl iv i) (site_interval c assets fl (siv iv) i).
Proof.
  unfold site_interval. bound; [apply eqv_site|]. ticks. { eapply (eqv_forM eq (by_f (map soi))); [apply f2_same|intros x ? <-; apply eqv_asset|typeclasses eauto]. }
  intros xs xs' H. apply f2_by in H. subst xs'. cbv zeta. rewrite concat_by. change (soi a :: map soi (List.concat xs)) with (map soi (a :: List.concat xs)).
  assert (siv iv ++ [map soi (a :: List.concat xs)] = siv (iv ++ [a :: List.concat xs]))%list as -> by (unfold siv; now rewrite map_app).
  bound; [apply eqv_site_within|]. intros _ _ _. bound; [apply (eqv_forM_ eq); [apply f2_same|intros x ? <-; apply eqv_asset_within|typeclasses eauto]|]. intros _ _ _. now apply eqv_ret.
Qed.
Lemma eqv_intervals c assets fl idx : forall iv, eqv (by_f siv) (site_intervals c assets fl iv idx) (site_intervals c assets fl (siv iv) idx).
Proof. induction idx as [|i idx IH]; intros iv; cbn; [now apply eqv_ret|]. bound; [apply eqv_interval|]. intros x y ->. apply IH. Qed.
Lemma eqv_base c assets fl : eqv (by_f siv) (build_base c assets fl) (build_base c assets fl).
Proof.
  unfold build_base. bound; [now apply eqv_massert|]. intros _ _ _. bound; [apply (eqv_intervals c assets fl _ [])|]. intros x y ->.
  bound; [apply (eqv_forM_ eq); [apply f2_same|intros z ? <-; apply eqv_asset_after|typeclasses eauto]|]. intros _ _ _. now apply eqv_ret.
Qed.

(** ** Custom constraints *)
Lemma sf_none f : sf (none_to_zero f) = none_to_zero (sf f).
Proof. destruct f; reflexivity. Qed.
Lemma req_cterm t iv dt i dv : req (by_f (map se)) (resolve_constraint_term t iv dt i dv) (resolve_constraint_term t (siv iv) dt i dv).
Proof.
  destruct t as [q|t]; cbn [resolve_constraint_term].
  - destruct dv; [destruct (Nat.eqb _ 0)|]; reflexivity.
  - eapply req_bind; [apply req_filter_str|]. intros l l' ->. eapply req_impl; [eapply (req_map (by_f soi) (by_f se)); [now apply f2_by|]|intros a b H; now apply f2_by].
    intros x y ->. eapply req_bind; [apply req_getattr|]. intros f g ->. eapply req_bind; [apply req_refl|]. intros u ? <-. cbn. unfold by_f. autorewrite with sh. now rewrite sf_none.
Qed.
Lemma req_add_terms side iv dt i dv : req (by_f (map se)) (add_terms side iv dt i dv) (add_terms side (siv iv) dt i dv).
Proof.
  unfold add_terms. eapply req_bind; [eapply (req_map eq (by_f (map se))); [apply f2_same|intros x ? <-; apply req_cterm]|]. intros l l' H. apply f2_by in H. subst l'. cbn. apply concat_by.
Qed.
Lemma eqv_custom_loop c iv dt idx : forall lhs rhs,
  eqv (by_f (fun xy => (map se (fst xy), map se (snd xy)))) (custom_loop c iv dt lhs rhs idx) (custom_loop c (siv iv) dt (map se lhs) (map se rhs) idx).
Proof.
  induction idx as [|i idx IH]; intros lhs rhs; cbn [custom_loop]; [now apply eqv_ret|]. bound; [apply eqv_lift, req_add_terms|]. intros l ? ->. bound; [apply eqv_lift, req_add_terms|]. intros g ? ->.
  cbv zeta. rewrite <- !map_app, !map_length. bound; [now apply eqv_massert|]. intros _ _ _. bound; [now apply eqv_massert|]. intros _ _ _.
  destruct (cn_sum c); [apply IH|]. bound; [apply eqv_constrain; unfold sc; cbn; now autorewrite with sh|]. intros _ _ _. apply (IH [] []).
Qed.
Lemma eqv_custom c iv dt : eqv eq (add_custom_constraint c iv dt) (add_custom_constraint c (siv iv) dt).
Proof.
  unfold add_custom_constraint. bound; [apply (eqv_custom_loop c iv dt _ [] [])|]. intros x y ->. destruct (cn_sum c); [|now apply eqv_ret]. apply eqv_constrain. unfold sc. cbn. now autorewrite with sh.
Qed.

(** ** Objectives *)
Lemma req_simple l i dt t : req (by_f (map se)) (simple_terms_for l i dt t) (simple_terms_for (map soi l) i dt t).
Proof.
  unfold simple_terms_for. eapply req_impl; [eapply (req_map (by_f soi) (by_f se)); [now apply f2_by|]|intros a b H; now apply f2_by].
  intros x y ->. eapply req_bind; [apply req_getattr|]. intros f g ->. eapply req_bind; [apply req_refl|]. intros u ? <-. cbn. unfold by_f. autorewrite with sh. now rewrite sf_none.
Qed.
Lemma req_simple_at iv dt t i : req (by_f (map se)) (simple_term_at iv dt t i) (simple_term_at (siv iv) dt t i).
Proof.
  unfold simple_term_at. eapply (req_bind (by_f (map soi))); [destruct (opt_eqb _ _); [apply index_by|apply req_filter_str]|]. intros l l' ->. apply req_simple.
Qed.
Lemma req_concat {A} (F F' : A -> res (list aexpr)) l : (forall x, req (by_f (map se)) (F x) (F' x)) ->
  req (by_f (map se)) (let! ls := rmap F l in Ok (List.concat ls)) (let! ls := rmap F' l in Ok (List.concat ls)).
Proof.
  intros H. eapply req_bind; [eapply (req_map eq (by_f (map se))); [apply f2_same|intros x ? <-; apply H]|]. intros a b K. apply f2_by in K. subst b. cbn. apply concat_by.
Qed.
Lemma req_simples iv dt ts : req (by_f (map se)) (add_simple_terms iv dt ts) (add_simple_terms (siv iv) dt ts).
Proof.
  unfold add_simple_terms. apply req_concat. intros t. unfold simple_term_all. destruct (String.eqb _ _); [|reflexivity]. destruct t; try reflexivity. apply req_concat. intros i. apply req_simple_at.
Qed.
Lemma req_operand iv i x : req (by_f sf) (two_term_operand iv i x) (two_term_operand (siv iv) i x).
Proof.
  destruct x as [t|q]; cbn [two_term_operand]; [|reflexivity]. eapply req_bind; [apply req_filter|]. intros l ? ->. eapply req_bind; [apply hd_by|]. intros o ? ->. apply req_getattr.
Qed.
Lemma eqv_two_at iv dt t i : eqv (by_f se) (two_term_at iv dt t i) (two_term_at (siv iv) dt t i).
Proof.
  unfold two_term_at. bound; [apply eqv_lift, req_refl|]. intros _ _ _. bound; [apply eqv_lift, req_refl|]. intros _ _ _.
  bound; [apply eqv_lift, req_operand|]. intros a ? ->. bound; [apply eqv_lift, req_operand|]. intros b ? ->. cbv zeta.
  bound_by (by_f sv); [destruct (String.eqb _ _); [apply eqv_max_two|apply eqv_min_two]|]. intros v ? ->. bound; [apply eqv_lift, req_refl|]. intros q ? <-. apply eqv_ret. unfold by_f. now autorewrite with sh.
Qed.
Lemma eqv_concat {A} (F F' : A -> M (list aexpr)) l : (forall x, Mono (F x)) -> (forall x, eqv (by_f (map se)) (F x) (F' x)) ->
  eqv (by_f (map se)) (ls <- forM l F ;; ret (List.concat ls)) (ls <- forM l F' ;; ret (List.concat ls)).
Proof.
  intros MF H. bound; [eapply (eqv_forM eq (by_f (map se))); [apply f2_same|intros x ? <-; apply H|typeclasses eauto]|]. intros a b K. apply f2_by in K. subst b. apply eqv_ret. apply concat_by.
Qed.
Lemma eqv_twos iv dt ts : eqv (by_f (map se)) (add_two_variable_terms iv dt ts) (add_two_variable_terms (siv iv) dt ts).
Proof.
  unfold add_two_variable_terms. apply eqv_concat; [typeclasses eauto|]. intros t. unfold add_two_variable_term. destruct (String.eqb _ _); [|now apply eqv_ret].
  bound; [apply eqv_lift, req_refl|]. intros fn ? <-. destruct (is_two_function fn); [|now apply eqv_ret]. destruct t as [t|t|t]; try apply eqv_raise.
  eapply eqv_impl; [eapply (eqv_forM eq (by_f se)); [apply f2_same|intros x ? <-; apply eqv_two_at|typeclasses eauto]|intros a b K; now apply f2_by].
Qed.
Lemma not_none_by f : not_none (sf f) = not_none f.
Proof. destruct f; reflexivity. Qed.
Lemma req_many_operands iv t : req (by_f (map sf)) (many_operands iv t) (many_operands (siv iv) t).
Proof.
  unfold many_operands. eapply (req_bind (by_f siv)).
  { unfold many_assets. destruct (opt_eqb _ _); [apply req_filter_all_str|]. destruct (is_none _); [apply req_filter_all_str|]. cbn. apply filter_all_by. }
  intros l ? ->. unfold siv. rewrite concat_by. eapply req_bind; [eapply (req_map (by_f soi) (by_f sf)); [now apply f2_by|intros x ? ->; apply req_getattr]|].
  intros a b K. apply f2_by in K. subst b. cbn. unfold by_f. rewrite map_app. f_equal. apply filter_by, not_none_by.
Qed.
Lemma eqv_manys iv ts : eqv (by_f (map se)) (add_many_variables_terms iv ts) (add_many_variables_terms (siv iv) ts).
Proof.
  unfold add_many_variables_terms. apply eqv_concat; [typeclasses eauto|]. intros t. unfold add_many_variables_term. destruct (String.eqb _ _); [|now apply eqv_ret].
  bound; [apply eqv_lift, req_refl|]. intros fn ? <-. destruct (is_many_function fn); [|now apply eqv_ret]. destruct t as [t|t|t]; try apply eqv_raise.
  bound; [now apply eqv_massert|]. intros _ _ _. bound; [apply eqv_lift, req_many_operands|]. intros vs ? ->. cbv zeta.
  bound_by (by_f sv); [destruct (String.eqb _ _); [apply eqv_max_many|apply eqv_min_many]|]. intros v ? ->. apply eqv_ret. unfold by_f. cbn. now autorewrite with sh.
Qed.
Lemma req_fmul f q : req (by_f se) (fmul f q) (fmul (sf f) q).
Proof. destruct f; cbn; unfold by_f; now autorewrite with sh. Qed.
Lemma req_fmul_sum fs q : req (by_f se) (fmul_sum fs q) (fmul_sum (map sf fs) q).
Proof.
  unfold fmul_sum. eapply req_bind; [eapply (req_map (by_f sf) (by_f se)); [now apply f2_by|intros x ? ->; apply req_fmul]|]. intros a b K. apply f2_by in K. subst b. cbn. unfold by_f. now autorewrite with sh.
Qed.
Lemma req_row (F : oneint -> res aexpr) l : (forall x, req (by_f se) (F x) (F (soi x))) -> req (by_f (map se)) (rmap F l) (rmap F (map soi l)).
Proof. intros H. eapply req_impl; [eapply (req_map (by_f soi) (by_f se)); [now apply f2_by|intros x ? ->; apply H]|intros a b K; now apply f2_by]. Qed.
Lemma req_at iv i : req (by_f (map soi)) (at_interval iv i) (at_interval (siv iv) i).
Proof. apply index_by. Qed.
Ltac named := eapply req_bind; [rewrite filter_all_by; apply req_at|intros ? ? ->].
Ltac rowed := eapply req_bind; [apply req_row|intros ? ? ->].
Lemma req_price_gas dt i x : req (by_f se) (price_gas dt i x) (price_gas dt i (soi x)).
Proof. unfold price_gas. eapply req_bind; [apply req_refl|]. intros p ? <-. rewrite attrs_by by (cbn; tauto). apply req_fmul. Qed.
Lemma req_carbon_gas x : req (by_f se) (carbon_gas x) (carbon_gas (soi x)).
Proof. unfold carbon_gas. rewrite attrs_by by (cbn; tauto). apply req_fmul. Qed.
Lemma req_price_site dt i x : req (by_f se) (price_site dt i x) (price_site dt i (soi x)).
Proof.
  destruct x; try reflexivity. cbn [price_site soi]. eapply req_bind; [apply req_refl|]. intros p ? <-. eapply req_bind; [apply req_refl|]. intros e ? <-. cbn. unfold by_f. now autorewrite with sh.
Qed.
Lemma req_carbon_site dt i x : req (by_f se) (carbon_site dt i x) (carbon_site dt i (soi x)).
Proof. destruct x; try reflexivity. cbn [carbon_site soi]. eapply req_bind; [apply req_refl|]. intros p ? <-. cbn. unfold by_f. now autorewrite with sh. Qed.
Lemma req_spill_sum (fs : list (oneint -> fval)) x q : Forall (fun f => forall y, f (soi y) = sf (f y)) fs ->
  req (by_f se) (fmul_sum (map (fun f => f x) fs) q) (fmul_sum (map (fun f => f (soi x)) fs) q).
Proof.
  intros H. assert (map (fun f => f (soi x)) fs = map sf (map (fun f => f x) fs)) as ->. { rewrite map_map. induction H as [|f fs Hf H IH]; cbn; auto. now rewrite Hf, IH. } apply req_fmul_sum.
Qed.
Ltac sums L := apply (req_spill_sum L); repeat constructor; attr.
Lemma req_price_spill x : req (by_f se) (price_spill x) (price_spill (soi x)).
Proof. sums [electric_generation_mwh; high_temperature_generation_mwh; electric_load_mwh; high_temperature_load_mwh]. Qed.
Lemma req_price_spill_ev x : req (by_f se) (price_spill_ev x) (price_spill_ev (soi x)).
Proof. sums [electric_charge_mwh; electric_discharge_mwh]. Qed.
Lemma req_carbon_spill x : req (by_f se) (carbon_spill x) (carbon_spill (soi x)).
Proof. sums [electric_generation_mwh; high_temperature_generation_mwh; electric_load_mwh; electric_charge_mwh; electric_discharge_mwh]. Qed.
Lemma req_price iv dt : req (by_f se) (price_objective iv dt) (price_objective (siv iv) dt).
Proof.
  unfold price_objective. eapply req_bind; [eapply (req_map eq (by_f (map se))); [apply f2_same|]|].
  - intros i ? <-. unfold price_at. do 5 named. rowed; [apply req_price_site|]. rowed; [apply req_price_spill|]. rowed; [apply req_price_spill_ev|]. rowed; [apply req_price_gas|]. rowed; [apply req_price_gas|].
    cbn. unfold by_f. now rewrite !map_app.
  - intros l l' K. apply f2_by in K. subst l'. cbn. unfold by_f. rewrite concat_by. now autorewrite with sh.
Qed.
Lemma req_carbon iv dt : req (by_f se) (carbon_objective iv dt) (carbon_objective (siv iv) dt).
Proof.
  unfold carbon_objective. eapply req_bind; [eapply (req_map eq (by_f (map se))); [apply f2_same|]|].
  - intros i ? <-. unfold carbon_at. do 5 named. rowed; [apply req_carbon_site|]. rowed; [apply req_carbon_spill|]. rowed; [apply req_carbon_spill|]. rowed; [apply req_carbon_gas|]. rowed; [apply req_carbon_gas|].
    cbn. unfold by_f. now rewrite !map_app.
  - intros l l' K. apply f2_by in K. subst l'. cbn. unfold by_f. rewrite concat_by. now autorewrite with sh.
Qed.
Lemma eqv_get_objective obj iv dt : eqv (by_f se) (get_objective obj iv dt) (get_objective obj (siv iv) dt).
Proof.
  destruct obj as [s|ts]; cbn [get_objective].
  - destruct (String.eqb s "price"); [apply eqv_lift, req_price|]. destruct (String.eqb s "carbon"); [apply eqv_lift, req_carbon|]. apply eqv_raise.
  - bound; [apply eqv_lift, req_simples|]. intros a ? ->. bound; [apply eqv_twos|]. intros b ? ->. bound; [apply eqv_manys|]. intros c ? ->. apply eqv_ret. unfold by_f. autorewrite with sh. now rewrite !map_app.
Qed.
Lemma eqv_program c assets cons obj fl : eqv (by_f siv) (build_program c assets cons obj fl) (build_program c assets cons obj fl).
Proof.
  unfold build_program. bound; [apply eqv_base|]. intros iv ? ->. bound; [apply (eqv_forM_ eq); [apply f2_same|intros k ? <-; apply eqv_custom|typeclasses eauto]|]. intros _ _ _.
  bound; [apply eqv_get_objective|]. intros e ? ->. bound; [now apply eqv_objective|]. intros _ _ _. now apply eqv_ret.
Qed.
End Shift.
