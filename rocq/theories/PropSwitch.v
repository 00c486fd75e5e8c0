(** * PropSwitch: C72: custom constraints and objectives over everything, on/off switches included *)
From Verif Require Import Base Pulp Params Optimizer Types Assets EVs Site Constraints Objectives Extract Pipeline Emit Prim Spec SpecSwitch SpecReport SpecRun SpecCost SpecTerms SpecReadings Layout Rows Sem SemEv SemSite SemProg SemObj SemTable SemResults SemTerms SemAll SemBins RunFacts Builds Complete PropSite PropObjective PropTerms Owned PropColumns.
Open Scope Q_scope.
Open Scope string_scope.

(** ** a solution whose switch variables are 0 or 1, even those no constraint mentions *)
Definition kept (o : opt) (s : assignment) : assignment := fun id => if existsb (fun v => Nat.eqb (v_id v) id) (all_occurrences o) then s id else 0.
Lemma kept_same o s v : In v (all_occurrences o) -> kept o s (v_id v) = s (v_id v).
Proof. intros I. unfold kept. rewrite (proj2 (existsb_exists _ _)); [reflexivity|]. exists v. split; auto. apply Nat.eqb_refl. Qed.
Lemma feasible_var s o v : feasible s o -> In v (all_occurrences o) -> var_ok s v.
Proof.
  intros [F O] I. unfold all_occurrences in I. apply in_app_iff in I. destruct I as [I|I].
  - destruct (o_obj o); [|destruct I]. rewrite Forall_forall in O. auto.
  - apply in_flat_map in I. destruct I as (nc & In1 & I). rewrite Forall_forall in F. destruct (F nc In1) as [_ V]. rewrite Forall_forall in V. auto.
Qed.
Section Settle.
Context (base : nat) (c : site_cfg) (assets : list asset) (cons : list constraint) (obj : objective) (fl : flags) (iv : interval_vars) (o : opt).
Context (B : build_program c assets cons obj fl (new_optimizer base) = Ok (iv, o)).
Lemma kept_bits s v : feasible s o -> In v (object_vars iv) -> is_binary_var v -> bit (kept o s (v_id v)).
Proof.
  intros F I BV. unfold kept. destruct (existsb _ _) eqn:E; [|left; reflexivity]. apply existsb_exists in E. destruct E as (v' & I' & E). apply Nat.eqb_eq in E.
  assert (v' = v) as ->.
  { destruct (program_objects _ _ _ _ _ _ _ _ B) as (G & _ & (k & _ & S) & H). apply (nodup_inj v_id G); auto. eapply sub_nodup; [exact S|apply seq_NoDup]. }
  apply (binary_var_ok _ _ BV). eapply feasible_var; eauto.
Qed.
Lemma bits_eq s w lo hi cs : program c assets fl iv lo hi cs -> (forall v, In v (object_vars iv) -> is_binary_var v -> bit (s (v_id v))) -> bins_of w s iv -> bins_eq w s iv.
Proof.
  intros P BB W t row E. specialize (W t row E). pose proof (pr_shape _ _ _ _ _ _ _ P t row E) as (r & xss & -> & SR & F). rewrite Forall_forall in *. intros x Ix. specialize (W x Ix).
  assert (forall v, In v (oi_vars x) -> is_binary_var v -> ind (s (v_id v)) == s (v_id v)) as K.
  { intros v Iv BV. apply bit_ind, BB; auto. unfold object_vars. apply in_flat_map. exists x. split; auto. apply in_concat. exists (OISite r :: List.concat xss). split; auto. eapply nth_error_In; eauto. }
  clear BB. destruct Ix as [<-|Ix].
  - cbn [oi_bin bin_eq] in *. destruct W as [W1 W2]. destruct SR as (_ & _ & _ & B1 & B2 & _). rewrite <- W1, <- W2. split; symmetry; apply K; auto; cbn; tauto.
  - apply in_concat in Ix. destruct Ix as (xs & I1 & I2). destruct (Forall2_in_r _ _ _ _ F I1) as (a & _ & AS). destruct a as [b|b|b|b|b|b|n|n]; cbn [asset_shape] in AS.
    4:{ destruct AS as (S0 & S1 & G & Sp & -> & _ & SE & SS). apply in_app_iff in I2. destruct I2 as [I2|I2]; apply in_map_iff in I2; destruct I2 as (y & <- & I2); apply in_grid in I2; destruct I2 as (e & k & He & Hk & ->).
        - destruct (nth_error_lt _ _ He) as (ec & Ee). destruct (nth_error_lt _ _ Hk) as (cc & Ek). destruct (SE e ec k cc Ee Ek) as (_ & _ & _ & _ & _ & _ & CS & DS & _). cbn [oi_bin bin_eq] in *. cbv zeta in *. destruct W as [W1 W2]. rewrite <- W1, <- W2. split.
          + destruct CS as [(v & b' & _ & EB & _ & BV & _)|(_ & EB & _)]; rewrite EB; [|reflexivity]. cbn [fv]. symmetry. apply K; auto. cbn [oi_vars]. rewrite EB. rewrite !in_app_iff. cbn [fvars In]. tauto.
          + unfold discharge_shape in DS. destruct (true && allow_evs_discharge fl)%bool; [destruct DS as (v & b' & _ & EB & _ & BV)|destruct DS as (_ & EB)]; rewrite EB; [|reflexivity]. cbn [fv]. symmetry. apply K; auto. cbn [oi_vars]. rewrite EB. rewrite !in_app_iff. cbn [fvars In]. tauto.
        - destruct (nth_error_lt _ _ He) as (ec & Ee). destruct (nth_error_lt _ _ Hk) as (cc & Ek). destruct (SS e ec k cc Ee Ek) as (_ & _ & _ & _ & _ & _ & CS & _). cbn [oi_bin bin_eq] in *. rewrite <- W.
          destruct CS as [(v & b' & _ & EB & _ & BV & _)|(_ & EB & _)]; rewrite EB; [|reflexivity]. cbn [fv]. symmetry. apply K; auto. cbn [oi_vars]. rewrite EB. rewrite !in_app_iff. cbn [fvars In]. tauto. }
    all: destruct AS as (r1 & -> & SH); destruct I2 as [<-|[]]; cbn [oi_bin bin_eq] in *; try exact Logic.I;
      unfold battery_shape, boiler_shape, chp_shape, hp_shape in SH; repeat match goal with H : _ /\ _ |- _ => destruct H end;
      repeat match goal with H : ind _ = _ |- _ => rewrite <- H; clear H end; splits; symmetry; apply K; auto; cbn; tauto.
Qed.
Lemma settle s : Forall chp_fine assets -> feasible s o -> exists s' w, feasible s' o /\ objective_value s' o = objective_value s o /\ (forall d, reads d s iv -> reads d s' iv) /\
  bins_eq w s' iv /\ switched c assets fl (d_of s' iv) w /\ (forall v, In v (all_occurrences o) -> s' (v_id v) = s (v_id v)).
Proof.
  intros CF F. destruct (program_split _ _ _ _ _ _ _ _ B) as (o1 & o2 & cs & extra & e & _ & CC & P & C1 & (o3 & GO & EO) & OE & CE).
  assert (feasible (kept o s) o) as F' by (eapply feasible_agree; [|exact F]; intros v I; now apply kept_same).
  pose proof (w_of_bins c assets fl iv (kept o s) (pr_names _ _ _ _ _ _ _ P) (pr_shape _ _ _ _ _ _ _ P) (pr_fine _ _ _ _ _ _ _ P)) as W.
  exists (kept o s), (w_of (kept o s) iv). splits; auto.
  - unfold objective_value. rewrite OE. apply eval_agree. intros v I. apply kept_same. unfold all_occurrences. rewrite OE. apply in_app_iff. auto.
  - intros d R t row E. specialize (R t row E). rewrite Forall_forall in R |- *. intros x Ix. specialize (R x Ix).
    assert (forall v, In v (must_vars x) \/ In v (bal_vars x) -> kept o s (v_id v) = s (v_id v)) as K.
    { intros v Iv. apply kept_same. unfold all_occurrences. apply in_app_iff. right. assert (In v (cs_vars (cons_of o))) as J.
      { rewrite CE. unfold cs_vars. rewrite flat_map_app. apply in_app_iff. left. eapply (pr_occurs _ _ _ _ _ _ _ P CF row x); eauto. eapply nth_error_In; eauto. }
      unfold cs_vars, cons_of in J. rewrite flat_map_concat_map, map_map, <- flat_map_concat_map in J. exact J. }
    assert (forall f, (forall v, In v (fvars f) -> In v (must_vars x) \/ In v (bal_vars x)) -> fv (kept o s) f = fv s f) as KF by (intros f L; apply fv_agree; auto).
    destruct x; cbn [oi_reads] in *; unfold bal_vars in *; cbn [must_vars electric_generation_mwh electric_load_mwh electric_charge_mwh electric_discharge_mwh high_temperature_generation_mwh high_temperature_load_mwh low_temperature_generation_mwh low_temperature_load_mwh fvars app In] in K, KF.
    5-6: rewrite !KF by (intros v Iv; rewrite !in_app_iff; tauto); exact R.
    all: rewrite !K by tauto; exact R.
  - eapply bits_eq; [exact P| |exact W]. intros v Iv BV. now apply kept_bits.
  - assert (all_ok (kept o s) cs) as OK by (rewrite feasible_iff, CE, all_ok_app in F'; tauto).
    eapply (pr_switched _ _ _ _ _ _ _ P); [|exact W|exact OK]. eapply d_of_vals; [apply (pr_names _ _ _ _ _ _ _ P)|apply (pr_shape _ _ _ _ _ _ _ P)|apply (pr_fine _ _ _ _ _ _ _ P)].
  - intros v I. now apply kept_same.
Qed.
End Settle.

(** ** readings that agree *)
Definition alike (n : nat) (assets : list asset) (q q' : readings) : Prop := forall t attr p, (t < n)%nat -> In p (pieces assets) -> q t attr p == q' t attr p.
Lemma alike_amount n assets q q' t attr pick : alike n assets q q' -> (t < n)%nat -> amount q assets t attr pick == amount q' assets t attr pick.
Proof. intros S Ht. apply Qsum_map_ext. intros p Ip. apply filter_In in Ip. apply S; tauto. Qed.
Lemma alike_entry c assets q q' t e : alike (n_intervals c) assets q q' -> (t < n_intervals c)%nat -> entry_at q c assets t e == entry_at q' c assets t e.
Proof. intros S Ht. destruct e; cbn [entry_at]; [reflexivity|]. now rewrite (alike_amount _ _ _ _ _ _ _ S Ht). Qed.
Lemma alike_side c assets q q' t side : alike (n_intervals c) assets q q' -> (t < n_intervals c)%nat -> side_at q c assets t side == side_at q' c assets t side.
Proof. intros S Ht. apply Qsum_map_ext. intros e Ie. apply alike_entry; auto. Qed.
Lemma alike_sum c assets q q' side : alike (n_intervals c) assets q q' -> side_sum q c assets side == side_sum q' c assets side.
Proof. intros S. apply Qsum_map_ext. intros e Ie. destruct e as [x|k]; [reflexivity|]. cbn [entry_sum]. apply Qsum_map_ext. intros t It. apply in_seq in It. apply alike_entry; auto; lia. Qed.
Lemma alike_satisfied c assets q q' k : alike (n_intervals c) assets q q' -> satisfied q c assets k -> satisfied q' c assets k.
Proof.
  intros S. unfold satisfied, holds_in_total, holds_at. destruct (cn_sum k).
  - now rewrite (compares_ext _ _ _ _ _ (alike_sum _ _ _ _ _ S) (alike_sum _ _ _ _ _ S)).
  - intros H t Ht. specialize (H t Ht). now rewrite (compares_ext _ _ _ _ _ (alike_side _ _ _ _ _ _ S Ht) (alike_side _ _ _ _ _ _ S Ht)) in H.
Qed.
Lemma alike_terms c assets q q' ks : alike (n_intervals c) assets q q' -> terms_sum q c assets ks == terms_sum q' c assets ks.
Proof. intros S. apply Qsum_map_ext. intros k Ik. apply Qsum_map_ext. intros t It. apply in_seq in It. unfold term_at. now rewrite (alike_amount _ _ _ _ _ _ _ S) by lia. Qed.

Lemma not_plain attr : ~ In attr plain_quantities -> (forall d t p, quantity d t attr p = 0) /\ (forall r t p, reported r t attr p = 0).
Proof.
  intros N.
  assert (existsb (String.eqb attr) plain_quantities = false) as E.
  { apply not_true_is_false. intros E. apply existsb_exists in E. destruct E as (y & Iy & E). apply String.eqb_eq in E. now subst. }
  cbn [existsb plain_quantities] in E. repeat (apply orb_false_iff in E; destruct E as [? E]). unfold quantity, reported. cbn [existsb].
  repeat match goal with H : (attr =? _) = false |- _ => rewrite H; clear H end. cbn [orb]. split; intros ? t p; (destruct p as [|a| |]; [reflexivity| |reflexivity|reflexivity]; now destruct a).
Qed.
Lemma same_full c assets d d' w : same_readings (n_intervals c) assets (quantity d) (quantity d') -> alike (n_intervals c) assets (full_quantity c d w) (full_quantity c d' w).
Proof.
  intros S t attr p Ht Ip. unfold full_quantity. destruct (existsb _ _); [reflexivity|].
  destruct (in_dec string_dec attr plain_quantities) as [I|N]; [now apply S|]. destruct (not_plain attr N) as [Z _]. rewrite !Z. reflexivity.
Qed.
Lemma reported_full r c assets d w : same_readings (n_intervals c) assets (reported r) (quantity d) -> alike (n_intervals c) assets (full_quantity c d w) (full_reported c r w).
Proof.
  intros S t attr p Ht Ip. unfold full_quantity, full_reported. destruct (existsb _ _); [reflexivity|].
  destruct (in_dec string_dec attr plain_quantities) as [I|N]; [symmetry; now apply S|]. destruct (not_plain attr N) as [Z Z']. rewrite Z, Z'. reflexivity.
Qed.
Lemma switch_ext b x y : x == y -> switch_for b x -> switch_for b y.
Proof. intros E [A C]. split; auto. intros Z. rewrite <- E. auto. Qed.
Lemma charger_ext f th cc b x y : x == y -> charger_switched f th cc b x -> charger_switched f th cc b y.
Proof. intros E [A C]. split; [eapply switch_ext; eauto|]. intros Z. destruct (C Z) as [L T]. split; auto. now rewrite <- E. Qed.
Lemma switched_ext c assets fl d d' w : same_dispatch (n_intervals c) assets d d' -> switched c assets fl d w -> switched c assets fl d' w.
Proof.
  intros S SW t Ht. destruct (S t Ht) as (SI & SE & SA). destruct (SW t Ht) as [(A1 & A2 & A3) A]. split.
  - unfold site_switched. splits; auto; eapply switch_ext; eauto.
  - intros a Ia. specialize (A a Ia). destruct (SA a Ia) as [Q1 Q2]. destruct a as [b|b|b|b|b|b|n|n]; cbn [asset_switched asset_name qtys_of] in *; try exact Logic.I.
    + destruct A as (B1 & B2 & B3). unfold battery_switched. splits; auto; (eapply switch_ext; [|eassumption]); apply Q1; cbn; tauto.
    + eapply switch_ext; [|exact A]. apply Q1. cbn. tauto.
    + destruct A as (B1 & B2). pose proof (Q1 ElecGen ltac:(cbn; tauto)) as E. split; [eapply switch_ext; eauto|]. rewrite <- E. auto.
    + destruct A as (B1 & B2 & B3 & B4). unfold evs_switched. cbv zeta. splits; [| |exact B3|exact B4].
      * intros e ec k cc Ee Ek. destruct (Q2 e ltac:(apply nth_error_Some; congruence)) as (K & _). assert (k < List.length (ev_chargers b))%nat as Hk by (apply nth_error_Some; congruence). destruct (K k Hk) as (K1 & K2 & _).
        destruct (B1 e ec k cc Ee Ek) as [C1 C2]. split; [eapply charger_ext; eauto|]. destruct (allow_evs_discharge fl); [eapply charger_ext; eauto|exact C2].
      * intros e ec cc Ee Ek. destruct (Q2 e ltac:(apply nth_error_Some; congruence)) as (_ & K & _). eapply charger_ext; [exact K|]. eapply B2; eauto.
    + eapply switch_ext; [|exact A]. apply Q1. cbn. tauto.
Qed.

(** ** the objective of simple terms *)
Lemma any_objective c assets fl iv lo hi cs ks o e o' : program c assets fl iv lo hi cs -> Forall simple_term ks -> get_objective (simple_terms ks) iv (sc_idata c) o = Ok (e, o') ->
  o' = o /\ (forall v, In v (evars e) -> named_var iv v) /\ forall q s, reads_as assets q s iv -> eval s e == terms_sum q c assets ks.
Proof.
  intros P PL H. cbn [get_objective simple_terms] in H. rewrite bind_ok in H. destruct H as (sm & o1 & H1 & H). apply lift_ok in H1. destruct H1 as [H1 <-].
  assert (forall m, (forall k, In k ks -> m (TSimple k) = ret []) -> forall o, forM (map TSimple ks) m o = Ok (map (fun _ => @nil aexpr) ks, o)) as NO.
  { intros m Hm. clear -Hm. induction ks as [|k ks IH]; intros o; [reflexivity|]. cbn [map forM]. rewrite (Hm k (or_introl eq_refl)). unfold bind at 1. cbn [ret]. unfold bind. rewrite IH by (intros; apply Hm; now right). reflexivity. }
  assert (forall k, In k ks -> t_type k = "simple") as TY by (intros k Ik; rewrite Forall_forall in PL; apply (PL k Ik)).
  rewrite bind_ok in H. destruct H as (tw & o2 & H2 & H). unfold add_two_variable_terms in H2. rewrite bind_ok in H2. destruct H2 as (ls & o3 & H2 & H3).
  rewrite NO in H2 by (intros k Ik; unfold add_two_variable_term; cbn [one_term_type]; rewrite (TY k Ik); reflexivity). injection H2 as <- <-. apply ret_ok in H3. destruct H3 as [<- <-].
  rewrite bind_ok in H. destruct H as (mn & o4 & H4 & H). unfold add_many_variables_terms in H4. rewrite bind_ok in H4. destruct H4 as (ls & o3 & H4 & H5).
  rewrite NO in H4 by (intros k Ik; unfold add_many_variables_term; cbn [one_term_type]; rewrite (TY k Ik); reflexivity). injection H4 as <- <-. apply ret_ok in H5. destruct H5 as [<- <-].
  apply ret_ok in H. destruct H as [<- <-]. split; auto.
  assert (List.concat (map (fun _ : term => @nil aexpr) ks) = []) as CN by (clear; induction ks; auto). rewrite CN, !app_nil_r.
  unfold add_simple_terms in H1. rewrite rbind_ok in H1. destruct H1 as (ls & H1 & [= <-]). rewrite rmap_ok in H1.
  assert (Forall2 (fun k l => exists xs, rmap (simple_term_at iv (sc_idata c) k) (seq 0 (id_n (sc_idata c))) = Ok xs /\ l = List.concat xs) ks ls) as F2.
  { clear -H1 TY. revert ls H1. induction ks as [|k ks IH]; intros ls H1; inversion H1 as [|? ? ? ? E F]; subst; constructor; [|apply IH; auto; intros; apply TY; now right].
    unfold simple_term_all in E. cbn [one_term_type] in E. rewrite (TY k (or_introl eq_refl)) in E. cbn [String.eqb Ascii.eqb Bool.eqb] in E. rewrite rbind_ok in E. destruct E as (xs & E & [= <-]). eauto. }
  clear H1 TY NO. split.
  - intros v Iv. rewrite Emit.evars_esum in Iv. apply in_flat_map in Iv. destruct Iv as (y & Iy & Iv). apply in_concat in Iy. destruct Iy as (l & Il & Iy).
    destruct (Forall2_in_r _ _ _ _ F2 Il) as (k & Ik & xs & E & ->). apply in_concat in Iy. destruct Iy as (x & Ix & Iy). rewrite rmap_ok in E. destruct (Forall2_in_r _ _ _ _ E Ix) as (t & _ & Et).
    unfold simple_term_at in Et. rewrite rbind_ok in Et. destruct Et as (xs' & HF & Et). unfold simple_terms_for in Et.
    assert (exists row, nth_error iv t = Some row /\ incl xs' row) as (row & En & L).
    { unfold opt_eqb in HF. destruct (match t_asset_type k with Some a => a =? "*" | None => false end).
      - rewrite py_index_nat, of_option_ok in HF. exists xs'. split; auto. apply incl_refl.
      - destruct (filter_str_ok iv _ _ _ _ HF) as (kk & row & M & En & ->). exists row. split; auto. intros z Iz. apply filter_In in Iz. tauto. }
    eapply (products_named iv _ _ _ _ _ _ _ t row En L Et); eauto.
  - intros q s V. rewrite eval_esum, concat_map, Qsum_concat, map_map. unfold terms_sum.
    clear -F2 V P. induction F2 as [|k l ks ls (xs & E & ->) F IH]; [reflexivity|]. cbn [map]. unfold Qsum in *. cbn [fold_right]. apply Qplus_comp; [|auto].
    fold (Qsum (map (eval s) (List.concat xs))). rewrite <- eval_esum. unfold horizon, n_intervals. eapply horizon_sum; [exact E|]. intros t x Et. apply (simple_any c assets iv q s k t x V Et).
Qed.

(** ** switches that were chosen *)
Definition bin_vars (x : oneint) : list lpvar :=
  match x with
  | OISite r => [tio_import_bin r; tio_export_bin r]
  | OIBattery r => [boi_charge_bin r; boi_discharge_bin r]
  | OIBoiler r => [kboi_bin r]
  | OICHP r => [coi_bin r]
  | OIEv r | OIEvSpill r => (fvars (eoi_charge_bin r) ++ fvars (eoi_discharge_bin r))%list
  | OIHeatPump r => [hoi_bin r]
  | _ => []
  end.
Section Chosen.
Context (c : site_cfg) (assets : list asset) (fl : flags) (iv : interval_vars) (lo hi : nat) (cs : list constr) (P : program c assets fl iv lo hi cs).
Lemma named_cases v : named_var iv v -> cared iv v \/ exists row x, In row iv /\ In x row /\ In v (bin_vars x).
Proof.
  intros (row & x & attr & g & Ir & Ix & G & Iv). apply In_nth_error in Ir. destruct Ir as (t & E).
  assert (forall r, x = OIEvSpill r -> eoi_soc0 r = FFloat 0 /\ eoi_soc1 r = FFloat 0) as SP by (intros r ->; eapply spill_soc; eauto).
  pose proof (getattr_known _ _ _ G) as K. unfold all_quantities in K. apply in_app_iff in K. destruct K as [K|K].
  - left. exists row, x. splits; auto; [eapply nth_error_In; eauto|]. eapply reading_vars; eauto. now destruct g.
  - right. exists row, x. splits; auto; [eapply nth_error_In; eauto|]. clear SP E Ix. cbn [switch_quantities In] in K.
    repeat (destruct K as [<-|K]; [destruct x; cbn in G; try discriminate; injection G as <-; try solve [destruct Iv|cbn in Iv |- *; rewrite ?in_app_iff; tauto]|]). destruct K.
Qed.
Lemma charge_bin_set f cc b t e r s w x : charge_shape b t f fl e cc r -> fset s (eoi_charge_bin r) w -> charger_switched f (can_charge fl b e t) cc w x ->
  fv s (eoi_charge_bin r) == w /\ forall v, In v (fvars (eoi_charge_bin r)) -> var_ok s v.
Proof.
  intros [(x' & b' & _ & -> & _ & Sb & _)|(_ & -> & L & ce & Ece & Nce)] E ((BW & _) & W3); cbn [fset fv fvars In] in *.
  - split; [rewrite E; reflexivity|]. intros v [<-|[]]. apply (binary_var_ok _ _ Sb). rewrite E. exact BW.
  - split; [|tauto]. change (inject_Z 0) with 0. destruct BW as [W|W]; [symmetry; exact W|]. destruct (W3 W) as [_ TH]. exfalso. unfold can_charge in TH. rewrite L, (event_presence _ _ _ _ Ece) in TH. tauto.
Qed.
Lemma set_bins d w s : sets_of (mkSetting d w) s iv -> switched c assets fl d w -> bins_eq w s iv /\ forall row x v, In row iv -> In x row -> In v (bin_vars x) -> var_ok s v.
Proof.
  intros SE SW.
  assert (forall t row x, nth_error iv t = Some row -> In x row -> bin_eq w t s x /\ forall v, In v (bin_vars x) -> var_ok s v) as K.
  { intros t row x E Ix. specialize (SE t row E). rewrite Forall_forall in SE. specialize (SE x Ix). pose proof (pr_shape _ _ _ _ _ _ _ P t row E) as (r & xss & -> & SR & F).
    assert (t < n_intervals c)%nat as Ht by (rewrite <- (pr_len _ _ _ _ _ _ _ P); apply nth_error_Some; congruence). destruct (SW t Ht) as [S1 S2].
    assert (Forall asset_fine assets) as FN by (apply (pr_fine _ _ _ _ _ _ _ P); intros ->; destruct t; discriminate).
    assert (forall v q, is_binary_var v -> vset s v q -> bit q -> s (v_id v) == q /\ var_ok s v) as BK.
    { intros v q BV V BQ. unfold vset in V. split; [rewrite V; reflexivity|]. apply (binary_var_ok _ _ BV). rewrite V. exact BQ. }
    destruct Ix as [<-|Ix].
    - cbn [oi_set st_w] in SE. destruct SE as (_ & _ & V1 & V2). destruct SR as (_ & _ & _ & B1 & B2 & _). destruct S1 as ((W1 & _) & (W2 & _) & _).
      destruct (BK _ _ B1 V1 W1) as [A1 A2]. destruct (BK _ _ B2 V2 W2) as [A3 A4]. cbn [bin_eq bin_vars In]. split; [auto|]. intros v [<-|[<-|[]]]; auto.
    - apply in_concat in Ix. destruct Ix as (xs & I1 & I2). destruct (Forall2_in_r _ _ _ _ F I1) as (a & Ia & AS). specialize (S2 a Ia). rewrite Forall_forall in FN. specialize (FN a Ia). destruct a as [b|b|b|b|b|b|n|n]; cbn [asset_shape asset_switched] in AS, S2.
      + destruct AS as (r1 & -> & SH). destruct I2 as [<-|[]]. cbn [oi_set st_w] in SE. destruct SE as (_ & _ & V1 & V2 & _). destruct SH as (EC & _ & _ & B1 & B2 & _). rewrite EC in V1, V2. destruct S2 as ((W1 & _) & (W2 & _) & _).
        destruct (BK _ _ B1 V1 W1) as [A1 A2]. destruct (BK _ _ B2 V2 W2) as [A3 A4]. cbn [bin_eq bin_vars In]. rewrite EC. split; [auto|]. intros v [<-|[<-|[]]]; auto.
      + destruct AS as (r1 & -> & SH). destruct I2 as [<-|[]]. cbn [oi_set st_w] in SE. destruct SE as (_ & _ & V1). destruct SH as (EC & _ & B1 & _). rewrite EC in V1. destruct S2 as (W1 & _).
        destruct (BK _ _ B1 V1 W1) as [A1 A2]. cbn [bin_eq bin_vars In]. rewrite EC. split; [auto|]. intros v [<-|[]]; auto.
      + destruct AS as (r1 & -> & SH). destruct I2 as [<-|[]]. cbn [oi_set st_w] in SE. destruct SE as (_ & V1 & _). destruct SH as (EC & _ & B1 & _). rewrite EC in V1. destruct S2 as ((W1 & _) & _).
        destruct (BK _ _ B1 V1 W1) as [A1 A2]. cbn [bin_eq bin_vars In]. rewrite EC. split; [auto|]. intros v [<-|[]]; auto.
      + destruct AS as (S0 & S1' & G & Sp & -> & _ & SE1 & SS). destruct S2 as (W1 & W2 & _). destruct FN as (L1 & _ & _).
        apply in_app_iff in I2. destruct I2 as [I2|I2]; apply in_map_iff in I2; destruct I2 as (y & <- & I2); apply in_grid in I2; destruct I2 as (e & k & He & Hk & ->); destruct (nth_error_lt _ _ He) as (ec & Ee); destruct (nth_error_lt _ _ Hk) as (cc & Ek).
        * destruct (SE1 e ec k cc Ee Ek) as (Q1 & _ & Q2 & _ & Q3 & _ & CS & DS & _). destruct (W1 e ec k cc Ee Ek) as [C1 C2]. cbn [oi_set st_w] in SE. rewrite Q1, Q2, Q3 in SE. destruct SE as (_ & V1 & _ & V2 & _). cbn [bin_eq bin_vars]. rewrite Q1, Q2, Q3.
          destruct (charge_bin_set _ _ _ _ _ _ _ _ _ CS V1 C1) as [A1 A2].
          assert (fv s (eoi_discharge_bin (G e k)) == w_ev_discharge w (ev_name b) e k t /\ forall v, In v (fvars (eoi_discharge_bin (G e k))) -> var_ok s v) as [A3 A4].
          { unfold discharge_shape in DS. cbn [andb] in DS. destruct (allow_evs_discharge fl); [destruct DS as (v & b' & _ & EB & _ & BV)|destruct DS as (_ & EB)]; rewrite EB in *; cbn [fset fv fvars In] in *.
            - destruct C2 as ((BW & _) & _). destruct (BK _ _ BV V2 BW) as [X1 X2]. split; auto. intros u [<-|[]]; auto.
            - change (inject_Z 0) with 0. split; [symmetry; exact C2|tauto]. }
          split; [split; assumption|]. intros v Iv. apply in_app_iff in Iv. destruct Iv; auto.
        * assert (k = 0%nat) as -> by lia. destruct (SS e ec 0%nat cc Ee Ek) as (Q1 & _ & Q2 & _ & Q3 & _ & CS & DS & _). specialize (W2 e ec cc Ee Ek). cbn [oi_set st_w] in SE. rewrite Q1, Q2 in SE. destruct SE as (_ & V1 & _). cbn [bin_eq bin_vars]. rewrite Q1, Q2.
          destruct (charge_bin_set _ _ _ _ _ _ _ _ _ CS V1 W2) as [A1 A2]. destruct DS as (_ & EB). rewrite EB. split; [exact A1|]. intros v Iv. apply in_app_iff in Iv. destruct Iv as [Iv|[]]; auto.
      + destruct AS as (r1 & -> & SH). destruct I2 as [<-|[]]. cbn [oi_set st_w] in SE. destruct SE as (_ & V1 & _). destruct SH as (EC & _ & B1 & _). rewrite EC in V1. destruct S2 as (W1 & _).
        destruct (BK _ _ B1 V1 W1) as [A1 A2]. cbn [bin_eq bin_vars In]. rewrite EC. split; [auto|]. intros v [<-|[]]; auto.
      + destruct AS as (r1 & -> & _). destruct I2 as [<-|[]]. cbn. split; [auto|intros v []].
      + destruct AS as (r1 & -> & _). destruct I2 as [<-|[]]. cbn. split; [auto|intros v []].
      + destruct AS as (r1 & -> & _). destruct I2 as [<-|[]]. cbn. split; [auto|intros v []]. }
  split.
  - intros t row E. rewrite Forall_forall. intros x Ix. apply (K t row x E Ix).
  - intros row x v Ir Ix Iv. apply In_nth_error in Ir. destruct Ir as (t & E). apply (K t row x E Ix), Iv.
Qed.
End Chosen.

(** ** what the program allows *)
Lemma kind_vars c assets fl iv lo hi cs obj o e o' : program c assets fl iv lo hi cs -> any_kind obj -> get_objective obj iv (sc_idata c) o = Ok (e, o') ->
  o' = o /\ forall v, In v (evars e) -> cared iv v \/ named_var iv v.
Proof.
  intros P [(n & ->)|(ks & -> & PL)] H.
  - destruct (plain_objective_sem _ _ _ _ _ _ _ _ _ _ _ P (or_introl (ex_intro _ n eq_refl)) H) as [A K]. split; auto.
  - destruct (any_objective _ _ _ _ _ _ _ _ _ _ _ P PL H) as (A & K & _). split; auto.
Qed.
Lemma switch_solution base c assets cons obj fl d w iv o : build_program c assets cons obj fl (new_optimizer base) = Ok (iv, o) -> (0 < n_intervals c)%nat ->
  any_kind obj -> Forall chp_fine assets -> Forall (asset_sane (sc_freq c)) assets ->
  physical c assets fl d -> switched c assets fl d w -> Forall (satisfied (full_quantity c d w) c assets) cons ->
  exists s, feasible s o /\ reads d s iv /\ reads_as assets (full_quantity c d w) s iv.
Proof.
  intros B Hn PO CF SN PH SW SAT. destruct (program_split _ _ _ _ _ _ _ _ B) as (o1 & o2 & cs & extra & e & _ & CC & P & C1 & (o3 & GO & EO) & OE & CE).
  destruct (pr_reach _ _ _ _ _ _ _ P (mkSetting d w)) as (tg & T). set (s := tg). assert (sets_of (mkSetting d w) s iv) as SE by (apply T; reflexivity).
  assert (all_ok s cs) as OK by exact (pr_complete _ _ _ _ _ _ _ P _ s SE SN PH SW). assert (eq_of d s iv) as V by exact (sets_eq _ _ _ _ _ _ _ _ _ P SE SN PH SW).
  destruct (set_bins _ _ _ _ _ _ _ P d w s SE SW) as [BE BO]. pose proof (all_picked _ _ _ _ _ _ _ P d w s V BE) as RA.
  assert (forall v, cared iv v -> var_ok s v) as VO by (intros v Cv; eapply occurs_ok; [exact OK|]; eapply cared_occurs; eauto).
  assert (forall v, named_var iv v -> var_ok s v) as VN by (intros v Nv; destruct (named_cases _ _ _ _ _ _ _ P v Nv) as [Cv|(row & x & I1 & I2 & I3)]; eauto).
  destruct (anys_sem c assets iv cons o1 o2 Hn CC) as (ks & (_ & _ & EX) & SEM). destruct (kind_vars _ _ _ _ _ _ _ _ _ _ _ P PO GO) as (-> & EV).
  exists s. splits; [|now apply eq_reads|exact RA].
  rewrite feasible_iff, OE. split; [|unfold vars_ok; rewrite Forall_forall; intros v Iv; destruct (EV v Iv); auto].
  rewrite EO. unfold cons_of in *. cbn [o_cons]. rewrite EX, C1, all_ok_app. split; auto. apply (SEM _ s RA); auto.
Qed.
Lemma switch_found base c assets cons obj fl iv o s d : build_program c assets cons obj fl (new_optimizer base) = Ok (iv, o) -> (0 < n_intervals c)%nat ->
  Forall chp_fine assets -> feasible s o -> reads d s iv ->
  exists s' w, bins_eq w s' iv /\ (forall v, In v (all_occurrences o) -> s' (v_id v) = s (v_id v)) /\ switched c assets fl d w /\ Forall (satisfied (full_quantity c d w) c assets) cons /\
    forall ks, obj = simple_terms ks -> Forall simple_term ks -> objective_value s o == terms_sum (full_quantity c d w) c assets ks.
Proof.
  intros B Hn CF F R. destruct (settle _ _ _ _ _ _ _ _ B s CF F) as (s' & w & F' & OV & RD & BE & SW & AG). specialize (RD d R).
  destruct (program_split _ _ _ _ _ _ _ _ B) as (o1 & o2 & cs & extra & e & _ & CC & P & C1 & (o3 & GO & EO) & OE & CE).
  pose proof (solution_dispatch _ _ _ _ _ _ _ _ _ P RD) as SD. pose proof (same_full c assets _ _ w (dispatch_readings _ _ _ _ SD)) as AL.
  pose proof (all_picked _ _ _ _ _ _ _ P _ w s' (d_of_eq _ _ _ _ _ _ _ s' P) BE) as RA.
  exists s', w. splits; auto; [eapply switched_ext; eauto| |].
  - destruct (anys_sem c assets iv cons o1 o2 Hn CC) as (ks & (_ & _ & EX) & SEM). destruct (grows_objective _ _ _ _ _ _ GO) as (_ & c3 & C3).
    rewrite feasible_iff, EO in F'. destruct F' as (OK & _). unfold cons_of in *. cbn [o_cons] in OK. rewrite C3, EX, !all_ok_app in OK. destruct OK as ((_ & OK) & _).
    pose proof (proj1 (SEM _ s' RA) OK) as SAT. rewrite Forall_forall in *. intros k Ik. eapply alike_satisfied; [exact AL|auto].
  - intros ks -> PL. destruct (any_objective _ _ _ _ _ _ _ _ _ _ _ P PL GO) as (_ & _ & EV). rewrite <- OV, <- (alike_terms _ _ _ _ ks AL). unfold objective_value. rewrite OE. apply EV. exact RA.
Qed.

Lemma switch_sound base c assets cons obj fl iv o s d : build_program c assets cons obj fl (new_optimizer base) = Ok (iv, o) -> (0 < n_intervals c)%nat ->
  Forall chp_fine assets -> feasible s o -> reads d s iv ->
  exists w, switched c assets fl d w /\ Forall (satisfied (full_quantity c d w) c assets) cons /\
    forall ks, obj = simple_terms ks -> Forall simple_term ks -> objective_value s o == terms_sum (full_quantity c d w) c assets ks.
Proof.
  intros B Hn CF F R. destruct (switch_found _ _ _ _ _ _ _ _ _ _ B Hn CF F R) as (s' & w & _ & _ & H). exists w. exact H.
Qed.

(** ** C72 *)
Lemma bits_shown slv base c assets cons obj fl r iv o s lp rows s' w : names_ok c assets -> run slv base c assets cons obj fl r iv o s lp rows -> bins_eq w s' iv ->
  (forall v, In v (all_occurrences o) -> s' (v_id v) = s (v_id v)) -> switched c assets fl (d_of s iv) w -> shows_switches (r_results r) c assets w.
Proof.
  intros (_ & _ & EVN) R BE AG SW a t col q Ia Ht Ic. destruct (program_split _ _ _ _ _ _ _ _ (run_built _ _ _ _ _ _ _ _ _ _ _ _ _ R)) as (o1 & o2 & cs & extra & e & _ & _ & P & _).
  assert (forall v x, var_value o (slv o) v = Some x -> x = s' (v_id v)) as V.
  { intros v x E. pose proof (var_value_sound _ _ s v x (run_answer _ _ _ _ _ _ _ _ _ _ _ _ _ R) E) as ->. unfold var_value in E. destruct (occurs o v) eqn:OC; [|discriminate]. unfold occurs in OC. apply existsb_exists in OC.
    destruct OC as (v' & I' & EQ). apply Nat.eqb_eq in EQ. rewrite EQ. symmetry. now apply AG. }
  destruct (nth_error_lt rows t) as (row & E).
  { rewrite <- (Forall2_len _ _ _ (run_rows _ _ _ _ _ _ _ _ _ _ _ _ _ R)), seq_length. exact Ht. }
  assert (extract_row (var_value o (slv o)) (sc_idata c) (map asset_name assets) iv t = Ok row) as X.
  { pose proof (run_extract _ _ _ _ _ _ _ _ _ _ _ _ _ R) as F. clear -F E Ht. assert (nth_error (seq 0 (n_intervals c)) t = Some t) as S1.
    { rewrite nth_error_nth' with (d := 0%nat) by (rewrite seq_length; exact Ht). now rewrite seq_nth by exact Ht. }
    exact (Forall2_nth _ _ _ _ _ _ F S1 E). }
  destruct (nth_error_lt iv t) as (vr & EV); [rewrite (pr_len _ _ _ _ _ _ _ P); exact Ht|].
  assert (has row col q) as (x & Ix & Ex).
  { unfold extract_row in X. repeat (rewrite rbind_ok in X; let r := fresh "r" in let K := fresh "K" in destruct X as (r & K & X)). injection X as <-.
    destruct (SW t Ht) as [_ SA]. specialize (SA a Ia). destruct a as [b|b|b|b|b|b|nm|nm]; cbn [switch_columns] in Ic; try (destruct Ic; fail).
    - destruct SA as ((B1 & _) & (B2 & _) & _).
      assert (forall x, bit x -> 0 <= x) as BP by (intros x [Z|Z]; rewrite Z; lra).
      match goal with K : extract_kind _ _ _ KBattery = Ok _ |- _ => destruct (battery_row _ s' V c assets fl iv _ _ cs P w BE b t vr _ Ia EV K (BP _ B1) (BP _ B2)) as [H1 H2] end.
      do 2 apply has_r. apply has_l. destruct Ic as [Ic|[Ic|[]]]; injection Ic as <- <-; assumption.
    - match goal with K : extract_evs _ _ _ _ = Ok _ |- _ => pose proof (evs_bins _ s' V c assets fl iv _ _ cs P w BE EVN b t vr _ col q Ia EV K Ic) as H end. do 6 apply has_r. apply has_l. exact H. }
  destruct (to_cell _ _ _ (run_table _ _ _ _ _ _ _ _ _ _ _ _ _ R) _ _ _ _ E Ix) as (cells & C1 & C2). destruct (run_totals _ _ _ _ _ _ _ _ _ _ _ _ _ R) as (imp & exp & _ & _ & ->).
  exists cells, x. splits; auto. apply in_app_iff. now left.
Qed.
(** Every custom constraint, whatever it reads, holds of the results table and of some on/off switches that fit the
    result, and which are shown in the on/off columns of the table; and a custom objective of simple terms is reported at its value for the same switches. *)
Theorem C72_holds : forall slv base c assets cons obj fl r, feasible_run slv base c assets cons obj fl r ->
  exists d w, reports (r_results r) c assets d /\ physical c assets fl d /\ switched c assets fl d w /\ shows_switches (r_results r) c assets w /\
    Forall (satisfied (full_reported c r w) c assets) cons /\
    forall ks, obj = simple_terms ks -> Forall simple_term ks -> exists z, objective_is fl r z /\ z == terms_sum (full_reported c r w) c assets ks.
Proof.
  intros slv base c assets cons obj fl r [SND OPT FE CF NM]. destruct (optimize_run _ _ _ _ _ _ _ _ SND CF NM OPT FE) as (iv & o & s & lp & rows & R).
  pose proof (run_built _ _ _ _ _ _ _ _ _ _ _ _ _ R) as B. destruct (run_status _ _ _ _ _ _ _ _ _ _ _ _ _ R) as (z & ST & ZV). pose proof (run_n _ _ _ _ _ _ _ _ _ _ _ _ _ R) as Hn.
  destruct (program_split _ _ _ _ _ _ _ _ B) as (o1 & o2 & cs & extra & e & _ & _ & P & _). pose proof (d_of_eq _ _ _ _ _ _ _ s P) as V. pose proof (run_reports _ _ _ _ _ _ _ _ _ _ _ _ _ NM R) as RP.
  assert (facts (r_results r) c assets fl (d_of s iv)) as FA.
  { constructor; [exact RP|apply R|exact Hn| |apply P]. apply (pr_fine _ _ _ _ _ _ _ P). intros X. pose proof (pr_len _ _ _ _ _ _ _ P) as L. rewrite X in L. cbn in L. lia. }
  destruct (switch_found _ _ _ _ _ _ _ _ s _ B Hn CF (run_feasible _ _ _ _ _ _ _ _ _ _ _ _ _ R) (eq_reads _ _ _ V)) as (s' & w & BE & AG & SW & SAT & OBJ).
  pose proof (reported_full _ _ _ _ w (facts_readings _ _ _ _ _ FA)) as AL. exists (d_of s iv), w. splits; auto; [apply FA|eapply bits_shown; eauto| |].
  - rewrite Forall_forall in *. intros k Ik. eapply alike_satisfied; [exact AL|auto].
  - intros ks EQ PL. exists z. split; auto. rewrite ZV, (OBJ ks EQ PL). apply (alike_terms _ _ _ _ ks AL).
Qed.
(** Nothing else is forbidden. *)
Theorem C72_allowed_iff : forall base c assets cons obj fl iv o d, build_program c assets cons obj fl (new_optimizer base) = Ok (iv, o) -> (0 < n_intervals c)%nat ->
  any_kind obj -> Forall chp_fine assets -> Forall (asset_sane (sc_freq c)) assets ->
  (allowed base c assets cons obj fl d <-> physical c assets fl d /\ exists w, switched c assets fl d w /\ Forall (satisfied (full_quantity c d w) c assets) cons).
Proof.
  intros base c assets cons obj fl iv o d B Hn K CF SN. split.
  - intros A. split; [eapply allowed_physical; eauto|]. destruct A as (iv' & o' & s & B' & F & R). rewrite B in B'. injection B' as <- <-.
    destruct (switch_sound _ _ _ _ _ _ _ _ _ _ B Hn CF F R) as (w & SW & SAT & _). eauto.
  - intros (PH & w & SW & SAT). destruct (switch_solution _ _ _ _ _ _ _ _ _ _ B Hn K CF SN PH SW SAT) as (s & F & R & _). exists iv, o, s. auto.
Qed.
(** The result is within the solver's gap of every physical dispatch with switches that fit it and satisfy the constraints. *)
Theorem C72_terms_within : forall gap slv base c assets cons ks fl r, feasible_run slv base c assets cons (simple_terms ks) fl r -> solved_within gap slv base c assets cons (simple_terms ks) fl ->
  Forall simple_term ks -> Forall (asset_sane (sc_freq c)) assets ->
  exists z, objective_is fl r z /\
    forall d w, physical c assets fl d -> switched c assets fl d w -> Forall (satisfied (full_quantity c d w) c assets) cons -> z <= terms_sum (full_quantity c d w) c assets ks + gap.
Proof.
  intros gap slv base c assets cons ks fl r R SW PL SN. destruct (run_solution _ _ _ _ _ _ _ _ R) as (iv & o & s & z & B & FA & F & BEST & ST & ZV & V).
  exists z. split; auto. intros d w PH WD SAT.
  destruct (switch_solution _ _ _ _ _ _ d w _ _ B (fa_n _ _ _ _ _ FA) (or_intror (ex_intro _ ks (conj eq_refl PL))) (fr_chp _ _ _ _ _ _ _ _ R) SN PH WD SAT) as (s' & F' & R' & RA).
  destruct (program_split _ _ _ _ _ _ _ _ B) as (o1 & o2 & cs & extra & e & _ & CC & P & C1 & (o3 & GO & EO) & OE & CE).
  destruct (any_objective _ _ _ _ _ _ _ _ _ _ _ P PL GO) as (_ & _ & EV). pose proof (BEST gap (SW _ _ B) s' F') as LE. rewrite <- ZV in LE.
  assert (objective_value s' o == terms_sum (full_quantity c d w) c assets ks) as OV by (unfold objective_value; rewrite OE; apply EV; exact RA). lra.
Qed.
Theorem C72_price_within : forall gap slv base c assets cons fl r, feasible_run slv base c assets cons (ObjName "price") fl r -> solved_within gap slv base c assets cons (ObjName "price") fl ->
  Forall (asset_sane (sc_freq c)) assets ->
  forall d w, physical c assets fl d -> switched c assets fl d w -> Forall (satisfied (full_quantity c d w) c assets) cons -> reported_cost c assets r <= dispatch_cost c assets d + gap.
Proof.
  intros gap slv base c assets cons fl r R SW SN d w PH WD SAT. destruct (run_solution _ _ _ _ _ _ _ _ R) as (iv & o & s & z & B & FA & F & BEST & ST & ZV & V).
  destruct (switch_solution _ _ _ _ _ _ d w _ _ B (fa_n _ _ _ _ _ FA) (or_introl (ex_intro _ "price" eq_refl)) (fr_chp _ _ _ _ _ _ _ _ R) SN PH WD SAT) as (s' & F' & R' & _).
  destruct (reported_cost_eq _ _ _ _ _ FA) as [-> _]. rewrite <- (C31_price_objective _ _ _ _ _ _ _ _ _ B R'), <- (C31_price_objective _ _ _ _ _ _ _ _ _ B (eq_reads _ _ _ V)). exact (BEST gap (SW _ _ B) s' F').
Qed.
Theorem C72_carbon_within : forall gap slv base c assets cons fl r, feasible_run slv base c assets cons (ObjName "carbon") fl r -> solved_within gap slv base c assets cons (ObjName "carbon") fl ->
  Forall (asset_sane (sc_freq c)) assets ->
  forall d w, physical c assets fl d -> switched c assets fl d w -> Forall (satisfied (full_quantity c d w) c assets) cons -> reported_emissions c assets r <= dispatch_emissions c assets d + gap.
Proof.
  intros gap slv base c assets cons fl r R SW SN d w PH WD SAT. destruct (run_solution _ _ _ _ _ _ _ _ R) as (iv & o & s & z & B & FA & F & BEST & ST & ZV & V).
  destruct (switch_solution _ _ _ _ _ _ d w _ _ B (fa_n _ _ _ _ _ FA) (or_introl (ex_intro _ "carbon" eq_refl)) (fr_chp _ _ _ _ _ _ _ _ R) SN PH WD SAT) as (s' & F' & R' & _).
  destruct (reported_cost_eq _ _ _ _ _ FA) as [_ ->]. rewrite <- (C32_carbon_objective _ _ _ _ _ _ _ _ _ B R'), <- (C32_carbon_objective _ _ _ _ _ _ _ _ _ B (eq_reads _ _ _ V)). exact (BEST gap (SW _ _ B) s' F').
Qed.
