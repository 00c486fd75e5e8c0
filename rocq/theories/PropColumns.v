(** * PropColumns: property C54 (the columns of the linear program have different names) *)
From Verif Require Import Base Pulp Params Optimizer Types Assets EVs Site Constraints Objectives Extract Pipeline Check Lucky Emit Prim Spec SpecReport SpecRun SpecNames SpecColumns.
From Verif Require Import SampleSite Layout Rows OptFacts SemResults RunFacts Builds Returns SemSite SemProg PropBasics PropChecks IntervalData Ctors Owned Columns.
Open Scope Q_scope.
Open Scope string_scope.

(** ** Every variable of the program has one of the names of [SpecColumns] *)
Theorem C54_columns c assets cons obj fl base iv o : build_program c assets cons obj fl (new_optimizer base) = Ok (iv, o) ->
  exists operands, forall v, In v (all_occurrences o) ->
    In (v_name v) (map sanitize (base_columns assets (id_n (sc_idata c)) ++ objective_columns (id_n (sc_idata c)) operands obj)%list).
Proof. intros H. destruct (program_made _ _ _ _ _ _ _ _ H) as (F & S & _ & G). exists (operands_of iv). intros v I. eapply sub_in; [exact S|]. apply in_map. auto. Qed.

Lemma nodup_inj {A B} (f : A -> B) l x y : NoDup (map f l) -> In x l -> In y l -> f x = f y -> x = y.
Proof.
  induction l as [|z l IH]; cbn; [tauto|]. intros N [<-|I] [<-|J] E; auto; inversion N as [|? ? N1 N2]; subst; auto; exfalso; apply N1.
  - rewrite E. now apply in_map.
  - rewrite <- E. now apply in_map.
Qed.
(** One identity, one variable: whatever is read for an identity is read for that variable. *)
Theorem C54_identity c assets cons obj fl base iv o : build_program c assets cons obj fl (new_optimizer base) = Ok (iv, o) ->
  forall v w, In v (all_occurrences o) -> In w (all_occurrences o) -> v_id v = v_id w -> v = w.
Proof.
  intros H v w I J E. destruct (program_made _ _ _ _ _ _ _ _ H) as (F & _ & (k & _ & S) & G).
  apply (nodup_inj v_id F); auto. eapply sub_nodup; [exact S|apply seq_NoDup].
Qed.
(** If asset, charger and event names stay different after pulp's replacement of characters and no two function terms have the same label,
    variables of the program that have the same name are the same variable. *)
Theorem C54_same_name c assets cons obj fl base iv o : separate assets -> separate_terms obj -> build_program c assets cons obj fl (new_optimizer base) = Ok (iv, o) ->
  forall v w, In v (all_occurrences o) -> In w (all_occurrences o) -> v_name v = v_name w -> v = w.
Proof.
  intros SA ST H v w I J E. destruct (program_made _ _ _ _ _ _ _ _ H) as (F & S & _ & G).
  apply (nodup_inj v_name F); auto. eapply sub_nodup; [exact S|]. now apply columns_distinct.
Qed.
Lemma dedup_in l : forall seen v, In v (dedup_id seen l) -> In v l /\ ~ In (v_id v) seen.
Proof.
  induction l as [|x l IH]; intros seen v; cbn; [tauto|]. destruct (existsb (Nat.eqb (v_id x)) seen) eqn:E.
  - intros I. apply IH in I. tauto.
  - intros [<-|I].
    + split; auto. intros J. rewrite <- not_true_iff_false in E. apply E, existsb_exists. exists (v_id x). split; auto. apply Nat.eqb_refl.
    + apply IH in I. cbn in I. tauto.
Qed.
Lemma dedup_nodup l : forall seen, NoDup (map v_id (dedup_id seen l)).
Proof.
  induction l as [|x l IH]; intros seen; cbn; [constructor|]. destruct (existsb _ _); auto. cbn. constructor; auto.
  rewrite in_map_iff. intros (v & E & I). apply dedup_in in I. cbn in I. intuition congruence.
Qed.
Theorem C54_distinct c assets cons obj fl base iv o : separate assets -> separate_terms obj -> build_program c assets cons obj fl (new_optimizer base) = Ok (iv, o) ->
  NoDup (map v_name (variables o)).
Proof.
  intros SA ST H. assert (NoDup (variables o)) as N by (eapply NoDup_map_inv, dedup_nodup).
  apply nodup_map_on; auto. intros v w I J E. apply dedup_in in I, J. eapply C54_same_name; eauto; tauto.
Qed.
(** So the check for duplicate names never stops such a site: what C39 asks of the program follows from the names. *)
Theorem C54_accepted slv base c assets cons obj fl iv o :
  honest_solver slv -> Forall chp_fine assets -> ordinary_site c assets -> site_ready c assets -> separate assets -> separate_terms obj ->
  build_program c assets cons obj fl (new_optimizer base) = Ok (iv, o) ->
  objective_has_value slv o \/ allow_infeasible fl = true ->
  sol_status (slv o) = Optimal -> fail_on_spill_asset_use fl = false ->
  exists r, optimize slv base c assets cons obj fl = Ok r /\ r_feasible r = true.
Proof. intros HS CF OS RD SA ST HB HV OK FF. eapply C39_correct_solution_accepted; eauto. eapply C54_distinct; eauto. Qed.
(** A run that returned had columns with different names, whatever the names of the assets. *)
Theorem C54_returned_distinct slv base c assets cons obj fl r : optimize slv base c assets cons obj fl = Ok r ->
  exists iv o, build_program c assets cons obj fl (new_optimizer base) = Ok (iv, o) /\
    forall v w, In v (all_occurrences o) -> In w (all_occurrences o) -> v_name v = v_name w -> v = w.
Proof.
  intros E. unfold optimize in E. destruct (build_program c assets cons obj fl (new_optimizer base)) as [[iv o]|] eqn:HB; [|discriminate]. cbn [rbind] in E.
  destruct (solve slv (allow_infeasible fl) o) as [s|] eqn:HS; [|discriminate].
  exists iv, o. split; auto. intros v w I J N. eapply C54_identity; eauto. eapply solve_unique_names; eauto.
  intros x y Ix Iy Exy. f_equal. eapply C54_identity; eauto.
Qed.
(** ** The names the EVs constructor gives its chargers and events are different *)
Theorem C54_constructed rows powers caps eff td name c : evs_init rows powers caps eff td name = Ok c ->
  NoDup (map (fun cc => sanitize (cg_name cc)) (ev_chargers c)) /\ NoDup (map (fun cc => sanitize (cg_name cc)) (ev_spill_chargers c)) /\
  NoDup (map (fun ec => sanitize (ce_name ec)) (ev_event_cfgs c)).
Proof.
  intros E. unfold evs_init in E. destruct (negb (rectangular rows)); [discriminate|].
  destruct (pyd_assert (contains "evs" name)); [|discriminate]. cbn [rbind] in E. destruct rows as [|r rows]; [discriminate|].
  destruct (pyd_assert _) in E; [|discriminate]. cbn [rbind] in E. injection E as <-. cbn [ev_chargers ev_spill_chargers ev_event_cfgs].
  assert (forall {A} (p : string) (l : list A), NoDup (map (fun kp : nat * A => sanitize (p ++ show (fst kp))) (enumerate l))) as H.
  { intros A p l. replace (map (fun kp : nat * A => sanitize (p ++ show (fst kp))) (enumerate l)) with (map (fun k => sanitize p ++ show k) (seq 0 (List.length l))).
    - apply nodup_map_on; [apply seq_NoDup|]. intros x y _ _ E. apply app_inj_l in E. now apply show_inj.
    - unfold enumerate. generalize 0%nat. induction l as [|x l IH]; intros n; cbn [List.length seq map enum_from fst]; auto. f_equal; [|apply IH]. now rewrite sanitize_app, sanitize_show. }
  splits; rewrite ?map_map; cbn [cg_name ce_name]; [exact (H Q "charger-" powers)| |exact (H Q "charge-event-" caps)]. constructor; [intros []|constructor].
Qed.

(** ** Names that collide are refused *)
Definition is_evs (a : asset) : bool := match a with AEVs _ => true | _ => false end.
Definition flows (q : string -> qty -> nat -> Q) : setting :=
  natural [] (mkDispatch (fun _ => 0) (fun _ => 0) q (fun _ _ _ _ => 0) (fun _ _ _ _ => 0) (fun _ _ _ _ => 0) (fun _ _ _ => 0) (fun _ _ _ => 0) (fun _ _ _ => 0) (fun _ _ _ => 0)).
(** the variable an asset makes first *)
Lemma lead_variable a t f fl o xs o' : is_evs a = false -> asset_one_interval a t f fl o = Ok (xs, o') ->
  exists x v, xs = [x] /\ kind_of x <> Types.KSite /\ In v (bal_vars x) /\ v_name v = sanitize (hd "" (asset_columns a t)) /\
    forall q s, oi_set (flows q) t s x -> exists k, s (v_id v) = q (asset_name a) k t.
Proof.
  intros NE E.
  destruct a; try discriminate; cbn [asset_one_interval] in E; minv E;
  (match goal with
   | H : battery_one_interval _ _ _ _ = Ok _ |- _ => unfold battery_one_interval in H; minv H
   | H : boiler_one_interval _ _ _ _ = Ok _ |- _ => unfold boiler_one_interval in H; minv H
   | H : chp_one_interval _ _ _ _ = Ok _ |- _ => unfold chp_one_interval in H; minv H
   | H : hp_one_interval _ _ _ _ = Ok _ |- _ => unfold hp_one_interval in H; minv H
   | H : rg_one_interval _ _ _ = Ok _ |- _ => unfold rg_one_interval in H; minv H
   | H : spill_one_interval _ _ _ = Ok _ |- _ => unfold spill_one_interval in H; minv H
   | H : valve_one_interval _ _ _ = Ok _ |- _ => unfold valve_one_interval in H; minv H
   end; alloc_inv; eexists; eexists; split; [reflexivity|]; split; [discriminate|]; split; [cbn; left; reflexivity|]; split;
   [cbn [asset_columns dashed tagged map hd v_name]; rewrite ?app_nil_str; reflexivity|];
   intros q s H; cbn in H; unfold vset in H; cbn in H |- *; eexists; apply H).
Qed.
Lemma nodup_apart {A} (f : A -> string) l1 a l2 b l3 : NoDup (map f (l1 ++ a :: l2 ++ b :: l3)%list) -> f a <> f b.
Proof.
  rewrite map_app. cbn [map]. intros N E. apply NoDup_remove_2 in N. apply N. rewrite map_app. cbn [map]. rewrite E, !in_app_iff. cbn. tauto.
Qed.
(** Two assets whose first columns have the same name after the replacement of characters never give a result: whatever the solver
    answers, the flags and the objective are, optimize raises. *)
Theorem C54_clash_rejected slv base c l1 a l2 b l3 cons obj fl r :
  is_evs a = false -> is_evs b = false -> sanitize (hd "" (asset_columns a 0)) = sanitize (hd "" (asset_columns b 0)) ->
  Forall chp_fine (l1 ++ a :: l2 ++ b :: l3)%list -> (0 < n_intervals c)%nat ->
  optimize slv base c (l1 ++ a :: l2 ++ b :: l3)%list cons obj fl <> Ok r.
Proof.
  set (assets := (l1 ++ a :: l2 ++ b :: l3)%list). intros Ea Eb SAME CF Hn R.
  destruct (C54_returned_distinct _ _ _ _ _ _ _ _ R) as (iv & o & HB & D).
  destruct (program_split _ _ _ _ _ _ _ _ HB) as (o1 & o2 & cs & extra & e & BB & _ & P & _ & _ & _ & CE).
  assert (forall x, In x assets -> is_evs x = false -> exists row y v, nth_error iv 0 = Some row /\ In y row /\ In v (bal_vars y) /\ v_name v = sanitize (hd "" (asset_columns x 0)) /\
    forall q s, oi_set (flows q) 0 s y -> exists k, s (v_id v) = q (asset_name x) k 0%nat) as LEAD.
  { intros x Ix NE. destruct (C46_own_objects _ _ _ _ _ _ BB) as (_ & OWN). destruct (OWN 0%nat x Hn Ix) as (row & xs & q1 & q2 & ER & HX & FO).
    destruct (lead_variable _ _ _ _ _ _ _ NE HX) as (y & v & -> & NK & IV & NM & V). exists row, y, v. splits; auto.
    specialize (FO (kind_of y) NK). unfold filter_objective_variables in FO. cbn [Z.of_nat] in FO. rewrite C46_index in FO. change (0 <=? 0)%Z with true in FO. cbv iota in FO. change (Z.to_nat 0) with 0%nat in FO. rewrite ER in FO. cbn [rbind of_option] in FO.
    assert (kind_eqb (kind_of y) (kind_of y) = true) as K by (destruct (kind_of y); reflexivity).
    cbn [filter] in FO. rewrite K in FO. injection FO as FO. assert (In y (filter (matches (Some (kind_of y)) (Some (asset_name x))) row)) as IY by (rewrite FO; now left).
    apply filter_In in IY. tauto. }
  assert (In a assets) as Ia by (unfold assets; rewrite in_app_iff; cbn; tauto).
  assert (In b assets) as Ib by (unfold assets; rewrite in_app_iff; cbn; rewrite in_app_iff; cbn; tauto).
  destruct (LEAD a Ia Ea) as (row & x & v & E0 & Ix & Iv & Nv & Sv). destruct (LEAD b Ib Eb) as (row' & y & w & E0' & Iy & Iw & Nw & Sw).
  rewrite E0 in E0'. injection E0' as <-.
  assert (forall z u, In z row -> In u (bal_vars z) -> In u (all_occurrences o)) as OCC.
  { intros z u Iz Iu. assert (In u (cs_vars cs)) as J. { eapply (pr_occurs _ _ _ _ _ _ _ P CF); [eapply nth_error_In; eauto|exact Iz|auto]. }
    unfold all_occurrences. apply in_app_iff. right. unfold cs_vars in J. apply in_flat_map in J. destruct J as (k & Ik & Iu').
    assert (In k (cons_of o)) as Ik' by (rewrite CE; apply in_app_iff; auto). unfold cons_of in Ik'. apply in_map_iff in Ik'. destruct Ik' as (nk & <- & Ink). apply in_flat_map. eauto. }
  assert (v = w) as <- by (apply D; eauto; congruence).
  destruct (pr_reach _ _ _ _ _ _ _ P (flows (fun n _ _ => if (n =? asset_name a)%string then 0 else 1))) as (tgt & T).
  assert (sets_of (flows (fun n _ _ => if (n =? asset_name a)%string then 0 else 1)) tgt iv) as SE by (apply T; reflexivity).
  specialize (SE 0%nat row E0). rewrite Forall_forall in SE. destruct (Sv _ _ (SE _ Ix)) as (k1 & V1). destruct (Sw _ _ (SE _ Iy)) as (k2 & V2).
  rewrite String.eqb_refl in V1. assert (asset_name a <> asset_name b) as NE by (eapply (nodup_apart asset_name); apply (pr_names _ _ _ _ _ _ _ P)).
  destruct (asset_name b =? asset_name a)%string eqn:Q; [apply String.eqb_eq in Q; congruence|]. rewrite V1 in V2. discriminate.
Qed.

(** ** The hypotheses and their limits on cases *)
Lemma sample_separate : separate x_assets.
Proof.
  constructor.
  - repeat constructor.
  - apply nodup_str_iff. vm_compute. reflexivity.
  - intros c I. cbn in I. repeat (destruct I as [I|I]; [try discriminate|]); [|destruct I]. injection I as <-. splits; apply nodup_str_iff; vm_compute; reflexivity.
Qed.
Definition peak_term (name : string) (M : Q) : one_term :=
  TTwo (mkTwo "max_two_variables" (TTerm (mkTerm "import_power_mwh" (Some "site") None (Some name) 1 "simple")) (TNumber 2) M None 1 "complex").
(** a site with every kind of asset and two function terms *)
Example C54_sample :
  separate x_assets /\ separate_terms (ObjTerms [peak_term "site" 100; peak_term "depot" 100]) /\
  match build_program x_site x_assets [] (ObjTerms [peak_term "site" 100]) default_flags (new_optimizer 0) with
  | Ok (_, o) => (96%nat, 96%nat) = (List.length (variables o), List.length (nodup string_dec (map v_name (variables o))))
  | Err _ => False end.
Proof. split; [exact sample_separate|]. split; [apply nodup_str_iff; vm_compute; reflexivity|]. vm_compute. reflexivity. Qed.
(** batteries battery-1 and battery_1 are different assets for energypylinear and the same for pulp *)
Definition dash_assets : list asset := [ABattery (mkBatteryCfg "battery-1" 2 2 4 (1#2) 0 0); ABattery (mkBatteryCfg "battery_1" 2 2 4 (1#2) 0 0)].
Theorem C54_names_refuted : ~ separate dash_assets /\ NoDup (map asset_name dash_assets) /\
  forall slv obj cons fl r, optimize slv 0 x_site dash_assets cons obj fl <> Ok r.
Proof.
  splits.
  - intros [_ N _]. inversion N as [|? ? K]. apply K. left. reflexivity.
  - apply nodup_str_iff. reflexivity.
  - intros slv obj cons fl r. refine (C54_clash_rejected slv 0 x_site [] _ [] _ [] cons obj fl r _ _ _ _ _); try reflexivity; [repeat constructor|cbn; lia].
Qed.
(** two terms that differ only in M have the same label and are refused, whatever the solver answers *)
Theorem C54_terms_refuted : ~ separate_terms (ObjTerms [peak_term "site" 100; peak_term "site" 200]) /\
  forall slv, optimize slv 0 x_site x_assets [] (ObjTerms [peak_term "site" 100; peak_term "site" 200]) default_flags = Err AssertionErr.
Proof.
  split.
  - intros N. vm_compute in N. inversion N as [|? ? K]. apply K. left. reflexivity.
  - intros slv. unfold optimize. destruct (build_program _ _ _ _ _ _) as [[iv o]|e] eqn:E; [|exfalso; vm_compute in E; discriminate].
    assert (nodup_str (map v_name (variables o)) = false) as D.
    { replace o with (match build_program x_site x_assets [] (ObjTerms [peak_term "site" 100; peak_term "site" 200]) default_flags (new_optimizer 0) with Ok (_, o) => o | Err _ => new_optimizer 0 end) by (now rewrite E).
      vm_compute. reflexivity. }
    cbn [rbind]. unfold solve, assert_no_duplicate_variables. rewrite D. reflexivity.
Qed.
