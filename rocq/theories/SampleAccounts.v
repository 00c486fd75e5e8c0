(** * SampleAccounts: the accounts of the sample simulation, and the accounts users may not expect *)
From Verif Require Import Base Pulp Optimizer Params Types Emit Prim Spec SpecReport SpecRun SpecNames SpecCost SpecTerms Constraints Objectives Extract Pipeline Terms Accounting SpecAccounts PropAccounts PropAccountRun PropCustom PropAccountFun SampleSite SampleResults.
Open Scope Q_scope.
Open Scope string_scope.

Definition x_accounts (ks : list term) : option Q :=
  match get_accounts (r_results x_result) None (as_custom_terms ks) true with Ok a => Some (Qred (ac_cost (as_custom a))) | Err _ => None end.
Definition k_battery : term := mkTerm "electric_charge_mwh" (Some "battery") (Some "electricity_prices") (Some "battery") 1 "simple".
Definition k_export : term := mkTerm "export_power_mwh" (Some "site") (Some "electricity_prices") None (-1) "simple".
Definition k_batteries : term := mkTerm "electric_charge_mwh" (Some "battery") (Some "electricity_prices") None 1 "simple".
Definition k_evs : term := mkTerm "electric_charge_mwh" (Some "evs") (Some "electricity_prices") (Some "evs") 1 "simple".
Definition k_all : term := mkTerm "electric_charge_mwh" None (Some "electricity_prices") None 1 "simple".

Lemma in_plain x : existsb (String.eqb x) plain_quantities = true -> In x plain_quantities.
Proof. intros H. apply existsb_exists in H. destruct H as (y & Iy & H). apply String.eqb_eq in H. now subst. Qed.
Lemma x_prices k : t_interval_data k = Some "electricity_prices" -> known_data x_site k.
Proof. intros E. unfold known_data. rewrite E. split; [discriminate|now left]. Qed.
Lemma x_accountable : Forall (accountable x_site x_assets) [k_battery; k_export].
Proof.
  repeat (apply Forall_cons || apply Forall_nil); (split; [split; [reflexivity|apply in_plain; reflexivity]|split; [now apply x_prices|]]).
  - right. exists (ABattery x_battery). split; [now left|]. split; [discriminate|]. split; [reflexivity|]. split; [right; reflexivity|].
    split; [unfold apart; splits; [discriminate|reflexivity|reflexivity]|]. split; [unfold apart; splits; [discriminate|reflexivity|reflexivity]|].
    intros b Ib. unfold x_assets in Ib. cbn [In] in Ib. repeat (destruct Ib as [<-|Ib]; [first [left; reflexivity|right; unfold apart; splits; [discriminate|reflexivity|reflexivity]]|]). destruct Ib.
  - left. split; [cbn; tauto|]. split; [reflexivity|]. split; [now left|]. intros col [].
Qed.
(** the battery charges 2 MWh at price 10, the site exports 1 MWh at price 20 *)
Example C43_sample : x_accounts [k_battery; k_export] = Some 0 /\ x_accounts [k_battery] = Some 20 /\ x_accounts [k_export] = Some (-20).
Proof. splits; vm_compute; reflexivity. Qed.
Example C43_holds_sample : exists a, get_accounts (r_results x_result) None (as_custom_terms [k_battery; k_export]) true = Ok a /\
  ac_cost (as_custom a) == terms_sum (reported x_result) x_site x_assets [k_battery; k_export] /\ ac_emissions (as_custom a) == 0.
Proof. exact (C43_custom_account _ _ _ _ _ _ _ _ _ _ x_run x_accountable). Qed.
Example C42_sample : exists a, get_accounts (r_results x_result) None None true = Ok a /\ as_cost a == - (20) /\ as_emissions a == 69 # 50.
Proof. eexists. split; [vm_compute; reflexivity|]. split; vm_compute; reflexivity. Qed.

(** the full claim of C42, without the condition on the export prices, is false: exports are paid at the export price (0
    here) by the objective and at the import price (20) by the account *)
Theorem C42_export_price_refuted : exists slv base c assets cons fl r a z,
  feasible_run slv base c assets cons (ObjName "price") fl r /\ ordinary_names c assets /\
  (forall t x, (t < n_intervals c)%nat -> In x assets -> r_spilled r t x == 0) /\
  get_accounts (r_results r) None None true = Ok a /\ st_objective (r_status r) = Some z /\ as_cost a == z - 20.
Proof.
  exists x_solver, 0%nat, x_site, x_assets, [], default_flags, x_result. eexists. eexists. splits; [exact x_run|exact x_ordinary_names| |vm_compute; reflexivity|reflexivity|vm_compute; reflexivity].
  intros t x Ht Ix. assert (forallb (fun t => forallb (fun x => Qeq_bool (r_spilled x_result t x) 0) x_assets) [0%nat; 1%nat] = true) as H by (vm_compute; reflexivity).
  rewrite forallb_forall in H. assert (In t [0%nat; 1%nat]) as It by (change (n_intervals x_site) with 2%nat in Ht; cbn; lia). specialize (H t It). cbv beta in H. rewrite forallb_forall in H. apply Qeq_bool_iff. apply H. exact Ix.
Qed.
(** Terms that do not name exactly one asset (C43): by type, over the name of EVs, without type and name *)
Theorem C43_by_type_refuted : exists slv base c assets cons obj fl r k a,
  feasible_run slv base c assets cons obj fl r /\ ordinary_names c assets /\ plain_term k /\ known_data c k /\
  t_asset_type k = Some "battery" /\ t_asset_name k = None /\
  get_accounts (r_results r) None (as_custom_terms [k]) true = Ok a /\
  terms_sum (reported r) c assets [k] == 20 /\ ac_cost (as_custom a) == 220.
Proof.
  exists x_solver, 0%nat, x_site, x_assets, [], (ObjName "price"), default_flags, x_result, k_batteries. eexists.
  splits; [exact x_run|exact x_ordinary_names|split; [reflexivity|apply in_plain; reflexivity]|now apply x_prices|reflexivity|reflexivity|vm_compute; reflexivity|vm_compute; reflexivity|vm_compute; reflexivity].
Qed.
Theorem C43_evs_name_refuted : exists slv base c assets cons obj fl r k a,
  feasible_run slv base c assets cons obj fl r /\ ordinary_names c assets /\ plain_term k /\ known_data c k /\
  t_asset_type k = Some "evs" /\ t_asset_name k = Some "evs" /\
  get_accounts (r_results r) None (as_custom_terms [k]) true = Ok a /\
  terms_sum (reported r) c assets [k] == 60 /\ ac_cost (as_custom a) == 120.
Proof.
  exists x_solver, 0%nat, x_site, x_assets, [], (ObjName "price"), default_flags, x_result, k_evs. eexists.
  splits; [exact x_run|exact x_ordinary_names|split; [reflexivity|apply in_plain; reflexivity]|now apply x_prices|reflexivity|reflexivity|vm_compute; reflexivity|vm_compute; reflexivity|vm_compute; reflexivity].
Qed.
Theorem C43_no_name_refuted : exists slv base c assets cons obj fl r k a,
  feasible_run slv base c assets cons obj fl r /\ ordinary_names c assets /\ plain_term k /\ known_data c k /\
  t_asset_type k = None /\ t_asset_name k = None /\
  get_accounts (r_results r) None (as_custom_terms [k]) true = Ok a /\
  terms_sum (reported r) c assets [k] == 80 /\ ac_cost (as_custom a) == 0.
Proof.
  exists x_solver, 0%nat, x_site, x_assets, [], (ObjName "price"), default_flags, x_result, k_all. eexists.
  splits; [exact x_run|exact x_ordinary_names|split; [reflexivity|apply in_plain; reflexivity]|now apply x_prices|reflexivity|reflexivity|vm_compute; reflexivity|vm_compute; reflexivity|vm_compute; reflexivity].
Qed.
Example C43_by_type_sample : ordinary_names x_site x_assets /\ In (t_variable k_batteries) quantity_names /\ known_data x_site k_batteries /\
  t_asset_type k_batteries <> None /\ t_asset_name k_batteries = None /\
  horizon x_site (fun t => (2 * num (r_results x_result) "total-electric_charge_mwh" t + amount (reported x_result) x_assets t "electric_charge_mwh" chargers_only)
     * data_value x_data (Some "electricity_prices") t * 1) == 220.
Proof. splits; [exact x_ordinary_names|cbn; tauto|now apply x_prices|discriminate|reflexivity|vm_compute; reflexivity]. Qed.

(** ** Maximum and minimum terms *)
Definition w_max (q : Q) : two_term :=
  mkTwo "max_two_variables" (TTerm (mkTerm "export_power_mwh" (Some "site") None None 1 "simple")) (TNumber q) 100 None 3 "complex".
Definition m_max : many_term := mkMany "max_many_variables" (mkTerm "export_power_mwh" (Some "site") None None 1 "simple") 100 0 3 "complex".
Example C43_two_sample : site_side x_site (w_a (w_max 2)) /\ site_side x_site (w_b (w_max 2)) /\
  exists a, get_accounts (r_results x_result) None (Some [ArgTerm (TTwo (w_max 2))]) true = Ok a /\ ac_cost (as_custom a) == 12.
Proof. split; [cbn [w_a w_max site_side]; split; [reflexivity|split; [now left|right; now left]]|split; [exists 2%Z; reflexivity|]]. eexists. split; vm_compute; reflexivity. Qed.
Example C43_many_sample : over_grid x_site (m_variables m_max) /\
  exists a, get_accounts (r_results x_result) None (Some [ArgTerm (TMany m_max)]) true = Ok a /\ ac_cost (as_custom a) == 3.
Proof.
  split; [|eexists; split; vm_compute; reflexivity].
  unfold over_grid. splits; [cbn; tauto|right; left; split; reflexivity|intros col []].
Qed.
(** The constant is cut to a whole number: the maximum of the exports (0 and 1) and 3/2 is accounted as that of the exports
    and 1. *)
Theorem C43_constant_refuted : exists slv base c assets cons obj fl r a,
  feasible_run slv base c assets cons obj fl r /\
  get_accounts (r_results r) None (Some [ArgTerm (TTwo (w_max (3#2)))]) true = Ok a /\
  horizon c (fun t => Qmax (r_export r t) (3#2) * 3) == 9 /\ ac_cost (as_custom a) == 6.
Proof.
  exists x_solver, 0%nat, x_site, x_assets, [], (ObjName "price"), default_flags, x_result. eexists. splits; [exact x_run|vm_compute; reflexivity|vm_compute; reflexivity|vm_compute; reflexivity].
Qed.

(** ** Additivity (C41) *)
Example C41_sample : full_table (r_results x_result) 2 /\ same_columns (r_results x_result) (r_results x_result) /\
  exists a, get_accounts (stack (r_results x_result) (r_results x_result)) None None false = Ok a /\ as_cost a == - (40).
Proof.
  split; [exact (full_results _ _ _ _ _ _ _ _ x_run)|]. split; [reflexivity|]. eexists. split; [vm_compute; reflexivity|vm_compute; reflexivity].
Qed.
(** the demand charge of the whole (largest export 1, times 3) is not the sum of the demand charges of the parts *)
Theorem C41_demand_not_additive_refuted : exists r1 a1 s,
  full_table r1 2 /\ get_accounts r1 None (Some [ArgTerm (TMany m_max)]) false = Ok a1 /\
  get_accounts (stack r1 r1) None (Some [ArgTerm (TMany m_max)]) false = Ok s /\
  ac_cost (as_custom a1) == 3 /\ ac_cost (as_custom s) == 3.
Proof.
  exists (r_results x_result). eexists. eexists. splits; [exact (full_results _ _ _ _ _ _ _ _ x_run)|vm_compute; reflexivity|vm_compute; reflexivity|vm_compute; reflexivity|vm_compute; reflexivity].
Qed.
