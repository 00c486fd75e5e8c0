(** * Mono: variables are only ever added *)
From Verif Require Import Base Pulp Params Optimizer Types Assets EVs Site Constraints Objectives Pipeline.

Class Mono {A} (m : M A) : Prop := mono : forall o a o', m o = Ok (a, o') -> (o_next o <= o_next o')%nat.
Global Instance mono_ret {A} (a : A) : Mono (ret a).
Proof. intros o b o' H. injection H as _ <-. lia. Qed.
Global Instance mono_raise {A} e : Mono (@raise A e).
Proof. intros o b o' H. discriminate. Qed.
Global Instance mono_lift {A} (r : res A) : Mono (lift r).
Proof. intros o b o' H. unfold lift in H. destruct r; [injection H as _ <-; lia|discriminate]. Qed.
Global Instance mono_bind {A B} (m : M A) (f : A -> M B) : Mono m -> (forall a, Mono (f a)) -> Mono (bind m f).
Proof.
  intros H K o b o' E. unfold bind in E. destruct (m o) as [[a o1]|] eqn:Em; [|discriminate]. apply H in Em. apply K in E. lia.
Qed.
Global Instance mono_massert b : Mono (massert b).
Proof. destruct b; typeclasses eauto. Qed.
Global Instance mono_forM_ {A} (l : list A) f : (forall x, Mono (f x)) -> Mono (forM_ l f).
Proof. intros H. induction l; cbn; typeclasses eauto. Qed.
Global Instance mono_forM {A B} (l : list A) (f : A -> M B) : (forall x, Mono (f x)) -> Mono (forM l f).
Proof. intros H. induction l; cbn; typeclasses eauto. Qed.
Global Instance mono_continuous n l u : Mono (continuous n l u).
Proof. intros o b o' H. injection H as _ <-. cbn. lia. Qed.
Global Instance mono_binary n : Mono (binary n).
Proof. intros o b o' H. injection H as _ <-. cbn. lia. Qed.
Global Instance mono_named c n : Mono (constrain_named c n).
Proof. intros o b o' H. unfold constrain_named in H. destruct n; [destruct (existsb _ _); [discriminate|]|]; injection H as _ <-; cbn; lia. Qed.
Global Instance mono_constrain c : Mono (constrain c).
Proof. apply mono_named. Qed.
Global Instance mono_objective e : Mono (set_objective e).
Proof. intros o b o' H. injection H as _ <-. cbn. lia. Qed.
Global Hint Extern 5 (Mono (match ?x with _ => _ end)) => destruct x : typeclass_instances.
Ltac mono := cbv zeta; typeclasses eauto.
Global Instance mono_max c b q : Mono (constrain_max c b q). Proof. unfold constrain_max. mono. Qed.
Global Instance mono_min c b q : Mono (constrain_min c b q). Proof. unfold constrain_min. mono. Qed.
Global Instance mono_min_two n a b q : Mono (min_two_variables n a b q). Proof. unfold min_two_variables. mono. Qed.
Global Instance mono_max_two n a b q : Mono (max_two_variables n a b q). Proof. unfold max_two_variables. mono. Qed.
Global Instance mono_nonneg v : Mono (nonneg_check v). Proof. unfold nonneg_check. mono. Qed.
Global Instance mono_binaries n {A} (l : list A) i : Mono (many_binaries n i l).
Proof. revert i. induction l; intros i; cbn [many_binaries]; mono. Qed.
Global Instance mono_min_many n a q : Mono (min_many_variables n a q). Proof. unfold min_many_variables. mono. Qed.
Global Instance mono_max_many n a q : Mono (max_many_variables n a q). Proof. unfold max_many_variables. mono. Qed.
Global Instance mono_battery c i f : Mono (battery_one_interval c i f). Proof. unfold battery_one_interval. mono. Qed.
Global Instance mono_boiler c i f : Mono (boiler_one_interval c i f). Proof. unfold boiler_one_interval. mono. Qed.
Global Instance mono_chp c i f : Mono (chp_one_interval c i f). Proof. unfold chp_one_interval. mono. Qed.
Global Instance mono_hp c i f : Mono (hp_one_interval c i f). Proof. unfold hp_one_interval. mono. Qed.
Global Instance mono_rg c i : Mono (rg_one_interval c i). Proof. unfold rg_one_interval. mono. Qed.
Global Instance mono_spill c i : Mono (spill_one_interval c i). Proof. unfold spill_one_interval. mono. Qed.
Global Instance mono_valve c i : Mono (valve_one_interval c i). Proof. unfold valve_one_interval. mono. Qed.
Global Instance mono_only r : Mono (constrain_only_charge_or_discharge r). Proof. unfold constrain_only_charge_or_discharge. mono. Qed.
Global Instance mono_bbalance r : Mono (constrain_battery_electricity_balance r). Proof. unfold constrain_battery_electricity_balance. mono. Qed.
Global Instance mono_connect l m : Mono (connect_batteries l m).
Proof. revert m. induction l; intros [|b m]; cbn [connect_batteries]; mono. Qed.
Global Instance mono_connection r : Mono (constrain_connection_batteries_between_intervals r). Proof. unfold constrain_connection_batteries_between_intervals. mono. Qed.
Global Instance mono_bw c iv : Mono (battery_constrain_within c iv). Proof. unfold battery_constrain_within. mono. Qed.
Global Instance mono_ba c iv : Mono (battery_constrain_after c iv). Proof. unfold battery_constrain_after. mono. Qed.
Global Instance mono_kw c iv f : Mono (boiler_constrain_within c iv f). Proof. unfold boiler_constrain_within. mono. Qed.
Global Instance mono_cw c iv i f : Mono (chp_constrain_within c iv i f). Proof. unfold chp_constrain_within. mono. Qed.
Global Instance mono_hw c iv i f : Mono (hp_constrain_within c iv i f). Proof. unfold hp_constrain_within. mono. Qed.
Global Instance mono_vw c iv : Mono (valve_constrain_within c iv). Proof. unfold valve_constrain_within. mono. Qed.
Global Instance mono_ev_pair c i f fl cd sp e ec s0 s1 k cc : Mono (ev_pair c i f fl cd sp e ec s0 s1 k cc). Proof. unfold ev_pair. mono. Qed.
Global Instance mono_ev_event c ch i f fl cs cd sp e ec : Mono (ev_event c ch i f fl cs cd sp e ec). Proof. unfold ev_event. mono. Qed.
Global Instance mono_evs_for c ch i f fl cs cd sp : Mono (evs_one_interval_for c ch i f fl cs cd sp). Proof. unfold evs_one_interval_for. mono. Qed.
Global Instance mono_evs c i f fl : Mono (evs_one_interval c i f fl). Proof. unfold evs_one_interval. mono. Qed.
Global Instance mono_pair c f cc i e x b : Mono (constrain_pair c f cc i e x b). Proof. unfold constrain_pair. mono. Qed.
Global Instance mono_min_max a c f ch i al : Mono (constrain_charge_discharge_min_max a c f ch i al). Proof. unfold constrain_charge_discharge_min_max. mono. Qed.
Global Instance mono_single a c : Mono (constrain_single_charger_charge_event a c). Proof. unfold constrain_single_charger_charge_event. mono. Qed.
Global Instance mono_losses a c e : Mono (constrain_losses a c e). Proof. unfold constrain_losses. mono. Qed.
Global Instance mono_ebalance a c : Mono (constrain_charge_event_electricity_balance a c). Proof. unfold constrain_charge_event_electricity_balance. mono. Qed.
Global Instance mono_socs l m : Mono (connect_socs l m).
Proof. revert m. induction l; intros [|b m]; cbn [connect_socs]; mono. Qed.
Global Instance mono_econnection a c : Mono (constrain_connection_charge_events a c). Proof. unfold constrain_connection_charge_events. mono. Qed.
Global Instance mono_ew c iv i f fl : Mono (evs_constrain_within c iv i f fl). Proof. unfold evs_constrain_within. mono. Qed.
Global Instance mono_soc x q : Mono (soc_equals x q). Proof. unfold soc_equals. mono. Qed.
Global Instance mono_ea c iv : Mono (evs_constrain_after c iv). Proof. unfold evs_constrain_after. mono. Qed.
Global Instance mono_site c i : Mono (site_one_interval c i). Proof. unfold site_one_interval. mono. Qed.
Global Instance mono_find iv : Mono (find_site iv). Proof. unfold find_site. mono. Qed.
Global Instance mono_el dt iv i : Mono (constrain_site_electricity_balance dt iv i). Proof. unfold constrain_site_electricity_balance. mono. Qed.
Global Instance mono_ie iv : Mono (constrain_site_import_export iv). Proof. unfold constrain_site_import_export. mono. Qed.
Global Instance mono_ht dt iv i : Mono (constrain_site_high_temperature_heat_balance dt iv i). Proof. unfold constrain_site_high_temperature_heat_balance. mono. Qed.
Global Instance mono_lt dt iv i : Mono (constrain_site_low_temperature_heat_balance dt iv i). Proof. unfold constrain_site_low_temperature_heat_balance. mono. Qed.
Global Instance mono_sw dt iv i : Mono (site_constrain_within dt iv i). Proof. unfold site_constrain_within. mono. Qed.
Global Instance mono_asset a i f fl : Mono (asset_one_interval a i f fl). Proof. unfold asset_one_interval. mono. Qed.
Global Instance mono_aw a iv i f fl : Mono (asset_constrain_within a iv i f fl). Proof. unfold asset_constrain_within. mono. Qed.
Global Instance mono_aa a iv : Mono (asset_constrain_after a iv). Proof. unfold asset_constrain_after. mono. Qed.
Global Instance mono_interval c assets fl iv i : Mono (site_interval c assets fl iv i). Proof. unfold site_interval. mono. Qed.
Global Instance mono_intervals c assets fl iv idx : Mono (site_intervals c assets fl iv idx).
Proof. revert iv. induction idx; intros iv; cbn [site_intervals]; mono. Qed.
Global Instance mono_base c assets fl : Mono (build_base c assets fl). Proof. unfold build_base. mono. Qed.
Global Instance mono_loop c iv dt l r idx : Mono (custom_loop c iv dt l r idx).
Proof. revert l r. induction idx; intros l r; cbn [custom_loop]; mono. Qed.
Global Instance mono_custom c iv dt : Mono (add_custom_constraint c iv dt). Proof. unfold add_custom_constraint. mono. Qed.
Global Instance mono_two_at iv dt t i : Mono (two_term_at iv dt t i). Proof. unfold two_term_at. mono. Qed.
Global Instance mono_two iv dt t : Mono (add_two_variable_term iv dt t). Proof. unfold add_two_variable_term. mono. Qed.
Global Instance mono_twos iv dt t : Mono (add_two_variable_terms iv dt t). Proof. unfold add_two_variable_terms. mono. Qed.
Global Instance mono_many iv t : Mono (add_many_variables_term iv t). Proof. unfold add_many_variables_term. mono. Qed.
Global Instance mono_manys iv t : Mono (add_many_variables_terms iv t). Proof. unfold add_many_variables_terms. mono. Qed.
Global Instance mono_get obj iv dt : Mono (get_objective obj iv dt). Proof. unfold get_objective. mono. Qed.
Global Instance mono_program c assets cons obj fl : Mono (build_program c assets cons obj fl). Proof. unfold build_program. mono. Qed.
