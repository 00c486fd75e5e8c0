"""Regenerates MANIFEST.json from the table below (python3 mkmanifest.py)."""
import json
T = {}
def c(p, status, theorems, note): T[p] = dict(property=p, status=status, theorems=theorems, note=note)
c('C01','proved',['C01_min_two_exact'],'')
c('C02','proved',['C02_max_two_exact'],'')
c('C03','proved',['C03_min_many_exact'],'')
c('C04','proved',['C04_max_many_upper_bound','C04_max_many_exact_when_minimised','C04_max_many_negative_coefficient_refuted'],
  'the negative-coefficient part of the claim is the refutation witness')
c('C05','proved',['C05_semicontinuous'],'')
c('C06','proved',['C06_unique_names','C06_clash_rejected'],'')
c('C07','proved',['C07_electricity_balance'],'')
c('C08','proved',['C08_high_temperature_balance'],'')
c('C09','proved',['C09_low_temperature_balance'],'')
c('C10','proved',['C10_grid_limits','C10_any_pair_allowed'],'')
c('C11','proved',['C11_battery_within_capacity'],'')
c('C12','proved',['C12_battery_never_both'],'')
c('C13','proved',['C13_battery_accounting','C13_from_arguments'],'')
c('C14','proved',['C14_battery_losses'],'')
c('C15','proved',['C15_battery_power_limits','C15_any_schedule_allowed'],'')
c('C16','proved',['C16_charge_only_in_event'],'')
c('C17','proved',['C17_one_charger_per_event'],'')
c('C18','proved',['C18_event_starts_empty_ends_full'],'')
c('C19','proved',['C19_event_energy'],'')
c('C20','proved',['C20_charger_limits','C20_from_arguments'],'')
c('C21','proved',['C21_no_discharge'],'')
c('C22','proved',['C22_limit_flag','C22_same_cost'],'')
c('C23','proved',['C23_chp','C23_any_point_allowed','C23_zero_efficiency_untied'],'')
c('C24','proved',['C24_boiler','C24_any_heat_allowed'],'')
c('C25','proved',['C25_heat_pump','C25_any_point_allowed','C25_low_cop_rejected','C25_from_arguments'],'NaN COP not modelled')
c('C26','proved',['C26_renewable','C26_any_generation_allowed'],'')
c('C27','proved',['C27_valve'],'')
c('C28','proved',['C28_spill_quantities','C28_spill_exactly','C28_every_schedule_allowed','C28_always_feasible','C28_low_temperature_deficit','C28_high_temperature_surplus','C28_deficit_never_feasible'],'')
c('C31','proved',['C31_price_objective','C31_reported_objective'],'')
c('C32','proved',['C32_carbon_objective','C32_reported_objective'],'')
c('C34','proved',['C34_allowed_iff_physical','C34_price_optimal','C34_carbon_optimal','C34_never_infeasible','C34_solved'],'')
c('C36','proved',['C36_repeat','C36_empty','C36_identity','C36_idempotent','C36_scalar','C36_longer'],'')
c('C37','proved',['C37_table_is_solution'],'')
c('C38','proved',['C38_total_columns','C38_loss_column','C38_spill_column','C38_spill_total_omits_spill_assets_refuted'],'the last one is a finding: the spill total leaves out Spill assets')
c('C39','proved',['C39_correct_solution_accepted','C39_accepted_table_balances','C39_constant_objective','C39_data_name_refuted'],'')
c('C40','proved',['C40_spill_flag','C40_fail_on_spill','C40_spill_energy','C40_data_name_refuted'],'')
c('C44','proved',['C44_round_trip','C44_zero_minutes','C44_linear','C44_monotone','C44_hourly','C44_additive_in_time'],'')
c('C46','proved',['C46_index','C46_filter','C46_type_names','C46_valve_type_unknown','C46_own_objects'],'')
c('C50','proved',['C50_feasible_means_optimal','C50_raises','C50_returns_infeasible'],'')
n='variables: the energy quantities listed in SpecTerms.plain_quantities (not the binary and limit attributes): those are covered by C72; exactness for price, carbon and simple-term objectives'
c('C29','proved',['C29_holds_in_every_interval','C29_allowed_iff','C29_price_optimal','C29_carbon_optimal','C29_star_honours_name'],n)
c('C30','proved',['C30_holds_in_total','C29_allowed_iff'],n)
c('C33','proved',['C33_objective_value','C33_reported_objective','C33_optimal','C33_unknown_objective','C33_unknown_objective_ready','C33_star_ignores_name'],'variables: SpecTerms.plain_quantities; all other attributes: C72')
c('C35','proved',['C35_contents','C35_numbers','C35_accepts','C35_rejects','C35_site','C35_site_accepts','C35_site_requires','C35_nan_anchor_accepted','C35_nan_load_rejected','C35_no_anchor','C35_site_ready'],'')
c('C48','proved',['C48_battery','C48_boiler','C48_chp','C48_heat_pump','C48_spill_valve','C48_renewable','C48_evs','C48_names','C48_site_ready','C48_names_ok','C48_battery_site','C48_chp_site','C48_heat_pump_site','C48_renewable_site','C48_evs_site','C48_single_number_single_interval_fails'],'NaN in scalar configuration arguments is not modelled')
c('C45','proved',['C45_factory_reads','C45_factory_again','C45_factory_object','C45_factory_idempotent','C45_dict_is_function','C45_bad_dict','C45_dict_reused','C45_round_trip','C45_no_terms'],'values of the wrong type and numeric strings inside a term dictionary are outside of the model')
c('C41','proved',['C41_accounts','C41_prices_default','C41_difference','C41_concatenation','C41_demand_not_additive_refuted'],'additivity over time holds for all custom terms but those over the maximum or minimum of the whole simulation; the last theorem is the witness')
c('C42','proved',['C42_account','C42_price_difference','C42_price','C42_carbon','C42_export_price_refuted','C42_data_name_refuted'],'the last two theorems are witnesses: differing export prices, custom data whose name reads as a gas column')
c('C43','proved',['C43_custom_account','C43_objective','C43_by_type','C43_two_variables','C43_many_variables','C43_by_type_refuted','C43_evs_name_refuted','C43_no_name_refuted','C43_type_columns','C43_name_columns','C43_prefix_refuted','C43_constant_refuted','C43_two_variables_data_refuted'],'_refuted: accounts that differ from the objective, as the claim says or worse')
c('C49','proved',['C49_shape','C49_returns','C49_accepted','C49_energies','C49_without_deviation','C49_prices'],'proved in a stronger form: a run of ones never touches the last two intervals')
c('C47','proved',['C47_constructor','C47_history','C47_own_variables','C47_no_earlier_variables','C47_same_program','C47_shared_asset_refuted'],'for solvers that do not look at the identities of variables (blindly makes any sound solver such a one: blindly_blind, blindly_sound); the last theorem is the witness for the shared asset')
n='terms as in SpecFunctions.usual_term; the table shows no single values of EVs, so a many-variable term over EVs is stated for the dispatch (C52_optimal_dispatch, C51_worth)'
c('C51','proved',['C51_reported_objective','C51_within_M','C51_worth'],n)
c('C52','proved',['C52_optimal','C52_optimal_dispatch','C52_allowed','C52_small_M_refuted'],n)
c('C53','proved',['C53_price_within_iff','C53_carbon_within_iff','C53_price_within','C53_carbon_within','C53_terms_within','C53_price_within_constrained','C53_carbon_within_constrained','C53_function_value','C53_functions_within','C37_table_is_solution','C53_stopped_early_refuted'],'all theorems about feasible_run assume only an honest solver; those about the least cost (C22_same_cost, C29/C33/C34/C52 optimality, C51) add sound_solver')
c('C54','proved',['C54_columns','C54_identity','C54_same_name','C54_distinct','C54_accepted','C54_returned_distinct','C54_constructed','C54_clash_rejected','C54_names_refuted','C54_terms_refuted'],'labels of function terms print rationals as n/d where Python prints floats')
c('C55','proved',['C55_reads','C55_refuses','C55_other_keys','C55_round_trip','C55_same_run','C55_result_is_described','C55_never','C55_numbers_only','C55_misspelt_refuted'],'texts that pydantic may read as numbers are outside of the model (Unmodelled)')
c('C56','proved',['C56_more_assets_no_dearer','C56_more_assets_no_dirtier','C56_order','C56_order_carbon'],'gap: how far the solver may have stopped from the optimum, 0 for a sound one')
c('C57','proved',['C57_better_site_no_dearer','C57_better_site_no_dirtier','C57_equally_able'],'SpecCompare.at_least: efficiencies stay the same')
c('C58','proved',['C58_price','C58_carbon','C58_terms','C58_functions','C58_price_or_carbon'],'')
c('C59','proved',['C59_whole_no_dearer_than_parts','C59_whole_no_dirtier_than_parts','C59_parts_without_storage','C59_parts_without_storage_carbon','C59_storage_refuted'],'the last theorem is the witness for storage')
c('C60','proved',['C60_currency'],'')
c('C61','proved',['C61_succeeds_iff_possible','C61_price','C61_carbon','C61_impossible'],'SpecPossible.decides: the solver answers Optimal for the program of this call if it is solvable and bounded')
c('C62','proved',['C62_spill_always_possible','C62_spill_always_solved','C62_grid_covers','C62_spill_low_temperature_refuted'],'the last theorem is the witness for low temperature loads')
c('C63','proved',['C63_readable_site','C63_always_a_result','C63_battery','C63_chp','C63_heat_pump','C63_renewable','C63_evs'],'the battery keeps its initial charge at the end (final_charge_mwh=None); renewables with lower bound 0')
c('C64','proved',['C64_account_at_other_prices','C64_perfect_foresight','C64_perfect_foresight_carbon','C64_price_carbon_accounts','C64_export_price_refuted'],'the last theorem is the witness for export prices that differ from import prices')
c('C65','proved',['C65_plots_keep','C65_accounts_after_plots','C65_plots_close','C65_battery_plot','C65_heat_plots','C65_evs_plot','C65_run_plotted','C65_debug_asset','C65_plot_changes_results_refuted','C65_battery_columns','C65_chp_columns','C65_heat_pump_columns','C65_evs_columns'],'drawing itself (matplotlib) is not modelled: the model has what the functions read from and write to the results table; the last theorem is the witness that plotting a heat pump changes results')
c('C66','proved',['C66_energy_audit','C66_flat_prices','C66_flat_intensity','C66_all_losses_refuted'],'the last theorem is the witness that the loss reported for the EV spill charger is not part of the energy balance')
c('C67','proved',['C67_scaled_no_dearer','C67_scaled_no_dirtier','C67_scale','C67_scale_carbon'],'')
c('C68','proved',['C68_finer_steps_no_dearer','C68_finer_steps_no_dirtier'],'')
c('C69','proved',['C69_curtailment','C69_running_down','C69_spilled_generation','C69_spilled_load','C69_curtail_before_spilling','C69_run_before_spilling','C69_no_needless_curtailment','C69_no_needless_spill'],'')
c('C70','proved',['C70_spilled_heat','C70_boiler_merit_order','C70_efficient_boiler_first','C70_valve','C70_heat_pump_idle','C70_heat_pump_running','C70_chp_idle','C70_chp_running'],'')
c('C71','proved',['C71_no_trade_left','C71_trades_pay','C71_buy_low'],'')
c('C72','proved',['C72_holds','C72_allowed_iff','C72_terms_within','C72_price_within','C72_carbon_within'],'closes the restriction of C29, C30, C33 to plain_quantities; two- and many-variable function terms: see C51, C52')
c('C73','proved',['C73_limit_kept','C73_limits_iff','C73_price_within','C73_carbon_within','C73_must_run','C73_must_run_iff','C73_grid_limit','C73_grid_limit_iff','C73_always_on_forces_nothing'],'')
c('C74','proved',['C74_battery','C74_charger','C74_spill_charger','C74_chargers_in_use'],'')
c('C75','proved',['C75_valve_name','C75_evs_name','C75_names_refuted'],'C75_names_refuted shows the three errors on a concrete site')
c('C76','proved',['C76_exact_is_tolerant','C76_dispatch','C76_balances','C76_battery','C76_ev','C76_price','C76_carbon','C76_price_best','C76_carbon_best','C76_custom','C76_accepted','C76_checked','C76_valve_refuted'],'physical_upto in SpecWithin spells out every equation up to eps; C76_valve_refuted: the exact valve check')
c('C77','proved',['C77_unknown_ignored','C77_same_optimum','C77_twice','C77_inner_coefficient_refuted'],'C77_inner_coefficient_refuted: the coefficient of an operand is not used; the optimum claim needs M wide enough for all possible dispatches')
c('C78','proved',['C78_no_dearer','C78_no_dirtier','C78_negative_price_refuted','C78_no_room_refuted'],'heat pumps and CHP plants are left out: a higher COP needs more low temperature heat, a higher electric efficiency gives less heat')
c('C79','proved',['C79_reprice','C79_reprice_carbon','C79_law_of_demand','C79_law_of_demand_carbon','C79_dearer_import','C79_price_error','C79_average','C79_average_carbon'],'')
c('C80','proved',['C80_same_result','C80_accounts_same_result','C80_printed','C80_level_after','C80_false_prints_nothing','C80_spill_warning','C80_warned_columns','C80_levels','C80_more_verbose','C80_default','C80_zero_for_no_output_refuted','C80_objective_terms_never_printed','C80_config_dict','C80_config_order','C80_config_solver'],'the texts of the messages and what CBC itself prints are not modelled')
c('C81','proved',['C81_pooled_no_dearer','C81_pooled_no_dirtier','C81_pooled_possible','C81_selling_dearer_refuted'],'')
c('C82','proved',['C82_shares_no_dearer','C82_shares_no_dirtier','C82_divisible_same_cost','C82_divisible_same_emissions','C82_chp_same_cost_refuted'],'')
c('C83','proved',['C83_interval_no_dearer','C83_interval_no_dirtier','C83_interval_alone','C83_any_order','C83_storage_refuted'],'')
c('C84','proved',['C84_load_cost','C84_load_emissions','C84_load_worth','C84_more_load_no_cheaper','C84_load_emissions_exact'],'')
c('C85','proved',['C85_generator_saves','C85_generator_abates','C85_saves_no_more','C85_abates_no_more'],'')
c('C86','proved',['C86_more_weight','C86_trade_off','C86_no_free_lunch'],'')
c('C87','proved',['C87_heat_cost','C87_low_heat_cost','C87_heat_worth','C87_low_heat_worth'],'')
c('C88','proved',['C88_same_check','C88_mapper_fits','C88_never_raises','C88_inside','C88_electricity_frame','C88_heat_frames','C88_mapped_columns','C88_simulation','C88_all_storage_refuted'],'')
json.dump({'claims':[T[k] for k in sorted(T)]}, open('/verif/MANIFEST.json','w'), indent=1)
# Audit.v: every theorem above in one term
import re
R='/verif/rocq/theories/'
order=[m for m in re.findall(r'theories/(\w+)\.v',open('/verif/rocq/_CoqProject').read()) if m!='Audit']
loc={}
for m in order:
    for t in re.findall(r"^\s*(?:Theorem|Lemma|Corollary|Example)\s+([A-Za-z0-9_']+)",open(R+m+'.v').read(),re.M): loc.setdefault(t,m)
ths=list(dict.fromkeys(t for k in sorted(T) for t in T[k]['theorems']))
mods=[m for m in order if m in {loc[t] for t in ths}]
s='(** * Audit: every theorem of MANIFEST.json in one term, so that one command prints what all of them rest on.\n    Written by mkmanifest.py. *)\nFrom Verif Require %s.\n\n'%' '.join(mods)
s+='Definition audit :=\n  ('+',\n   '.join('@%s.%s'%(loc[t],t) for t in ths)+').\nPrint Assumptions audit.\n'
open(R+'Audit.v','w').write(s)
