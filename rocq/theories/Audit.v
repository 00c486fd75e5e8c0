(** * Audit: every theorem of MANIFEST.json in one term, so that one command prints what all of them rest on.
    Written by mkmanifest.py. *)
From Verif Require PropOpt PropSite PropEv PropObjective PropAllowed PropBasics PropResults PropChecks SampleResults PropTerms PropInput PropCtors PropDicts PropAccounts PropAccountRun PropCustom PropAccountFun SampleAccounts PropDataGen PropHistory SampleHistory PropFunctions SampleFunctions PropColumns PropConstraintArgs PropCompare PropHorizon SampleCompare PropPossible PropWhole PropForesight PropPlot PropEnergy PropScale PropMoves PropTrades PropSwitch PropLimits PropBins PropNames PropWithin PropDrift PropIgnored PropEfficient PropPrices PropLogging PropPool PropAlone PropDemand PropSolar PropPlotted PropWeigh PropHeat PropFrames PropPicked PropDraws SampleData.

Definition audit :=
  (@PropOpt.C01_min_two_exact,
   @PropOpt.C02_max_two_exact,
   @PropOpt.C03_min_many_exact,
   @PropOpt.C04_max_many_upper_bound,
   @PropOpt.C04_max_many_exact_when_minimised,
   @PropOpt.C04_max_many_negative_coefficient_refuted,
   @PropOpt.C05_semicontinuous,
   @PropOpt.C06_unique_names,
   @PropOpt.C06_clash_rejected,
   @PropSite.C07_electricity_balance,
   @PropSite.C08_high_temperature_balance,
   @PropSite.C09_low_temperature_balance,
   @PropSite.C10_grid_limits,
   @PropAllowed.C10_any_pair_allowed,
   @PropSite.C11_battery_within_capacity,
   @PropSite.C12_battery_never_both,
   @PropSite.C13_battery_accounting,
   @PropCtors.C13_from_arguments,
   @PropSite.C14_battery_losses,
   @PropSite.C15_battery_power_limits,
   @PropAllowed.C15_any_schedule_allowed,
   @PropEv.C16_charge_only_in_event,
   @PropEv.C17_one_charger_per_event,
   @PropEv.C18_event_starts_empty_ends_full,
   @PropEv.C19_event_energy,
   @PropEv.C20_charger_limits,
   @PropCtors.C20_from_arguments,
   @PropEv.C21_no_discharge,
   @PropObjective.C22_limit_flag,
   @PropObjective.C22_same_cost,
   @PropSite.C23_chp,
   @PropAllowed.C23_any_point_allowed,
   @PropAllowed.C23_zero_efficiency_untied,
   @PropSite.C24_boiler,
   @PropAllowed.C24_any_heat_allowed,
   @PropSite.C25_heat_pump,
   @PropAllowed.C25_any_point_allowed,
   @PropCtors.C25_low_cop_rejected,
   @PropCtors.C25_from_arguments,
   @PropSite.C26_renewable,
   @PropAllowed.C26_any_generation_allowed,
   @PropSite.C27_valve,
   @PropSite.C28_spill_quantities,
   @PropAllowed.C28_spill_exactly,
   @PropAllowed.C28_every_schedule_allowed,
   @PropAllowed.C28_always_feasible,
   @PropAllowed.C28_low_temperature_deficit,
   @PropAllowed.C28_high_temperature_surplus,
   @PropAllowed.C28_deficit_never_feasible,
   @PropTerms.C29_holds_in_every_interval,
   @PropTerms.C29_allowed_iff,
   @PropTerms.C29_price_optimal,
   @PropTerms.C29_carbon_optimal,
   @PropTerms.C29_star_honours_name,
   @PropTerms.C30_holds_in_total,
   @PropObjective.C31_price_objective,
   @PropObjective.C31_reported_objective,
   @PropObjective.C32_carbon_objective,
   @PropObjective.C32_reported_objective,
   @PropTerms.C33_objective_value,
   @PropTerms.C33_reported_objective,
   @PropTerms.C33_optimal,
   @PropTerms.C33_unknown_objective,
   @PropTerms.C33_unknown_objective_ready,
   @PropTerms.C33_star_ignores_name,
   @PropObjective.C34_allowed_iff_physical,
   @PropObjective.C34_price_optimal,
   @PropObjective.C34_carbon_optimal,
   @PropObjective.C34_never_infeasible,
   @PropObjective.C34_solved,
   @PropInput.C35_contents,
   @PropPicked.C35_numbers,
   @PropInput.C35_accepts,
   @PropInput.C35_rejects,
   @PropInput.C35_site,
   @PropInput.C35_site_accepts,
   @PropInput.C35_site_requires,
   @PropInput.C35_nan_anchor_accepted,
   @PropInput.C35_nan_load_rejected,
   @PropInput.C35_no_anchor,
   @PropInput.C35_site_ready,
   @PropBasics.C36_repeat,
   @PropBasics.C36_empty,
   @PropBasics.C36_identity,
   @PropBasics.C36_idempotent,
   @PropBasics.C36_scalar,
   @PropBasics.C36_longer,
   @PropResults.C37_table_is_solution,
   @PropResults.C38_total_columns,
   @PropResults.C38_loss_column,
   @PropResults.C38_spill_column,
   @SampleResults.C38_spill_total_omits_spill_assets_refuted,
   @PropChecks.C39_correct_solution_accepted,
   @PropChecks.C39_accepted_table_balances,
   @PropChecks.C39_constant_objective,
   @SampleData.C39_data_name_refuted,
   @PropChecks.C40_spill_flag,
   @PropChecks.C40_fail_on_spill,
   @PropChecks.C40_spill_energy,
   @SampleData.C40_data_name_refuted,
   @PropAccounts.C41_accounts,
   @PropAccounts.C41_prices_default,
   @PropAccounts.C41_difference,
   @PropAccounts.C41_concatenation,
   @SampleAccounts.C41_demand_not_additive_refuted,
   @PropAccountRun.C42_account,
   @PropAccountRun.C42_price_difference,
   @PropAccountRun.C42_price,
   @PropAccountRun.C42_carbon,
   @SampleAccounts.C42_export_price_refuted,
   @SampleData.C42_data_name_refuted,
   @PropCustom.C43_custom_account,
   @PropCustom.C43_objective,
   @PropCustom.C43_by_type,
   @PropAccountFun.C43_two_variables,
   @PropAccountFun.C43_many_variables,
   @SampleAccounts.C43_by_type_refuted,
   @SampleAccounts.C43_evs_name_refuted,
   @SampleAccounts.C43_no_name_refuted,
   @PropPicked.C43_type_columns,
   @PropPicked.C43_name_columns,
   @PropPicked.C43_prefix_refuted,
   @SampleAccounts.C43_constant_refuted,
   @PropAccountFun.C43_two_variables_data_refuted,
   @PropBasics.C44_round_trip,
   @PropBasics.C44_zero_minutes,
   @PropBasics.C44_linear,
   @PropBasics.C44_monotone,
   @PropBasics.C44_hourly,
   @PropBasics.C44_additive_in_time,
   @PropDicts.C45_factory_reads,
   @PropDicts.C45_factory_again,
   @PropDicts.C45_factory_object,
   @PropDicts.C45_factory_idempotent,
   @PropDicts.C45_dict_is_function,
   @PropDicts.C45_bad_dict,
   @PropDicts.C45_dict_reused,
   @PropDicts.C45_round_trip,
   @PropDicts.C45_no_terms,
   @PropBasics.C46_index,
   @PropBasics.C46_filter,
   @PropBasics.C46_type_names,
   @PropBasics.C46_valve_type_unknown,
   @PropBasics.C46_own_objects,
   @PropHistory.C47_constructor,
   @PropHistory.C47_history,
   @PropHistory.C47_own_variables,
   @PropHistory.C47_no_earlier_variables,
   @PropHistory.C47_same_program,
   @SampleHistory.C47_shared_asset_refuted,
   @PropCtors.C48_battery,
   @PropCtors.C48_boiler,
   @PropCtors.C48_chp,
   @PropCtors.C48_heat_pump,
   @PropCtors.C48_spill_valve,
   @PropCtors.C48_renewable,
   @PropCtors.C48_evs,
   @PropCtors.C48_names,
   @PropCtors.C48_site_ready,
   @PropCtors.C48_names_ok,
   @PropCtors.C48_battery_site,
   @PropCtors.C48_chp_site,
   @PropCtors.C48_heat_pump_site,
   @PropCtors.C48_renewable_site,
   @PropCtors.C48_evs_site,
   @PropCtors.C48_single_number_single_interval_fails,
   @PropDataGen.C49_shape,
   @PropDataGen.C49_returns,
   @PropDataGen.C49_accepted,
   @PropDraws.C49_energies,
   @PropDraws.C49_without_deviation,
   @PropDraws.C49_prices,
   @PropChecks.C50_feasible_means_optimal,
   @PropChecks.C50_raises,
   @PropChecks.C50_returns_infeasible,
   @PropFunctions.C51_reported_objective,
   @PropFunctions.C51_within_M,
   @PropFunctions.C51_worth,
   @PropFunctions.C52_optimal,
   @PropFunctions.C52_optimal_dispatch,
   @PropFunctions.C52_allowed,
   @SampleFunctions.C52_small_M_refuted,
   @PropPool.C53_price_within_iff,
   @PropPool.C53_carbon_within_iff,
   @PropObjective.C53_price_within,
   @PropObjective.C53_carbon_within,
   @PropTerms.C53_terms_within,
   @PropTerms.C53_price_within_constrained,
   @PropTerms.C53_carbon_within_constrained,
   @PropFunctions.C53_function_value,
   @PropFunctions.C53_functions_within,
   @SampleFunctions.C53_stopped_early_refuted,
   @PropColumns.C54_columns,
   @PropColumns.C54_identity,
   @PropColumns.C54_same_name,
   @PropColumns.C54_distinct,
   @PropColumns.C54_accepted,
   @PropColumns.C54_returned_distinct,
   @PropColumns.C54_constructed,
   @PropColumns.C54_clash_rejected,
   @PropColumns.C54_names_refuted,
   @PropColumns.C54_terms_refuted,
   @PropConstraintArgs.C55_reads,
   @PropConstraintArgs.C55_refuses,
   @PropConstraintArgs.C55_other_keys,
   @PropConstraintArgs.C55_round_trip,
   @PropConstraintArgs.C55_same_run,
   @PropConstraintArgs.C55_result_is_described,
   @PropConstraintArgs.C55_never,
   @PropConstraintArgs.C55_numbers_only,
   @PropConstraintArgs.C55_misspelt_refuted,
   @PropCompare.C56_more_assets_no_dearer,
   @PropCompare.C56_more_assets_no_dirtier,
   @PropCompare.C56_order,
   @PropCompare.C56_order_carbon,
   @PropCompare.C57_better_site_no_dearer,
   @PropCompare.C57_better_site_no_dirtier,
   @PropCompare.C57_equally_able,
   @PropCompare.C58_price,
   @PropCompare.C58_carbon,
   @PropCompare.C58_terms,
   @PropCompare.C58_functions,
   @PropCompare.C58_price_or_carbon,
   @PropHorizon.C59_whole_no_dearer_than_parts,
   @PropHorizon.C59_whole_no_dirtier_than_parts,
   @PropHorizon.C59_parts_without_storage,
   @PropHorizon.C59_parts_without_storage_carbon,
   @SampleCompare.C59_storage_refuted,
   @PropHorizon.C60_currency,
   @PropPossible.C61_succeeds_iff_possible,
   @PropPossible.C61_price,
   @PropPossible.C61_carbon,
   @PropPossible.C61_impossible,
   @PropPossible.C62_spill_always_possible,
   @PropPossible.C62_spill_always_solved,
   @PropPossible.C62_grid_covers,
   @PropPossible.C62_spill_low_temperature_refuted,
   @PropWhole.C63_readable_site,
   @PropWhole.C63_always_a_result,
   @PropWhole.C63_battery,
   @PropWhole.C63_chp,
   @PropWhole.C63_heat_pump,
   @PropWhole.C63_renewable,
   @PropWhole.C63_evs,
   @PropForesight.C64_account_at_other_prices,
   @PropForesight.C64_perfect_foresight,
   @PropForesight.C64_perfect_foresight_carbon,
   @PropForesight.C64_price_carbon_accounts,
   @PropForesight.C64_export_price_refuted,
   @PropPlot.C65_plots_keep,
   @PropPlot.C65_accounts_after_plots,
   @PropPlot.C65_plots_close,
   @PropPlot.C65_battery_plot,
   @PropPlot.C65_heat_plots,
   @PropPlot.C65_evs_plot,
   @PropPlot.C65_run_plotted,
   @PropPlot.C65_debug_asset,
   @PropPlot.C65_plot_changes_results_refuted,
   @PropPlotted.C65_battery_columns,
   @PropPlotted.C65_chp_columns,
   @PropPlotted.C65_heat_pump_columns,
   @PropPlotted.C65_evs_columns,
   @PropEnergy.C66_energy_audit,
   @PropEnergy.C66_flat_prices,
   @PropEnergy.C66_flat_intensity,
   @PropEnergy.C66_all_losses_refuted,
   @PropScale.C67_scaled_no_dearer,
   @PropScale.C67_scaled_no_dirtier,
   @PropScale.C67_scale,
   @PropScale.C67_scale_carbon,
   @PropScale.C68_finer_steps_no_dearer,
   @PropScale.C68_finer_steps_no_dirtier,
   @PropMoves.C69_curtailment,
   @PropMoves.C69_running_down,
   @PropMoves.C69_spilled_generation,
   @PropMoves.C69_spilled_load,
   @PropMoves.C69_curtail_before_spilling,
   @PropMoves.C69_run_before_spilling,
   @PropMoves.C69_no_needless_curtailment,
   @PropMoves.C69_no_needless_spill,
   @PropMoves.C70_spilled_heat,
   @PropMoves.C70_boiler_merit_order,
   @PropMoves.C70_efficient_boiler_first,
   @PropMoves.C70_valve,
   @PropMoves.C70_heat_pump_idle,
   @PropMoves.C70_heat_pump_running,
   @PropMoves.C70_chp_idle,
   @PropMoves.C70_chp_running,
   @PropTrades.C71_no_trade_left,
   @PropTrades.C71_trades_pay,
   @PropTrades.C71_buy_low,
   @PropSwitch.C72_holds,
   @PropSwitch.C72_allowed_iff,
   @PropSwitch.C72_terms_within,
   @PropSwitch.C72_price_within,
   @PropSwitch.C72_carbon_within,
   @PropLimits.C73_limit_kept,
   @PropLimits.C73_limits_iff,
   @PropLimits.C73_price_within,
   @PropLimits.C73_carbon_within,
   @PropLimits.C73_must_run,
   @PropLimits.C73_must_run_iff,
   @PropLimits.C73_grid_limit,
   @PropLimits.C73_grid_limit_iff,
   @PropLimits.C73_always_on_forces_nothing,
   @PropBins.C74_battery,
   @PropBins.C74_charger,
   @PropBins.C74_spill_charger,
   @PropBins.C74_chargers_in_use,
   @PropNames.C75_valve_name,
   @PropNames.C75_evs_name,
   @PropNames.C75_names_refuted,
   @PropWithin.C76_exact_is_tolerant,
   @PropWithin.C76_dispatch,
   @PropWithin.C76_balances,
   @PropWithin.C76_battery,
   @PropDrift.C76_ev,
   @PropWithin.C76_price,
   @PropWithin.C76_carbon,
   @PropWithin.C76_price_best,
   @PropWithin.C76_carbon_best,
   @PropWithin.C76_custom,
   @PropWithin.C76_accepted,
   @PropWithin.C76_checked,
   @PropWithin.C76_valve_refuted,
   @PropIgnored.C77_unknown_ignored,
   @PropIgnored.C77_same_optimum,
   @PropIgnored.C77_twice,
   @PropIgnored.C77_inner_coefficient_refuted,
   @PropEfficient.C78_no_dearer,
   @PropEfficient.C78_no_dirtier,
   @PropEfficient.C78_negative_price_refuted,
   @PropEfficient.C78_no_room_refuted,
   @PropPrices.C79_reprice,
   @PropPrices.C79_reprice_carbon,
   @PropPrices.C79_law_of_demand,
   @PropPrices.C79_law_of_demand_carbon,
   @PropPrices.C79_dearer_import,
   @PropPrices.C79_price_error,
   @PropPrices.C79_average,
   @PropPrices.C79_average_carbon,
   @PropLogging.C80_same_result,
   @PropLogging.C80_accounts_same_result,
   @PropLogging.C80_printed,
   @PropLogging.C80_level_after,
   @PropLogging.C80_false_prints_nothing,
   @PropLogging.C80_spill_warning,
   @PropLogging.C80_warned_columns,
   @PropLogging.C80_levels,
   @PropLogging.C80_more_verbose,
   @PropLogging.C80_default,
   @PropLogging.C80_zero_for_no_output_refuted,
   @PropLogging.C80_objective_terms_never_printed,
   @PropLogging.C80_config_dict,
   @PropLogging.C80_config_order,
   @PropLogging.C80_config_solver,
   @PropPool.C81_pooled_no_dearer,
   @PropPool.C81_pooled_no_dirtier,
   @PropPool.C81_pooled_possible,
   @PropPool.C81_selling_dearer_refuted,
   @PropPool.C82_shares_no_dearer,
   @PropPool.C82_shares_no_dirtier,
   @PropPool.C82_divisible_same_cost,
   @PropPool.C82_divisible_same_emissions,
   @PropPool.C82_chp_same_cost_refuted,
   @PropAlone.C83_interval_no_dearer,
   @PropAlone.C83_interval_no_dirtier,
   @PropAlone.C83_interval_alone,
   @PropAlone.C83_any_order,
   @PropAlone.C83_storage_refuted,
   @PropDemand.C84_load_cost,
   @PropDemand.C84_load_emissions,
   @PropDemand.C84_load_worth,
   @PropDemand.C84_more_load_no_cheaper,
   @PropDemand.C84_load_emissions_exact,
   @PropSolar.C85_generator_saves,
   @PropSolar.C85_generator_abates,
   @PropSolar.C85_saves_no_more,
   @PropSolar.C85_abates_no_more,
   @PropWeigh.C86_more_weight,
   @PropWeigh.C86_trade_off,
   @PropWeigh.C86_no_free_lunch,
   @PropHeat.C87_heat_cost,
   @PropHeat.C87_low_heat_cost,
   @PropHeat.C87_heat_worth,
   @PropHeat.C87_low_heat_worth,
   @PropFrames.C88_same_check,
   @PropFrames.C88_mapper_fits,
   @PropFrames.C88_never_raises,
   @PropFrames.C88_inside,
   @PropFrames.C88_electricity_frame,
   @PropFrames.C88_heat_frames,
   @PropFrames.C88_mapped_columns,
   @PropFrames.C88_simulation,
   @PropFrames.C88_all_storage_refuted).
Print Assumptions audit.
