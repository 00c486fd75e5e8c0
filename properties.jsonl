{"id": "C01", "title": "min of two variables is exact", "statement": "In every feasible solution of a program in which Optimizer.min_two_variables(name, a, b, M) was called, the returned variable equals min(a, b); and any assignment of a and b with |a-b| <= M extends to a feasible one (with |a-b| > M no extension exists).", "quantifier": "all values of a and b (variables or one float), all M, all surrounding programs", "why_tests_cant": "the encoding must be right for every real value of a and b and every big-M; a test fixes a handful", "anchors": ["energypylinear/optimizer.py:Optimizer.min_two_variables"]}
{"id": "C02", "title": "max of two variables is exact", "statement": "In every feasible solution, the variable returned by Optimizer.max_two_variables(name, a, b, M) equals max(a, b); an assignment of a and b extends to a feasible solution exactly when |a-b| <= M.", "quantifier": "all values of a and b, all M, all surrounding programs", "why_tests_cant": "same as C01", "anchors": ["energypylinear/optimizer.py:Optimizer.max_two_variables"]}
{"id": "C03", "title": "min of many variables is exact", "statement": "In every feasible solution, the variable returned by Optimizer.min_many_variables(name, variables, M) equals the minimum of the list; an assignment extends to a feasible solution exactly when M is at least the gap between some minimal element and every element.", "quantifier": "all list lengths, all values, all M", "why_tests_cant": "list length and values are unbounded", "anchors": ["energypylinear/optimizer.py:Optimizer.min_many_variables"]}
{"id": "C04", "title": "max of many variables", "statement": "In every feasible solution the variable returned by Optimizer.max_many_variables is an upper bound of the list; it equals the maximum in every solution that minimises an objective in which it appears with a positive coefficient; with a zero or negative coefficient it need not equal the maximum (the encoding has no constraint forcing one binary to be tight).", "quantifier": "all list lengths, all values, all M, all coefficient signs", "why_tests_cant": "needs a claim about every feasible and every optimal solution", "anchors": ["energypylinear/optimizer.py:Optimizer.max_many_variables", "energypylinear/objectives.py:add_many_variables_terms"]}
{"id": "C05", "title": "big-M on/off links are semicontinuous", "statement": "Optimizer.constrain_max and constrain_min with the same binary force a non negative continuous variable into {0} or [min, max], and every value of {0} or [min, max] is reachable.", "quantifier": "all values, all 0 <= min <= max", "why_tests_cant": "quantifies over all reals", "anchors": ["energypylinear/optimizer.py:Optimizer.constrain_max", "energypylinear/optimizer.py:Optimizer.constrain_min"]}
{"id": "C06", "title": "duplicate variable names never reach the solver", "statement": "If Optimizer.solve returns, all variables of the program have pairwise different names; names are compared after pulp replaces the characters -+[] >/ by underscores, so two assets whose names differ only in these characters are rejected.", "quantifier": "all programs", "why_tests_cant": "quantifies over all programs that can be built", "anchors": ["energypylinear/optimizer.py:Optimizer.assert_no_duplicate_variables", "energypylinear/optimizer.py:Optimizer.solve"]}
{"id": "C07", "title": "site electricity balance", "statement": "In every feasible simulation result and every interval: import + sum of asset generation + sum of discharge = export + site electric load + sum of asset load + sum of charge, summed over every asset of the site, each counted exactly once.", "quantifier": "all sites (any list of assets), all interval data, all objectives, all custom constraints, every interval", "why_tests_cant": "must hold for every asset mix and every interval of every solution", "anchors": ["energypylinear/assets/site.py:constrain_site_electricity_balance", "energypylinear/assets/site.py:Site.optimize"]}
{"id": "C08", "title": "high temperature heat balance", "statement": "In every feasible result and interval: sum of asset high temperature generation = sum of asset high temperature load + site high temperature load.", "quantifier": "all sites, data, intervals", "why_tests_cant": "as C07", "anchors": ["energypylinear/assets/site.py:constrain_site_high_temperature_heat_balance"]}
{"id": "C09", "title": "low temperature heat balance", "statement": "In every feasible result and interval: sum of asset low temperature generation + site low temperature generation = sum of asset low temperature load + site low temperature load.", "quantifier": "all sites, data, intervals", "why_tests_cant": "as C07", "anchors": ["energypylinear/assets/site.py:constrain_site_low_temperature_heat_balance"]}
{"id": "C10", "title": "import and export limits, never both", "statement": "In every feasible result and interval, 0 <= import <= import_limit_mw * freq_mins/60, 0 <= export <= export_limit_mw * freq_mins/60 and at least one of import and export is zero; conversely every pair satisfying this satisfies the import/export constraints.", "quantifier": "all sites, limits, frequencies, intervals", "why_tests_cant": "as C07", "anchors": ["energypylinear/assets/site.py:constrain_site_import_export", "energypylinear/assets/site.py:Site.one_interval"]}
{"id": "C11", "title": "battery state of charge stays within capacity", "statement": "In every feasible result the initial and final charge of every battery in every interval is between 0 and capacity_mwh.", "quantifier": "all batteries, intervals, solutions", "why_tests_cant": "unbounded horizon", "anchors": ["energypylinear/assets/battery.py:Battery.one_interval", "energypylinear/assets/battery.py:constrain_battery_electricity_balance"]}
{"id": "C12", "title": "battery never charges and discharges together", "statement": "In every feasible result, in every interval at least one of a battery's charge and discharge is zero.", "quantifier": "all batteries, intervals, solutions", "why_tests_cant": "must hold for every solution the solver may return", "anchors": ["energypylinear/assets/battery.py:constrain_only_charge_or_discharge"]}
{"id": "C13", "title": "battery state of charge accounting over the whole horizon", "statement": "In every feasible result, a battery starts at min(initial_charge, capacity), ends at the requested final charge (default: the initial charge; capped at capacity), each interval starts where the previous ended, and for every horizon length: final = initial + total charge - total discharge - total losses.", "quantifier": "all horizons, batteries", "why_tests_cant": "needs induction over the number of intervals", "anchors": ["energypylinear/assets/battery.py:setup_initial_final_charge", "energypylinear/assets/battery.py:constrain_connection_batteries_between_intervals", "energypylinear/assets/battery.py:constrain_initial_final_charge"]}
{"id": "C14", "title": "battery losses", "statement": "In every feasible result and interval, battery loss = charge * (1 - efficiency); losses are non negative; over a horizon with equal initial and final charge total discharge = efficiency * total charge.", "quantifier": "all batteries, horizons", "why_tests_cant": "as C13", "anchors": ["energypylinear/assets/battery.py:constrain_battery_electricity_balance"]}
{"id": "C15", "title": "battery power limits and completeness of the battery model", "statement": "In every feasible result 0 <= charge <= charge power in MWh and 0 <= discharge <= discharge power in MWh at the site frequency (also at most the capacity); and every schedule obeying the limits, the exclusivity, the loss rule, the capacity and the initial/final charge is allowed (nothing else is forbidden).", "quantifier": "all batteries, all schedules", "why_tests_cant": "completeness is a claim about every schedule", "anchors": ["energypylinear/assets/battery.py:Battery.one_interval", "energypylinear/freq.py:Freq.mw_to_mwh"]}
{"id": "C16", "title": "EVs charge only during their charge event", "statement": "In every feasible result an EV charge event receives charge or gives discharge (from any charger, spill charger included) in interval t only if charge_events[event][t] is at least 1.", "quantifier": "all event matrices, chargers, intervals, flags", "why_tests_cant": "all matrices and solutions", "anchors": ["energypylinear/assets/evs.py:constrain_charge_discharge_min_max", "energypylinear/assets/evs.py:evs_one_interval"]}
{"id": "C17", "title": "one charger per event and one event per charger", "statement": "In every feasible result and interval each charge event uses at most one non-spill charger, in one direction, and each charger serves at most one charge event.", "quantifier": "all EV assets, intervals, solutions", "why_tests_cant": "quantifies over all pairs", "anchors": ["energypylinear/assets/evs.py:constrain_single_charger_charge_event"]}
{"id": "C18", "title": "EV charge events start empty and end full", "statement": "In every feasible result each charge event has state of charge 0 at the start of the simulation, its full capacity at the end, stays within [0, capacity] and is continuous between intervals.", "quantifier": "all EV assets and horizons", "why_tests_cant": "unbounded horizon", "anchors": ["energypylinear/assets/evs.py:constrain_initial_final_charge", "energypylinear/assets/evs.py:constrain_connection_charge_events_between_intervals"]}
{"id": "C19", "title": "EV energy equation", "statement": "In every feasible result, in each interval a charge event's state of charge rises by charger energy * efficiency + spill charger energy - discharge; summed over the horizon this delivers exactly the event capacity. (Spill charger losses are reported but not deducted.)", "quantifier": "all EV assets, horizons", "why_tests_cant": "unbounded horizon and number of chargers", "anchors": ["energypylinear/assets/evs.py:constrain_charge_event_electricity_balance"]}
{"id": "C20", "title": "EV charger power limits and turndown", "statement": "In every feasible result each charger's energy into one charge event is either 0 or between turndown * power and power (in MWh at the site frequency); likewise for discharge when allowed.", "quantifier": "all chargers, events, intervals", "why_tests_cant": "all solutions", "anchors": ["energypylinear/assets/evs.py:constrain_charge_discharge_min_max", "energypylinear/assets/evs.py:EVs"]}
{"id": "C21", "title": "no vehicle-to-grid unless allowed", "statement": "With flags.allow_evs_discharge = False every EV discharge in every result is exactly 0; the spill charger never discharges.", "quantifier": "all EV assets, flags, solutions", "why_tests_cant": "all solutions", "anchors": ["energypylinear/assets/evs.py:evs_one_interval", "energypylinear/flags.py:Flags"]}
{"id": "C22", "title": "flag limit_charge_variables_to_valid_events does not change the answer", "statement": "For 0/1 charge event matrices, the set of feasible dispatches and their cost is the same with the flag on or off.", "quantifier": "all EV assets, 0/1 matrices", "why_tests_cant": "an equivalence of two whole programs", "anchors": ["energypylinear/assets/evs.py:evs_one_interval"]}
{"id": "C23", "title": "CHP energy conversion and minimum load", "statement": "In every feasible result and interval a CHP with positive electric efficiency burns gas = generation / efficiency, produces heat = gas * heat efficiency at both temperature levels, and its generation is 0 or between its minimum and maximum power; every such operating point is allowed. With electric efficiency 0 generation is not tied to gas at all.", "quantifier": "all CHP configurations, intervals", "why_tests_cant": "all solutions, completeness", "anchors": ["energypylinear/assets/chp.py:CHP.constrain_within_interval"]}
{"id": "C24", "title": "boiler energy conversion and limits", "statement": "In every feasible result and interval boiler gas = heat / efficiency and the heat is between the minimum and maximum generation; the boiler cannot switch off when the minimum is positive (the lower bound of the variable is the minimum).", "quantifier": "all boiler configurations, intervals", "why_tests_cant": "all solutions, completeness", "anchors": ["energypylinear/assets/boiler.py:Boiler"]}
{"id": "C25", "title": "heat pump energy conversion", "statement": "In every feasible result and interval heat pump heat output = COP * electricity, low temperature heat intake + electricity = heat output, electricity is within the power limit; a COP below 1 is rejected; every such operating point is allowed.", "quantifier": "all heat pumps, intervals", "why_tests_cant": "all solutions, completeness", "anchors": ["energypylinear/assets/heat_pump.py:HeatPump.constrain_within_interval", "energypylinear/assets/heat_pump.py:HeatPumpConfig.validate_cop"]}
{"id": "C26", "title": "renewable generation bounds", "statement": "In every feasible result and interval renewable generation is between lower_bound_pct * available and available energy of that interval.", "quantifier": "all generators, data, intervals", "why_tests_cant": "all solutions", "anchors": ["energypylinear/assets/renewable_generator.py:RenewableGenerator.one_interval"]}
{"id": "C27", "title": "valve moves heat one way without loss", "statement": "In every feasible result and interval the valve's high temperature load equals its low temperature generation and is non negative.", "quantifier": "all sites, intervals", "why_tests_cant": "all solutions", "anchors": ["energypylinear/assets/valve.py:Valve.constrain_within_interval"]}
{"id": "C28", "title": "spill asset makes the electricity and high temperature balances satisfiable", "statement": "The spill asset can supply any non negative amount of electricity and high temperature heat and absorb any non negative amount of electricity and low temperature heat, and nothing else; hence a site of any spill plus valve can always meet non negative loads, while a low temperature deficit without a valve and a high temperature surplus without a valve cannot be spilled.", "quantifier": "all load profiles", "why_tests_cant": "feasibility for every load profile", "anchors": ["energypylinear/assets/spill.py:Spill.one_interval"]}
{"id": "C29", "title": "custom constraints mean what they say (per interval)", "statement": "A custom Constraint without interval aggregation holds in every interval of every feasible result: sum of coefficient * interval_data[t] * variable over exactly the assets matching asset_type and asset_name, plus constants, compares (le/eq/ge) between left and right side; and nothing else is forbidden by it.", "quantifier": "all constraints, all sites, intervals", "why_tests_cant": "all terms, assets and solutions", "anchors": ["energypylinear/constraints.py:add_custom_constraint", "energypylinear/constraints.py:_resolve_constraint_term", "energypylinear/interval_data.py:IntervalVars.filter_objective_variables"]}
{"id": "C30", "title": "custom constraints with sum aggregation", "statement": "With interval_aggregation='sum' a custom constraint compares the totals over all intervals, and constants on either side count once for the whole simulation.", "quantifier": "all constraints, sites, horizon lengths", "why_tests_cant": "horizon unbounded; the division by the number of intervals must cancel for every n", "anchors": ["energypylinear/constraints.py:add_custom_constraint", "energypylinear/constraints.py:_resolve_constraint_term"]}
{"id": "C31", "title": "the price objective is the cost of the dispatch", "statement": "With objective='price' the minimised number is, for every dispatch: sum over intervals of import * electricity price - export * export price + gas * gas price for every CHP and boiler + 1e11 for each MWh of spill (electric generation and load, high temperature generation; EV spill charging).", "quantifier": "all sites, data, dispatches", "why_tests_cant": "an identity over all dispatches", "anchors": ["energypylinear/objectives.py:price_objective"]}
{"id": "C32", "title": "the carbon objective is the emissions of the dispatch", "statement": "With objective='carbon' the minimised number is the sum over intervals of (import - export) * carbon intensity + gas * 0.185 for every CHP and boiler + the spill penalties.", "quantifier": "all sites, data, dispatches", "why_tests_cant": "an identity over all dispatches", "anchors": ["energypylinear/objectives.py:carbon_objective"]}
{"id": "C33", "title": "custom objective terms", "statement": "A custom objective made of simple terms minimises the sum over intervals and matching assets of variable * interval_data * coefficient; asset_type '*' matches every asset (whatever asset_name says); an unknown objective string raises ValueError.", "quantifier": "all term lists, sites, dispatches", "why_tests_cant": "an identity over all dispatches", "anchors": ["energypylinear/objectives.py:get_objective", "energypylinear/objectives.py:add_simple_terms"]}
{"id": "C34", "title": "the result is optimal among all physically possible dispatches", "statement": "If the solver returns an optimal solution of the program it was given, no dispatch that obeys the physical rules of the assets and the site balances (stated without any solver variables or binaries) has a lower price (carbon) objective than the returned one; and a site with a physically possible dispatch is never reported infeasible.", "quantifier": "all sites, data and competing dispatches", "why_tests_cant": "quantifies over all alternative dispatches", "anchors": ["energypylinear/assets/site.py:Site.optimize", "energypylinear/optimizer.py:Optimizer.solve"]}
{"id": "C35", "title": "interval data validation", "statement": "A SiteIntervalData that is constructed has all fields of equal length n = length of electricity_prices (or of the carbon intensities when no prices are given), scalars are broadcast, missing fields become defaults, missing export prices equal the import prices, mismatched lengths and NaN in a non-anchor field are rejected; with neither prices nor carbon intensities construction fails. NaN in the anchor field is not rejected.", "quantifier": "all inputs", "why_tests_cant": "all shapes and values", "anchors": ["energypylinear/assets/site.py:SiteIntervalData.validate_all_things"]}
{"id": "C36", "title": "repeat_to_match_length", "statement": "repeat_to_match_length(a, b) has length len(b) and its element k is a[k mod len(a)]; it raises ZeroDivisionError when a is empty; it is the identity when lengths agree, and repeating twice to the same length is the same as once.", "quantifier": "all arrays", "why_tests_cant": "all lengths", "anchors": ["energypylinear/utils.py:repeat_to_match_length", "energypylinear/assets/site.py:validate_interval_data"]}
{"id": "C37", "title": "result columns are the solution", "statement": "If Site.optimize returns, every cell of the results table is the value of the corresponding quantity of the solution in that interval (battery values clipped at zero, EV values summed per charger / per event), every column has one value per interval, and no two assets share a column.", "quantifier": "all sites, solutions, intervals", "why_tests_cant": "all asset mixes and names", "anchors": ["energypylinear/results/extract.py:extract_results", "energypylinear/utils.py:check_array_lengths"]}
{"id": "C38", "title": "total columns", "statement": "For assets and custom interval data with ordinary names, each total-<quantity> column is in every interval the sum of this quantity over all assets, EV chargers (spill charger included) and the site's interval data, each counted once.", "quantifier": "all sites with hygienic names, all solutions", "why_tests_cant": "the selection is by substring matching over all names", "anchors": ["energypylinear/results/extract.py:add_totals"]}
{"id": "C39", "title": "the built-in result checks never reject a correct solution", "statement": "For a site with ordinary names and a valve (if any) named 'valve', the schema validation and balance checks of extract_results accept every exact feasible solution, so optimize returns - provided the objective contains a variable (or infeasible results are allowed): an objective that is a constant has no value after solving, and optimize then raises an AssertionError; and a table accepted by check_results satisfies the three balances within 1e-3 / 1e-4 in every interval.", "quantifier": "all sites, solutions, tables", "why_tests_cant": "all solutions", "anchors": ["energypylinear/results/checks.py:check_results", "energypylinear/results/schema.py:simulation_schema"]}
{"id": "C40", "title": "spill flag and fail_on_spill_asset_use", "statement": "SimulationResult.spill is True exactly when the total of all spill columns over all intervals exceeds 1e-4; with flags.fail_on_spill_asset_use a ValueError is raised in exactly that case, and never otherwise.", "quantifier": "all tables, flags", "why_tests_cant": "all tables", "anchors": ["energypylinear/results/warnings.py:warn_spills"]}
{"id": "C41", "title": "accounts are additive", "statement": "get_accounts: cost = electricity + gas + custom cost, profit = -cost, electricity cost = import cost + export cost, emissions = electricity + gas emissions; accounts of the concatenation of two simulations are the sum; Account subtraction is componentwise; using price_results the prices come from there and the energy from results.", "quantifier": "all result tables", "why_tests_cant": "all tables and lengths", "anchors": ["energypylinear/accounting/accounting.py:get_accounts", "energypylinear/accounting/accounting.py:Account.__sub__"]}
{"id": "C42", "title": "accounts agree with the objective", "statement": "When no spill is used and export prices equal import prices, the account cost of a feasible price optimisation equals its objective value; when export prices differ the account still values exports at import prices (so it does not equal the objective).", "quantifier": "all sites and solutions", "why_tests_cant": "an identity over all solutions", "anchors": ["energypylinear/accounting/accounting.py:get_one_electricity_account", "energypylinear/objectives.py:price_objective"]}
{"id": "C43", "title": "custom account", "statement": "The custom account of a simple term with asset_name equals its contribution to the objective; for a term selected by asset type (or '*') the account sums every result column ending with the variable name, including the total- column, so it overcounts.", "quantifier": "all result tables and terms", "why_tests_cant": "all tables", "anchors": ["energypylinear/accounting/accounting.py:add_simple_terms", "energypylinear/accounting/accounting.py:find_all_assets_with_variable"]}
{"id": "C44", "title": "power / energy conversion", "statement": "Freq(mins).mw_to_mwh and mwh_to_mw are inverse for every non-zero mins, linear and monotone (mins > 0); at 60 minutes both are the identity.", "quantifier": "all powers and frequencies", "why_tests_cant": "all reals", "anchors": ["energypylinear/freq.py:Freq"]}
{"id": "C45", "title": "objective dictionaries", "statement": "get_objective on a dict of terms and on the CustomObjectiveFunction built from the same terms gives the same program; term_factory is idempotent, also on a dictionary it has already rewritten in place, so an objective dict can be reused.", "quantifier": "all term dictionaries", "why_tests_cant": "all dictionaries", "anchors": ["energypylinear/objectives.py:term_factory", "energypylinear/objectives.py:get_objective"]}
{"id": "C46", "title": "asset filtering", "statement": "filter_objective_variables returns exactly the assets of interval i with the given type and name, in order; a negative index counts from the end, an unknown type string raises KeyError; within Site.optimize the lookup by type and name returns the asset's own variables because asset names are unique.", "quantifier": "all interval variable collections", "why_tests_cant": "all collections", "anchors": ["energypylinear/interval_data.py:IntervalVars"]}
{"id": "C47", "title": "optimize does not depend on earlier runs", "statement": "Optimising the same site twice, or after any sequence of other optimisations, builds the same program: variables of earlier runs never occur in it. Constructing a second Site with a shared asset and another number of intervals changes the asset's data (and so a later run of the first site).", "quantifier": "all histories of constructor and optimize calls", "why_tests_cant": "quantifies over all histories", "anchors": ["energypylinear/assets/site.py:Site.optimize", "energypylinear/assets/site.py:validate_interval_data"]}
{"id": "C48", "title": "asset constructors", "statement": "Constructors accept exactly the documented configurations: names carry the asset type, boiler efficiency in (0, 1], renewable lower bound in [0, 1] and availability >= 0, COP >= 1, battery discharge power non-zero; a battery without discharge power uses the charge power; EV event matrices must match the capacities.", "quantifier": "all arguments", "why_tests_cant": "all arguments", "anchors": ["energypylinear/assets/battery.py:Battery.__init__", "energypylinear/assets/boiler.py:BoilerConfig", "energypylinear/assets/renewable_generator.py:RenewableGeneratorConfig", "energypylinear/assets/evs.py:EVs.__init__"]}
{"id": "C49", "title": "random EV data generation", "statement": "Whatever the random draws within their documented ranges, generate_random_ev_input_data returns charge events that are contiguous non-empty runs inside the horizon never touching the last interval, capacities >= 0 and charger powers in [10, 100), so the data is accepted by EVs.", "quantifier": "all draws and sizes", "why_tests_cant": "all random draws", "anchors": ["energypylinear/data_generation.py:generate_random_ev_input_data"]}
{"id": "C50", "title": "infeasible programs", "statement": "When the solver does not report Optimal, optimize raises unless flags.allow_infeasible, in which case it returns a result with feasible=False and skips the checks; a result with feasible=True always comes from an optimal solve.", "quantifier": "all sites and solver answers", "why_tests_cant": "all solver behaviours", "anchors": ["energypylinear/optimizer.py:Optimizer.solve", "energypylinear/results/extract.py:extract_results"]}
{"id": "C51", "title": "objectives with max/min terms mean what they say", "statement": "With a custom objective made of simple terms, two-variable max/min terms (over the site import/export and numbers) and many-variable max/min terms (largest with a non-negative coefficient), the objective value reported with an optimal solution equals the sum of the terms evaluated on the results table: per interval the larger/smaller of the two numbers times the interval data times the coefficient, and once the largest/smallest of the constant and all picked values of all intervals times the coefficient. Any M, also one too small, leaves the value right: it only forbids dispatches whose compared numbers differ by more than M.", "quantifier": "all sites, assets, constraints, lists of terms, values of M, coefficients and constants, all optimal solutions", "why_tests_cant": "the value goes through big-M constraints and is only tight at the optimum; it must hold for every combination of terms, M and data", "anchors": ["energypylinear/objectives.py:add_two_variable_terms", "energypylinear/objectives.py:add_many_variables_terms", "energypylinear/objectives.py:get_objective", "energypylinear/optimizer.py:Optimizer.max_two_variables", "energypylinear/optimizer.py:Optimizer.max_many_variables"]}
{"id": "C52", "title": "results are optimal for objectives with max/min terms", "statement": "The reported results minimise the sum of the terms (as in C51) over all physically possible dispatches that satisfy the custom constraints and whose compared numbers lie within M of each other; function terms forbid no such dispatch. With an M too small the reported results need not be the best (witness).", "quantifier": "all sites, assets, plain custom constraints, lists of usual terms, all physical dispatches", "why_tests_cant": "ranges over all alternative dispatches", "anchors": ["energypylinear/objectives.py:get_objective", "energypylinear/assets/site.py:Site.optimize", "energypylinear/optimizer.py"]}
{"id": "C53", "title": "a solver stopped early costs at most its gap", "statement": "Every feasible result describes physically possible operation, satisfies the custom constraints and adds up, whether or not the solver ran to the optimum: it is enough that the numbers it returns with status Optimal satisfy the program (PuLP also answers Optimal when OptimizerConfig.timeout strikes or relative_tolerance is reached). If no solution of the program is better than the returned one by more than a gap, no physically possible dispatch that satisfies the custom constraints has a cost (emissions, sum of terms) lower than that of the reported results by more than the gap; for objectives with max/min terms the reported objective value is at least the worth of the reported numbers and exceeds it by at most the gap. With a gap the result need not be the best (witness).", "quantifier": "all sites, assets, plain custom constraints, objectives, solvers and gaps", "why_tests_cant": "ranges over every early stop of the solver and every alternative dispatch", "anchors": ["energypylinear/optimizer.py:OptimizerConfig", "energypylinear/optimizer.py:Optimizer.solve", "energypylinear/assets/site.py:Site.optimize"]}
{"id": "C54", "title": "the columns of the linear program have different names", "statement": "The variables of the program of a site are called after the site, the asset, the quantity, the interval (and charge event, charger) or after the function term they serve, and nothing else. If the names of the assets contain no comma and no equality sign and stay different after PuLP has replaced -+[] >/ by underscores, and no two function terms of the objective have the same label, no two variables share a name, so the duplicate check of the optimizer never stops such a run; the chargers and events the EVs constructor makes are always named apart. Two assets whose columns do get the same name (battery-1 and battery_1) never give a result, whatever the solver answers; so do two function terms that differ only in M.", "quantifier": "all sites, assets, custom constraints, objectives, flags, solvers", "why_tests_cant": "ranges over all names and numbers of assets and intervals", "anchors": ["energypylinear/optimizer.py:Optimizer.continuous", "energypylinear/optimizer.py:Optimizer.assert_no_duplicate_variables", "energypylinear/assets/*.py:one_interval", "energypylinear/objectives.py:add_two_variable_terms", "energypylinear/objectives.py:add_many_variables_terms"]}
{"id": "C55", "title": "constraints and objectives given as dictionaries", "statement": "A constraint dictionary stands for exactly one constraint: its lhs and rhs (a number, a term, a term dictionary or a list of these), its sense (le, eq, ge) and its interval_aggregation (sum or absent), with coefficient 1 unless given; at least one side must mention a variable. optimize gives with dictionaries the same result or the same error as with the objects that they describe, every result is the result for the constraints and the objective that the arguments describe, and a dictionary that describes none is refused with a ValidationError, not at construction but by optimize, which then gives no result. Unknown keys are ignored, so a misspelt interval_aggregation silently turns a total into a per-interval constraint (witness).", "quantifier": "all sites, assets, lists of constraint dictionaries and objects, objective arguments, flags, solvers", "why_tests_cant": "ranges over all dictionaries and all runs", "anchors": ["energypylinear/constraints.py:Constraint", "energypylinear/constraints.py:add_custom_constraint", "energypylinear/assets/site.py:Site.optimize", "energypylinear/objectives.py:get_objective"]}
{"id": "C56", "title": "more equipment never costs more", "statement": "Adding to a site any assets that can stand idle (a battery that may end as full as it starts, a boiler without a minimum output, CHP plants, heat pumps, renewables that may be curtailed, spills, valves), in any position of the asset list, never raises the optimal reported cost (price objective) nor the optimal reported emissions (carbon objective); permuting the asset list leaves them exactly the same.", "quantifier": "all sites, asset lists, added assets, permutations, flags, solvers, and all results of the smaller site whatever they were optimized for", "why_tests_cant": "compares the results of two whole optimizations for all inputs", "anchors": ["energypylinear/assets/site.py:Site.optimize", "energypylinear/assets/battery.py:Battery", "energypylinear/assets/boiler.py:Boiler", "energypylinear/assets/chp.py:CHP", "energypylinear/assets/heat_pump.py:HeatPump", "energypylinear/assets/renewable_generator.py:RenewableGenerator"]}
{"id": "C57", "title": "better equipment, a bigger grid connection or better prices never cost more", "statement": "If each asset is replaced by one that can do at least as much (more charge or discharge power or capacity, a wider output range, more available renewable energy, wider chargers), the grid limits are not lowered, import and gas prices not raised, export prices not lowered, allow_evs_discharge not switched off, the optimal reported cost does not rise; likewise the optimal emissions with unchanged carbon intensities. Asset and charger names play no part: equally able assets cost exactly the same.", "quantifier": "all pairs of sites, asset lists, flags, solvers and results", "why_tests_cant": "compares the results of two whole optimizations for all inputs", "anchors": ["energypylinear/assets/site.py:Site", "energypylinear/assets/site.py:constrain_site_electricity_balance", "energypylinear/flags.py:Flags", "energypylinear/assets/evs.py:EVs", "energypylinear/assets/battery.py:Battery"]}
{"id": "C58", "title": "fewer constraints never cost more; price against carbon", "statement": "The optimal result for an objective is at most any other feasible result of the same site under the same or more custom constraints, valued by that objective as recomputed from the two tables: for price, carbon, custom terms and function terms (where M covers the other result). So the price result costs at most what the carbon result costs, and emits at least as much.", "quantifier": "all sites, assets, lists of custom constraints, objectives, flags, solvers and pairs of results", "why_tests_cant": "compares the results of two whole optimizations for all inputs", "anchors": ["energypylinear/assets/site.py:Site.optimize", "energypylinear/constraints.py:Constraint", "energypylinear/objectives.py:get_objective"]}
{"id": "C59", "title": "a horizon and its parts", "statement": "For a site without electric vehicles whose batteries hand their charge over, the optimal cost (and emissions) of a horizon is at most the sum over its two parts, however these were optimized; without storage it is exactly the sum of the optimal values of the parts, so the intervals can be optimized separately. With storage the whole can be strictly cheaper (witness).", "quantifier": "all sites, interval data, ways to cut a horizon in two, assets, flags, solvers and results", "why_tests_cant": "compares the results of two whole optimizations for all inputs", "anchors": ["energypylinear/assets/site.py:Site.optimize", "energypylinear/assets/battery.py:Battery.constrain_after_intervals", "energypylinear/interval_data.py"]}
{"id": "C60", "title": "prices in another currency", "statement": "For a site without spill assets and electric vehicles, multiplying all electricity, export and gas prices by the same positive number multiplies the optimal reported cost by it.", "quantifier": "all sites, assets, positive factors, flags, solvers and results", "why_tests_cant": "compares the results of two whole optimizations for all inputs", "anchors": ["energypylinear/objectives.py:price_objective", "energypylinear/assets/site.py:Site.optimize"]}
{"id": "C61", "title": "optimize succeeds exactly when the site can be operated", "statement": "For a price or carbon objective that depends on what the site does, on a site with unconfusable names, and with a solver that answers Optimal for solvable bounded programs: site.optimize returns a feasible result exactly when some physically possible dispatch of the site exists; that result is then the cheapest (cleanest) of all of them. When none exists, optimize raises AssertionError, or with allow_infeasible=True returns a result marked infeasible.", "quantifier": "all sites, interval data, asset combinations, flags and solvers", "why_tests_cant": "needs every site, possible or not; tests look at a handful", "anchors": ["energypylinear/assets/site.py:Site.optimize", "energypylinear/optimizer.py:Optimizer.solve", "energypylinear/results/extract.py:extract_results", "energypylinear/results/checks.py:check_results"]}
{"id": "C62", "title": "a spill asset makes every site operable", "statement": "With a Spill asset every site can be operated, whatever its loads, prices, limits and generation, if the other assets can stand idle and the charge events can use the spill charger, and a low temperature load has a Valve; so optimize always returns a feasible result. Without it, a grid connection as large as the loads and the cars is enough. A Spill asset gives no low temperature heat: without CHP and Valve such a load makes the site infeasible (witness).", "quantifier": "all sites, loads, limits, assets, flags and solvers", "why_tests_cant": "a feasibility claim for all loads and limits", "anchors": ["energypylinear/assets/spill.py", "energypylinear/assets/site.py:constrain_site_electricity_balance", "energypylinear/assets/site.py:constrain_site_low_temperature_heat_balance", "energypylinear/assets/evs.py"]}
{"id": "C63", "title": "from constructor arguments to a result", "statement": "A site whose assets come from the constructors with plain names (the default ones are) has readable, collision-free results. epl.Battery, epl.CHP, epl.HeatPump, epl.RenewableGenerator and epl.EVs built on their own with include_spill (and valve) return a feasible result from optimize for every price and load series without NaN and negative loads, every non-negative grid limit and interval length, given non-negative sizes.", "quantifier": "all constructor arguments, price and load series, limits, interval lengths, flags and solvers", "why_tests_cant": "ranges over all inputs of the public API", "anchors": ["energypylinear/assets/battery.py:Battery.__init__", "energypylinear/assets/chp.py:CHP.__init__", "energypylinear/assets/heat_pump.py:HeatPump.__init__", "energypylinear/assets/renewable_generator.py:RenewableGenerator.__init__", "energypylinear/assets/evs.py:EVs.__init__", "energypylinear/assets/site.py:Site.__init__"]}
{"id": "C64", "title": "accounts: perfect foresight and price against carbon", "statement": "get_accounts(results, price_results=other) values the energy of one simulation at the prices and intensities of another one of the same length. A site optimized with the actual prices has, in accounts at the actual prices, at most the cost (for carbon: the emissions) of the same site optimized for forecast prices or anything else without spilling, so the variance account perfect - forecast never shows a loss; optimizing one site for price and for carbon gives accounts ordered in cost, profit and emissions. For cost this needs export prices equal to the electricity prices: otherwise accounts value exports at the import price and the result of the forecast can look better than perfect foresight (witness).", "quantifier": "every site, assets, horizon, actual and forecast prices, custom constraints and objective of the forecast run, every solver within a gap of the optimum", "why_tests_cant": "an inequality between the optima of two programs for all prices; tests compare a few price series", "anchors": ["energypylinear/accounting/accounting.py:get_accounts", "energypylinear/assets/site.py:Site.optimize", "docs/docs/how-to/dispatch-forecast.md", "docs/docs/how-to/price-carbon.md"]}
{"id": "C65", "title": "plots and debug functions leave results usable", "statement": "The plot methods write into the results table they are given. Whatever plots are made of a simulation, in any order and number, whether they return or raise: no column is lost, no row added, only four helper columns are added, and only the low temperature columns of plot_heat_pump change, by at most 1/20000 MWh (rounding in place: witness); all accounts of the plotted simulation equal those of the simulation, and its energy balances still pass debug_balances and debug_simulation. Battery.plot works with exactly one battery named \"battery\" and fails with AssertionError with none or two batteries so prefixed; CHP.plot works with a boiler \"boiler\" and a spill \"spill\", HeatPump.plot with a valve \"valve\" and a spill \"spill\", and both fail with KeyError without a Spill asset; EVs.plot works with the default spill charger. debug_asset shows all columns of the asset. What plots write: the row numbers, import minus export, the battery's charge minus its discharge, and the low temperature columns of a heat pump rounded to four decimals; plotting EVs writes nothing.", "quantifier": "every results table and every simulation, every sequence of plots, every custom account term that does not read a touched column", "why_tests_cant": "ranges over all sequences of plots of all results; the tests plot once and look at no number afterwards", "anchors": ["energypylinear/plot.py:plot_battery", "energypylinear/plot.py:plot_evs", "energypylinear/plot.py:plot_chp", "energypylinear/plot.py:plot_heat_pump", "energypylinear/debug.py:debug_simulation", "energypylinear/debug.py:debug_balances", "energypylinear/debug.py:debug_asset"]}
{"id": "C66", "title": "energy over the whole horizon", "statement": "Over the horizon of a feasible result, imports plus generation equal exports plus loads plus the reported losses of batteries and EV chargers plus what batteries hold more at the end than at the start plus the capacities of all charge events: a result table neither creates nor loses energy. The losses reported for the EV spill charger are not real (witness). With one price for imports and exports all the time (for carbon: one intensity), batteries that are not emptier at the end than at the start never pay: the site without them and a grid connection bigger by their power is at most as dear (dirty) as any result of the site with them.", "quantifier": "every site, assets, horizon, custom constraints and objective, flags and solver", "why_tests_cant": "a sum over any number of intervals, batteries and charge events, and an inequality between optima of two programs", "anchors": ["energypylinear/assets/site.py:constrain_site_electricity_balance", "energypylinear/assets/battery.py:Battery", "energypylinear/assets/evs.py:EVs", "energypylinear/results/extract.py:extract_results"]}
{"id": "C67", "title": "a site k times as big costs k times as much", "statement": "Multiplying all sizes of a site by k > 0 (limits, loads, generation, asset sizes and minimums, initial and final charges, charge event capacities; not efficiencies, prices and attendance) multiplies the optimal reported cost by exactly k, and with the objective \"carbon\" the emissions; with a solver that stops within a gap of the optimum the bigger site costs at most k times any feasible result of the smaller one plus the gap.", "quantifier": "every k > 0, site, asset list, horizon, flags and solvers", "why_tests_cant": "an equality between the optima of two mixed integer programs for every k and every site", "anchors": ["energypylinear/assets/site.py:Site.optimize", "energypylinear/objectives.py:add_objective", "energypylinear/assets"]}
{"id": "C68", "title": "finer time steps never cost more", "statement": "Splitting every interval into k shorter ones (freq_mins divided by k, loads, generation and availability shared out equally, prices and attendance repeated) never raises the optimal reported cost or emissions: power ratings and energies are converted consistently for every interval length.", "quantifier": "every k >= 1, interval length divisible by k, site, asset list, horizon, flags and solvers", "why_tests_cant": "relates two programs of different sizes for every k and every site; a test has one freq_mins", "anchors": ["energypylinear/freq.py:Freq.mw_to_mwh", "energypylinear/assets/site.py:Site.optimize", "energypylinear/assets"]}
{"id": "C69", "title": "renewable and spilled electricity only when nothing else is possible", "statement": "In a result optimized for price or carbon, without custom constraints: a renewable asset is turned down while electricity has a positive price only when nothing is imported and export is at its limit; the spill asset supplies electricity only when import is at its limit and nothing is exported, and takes electricity only when export is at its limit and nothing is imported; it is used at all only when every renewable asset is at the end of its range. More exactly: whatever amount e could be moved between the asset and the grid in an interval, moving it would gain at most the solver's gap.", "quantifier": "every site, asset list, interval, amount e, flags, prices and solver within a gap of the optimum", "why_tests_cant": "a statement about every optimum of every site", "anchors": ["energypylinear/assets/site.py:Site.optimize", "energypylinear/objectives.py:add_objective", "energypylinear/assets/renewable_generator.py:RenewableGenerator", "energypylinear/assets/spill.py:Spill"]}
{"id": "C70", "title": "heat from the cheapest source", "statement": "In a result optimized for price or carbon, without custom constraints: the spill asset supplies heat only when every boiler is at its maximum; a less efficient boiler runs above its minimum only when every more efficient one is at its maximum (gas not free); heat passes the valve while low temperature heat is thrown away only if no boiler can be turned down; a heat pump or CHP replaces a boiler, or is replaced by one, whenever the prices of electricity and gas, the COP and the efficiencies make it pay. More exactly: whatever amount could be moved between them in an interval would gain at most the solver's gap.", "quantifier": "every site, asset list, interval, amount, flags, prices and solver within a gap of the optimum", "why_tests_cant": "a statement about every optimum of every site", "anchors": ["energypylinear/assets/site.py:Site.optimize", "energypylinear/objectives.py:add_objective", "energypylinear/assets/boiler.py:Boiler", "energypylinear/assets/chp.py:CHP", "energypylinear/assets/heat_pump.py:HeatPump", "energypylinear/assets/valve.py:Valve", "energypylinear/assets/spill.py:Spill"]}
{"id": "C71", "title": "battery trades pay and no paying trade is left", "statement": "In a result optimized for price or carbon, without custom constraints, for any two intervals: if a battery charges in one and discharges in the other, what it charges costs at most what the discharge is worth after the losses; and if it has power and room left, charging more in one and discharging more in the other would cost at least what it is worth. The intervals may come in either order and be any distance apart; the price in an interval is the import price, or the export price when the site exports. Up to the solver's gap.", "quantifier": "every site, asset list, battery, pair of intervals, amount, flags, prices and solver within a gap of the optimum", "why_tests_cant": "a statement about every optimum of every site and every pair of intervals", "anchors": ["energypylinear/assets/site.py:Site.optimize", "energypylinear/objectives.py:add_objective", "energypylinear/assets/battery.py:Battery", "energypylinear/assets/battery.py:constrain_battery_electricity_balance"]}
{"id": "C72", "title": "custom constraints and objectives over on/off switches and every other attribute", "statement": "A custom constraint or a custom objective of simple terms may read any attribute of the site and the assets: besides the energy quantities the on/off switches (binary, electric_charge_binary, electric_discharge_binary, electric_load_binary, import_power_bin, export_power_bin), the limits, the efficiency and the indices; an attribute a part does not have counts as zero. A feasible result satisfies every such constraint with on/off switches that fit the result, and reports the objective value of those switches; a dispatch is allowed exactly when it is physical and some switches that fit it satisfy the constraints; and no such dispatch is better than the result by more than the solver's gap, for price, carbon and custom objectives.", "quantifier": "every site, asset list, list of constraints over any attributes, objective of simple terms, flags and solver within a gap of the optimum", "why_tests_cant": "for all constraints, dispatches and switches", "anchors": ["energypylinear/constraints.py:Constraint", "energypylinear/assets/site.py:Site.optimize", "energypylinear/optimizer.py:Optimizer", "energypylinear/assets/site.py:SiteOneInterval", "energypylinear/assets/asset.py:AssetOneInterval", "energypylinear/objectives.py:add_simple_terms"]}
{"id": "C73", "title": "limiting how often equipment runs", "statement": "Limiting the sum of an on/off switch to k limits the intervals with a flow: a battery charges (discharges), a CHP, boiler or heat pump runs, the site imports (exports) in at most k intervals of the result, several such limits can be given at once beside other constraints, and the program allows every physical dispatch that keeps them, so the result is the cheapest of these. Requiring the switch of a CHP to be on makes it run at its minimum or above in every interval, and forbids nothing else. Requiring the switch of a boiler or heat pump to be on forces nothing at all.", "quantifier": "every site, asset list, asset, limit k, further constraints, objective, flags and solver", "why_tests_cant": "for all dispatches and limits", "anchors": ["energypylinear/constraints.py:Constraint", "energypylinear/assets/site.py:Site.optimize", "energypylinear/optimizer.py:Optimizer", "energypylinear/assets/battery.py:Battery", "energypylinear/assets/chp.py:CHP", "energypylinear/assets/boiler.py:Boiler", "energypylinear/assets/heat_pump.py:HeatPump"]}
{"id": "C74", "title": "the on/off columns of the results table", "statement": "In every feasible result: a battery's charge and discharge on/off columns are 0 or 1, never both 1, and 0 means no energy in that direction; the same for the columns of each EV charger, where moreover 1 means at least the charger's minimum and a charge event that is there (and, for discharge, that discharging was allowed); the spill charger's charge column counts the charge events it serves, 0 meaning no energy, and its discharge column is 0; no more chargers are switched on than there are charge events.", "quantifier": "every feasible result of every site, asset, charger and interval", "why_tests_cant": "must hold for every site, data and solver answer", "anchors": ["energypylinear/results/extract.py:extract_results", "energypylinear/assets/battery.py:Battery", "energypylinear/assets/evs.py:EVs"]}
{"id": "C75", "title": "names the report depends on", "statement": "If a site has a valve, a feasible result is returned only if a valve (or spill) asset is named exactly 'valve': otherwise the balance check raises KeyError. If a site has an EVs asset, optimize returns (feasible or not) only if no other asset's name contains 'evs': otherwise IndexError. An EVs asset whose name lacks 'evs' is missing from the report (AssertionError from the balance check).", "quantifier": "every site, asset list, names, constraints, objective, flags and solver", "why_tests_cant": "names are arbitrary strings; a test fixes one", "anchors": ["energypylinear/results/checks.py:check_results", "energypylinear/results/extract.py:extract_results", "energypylinear/assets/evs.py:create_evs_array"]}
{"id": "C76", "title": "answers within the solver's tolerance", "statement": "CBC meets the rows of the program only up to a feasibility tolerance eps (bounds and integrality exact, eps < 1). Then every limit, balance, efficiency and storage equation of a feasible result holds up to eps in every interval; what a battery or a vehicle holds after t intervals is within its capacity and off by at most 2 t eps from what the table says was charged, discharged and lost; a vehicle that is away is charged by at most eps per charger; custom constraints hold up to eps; the reported objective is still exactly the cost of the reported columns, and no physically possible dispatch is cheaper by more than the solver's gap. With eps < 1e-4 and no valve, such an answer passes every check of the report. With a valve it need not: the valve check compares exactly and raises AssertionError for an answer within 1e-9.", "quantifier": "every tolerance, solver, site, asset list, custom constraint, objective and flag", "why_tests_cant": "the tolerance, the rows it is spent on and the number of intervals over which it adds up are arbitrary", "anchors": ["energypylinear/optimizer.py:Optimizer.solve", "energypylinear/results/checks.py:check_results", "energypylinear/results/extract.py:extract_results"]}
{"id": "C77", "title": "what an objective ignores, and the same function term twice", "statement": "A term whose type is neither 'simple' nor 'complex', or a function term whose function is not one of the four known names, is silently left out: optimize gives exactly what it gives without it. Parts of a term without a meaning do not matter: changing the coefficient or type of an operand of a max/min-of-two term, or the coefficient (or, given a name, the asset type) of the variables of a max/min-of-many term, and reordering the terms, never changes the optimum. Two function terms with the same function and operands (even with different M, coefficient or interval data), or the same many-variable term twice, can never be optimised: optimize raises.", "quantifier": "all sites, assets, custom constraints, term lists, positions in the list, solvers", "why_tests_cant": "a mis-typed function name or an unused coefficient gives no error and a plausible result; the claim is about all objectives and every place of the term in them", "anchors": ["energypylinear/objectives.py:add_simple_terms", "energypylinear/objectives.py:add_two_variable_terms", "energypylinear/objectives.py:add_many_variables_terms", "energypylinear/optimizer.py:Optimizer.max_two_variables"]}
{"id": "C78", "title": "more efficient equipment never costs more", "statement": "If batteries, boilers or vehicles (with chargers that may run at any low power) of a site are replaced by otherwise equal ones with a higher efficiency, then, prices not being negative and what is charged from anything but the import also fitting through the export connection, the optimal reported cost is not higher than that of any feasible result of the old site; likewise the emissions when the carbon intensities are not negative. Both conditions are needed: with a negative price the losses earn money, and without room to export what the better battery does not take in has to be spilled (witnesses).", "quantifier": "all sites, asset lists, sets of improved assets, efficiencies, flags, custom constraints and objectives of the old run, solvers and gaps", "why_tests_cant": "compares the optimum of every site with every improvement of it; whether the optimum can get worse is a statement about all dispatches", "anchors": ["energypylinear/assets/battery.py:constrain_initial_final_charge", "energypylinear/assets/battery.py:constrain_battery_electricity_balance", "energypylinear/assets/boiler.py:Boiler.constrain_within_interval", "energypylinear/assets/evs.py:EVs"]}
{"id": "C79", "title": "how the optimum answers to prices", "statement": "When only prices change, the new optimal cost is at most that of the old result at the new prices; of what has become dearer the optimum does not take more, weighed by the rises in price (in particular, when just one import price rises, the optimum does not import more in that interval); an error in the electricity prices moves the optimal cost by at most that error times the size of the grid connection, summed over the intervals; and the optimum at averaged prices costs at least the average of the optima. Likewise emissions with the carbon intensities.", "quantifier": "all sites, asset lists, flags, price series, weights, solvers and gaps", "why_tests_cant": "relates the optima for every pair (or family) of price series; a test compares two", "anchors": ["energypylinear/objectives.py:get_objective", "energypylinear/accounting/accounting.py:get_accounts", "energypylinear/interval_data.py:SiteIntervalData"]}
{"id": "C80", "title": "verbosity and optimizer configuration", "statement": "The argument verbose of optimize and get_accounts changes nothing in the answer. What optimize prints is exactly the logged messages from the level of verbose on, whatever was set by calls before, and a successful call leaves that level behind; verbose=False prints nothing, whether the call succeeds or fails; the default prints site, assets, outcome and, if anything spilled, the spill warning, which lists exactly the spill columns with a positive sum; a more verbose call prints all that a less verbose one prints. verbose=0 does not silence the output, as documented, but prints everything except the spill warning, and the messages about the terms of a custom objective are never printed (findings). An optimizer_config dict is accepted exactly when its keys are fields of OptimizerConfig, otherwise TypeError before anything is printed; keys left out keep their defaults, the order of keys plays no role, and the configuration reaches nothing but the solver.", "quantifier": "all verbosities, handler levels left by earlier calls, sites, assets, constraints, objectives, flags, solvers, dicts", "why_tests_cant": "ranges over all histories of handler levels, all failures and all programs; output is rarely tested at all", "anchors": ["energypylinear/logger.py:set_logging_level", "energypylinear/assets/site.py:Site.optimize", "energypylinear/optimizer.py:Optimizer.solve", "energypylinear/optimizer.py:OptimizerConfig", "energypylinear/results/warnings.py:warn_spills", "energypylinear/objectives.py:get_objective"]}
{"id": "C81", "title": "several sites behind one grid connection", "statement": "When two sites with the same prices, at which electricity never sells for more than it costs, are put behind one connection as big as their two (their loads and low temperature generation added, their assets together), the least cost of the whole is no more than the sum of any two feasible results of the parts, up to the solver's gap; likewise emissions, whatever the prices; and whenever both parts have a feasible result, so has the whole. Where electricity sells for more than it costs, two connections can be cheaper than one.", "quantifier": "all pairs of sites, asset lists, constraints and objectives of the parts, prices, intensities, limits, flags, solvers and gaps", "why_tests_cant": "compares the optimum of one arbitrary program with the sum of two others; a test compares a few", "anchors": ["energypylinear/assets/site.py:constrain_site_electricity_balance", "energypylinear/assets/site.py:constrain_site_import_export", "energypylinear/assets/site.py:Site.optimize", "energypylinear/objectives.py:price_objective"]}
{"id": "C82", "title": "one machine or several that make it up", "statement": "Replacing an asset by any number of shares of it (sizes, minimum loads, capacities, charges, available energy each k times as big, the k's summing to 1, under any distinct names) never raises the least cost or emissions of the site beyond the solver's gap. For boilers, heat pumps, renewable generators, spills and valves the optimum stays the same; for a CHP with a minimum load it can fall.", "quantifier": "all sites, assets of every kind, numbers and sizes of shares, flags, solvers and gaps", "why_tests_cant": "ranges over every way of sharing every asset out on every site", "anchors": ["energypylinear/assets/battery.py:constrain_within_interval", "energypylinear/assets/chp.py:CHP.constrain_within_interval", "energypylinear/assets/boiler.py:Boiler.constrain_within_interval", "energypylinear/assets/heat_pump.py:HeatPump.constrain_within_interval", "energypylinear/assets/renewable_generator.py:RenewableGenerator.one_interval", "energypylinear/assets/evs.py:EVs.constrain_within_interval"]}
{"id": "C83", "title": "without storage every interval stands alone", "statement": "With no battery and no EVs at the site, what an interval costs (or emits) at the optimum depends on the demands, prices (or intensity), available renewable energy and grid connection of that interval only: any two intervals, of the same or of different runs, that agree in these cost the same up to the solver's gap, and putting the intervals in another order changes no total. With a battery this fails.", "quantifier": "all sites, assets that store nothing, pairs of intervals and runs, permutations of the intervals, flags, solvers and gaps", "why_tests_cant": "compares every interval of every run with every interval of every other", "anchors": ["energypylinear/assets/site.py:constrain_site_electricity_balance", "energypylinear/assets/site.py:constrain_site_import_export", "energypylinear/assets/site.py:Site.optimize", "energypylinear/objectives.py:price_objective", "energypylinear/objectives.py:carbon_objective"]}
{"id": "C84", "title": "what another MWh of load is worth", "statement": "Adding electric load (any amount in each interval, of either sign) to a site whose grid connection has room for it costs at most its import price where load is added, and saves at least the export price where load is taken away, up to the solver's gap, when electricity never sells for more than it costs; a MWh of load so costs at least its export and at most its import price. When emissions are minimised, load counts with exactly the carbon intensity of its interval. More load never makes a site cheaper while exporting earns nothing negative.", "quantifier": "all sites, assets, changes of the load, prices, intensities, flags, solvers and gaps", "why_tests_cant": "compares the optima of two programs for every change of the load of every site", "anchors": ["energypylinear/assets/site.py:constrain_site_electricity_balance", "energypylinear/assets/site.py:constrain_site_import_export", "energypylinear/assets/site.py:Site.optimize", "energypylinear/objectives.py:price_objective", "energypylinear/objectives.py:carbon_objective"]}
{"id": "C85", "title": "what a renewable generator is worth", "statement": "Adding a renewable generator to a site saves at least what the energy available to it sells for, and (with import prices that are not negative) at most what that energy would cost to buy, up to the solver's gap, when the grid connection has room and electricity never sells for more than it costs; it abates at least its available energy at the carbon intensity of each interval, and no more while intensities are not negative.", "quantifier": "all sites, assets, generators, prices, intensities, flags, solvers and gaps", "why_tests_cant": "compares the optima of two programs, with and without the generator, for every site", "anchors": ["energypylinear/assets/site.py:constrain_site_electricity_balance", "energypylinear/assets/site.py:constrain_site_import_export", "energypylinear/assets/site.py:Site.optimize", "energypylinear/objectives.py:price_objective", "energypylinear/objectives.py:carbon_objective", "energypylinear/assets/renewable_generator.py:RenewableGenerator.one_interval"]}
{"id": "C86", "title": "weighing two aims against each other", "statement": "When the objective is one group of terms plus a weight times another group (cost plus a carbon price times emissions, say), raising the weight never makes the second group of terms larger at the optimum and never makes the first smaller (up to the solver's gaps); and with a positive weight no feasible operation of the site is better on one aim without being worse on the other.", "quantifier": "all sites, assets, two groups of terms, weights, further constraints, flags, solvers and gaps", "why_tests_cant": "compares the optima of a family of programs with each other and with every feasible operation", "anchors": ["energypylinear/objectives.py:get_objective", "energypylinear/objectives.py:add_simple_terms", "energypylinear/objectives.py:OneTerm", "energypylinear/assets/site.py:Site.optimize"]}
{"id": "C87", "title": "what another MWh of heat is worth", "statement": "Adding high temperature load (any amount in each interval, of either sign) to a site with a boiler that has room for it changes the least cost (or the least emissions) by at most the gas the boiler burns for it at its efficiency, up to the solver's gap; when the boiler has room both ways at both optima the change is exactly that, so a boiler between its limits sets the value of heat. With a valve the same holds for low temperature load.", "quantifier": "all sites, assets, boilers, changes of the heat loads, prices, objectives price and carbon, flags, solvers and gaps", "why_tests_cant": "compares the optima of two programs for every change of the heat load of every site", "anchors": ["energypylinear/assets/boiler.py:Boiler", "energypylinear/assets/valve.py:Valve", "energypylinear/assets/site.py:constrain_site_high_temperature_heat_balance", "energypylinear/assets/site.py:constrain_site_low_temperature_heat_balance", "energypylinear/objectives.py:price_objective", "energypylinear/objectives.py:carbon_objective"]}
{"id": "C88", "title": "what epl.check_results returns", "statement": "For a feasible simulation epl.check_results(simulation.results) never raises: it returns the electricity, high temperature and low temperature frames. The electricity frame holds, in every interval, import plus generation as input, export plus load as output, discharge minus charge as accumulation, the columns they come from, losses, spills and the state of charge of the EV charge events (not the charge of batteries), with balance true throughout; input plus accumulation equals output. The heat frames hold what is made and what is used, which agree. Giving it the columns behind the totals (total_mapper) only adds those columns.", "quantifier": "all tables, numbers of rows and mappers; all sites, assets, constraints, objectives, flags and solvers with a feasible result", "why_tests_cant": "the function is called on whatever table a simulation produced; that it never raises on one and what the frames hold must be true of every simulation", "anchors": ["energypylinear/results/checks.py:check_results", "energypylinear/results/checks.py:check_electricity_balance", "energypylinear/results/checks.py:check_high_temperature_heat_balance", "energypylinear/results/checks.py:check_low_temperature_heat_balance", "energypylinear/results/extract.py:add_totals"]}
