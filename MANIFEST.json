{
 "claims": [
  {
   "property": "C01",
   "status": "proved",
   "theorems": [
    "C01_cabinet_refines_spec",
    "C01_handle_stable",
    "C01_deleted_stays_dead",
    "C01_handles_fresh",
    "C01_null_object_refuted"
   ],
   "note": "All histories of non-null objects; the null-object refutation shows the hypothesis is needed."
  },
  {
   "property": "C02",
   "status": "proved",
   "theorems": [
    "C02_index_correct"
   ],
   "note": ""
  },
  {
   "property": "C03",
   "status": "partial",
   "theorems": [
    "C03_clear_total_partial",
    "C03_clear_refuted",
    "C03_del_twice_refuted"
   ],
   "note": "The documented behaviour is false of the code: deleting twice throws and clear() stops with an error at the first deleted handle."
  },
  {
   "property": "C04",
   "status": "proved",
   "theorems": [
    "C04_value_cache",
    "C04_ids_distinct",
    "C04_after_exception_refuted",
    "C04_ideal_gas",
    "C04_plasma",
    "C04_last_temperature",
    "C04_same_temperature",
    "C04_last_temperature_refuted",
    "C04_standard_states",
    "C04_standard_states_reference",
    "C04_coverage",
    "C04_coverage_refuted",
    "C04_debye",
    "C04_debye_refuted",
    "C04_counter",
    "C04_counter_refuted",
    "C04_gas_rates",
    "C04_pressure_refuted",
    "C04_rates_after_exception_refuted"
   ],
   "note": "Fresh reads proved over all histories, with the exact condition where the scheme can fail; the failures are proved as _refuted theorems."
  },
  {
   "property": "C05",
   "status": "proved",
   "theorems": [
    "C05_set_mole_fractions",
    "C05_set_mass_fractions",
    "C05_set_concentrations",
    "C05_set_moles",
    "C05_always_consistent",
    "C05_by_name",
    "C05_unknown_name_rejected",
    "C05_zero_composition_rejected_refuted"
   ],
   "note": "Composition setters over exact arithmetic with NaN/inf; all-zero input is accepted and gives NaN (refuted companion)."
  },
  {
   "property": "C06",
   "status": "proved",
   "theorems": [
    "C06_set_what_was_read",
    "C06_conversions_inverse",
    "C06_zero_rejected"
   ],
   "note": "Round trips for every reachable non-negative state and for the conversion functions."
  },
  {
   "property": "C07",
   "status": "proved",
   "theorems": [
    "C07_restore_saved",
    "C07_restore_saved_incompressible",
    "C07_short_vector_rejected",
    "C07_rejected_restore_changes_nothing_refuted",
    "C07_unnormalised_state_refuted"
   ],
   "note": "Exact restoration over all histories of meaningful calls; two refuted companions show the limits."
  },
  {
   "property": "C08",
   "status": "proved",
   "theorems": [
    "C08_species_name_index",
    "C08_element_name_index",
    "C08_indices_stable",
    "C08_inexact_lookup",
    "C08_alias",
    "C08_alias_kept_refuted"
   ],
   "note": "Over all call histories on a new phase. The claim that an alias keeps its meaning is refuted when a species with the alias's name is added later."
  },
  {
   "property": "C09",
   "status": "proved",
   "theorems": [
    "C09_atoms",
    "C09_molecular_weight",
    "C09_stable",
    "C09_added_species",
    "C09_modify_charge_refuted"
   ],
   "note": "Molecular weights have a floor of 1e-20; element E is treated as the code documents. species(k).charge may differ from charge(k) after modifySpecies (refutation)."
  },
  {
   "property": "C10",
   "status": "proved",
   "theorems": [
    "C10_convertible",
    "C10_round_trip",
    "C10_transitive",
    "C10_algebra",
    "C10_mul_assoc",
    "C10_power_of_product",
    "C10_conversion_multiplicative",
    "C10_system_coherent",
    "C10_power_loses_pressure_refuted"
   ],
   "note": "Real arithmetic. Powers of products keep factor and dimensions but lose the pressure/energy part used by convertTo; that failure is a proved counterexample."
  },
  {
   "property": "C11",
   "status": "proved",
   "theorems": [
    "C11_defaults_hold",
    "C11_default_is_one",
    "C11_default_is_one_refuted",
    "C11_to_from_inverse",
    "C11_set_and_reported",
    "C11_initial",
    "C11_activation_inverse",
    "C11_activation_rejects",
    "C11_activation_explicit",
    "C11_activation_default",
    "C11_activation_kelvin_refuted",
    "C11_failed_call_refuted",
    "C11_explicit_units",
    "C11_bare_number",
    "C11_undefined_rate_units_refuted"
   ],
   "note": "Any history of setDefaults/setDefaultActivationEnergy calls, including throwing ones. The parts that are false of the code (composite pressure defaults, scaled kelvin, failed calls, undefined rate units) are proved false."
  },
  {
   "property": "C12",
   "status": "proved",
   "theorems": [
    "C12_parses",
    "C12_unknown_rejected",
    "C12_total",
    "C12_names_required_refuted",
    "C12_catalogue"
   ],
   "note": "The whole grammar: optional factor, products and quotients, prefixes, real exponents, white space; any string gives a unit or a CanteraError."
  },
  {
   "property": "C13",
   "status": "proved",
   "theorems": [
    "C13_round_trip",
    "C13_duplicate",
    "C13_unknown_name",
    "C13_bad_value",
    "C13_trailing_text",
    "C13_no_colon",
    "C13_every_string",
    "C13_error_type_refuted",
    "C13_duplicate_rejected_refuted",
    "C13_colon_names_refuted"
   ],
   "note": "parseCompString over all character strings. Grammar-level round trip; duplicates with nonzero first value, unknown names, bad values, trailing text rejected; termination and error kinds for every string. Three sub-claims are false in the code and refuted."
  },
  {
   "property": "C14",
   "status": "proved",
   "theorems": [
    "C14_numbers_accepted",
    "C14_accepted_language",
    "C14_value",
    "C14_only_numbers_refuted"
   ],
   "note": "fpValueCheck/fpValue over all strings, exact real value of the literal (rounding not modelled). The code also accepts mantissas without digits, refuted sub-claim."
  },
  {
   "property": "C15",
   "status": "proved",
   "theorems": [
    "C15_derivative",
    "C15_no_derivative",
    "C15_log_refuted",
    "C15_table_before_refuted",
    "C15_composite_refuted"
   ],
   "note": "For every functor tree regular at t the derivative functor exists and evaluates to the derivative. Refuted outside: log(c t) with c<>1, linear tables before the first time, and composites with a non-integer power of a power at negative t."
  },
  {
   "property": "C16",
   "status": "proved",
   "theorems": [
    "C16_sum",
    "C16_difference",
    "C16_product",
    "C16_ratio",
    "C16_composite",
    "C16_times_plus",
    "C16_no_zero_factor",
    "C16_sum_zero_factor_refuted",
    "C16_composite_refuted"
   ],
   "note": "All seven operations preserve values; the two exceptions (a zero times-constant operand, a non-integer power of a power at negative arguments) are refuted."
  },
  {
   "property": "C17",
   "status": "proved",
   "theorems": [
    "C17_declarations_accepted",
    "C17_bad_lengths_refused",
    "C17_species_matrix",
    "C17_reactions_matrix",
    "C17_coefficient_matrix",
    "C17_multiply_mass_action",
    "C17_derivatives",
    "C17_scale",
    "C17_negative_coefficient_refuted"
   ],
   "note": "For nonnegative coefficients; a negative integer coefficient is dropped (refuted witness). Derivatives for positive concentrations and one declaration per reaction."
  },
  {
   "property": "C18",
   "status": "proved",
   "theorems": [
    "C18_net_is_creation_minus_destruction",
    "C18_net_formula"
   ],
   "note": ""
  },
  {
   "property": "C19",
   "status": "partial",
   "theorems": [
    "C19_conserved",
    "C19_mass",
    "C19_accepted_bound_partial",
    "C19_third_body_balance_unchecked_refuted",
    "C19_charge_balance_unchecked_refuted"
   ],
   "note": "Conservation is proved for every mechanism whose reactions balance; that addReaction only accepts balanced reactions is proved up to the tolerance for reactions without third body and refuted for reactions with third body and for charge"
  },
  {
   "property": "C20",
   "status": "partial",
   "theorems": [
    "C20_reported",
    "C20_accepts",
    "C20_found_partial",
    "C20_lonely_found",
    "C20_effects",
    "C20_warned",
    "C20_missed_refuted",
    "C20_false_duplicate_refuted",
    "C20_declared_unrelated_refuted",
    "C20_message_refuted",
    "C20_empty_refuted",
    "C20_modify_rates_refuted"
   ],
   "note": "Soundness for every list of proper reactions. Completeness (C20_found_partial) for exact multiples when no earlier comparison of the same reaction left entries in front (the unconditional statement is false: C20_missed_refuted); in tolerance-only cases completeness is not stated."
  },
  {
   "property": "C21",
   "status": "proved",
   "theorems": [
    "C21_third_body_concentration",
    "C21_efficiency_matrix"
   ],
   "note": ""
  },
  {
   "property": "C22",
   "status": "proved",
   "theorems": [
    "C22_equilibrium_constant",
    "C22_rate_constant_ratio",
    "C22_detailed_balance",
    "C22_sign_of_net_rate"
   ],
   "note": "Side condition: 1/Kc does not exceed the cap BigNumber of the code"
  },
  {
   "property": "C23",
   "status": "proved",
   "theorems": [
    "C23_value",
    "C23_at_tabulated",
    "C23_between",
    "C23_outside",
    "C23_continuous",
    "C23_order",
    "C23_get_rates",
    "C23_set_rates_refuted"
   ],
   "note": "Tabulated values carry the program's 1e-300 offset. Re-configuring an evaluated object is refuted."
  },
  {
   "property": "C24",
   "status": "proved",
   "theorems": [
    "C24_factor_range",
    "C24_factor_range_t2_refuted",
    "C24_falloff_bounds",
    "C24_lindemann_monotone",
    "C24_lindemann_limits",
    "C24_troe_high_pressure_refuted",
    "C24_roundtrip",
    "C24_roundtrip_troe",
    "C24_roundtrip_sri_tsang",
    "C24_sri_three_refuted"
   ],
   "note": "Limits hold for Lindemann; for Troe the high-pressure limit is refuted; SRI short form refuted."
  },
  {
   "property": "C25",
   "status": "proved",
   "theorems": [
    "C25_value",
    "C25_cosines",
    "C25_range",
    "C25_set_data_refuted"
   ],
   "note": "Re-configuring an evaluated object is refuted."
  },
  {
   "property": "C26",
   "status": "proved",
   "theorems": [
    "C26_restore",
    "C26_restore_third_bodies",
    "C26_rounds",
    "C26_twice_rejected",
    "C26_restore_harmless",
    "C26_perturb",
    "C26_derivative_P",
    "C26_derivative_T",
    "C26_factors",
    "C26_update_between_refuted"
   ],
   "note": "MultiRate modelled for P-log rates."
  },
  {
   "property": "C27",
   "status": "proved",
   "theorems": [
    "C27_points",
    "C27_refine",
    "C27_total",
    "C27_succeeds",
    "C27_kept",
    "C27_done",
    "C27_restore",
    "C27_lost_insertion_refuted",
    "C27_result_refuted",
    "C27_restore_refuted"
   ],
   "note": "Exact characterisation of the refined grid; wellformed simulations; requested points after a removed point are lost; the return value is only 0 or 1; restoring after a failed refinement reads out of bounds."
  },
  {
   "property": "C28",
   "status": "proved",
   "theorems": [
    "C28_interp_between",
    "C28_interp_node",
    "C28_interp_below",
    "C28_interp_above",
    "C28_interp_nan_refuted",
    "C28_trapezoidal",
    "C28_simpson_odd",
    "C28_simpson_even",
    "C28_simpson_even_refuted",
    "C28_rejects",
    "C28_dispatch",
    "C28_empty_refuted"
   ],
   "note": "Interpolation exact/between/clamped incl. infinities; trapezoidal exact for piecewise linear, Simpson for piecewise quadratics with an odd number of points (Riemann integral). False: NaN argument and empty tables are undefined behaviour; with an even number of points Simpson is not exact for quadratics."
  },
  {
   "property": "C29",
   "status": "proved",
   "theorems": [
    "C29_reactor_mass",
    "C29_mass",
    "C29_closed_mass",
    "C29_fractions",
    "C29_amount",
    "C29_elements",
    "C29_volume",
    "C29_energy",
    "C29_coverages",
    "C29_energy_refuted",
    "C29_mole_outlet_refuted"
   ],
   "note": "Exact balances for every network; conservation of mass, elements and volume of closed networks. Energy conservation with moving walls and outlets of mole reactors to other species lists are refuted."
  },
  {
   "property": "C30",
   "status": "proved",
   "theorems": [
    "C30_components",
    "C30_partition",
    "C30_net_names",
    "C30_index",
    "C30_found",
    "C30_unknown",
    "C30_slices",
    "C30_limits",
    "C30_unknown_component_refuted",
    "C30_twice_refuted",
    "C30_late_reactor_refuted",
    "C30_late_surface_refuted",
    "C30_all_limits",
    "C30_renumbered"
   ],
   "note": "For networks initialised once and then used. Index/name inversion needs names that can be told apart; counterexamples show where it fails otherwise."
  },
  {
   "property": "C31",
   "status": "proved",
   "theorems": [
    "C31_nonneg",
    "C31_law",
    "C31_wall_law",
    "C31_rate_refuted",
    "C31_primary_refuted"
   ],
   "note": "Nonnegative after every call history; equal to the law after each evaluation if primaries are not valves or controllers. Refuted: setMassFlowRate after setTimeFunction; valve as primary."
  },
  {
   "property": "C32",
   "status": "proved",
   "theorems": [
    "C32_restored",
    "C32_multipliers",
    "C32_enthalpies",
    "C32_seen",
    "C32_nominal",
    "C32_null",
    "C32_total",
    "C32_positions",
    "C32_register",
    "C32_refused",
    "C32_twice_refuted",
    "C32_shared_refuted",
    "C32_modified_refuted",
    "C32_stale_refuted",
    "C32_throw_refuted",
    "C32_enthalpy_twice_refuted",
    "C32_failed_refuted"
   ],
   "note": "Proved for histories without repeated registration of a reaction in a reactor and with unmodified species data; the cases outside (repeated or shared reactions, modified heats of formation, throwing evaluations) are refuted."
  },
  {
   "property": "C33",
   "status": "proved",
   "theorems": [
    "C33_order",
    "C33_result",
    "C33_accepted",
    "C33_accepted_result",
    "C33_rejected",
    "C33_rejected_result",
    "C33_result_double",
    "C33_double_refuted",
    "C33_result_stacking_refuted"
   ],
   "note": "For all sequences of setDelegate calls, arbitrary delegates, exceptions included. False: methods of signature double(void*) lose their original implementation, so 'after' and a valueless 'before' end in std::bad_function_call; a second delegate of a value-returning method displaces the first."
  },
  {
   "property": "C34",
   "status": "proved",
   "theorems": [
    "C34_create",
    "C34_total",
    "C34_alias_accepted",
    "C34_frame",
    "C34_frame_alias",
    "C34_exists",
    "C34_exists_refuted",
    "C34_created_exists"
   ],
   "note": "For all registration histories. False: exists() is false for deprecated names that can be created."
  },
  {
   "property": "C35",
   "status": "proved",
   "theorems": [
    "C35_derivatives",
    "C35_defined",
    "C35_poly",
    "C35_formula",
    "C35_formula9",
    "C35_formula_cp",
    "C35_report",
    "C35_modify",
    "C35_reset",
    "C35_reset_refuted",
    "C35_unsupported",
    "C35_roundtrip",
    "C35_roundtrip_refuted",
    "C35_count",
    "C35_mu0",
    "C35_mu0_again_refuted"
   ],
   "note": "All seven kinds of data the factory makes, after any changes of the heat of formation. Refuted: resetting constant-cp data sets the enthalpy at the base temperature to zero; a single Shomate polynomial reports a type that its own parameters do not fit; setting piecewise Gibbs data twice writes out of bounds."
  },
  {
   "property": "C36",
   "status": "proved",
   "theorems": [
    "C36_setters",
    "C36_reached",
    "C36_molar",
    "C36_unnormalised_refuted",
    "C36_derivatives",
    "C36_constant_volume",
    "C36_partial_molar",
    "C36_standard_states",
    "C36_equilibrium",
    "C36_equilibrium_refuted"
   ],
   "note": "Ideal gas over reals: set/read round trips, Euler sums, g=h-Ts, pV=nRT, cp-cv=R, all first derivatives in T, p and amounts (partial molar = derivative of the whole), speed of sound, standard states, setToEquilState. Two refuted cases: unnormalised mole fractions; clipped exponents."
  },
  {
   "property": "C37",
   "status": "proved",
   "theorems": [
    "C37_bound_factor",
    "C37_no_worse",
    "C37_damp",
    "C37_solve",
    "C37_converged",
    "C37_failure_refuted",
    "C37_step1_refuted"
   ],
   "note": "Residuals, Jacobians and linear solves are arbitrary; real arithmetic. The refuted theorems show two documented claims that are false of the code."
  },
  {
   "property": "C38",
   "status": "proved",
   "theorems": [
    "C38_partition",
    "C38_tables",
    "C38_lookup",
    "C38_lookup_none",
    "C38_component",
    "C38_names",
    "C38_bandwidth",
    "C38_bandwidth_bound",
    "C38_jacobian",
    "C38_jacobian_full",
    "C38_jacobian_linear",
    "C38_transient",
    "C38_component_refuted",
    "C38_bandwidth_overflow_refuted",
    "C38_bandwidth_given_refuted",
    "C38_stale_refuted"
   ],
   "note": "component(i) is correct when every domain to the right has components and is undefined behaviour otherwise; both directions are proved."
  },
  {
   "property": "C39",
   "status": "proved",
   "theorems": [
    "C39_array",
    "C39_resize_rows_refuted",
    "C39_append_refuted",
    "C39_band",
    "C39_out_of_band_refuted"
   ],
   "note": "Refinement of all call histories to matrices as functions of two indices. False: appendColumn writes wrong positions; resize changing the row count moves entries; non-const reads outside the band return the last value written there."
  },
  {
   "property": "C40",
   "status": "proved",
   "theorems": [
    "C40_set_moles",
    "C40_readers_agree",
    "C40_by_name",
    "C40_add_species",
    "C40_total_property",
    "C40_failed_solver_restores",
    "C40_reaction_vectors",
    "C40_solver_conserves",
    "C40_minor_species_drift",
    "C40_solver_nonnegative",
    "C40_convergence",
    "C40_equilibrium_conserves",
    "C40_negative_moles_refuted",
    "C40_by_name_before_init_refuted",
    "C40_unnormalised_fractions_refuted",
    "C40_stale_volume_refuted",
    "C40_failed_before_init_refuted",
    "C40_constant_volume_refuted",
    "C40_minor_species_refuted",
    "C40_tolerance_refuted",
    "C40_trace_species_refuted"
   ],
   "note": "MultiPhase bookkeeping over all call histories; MultiPhaseEquil reactions, steps and TP equilibrate conserve elements; the refuted theorems state where the documented claims fail."
  },
  {
   "property": "C41",
   "status": "proved",
   "theorems": [
    "C41_set_coverages",
    "C41_no_norm",
    "C41_by_name",
    "C41_consistent",
    "C41_site_density",
    "C41_log_site_density_refuted",
    "C41_concentrations",
    "C41_concentrations_refuted",
    "C41_molar",
    "C41_derivatives",
    "C41_partial_molar",
    "C41_reactor"
   ],
   "note": "Coverage round trips (normalised, exact, by name), consistency over all histories, site density, thermodynamic relations and derivatives, constant coverage sum in reactors. Refuted: documented concentration/activity relation with multi-site species; logarithm of site density uninitialised without site-density input."
  },
  {
   "property": "C42",
   "status": "proved",
   "theorems": [
    "C42_set_temperature",
    "C42_set_density",
    "C42_always_positive",
    "C42_failed_set_concentrations_refuted",
    "C42_failed_setState_TD_refuted"
   ],
   "note": "Single setters are atomic and accept exactly positive values; composite setters are not atomic (refuted companions)."
  },
  {
   "property": "C43",
   "status": "proved",
   "theorems": [
    "C43_forward_rate_law"
   ],
   "note": ""
  },
  {
   "property": "C44",
   "status": "proved",
   "theorems": [
    "C44_add_reaction_atomic"
   ],
   "note": ""
  },
  {
   "property": "C45",
   "status": "proved",
   "theorems": [
    "C45_reaction_delta"
   ],
   "note": ""
  },
  {
   "property": "C46",
   "status": "partial",
   "theorems": [
    "C46_modify_reaction",
    "C46_modify_reversibility_refuted"
   ],
   "note": "modifyReaction does not compare orders, reversibility or third bodies and leaves the stoichiometry managers as they were; the last clause is refuted"
  },
  {
   "property": "C47",
   "status": "proved",
   "theorems": [
    "C47_elemental_mass_fractions",
    "C47_elemental_mole_fractions"
   ],
   "note": ""
  },
  {
   "property": "C48",
   "status": "proved",
   "theorems": [
    "C48_locked_species_fixed",
    "C48_unlocked_accepts"
   ],
   "note": ""
  },
  {
   "property": "C49",
   "status": "proved",
   "theorems": [
    "C49_product",
    "C49_pseudo",
    "C49_standard_units_fixed"
   ],
   "note": "Any history of join/update."
  },
  {
   "property": "C50",
   "status": "proved",
   "theorems": [
    "C50_delta_reproduces",
    "C50_delta_refuted"
   ],
   "note": "Holds unless the other system set an activation energy unit explicitly and this one did not; that case is a proved counterexample."
  },
  {
   "property": "C51",
   "status": "proved",
   "theorems": [
    "C51_constructors",
    "C51_elementary",
    "C51_polynomial",
    "C51_fourier",
    "C51_gaussian",
    "C51_arrhenius",
    "C51_table_segments",
    "C51_table_outside",
    "C51_table_nodes",
    "C51_periodic",
    "C51_table_previous_refuted",
    "C51_periodic_negative_refuted"
   ],
   "note": "Refuted: tabulated-previous at an interior tabulated time, and periodic across time zero."
  },
  {
   "property": "C52",
   "status": "proved",
   "theorems": [
    "C52_signs",
    "C52_nonnegative",
    "C52_constructor_refuted"
   ],
   "note": "The coefficient-taking constructor is refuted."
  },
  {
   "property": "C53",
   "status": "proved",
   "theorems": [
    "C53_current_factors",
    "C53_failure",
    "C53_column_pointer_refuted"
   ],
   "note": "For all histories of value/bfill/resize/factor/solve. False for writes through ptrColumn."
  },
  {
   "property": "C54",
   "status": "proved",
   "theorems": [
    "C54_one_norm",
    "C54_weakest",
    "C54_zero_row"
   ],
   "note": "For all histories; entries below 1e300 or none reported."
  },
  {
   "property": "C55",
   "status": "proved",
   "theorems": [
    "C55_energy",
    "C55_enthalpy",
    "C55_species",
    "C55_surfaces",
    "C55_surfaces_refuted"
   ],
   "note": "All eight reactor kinds; temperature forms under the stated relation between u, h, cv, cp and the partial molar properties. Surface species agree for size one, refuted otherwise."
  },
  {
   "property": "C56",
   "status": "proved",
   "theorems": [
    "C56_history",
    "C56_configuration",
    "C56_primary_refuted",
    "C56_chemistry_refuted",
    "C56_phase_refuted"
   ],
   "note": "For networks whose pressure controllers have mass flow controllers as primaries and whose reactors with the energy equation off do not share a ThermoPhase; refuted otherwise."
  },
  {
   "property": "C57",
   "status": "proved",
   "theorems": [
    "C57_terminates",
    "C57_result",
    "C57_sizes",
    "C57_solution",
    "C57_attempt",
    "C57_last_step_refuted"
   ],
   "note": "Solver and resetting are arbitrary functions; the returned size is not that of the last step taken (refuted)."
  },
  {
   "property": "C58",
   "status": "proved",
   "theorems": [
    "C58_solve",
    "C58_criteria",
    "C58_steps"
   ],
   "note": "Newton and time stepping are arbitrary functions that keep the number of unknowns."
  },
  {
   "property": "C59",
   "status": "proved",
   "theorems": [
    "C59_fixed",
    "C59_silent_refuted"
   ],
   "note": "A temperature outside the profile is ignored without an error."
  },
  {
   "property": "C60",
   "status": "proved",
   "theorems": [
    "C60_effect",
    "C60_accept",
    "C60_update",
    "C60_limits",
    "C60_limits_attained",
    "C60_pressure",
    "C60_pressure_refuted",
    "C60_reset_all",
    "C60_lattice_refuted"
   ],
   "note": "Every history of installs, replacements and changes. The common reference pressure is proved for histories without replaced data and zero reference pressures, and refuted for replacements; in solids of several lattices changing or resetting the heat of formation has no effect."
  },
  {
   "property": "C61",
   "status": "proved",
   "theorems": [
    "C61_advance",
    "C61_advance_succeeds",
    "C61_unlimited",
    "C61_limited",
    "C61_terminates",
    "C61_first_step_fails",
    "C61_first_step_refuted"
   ],
   "note": "The solver is a parameter; initialisation on the first call is not modelled."
  },
  {
   "property": "C62",
   "status": "proved",
   "theorems": [
    "C62_read_back",
    "C62_network",
    "C62_put_back",
    "C62_sizes_kept",
    "C62_unnormalised_refuted"
   ],
   "note": "The equation-of-state solvers of the phase are parameters assumed to deliver the energy they are asked for."
  },
  {
   "property": "C63",
   "status": "proved",
   "theorems": [
    "C63_stoich",
    "C63_phi_round_trip",
    "C63_z_round_trip",
    "C63_phi_and_z",
    "C63_proportions",
    "C63_reaction_invariant",
    "C63_range",
    "C63_rejected",
    "C63_global_phi",
    "C63_inert_oxidizer",
    "C63_failure_keeps_state_refuted",
    "C63_global_phi_refuted",
    "C63_zero_phi_refuted"
   ],
   "note": "Proved for every ideal gas phase and every composition with non-negative entries. False as stated in three places, shown by the _refuted theorems: an oxidizer with zero net oxygen makes every mass fraction NaN before the exception; phi = 0 with a fuel that needs no oxygen does the same; equivalenceRatio() without arguments differs from the ratio set when the fuel contains oxygen."
  },
  {
   "property": "C64",
   "status": "proved",
   "theorems": [
    "C64_result",
    "C64_accurate",
    "C64_converges",
    "C64_energy_no_throw",
    "C64_fixed",
    "C64_rejected",
    "C64_TP",
    "C64_message",
    "C64_volume_message_refuted",
    "C64_entropy_refuted",
    "C64_range_refuted"
   ],
   "note": "Result, fixed point and rejection for all four pairs; accuracy, convergence and absence of other exceptions for HP and UV. For SP and SV convergence is false (C64_entropy_refuted: throws although a solution exists, and changes the state). The UV failure message reports volume 0 (refuted), and the temperature range of the phase does not limit the result (refuted)."
  },
  {
   "property": "C65",
   "status": "proved",
   "theorems": [
    "C65_values",
    "C65_polynomials",
    "C65_fresh",
    "C65_fluxes_sum",
    "C65_bounds",
    "C65_binary",
    "C65_two_species",
    "C65_pure_species_refuted",
    "C65_added_species_refuted",
    "C65_missing_data_refuted"
   ],
   "note": "Proved for every history in which no query finds a new species at the temperature of the query before (safe) and all species have transport data. Outside that the statement is false: C65_added_species_refuted, C65_missing_data_refuted. Diffusion coefficients of a pure species are 0 (C65_pure_species_refuted)."
  },
  {
   "property": "C66",
   "status": "proved",
   "theorems": [
    "C66_margules",
    "C66_redlich_kister",
    "C66_volumes",
    "C66_margules_moles",
    "C66_gibbs_duhem",
    "C66_temperature",
    "C66_temperature_rk",
    "C66_relations",
    "C66_relations_rk",
    "C66_potential_value",
    "C66_margules_path",
    "C66_margules_path_refuted",
    "C66_margules_dlnX_refuted",
    "C66_density_refuted",
    "C66_rk_dlnX",
    "C66_rk_matrix",
    "C66_rk_path_refuted",
    "C66_rk_path_row_refuted",
    "C66_rk_memory_refuted",
    "C66_rk_moles_refuted"
   ],
   "note": "The energy-derived quantities are consistent in both models. The exact exceptions of the code are refuted: Margules path derivative counts dT once per interaction, Margules dlnX diagonal vanishes for regular solutions, density ignores the excess volume, Redlich-Kister path derivatives lack the division by RT, are wrong for second species, read outside the matrix when there are fewer terms than species, and its mole number derivatives are never computed."
  },
  {
   "property": "C67",
   "status": "proved",
   "theorems": [
    "C67_pr_helmholtz",
    "C67_pr_pressure",
    "C67_pr_heat",
    "C67_pr_partial",
    "C67_pr_sums",
    "C67_pr_activity",
    "C67_rk_helmholtz",
    "C67_rk_pressure",
    "C67_rk_heat",
    "C67_rk_partial",
    "C67_rk_sums",
    "C67_rk_activity",
    "C67_pr_cubic",
    "C67_rk_cubic",
    "C67_pr_critical",
    "C67_pr_species",
    "C67_pr_binary_refuted",
    "C67_rk_binary_refuted",
    "C67_rk_mixing_refuted"
   ],
   "note": "Consistency of every query with one Helmholtz energy, for both equations of state. Refuted: the pressure after setBinaryCoeffs is stale; Redlich-Kwong mixing of two species with equal negative temperature coefficients."
  },
  {
   "property": "C68",
   "status": "proved",
   "theorems": [
    "C68_three",
    "C68_one",
    "C68_double",
    "C68_triple",
    "C68_accepted",
    "C68_pr_set_pressure",
    "C68_rk_set_pressure",
    "C68_pr_gas",
    "C68_liquid_search",
    "C68_forced_refuted",
    "C68_single_root_refuted",
    "C68_spinodal_refuted",
    "C68_gas_spinodal_refuted",
    "C68_rk_nearly_ideal_refuted",
    "C68_liquid_request_refuted",
    "C68_branches",
    "C68_rk_branches",
    "C68_single",
    "C68_forced",
    "C68_temperature"
   ],
   "note": "Proved over the reals for polynomials whose roots are clear of the solver's absolute tolerances and states it does not take for a nearly ideal gas; outside that region the refuted theorems give states with a valid molar volume for which the solver throws, returns an infinite density, or returns a volume with another pressure. Forcing a branch makes setPressure do nothing."
  },
  {
   "property": "C69",
   "status": "proved",
   "theorems": [
    "C69_coverage",
    "C69_roundtrip",
    "C69_removed_refuted",
    "C69_added_refuted",
    "C69_marked",
    "C69_sticking_marked_refuted",
    "C69_settings",
    "C69_settings_refuted",
    "C69_voltage",
    "C69_transfer",
    "C69_sticking",
    "C69_motz_wise",
    "C69_motz_wise_refuted",
    "C69_sticking_species",
    "C69_sticking_species_refuted",
    "C69_exchange_refuted",
    "C69_current_data",
    "C69_pressure_refuted",
    "C69_order"
   ],
   "note": "Proved for coverages, roundtrip, charge transfer, sticking and the history of the shared data. Refuted parts: removing all dependencies gives NaN; addCoverageDependence alone reads past the end of m_lindep; sticking rates are not marked composition dependent; getDerivativeSettings exchanges the two flags; Motz-Wise above 2 gives a negative rate; a named sticking species need not be a reactant; the exchange current at unit activities is n i0 prod C0(reactants)^nu / prod C0(products); pressure changes alone do not refresh the standard properties. Reals for doubles; integer wrap-around of the state counter is not modelled."
  },
  {
   "property": "C70",
   "status": "proved",
   "theorems": [
    "C70_ratio",
    "C70_direction",
    "C70_kc",
    "C70_marks",
    "C70_missing",
    "C70_unstable",
    "C70_unstable_refuted",
    "C70_negative_refuted",
    "C70_untouched",
    "C70_both_missing",
    "C70_currents"
   ],
   "note": "Proved for nonnegative rates and every history of marks. Refuted parts: stability marks have no effect while every phase exists; negative rates escape the check. Reaction orders equal to the coefficients in C70_ratio and C70_direction (as in reversible reactions); the cache flag m_ROP_ok is not modelled here."
  },
  {
   "property": "C71",
   "status": "proved",
   "theorems": [
    "C71_pair",
    "C71_saturated",
    "C71_single",
    "C71_default",
    "C71_throws",
    "C71_order",
    "C71_coverages",
    "C71_molalities",
    "C71_extra_refuted",
    "C71_misspelled_refuted",
    "C71_both_refuted",
    "C71_density_refuted",
    "C71_coverages_refuted"
   ],
   "note": "The accepted combinations are proved for every map. Refuted parts: extra and misspelled keys are ignored silently (a misspelled pressure becomes one atmosphere); mole and mass fractions together; density is not accepted beside H, U or S; the composition is changed before the exception; coverages or molalities alone make the call fail after they have been set. Unit conversion and the setters themselves are not modelled here."
  },
  {
   "property": "C72",
   "status": "proved",
   "theorems": [
    "C72_trapezoidal",
    "C72_accepted",
    "C72_scale",
    "C72_temperature",
    "C72_maxwell",
    "C72_history",
    "C72_zero_refuted",
    "C72_simpson_refuted",
    "C72_druyvesteyn_refuted",
    "C72_refused_refuted",
    "C72_grid_refuted",
    "C72_type_refuted",
    "C72_accepts",
    "C72_mean",
    "C72_settings"
   ],
   "note": "Proved: trapezoidal rule accepts every good input and gives total probability one and the matching temperature; whatever is accepted by either rule is normalised, and exactly which inputs are accepted; the mean energy by the chosen rule with its fallback; independence of scale; isotropic temperature and mean energy read back; shape factor one is the Maxwellian; histories of accepted calls keep grid, values and slopes well formed. Refuted: an all-zero distribution is divided by zero; Simpson's rule refuses good distributions; with the default shape factor two the isotropic distribution has total probability below 3/4; refused calls leave the phase changed; changing the type to isotropic keeps the tabulated values. The gamma function is a parameter; its values at 3/2, 5/2, 3 and 5 are hypotheses."
  },
  {
   "property": "C73",
   "status": "proved",
   "theorems": [
    "C73_current",
    "C73_last",
    "C73_last_electron",
    "C73_enthalpy",
    "C73_gibbs",
    "C73_heavy",
    "C73_electron_refuted",
    "C73_pressure_refuted"
   ],
   "note": "Proved for all histories and states. Refuted: with equal temperatures the electrons' chemical potential and entropy differ from the ideal gas, since the electron pressure already contains the mole fraction that is counted again; the pressure takes electrons at the gas temperature, so it is the sum of partial pressures only when the temperatures agree."
  }
 ]
}