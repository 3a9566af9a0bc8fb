{
 "claims": [
  {
   "property": "C01",
   "status": "proved",
   "theorems": [
    "C01_arrays",
    "C01_call_evaluates_every_component",
    "C01_set_order_irrelevant"
   ],
   "note": ""
  },
  {
   "property": "C02",
   "status": "proved",
   "theorems": [
    "C02_toposort_orders_everything",
    "C02_toposort_never_loops",
    "C02_circular_iff_cycle",
    "C02_model_rejected_iff_cycle",
    "C02_acyclic_model_accepted"
   ],
   "note": ""
  },
  {
   "property": "C03",
   "status": "proved",
   "theorems": [
    "C03_classification",
    "C03_parameter_component_rejected",
    "C03_constant_parameter_component_refuted"
   ],
   "note": "Proved for all model dicts. The unguarded claim 'every Parameter used as a component name is rejected' is false: with a constant expression it is accepted and becomes a parameter (C03_constant_parameter_component_refuted)."
  },
  {
   "property": "C04",
   "status": "proved",
   "theorems": [
    "C04_unused_component_not_dependent_refuted",
    "C04_constant_component_unlisted_refuted",
    "C04_dependent_by_depth",
    "C04_components_listed"
   ],
   "note": "Proved for all model dicts. The claim one would like, that every component nobody uses is dependent and every component is in a list, is false: C04_unused_component_not_dependent_refuted (a shallow unused component is only interdependent, so no data can be given for it), C04_constant_component_unlisted_refuted."
  },
  {
   "property": "C05",
   "status": "proved",
   "theorems": [
    "C05_positional_and_keyword_agree",
    "C05_argument_order",
    "C05_wrong_arguments_rejected"
   ],
   "note": ""
  },
  {
   "property": "C06",
   "status": "proved",
   "theorems": [
    "C06_output_access",
    "C06_call_output_wellformed",
    "C06_unknown_name",
    "C06_pickle"
   ],
   "note": ""
  },
  {
   "property": "C07",
   "status": "proved",
   "theorems": [
    "C07_negation"
   ],
   "note": ""
  },
  {
   "property": "C08",
   "status": "proved",
   "theorems": [
    "C08_numerical_negation_raises",
    "C08_numerical_negation_refuted"
   ],
   "note": "Proved for all numerical models. The desirable claim that they can be negated is refuted by C08_numerical_negation_refuted (the constructor is called with a pair in place of the two arguments it needs)."
  },
  {
   "property": "C09",
   "status": "proved",
   "theorems": [
    "C09_equality",
    "C09_symmetric_transitive",
    "C09_reflexivity_refuted"
   ],
   "note": "Proved for all models. Above 256 components a model is not equal even to itself (C09_reflexivity_refuted): `is not` on the lengths."
  },
  {
   "property": "C10",
   "status": "proved",
   "theorems": [
    "C10_constraint_meaning",
    "C10_constraints_accepted",
    "C10_strict_relations_rejected"
   ],
   "note": ""
  },
  {
   "property": "C11",
   "status": "proved",
   "theorems": [
    "C11_constraint_parameters"
   ],
   "note": ""
  },
  {
   "property": "C12",
   "status": "proved",
   "theorems": [
    "C12_with_dependencies",
    "C12_with_dependencies_never_fails"
   ],
   "note": ""
  },
  {
   "property": "C13",
   "status": "proved",
   "theorems": [
    "C13_arrays",
    "C13_jacobian_is_derivative",
    "C13_constraint_jacobian",
    "C13_returned_jacobian",
    "C13_shallow_models_have_jacobian",
    "C13_solution_map_exists",
    "C13_deep_chain_refuted"
   ],
   "note": "Proved. When a component refers to one that refers to a third depending on the same parameter the Jacobian model cannot be built (NameError, C13_deep_chain_refuted): no Jacobian rather than a wrong one."
  },
  {
   "property": "C14",
   "status": "proved",
   "theorems": [
    "C14_arrays",
    "C14_hessian_is_second_derivative",
    "C14_returned_hessian"
   ],
   "note": "Proved; the Hessian model exists for the models of C13_shallow_models_have_jacobian, and whatever eval_hessian returns is right (C14_returned_hessian)."
  },
  {
   "property": "C15",
   "status": "proved",
   "theorems": [
    "C15_finite_difference_is_six_point_stencil",
    "C15_calls_bound",
    "C15_no_division_by_zero",
    "C15_exact_for_degree_6",
    "C15_error_of_order_6"
   ],
   "note": ""
  },
  {
   "property": "C16",
   "status": "proved",
   "theorems": [
    "C16_pickled_model_equivalent",
    "C16_pickled_constraint_equivalent",
    "C16_pickled_numerical_equivalent",
    "C16_property_values"
   ],
   "note": ""
  },
  {
   "property": "C17",
   "status": "proved",
   "theorems": [
    "C17_shared_parameters"
   ],
   "note": ""
  },
  {
   "property": "C18",
   "status": "proved",
   "theorems": [
    "C18_bounds"
   ],
   "note": ""
  },
  {
   "property": "C19",
   "status": "proved",
   "theorems": [
    "C19_symbolic_model",
    "C19_least_squares_value",
    "C19_missing_data"
   ],
   "note": ""
  },
  {
   "property": "C20",
   "status": "proved",
   "theorems": [
    "C20_symbolic_model",
    "C20_least_squares_gradient",
    "C20_no_data",
    "C20_no_data_refuted"
   ],
   "note": "Proved for all models, data and parameter values. Without dependent data the gradient has length 1 instead of the number of parameters (C20_no_data, C20_no_data_refuted)."
  },
  {
   "property": "C21",
   "status": "proved",
   "theorems": [
    "C21_symbolic_model",
    "C21_least_squares_hessian"
   ],
   "note": ""
  },
  {
   "property": "C22",
   "status": "proved",
   "theorems": [
    "C22_symbolic_model",
    "C22_jacobian_approximation"
   ],
   "note": ""
  },
  {
   "property": "C23",
   "status": "proved",
   "theorems": [
    "C23_symbolic_model_value",
    "C23_symbolic_model_gradient",
    "C23_symbolic_model_hessian",
    "C23_log_likelihood_value",
    "C23_log_likelihood_gradient",
    "C23_log_likelihood_hessian"
   ],
   "note": ""
  },
  {
   "property": "C24",
   "status": "proved",
   "theorems": [
    "C24_symbolic_model",
    "C24_vector_least_squares",
    "C24_vector_jacobian",
    "C24_unequal_shapes_refuted"
   ],
   "note": "Proved. For data of different shapes the components are added before the root is taken and broadcast against each other, so the sum is not chi^2 (C24_unequal_shapes_refuted)."
  },
  {
   "property": "C25",
   "status": "proved",
   "theorems": [
    "C25_symbolic_model",
    "C25_minimize_model",
    "C25_scalar_only"
   ],
   "note": ""
  },
  {
   "property": "C26",
   "status": "proved",
   "theorems": [
    "C26_fixed_parameters"
   ],
   "note": ""
  },
  {
   "property": "C27",
   "status": "proved",
   "theorems": [
    "C27_arguments",
    "C27_vector_positions"
   ],
   "note": ""
  },
  {
   "property": "C28",
   "status": "proved",
   "theorems": [
    "C28_cached_invariants",
    "C28_new_fixed_value_ignored"
   ],
   "note": ""
  },
  {
   "property": "C29",
   "status": "proved",
   "theorems": [
    "C29_equality",
    "C29_reflexive",
    "C29_true",
    "C29_first_difference",
    "C29_equality_not_symmetric_refuted"
   ],
   "note": "Proved. Otherwise the comparison may be asymmetric, raise KeyError or UnboundLocalError (C29_equality_not_symmetric_refuted)."
  },
  {
   "property": "C30",
   "status": "proved",
   "theorems": [
    "C30_values_shaped",
    "C30_unshapeable_rejected",
    "C30_derivatives_shaped",
    "C30_jacobian_shape_refuted"
   ],
   "note": "Proved for all shapes. In the excluded case the array is taken as already shaped (C30_jacobian_shape_refuted)."
  },
  {
   "property": "C31",
   "status": "proved",
   "theorems": [
    "C31_split_components_refuted"
   ],
   "note": "Proved (C31_split_components_refuted is the general statement and refutes the documented behaviour: a list is divided by 2)."
  },
  {
   "property": "C32",
   "status": "proved",
   "theorems": [
    "C32_guesses_and_bounds",
    "C32_jacobian",
    "C32_minpack_jacobian"
   ],
   "note": ""
  },
  {
   "property": "C33",
   "status": "proved",
   "theorems": [
    "C33_pack_output",
    "C33_params_by_name",
    "C33_short_answer"
   ],
   "note": ""
  },
  {
   "property": "C34",
   "status": "proved",
   "theorems": [
    "C34_one_free_parameter",
    "C34_square_matrix_refuted"
   ],
   "note": "Proved for all parameter lists and fixed subsets. C34_square_matrix_refuted is the general k >= 2 statement."
  },
  {
   "property": "C35",
   "status": "proved",
   "theorems": [
    "C35_option_names",
    "C35_option_names_distinct",
    "C35_equal_names_rejected",
    "C35_unknown_option_rejected",
    "C35_options_reach_their_minimizer"
   ],
   "note": ""
  },
  {
   "property": "C36",
   "status": "proved",
   "theorems": [
    "C36_restart",
    "C36_chain_handover",
    "C36_fixed_parameter_refuted"
   ],
   "note": "Proved for all chains and fixed subsets. With fixed parameters the start vector has the wrong length for scipy (C36_fixed_parameter_refuted)."
  },
  {
   "property": "C37",
   "status": "proved",
   "theorems": [
    "C37_constraints",
    "C37_constraints_accepted",
    "C37_direct_constraints",
    "C37_single_hessian",
    "C37_late_binding_refuted",
    "C37_vector_constraint_refuted",
    "C37_less_equal_refuted"
   ],
   "note": "Proved for all lists of constraints. Refuted: own Hessian (C37_late_binding_refuted), Jacobians of vector-valued constraints arrive transposed (C37_vector_constraint_refuted), sympy Le given directly is a KeyError (C37_less_equal_refuted)."
  },
  {
   "property": "C38",
   "status": "proved",
   "theorems": [
    "C38_any_order",
    "C38_alphabetical",
    "C38_parameters_are_sorted",
    "C38_other_order_refuted"
   ],
   "note": "Proved for all orders. For another order the reported values are permuted (C38_other_order_refuted)."
  },
  {
   "property": "C39",
   "status": "proved",
   "theorems": [
    "C39_basin_hopping_options"
   ],
   "note": ""
  },
  {
   "property": "C40",
   "status": "proved",
   "theorems": [
    "C40_positional_order",
    "C40_data_linked",
    "C40_split_independent",
    "C40_wrong_arguments_rejected",
    "C40_sigmas_optional",
    "C40_missing_data_rejected"
   ],
   "note": ""
  },
  {
   "property": "C41",
   "status": "proved",
   "theorems": [
    "C41_sigmas",
    "C41_sigma_argument",
    "C41_number_data_refuted"
   ],
   "note": "Proved for every Fit that can be created. Creation fails for a dependent variable given as a Python number and for a 0-dimensional array as sigma (C41_number_data_refuted)."
  },
  {
   "property": "C42",
   "status": "proved",
   "theorems": [
    "C42_default_minimizer",
    "C42_chosen_minimizer",
    "C42_chain_in_given_order",
    "C42_default_objective",
    "C42_chosen_objective",
    "C42_dependent_data_rejected"
   ],
   "note": ""
  },
  {
   "property": "C43",
   "status": "proved",
   "theorems": [
    "C43_covariance",
    "C43_covariance_approximate",
    "C43_covariance_symmetric",
    "C43_sigma_scaling",
    "C43_covariance_likelihood",
    "C43_covariance_likelihood_approximate",
    "C43_covariance_likelihood_exact",
    "C43_covariance_minimize_model",
    "C43_number_data_refuted"
   ],
   "note": "Proved. For data that is a Python number the fit raises AttributeError (C43_number_data_refuted)."
  },
  {
   "property": "C44",
   "status": "proved",
   "theorems": [
    "C44_points_counted",
    "C44_dof_distinct_shapes",
    "C44_shared_shape_refuted"
   ],
   "note": "Proved for all data. C44_shared_shape_refuted: the general statement that it is too small when two shapes coincide."
  },
  {
   "property": "C45",
   "status": "proved",
   "theorems": [
    "C45_reported_parameters_reproduce",
    "C45_constraint_values",
    "C45_bounds_respected"
   ],
   "note": ""
  },
  {
   "property": "C46",
   "status": "proved",
   "theorems": [
    "C46_lookups",
    "C46_foreign_parameter",
    "C46_fit_report",
    "C46_covariance_none_refuted"
   ],
   "note": "Proved. One would expect None from covariance() without a matrix: C46_covariance_none_refuted."
  },
  {
   "property": "C47",
   "status": "proved",
   "theorems": [
    "C47_least_squares",
    "C47_vector_least_squares",
    "C47_log_likelihood",
    "C47_r_squared_range",
    "C47_attributes",
    "C47_r_squared_refuted"
   ],
   "note": "Proved. Otherwise r_squared is wrong or the fit fails (C47_r_squared_refuted)."
  },
  {
   "property": "C48",
   "status": "proved",
   "theorems": [
    "C48_pickle_classes",
    "C48_pickle_rest_is_lost",
    "C48_pickle_gradient_free",
    "C48_pickle_refuted"
   ],
   "note": "Proved. So the reloaded minimizer is in general not equivalent, and nested chains do not load (C48_pickle_refuted)."
  },
  {
   "property": "C49",
   "status": "proved",
   "theorems": [
    "C49_plain",
    "C49_equal",
    "C49_first_difference",
    "C49_other_differences",
    "C49_arrays_refuted"
   ],
   "note": "Proved. A boolean is not always returned (C49_arrays_refuted)."
  },
  {
   "property": "C50",
   "status": "proved",
   "theorems": [
    "C50_increasing_times",
    "C50_other_orders_sorted_or_rejected",
    "C50_failure_is_not_hidden",
    "C50_decreasing_times_wrong_problem",
    "C50_requested_order_refuted"
   ],
   "note": "Proved for every exact integrator. 'In the order requested' is false in general (C50_requested_order_refuted)."
  },
  {
   "property": "C51",
   "status": "proved",
   "theorems": [
    "C51_scalar_time",
    "C51_one_element_array",
    "C51_array_of_initial_time_refuted"
   ],
   "note": "Proved. C51_array_of_initial_time_refuted is the general statement about the array [t0]."
  },
  {
   "property": "C52",
   "status": "proved",
   "theorems": [
    "C52_construction",
    "C52_system_and_jacobian"
   ],
   "note": ""
  },
  {
   "property": "C53",
   "status": "proved",
   "theorems": [
    "C53_lookup",
    "C53_membership_refuted"
   ],
   "note": "Proved. So membership does not tell whether v is an unknown (C53_membership_refuted)."
  },
  {
   "property": "C54",
   "status": "proved",
   "theorems": [
    "C54_first_value_is_kept",
    "C54_read_computes_once",
    "C54_deletion_recomputes",
    "C54_assignment_rejected"
   ],
   "note": ""
  },
  {
   "property": "C55",
   "status": "proved",
   "theorems": [
    "C55_nameless_arguments_have_different_names",
    "C55_nameless_arguments_are_new_objects",
    "C55_user_name_refuted",
    "C55_subclass_refuted",
    "C55_empty_name_refuted"
   ],
   "note": "Proved for all creation histories. The three provisos are needed: C55_user_name_refuted, C55_subclass_refuted, C55_empty_name_refuted."
  },
  {
   "property": "C56",
   "status": "proved",
   "theorems": [
    "C56_crossed_bounds_rejected",
    "C56_attributes_as_given",
    "C56_bounds_cases",
    "C56_others_unchanged",
    "C56_fixed_crossed_refuted",
    "C56_rejected_creation_changes_refuted"
   ],
   "note": "Proved. Not so for fixed Parameters with crossed bounds (accepted, min and max unset: C56_fixed_crossed_refuted), and a rejected creation has changed the existing object of that name (C56_rejected_creation_changes_refuted)."
  },
  {
   "property": "C57",
   "status": "proved",
   "theorems": [
    "C57_attributes_as_requested",
    "C57_wrong_arguments_rejected",
    "C57_rejection_is_ValueError",
    "C57_mixed_bounds_refuted",
    "C57_iterator_bounds_refuted",
    "C57_rejected_call_changes_refuted"
   ],
   "note": "Proved. Mixed single/sequence bounds are not compared, iterators are consumed by the check, a rejected call assigns attributes (C57_mixed_bounds_refuted, C57_iterator_bounds_refuted, C57_rejected_call_changes_refuted)."
  },
  {
   "property": "C58",
   "status": "proved",
   "theorems": [
    "C58_derivative_names_unambiguous",
    "C58_first_derivative_names_unambiguous",
    "C58_derivative_is_not_an_argument_name",
    "C58_first_order_collision_refuted",
    "C58_second_order_collision_refuted"
   ],
   "note": "Proved. Both restrictions are needed: C58_first_order_collision_refuted, C58_second_order_collision_refuted."
  },
  {
   "property": "C59",
   "status": "proved",
   "theorems": [
    "C59_expression_call",
    "C59_wrong_arguments_rejected",
    "C59_arguments_determined",
    "C59_same_names"
   ],
   "note": ""
  },
  {
   "property": "C60",
   "status": "proved",
   "theorems": [
    "C60_printed_code_evaluates_to_expression",
    "C60_power_of_sum_refuted",
    "C60_product_of_sum_refuted",
    "C60_third_factor_refuted",
    "C60_power_of_power_refuted"
   ],
   "note": "Proved for all such nested expressions. Each restriction is needed (four refuted theorems)."
  },
  {
   "property": "C61",
   "status": "proved",
   "theorems": [
    "C61_gaussian_normalised",
    "C61_gaussian_shape",
    "C61_bivariate_marginals",
    "C61_bivariate_independent",
    "C61_exp_normalised",
    "C61_exp_support_refuted"
   ],
   "note": "Proved. Exp is positive for negative x (C61_exp_support_refuted)."
  },
  {
   "property": "C62",
   "status": "proved",
   "theorems": [
    "C62_integrator_settings",
    "C62_settings_reach_the_integrator"
   ],
   "note": ""
  },
  {
   "property": "C63",
   "status": "proved",
   "theorems": [
    "C63_negation"
   ],
   "note": ""
  },
  {
   "property": "C64",
   "status": "proved",
   "theorems": [
    "C64_order_of_derivative_ignored"
   ],
   "note": ""
  },
  {
   "property": "C65",
   "status": "proved",
   "theorems": [
    "C65_pickle_keeps_attributes",
    "C65_loading_resets_refuted"
   ],
   "note": "Proved. The reset of the live object is C65_loading_resets_refuted."
  },
  {
   "property": "C66",
   "status": "proved",
   "theorems": [
    "C66_functions_keep_symbol_names"
   ],
   "note": ""
  },
  {
   "property": "C67",
   "status": "proved",
   "theorems": [
    "C67_numerical_call",
    "C67_numerical_arguments",
    "C67_mapping_required",
    "C67_deprecated_form",
    "C67_dependent_by_depth"
   ],
   "note": ""
  },
  {
   "property": "C68",
   "status": "proved",
   "theorems": [
    "C68_numerical_equality"
   ],
   "note": ""
  },
  {
   "property": "C69",
   "status": "proved",
   "theorems": [
    "C69_fit_problem",
    "C69_best_fit",
    "C69_covariance",
    "C69_minpack_problem",
    "C69_minpack_best",
    "C69_minpack_covariance"
   ],
   "note": ""
  },
  {
   "property": "C70",
   "status": "proved",
   "theorems": [
    "C70_algorithms",
    "C70_nothing_unsupported",
    "C70_user_derivatives",
    "C70_numerical_derivatives",
    "C70_trust_constr_hessian"
   ],
   "note": ""
  },
  {
   "property": "C71",
   "status": "proved",
   "theorems": [
    "C71_problem",
    "C71_best_fit",
    "C71_covariance"
   ],
   "note": ""
  },
  {
   "property": "C72",
   "status": "proved",
   "theorems": [
    "C72_problem",
    "C72_minimum",
    "C72_covariance"
   ],
   "note": ""
  },
  {
   "property": "C73",
   "status": "proved",
   "theorems": [
    "C73_constraint_gradient"
   ],
   "note": ""
  },
  {
   "property": "C74",
   "status": "proved",
   "theorems": [
    "C74_sliders",
    "C74_values_follow",
    "C74_guess_kept",
    "C74_negative_guess_refuted",
    "C74_fit_starts_there",
    "C74_printed"
   ],
   "note": "Proved. Negative values without a maximum are changed by opening the window (C74_negative_guess_refuted)."
  },
  {
   "property": "C75",
   "status": "proved",
   "theorems": [
    "C75_window",
    "C75_line",
    "C75_average",
    "C75_error_bars",
    "C75_opens",
    "C75_symbolic",
    "C75_error_bars_refuted"
   ],
   "note": "Proved, for data that differ along the axis in question (n-D averages). Error bars as documented are refuted (C75_error_bars_refuted)."
  },
  {
   "property": "C76",
   "status": "proved",
   "theorems": [
    "C76_gradient_error",
    "C76_ode_fit_problem",
    "C76_ode_best_fit",
    "C76_ode_covariance",
    "C76_unsorted_times_misaligned",
    "C76_unsorted_times_refuted"
   ],
   "note": "Proved. For unsorted times without the initial time C76_unsorted_times_misaligned gives the exact objective (data compared with the solution at the sorted times); C76_unsorted_times_refuted shows exact data for which the true parameters are not the fit."
  },
  {
   "property": "C77",
   "status": "proved",
   "theorems": [
    "C77_numerical_fit_problem",
    "C77_numerical_best_fit",
    "C77_numerical_result"
   ],
   "note": "Proved; a number returned for a component counts as an array with one element (np.atleast_1d)."
  },
  {
   "property": "C78",
   "status": "proved",
   "theorems": [
    "C78_unsupported_rejected",
    "C78_creation",
    "C78_basin_hopping_creation",
    "C78_chain_creation",
    "C78_pickle",
    "C78_fixed_later_refuted"
   ],
   "note": "Proved; callables, objectives and constraints themselves are assumed to survive pickling."
  },
  {
   "property": "C79",
   "status": "proved",
   "theorems": [
    "C79_minimize_options",
    "C79_trust_constr_options",
    "C79_differential_evolution_options",
    "C79_minpack_options",
    "C79_basin_hopping_options",
    "C79_execute_again",
    "C79_chain_execute_again",
    "C79_chain_execute",
    "C79_shared_kwargs_refuted",
    "C79_sparse_jacobian_refuted"
   ],
   "note": "guards: BasinHopping with a local minimizer that is one of BFGS, SLSQP, COBYLA, LBFGSB, NelderMead, Powell; MINPACK with a jacobian and method that are not falsy; chains whose minimizers are not chains and whose nested option dictionaries are not shared. Positional arguments to execute are not modelled (Fit passes none)."
  },
  {
   "property": "C80",
   "status": "proved",
   "theorems": [
    "C80_fit_problem",
    "C80_best_fit",
    "C80_gradient_covariance",
    "C80_callable_covariance",
    "C80_minpack_problem",
    "C80_minpack_best",
    "C80_minpack_covariance",
    "C80_likelihood_problem",
    "C80_likelihood_best",
    "C80_likelihood_covariance",
    "C80_likelihood_callable",
    "C80_minimize_problem",
    "C80_minimum",
    "C80_minimize_covariance"
   ],
   "note": "Proved for all three classes; examples instantiate every hypothesis for each class."
  },
  {
   "property": "C81",
   "status": "proved",
   "theorems": [
    "C81_constraint_jacobian",
    "C81_scipy_layout_refuted"
   ],
   "note": "C81_constraint_jacobian is proved for data on a line of N points. The layout scipy expects (one row per value) is refuted: C81_scipy_layout_refuted exhibits a fit with two points and two parameters in which scipy silently gets the transpose."
  },
  {
   "property": "C82",
   "status": "proved",
   "theorems": [
    "C82_report_lines",
    "C82_least_squares",
    "C82_answer_tells_constraint_holds_refuted",
    "C82_column",
    "C82_joined"
   ],
   "note": "C82_report_lines for every objective and single minimizer, C82_least_squares with the explicit goodness of fit lines. Status, objective and minimizer texts are inputs. Finding: the answer is the value at the first data point only (C82_answer_tells_constraint_holds_refuted)."
  },
  {
   "property": "C83",
   "status": "proved",
   "theorems": [
    "C83_model_text",
    "C83_same_text"
   ],
   "note": "C83_model_text and C83_same_text (distinct names)."
  },
  {
   "property": "C84",
   "status": "proved",
   "theorems": [
    "C84_members",
    "C84_one_after_the_other",
    "C84_least_squares",
    "C84_fixed_parameter_refuted"
   ],
   "note": "The unguarded claim (with fixed parameters) is refuted by C84_fixed_parameter_refuted: there a second, never worsening NelderMead spoils a perfect fit."
  },
  {
   "property": "C85",
   "status": "proved",
   "theorems": [
    "C85_local_minimizer",
    "C85_best_fit"
   ],
   "note": ""
  },
  {
   "property": "C86",
   "status": "proved",
   "theorems": [
    "C86_like_a_new_fit",
    "C86_best_fit",
    "C86_fixing_later_refuted",
    "C86_bound_later_refuted",
    "C86_execute_again_refuted"
   ],
   "note": "The hypotheses are needed: see the three refuted theorems."
  },
  {
   "property": "C87",
   "status": "proved",
   "theorems": [
    "C87_same_fit",
    "C87_same_result"
   ],
   "note": "Example: three points reversed and put in a 1x3 array, for all parameter attributes and minimizer classes."
  },
  {
   "property": "C88",
   "status": "proved",
   "theorems": [
    "C88_same_fit",
    "C88_same_result",
    "C88_written_out_refuted"
   ],
   "note": "Examples: y written out of {y: a*x, z: y**2 + a*b}; b fixed at 5 replaced by 5. Writing out can change which components are dependent (C04): refuted in C88_written_out_refuted."
  },
  {
   "property": "C89",
   "status": "proved",
   "theorems": [
    "C89_fit_problem",
    "C89_best_fit",
    "C89_covariance"
   ],
   "note": "C89_fit_problem, C89_best_fit and C89_covariance hold for symbolic models (class Model) with the LeastSquares objective. C89_example: y = a*x with three points and z = b*w + a with two."
  },
  {
   "property": "C90",
   "status": "proved",
   "theorems": [
    "C90_numerical_problem",
    "C90_numerical_best_fit",
    "C90_numerical_result",
    "C90_ode_problem",
    "C90_ode_best_fit",
    "C90_ode_covariance",
    "C90_different_sizes_rejected",
    "C90_global_problem",
    "C90_global_best_fit",
    "C90_global_covariance"
   ],
   "note": "Where a residual is zero the root is not differentiable; nothing is claimed there about the Jacobian."
  },
  {
   "property": "C91",
   "status": "proved",
   "theorems": [
    "C91_same_arguments",
    "C91_same_call",
    "C91_fit_problem",
    "C91_same_fit",
    "C91_best_fit",
    "C91_result"
   ],
   "note": "Proved."
  },
  {
   "property": "C92",
   "status": "proved",
   "theorems": [
    "C92_same_fit",
    "C92_same_report"
   ],
   "note": "C92_same_fit, C92_same_report; C92_replaced: replacing the symbols in the dict is such a renaming; C92_example: [{y: a*x, z: y**2 + a*b}] with names that reverse both orders and [b] fixed."
  }
 ]
}