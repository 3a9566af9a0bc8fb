{
"C55_nameless_arguments_have_different_names": [
"Prop_Args",
[
"ClassicalDedekindReals.sig_forall_dec",
"FunctionalExtensionality.functional_extensionality_dep"
]
],
"C55_nameless_arguments_are_new_objects": [
"Prop_Args",
[
"ClassicalDedekindReals.sig_forall_dec",
"FunctionalExtensionality.functional_extensionality_dep"
]
],
"C55_user_name_refuted": [
"Prop_Args",
[
"ClassicalDedekindReals.sig_forall_dec",
"FunctionalExtensionality.functional_extensionality_dep"
]
],
"C55_subclass_refuted": [
"Prop_Args",
[
"ClassicalDedekindReals.sig_forall_dec",
"FunctionalExtensionality.functional_extensionality_dep"
]
],
"C55_empty_name_refuted": [
"Prop_Args",
[
"ClassicalDedekindReals.sig_forall_dec",
"FunctionalExtensionality.functional_extensionality_dep"
]
],
"C55_nontrivial": [
"Prop_Args",
[
"ClassicalDedekindReals.sig_forall_dec",
"FunctionalExtensionality.functional_extensionality_dep"
]
],
"C56_crossed_bounds_rejected": [
"Prop_Args",
[
"ClassicalDedekindReals.sig_forall_dec",
"FunctionalExtensionality.functional_extensionality_dep"
]
],
"C56_attributes_as_given": [
"Prop_Args",
[
"ClassicalDedekindReals.sig_forall_dec",
"FunctionalExtensionality.functional_extensionality_dep"
]
],
"C56_bounds_cases": [
"Prop_Args",
[
"ClassicalDedekindReals.sig_forall_dec",
"FunctionalExtensionality.functional_extensionality_dep"
]
],
"C56_others_unchanged": [
"Prop_Args",
[
"ClassicalDedekindReals.sig_forall_dec",
"FunctionalExtensionality.functional_extensionality_dep"
]
],
"C56_fixed_crossed_refuted": [
"Prop_Args",
[
"ClassicalDedekindReals.sig_forall_dec",
"FunctionalExtensionality.functional_extensionality_dep"
]
],
"C56_rejected_creation_changes_refuted": [
"Prop_Args",
[
"ClassicalDedekindReals.sig_forall_dec",
"FunctionalExtensionality.functional_extensionality_dep"
]
],
"C56_nontrivial": [
"Prop_Args",
[
"ClassicalDedekindReals.sig_forall_dec",
"FunctionalExtensionality.functional_extensionality_dep"
]
],
"C57_attributes_as_requested": [
"Prop_Args",
[
"ClassicalDedekindReals.sig_forall_dec",
"FunctionalExtensionality.functional_extensionality_dep"
]
],
"C57_wrong_arguments_rejected": [
"Prop_Args",
[
"ClassicalDedekindReals.sig_forall_dec",
"FunctionalExtensionality.functional_extensionality_dep"
]
],
"C57_rejection_is_ValueError": [
"Prop_Args",
[
"ClassicalDedekindReals.sig_forall_dec",
"FunctionalExtensionality.functional_extensionality_dep"
]
],
"C57_mixed_bounds_refuted": [
"Prop_Args",
[
"ClassicalDedekindReals.sig_forall_dec",
"FunctionalExtensionality.functional_extensionality_dep"
]
],
"C57_iterator_bounds_refuted": [
"Prop_Args",
[
"ClassicalDedekindReals.sig_forall_dec",
"FunctionalExtensionality.functional_extensionality_dep"
]
],
"C57_rejected_call_changes_refuted": [
"Prop_Args",
[
"ClassicalDedekindReals.sig_forall_dec",
"FunctionalExtensionality.functional_extensionality_dep"
]
],
"C57_nontrivial": [
"Prop_Args",
[
"ClassicalDedekindReals.sig_forall_dec",
"FunctionalExtensionality.functional_extensionality_dep"
]
],
"C65_pickle_keeps_attributes": [
"Prop_Args",
[
"ClassicalDedekindReals.sig_forall_dec",
"FunctionalExtensionality.functional_extensionality_dep"
]
],
"C65_loading_resets_refuted": [
"Prop_Args",
[
"ClassicalDedekindReals.sig_forall_dec",
"FunctionalExtensionality.functional_extensionality_dep"
]
],
"C65_nontrivial": [
"Prop_Args",
[
"ClassicalDedekindReals.sig_forall_dec",
"FunctionalExtensionality.functional_extensionality_dep"
]
],
"C01_arrays": [
"Prop_ArrModel",
[
"ClassicalDedekindReals.sig_forall_dec",
"ClassicalDedekindReals.sig_not_dec",
"Classical_Prop.classic",
"FunctionalExtensionality.functional_extensionality_dep"
]
],
"C13_arrays": [
"Prop_ArrModel",
[
"ClassicalDedekindReals.sig_forall_dec",
"ClassicalDedekindReals.sig_not_dec",
"Classical_Prop.classic",
"FunctionalExtensionality.functional_extensionality_dep"
]
],
"C14_arrays": [
"Prop_ArrModel",
[
"ClassicalDedekindReals.sig_forall_dec",
"ClassicalDedekindReals.sig_not_dec",
"Classical_Prop.classic",
"FunctionalExtensionality.functional_extensionality_dep"
]
],
"C19_symbolic_model": [
"Prop_ArrModel",
[
"ClassicalDedekindReals.sig_forall_dec",
"ClassicalDedekindReals.sig_not_dec",
"Classical_Prop.classic",
"FunctionalExtensionality.functional_extensionality_dep"
]
],
"C20_symbolic_model": [
"Prop_ArrModel",
[
"ClassicalDedekindReals.sig_forall_dec",
"ClassicalDedekindReals.sig_not_dec",
"Classical_Prop.classic",
"FunctionalExtensionality.functional_extensionality_dep"
]
],
"C21_symbolic_model": [
"Prop_ArrModel",
[
"ClassicalDedekindReals.sig_forall_dec",
"ClassicalDedekindReals.sig_not_dec",
"Classical_Prop.classic",
"FunctionalExtensionality.functional_extensionality_dep"
]
],
"C22_symbolic_model": [
"Prop_ArrModel",
[
"ClassicalDedekindReals.sig_forall_dec",
"ClassicalDedekindReals.sig_not_dec",
"Classical_Prop.classic",
"FunctionalExtensionality.functional_extensionality_dep"
]
],
"C23_symbolic_model_value": [
"Prop_ArrModel",
[
"ClassicalDedekindReals.sig_forall_dec",
"ClassicalDedekindReals.sig_not_dec",
"Classical_Prop.classic",
"FunctionalExtensionality.functional_extensionality_dep"
]
],
"C23_symbolic_model_gradient": [
"Prop_ArrModel",
[
"ClassicalDedekindReals.sig_forall_dec",
"ClassicalDedekindReals.sig_not_dec",
"Classical_Prop.classic",
"FunctionalExtensionality.functional_extensionality_dep"
]
],
"C23_symbolic_model_hessian": [
"Prop_ArrModel",
[
"ClassicalDedekindReals.sig_forall_dec",
"ClassicalDedekindReals.sig_not_dec",
"Classical_Prop.classic",
"FunctionalExtensionality.functional_extensionality_dep"
]
],
"C24_symbolic_model": [
"Prop_ArrModel",
[
"ClassicalDedekindReals.sig_forall_dec",
"ClassicalDedekindReals.sig_not_dec",
"Classical_Prop.classic",
"FunctionalExtensionality.functional_extensionality_dep"
]
],
"C25_symbolic_model": [
"Prop_ArrModel",
[
"ClassicalDedekindReals.sig_forall_dec",
"ClassicalDedekindReals.sig_not_dec",
"Classical_Prop.classic",
"FunctionalExtensionality.functional_extensionality_dep"
]
],
"C19_symbolic_example": [
"Prop_ArrModel",
[
"ClassicalDedekindReals.sig_forall_dec",
"ClassicalDedekindReals.sig_not_dec",
"Classical_Prop.classic",
"FunctionalExtensionality.functional_extensionality_dep"
]
],
"C85_local_minimizer": [
"Prop_Basin",
[
"ClassicalDedekindReals.sig_forall_dec",
"ClassicalDedekindReals.sig_not_dec",
"FunctionalExtensionality.functional_extensionality_dep"
]
],
"C85_best_fit": [
"Prop_Basin",
[
"ClassicalDedekindReals.sig_forall_dec",
"ClassicalDedekindReals.sig_not_dec",
"Classical_Prop.classic",
"FunctionalExtensionality.functional_extensionality_dep"
]
],
"C85_example": [
"Prop_Basin",
[
"ClassicalDedekindReals.sig_forall_dec",
"ClassicalDedekindReals.sig_not_dec",
"ClassicalEpsilon.constructive_indefinite_description",
"Classical_Prop.classic",
"FunctionalExtensionality.functional_extensionality_dep"
]
],
"C54_first_value_is_kept": [
"Prop_Cached",
[]
],
"C54_read_computes_once": [
"Prop_Cached",
[]
],
"C54_deletion_recomputes": [
"Prop_Cached",
[]
],
"C54_assignment_rejected": [
"Prop_Cached",
[]
],
"C54_example": [
"Prop_Cached",
[]
],
"C16_pickled_model_equivalent": [
"Prop_Cached",
[]
],
"C16_pickled_constraint_equivalent": [
"Prop_Cached",
[]
],
"C16_pickled_numerical_equivalent": [
"Prop_Cached",
[]
],
"C16_property_values": [
"Prop_Cached",
[]
],
"C16_example": [
"Prop_Cached",
[]
],
"C18_bounds": [
"Prop_Cached",
[
"ClassicalDedekindReals.sig_forall_dec",
"FunctionalExtensionality.functional_extensionality_dep"
]
],
"C18_example": [
"Prop_Cached",
[
"ClassicalDedekindReals.sig_forall_dec",
"FunctionalExtensionality.functional_extensionality_dep"
]
],
"C84_members": [
"Prop_Chain",
[
"ClassicalDedekindReals.sig_forall_dec",
"ClassicalDedekindReals.sig_not_dec",
"FunctionalExtensionality.functional_extensionality_dep"
]
],
"C84_one_after_the_other": [
"Prop_Chain",
[
"ClassicalDedekindReals.sig_forall_dec",
"ClassicalDedekindReals.sig_not_dec",
"Classical_Prop.classic",
"FunctionalExtensionality.functional_extensionality_dep"
]
],
"C84_least_squares": [
"Prop_Chain",
[
"ClassicalDedekindReals.sig_forall_dec",
"ClassicalDedekindReals.sig_not_dec",
"Classical_Prop.classic",
"FunctionalExtensionality.functional_extensionality_dep"
]
],
"C84_example": [
"Prop_Chain",
[
"ClassicalDedekindReals.sig_forall_dec",
"ClassicalDedekindReals.sig_not_dec",
"ClassicalEpsilon.constructive_indefinite_description",
"Classical_Prop.classic",
"FunctionalExtensionality.functional_extensionality_dep"
]
],
"C84_fixed_parameter_refuted": [
"Prop_Chain",
[
"ClassicalDedekindReals.sig_forall_dec",
"ClassicalDedekindReals.sig_not_dec",
"ClassicalEpsilon.constructive_indefinite_description",
"Classical_Prop.classic",
"FunctionalExtensionality.functional_extensionality_dep"
]
],
"C69_fit_problem": [
"Prop_End",
[
"ClassicalDedekindReals.sig_forall_dec",
"ClassicalDedekindReals.sig_not_dec",
"Classical_Prop.classic",
"FunctionalExtensionality.functional_extensionality_dep"
]
],
"C69_best_fit": [
"Prop_End",
[
"ClassicalDedekindReals.sig_forall_dec",
"ClassicalDedekindReals.sig_not_dec",
"Classical_Prop.classic",
"FunctionalExtensionality.functional_extensionality_dep"
]
],
"C69_covariance": [
"Prop_End",
[
"ClassicalDedekindReals.sig_forall_dec",
"ClassicalDedekindReals.sig_not_dec",
"Classical_Prop.classic",
"FunctionalExtensionality.functional_extensionality_dep"
]
],
"C69_minpack_problem": [
"Prop_End",
[
"ClassicalDedekindReals.sig_forall_dec",
"ClassicalDedekindReals.sig_not_dec",
"Classical_Prop.classic",
"FunctionalExtensionality.functional_extensionality_dep"
]
],
"C69_minpack_best": [
"Prop_End",
[
"ClassicalDedekindReals.sig_forall_dec",
"ClassicalDedekindReals.sig_not_dec",
"Classical_Prop.classic",
"FunctionalExtensionality.functional_extensionality_dep"
]
],
"C69_minpack_covariance": [
"Prop_End",
[
"ClassicalDedekindReals.sig_forall_dec",
"ClassicalDedekindReals.sig_not_dec",
"Classical_Prop.classic",
"FunctionalExtensionality.functional_extensionality_dep"
]
],
"C69_example": [
"Prop_End",
[
"ClassicalDedekindReals.sig_forall_dec",
"ClassicalDedekindReals.sig_not_dec",
"ClassicalEpsilon.constructive_indefinite_description",
"Classical_Prop.classic",
"FunctionalExtensionality.functional_extensionality_dep"
]
],
"C69_minpack_example": [
"Prop_End",
[
"ClassicalDedekindReals.sig_forall_dec",
"ClassicalDedekindReals.sig_not_dec",
"ClassicalEpsilon.constructive_indefinite_description",
"Classical_Prop.classic",
"FunctionalExtensionality.functional_extensionality_dep"
]
],
"C69_example_constraints": [
"Prop_End",
[
"ClassicalDedekindReals.sig_forall_dec",
"ClassicalDedekindReals.sig_not_dec",
"Classical_Prop.classic",
"FunctionalExtensionality.functional_extensionality_dep"
]
],
"C80_fit_problem": [
"Prop_EndCls",
[
"ClassicalDedekindReals.sig_forall_dec",
"ClassicalDedekindReals.sig_not_dec",
"Classical_Prop.classic",
"FunctionalExtensionality.functional_extensionality_dep"
]
],
"C80_best_fit": [
"Prop_EndCls",
[
"ClassicalDedekindReals.sig_forall_dec",
"ClassicalDedekindReals.sig_not_dec",
"Classical_Prop.classic",
"FunctionalExtensionality.functional_extensionality_dep"
]
],
"C80_gradient_covariance": [
"Prop_EndCls",
[
"ClassicalDedekindReals.sig_forall_dec",
"ClassicalDedekindReals.sig_not_dec",
"Classical_Prop.classic",
"FunctionalExtensionality.functional_extensionality_dep"
]
],
"C80_callable_covariance": [
"Prop_EndCls",
[
"ClassicalDedekindReals.sig_forall_dec",
"ClassicalDedekindReals.sig_not_dec",
"Classical_Prop.classic",
"FunctionalExtensionality.functional_extensionality_dep"
]
],
"C80_minpack_problem": [
"Prop_EndCls",
[
"ClassicalDedekindReals.sig_forall_dec",
"ClassicalDedekindReals.sig_not_dec",
"Classical_Prop.classic",
"FunctionalExtensionality.functional_extensionality_dep"
]
],
"C80_minpack_best": [
"Prop_EndCls",
[
"ClassicalDedekindReals.sig_forall_dec",
"ClassicalDedekindReals.sig_not_dec",
"Classical_Prop.classic",
"FunctionalExtensionality.functional_extensionality_dep"
]
],
"C80_minpack_covariance": [
"Prop_EndCls",
[
"ClassicalDedekindReals.sig_forall_dec",
"ClassicalDedekindReals.sig_not_dec",
"Classical_Prop.classic",
"FunctionalExtensionality.functional_extensionality_dep"
]
],
"C80_likelihood_problem": [
"Prop_EndCls",
[
"ClassicalDedekindReals.sig_forall_dec",
"ClassicalDedekindReals.sig_not_dec",
"Classical_Prop.classic",
"FunctionalExtensionality.functional_extensionality_dep"
]
],
"C80_likelihood_best": [
"Prop_EndCls",
[
"ClassicalDedekindReals.sig_forall_dec",
"ClassicalDedekindReals.sig_not_dec",
"Classical_Prop.classic",
"FunctionalExtensionality.functional_extensionality_dep"
]
],
"C80_likelihood_covariance": [
"Prop_EndCls",
[
"ClassicalDedekindReals.sig_forall_dec",
"ClassicalDedekindReals.sig_not_dec",
"Classical_Prop.classic",
"FunctionalExtensionality.functional_extensionality_dep"
]
],
"C80_likelihood_callable": [
"Prop_EndCls",
[
"ClassicalDedekindReals.sig_forall_dec",
"ClassicalDedekindReals.sig_not_dec",
"Classical_Prop.classic",
"FunctionalExtensionality.functional_extensionality_dep"
]
],
"C80_minimize_problem": [
"Prop_EndCls",
[
"ClassicalDedekindReals.sig_forall_dec",
"ClassicalDedekindReals.sig_not_dec",
"Classical_Prop.classic",
"FunctionalExtensionality.functional_extensionality_dep"
]
],
"C80_minimum": [
"Prop_EndCls",
[
"ClassicalDedekindReals.sig_forall_dec",
"ClassicalDedekindReals.sig_not_dec",
"Classical_Prop.classic",
"FunctionalExtensionality.functional_extensionality_dep"
]
],
"C80_minimize_covariance": [
"Prop_EndCls",
[
"ClassicalDedekindReals.sig_forall_dec",
"ClassicalDedekindReals.sig_not_dec",
"Classical_Prop.classic",
"FunctionalExtensionality.functional_extensionality_dep"
]
],
"C80_example": [
"Prop_EndCls",
[
"ClassicalDedekindReals.sig_forall_dec",
"ClassicalDedekindReals.sig_not_dec",
"ClassicalEpsilon.constructive_indefinite_description",
"Classical_Prop.classic",
"FunctionalExtensionality.functional_extensionality_dep"
]
],
"C80_likelihood_example": [
"Prop_EndCls",
[
"ClassicalDedekindReals.sig_forall_dec",
"ClassicalDedekindReals.sig_not_dec",
"ClassicalEpsilon.constructive_indefinite_description",
"Classical_Prop.classic",
"FunctionalExtensionality.functional_extensionality_dep"
]
],
"C80_minimize_example": [
"Prop_EndCls",
[
"ClassicalDedekindReals.sig_forall_dec",
"ClassicalDedekindReals.sig_not_dec",
"ClassicalEpsilon.constructive_indefinite_description",
"Classical_Prop.classic",
"FunctionalExtensionality.functional_extensionality_dep"
]
],
"C80_minpack_example": [
"Prop_EndCls",
[
"ClassicalDedekindReals.sig_forall_dec",
"ClassicalDedekindReals.sig_not_dec",
"ClassicalEpsilon.constructive_indefinite_description",
"Classical_Prop.classic",
"FunctionalExtensionality.functional_extensionality_dep"
]
],
"C73_constraint_gradient": [
"Prop_EndCon",
[
"ClassicalDedekindReals.sig_forall_dec",
"ClassicalDedekindReals.sig_not_dec",
"Classical_Prop.classic",
"FunctionalExtensionality.functional_extensionality_dep"
]
],
"C73_example": [
"Prop_EndCon",
[
"ClassicalDedekindReals.sig_forall_dec",
"ClassicalDedekindReals.sig_not_dec",
"ClassicalEpsilon.constructive_indefinite_description",
"Classical_Prop.classic",
"FunctionalExtensionality.functional_extensionality_dep"
]
],
"C81_constraint_jacobian": [
"Prop_EndConJac",
[
"ClassicalDedekindReals.sig_forall_dec",
"ClassicalDedekindReals.sig_not_dec",
"Classical_Prop.classic",
"FunctionalExtensionality.functional_extensionality_dep"
]
],
"C81_example": [
"Prop_EndConJac",
[
"ClassicalDedekindReals.sig_forall_dec",
"ClassicalDedekindReals.sig_not_dec",
"Classical_Prop.classic",
"FunctionalExtensionality.functional_extensionality_dep"
]
],
"C81_scipy_layout_refuted": [
"Prop_EndConJac",
[
"ClassicalDedekindReals.sig_forall_dec",
"ClassicalDedekindReals.sig_not_dec",
"Classical_Prop.classic",
"FunctionalExtensionality.functional_extensionality_dep"
]
],
"C81_single_parameter_example": [
"Prop_EndConJac",
[
"ClassicalDedekindReals.sig_forall_dec",
"ClassicalDedekindReals.sig_not_dec",
"Classical_Prop.classic",
"FunctionalExtensionality.functional_extensionality_dep"
]
],
"C71_problem": [
"Prop_EndMore",
[
"ClassicalDedekindReals.sig_forall_dec",
"ClassicalDedekindReals.sig_not_dec",
"Classical_Prop.classic",
"FunctionalExtensionality.functional_extensionality_dep"
]
],
"C71_best_fit": [
"Prop_EndMore",
[
"ClassicalDedekindReals.sig_forall_dec",
"ClassicalDedekindReals.sig_not_dec",
"Classical_Prop.classic",
"FunctionalExtensionality.functional_extensionality_dep"
]
],
"C71_covariance": [
"Prop_EndMore",
[
"ClassicalDedekindReals.sig_forall_dec",
"ClassicalDedekindReals.sig_not_dec",
"Classical_Prop.classic",
"FunctionalExtensionality.functional_extensionality_dep"
]
],
"C72_problem": [
"Prop_EndMore",
[
"ClassicalDedekindReals.sig_forall_dec",
"ClassicalDedekindReals.sig_not_dec",
"Classical_Prop.classic",
"FunctionalExtensionality.functional_extensionality_dep"
]
],
"C72_minimum": [
"Prop_EndMore",
[
"ClassicalDedekindReals.sig_forall_dec",
"ClassicalDedekindReals.sig_not_dec",
"Classical_Prop.classic",
"FunctionalExtensionality.functional_extensionality_dep"
]
],
"C72_covariance": [
"Prop_EndMore",
[
"ClassicalDedekindReals.sig_forall_dec",
"ClassicalDedekindReals.sig_not_dec",
"Classical_Prop.classic",
"FunctionalExtensionality.functional_extensionality_dep"
]
],
"C71_example": [
"Prop_EndMore",
[
"ClassicalDedekindReals.sig_forall_dec",
"ClassicalDedekindReals.sig_not_dec",
"ClassicalEpsilon.constructive_indefinite_description",
"Classical_Prop.classic",
"FunctionalExtensionality.functional_extensionality_dep"
]
],
"C72_example": [
"Prop_EndMore",
[
"ClassicalDedekindReals.sig_forall_dec",
"ClassicalDedekindReals.sig_not_dec",
"ClassicalEpsilon.constructive_indefinite_description",
"Classical_Prop.classic",
"FunctionalExtensionality.functional_extensionality_dep"
]
],
"C15_finite_difference_is_six_point_stencil": [
"Prop_FiniteDiff",
[
"ClassicalDedekindReals.sig_forall_dec",
"FunctionalExtensionality.functional_extensionality_dep"
]
],
"C15_calls_bound": [
"Prop_FiniteDiff",
[
"ClassicalDedekindReals.sig_forall_dec",
"FunctionalExtensionality.functional_extensionality_dep"
]
],
"C15_no_division_by_zero": [
"Prop_FiniteDiff",
[
"ClassicalDedekindReals.sig_forall_dec",
"FunctionalExtensionality.functional_extensionality_dep"
]
],
"C15_exact_for_degree_6": [
"Prop_FiniteDiff",
[
"ClassicalDedekindReals.sig_forall_dec",
"ClassicalDedekindReals.sig_not_dec",
"Classical_Prop.classic",
"FunctionalExtensionality.functional_extensionality_dep"
]
],
"C15_error_of_order_6": [
"Prop_FiniteDiff",
[
"ClassicalDedekindReals.sig_forall_dec",
"ClassicalDedekindReals.sig_not_dec",
"Classical_Prop.classic",
"FunctionalExtensionality.functional_extensionality_dep"
]
],
"C15_example": [
"Prop_FiniteDiff",
[
"ClassicalDedekindReals.sig_forall_dec",
"FunctionalExtensionality.functional_extensionality_dep"
]
],
"C40_positional_order": [
"Prop_Fit",
[]
],
"C40_data_linked": [
"Prop_Fit",
[
"ClassicalDedekindReals.sig_forall_dec",
"ClassicalDedekindReals.sig_not_dec",
"FunctionalExtensionality.functional_extensionality_dep"
]
],
"C40_split_independent": [
"Prop_Fit",
[
"ClassicalDedekindReals.sig_forall_dec",
"ClassicalDedekindReals.sig_not_dec",
"FunctionalExtensionality.functional_extensionality_dep"
]
],
"C40_wrong_arguments_rejected": [
"Prop_Fit",
[
"ClassicalDedekindReals.sig_forall_dec",
"ClassicalDedekindReals.sig_not_dec",
"FunctionalExtensionality.functional_extensionality_dep"
]
],
"C40_sigmas_optional": [
"Prop_Fit",
[
"ClassicalDedekindReals.sig_forall_dec"
]
],
"C40_missing_data_rejected": [
"Prop_Fit",
[
"ClassicalDedekindReals.sig_forall_dec",
"ClassicalDedekindReals.sig_not_dec",
"FunctionalExtensionality.functional_extensionality_dep"
]
],
"C40_missing_example": [
"Prop_Fit",
[
"ClassicalDedekindReals.sig_forall_dec",
"ClassicalDedekindReals.sig_not_dec",
"FunctionalExtensionality.functional_extensionality_dep"
]
],
"C40_example": [
"Prop_Fit",
[
"ClassicalDedekindReals.sig_forall_dec",
"ClassicalDedekindReals.sig_not_dec",
"FunctionalExtensionality.functional_extensionality_dep"
]
],
"C41_sigmas": [
"Prop_Fit",
[
"ClassicalDedekindReals.sig_forall_dec",
"ClassicalDedekindReals.sig_not_dec",
"FunctionalExtensionality.functional_extensionality_dep"
]
],
"C41_sigma_argument": [
"Prop_Fit",
[]
],
"C41_number_data_refuted": [
"Prop_Fit",
[
"ClassicalDedekindReals.sig_forall_dec",
"ClassicalDedekindReals.sig_not_dec",
"FunctionalExtensionality.functional_extensionality_dep"
]
],
"C42_default_minimizer": [
"Prop_Fit",
[
"ClassicalDedekindReals.sig_forall_dec",
"ClassicalDedekindReals.sig_not_dec",
"FunctionalExtensionality.functional_extensionality_dep"
]
],
"C42_chosen_minimizer": [
"Prop_Fit",
[
"ClassicalDedekindReals.sig_forall_dec",
"ClassicalDedekindReals.sig_not_dec",
"FunctionalExtensionality.functional_extensionality_dep"
]
],
"C42_chain_in_given_order": [
"Prop_Fit",
[
"ClassicalDedekindReals.sig_forall_dec",
"ClassicalDedekindReals.sig_not_dec",
"FunctionalExtensionality.functional_extensionality_dep"
]
],
"C42_default_objective": [
"Prop_Fit",
[
"ClassicalDedekindReals.sig_forall_dec",
"ClassicalDedekindReals.sig_not_dec",
"FunctionalExtensionality.functional_extensionality_dep"
]
],
"C42_chosen_objective": [
"Prop_Fit",
[
"ClassicalDedekindReals.sig_forall_dec",
"ClassicalDedekindReals.sig_not_dec",
"FunctionalExtensionality.functional_extensionality_dep"
]
],
"C42_dependent_data_rejected": [
"Prop_Fit",
[
"ClassicalDedekindReals.sig_forall_dec",
"ClassicalDedekindReals.sig_not_dec",
"FunctionalExtensionality.functional_extensionality_dep"
]
],
"C42_example": [
"Prop_Fit",
[
"ClassicalDedekindReals.sig_forall_dec",
"ClassicalDedekindReals.sig_not_dec",
"FunctionalExtensionality.functional_extensionality_dep"
]
],
"C43_covariance": [
"Prop_Fit",
[
"ClassicalDedekindReals.sig_forall_dec",
"ClassicalDedekindReals.sig_not_dec",
"FunctionalExtensionality.functional_extensionality_dep"
]
],
"C43_covariance_approximate": [
"Prop_Fit",
[
"ClassicalDedekindReals.sig_forall_dec",
"ClassicalDedekindReals.sig_not_dec",
"FunctionalExtensionality.functional_extensionality_dep"
]
],
"C43_covariance_symmetric": [
"Prop_Fit",
[
"ClassicalDedekindReals.sig_forall_dec",
"ClassicalDedekindReals.sig_not_dec",
"Classical_Prop.classic",
"FunctionalExtensionality.functional_extensionality_dep"
]
],
"C43_sigma_scaling": [
"Prop_Fit",
[
"ClassicalDedekindReals.sig_forall_dec",
"ClassicalDedekindReals.sig_not_dec",
"FunctionalExtensionality.functional_extensionality_dep"
]
],
"C43_covariance_likelihood": [
"Prop_Fit",
[
"ClassicalDedekindReals.sig_forall_dec",
"FunctionalExtensionality.functional_extensionality_dep"
]
],
"C43_covariance_likelihood_approximate": [
"Prop_Fit",
[
"ClassicalDedekindReals.sig_forall_dec",
"ClassicalDedekindReals.sig_not_dec",
"FunctionalExtensionality.functional_extensionality_dep"
]
],
"C43_covariance_likelihood_exact": [
"Prop_Fit",
[
"ClassicalDedekindReals.sig_forall_dec",
"ClassicalDedekindReals.sig_not_dec",
"FunctionalExtensionality.functional_extensionality_dep"
]
],
"C43_covariance_minimize_model": [
"Prop_Fit",
[
"ClassicalDedekindReals.sig_forall_dec",
"ClassicalDedekindReals.sig_not_dec",
"FunctionalExtensionality.functional_extensionality_dep"
]
],
"C43_likelihood_example": [
"Prop_Fit",
[
"ClassicalDedekindReals.sig_forall_dec",
"ClassicalDedekindReals.sig_not_dec",
"FunctionalExtensionality.functional_extensionality_dep"
]
],
"C43_minimize_example": [
"Prop_Fit",
[
"ClassicalDedekindReals.sig_forall_dec",
"ClassicalDedekindReals.sig_not_dec",
"FunctionalExtensionality.functional_extensionality_dep"
]
],
"C43_number_data_refuted": [
"Prop_Fit",
[
"ClassicalDedekindReals.sig_forall_dec",
"ClassicalDedekindReals.sig_not_dec",
"FunctionalExtensionality.functional_extensionality_dep"
]
],
"C43_example": [
"Prop_Fit",
[
"ClassicalDedekindReals.sig_forall_dec",
"ClassicalDedekindReals.sig_not_dec",
"ClassicalEpsilon.constructive_indefinite_description",
"Classical_Prop.classic",
"FunctionalExtensionality.functional_extensionality_dep"
]
],
"C44_points_counted": [
"Prop_Fit",
[
"ClassicalDedekindReals.sig_forall_dec",
"ClassicalDedekindReals.sig_not_dec",
"FunctionalExtensionality.functional_extensionality_dep"
]
],
"C44_dof_distinct_shapes": [
"Prop_Fit",
[
"ClassicalDedekindReals.sig_forall_dec",
"ClassicalDedekindReals.sig_not_dec",
"FunctionalExtensionality.functional_extensionality_dep"
]
],
"C44_shared_shape_refuted": [
"Prop_Fit",
[]
],
"C44_example": [
"Prop_Fit",
[
"ClassicalDedekindReals.sig_forall_dec",
"ClassicalDedekindReals.sig_not_dec",
"FunctionalExtensionality.functional_extensionality_dep"
]
],
"C89_fit_problem": [
"Prop_Glob",
[
"ClassicalDedekindReals.sig_forall_dec",
"ClassicalDedekindReals.sig_not_dec",
"Classical_Prop.classic",
"FunctionalExtensionality.functional_extensionality_dep"
]
],
"C89_best_fit": [
"Prop_Glob",
[
"ClassicalDedekindReals.sig_forall_dec",
"ClassicalDedekindReals.sig_not_dec",
"Classical_Prop.classic",
"FunctionalExtensionality.functional_extensionality_dep"
]
],
"C89_covariance": [
"Prop_Glob",
[
"ClassicalDedekindReals.sig_forall_dec",
"ClassicalDedekindReals.sig_not_dec",
"Classical_Prop.classic",
"FunctionalExtensionality.functional_extensionality_dep"
]
],
"C89_example": [
"Prop_Glob",
[
"ClassicalDedekindReals.sig_forall_dec",
"ClassicalDedekindReals.sig_not_dec",
"ClassicalEpsilon.constructive_indefinite_description",
"Classical_Prop.classic",
"FunctionalExtensionality.functional_extensionality_dep"
]
],
"C74_sliders": [
"Prop_Guess",
[
"ClassicalDedekindReals.sig_forall_dec",
"FunctionalExtensionality.functional_extensionality_dep"
]
],
"C74_values_follow": [
"Prop_Guess",
[
"ClassicalDedekindReals.sig_forall_dec",
"FunctionalExtensionality.functional_extensionality_dep"
]
],
"C74_guess_kept": [
"Prop_Guess",
[
"ClassicalDedekindReals.sig_forall_dec",
"FunctionalExtensionality.functional_extensionality_dep"
]
],
"C74_negative_guess_refuted": [
"Prop_Guess",
[
"ClassicalDedekindReals.sig_forall_dec",
"FunctionalExtensionality.functional_extensionality_dep"
]
],
"C74_fit_starts_there": [
"Prop_Guess",
[
"ClassicalDedekindReals.sig_forall_dec",
"FunctionalExtensionality.functional_extensionality_dep"
]
],
"C74_printed": [
"Prop_Guess",
[
"ClassicalDedekindReals.sig_forall_dec",
"FunctionalExtensionality.functional_extensionality_dep"
]
],
"C75_window": [
"Prop_Guess",
[
"ClassicalDedekindReals.sig_forall_dec",
"FunctionalExtensionality.functional_extensionality_dep"
]
],
"C75_line": [
"Prop_Guess",
[
"ClassicalDedekindReals.sig_forall_dec",
"FunctionalExtensionality.functional_extensionality_dep"
]
],
"C75_average": [
"Prop_Guess",
[
"ClassicalDedekindReals.sig_forall_dec",
"FunctionalExtensionality.functional_extensionality_dep"
]
],
"C75_error_bars": [
"Prop_Guess",
[
"ClassicalDedekindReals.sig_forall_dec",
"FunctionalExtensionality.functional_extensionality_dep"
]
],
"C75_opens": [
"Prop_Guess",
[
"ClassicalDedekindReals.sig_forall_dec",
"FunctionalExtensionality.functional_extensionality_dep"
]
],
"C75_symbolic": [
"Prop_Guess",
[
"ClassicalDedekindReals.sig_forall_dec",
"ClassicalDedekindReals.sig_not_dec",
"Classical_Prop.classic",
"FunctionalExtensionality.functional_extensionality_dep"
]
],
"C74_example": [
"Prop_Guess",
[
"ClassicalDedekindReals.sig_forall_dec",
"ClassicalDedekindReals.sig_not_dec",
"Classical_Prop.classic",
"FunctionalExtensionality.functional_extensionality_dep"
]
],
"C75_error_bars_refuted": [
"Prop_Guess",
[
"ClassicalDedekindReals.sig_forall_dec",
"ClassicalDedekindReals.sig_not_dec",
"Classical_Prop.classic",
"FunctionalExtensionality.functional_extensionality_dep"
]
],
"C75_line_example": [
"Prop_Guess",
[
"ClassicalDedekindReals.sig_forall_dec",
"ClassicalDedekindReals.sig_not_dec",
"Classical_Prop.classic",
"FunctionalExtensionality.functional_extensionality_dep"
]
],
"C13_jacobian_is_derivative": [
"Prop_Jacobian",
[
"ClassicalDedekindReals.sig_forall_dec",
"ClassicalDedekindReals.sig_not_dec",
"Classical_Prop.classic",
"FunctionalExtensionality.functional_extensionality_dep"
]
],
"C13_constraint_jacobian": [
"Prop_Jacobian",
[
"ClassicalDedekindReals.sig_forall_dec",
"ClassicalDedekindReals.sig_not_dec",
"Classical_Prop.classic",
"FunctionalExtensionality.functional_extensionality_dep"
]
],
"C13_returned_jacobian": [
"Prop_Jacobian",
[
"ClassicalDedekindReals.sig_forall_dec",
"ClassicalDedekindReals.sig_not_dec",
"Classical_Prop.classic",
"FunctionalExtensionality.functional_extensionality_dep"
]
],
"C13_shallow_models_have_jacobian": [
"Prop_Jacobian",
[
"ClassicalDedekindReals.sig_forall_dec",
"ClassicalDedekindReals.sig_not_dec",
"Classical_Prop.classic",
"FunctionalExtensionality.functional_extensionality_dep"
]
],
"C13_solution_map_exists": [
"Prop_Jacobian",
[
"ClassicalDedekindReals.sig_forall_dec",
"ClassicalDedekindReals.sig_not_dec",
"Classical_Prop.classic",
"FunctionalExtensionality.functional_extensionality_dep"
]
],
"C13_deep_chain_refuted": [
"Prop_Jacobian",
[]
],
"C14_hessian_is_second_derivative": [
"Prop_Jacobian",
[
"ClassicalDedekindReals.sig_forall_dec",
"ClassicalDedekindReals.sig_not_dec",
"Classical_Prop.classic",
"FunctionalExtensionality.functional_extensionality_dep"
]
],
"C14_returned_hessian": [
"Prop_Jacobian",
[
"ClassicalDedekindReals.sig_forall_dec",
"ClassicalDedekindReals.sig_not_dec",
"Classical_Prop.classic",
"FunctionalExtensionality.functional_extensionality_dep"
]
],
"C13_simple_names": [
"Prop_Jacobian",
[]
],
"C13_example": [
"Prop_Jacobian",
[
"ClassicalDedekindReals.sig_forall_dec",
"ClassicalDedekindReals.sig_not_dec",
"Classical_Prop.classic",
"FunctionalExtensionality.functional_extensionality_dep"
]
],
"C13_example_computed": [
"Prop_Jacobian",
[]
],
"C86_like_a_new_fit": [
"Prop_Later",
[
"ClassicalDedekindReals.sig_forall_dec",
"ClassicalDedekindReals.sig_not_dec",
"FunctionalExtensionality.functional_extensionality_dep"
]
],
"C86_best_fit": [
"Prop_Later",
[
"ClassicalDedekindReals.sig_forall_dec",
"ClassicalDedekindReals.sig_not_dec",
"Classical_Prop.classic",
"FunctionalExtensionality.functional_extensionality_dep"
]
],
"C86_example": [
"Prop_Later",
[
"ClassicalDedekindReals.sig_forall_dec",
"ClassicalDedekindReals.sig_not_dec",
"ClassicalEpsilon.constructive_indefinite_description",
"Classical_Prop.classic",
"FunctionalExtensionality.functional_extensionality_dep"
]
],
"C86_fixing_later_refuted": [
"Prop_Later",
[
"ClassicalDedekindReals.sig_forall_dec",
"ClassicalDedekindReals.sig_not_dec",
"ClassicalEpsilon.constructive_indefinite_description",
"Classical_Prop.classic",
"FunctionalExtensionality.functional_extensionality_dep"
]
],
"C86_bound_later_refuted": [
"Prop_Later",
[
"ClassicalDedekindReals.sig_forall_dec",
"ClassicalDedekindReals.sig_not_dec",
"ClassicalEpsilon.constructive_indefinite_description",
"Classical_Prop.classic",
"FunctionalExtensionality.functional_extensionality_dep"
]
],
"C86_execute_again_refuted": [
"Prop_Later",
[
"ClassicalDedekindReals.sig_forall_dec",
"ClassicalDedekindReals.sig_not_dec",
"ClassicalEpsilon.constructive_indefinite_description",
"Classical_Prop.classic",
"FunctionalExtensionality.functional_extensionality_dep"
]
],
"C79_minimize_options": [
"Prop_MinExec",
[
"ClassicalDedekindReals.sig_forall_dec",
"FunctionalExtensionality.functional_extensionality_dep"
]
],
"C79_trust_constr_options": [
"Prop_MinExec",
[
"ClassicalDedekindReals.sig_forall_dec",
"FunctionalExtensionality.functional_extensionality_dep"
]
],
"C79_differential_evolution_options": [
"Prop_MinExec",
[
"ClassicalDedekindReals.sig_forall_dec",
"FunctionalExtensionality.functional_extensionality_dep"
]
],
"C79_minpack_options": [
"Prop_MinExec",
[
"ClassicalDedekindReals.sig_forall_dec",
"FunctionalExtensionality.functional_extensionality_dep"
]
],
"C79_basin_hopping_options": [
"Prop_MinExec",
[
"ClassicalDedekindReals.sig_forall_dec",
"FunctionalExtensionality.functional_extensionality_dep"
]
],
"C79_execute_again": [
"Prop_MinExec",
[
"ClassicalDedekindReals.sig_forall_dec",
"FunctionalExtensionality.functional_extensionality_dep"
]
],
"C79_chain_execute_again": [
"Prop_MinExec",
[
"ClassicalDedekindReals.sig_forall_dec",
"FunctionalExtensionality.functional_extensionality_dep"
]
],
"C79_chain_execute": [
"Prop_MinExec",
[
"ClassicalDedekindReals.sig_forall_dec",
"FunctionalExtensionality.functional_extensionality_dep"
]
],
"C79_example": [
"Prop_MinExec",
[
"ClassicalDedekindReals.sig_forall_dec",
"FunctionalExtensionality.functional_extensionality_dep"
]
],
"C79_chain_example": [
"Prop_MinExec",
[
"ClassicalDedekindReals.sig_forall_dec",
"FunctionalExtensionality.functional_extensionality_dep"
]
],
"C79_shared_kwargs_refuted": [
"Prop_MinExec",
[
"ClassicalDedekindReals.sig_forall_dec",
"FunctionalExtensionality.functional_extensionality_dep"
]
],
"C79_sparse_jacobian_refuted": [
"Prop_MinExec",
[
"ClassicalDedekindReals.sig_forall_dec",
"FunctionalExtensionality.functional_extensionality_dep"
]
],
"C78_unsupported_rejected": [
"Prop_MinObj",
[
"ClassicalDedekindReals.sig_forall_dec"
]
],
"C78_creation": [
"Prop_MinObj",
[
"ClassicalDedekindReals.sig_forall_dec"
]
],
"C78_basin_hopping_creation": [
"Prop_MinObj",
[
"ClassicalDedekindReals.sig_forall_dec"
]
],
"C78_chain_creation": [
"Prop_MinObj",
[
"ClassicalDedekindReals.sig_forall_dec"
]
],
"C78_pickle": [
"Prop_MinObj",
[
"ClassicalDedekindReals.sig_forall_dec"
]
],
"C78_example": [
"Prop_MinObj",
[
"ClassicalDedekindReals.sig_forall_dec"
]
],
"C78_fixed_later_refuted": [
"Prop_MinObj",
[
"ClassicalDedekindReals.sig_forall_dec"
]
],
"C32_guesses_and_bounds": [
"Prop_Minimizer",
[
"ClassicalDedekindReals.sig_forall_dec"
]
],
"C32_jacobian": [
"Prop_Minimizer",
[
"ClassicalDedekindReals.sig_forall_dec",
"FunctionalExtensionality.functional_extensionality_dep"
]
],
"C32_minpack_jacobian": [
"Prop_Minimizer",
[
"ClassicalDedekindReals.sig_forall_dec"
]
],
"C32_example": [
"Prop_Minimizer",
[
"ClassicalDedekindReals.sig_forall_dec",
"FunctionalExtensionality.functional_extensionality_dep"
]
],
"C33_pack_output": [
"Prop_Minimizer",
[]
],
"C33_params_by_name": [
"Prop_Minimizer",
[]
],
"C33_short_answer": [
"Prop_Minimizer",
[]
],
"C33_example": [
"Prop_Minimizer",
[
"ClassicalDedekindReals.sig_forall_dec"
]
],
"C34_one_free_parameter": [
"Prop_Minimizer",
[
"FunctionalExtensionality.functional_extensionality_dep"
]
],
"C34_square_matrix_refuted": [
"Prop_Minimizer",
[
"FunctionalExtensionality.functional_extensionality_dep"
]
],
"C34_example": [
"Prop_Minimizer",
[
"ClassicalDedekindReals.sig_forall_dec"
]
],
"C35_option_names": [
"Prop_Minimizer",
[]
],
"C35_option_names_distinct": [
"Prop_Minimizer",
[]
],
"C35_equal_names_rejected": [
"Prop_Minimizer",
[]
],
"C35_unknown_option_rejected": [
"Prop_Minimizer",
[]
],
"C35_options_reach_their_minimizer": [
"Prop_Minimizer",
[]
],
"C35_example": [
"Prop_Minimizer",
[]
],
"C36_restart": [
"Prop_Minimizer",
[]
],
"C36_chain_handover": [
"Prop_Minimizer",
[]
],
"C36_fixed_parameter_refuted": [
"Prop_Minimizer",
[
"ClassicalDedekindReals.sig_forall_dec"
]
],
"C36_example": [
"Prop_Minimizer",
[
"ClassicalDedekindReals.sig_forall_dec"
]
],
"C37_constraints": [
"Prop_Minimizer",
[
"ClassicalDedekindReals.sig_forall_dec",
"FunctionalExtensionality.functional_extensionality_dep"
]
],
"C37_constraints_accepted": [
"Prop_Minimizer",
[]
],
"C37_direct_constraints": [
"Prop_Minimizer",
[]
],
"C37_single_hessian": [
"Prop_Minimizer",
[
"ClassicalDedekindReals.sig_forall_dec"
]
],
"C37_late_binding_refuted": [
"Prop_Minimizer",
[
"ClassicalDedekindReals.sig_forall_dec"
]
],
"C37_vector_constraint_refuted": [
"Prop_Minimizer",
[]
],
"C37_less_equal_refuted": [
"Prop_Minimizer",
[]
],
"C37_example": [
"Prop_Minimizer",
[
"ClassicalDedekindReals.sig_forall_dec",
"FunctionalExtensionality.functional_extensionality_dep"
]
],
"C38_any_order": [
"Prop_Minimizer",
[]
],
"C38_alphabetical": [
"Prop_Minimizer",
[]
],
"C38_parameters_are_sorted": [
"Prop_Minimizer",
[]
],
"C38_other_order_refuted": [
"Prop_Minimizer",
[
"ClassicalDedekindReals.sig_forall_dec"
]
],
"C38_example": [
"Prop_Minimizer",
[
"ClassicalDedekindReals.sig_forall_dec"
]
],
"C39_basin_hopping_options": [
"Prop_Minimizer",
[]
],
"C39_example": [
"Prop_Minimizer",
[]
],
"C45_reported_parameters_reproduce": [
"Prop_Minimizer",
[
"ClassicalDedekindReals.sig_forall_dec",
"ClassicalDedekindReals.sig_not_dec",
"Classical_Prop.classic",
"FunctionalExtensionality.functional_extensionality_dep"
]
],
"C45_constraint_values": [
"Prop_Minimizer",
[
"ClassicalDedekindReals.sig_forall_dec",
"ClassicalDedekindReals.sig_not_dec",
"Classical_Prop.classic",
"FunctionalExtensionality.functional_extensionality_dep"
]
],
"C45_bounds_respected": [
"Prop_Minimizer",
[
"ClassicalDedekindReals.sig_forall_dec"
]
],
"C45_example": [
"Prop_Minimizer",
[
"ClassicalDedekindReals.sig_forall_dec",
"FunctionalExtensionality.functional_extensionality_dep"
]
],
"C70_algorithms": [
"Prop_Minimizer",
[
"ClassicalDedekindReals.sig_forall_dec"
]
],
"C70_nothing_unsupported": [
"Prop_Minimizer",
[
"ClassicalDedekindReals.sig_forall_dec"
]
],
"C70_user_derivatives": [
"Prop_Minimizer",
[
"ClassicalDedekindReals.sig_forall_dec"
]
],
"C70_numerical_derivatives": [
"Prop_Minimizer",
[
"ClassicalDedekindReals.sig_forall_dec"
]
],
"C70_trust_constr_hessian": [
"Prop_Minimizer",
[
"ClassicalDedekindReals.sig_forall_dec"
]
],
"C70_example": [
"Prop_Minimizer",
[
"ClassicalDedekindReals.sig_forall_dec"
]
],
"C01_call_evaluates_every_component": [
"Prop_Model",
[]
],
"C01_set_order_irrelevant": [
"Prop_Model",
[]
],
"C01_example": [
"Prop_Model",
[]
],
"C02_toposort_orders_everything": [
"Prop_Model",
[]
],
"C02_toposort_never_loops": [
"Prop_Model",
[]
],
"C02_circular_iff_cycle": [
"Prop_Model",
[]
],
"C02_model_rejected_iff_cycle": [
"Prop_Model",
[]
],
"C02_acyclic_model_accepted": [
"Prop_Model",
[]
],
"C02_example": [
"Prop_Model",
[]
],
"C03_classification": [
"Prop_Model",
[]
],
"C03_parameter_component_rejected": [
"Prop_Model",
[]
],
"C03_constant_parameter_component_refuted": [
"Prop_Model",
[]
],
"C03_example": [
"Prop_Model",
[]
],
"C04_unused_component_not_dependent_refuted": [
"Prop_Model",
[]
],
"C04_constant_component_unlisted_refuted": [
"Prop_Model",
[]
],
"C04_dependent_by_depth": [
"Prop_Model",
[]
],
"C04_components_listed": [
"Prop_Model",
[]
],
"C05_positional_and_keyword_agree": [
"Prop_Model",
[]
],
"C05_argument_order": [
"Prop_Model",
[]
],
"C05_wrong_arguments_rejected": [
"Prop_Model",
[]
],
"C05_example": [
"Prop_Model",
[]
],
"C06_output_access": [
"Prop_Model",
[]
],
"C06_call_output_wellformed": [
"Prop_Model",
[]
],
"C06_unknown_name": [
"Prop_Model",
[]
],
"C06_pickle": [
"Prop_Model",
[]
],
"C06_example": [
"Prop_Model",
[]
],
"C07_negation": [
"Prop_Model",
[]
],
"C07_example": [
"Prop_Model",
[]
],
"C08_numerical_negation_raises": [
"Prop_Model",
[]
],
"C08_numerical_negation_refuted": [
"Prop_Model",
[]
],
"C09_equality": [
"Prop_Model",
[]
],
"C09_symmetric_transitive": [
"Prop_Model",
[]
],
"C09_reflexivity_refuted": [
"Prop_Model",
[]
],
"C10_constraint_meaning": [
"Prop_Model",
[
"ClassicalDedekindReals.sig_forall_dec",
"ClassicalDedekindReals.sig_not_dec",
"Classical_Prop.classic",
"FunctionalExtensionality.functional_extensionality_dep"
]
],
"C10_constraints_accepted": [
"Prop_Model",
[]
],
"C10_strict_relations_rejected": [
"Prop_Model",
[]
],
"C10_example": [
"Prop_Model",
[]
],
"C11_constraint_parameters": [
"Prop_Model",
[]
],
"C11_example": [
"Prop_Model",
[]
],
"C12_with_dependencies": [
"Prop_Model",
[]
],
"C12_with_dependencies_never_fails": [
"Prop_Model",
[]
],
"C12_example": [
"Prop_Model",
[]
],
"C17_shared_parameters": [
"Prop_Model",
[]
],
"C17_example": [
"Prop_Model",
[]
],
"C77_numerical_fit_problem": [
"Prop_NumFit",
[
"ClassicalDedekindReals.sig_forall_dec",
"ClassicalDedekindReals.sig_not_dec",
"Classical_Prop.classic",
"FunctionalExtensionality.functional_extensionality_dep"
]
],
"C77_numerical_best_fit": [
"Prop_NumFit",
[
"ClassicalDedekindReals.sig_forall_dec",
"ClassicalDedekindReals.sig_not_dec",
"Classical_Prop.classic",
"FunctionalExtensionality.functional_extensionality_dep"
]
],
"C77_numerical_result": [
"Prop_NumFit",
[
"ClassicalDedekindReals.sig_forall_dec",
"ClassicalDedekindReals.sig_not_dec",
"Classical_Prop.classic",
"FunctionalExtensionality.functional_extensionality_dep"
]
],
"C77_example": [
"Prop_NumFit",
[
"ClassicalDedekindReals.sig_forall_dec",
"ClassicalDedekindReals.sig_not_dec",
"Classical_Prop.classic",
"FunctionalExtensionality.functional_extensionality_dep"
]
],
"C67_numerical_call": [
"Prop_NumModel",
[]
],
"C67_numerical_arguments": [
"Prop_NumModel",
[]
],
"C67_mapping_required": [
"Prop_NumModel",
[]
],
"C67_deprecated_form": [
"Prop_NumModel",
[]
],
"C67_nontrivial": [
"Prop_NumModel",
[]
],
"C68_numerical_equality": [
"Prop_NumModel",
[]
],
"C68_nontrivial": [
"Prop_NumModel",
[]
],
"C19_least_squares_value": [
"Prop_Objective",
[
"ClassicalDedekindReals.sig_forall_dec",
"FunctionalExtensionality.functional_extensionality_dep"
]
],
"C19_missing_data": [
"Prop_Objective",
[
"ClassicalDedekindReals.sig_forall_dec",
"FunctionalExtensionality.functional_extensionality_dep"
]
],
"C20_least_squares_gradient": [
"Prop_Objective",
[
"ClassicalDedekindReals.sig_forall_dec",
"ClassicalDedekindReals.sig_not_dec",
"Classical_Prop.classic",
"FunctionalExtensionality.functional_extensionality_dep"
]
],
"C20_no_data": [
"Prop_Objective",
[
"ClassicalDedekindReals.sig_forall_dec",
"FunctionalExtensionality.functional_extensionality_dep"
]
],
"C20_no_data_refuted": [
"Prop_Objective",
[
"ClassicalDedekindReals.sig_forall_dec",
"FunctionalExtensionality.functional_extensionality_dep"
]
],
"C21_least_squares_hessian": [
"Prop_Objective",
[
"ClassicalDedekindReals.sig_forall_dec",
"ClassicalDedekindReals.sig_not_dec",
"Classical_Prop.classic",
"FunctionalExtensionality.functional_extensionality_dep"
]
],
"C22_jacobian_approximation": [
"Prop_Objective",
[
"ClassicalDedekindReals.sig_forall_dec",
"FunctionalExtensionality.functional_extensionality_dep"
]
],
"C23_log_likelihood_value": [
"Prop_Objective",
[
"ClassicalDedekindReals.sig_forall_dec",
"ClassicalDedekindReals.sig_not_dec",
"Classical_Prop.classic",
"FunctionalExtensionality.functional_extensionality_dep"
]
],
"C23_log_likelihood_gradient": [
"Prop_Objective",
[
"ClassicalDedekindReals.sig_forall_dec",
"ClassicalDedekindReals.sig_not_dec",
"Classical_Prop.classic",
"FunctionalExtensionality.functional_extensionality_dep"
]
],
"C23_log_likelihood_hessian": [
"Prop_Objective",
[
"ClassicalDedekindReals.sig_forall_dec",
"ClassicalDedekindReals.sig_not_dec",
"Classical_Prop.classic",
"FunctionalExtensionality.functional_extensionality_dep"
]
],
"C24_vector_least_squares": [
"Prop_Objective",
[
"ClassicalDedekindReals.sig_forall_dec",
"ClassicalDedekindReals.sig_not_dec",
"FunctionalExtensionality.functional_extensionality_dep"
]
],
"C24_vector_jacobian": [
"Prop_Objective",
[
"ClassicalDedekindReals.sig_forall_dec",
"ClassicalDedekindReals.sig_not_dec",
"Classical_Prop.classic",
"FunctionalExtensionality.functional_extensionality_dep"
]
],
"C24_unequal_shapes_refuted": [
"Prop_Objective",
[
"ClassicalDedekindReals.sig_forall_dec",
"ClassicalDedekindReals.sig_not_dec",
"FunctionalExtensionality.functional_extensionality_dep"
]
],
"C25_minimize_model": [
"Prop_Objective",
[
"ClassicalDedekindReals.sig_forall_dec"
]
],
"C25_scalar_only": [
"Prop_Objective",
[]
],
"C26_fixed_parameters": [
"Prop_Objective",
[
"ClassicalDedekindReals.sig_forall_dec",
"ClassicalDedekindReals.sig_not_dec",
"Classical_Prop.classic",
"FunctionalExtensionality.functional_extensionality_dep"
]
],
"C27_arguments": [
"Prop_Objective",
[
"ClassicalDedekindReals.sig_forall_dec",
"ClassicalDedekindReals.sig_not_dec",
"Classical_Prop.classic",
"FunctionalExtensionality.functional_extensionality_dep"
]
],
"C27_vector_positions": [
"Prop_Objective",
[]
],
"C28_cached_invariants": [
"Prop_Objective",
[
"ClassicalDedekindReals.sig_forall_dec",
"ClassicalDedekindReals.sig_not_dec",
"Classical_Prop.classic",
"FunctionalExtensionality.functional_extensionality_dep"
]
],
"C28_new_fixed_value_ignored": [
"Prop_Objective",
[
"ClassicalDedekindReals.sig_forall_dec",
"ClassicalDedekindReals.sig_not_dec",
"Classical_Prop.classic",
"FunctionalExtensionality.functional_extensionality_dep"
]
],
"C29_equality": [
"Prop_Objective",
[
"ClassicalDedekindReals.sig_forall_dec",
"FunctionalExtensionality.functional_extensionality_dep"
]
],
"C29_reflexive": [
"Prop_Objective",
[
"ClassicalDedekindReals.sig_forall_dec",
"FunctionalExtensionality.functional_extensionality_dep"
]
],
"C29_true": [
"Prop_Objective",
[
"ClassicalDedekindReals.sig_forall_dec",
"FunctionalExtensionality.functional_extensionality_dep"
]
],
"C29_first_difference": [
"Prop_Objective",
[
"ClassicalDedekindReals.sig_forall_dec",
"FunctionalExtensionality.functional_extensionality_dep"
]
],
"C29_equality_not_symmetric_refuted": [
"Prop_Objective",
[
"ClassicalDedekindReals.sig_forall_dec",
"FunctionalExtensionality.functional_extensionality_dep"
]
],
"C30_values_shaped": [
"Prop_Objective",
[]
],
"C30_unshapeable_rejected": [
"Prop_Objective",
[]
],
"C30_derivatives_shaped": [
"Prop_Objective",
[]
],
"C30_jacobian_shape_refuted": [
"Prop_Objective",
[
"ClassicalDedekindReals.sig_forall_dec"
]
],
"C31_split_components_refuted": [
"Prop_Objective",
[
"ClassicalDedekindReals.sig_forall_dec",
"FunctionalExtensionality.functional_extensionality_dep"
]
],
"C19_C24_example": [
"Prop_Objective",
[
"ClassicalDedekindReals.sig_forall_dec",
"ClassicalDedekindReals.sig_not_dec",
"Classical_Prop.classic",
"FunctionalExtensionality.functional_extensionality_dep"
]
],
"C23_C25_example": [
"Prop_Objective",
[
"ClassicalDedekindReals.sig_forall_dec",
"FunctionalExtensionality.functional_extensionality_dep"
]
],
"C50_increasing_times": [
"Prop_Ode",
[
"ClassicalDedekindReals.sig_forall_dec",
"ClassicalDedekindReals.sig_not_dec",
"Classical_Prop.classic",
"FunctionalExtensionality.functional_extensionality_dep"
]
],
"C50_other_orders_sorted_or_rejected": [
"Prop_Ode",
[
"ClassicalDedekindReals.sig_forall_dec",
"ClassicalDedekindReals.sig_not_dec",
"Classical_Prop.classic",
"FunctionalExtensionality.functional_extensionality_dep"
]
],
"C50_failure_is_not_hidden": [
"Prop_Ode",
[
"ClassicalDedekindReals.sig_forall_dec",
"ClassicalDedekindReals.sig_not_dec",
"Classical_Prop.classic",
"FunctionalExtensionality.functional_extensionality_dep"
]
],
"C50_decreasing_times_wrong_problem": [
"Prop_Ode",
[
"ClassicalDedekindReals.sig_forall_dec",
"ClassicalDedekindReals.sig_not_dec",
"Classical_Prop.classic",
"FunctionalExtensionality.functional_extensionality_dep"
]
],
"C50_hypotheses_met": [
"Prop_Ode",
[
"ClassicalDedekindReals.sig_forall_dec",
"ClassicalDedekindReals.sig_not_dec",
"ClassicalEpsilon.constructive_indefinite_description",
"Classical_Prop.classic",
"FunctionalExtensionality.functional_extensionality_dep"
]
],
"C50_requested_order_refuted": [
"Prop_Ode",
[
"ClassicalDedekindReals.sig_forall_dec",
"ClassicalDedekindReals.sig_not_dec",
"Classical_Prop.classic",
"FunctionalExtensionality.functional_extensionality_dep"
]
],
"C51_scalar_time": [
"Prop_Ode",
[
"ClassicalDedekindReals.sig_forall_dec",
"ClassicalDedekindReals.sig_not_dec",
"Classical_Prop.classic",
"FunctionalExtensionality.functional_extensionality_dep"
]
],
"C51_one_element_array": [
"Prop_Ode",
[
"ClassicalDedekindReals.sig_forall_dec",
"ClassicalDedekindReals.sig_not_dec",
"Classical_Prop.classic",
"FunctionalExtensionality.functional_extensionality_dep"
]
],
"C51_array_of_initial_time_refuted": [
"Prop_Ode",
[
"ClassicalDedekindReals.sig_forall_dec",
"ClassicalDedekindReals.sig_not_dec",
"Classical_Prop.classic",
"FunctionalExtensionality.functional_extensionality_dep"
]
],
"C51_case": [
"Prop_Ode",
[
"ClassicalDedekindReals.sig_forall_dec",
"ClassicalDedekindReals.sig_not_dec",
"Classical_Prop.classic",
"FunctionalExtensionality.functional_extensionality_dep"
]
],
"C52_construction": [
"Prop_Ode",
[
"ClassicalDedekindReals.sig_forall_dec",
"FunctionalExtensionality.functional_extensionality_dep"
]
],
"C52_system_and_jacobian": [
"Prop_Ode",
[
"ClassicalDedekindReals.sig_forall_dec",
"ClassicalDedekindReals.sig_not_dec",
"Classical_Prop.classic",
"FunctionalExtensionality.functional_extensionality_dep"
]
],
"C52_case": [
"Prop_Ode",
[
"ClassicalDedekindReals.sig_forall_dec",
"ClassicalDedekindReals.sig_not_dec",
"Classical_Prop.classic",
"FunctionalExtensionality.functional_extensionality_dep"
]
],
"C53_lookup": [
"Prop_Ode",
[
"ClassicalDedekindReals.sig_forall_dec",
"FunctionalExtensionality.functional_extensionality_dep"
]
],
"C53_membership_refuted": [
"Prop_Ode",
[
"ClassicalDedekindReals.sig_forall_dec",
"FunctionalExtensionality.functional_extensionality_dep"
]
],
"C62_integrator_settings": [
"Prop_Ode",
[
"ClassicalDedekindReals.sig_forall_dec",
"FunctionalExtensionality.functional_extensionality_dep"
]
],
"C62_settings_reach_the_integrator": [
"Prop_Ode",
[
"ClassicalDedekindReals.sig_forall_dec",
"ClassicalDedekindReals.sig_not_dec",
"Classical_Prop.classic",
"FunctionalExtensionality.functional_extensionality_dep"
]
],
"C62_case": [
"Prop_Ode",
[
"ClassicalDedekindReals.sig_forall_dec",
"FunctionalExtensionality.functional_extensionality_dep"
]
],
"C63_negation": [
"Prop_Ode",
[
"ClassicalDedekindReals.sig_forall_dec",
"ClassicalDedekindReals.sig_not_dec",
"Classical_Prop.classic",
"FunctionalExtensionality.functional_extensionality_dep"
]
],
"C63_settings_lost": [
"Prop_Ode",
[
"ClassicalDedekindReals.sig_forall_dec",
"FunctionalExtensionality.functional_extensionality_dep"
]
],
"C63_mulm1": [
"Prop_Ode",
[
"ClassicalDedekindReals.sig_forall_dec",
"ClassicalDedekindReals.sig_not_dec",
"Classical_Prop.classic",
"FunctionalExtensionality.functional_extensionality_dep"
]
],
"C64_order_of_derivative_ignored": [
"Prop_Ode",
[
"ClassicalDedekindReals.sig_forall_dec",
"ClassicalDedekindReals.sig_not_dec",
"Classical_Prop.classic",
"FunctionalExtensionality.functional_extensionality_dep"
]
],
"C64_case": [
"Prop_Ode",
[
"ClassicalDedekindReals.sig_forall_dec",
"FunctionalExtensionality.functional_extensionality_dep"
]
],
"C76_gradient_error": [
"Prop_OdeErr",
[
"ClassicalDedekindReals.sig_forall_dec",
"ClassicalDedekindReals.sig_not_dec",
"Classical_Prop.classic",
"FunctionalExtensionality.functional_extensionality_dep"
]
],
"C76_gradient_example": [
"Prop_OdeErr",
[
"ClassicalDedekindReals.sig_forall_dec",
"ClassicalDedekindReals.sig_not_dec",
"ClassicalEpsilon.constructive_indefinite_description",
"Classical_Prop.classic",
"FunctionalExtensionality.functional_extensionality_dep"
]
],
"C76_ode_fit_problem": [
"Prop_OdeFit",
[
"ClassicalDedekindReals.sig_forall_dec",
"ClassicalDedekindReals.sig_not_dec",
"Classical_Prop.classic",
"FunctionalExtensionality.functional_extensionality_dep"
]
],
"C76_ode_best_fit": [
"Prop_OdeFit",
[
"ClassicalDedekindReals.sig_forall_dec",
"ClassicalDedekindReals.sig_not_dec",
"Classical_Prop.classic",
"FunctionalExtensionality.functional_extensionality_dep"
]
],
"C76_ode_covariance": [
"Prop_OdeFit",
[
"ClassicalDedekindReals.sig_forall_dec",
"ClassicalDedekindReals.sig_not_dec",
"Classical_Prop.classic",
"FunctionalExtensionality.functional_extensionality_dep"
]
],
"C76_unsorted_times_misaligned": [
"Prop_OdeFit",
[
"ClassicalDedekindReals.sig_forall_dec",
"ClassicalDedekindReals.sig_not_dec",
"Classical_Prop.classic",
"FunctionalExtensionality.functional_extensionality_dep"
]
],
"C76_example": [
"Prop_OdeFit",
[
"ClassicalDedekindReals.sig_forall_dec",
"ClassicalDedekindReals.sig_not_dec",
"ClassicalEpsilon.constructive_indefinite_description",
"Classical_Prop.classic",
"FunctionalExtensionality.functional_extensionality_dep"
]
],
"C76_unsorted_times_refuted": [
"Prop_OdeFit",
[
"ClassicalDedekindReals.sig_forall_dec",
"ClassicalDedekindReals.sig_not_dec",
"ClassicalEpsilon.constructive_indefinite_description",
"Classical_Prop.classic",
"FunctionalExtensionality.functional_extensionality_dep"
]
],
"C87_same_fit": [
"Prop_Points",
[
"ClassicalDedekindReals.sig_forall_dec",
"ClassicalDedekindReals.sig_not_dec",
"Classical_Prop.classic",
"FunctionalExtensionality.functional_extensionality_dep"
]
],
"C87_same_result": [
"Prop_Points",
[
"ClassicalDedekindReals.sig_forall_dec",
"ClassicalDedekindReals.sig_not_dec",
"Classical_Prop.classic",
"FunctionalExtensionality.functional_extensionality_dep"
]
],
"C87_example": [
"Prop_Points",
[
"ClassicalDedekindReals.sig_forall_dec",
"ClassicalDedekindReals.sig_not_dec",
"ClassicalEpsilon.constructive_indefinite_description",
"Classical_Prop.classic",
"FunctionalExtensionality.functional_extensionality_dep"
]
],
"C92_same_fit": [
"Prop_Rename",
[
"ClassicalDedekindReals.sig_forall_dec",
"ClassicalDedekindReals.sig_not_dec",
"Classical_Prop.classic",
"FunctionalExtensionality.functional_extensionality_dep"
]
],
"C92_same_report": [
"Prop_Rename",
[
"ClassicalDedekindReals.sig_forall_dec",
"ClassicalDedekindReals.sig_not_dec",
"Classical_Prop.classic",
"FunctionalExtensionality.functional_extensionality_dep"
]
],
"C92_example": [
"Prop_Rename",
[
"ClassicalDedekindReals.sig_forall_dec",
"ClassicalDedekindReals.sig_not_dec",
"ClassicalEpsilon.constructive_indefinite_description",
"Classical_Prop.classic",
"FunctionalExtensionality.functional_extensionality_dep"
]
],
"C82_report_lines": [
"Prop_Report",
[
"ClassicalDedekindReals.sig_forall_dec",
"ClassicalDedekindReals.sig_not_dec",
"Classical_Prop.classic",
"FunctionalExtensionality.functional_extensionality_dep"
]
],
"C82_least_squares": [
"Prop_Report",
[
"ClassicalDedekindReals.sig_forall_dec",
"ClassicalDedekindReals.sig_not_dec",
"Classical_Prop.classic",
"FunctionalExtensionality.functional_extensionality_dep"
]
],
"C82_example": [
"Prop_Report",
[
"ClassicalDedekindReals.sig_forall_dec",
"ClassicalDedekindReals.sig_not_dec",
"Classical_Prop.classic",
"FunctionalExtensionality.functional_extensionality_dep"
]
],
"C82_answer_tells_constraint_holds_refuted": [
"Prop_Report",
[
"ClassicalDedekindReals.sig_forall_dec",
"ClassicalDedekindReals.sig_not_dec",
"ClassicalEpsilon.constructive_indefinite_description",
"Classical_Prop.classic",
"FunctionalExtensionality.functional_extensionality_dep"
]
],
"C82_column": [
"Prop_Report",
[]
],
"C82_joined": [
"Prop_Report",
[]
],
"C83_model_text": [
"Prop_Report",
[]
],
"C83_same_text": [
"Prop_Report",
[]
],
"C83_example": [
"Prop_Report",
[]
],
"C46_lookups": [
"Prop_Results",
[
"ClassicalDedekindReals.sig_forall_dec",
"ClassicalDedekindReals.sig_not_dec",
"FunctionalExtensionality.functional_extensionality_dep"
]
],
"C46_foreign_parameter": [
"Prop_Results",
[
"ClassicalDedekindReals.sig_forall_dec",
"ClassicalDedekindReals.sig_not_dec",
"FunctionalExtensionality.functional_extensionality_dep"
]
],
"C46_fit_report": [
"Prop_Results",
[
"ClassicalDedekindReals.sig_forall_dec",
"ClassicalDedekindReals.sig_not_dec",
"FunctionalExtensionality.functional_extensionality_dep"
]
],
"C46_covariance_none_refuted": [
"Prop_Results",
[]
],
"C46_example": [
"Prop_Results",
[
"ClassicalDedekindReals.sig_forall_dec",
"ClassicalDedekindReals.sig_not_dec",
"FunctionalExtensionality.functional_extensionality_dep"
]
],
"C47_least_squares": [
"Prop_Results",
[
"ClassicalDedekindReals.sig_forall_dec",
"ClassicalDedekindReals.sig_not_dec",
"Classical_Prop.classic",
"FunctionalExtensionality.functional_extensionality_dep"
]
],
"C47_vector_least_squares": [
"Prop_Results",
[
"ClassicalDedekindReals.sig_forall_dec",
"ClassicalDedekindReals.sig_not_dec",
"Classical_Prop.classic",
"FunctionalExtensionality.functional_extensionality_dep"
]
],
"C47_log_likelihood": [
"Prop_Results",
[
"ClassicalDedekindReals.sig_forall_dec",
"ClassicalDedekindReals.sig_not_dec",
"Classical_Prop.classic",
"FunctionalExtensionality.functional_extensionality_dep"
]
],
"C47_r_squared_range": [
"Prop_Results",
[
"ClassicalDedekindReals.sig_forall_dec",
"FunctionalExtensionality.functional_extensionality_dep"
]
],
"C47_attributes": [
"Prop_Results",
[]
],
"C47_r_squared_refuted": [
"Prop_Results",
[
"ClassicalDedekindReals.sig_forall_dec",
"FunctionalExtensionality.functional_extensionality_dep"
]
],
"C47_example": [
"Prop_Results",
[
"ClassicalDedekindReals.sig_forall_dec",
"ClassicalDedekindReals.sig_not_dec",
"Classical_Prop.classic",
"FunctionalExtensionality.functional_extensionality_dep"
]
],
"C48_pickle_classes": [
"Prop_Results",
[]
],
"C48_pickle_rest_is_lost": [
"Prop_Results",
[]
],
"C48_pickle_gradient_free": [
"Prop_Results",
[
"ClassicalDedekindReals.sig_forall_dec",
"ClassicalDedekindReals.sig_not_dec",
"FunctionalExtensionality.functional_extensionality_dep"
]
],
"C48_pickle_refuted": [
"Prop_Results",
[
"ClassicalDedekindReals.sig_forall_dec",
"ClassicalDedekindReals.sig_not_dec",
"FunctionalExtensionality.functional_extensionality_dep"
]
],
"C48_example": [
"Prop_Results",
[
"ClassicalDedekindReals.sig_forall_dec",
"ClassicalDedekindReals.sig_not_dec",
"FunctionalExtensionality.functional_extensionality_dep"
]
],
"C49_plain": [
"Prop_Results",
[
"ClassicalDedekindReals.sig_forall_dec",
"FunctionalExtensionality.functional_extensionality_dep"
]
],
"C49_equal": [
"Prop_Results",
[
"ClassicalDedekindReals.sig_forall_dec",
"FunctionalExtensionality.functional_extensionality_dep"
]
],
"C49_first_difference": [
"Prop_Results",
[
"ClassicalDedekindReals.sig_forall_dec",
"FunctionalExtensionality.functional_extensionality_dep"
]
],
"C49_other_differences": [
"Prop_Results",
[
"ClassicalDedekindReals.sig_forall_dec",
"FunctionalExtensionality.functional_extensionality_dep"
]
],
"C49_arrays_refuted": [
"Prop_Results",
[
"ClassicalDedekindReals.sig_forall_dec",
"FunctionalExtensionality.functional_extensionality_dep"
]
],
"C88_same_fit": [
"Prop_Same",
[
"ClassicalDedekindReals.sig_forall_dec",
"ClassicalDedekindReals.sig_not_dec",
"Classical_Prop.classic",
"FunctionalExtensionality.functional_extensionality_dep"
]
],
"C88_same_result": [
"Prop_Same",
[
"ClassicalDedekindReals.sig_forall_dec",
"ClassicalDedekindReals.sig_not_dec",
"Classical_Prop.classic",
"FunctionalExtensionality.functional_extensionality_dep"
]
],
"C88_written_out_example": [
"Prop_Same",
[
"ClassicalDedekindReals.sig_forall_dec",
"ClassicalDedekindReals.sig_not_dec",
"ClassicalEpsilon.constructive_indefinite_description",
"Classical_Prop.classic",
"FunctionalExtensionality.functional_extensionality_dep"
]
],
"C88_constant_example": [
"Prop_Same",
[
"ClassicalDedekindReals.sig_forall_dec",
"ClassicalDedekindReals.sig_not_dec",
"ClassicalEpsilon.constructive_indefinite_description",
"Classical_Prop.classic",
"FunctionalExtensionality.functional_extensionality_dep"
]
],
"C88_written_out_refuted": [
"Prop_Same",
[
"ClassicalDedekindReals.sig_forall_dec",
"ClassicalDedekindReals.sig_not_dec",
"Classical_Prop.classic",
"FunctionalExtensionality.functional_extensionality_dep"
]
],
"C58_derivative_names_unambiguous": [
"Prop_Support",
[]
],
"C58_first_derivative_names_unambiguous": [
"Prop_Support",
[]
],
"C58_derivative_is_not_an_argument_name": [
"Prop_Support",
[]
],
"C58_first_order_collision_refuted": [
"Prop_Support",
[]
],
"C58_second_order_collision_refuted": [
"Prop_Support",
[]
],
"C58_nontrivial": [
"Prop_Support",
[]
],
"C59_expression_call": [
"Prop_Support",
[]
],
"C59_wrong_arguments_rejected": [
"Prop_Support",
[]
],
"C59_arguments_determined": [
"Prop_Support",
[]
],
"C59_same_names": [
"Prop_Support",
[]
],
"C59_nontrivial": [
"Prop_Support",
[]
],
"C66_functions_keep_symbol_names": [
"Prop_Support",
[]
],
"C66_nontrivial": [
"Prop_Support",
[]
],
"C60_printed_code_evaluates_to_expression": [
"Prop_Support",
[]
],
"C60_power_of_sum_refuted": [
"Prop_Support",
[]
],
"C60_product_of_sum_refuted": [
"Prop_Support",
[]
],
"C60_third_factor_refuted": [
"Prop_Support",
[]
],
"C60_power_of_power_refuted": [
"Prop_Support",
[]
],
"C60_nontrivial": [
"Prop_Support",
[]
],
"C61_gaussian_normalised": [
"Prop_Support",
[
"ClassicalDedekindReals.sig_forall_dec",
"ClassicalDedekindReals.sig_not_dec",
"Classical_Prop.classic",
"FunctionalExtensionality.functional_extensionality_dep"
]
],
"C61_gaussian_shape": [
"Prop_Support",
[
"ClassicalDedekindReals.sig_forall_dec",
"ClassicalDedekindReals.sig_not_dec",
"Classical_Prop.classic",
"FunctionalExtensionality.functional_extensionality_dep"
]
],
"C61_bivariate_marginals": [
"Prop_Support",
[
"ClassicalDedekindReals.sig_forall_dec",
"ClassicalDedekindReals.sig_not_dec",
"Classical_Prop.classic",
"FunctionalExtensionality.functional_extensionality_dep"
]
],
"C61_bivariate_independent": [
"Prop_Support",
[
"ClassicalDedekindReals.sig_forall_dec",
"ClassicalDedekindReals.sig_not_dec",
"FunctionalExtensionality.functional_extensionality_dep"
]
],
"C61_exp_normalised": [
"Prop_Support",
[
"ClassicalDedekindReals.sig_forall_dec",
"ClassicalDedekindReals.sig_not_dec",
"Classical_Prop.classic",
"FunctionalExtensionality.functional_extensionality_dep"
]
],
"C61_exp_support_refuted": [
"Prop_Support",
[
"ClassicalDedekindReals.sig_forall_dec",
"ClassicalDedekindReals.sig_not_dec",
"FunctionalExtensionality.functional_extensionality_dep"
]
],
"C61_nontrivial": [
"Prop_Support",
[
"ClassicalDedekindReals.sig_forall_dec",
"FunctionalExtensionality.functional_extensionality_dep"
]
],
"C67_dependent_by_depth": [
"Prop_Twin",
[]
],
"C91_same_arguments": [
"Prop_Twin",
[]
],
"C91_same_call": [
"Prop_Twin",
[]
],
"C91_fit_problem": [
"Prop_Twin",
[
"ClassicalDedekindReals.sig_forall_dec",
"ClassicalDedekindReals.sig_not_dec",
"Classical_Prop.classic",
"FunctionalExtensionality.functional_extensionality_dep"
]
],
"C91_same_fit": [
"Prop_Twin",
[
"ClassicalDedekindReals.sig_forall_dec",
"ClassicalDedekindReals.sig_not_dec",
"Classical_Prop.classic",
"FunctionalExtensionality.functional_extensionality_dep"
]
],
"C91_best_fit": [
"Prop_Twin",
[
"ClassicalDedekindReals.sig_forall_dec",
"ClassicalDedekindReals.sig_not_dec",
"Classical_Prop.classic",
"FunctionalExtensionality.functional_extensionality_dep"
]
],
"C91_result": [
"Prop_Twin",
[
"ClassicalDedekindReals.sig_forall_dec",
"ClassicalDedekindReals.sig_not_dec",
"Classical_Prop.classic",
"FunctionalExtensionality.functional_extensionality_dep"
]
],
"C91_example": [
"Prop_Twin",
[
"ClassicalDedekindReals.sig_forall_dec",
"ClassicalDedekindReals.sig_not_dec",
"ClassicalEpsilon.constructive_indefinite_description",
"Classical_Prop.classic",
"FunctionalExtensionality.functional_extensionality_dep"
]
],
"C90_numerical_problem": [
"Prop_Vec",
[
"ClassicalDedekindReals.sig_forall_dec",
"ClassicalDedekindReals.sig_not_dec",
"Classical_Prop.classic",
"FunctionalExtensionality.functional_extensionality_dep"
]
],
"C90_numerical_best_fit": [
"Prop_Vec",
[
"ClassicalDedekindReals.sig_forall_dec",
"ClassicalDedekindReals.sig_not_dec",
"Classical_Prop.classic",
"FunctionalExtensionality.functional_extensionality_dep"
]
],
"C90_numerical_result": [
"Prop_Vec",
[
"ClassicalDedekindReals.sig_forall_dec",
"ClassicalDedekindReals.sig_not_dec",
"Classical_Prop.classic",
"FunctionalExtensionality.functional_extensionality_dep"
]
],
"C90_ode_problem": [
"Prop_Vec",
[
"ClassicalDedekindReals.sig_forall_dec",
"ClassicalDedekindReals.sig_not_dec",
"Classical_Prop.classic",
"FunctionalExtensionality.functional_extensionality_dep"
]
],
"C90_ode_best_fit": [
"Prop_Vec",
[
"ClassicalDedekindReals.sig_forall_dec",
"ClassicalDedekindReals.sig_not_dec",
"Classical_Prop.classic",
"FunctionalExtensionality.functional_extensionality_dep"
]
],
"C90_ode_covariance": [
"Prop_Vec",
[
"ClassicalDedekindReals.sig_forall_dec",
"ClassicalDedekindReals.sig_not_dec",
"Classical_Prop.classic",
"FunctionalExtensionality.functional_extensionality_dep"
]
],
"C90_different_sizes_rejected": [
"Prop_Vec",
[
"ClassicalDedekindReals.sig_forall_dec",
"ClassicalDedekindReals.sig_not_dec",
"Classical_Prop.classic",
"FunctionalExtensionality.functional_extensionality_dep"
]
],
"C90_global_problem": [
"Prop_Vec",
[
"ClassicalDedekindReals.sig_forall_dec",
"ClassicalDedekindReals.sig_not_dec",
"Classical_Prop.classic",
"FunctionalExtensionality.functional_extensionality_dep"
]
],
"C90_global_best_fit": [
"Prop_Vec",
[
"ClassicalDedekindReals.sig_forall_dec",
"ClassicalDedekindReals.sig_not_dec",
"Classical_Prop.classic",
"FunctionalExtensionality.functional_extensionality_dep"
]
],
"C90_global_covariance": [
"Prop_Vec",
[
"ClassicalDedekindReals.sig_forall_dec",
"ClassicalDedekindReals.sig_not_dec",
"Classical_Prop.classic",
"FunctionalExtensionality.functional_extensionality_dep"
]
],
"C90_numerical_example": [
"Prop_Vec",
[
"ClassicalDedekindReals.sig_forall_dec",
"ClassicalDedekindReals.sig_not_dec",
"Classical_Prop.classic",
"FunctionalExtensionality.functional_extensionality_dep"
]
],
"C90_ode_example": [
"Prop_Vec",
[
"ClassicalDedekindReals.sig_forall_dec",
"ClassicalDedekindReals.sig_not_dec",
"ClassicalEpsilon.constructive_indefinite_description",
"Classical_Prop.classic",
"FunctionalExtensionality.functional_extensionality_dep"
]
],
"C90_rejected_example": [
"Prop_Vec",
[
"ClassicalDedekindReals.sig_forall_dec",
"ClassicalDedekindReals.sig_not_dec",
"ClassicalEpsilon.constructive_indefinite_description",
"Classical_Prop.classic",
"FunctionalExtensionality.functional_extensionality_dep"
]
],
"C90_global_example": [
"Prop_Vec",
[
"ClassicalDedekindReals.sig_forall_dec",
"ClassicalDedekindReals.sig_not_dec",
"ClassicalEpsilon.constructive_indefinite_description",
"Classical_Prop.classic",
"FunctionalExtensionality.functional_extensionality_dep"
]
]
}