{
 "C03": "Proved for all model dicts. The unguarded claim 'every Parameter used as a component name is rejected' is false: with a constant expression it is accepted and becomes a parameter (C03_constant_parameter_component_refuted).",
 "C04": "Proved for all model dicts. The claim one would like, that every component nobody uses is dependent and every component is in a list, is false: C04_unused_component_not_dependent_refuted (a shallow unused component is only interdependent, so no data can be given for it), C04_constant_component_unlisted_refuted.",
 "C08": "Proved for all numerical models. The desirable claim that they can be negated is refuted by C08_numerical_negation_refuted (the constructor is called with a pair in place of the two arguments it needs).",
 "C09": "Proved for all models. Above 256 components a model is not equal even to itself (C09_reflexivity_refuted): `is not` on the lengths.",
 "C13": "Proved. When a component refers to one that refers to a third depending on the same parameter the Jacobian model cannot be built (NameError, C13_deep_chain_refuted): no Jacobian rather than a wrong one.",
 "C14": "Proved; the Hessian model exists for the models of C13_shallow_models_have_jacobian, and whatever eval_hessian returns is right (C14_returned_hessian).",
 "C03:status": "proved",
 "C04:status": "proved",
 "C08:status": "proved",
 "C09:status": "proved",
 "C13:status": "proved",
 "C14:status": "proved",
 "C20": "Proved for all models, data and parameter values. Without dependent data the gradient has length 1 instead of the number of parameters (C20_no_data, C20_no_data_refuted).",
 "C20:status": "proved",
 "C24": "Proved. For data of different shapes the components are added before the root is taken and broadcast against each other, so the sum is not chi^2 (C24_unequal_shapes_refuted).",
 "C24:status": "proved",
 "C29": "Proved. Otherwise the comparison may be asymmetric, raise KeyError or UnboundLocalError (C29_equality_not_symmetric_refuted).",
 "C29:status": "proved",
 "C30": "Proved for all shapes. In the excluded case the array is taken as already shaped (C30_jacobian_shape_refuted).",
 "C30:status": "proved",
 "C31": "Proved (C31_split_components_refuted is the general statement and refutes the documented behaviour: a list is divided by 2).",
 "C31:status": "proved",
 "C34": "Proved for all parameter lists and fixed subsets. C34_square_matrix_refuted is the general k >= 2 statement.",
 "C34:status": "proved",
 "C36": "Proved for all chains and fixed subsets. With fixed parameters the start vector has the wrong length for scipy (C36_fixed_parameter_refuted).",
 "C36:status": "proved",
 "C37": "Proved for all lists of constraints. Refuted: own Hessian (C37_late_binding_refuted), Jacobians of vector-valued constraints arrive transposed (C37_vector_constraint_refuted), sympy Le given directly is a KeyError (C37_less_equal_refuted).",
 "C37:status": "proved",
 "C38": "Proved for all orders. For another order the reported values are permuted (C38_other_order_refuted).",
 "C38:status": "proved",
 "C41": "Proved for every Fit that can be created. Creation fails for a dependent variable given as a Python number and for a 0-dimensional array as sigma (C41_number_data_refuted).",
 "C41:status": "proved",
 "C43": "Proved. For data that is a Python number the fit raises AttributeError (C43_number_data_refuted).",
 "C43:status": "proved",
 "C44": "Proved for all data. C44_shared_shape_refuted: the general statement that it is too small when two shapes coincide.",
 "C44:status": "proved",
 "C46": "Proved. One would expect None from covariance() without a matrix: C46_covariance_none_refuted.",
 "C46:status": "proved",
 "C47": "Proved. Otherwise r_squared is wrong or the fit fails (C47_r_squared_refuted).",
 "C47:status": "proved",
 "C48": "Proved. So the reloaded minimizer is in general not equivalent, and nested chains do not load (C48_pickle_refuted).",
 "C48:status": "proved",
 "C49": "Proved. A boolean is not always returned (C49_arrays_refuted).",
 "C49:status": "proved",
 "C50": "Proved for every exact integrator. 'In the order requested' is false in general (C50_requested_order_refuted).",
 "C50:status": "proved",
 "C51": "Proved. C51_array_of_initial_time_refuted is the general statement about the array [t0].",
 "C51:status": "proved",
 "C53": "Proved. So membership does not tell whether v is an unknown (C53_membership_refuted).",
 "C53:status": "proved",
 "C55": "Proved for all creation histories. The three provisos are needed: C55_user_name_refuted, C55_subclass_refuted, C55_empty_name_refuted.",
 "C55:status": "proved",
 "C56": "Proved. Not so for fixed Parameters with crossed bounds (accepted, min and max unset: C56_fixed_crossed_refuted), and a rejected creation has changed the existing object of that name (C56_rejected_creation_changes_refuted).",
 "C56:status": "proved",
 "C57": "Proved. Mixed single/sequence bounds are not compared, iterators are consumed by the check, a rejected call assigns attributes (C57_mixed_bounds_refuted, C57_iterator_bounds_refuted, C57_rejected_call_changes_refuted).",
 "C57:status": "proved",
 "C58": "Proved. Both restrictions are needed: C58_first_order_collision_refuted, C58_second_order_collision_refuted.",
 "C58:status": "proved",
 "C60": "Proved for all such nested expressions. Each restriction is needed (four refuted theorems).",
 "C60:status": "proved",
 "C61": "Proved. Exp is positive for negative x (C61_exp_support_refuted).",
 "C61:status": "proved",
 "C65": "Proved. The reset of the live object is C65_loading_resets_refuted.",
 "C65:status": "proved",
 "C74": "Proved. Negative values without a maximum are changed by opening the window (C74_negative_guess_refuted).",
 "C74:status": "proved",
 "C75": "Proved, for data that differ along the axis in question (n-D averages). Error bars as documented are refuted (C75_error_bars_refuted).",
 "C75:status": "proved",
 "C76": "Proved. For unsorted times without the initial time C76_unsorted_times_misaligned gives the exact objective (data compared with the solution at the sorted times); C76_unsorted_times_refuted shows exact data for which the true parameters are not the fit.",
 "C76:status": "proved",
 "C77": "Proved; a number returned for a component counts as an array with one element (np.atleast_1d).",
 "C77:status": "proved",
 "C78": "Proved; callables, objectives and constraints themselves are assumed to survive pickling.",
 "C78:status": "proved",
 "C79": "guards: BasinHopping with a local minimizer that is one of BFGS, SLSQP, COBYLA, LBFGSB, NelderMead, Powell; MINPACK with a jacobian and method that are not falsy; chains whose minimizers are not chains and whose nested option dictionaries are not shared. Positional arguments to execute are not modelled (Fit passes none).",
 "C79:status": "proved",
 "C80": "Proved for all three classes; examples instantiate every hypothesis for each class.",
 "C80:status": "proved",
 "C81": "C81_constraint_jacobian is proved for data on a line of N points. The layout scipy expects (one row per value) is refuted: C81_scipy_layout_refuted exhibits a fit with two points and two parameters in which scipy silently gets the transpose.",
 "C81:status": "proved",
 "C82": "C82_report_lines for every objective and single minimizer, C82_least_squares with the explicit goodness of fit lines. Status, objective and minimizer texts are inputs. Finding: the answer is the value at the first data point only (C82_answer_tells_constraint_holds_refuted).",
 "C82:status": "proved",
 "C83": "C83_model_text and C83_same_text (distinct names).",
 "C83:status": "proved",
 "C84": "The unguarded claim (with fixed parameters) is refuted by C84_fixed_parameter_refuted: there a second, never worsening NelderMead spoils a perfect fit.",
 "C84:status": "proved",
 "C85": "",
 "C85:status": "proved",
 "C86": "The hypotheses are needed: see the three refuted theorems.",
 "C86:status": "proved",
 "C87": "Example: three points reversed and put in a 1x3 array, for all parameter attributes and minimizer classes.",
 "C87:status": "proved",
 "C88": "Examples: y written out of {y: a*x, z: y**2 + a*b}; b fixed at 5 replaced by 5. Writing out can change which components are dependent (C04): refuted in C88_written_out_refuted.",
 "C88:status": "proved",
 "C89": "C89_fit_problem, C89_best_fit and C89_covariance hold for symbolic models (class Model) with the LeastSquares objective. C89_example: y = a*x with three points and z = b*w + a with two.",
 "C89:status": "proved",
 "C90": "Where a residual is zero the root is not differentiable; nothing is claimed there about the Jacobian.",
 "C90:status": "proved",
 "C91": "Proved.",
 "C91:status": "proved",
 "C92": "C92_same_fit, C92_same_report; C92_replaced: replacing the symbols in the dict is such a renaming; C92_example: [{y: a*x, z: y**2 + a*b}] with names that reverse both orders and [b] fixed.",
 "C92:status": "proved"
}