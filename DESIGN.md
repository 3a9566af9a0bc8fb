# Formal model of symfit in Rocq (Coq 8.16.1)

## 1. Approach

The code in /repo is read as text and modelled function by function as total Gallina functions.
Exceptions are values (`res A = Ok a | Err e`, `PyBase.v`), dicts are association lists in
insertion order, objects that are mutated are heaps or records threaded through the functions.
Every definition of a model file carries a comment with the file and lines of /repo it models and
says what is simplified. The layers:

| files | code modelled |
|---|---|
| `PyBase`, `PyFacts` | python dicts, sorting, exceptions, `map` that may raise |
| `Toposort` | the `toposort` package loop used by `BaseModel.ordered_symbols` |
| `Signature` | `inspect.Signature.bind` for the signatures symfit builds |
| `Expr`, `ExprR`, `ExprCall`, `Cast` | sympy expressions (`expr`), their evaluation in an arbitrary algebra, `sympy_to_py`, `seperate_symbols`, `Expr.__call__` |
| `Model` | `BaseModel`, `BaseCallableModel`, `CallableModel`, `BaseNumericalModel` (construction), `ModelOutput`, `as_constraint`, `with_dependencies`, `__neg__`, `__eq__`, `bounds`, `shared_parameters` |
| `Jacobian`, `DerModel` | `jacobian_from_model`, `hessian_from_model`, `GradientModel`, `HessianModel` and their cached derivative models |
| `FiniteDiff` | `BaseGradientModel.finite_difference` |
| `NumModel` | `CallableNumericalModel` and its equality |
| `NumPy`, `Objective` | the numpy operations used (shapes, broadcasting, masks, sums) and all objectives |
| `ArrModel` | symbolic models evaluated on numpy arrays (the real `CallableModel`, `GradientModel`, `Model` seen by an objective) |
| `Minimizer` | all minimizer classes, wrapped objectives, constraints, chained minimizers, BasinHopping |
| `Fit` | `TakesData`, `HasCovarianceMatrix`, `Fit` |
| `Guess` | `InteractiveGuess` (contrib) |
| `Results` | `FitResults` |
| `Cached`, `Pickle` | `cached_property`, pickling of models and constraints |
| `Ode` | `ODEModel` |
| `Args` | `Argument`, `Parameter`, `Variable`, `parameters`, `variables`, their pickling |
| `DerNames`, `Printing`, `Distributions` | names of derivatives, the sympy printers, `distributions.py` |

`*Spec.v` files hold the small independent specifications the theorem statements use; `*Facts`,
`*Lemmas`, `*Main` hold proofs; `Prop_*.v` hold only the property theorems, `Print Assumptions`
and, beside each theorem, an `Example` that a concrete non-trivial case meets the hypotheses.

Where a property one would like is false of the code there is a theorem with suffix `_refuted`
that proves the negation (from a concrete witness or in general), and the property is stated with
the exact guard under which it holds; `properties.jsonl` keeps the refuted wording next to it
(`unguarded_claim_refuted`).

## 2. Trusted base

* Coq's kernel (8.16.1) and the standard library. Coquelicot's lemmas are used (no axioms of
  its own); no other library contributes axioms. No axiom, parameter or section-less hypothesis is
  declared in this development, no functors, no module types, nothing is admitted.
* Axioms reported by `Print Assumptions`, all from the standard library, mostly those of `Reals`:
  - **F** `ClassicalDedekindReals.sig_forall_dec`
  - **N** `ClassicalDedekindReals.sig_not_dec`
  - **X** `FunctionalExtensionality.functional_extensionality_dep`
  - **C** `Classical_Prop.classic`
  - **E** `ClassicalEpsilon.constructive_indefinite_description` (in Examples and `_refuted` theorems only)
  The set for each theorem is listed in section 5.
* The correspondence of the model with the code, which is by reading: the comments at the
  definitions say what is modelled where.

## 3. Third-party behaviour

* **sympy**: expressions are trees over variables, parameters and derivative symbols. Rewritings
  sympy may apply (subtraction, multiplication by -1, `expand`, simplification of derivatives) are
  universally quantified functions assumed only to preserve meaning (and not to invent symbols).
  Iteration order of python sets is a universally quantified function that returns a permutation.
* **numpy**: modelled explicitly: shapes (stored last axis first), broadcasting, `sum`, `nansum`,
  masks, fancy indexing, `np.stack`, `atleast_2d`. `np.linalg.inv` is any function that inverts
  invertible matrices. Floats are real numbers: no rounding, NaN only as the "undefined" value of
  `log` in `LogLikelihood`.
* **scipy**: `scipy.optimize` is an arbitrary function from the problem handed to it to an answer;
  theorems about quality of fits assume that the answer is a minimum of the problem handed over.
  `solve_ivp` is any function meeting a stated exactness contract.
* **matplotlib** (C74, C75): a `Slider` is any function of its ends and the wanted value; a line is the list of its
  points. `np.percentile` is any function (with the contract the theorem states).
* **inspect / pickle / functools**: modelled from their documented behaviour.

## 4. Not modelled

* Floating-point rounding, overflow, warnings, `_repr_latex_`, deprecation wrappers. How numbers and
  expressions are turned into text (C82, C83 take it as any function).
* `contrib/interactive_guess`: drawing of the data (scatter and contour plots), titles and colours.
* sympy itself (its canonical forms, lambdify's code generation beyond name handling), matrix
  valued models (MatrixSymbol) beyond printing, `Idx`/`Indexed` beyond being skipped.
* Concurrency: symfit has none.
* Where a simplification is local to a definition it is named in that definition's comment.

### Deviations found in the code

These are proved as `_refuted` theorems, or noted in comments where they fall outside a property:

1. `HessianMinimizer.resize_hess`: `out[mask, mask]` takes the diagonal, so two or more free
   parameters give a 1 x k matrix when a parameter is fixed (C34).
2. `TrustConstr.scipy_constraints`: the Hessian lambda binds the loop variable late, every
   constraint gets the last one's Hessian (C37). Vector-valued constraint Jacobians reach scipy
   transposed (C37). A `sympy.Le` given to a minimizer directly raises KeyError (C37).
3. `ChainedMinimizer.execute`: the next guess lists all parameters including fixed ones (C36), so a chain can
   spoil the perfect fit of its first member (C84);
   a user class called `BFGS_2` collides with the generated option name (C35).
4. Only the top layer of the dependency order is "dependent"; constant components are in no list;
   a model `{y: 3}` raises IndexError (C04). A Parameter with a constant expression is accepted as
   a component (C03).
5. `BaseNumericalModel.__neg__` always raises TypeError (C08); `ODEModel.__neg__` drops the
   integrator's keyword arguments (C63).
6. `BaseModel.__eq__` compares lengths with `is not`: above 256 components never equal (C09).
7. `Parameter(min > max, fixed=True)` is accepted and has no bounds; a rejected creation has
   already changed the shared object of that name (C56); `parameters()` does not compare mixed
   single/sequence bounds, loses iterators, and sets attributes although it raises (C57); loading
   a pickled Parameter resets the live one (C65).
8. `data_shapes` is a set, so the degrees of freedom count components of equal shape once; fixed
   parameters are subtracted too (C44). Python numbers as data raise AttributeError (C41, C43).
9. `LeastSquares(flatten_components=False)` raises TypeError (C31).
10. `VectorLeastSquares` adds components before the root and broadcasts them (C24).
11. `_shape_of_dependent_data` misjudges derivative arrays whose leading axes match the data (C30).
12. `BaseObjective.__eq__` is asymmetric and may raise (C29); `_array_safe_dict_eq` lets an
    AssertionError escape (C49).
13. Minimizers used directly with parameters not in alphabetical order permute the answer (C38).
14. Cached invariant arguments keep old data and old fixed values (C28).
15. ODE models: an array holding only the initial time, or none, raises; unsorted times are
    silently reordered; decreasing times ending at the initial time solve another problem (C50,
    C51); `in` is always True (C53); the order of a derivative key is ignored (C64).
16. Derivative names collide (C58); automatic names collide with explicit ones (C55).
17. Hadamard printing has no parentheses and drops the third factor (C60); `Exp` is positive for
    negative x (C61).
18. Pickled results lose constraints, Jacobian and local minimizer, nested chains do not load
    (C48); `covariance()` without a matrix raises TypeError (C46).
19. The analytical Jacobian does not exist for dependency chains of depth three on one parameter
    (NameError, C13). Without dependent data the gradient has the wrong length (C20).
20. `r_squared` broadcasts trailing axes: wrong or ValueError (C47).
21. A fixed parameter makes Fit choose L-BFGS-B (C42).
22. Opening an `InteractiveGuess` changes negative values of parameters without a maximum, although no
    slider is touched (C74); the error bars it draws are off by the average (C75); a dependent variable without data, or
    not depending on an independent variable, makes it raise.
23. Constraints passed together with a minimizer that does not support them (MINPACK for one) are
    silently ignored (C69_minpack_problem, C70).
24. Fits of ODE models compare the data with the solution at the SORTED times, when the times are not sorted and do not
    contain the initial time: exact data do not give the true parameters (C76_unsorted_times_refuted).
25. A minimizer chooses which parameters it varies when it is created, and again when it is unpickled: if `fixed` was changed
    in between the copy poses a different problem than the original (C78_fixed_later_refuted).
26. `BasinHopping.execute` writes the local minimizer's method, jacobian, constraints and bounds into the user's `minimizer_kwargs`:
    with the same dictionary another minimizer runs with those of the first (C79_shared_kwargs_refuted). `TrustConstr.execute`
    overrides the user's `sparse_jacobian`, in the user's dictionary (C79_sparse_jacobian_refuted).
27. `GradientMinimizer.resize_jac` on a constraint with one value per data point (a constraint with a component of the model in it): the
    matrix handed to scipy is the transpose of the one scipy expects, silently if there are as many points as free parameters
    (C81_scipy_layout_refuted, SLSQP chosen by default); for a model with one parameter squeezing leaves the values on the first axis and
    masking raises IndexError (C81_single_parameter_example).
28. The printed report answers the question about a constraint with its value at the first data point only: the answer can be fine
    although the constraint fails at other points (C82_answer_tells_constraint_holds_refuted). Minimizers that take no constraints
    list none. (Not modelled: a minimizer used directly with a sympy relation as constraint makes printing the result
    raise AttributeError, since `constraint.model` is looked up on the relation.)
29. Changing parameters after a Fit was created: fixing one then shifts the entries of scipy's vector and its bounds to the wrong parameters
    (C86_fixing_later_refuted); a bound given then is ignored if Fit had chosen BFGS (C86_bound_later_refuted); executing again after changing the
    value of a fixed parameter reports the new value together with the old fit (C86_execute_again_refuted).

## 5. Plan and result per property

Each entry: the property, what is modelled and how it is proved, the theorems with their axioms
(letters of section 2; `-` means "Closed under the global context").

### C01 Model call evaluates every component exactly once its dependencies are known (proved)

`Model.call` runs the evaluation loop of `eval_components` over the ordered symbols; proved by induction along the toposort layers against `solution`, a map that satisfies every component's equation and mentions no order. `C01_arrays` lifts it to numpy arrays elementwise.

- `C01_arrays` (Prop_ArrModel.v): FNCX
- `C01_call_evaluates_every_component` (Prop_Model.v): -
- `C01_set_order_irrelevant` (Prop_Model.v): -

### C02 A model can be built exactly when its dependency graph is acyclic (proved)

`Toposort.toposort` models the package's loop; soundness, termination and completeness (CircularDependency iff there is a cycle of `refers`) by induction on the number of remaining nodes.

- `C02_toposort_orders_everything` (Prop_Model.v): -
- `C02_toposort_never_loops` (Prop_Model.v): -
- `C02_circular_iff_cycle` (Prop_Model.v): -
- `C02_model_rejected_iff_cycle` (Prop_Model.v): -
- `C02_acyclic_model_accepted` (Prop_Model.v): -

### C03 Variables of a model are classified soundly and sorted by name (proved)

`init_from_dict` builds the five lists; set characterisation, sortedness and absence of duplicates from the layers.
Refuted stronger wording: Variables of a model are classified soundly and sorted by name: After construction independent_vars are exactly the non-parameter symbols that are not components, params exactly the parameters, all lists are alphabetical; dependent_vars are components that no component uses, and interdependent_vars are components; a Parameter used as a component name is rejected with ModelError.

- `C03_classification` (Prop_Model.v): -
- `C03_parameter_component_rejected` (Prop_Model.v): -
- `C03_constant_parameter_component_refuted` (Prop_Model.v): -

### C04 Which components are dependent and which interdependent (proved)

As C03, with the depth of a component in the dependency graph; `dependent` iff maximal depth.
Refuted stronger wording: Every component of a model is reported as dependent or interdependent, and components nobody uses are dependent: Every key of the model dict occurs in dependent_vars or interdependent_vars, and every component that no other component uses occurs in dependent_vars (so that data can be supplied for it).

- `C04_unused_component_not_dependent_refuted` (Prop_Model.v): -
- `C04_constant_component_unlisted_refuted` (Prop_Model.v): -
- `C04_dependent_by_depth` (Prop_Model.v): -
- `C04_components_listed` (Prop_Model.v): -

### C05 Positional and keyword calls agree; wrong argument lists are rejected (proved)

`Signature.sig_bind` models `inspect.Signature.bind`; all splits of the same assignment into positional and keyword arguments give the same call.

- `C05_positional_and_keyword_agree` (Prop_Model.v): -
- `C05_argument_order` (Prop_Model.v): -
- `C05_wrong_arguments_rejected` (Prop_Model.v): -

### C06 ModelOutput gives one value per component by index, attribute and dict (proved)

`ModelOutput` as a record; lookups by index, name, iteration and after pickling.

- `C06_output_access` (Prop_Model.v): -
- `C06_call_output_wellformed` (Prop_Model.v): -
- `C06_unknown_name` (Prop_Model.v): -
- `C06_pickle` (Prop_Model.v): -

### C07 Negating a model flips the sign of the dependent components only (proved)

`BaseModel.__neg__`; evaluation of the negated dict compared with `solution` of the original.

- `C07_negation` (Prop_Model.v): -

### C08 Negating a numerical model fails loudly (proved)

`BaseNumericalModel.__neg__` always raises; general statement.
Refuted stronger wording: Numerical models can be negated too: -model works for CallableNumericalModel and returns the negated dependent components.

- `C08_numerical_negation_raises` (Prop_Model.v): -
- `C08_numerical_negation_refuted` (Prop_Model.v): -

### C09 Model equality is an equivalence that ignores the order in which the dict was written (proved)

`BaseModel.__eq__` with CPython's small-int `is`; equivalence relation on models of at most 256 components.
Refuted stronger wording: Model equality is an equivalence that ignores the order in which the dict was written: model == model holds for every model; equality is symmetric and transitive, does not depend on the insertion order of the dict and distinguishes models with different components.

- `C09_equality` (Prop_Model.v): -
- `C09_symmetric_transitive` (Prop_Model.v): -
- `C09_reflexivity_refuted` (Prop_Model.v): -

### C10 Constraints mean what was written (proved)

`as_constraint` (both branches, all relations) with meaning-preserving sympy subtraction; the value of the constraint model is compared with the written relation.

- `C10_constraint_meaning` (Prop_Model.v): FNCX
- `C10_constraints_accepted` (Prop_Model.v): -
- `C10_strict_relations_rejected` (Prop_Model.v): -

### C11 A constraint takes exactly the parameters of its model (proved)

Same model; the parameters of the constraint are those of the model.

- `C11_constraint_parameters` (Prop_Model.v): -

### C12 with_dependencies yields a closed, evaluation-equivalent model (proved)

`with_dependencies`; closedness and evaluation equivalence.

- `C12_with_dependencies` (Prop_Model.v): -
- `C12_with_dependencies_never_fails` (Prop_Model.v): -

### C13 The analytical Jacobian is the derivative of the model (proved)

`jacobian_from_model` builds a model of derivative symbols; evaluation of that model is shown to be `Derive` of the solution map by induction along the layers (total derivative).
Refuted stronger wording: The analytical Jacobian is the derivative of the model: Entry (component, parameter) of eval_jacobian is the partial derivative of that component's value with respect to that parameter, with the chain rule applied through interdependent components; rows are in component order and columns in params order.

- `C13_arrays` (Prop_ArrModel.v): FNCX
- `C13_jacobian_is_derivative` (Prop_Jacobian.v): FNCX
- `C13_constraint_jacobian` (Prop_Jacobian.v): FNCX
- `C13_returned_jacobian` (Prop_Jacobian.v): FNCX
- `C13_shallow_models_have_jacobian` (Prop_Jacobian.v): FNCX
- `C13_solution_map_exists` (Prop_Jacobian.v): FNCX
- `C13_deep_chain_refuted` (Prop_Jacobian.v): -

### C14 The analytical Hessian is the second derivative of the model (proved)

`hessian_from_model`, twice the construction of C13.

- `C14_arrays` (Prop_ArrModel.v): FNCX
- `C14_hessian_is_second_derivative` (Prop_Jacobian.v): FNCX
- `C14_returned_hessian` (Prop_Jacobian.v): FNCX

### C15 Finite differences are sixth order and use six calls per parameter (proved)

`finite_difference` as a loop over parameters with counted calls; Taylor's theorem for the error.

- `C15_finite_difference_is_six_point_stencil` (Prop_FiniteDiff.v): FX
- `C15_calls_bound` (Prop_FiniteDiff.v): FX
- `C15_no_division_by_zero` (Prop_FiniteDiff.v): FX
- `C15_exact_for_degree_6` (Prop_FiniteDiff.v): FNCX
- `C15_error_of_order_6` (Prop_FiniteDiff.v): FNCX

### C16 Pickling a model preserves its behaviour (proved)

`__getstate__`/`__setstate__` of models and constraints on an object heap with cached properties; every program of property reads and calls gives the same results on original and copy.

- `C16_pickled_model_equivalent` (Prop_Cached.v): -
- `C16_pickled_constraint_equivalent` (Prop_Cached.v): -
- `C16_pickled_numerical_equivalent` (Prop_Cached.v): -
- `C16_property_values` (Prop_Cached.v): -

### C17 shared_parameters tells whether two components share a parameter (proved)

`shared_parameters` over free symbols.

- `C17_shared_parameters` (Prop_Model.v): -

### C18 Model bounds are valid intervals that contain the value of fixed parameters (proved)

`bounds` over the parameter heap.

- `C18_bounds` (Prop_Cached.v): FX

### C19 LeastSquares is half the weighted sum of squared residuals (proved)

`LeastSquares.__call__` on numpy arrays; equals half the weighted sum, stated with an independent real sum over indices.

- `C19_symbolic_model` (Prop_ArrModel.v): FNCX
- `C19_least_squares_value` (Prop_Objective.v): FX
- `C19_missing_data` (Prop_Objective.v): FX

### C20 LeastSquares.eval_jacobian is the gradient of the objective (proved)

`LeastSquares.eval_jacobian`; equals `Derive` of the C19 value for every parameter.
Refuted stronger wording: LeastSquares.eval_jacobian is the gradient of the objective: If the model's Jacobian is the derivative of the model, LeastSquares.eval_jacobian is the gradient of LeastSquares in the parameters, in params order.

- `C20_symbolic_model` (Prop_ArrModel.v): FNCX
- `C20_least_squares_gradient` (Prop_Objective.v): FNCX
- `C20_no_data` (Prop_Objective.v): FX
- `C20_no_data_refuted` (Prop_Objective.v): FX

### C21 LeastSquares.eval_hessian is the Hessian matrix of the objective (proved)

`LeastSquares.eval_hessian`; equals the second derivative.

- `C21_symbolic_model` (Prop_ArrModel.v): FNCX
- `C21_least_squares_hessian` (Prop_Objective.v): FNCX

### C22 The Jacobian approximation of the Hessian is J^T W J (proved)

`HessianObjectiveJacApprox`; entry (i,j) is the sum over points of J_i J_j / sigma^2.

- `C22_symbolic_model` (Prop_ArrModel.v): FNCX
- `C22_jacobian_approximation` (Prop_Objective.v): FX

### C23 LogLikelihood value, gradient and Hessian are consistent (proved)

`LogLikelihood` value, gradient, Hessian; on points with positive model value they are minus the log-likelihood and its derivatives.

- `C23_symbolic_model_value` (Prop_ArrModel.v): FNCX
- `C23_symbolic_model_gradient` (Prop_ArrModel.v): FNCX
- `C23_symbolic_model_hessian` (Prop_ArrModel.v): FNCX
- `C23_log_likelihood_value` (Prop_Objective.v): FNCX
- `C23_log_likelihood_gradient` (Prop_Objective.v): FNCX
- `C23_log_likelihood_hessian` (Prop_Objective.v): FNCX

### C24 VectorLeastSquares squares to chi^2 (proved)

`VectorLeastSquares` value and Jacobian.
Refuted stronger wording: VectorLeastSquares squares to chi^2: The sum of the squares of the vector returned by VectorLeastSquares equals twice LeastSquares at the same point, and eval_jacobian is the derivative of the vector where it is non-zero.

- `C24_symbolic_model` (Prop_ArrModel.v): FNCX
- `C24_vector_least_squares` (Prop_Objective.v): FNX
- `C24_vector_jacobian` (Prop_Objective.v): FNCX
- `C24_unequal_shapes_refuted` (Prop_Objective.v): FNX

### C25 MinimizeModel returns the model value itself and is scalar only (proved)

`MinimizeModel`.

- `C25_symbolic_model` (Prop_ArrModel.v): FNCX
- `C25_minimize_model` (Prop_Objective.v): F
- `C25_scalar_only` (Prop_Objective.v): -

### C26 Fixed parameters are always evaluated at their value (proved)

Fixed parameters in the keyword arguments of an objective call.

- `C26_fixed_parameters` (Prop_Objective.v): FNCX

### C27 Parameter vectors are matched to the free parameters in order (proved)

`BaseObjective.__call__`, `eval_jacobian`, `eval_hessian` argument matching.

- `C27_arguments` (Prop_Objective.v): FNCX
- `C27_vector_positions` (Prop_Objective.v): -

### C28 An objective keeps the data and fixed values of its first evaluation (proved)

Objective objects as a state machine with a cache; arbitrary histories of evaluations and changes.

- `C28_cached_invariants` (Prop_Objective.v): FNCX
- `C28_new_fixed_value_ignored` (Prop_Objective.v): FNCX

### C29 Objective equality is symmetric (proved)

`BaseObjective.__eq__` loop.
Refuted stronger wording: Objective equality is symmetric: a == b and b == a give the same boolean for any two objectives.

- `C29_equality` (Prop_Objective.v): FX
- `C29_reflexive` (Prop_Objective.v): FX
- `C29_true` (Prop_Objective.v): FX
- `C29_first_difference` (Prop_Objective.v): FX
- `C29_equality_not_symmetric_refuted` (Prop_Objective.v): FX

### C30 Model output is shaped like the data (proved)

`_shape_of_dependent_data` on arbitrary shapes and parameter levels.
Refuted stronger wording: Model output is shaped like the data: Before comparing, the value of a component is broadcast to the shape of its data, its Jacobian to (n_params,)+shape and its Hessian to (n_params, n_params)+shape; values at each point are unchanged.

- `C30_values_shaped` (Prop_Objective.v): -
- `C30_unshapeable_rejected` (Prop_Objective.v): -
- `C30_derivatives_shaped` (Prop_Objective.v): -
- `C30_jacobian_shape_refuted` (Prop_Objective.v): F

### C31 LeastSquares(flatten_components=False) does not work (proved)

`LeastSquares.__call__` with `flatten_components=False`: always TypeError.
Refuted stronger wording: LeastSquares can be split per component: LeastSquares(flatten_components=False) returns the list of S per component, which sums to S.

- `C31_split_components_refuted` (Prop_Objective.v): FX

### C32 Minimizers work on the free parameters only, in order (proved)

Minimizer classes as records of what they hand to scipy; masks against free parameters.

- `C32_guesses_and_bounds` (Prop_Minimizer.v): F
- `C32_jacobian` (Prop_Minimizer.v): FX
- `C32_minpack_jacobian` (Prop_Minimizer.v): F

### C33 Results put every value back at its parameter (proved)

`_pack_output` and `FitResults.__init__`.

- `C33_pack_output` (Prop_Minimizer.v): -
- `C33_params_by_name` (Prop_Minimizer.v): -
- `C33_short_answer` (Prop_Minimizer.v): -

### C34 What scipy gets as the Hessian in the free parameters (proved)

`resize_hess` in its numpy semantics.
Refuted stronger wording: The Hessian handed to scipy is the Hessian in the free parameters: resize_hess returns the square matrix with one row and column per free parameter.

- `C34_one_free_parameter` (Prop_Minimizer.v): X
- `C34_square_matrix_refuted` (Prop_Minimizer.v): X

### C35 Chained minimizers get unique option names in order (proved)

`ChainedMinimizer._make_signature` and binding of the options.

- `C35_option_names` (Prop_Minimizer.v): -
- `C35_option_names_distinct` (Prop_Minimizer.v): -
- `C35_equal_names_rejected` (Prop_Minimizer.v): -
- `C35_unknown_option_rejected` (Prop_Minimizer.v): -
- `C35_options_reach_their_minimizer` (Prop_Minimizer.v): -

### C36 Chained minimizers start where the previous one stopped (proved)

`ChainedMinimizer.execute` as a fold; hand-over of guesses.
Refuted stronger wording: Chained minimizers start where the previous one stopped: Each minimizer in a chain is started at the free-parameter values found by the previous one.

- `C36_restart` (Prop_Minimizer.v): -
- `C36_chain_handover` (Prop_Minimizer.v): -
- `C36_fixed_parameter_refuted` (Prop_Minimizer.v): F

### C37 Constraints reach scipy with the right type and functions (proved)

`scipy_constraints` of all constrained minimizers.
Refuted stronger wording: Constraints reach scipy with the right type and functions: Every constraint is passed with type eq/ineq according to its relation, with its own value, Jacobian and Hessian function.

- `C37_constraints` (Prop_Minimizer.v): FX
- `C37_constraints_accepted` (Prop_Minimizer.v): -
- `C37_direct_constraints` (Prop_Minimizer.v): -
- `C37_single_hessian` (Prop_Minimizer.v): F
- `C37_late_binding_refuted` (Prop_Minimizer.v): F
- `C37_vector_constraint_refuted` (Prop_Minimizer.v): -
- `C37_less_equal_refuted` (Prop_Minimizer.v): -

### C38 How minimizers used directly name the entries of the vector (proved)

`_baseobjective_from_callable`.
Refuted stronger wording: Minimizers used directly treat parameters in the order given: BFGS(f, [p1, .., pn]) minimises f with x[i] standing for p_i and reports x[i] under p_i's name.

- `C38_any_order` (Prop_Minimizer.v): -
- `C38_alphabetical` (Prop_Minimizer.v): -
- `C38_parameters_are_sorted` (Prop_Minimizer.v): -
- `C38_other_order_refuted` (Prop_Minimizer.v): F

### C39 BasinHopping fills in missing options only (proved)

`BasinHopping.execute`.

- `C39_basin_hopping_options` (Prop_Minimizer.v): -

### C40 Data is linked to variables by position or name (proved)

`TakesData.__init__` with its signature.

- `C40_positional_order` (Prop_Fit.v): -
- `C40_data_linked` (Prop_Fit.v): FNX
- `C40_split_independent` (Prop_Fit.v): FNX
- `C40_wrong_arguments_rejected` (Prop_Fit.v): FNX
- `C40_sigmas_optional` (Prop_Fit.v): F
- `C40_missing_data_rejected` (Prop_Fit.v): FNX

### C41 Sigma defaults and absolute_sigma (proved)

Sigma defaults in `TakesData.__init__`.
Refuted stronger wording: Sigma defaults and absolute_sigma: A missing sigma becomes ones of the data's shape, a scalar sigma is spread to the data's shape, an array is kept; sigma of a variable without data stays as given; absolute_sigma is the user's choice or else True exactly when some sigma was given.

- `C41_sigmas` (Prop_Fit.v): FNX
- `C41_sigma_argument` (Prop_Fit.v): -
- `C41_number_data_refuted` (Prop_Fit.v): FNX

### C42 Fit picks minimizer and objective by documented rules (proved)

`Fit._determine_minimizer`, `_determine_objective`, `_init_minimizer`.

- `C42_default_minimizer` (Prop_Fit.v): FNX
- `C42_chosen_minimizer` (Prop_Fit.v): FNX
- `C42_chain_in_given_order` (Prop_Fit.v): FNX
- `C42_default_objective` (Prop_Fit.v): FNX
- `C42_chosen_objective` (Prop_Fit.v): FNX
- `C42_dependent_data_rejected` (Prop_Fit.v): FNX

### C43 Covariance is the scaled inverse Hessian (proved)

`covariance_matrix` with any matrix inverse.
Refuted stronger wording: Covariance is the scaled inverse Hessian: The covariance matrix is s2 * H^-1 with s2 = 1 for absolute sigmas and chi^2/dof otherwise; with relative sigmas it does not change when all sigmas are multiplied by a constant, with absolute sigmas it scales with its square; it is symmetric.

- `C43_covariance` (Prop_Fit.v): FNX
- `C43_covariance_approximate` (Prop_Fit.v): FNX
- `C43_covariance_symmetric` (Prop_Fit.v): FNCX
- `C43_sigma_scaling` (Prop_Fit.v): FNX
- `C43_covariance_likelihood` (Prop_Fit.v): FX
- `C43_covariance_likelihood_approximate` (Prop_Fit.v): FNX
- `C43_covariance_likelihood_exact` (Prop_Fit.v): FNX
- `C43_covariance_minimize_model` (Prop_Fit.v): FNX
- `C43_number_data_refuted` (Prop_Fit.v): FNX

### C44 Which data points the degrees of freedom count (proved)

`_covariance_matrix`'s degrees of freedom.
Refuted stronger wording: Degrees of freedom count every data point: dof = total number of data points over all dependent variables with data minus the number of parameters.

- `C44_points_counted` (Prop_Fit.v): FNX
- `C44_dof_distinct_shapes` (Prop_Fit.v): FNX
- `C44_shared_shape_refuted` (Prop_Fit.v): -

### C45 The reported parameters reproduce the reported objective value (proved)

`Fit.execute` with scipy as an oracle.

- `C45_reported_parameters_reproduce` (Prop_Minimizer.v): FNCX
- `C45_constraint_values` (Prop_Minimizer.v): FNCX
- `C45_bounds_respected` (Prop_Minimizer.v): F

### C46 value, variance, stdev and covariance look up the right parameter (proved)

`FitResults` lookups.
Refuted stronger wording: value, variance, stdev and covariance look up the right parameter: value(p), variance(p), stdev(p), covariance(p, q) are the entries of popt and of the covariance matrix at the positions of p and q in model.params; with no covariance matrix variance and stdev are None.

- `C46_lookups` (Prop_Results.v): FNX
- `C46_foreign_parameter` (Prop_Results.v): FNX
- `C46_fit_report` (Prop_Results.v): FNX
- `C46_covariance_none_refuted` (Prop_Results.v): -

### C47 Goodness of fit numbers are what they are called (proved)

`_gof_qualifiers`, `r_squared`.
Refuted stronger wording: Goodness of fit numbers are what they are called: chi_squared is 2*S (LeastSquares) or the sum of squared residuals (VectorLeastSquares), r_squared is 1 - SS_res/SS_tot <= 1, equal to 1 exactly for a perfect fit; likelihood = exp(log_likelihood), log_likelihood = -objective_value.

- `C47_least_squares` (Prop_Results.v): FNCX
- `C47_vector_least_squares` (Prop_Results.v): FNCX
- `C47_log_likelihood` (Prop_Results.v): FNCX
- `C47_r_squared_range` (Prop_Results.v): FX
- `C47_attributes` (Prop_Results.v): -
- `C47_r_squared_refuted` (Prop_Results.v): FX

### C48 What survives pickling of a fit result (proved)

`FitResults.__getstate__/__setstate__`.
Refuted stronger wording: Pickling a fit result keeps its minimizer: After a pickle round trip the result has the same attributes and an equivalent minimizer (class, parameters, objective, constraints, sub-minimizers).

- `C48_pickle_classes` (Prop_Results.v): -
- `C48_pickle_rest_is_lost` (Prop_Results.v): -
- `C48_pickle_gradient_free` (Prop_Results.v): FNX
- `C48_pickle_refuted` (Prop_Results.v): FNX

### C49 Comparison of result dicts (proved)

`_array_safe_dict_eq`.
Refuted stronger wording: Comparison of result dicts returns a boolean: _array_safe_dict_eq returns True or False for any two result dicts with the same keys.

- `C49_plain` (Prop_Results.v): FX
- `C49_equal` (Prop_Results.v): FX
- `C49_first_difference` (Prop_Results.v): FX
- `C49_other_differences` (Prop_Results.v): FX
- `C49_arrays_refuted` (Prop_Results.v): FX

### C50 ODE models evaluated at an array of times (proved)

`ODEModel.eval_components` with any exact `solve_ivp`.
Refuted stronger wording: ODE models return one value per requested time, in order: For every array of times, column i of the output is the solution at the i-th requested time, whether or not the initial time is among them.

- `C50_increasing_times` (Prop_Ode.v): FNCX
- `C50_other_orders_sorted_or_rejected` (Prop_Ode.v): FNCX
- `C50_failure_is_not_hidden` (Prop_Ode.v): FNCX
- `C50_decreasing_times_wrong_problem` (Prop_Ode.v): FNCX
- `C50_requested_order_refuted` (Prop_Ode.v): FNCX

### C51 ODE models can be evaluated at any single time (proved)

Same, single times.
Refuted stronger wording: ODE models can be evaluated at any single time: Evaluating at a scalar or one-element array, including the initial time, returns the solution there.

- `C51_scalar_time` (Prop_Ode.v): FNCX
- `C51_one_element_array` (Prop_Ode.v): FNCX
- `C51_array_of_initial_time_refuted` (Prop_Ode.v): FNCX

### C52 ODE systems keep components, initial values and parameters aligned (proved)

`ODEModel.__init__`, `_ncomponents`, `_njacobian`.

- `C52_construction` (Prop_Ode.v): FX
- `C52_system_and_jacobian` (Prop_Ode.v): FNCX

### C53 Lookup and membership in an ODE model (proved)

`ODEModel.__getitem__`, `__iter__` and python's `in` protocol.
Refuted stronger wording: Membership in an ODE model: `v in ode_model` holds exactly for its dependent variables.

- `C53_lookup` (Prop_Ode.v): FX
- `C53_membership_refuted` (Prop_Ode.v): FX

### C54 Cached properties are computed once per lifetime (proved)

`cached_property` as a descriptor state machine.

- `C54_first_value_is_kept` (Prop_Cached.v): -
- `C54_read_computes_once` (Prop_Cached.v): -
- `C54_deletion_recomputes` (Prop_Cached.v): -
- `C54_assignment_rejected` (Prop_Cached.v): -

### C55 Automatically generated names are unique (proved)

Creation histories of `Argument` with sympy's symbol cache.
Refuted stronger wording: Automatically generated names are unique: Two Arguments created without a name never share a name.

- `C55_nameless_arguments_have_different_names` (Prop_Args.v): FX
- `C55_nameless_arguments_are_new_objects` (Prop_Args.v): FX
- `C55_user_name_refuted` (Prop_Args.v): FX
- `C55_subclass_refuted` (Prop_Args.v): FX
- `C55_empty_name_refuted` (Prop_Args.v): FX

### C56 Parameter bounds are validated (proved)

`Parameter.__init__` and its property setters on the heap.
Refuted stronger wording: Parameter bounds are validated: Creating a non-fixed Parameter with min > max raises ValueError; otherwise the object has the given value, min, max, fixed.

- `C56_crossed_bounds_rejected` (Prop_Args.v): FX
- `C56_attributes_as_given` (Prop_Args.v): FX
- `C56_bounds_cases` (Prop_Args.v): FX
- `C56_others_unchanged` (Prop_Args.v): FX
- `C56_fixed_crossed_refuted` (Prop_Args.v): FX
- `C56_rejected_creation_changes_refuted` (Prop_Args.v): FX

### C57 parameters() sets attributes per parameter (proved)

`parameters()`.
Refuted stronger wording: parameters() sets attributes per parameter: Scalar value/min/max/fixed apply to all created parameters, sequences elementwise; a sequence of another length raises ValueError; no parameter with min > max is created.

- `C57_attributes_as_requested` (Prop_Args.v): FX
- `C57_wrong_arguments_rejected` (Prop_Args.v): FX
- `C57_rejection_is_ValueError` (Prop_Args.v): FX
- `C57_mixed_bounds_refuted` (Prop_Args.v): FX
- `C57_iterator_bounds_refuted` (Prop_Args.v): FX
- `C57_rejected_call_changes_refuted` (Prop_Args.v): FX

### C58 Names of derivatives are unambiguous (proved)

`sympy.Derivative.name`.
Refuted stronger wording: Names of derivatives are unambiguous: Two different derivative symbols of a model have different .name.

- `C58_derivative_names_unambiguous` (Prop_Support.v): -
- `C58_first_derivative_names_unambiguous` (Prop_Support.v): -
- `C58_derivative_is_not_an_argument_name` (Prop_Support.v): -
- `C58_first_order_collision_refuted` (Prop_Support.v): -
- `C58_second_order_collision_refuted` (Prop_Support.v): -

### C59 Expressions can be called with surplus names (proved)

`Expr.__call__` with lambdify.

- `C59_expression_call` (Prop_Support.v): -
- `C59_wrong_arguments_rejected` (Prop_Support.v): -
- `C59_arguments_determined` (Prop_Support.v): -
- `C59_same_names` (Prop_Support.v): -

### C60 Printed matrix expressions evaluate to the expression (proved)

Printer and a parser-free evaluation of the printed token tree with python precedence.
Refuted stronger wording: Printed matrix expressions evaluate to the expression: The numpy code printed for HadamardProduct/HadamardPower denotes the element-wise product/power of the printed arguments.

- `C60_printed_code_evaluates_to_expression` (Prop_Support.v): -
- `C60_power_of_sum_refuted` (Prop_Support.v): -
- `C60_product_of_sum_refuted` (Prop_Support.v): -
- `C60_third_factor_refuted` (Prop_Support.v): -
- `C60_power_of_power_refuted` (Prop_Support.v): -

### C61 Distribution helpers are the stated densities (proved)

`distributions.py`; improper integrals with Coquelicot.
Refuted stronger wording: Distribution helpers are the stated densities: Gaussian, BivariateGaussian and Exp are non-negative, symmetric/normalised as stated and BivariateGaussian with rho=0 is the product of the two Gaussians.

- `C61_gaussian_normalised` (Prop_Support.v): FNCX
- `C61_gaussian_shape` (Prop_Support.v): FNCX
- `C61_bivariate_marginals` (Prop_Support.v): FNCX
- `C61_bivariate_independent` (Prop_Support.v): FNX
- `C61_exp_normalised` (Prop_Support.v): FNCX
- `C61_exp_support_refuted` (Prop_Support.v): FNX

### C62 Integrator settings given to an ODE model are used (proved)

Integrator keyword arguments of `ODEModel`.

- `C62_integrator_settings` (Prop_Ode.v): FX
- `C62_settings_reach_the_integrator` (Prop_Ode.v): FNCX

### C63 Negating an ODE model (proved)

`ODEModel.__neg__`.

- `C63_negation` (Prop_Ode.v): FNCX

### C64 The order of the derivatives of an ODE model is ignored (proved)

`ODEModel.__init__` with repeated derivative variables.

- `C64_order_of_derivative_ignored` (Prop_Ode.v): FNCX

### C65 Pickled Variables and Parameters keep their attributes (proved)

`Argument.__getstate__/__setstate__` and `__reduce__`.
Refuted stronger wording: Pickled Variables and Parameters keep their attributes: Loading the pickle of a Variable or Parameter, in any interpreter state, gives an object of the same class and name with the same value, min, max and fixed, and changes no other object.

- `C65_pickle_keeps_attributes` (Prop_Args.v): FX
- `C65_loading_resets_refuted` (Prop_Args.v): FX

### C66 Functions made from expressions keep the symbol names (proved)

Dummy renaming in `sympy_to_py`.

- `C66_functions_keep_symbol_names` (Prop_Support.v): -

### C67 Numerical models evaluate their callables on the declared dependencies (proved)

`CallableNumericalModel.eval_components`. NumDepth.v: which components are dependent.

- `C67_numerical_call` (Prop_NumModel.v): -
- `C67_numerical_arguments` (Prop_NumModel.v): -
- `C67_mapping_required` (Prop_NumModel.v): -
- `C67_deprecated_form` (Prop_NumModel.v): -
- `C67_dependent_by_depth` (Prop_Twin.v): -

### C68 Equality of numerical models (proved)

`BaseNumericalModel.__eq__`.

- `C68_numerical_equality` (Prop_NumModel.v): -

### C69 A Fit of a symbolic model is the (constrained) least squares fit (proved)

Composition of Model, AsConstraint, ConModel, ArrModel, Objective, Minimizer, Fit: what a `Fit` of a symbolic model (with constraints written as relations) hands to scipy is chi^2/2 with its true derivatives, the bounds and the constraints, and scipy's best answer is the best fit. MINPACK and a user-given LeastSquares included.

- `C69_fit_problem` (Prop_End.v): FNCX
- `C69_best_fit` (Prop_End.v): FNCX
- `C69_covariance` (Prop_End.v): FNCX
- `C69_minpack_problem` (Prop_End.v): FNCX
- `C69_minpack_best` (Prop_End.v): FNCX
- `C69_minpack_covariance` (Prop_End.v): FNCX

### C70 Every minimizer calls its scipy algorithm with what that algorithm supports (proved)

Class hierarchy of minimizers and what each one's `execute` passes to scipy.

- `C70_algorithms` (Prop_Minimizer.v): F
- `C70_nothing_unsupported` (Prop_Minimizer.v): F
- `C70_user_derivatives` (Prop_Minimizer.v): F
- `C70_numerical_derivatives` (Prop_Minimizer.v): F
- `C70_trust_constr_hessian` (Prop_Minimizer.v): F

### C71 A Fit with LogLikelihood is the maximum likelihood fit (proved)

The same composition with LogLikelihood: the handed function is minus the logarithm of the product of model values, from C23 and the array model; maximality by monotonicity of ln.

- `C71_problem` (Prop_EndMore.v): FNCX
- `C71_best_fit` (Prop_EndMore.v): FNCX
- `C71_covariance` (Prop_EndMore.v): FNCX

### C72 A Fit of a model without data minimises the model (proved)

The same composition with MinimizeModel, from C25 and the array model on a grid of one point.

- `C72_problem` (Prop_EndMore.v): FNCX
- `C72_minimum` (Prop_EndMore.v): FNCX
- `C72_covariance` (Prop_EndMore.v): FNCX

### C73 Constraints between parameters reach scipy with their exact gradient (proved)

EndCon.v: the constraint model built by as_constraint has only parameters in its single component, so its Jacobian model can always be built; its Jacobian (C13 on arrays, ArrObj) goes through MinimizeModel.eval_jacobian and the wrapper that drops fixed parameters (MinLemmas). Assumes sympy's l - r and -e are differentiable where l, r, e are (keeps_defined), and that no parameter has the name symfit gives to a derivative of the constraint.

- `C73_constraint_gradient` (Prop_EndCon.v): FNCX

### C74 InteractiveGuess: the parameters have the values of the sliders (proved)

`Guess.v` models the window as a state (limits, grid, sliders, lines) and the callbacks as functions on the heap of parameters; induction over the movements. The slider's initial value is any function of its ends and the wanted value.
Refuted stronger wording: opening the window does not change the values of the parameters (false for negative values without a maximum: C74_negative_guess_refuted)

- `C74_sliders` (Prop_Guess.v): FX
- `C74_values_follow` (Prop_Guess.v): FX
- `C74_guess_kept` (Prop_Guess.v): FX
- `C74_negative_guess_refuted` (Prop_Guess.v): FX
- `C74_fit_starts_there` (Prop_Guess.v): FX
- `C74_printed` (Prop_Guess.v): FX

### C75 InteractiveGuess: the plots show the model at the current values (proved)

Same model; `np.linspace`, `np.meshgrid` and flattening are explicit, so the masks in the n-dimensional strategy are proved to select exactly the grid points with the given coordinate. Symbolic models are proved pointwise from C01's array evaluation.
Refuted stronger wording: the error bars cover the percentiles of the model's values (false: C75_error_bars_refuted)

- `C75_window` (Prop_Guess.v): FX
- `C75_line` (Prop_Guess.v): FX
- `C75_average` (Prop_Guess.v): FX
- `C75_error_bars` (Prop_Guess.v): FX
- `C75_opens` (Prop_Guess.v): FX
- `C75_symbolic` (Prop_Guess.v): FNCX
- `C75_error_bars_refuted` (Prop_Guess.v): FNCX

### C76 Fit of an ODEModel is the least squares fit of the solutions (proved)

OdeModel.v presents the model of `ODEModel` (Ode.v) through the interface the objectives use; `eval_jacobian` is `finite_difference` (FiniteDiff.v) applied to it. GenSpec.v/GenFit.v prove the least squares fit for any model given by what it predicts; OdeFit.v proves that an ODEModel predicts the solution at the given times (from C50/C52) and that its Jacobian is the six point difference (from C15). `solve_ivp` is the error-free oracle of C50. Data for the unknowns are one-dimensional arrays. OdeErrSpec.v/Prop_OdeErr.v bound the distance of that gradient from the true one (C15).
Refuted stronger wording: the claim for measurement times in any order (false: C76_unsorted_times_refuted)

- `C76_gradient_error` (Prop_OdeErr.v): FNCX
- `C76_ode_fit_problem` (Prop_OdeFit.v): FNCX
- `C76_ode_best_fit` (Prop_OdeFit.v): FNCX
- `C76_ode_covariance` (Prop_OdeFit.v): FNCX
- `C76_unsorted_times_misaligned` (Prop_OdeFit.v): FNCX
- `C76_unsorted_times_refuted` (Prop_OdeFit.v): FNECX

### C77 Fit of a model with Python callables is the least squares fit of their values (proved)

`init_numerical` and `call` (Model.v, NumModel.v) at arrays, presented by `om_of KCallable`; NumFit.v proves what the objectives get (from C67), GenFit.v the rest. The callables are arbitrary functions from keyword arguments to arrays, constrained only by the given values of the components.

- `C77_numerical_fit_problem` (Prop_NumFit.v): FNCX
- `C77_numerical_best_fit` (Prop_NumFit.v): FNCX
- `C77_numerical_result` (Prop_NumFit.v): FNCX

### C78 Minimizers are created with what they support, and pickled minimizers behave like the original (proved)

Objects are attribute dictionaries with a class (MinObj.v): the `__init__` methods run along the C3 method resolution order computed from the class statements, `__getstate__`/`__setstate__` with `_pickle_kwargs`. MinObjFacts.v computes the attributes for every class, MinObjCopy.v proves the invariant `well` of all reachable objects and that copying keeps it; what is handed to scipy is read off the attributes and compared with Minimizer.v.
Refuted stronger wording: the claim for programs that change `fixed` between creation and unpickling (false: C78_fixed_later_refuted)

- `C78_unsupported_rejected` (Prop_MinObj.v): F
- `C78_creation` (Prop_MinObj.v): F
- `C78_basin_hopping_creation` (Prop_MinObj.v): F
- `C78_chain_creation` (Prop_MinObj.v): F
- `C78_pickle` (Prop_MinObj.v): F
- `C78_fixed_later_refuted` (Prop_MinObj.v): F

### C79 Options of execute reach scipy, the rest is filled in, and executing again poses the same problem (proved)

MinExec.v models every execute method along the method resolution order, with option dictionaries in a store (the code changes some in place), up to the call of scipy. MinExecSpec.v says in tables which keywords scipy gets. MinExecFacts/Main/Basin prove the tables per class; MinExecAgain proves by a renaming of addresses that a second execution sees the same; MinExecChain does the induction over a chain.
Refuted stronger wording: the claim that executing a minimizer leaves the user's option dictionaries usable for another one (false: C79_shared_kwargs_refuted), and that every option of the user is kept (false for sparse_jacobian: C79_sparse_jacobian_refuted)

- `C79_minimize_options` (Prop_MinExec.v): FX
- `C79_trust_constr_options` (Prop_MinExec.v): FX
- `C79_differential_evolution_options` (Prop_MinExec.v): FX
- `C79_minpack_options` (Prop_MinExec.v): FX
- `C79_basin_hopping_options` (Prop_MinExec.v): FX
- `C79_execute_again` (Prop_MinExec.v): FX
- `C79_chain_execute_again` (Prop_MinExec.v): FX
- `C79_chain_execute` (Prop_MinExec.v): FX
- `C79_shared_kwargs_refuted` (Prop_MinExec.v): FX
- `C79_sparse_jacobian_refuted` (Prop_MinExec.v): FX

### C80 The class of the model only decides which derivatives a Fit has (proved)

The end-to-end development of C69, C71, C72 (EndMain.v) is carried out for an arbitrary class of om_of; Prop_EndCls.v states the results for every class, without the hypotheses on derivatives where only values matter. The covariance of gradient models comes from the approximate Hessian path of Fit (the exact one raises), that of callable models from both paths raising AttributeError, which the code answers with no covariance matrix.

- `C80_fit_problem` (Prop_EndCls.v): FNCX
- `C80_best_fit` (Prop_EndCls.v): FNCX
- `C80_gradient_covariance` (Prop_EndCls.v): FNCX
- `C80_callable_covariance` (Prop_EndCls.v): FNCX
- `C80_minpack_problem` (Prop_EndCls.v): FNCX
- `C80_minpack_best` (Prop_EndCls.v): FNCX
- `C80_minpack_covariance` (Prop_EndCls.v): FNCX
- `C80_likelihood_problem` (Prop_EndCls.v): FNCX
- `C80_likelihood_best` (Prop_EndCls.v): FNCX
- `C80_likelihood_covariance` (Prop_EndCls.v): FNCX
- `C80_likelihood_callable` (Prop_EndCls.v): FNCX
- `C80_minimize_problem` (Prop_EndCls.v): FNCX
- `C80_minimum` (Prop_EndCls.v): FNCX
- `C80_minimize_covariance` (Prop_EndCls.v): FNCX

### C81 Constraints with components of the model in them: values and Jacobians handed to scipy (proved)

EndConJac.v composes the constraint model (ArrCon.con_built), its array Jacobian (ArrObj.model_mm), the data Fit stored (EndMain.con_data_is) and the minimizer's wrapping (constraint_wrapped, resize_jac) into one statement about the list of constraints in the problem handed to scipy. Prop_EndConJac.v: C81_constraint_jacobian for all classes but CallableModel; examples with two parameters and one; C81_scipy_layout_refuted.
Refuted stronger wording: The Jacobian scipy gets has one row per value of the constraint and one column per free parameter (C81_scipy_layout_refuted), and exists for every constraint (C81_single_parameter_example: IndexError).

- `C81_constraint_jacobian` (Prop_EndConJac.v): FNCX
- `C81_scipy_layout_refuted` (Prop_EndConJac.v): FNCX

### C82 The printed report of a fit (proved)

Report.v models __str__ with an oracle for the text of numbers and expressions; ReportSpec.v splits a text into lines and says which lines there should be. report_of_fit evaluates every constraint of the result (as in C69/C81) at the reported values, ls_report combines C43, C47 and C69 for the numbers; the refutation evaluates a fit whose constraint fails at the last of three points.
Refuted stronger wording: The answer printed for a constraint tells whether the constraint holds.

- `C82_report_lines` (Prop_Report.v): FNCX
- `C82_least_squares` (Prop_Report.v): FNCX
- `C82_answer_tells_constraint_holds_refuted` (Prop_Report.v): FNECX
- `C82_column` (Prop_Report.v): -
- `C82_joined` (Prop_Report.v): -

### C83 The printed form of a model (proved)

ReportModel.v: the entries of the connectivity mapping are the mentioned symbols (C03), filtering and sorting them by name gives lists that are unique for distinct names.

- `C83_model_text` (Prop_Report.v): -
- `C83_same_text` (Prop_Report.v): -

### C84 A sequence of minimizers fits one after the other (proved)

Chain.v models Fit.execute with any minimizer (run_minimizer, fit_run) over a scipy oracle; ChainMain.v proves that the members are those of single fits (fit_other, chain_members, chain_made) and reduces a run to its answers (chain_run, with the hand-over lemma of C36); C84_least_squares combines it with C69. The counterexample with a fixed parameter is computed.
Refuted stronger wording: A chain of minimizers, none of which makes things worse, never reports a worse fit than its first member (also with fixed parameters).

- `C84_members` (Prop_Chain.v): FNX
- `C84_one_after_the_other` (Prop_Chain.v): FNCX
- `C84_least_squares` (Prop_Chain.v): FNCX
- `C84_fixed_parameter_refuted` (Prop_Chain.v): FNECX

### C85 BasinHopping solves the problem of the default minimizer (proved)

Chain.v (local_problem, run_minimizer); ChainMain.basin_local shows that the local minimizer is that of Fit without a minimizer and the local problem is its problem without a start; C85_best_fit then applies C69_best_fit.

- `C85_local_minimizer` (Prop_Basin.v): FNX
- `C85_best_fit` (Prop_Basin.v): FNCX

### C86 Parameters changed after the Fit was made (proved)

Later.v repeats Fit.__init__ with two heaps: the attributes at creation (h0) and at execution (h1), each read of the code assigned to the time it happens; it is proved equal to fit_init at h1 when the fixed flags and the choice agree, so all theorems about new Fits apply. Refuted otherwise: C86_fixing_later_refuted, C86_bound_later_refuted, C86_execute_again_refuted.
Refuted stronger wording: However parameters are changed between creating and executing a Fit (or between two executions), the result is that of a new Fit

- `C86_like_a_new_fit` (Prop_Later.v): FNX
- `C86_best_fit` (Prop_Later.v): FNCX
- `C86_fixing_later_refuted` (Prop_Later.v): FNECX
- `C86_bound_later_refuted` (Prop_Later.v): FNECX
- `C86_execute_again_refuted` (Prop_Later.v): FNECX

### C87 The order of the data points and the shape of the arrays do not matter (proved)

same_points says that pi maps the points of the second grid one to one onto those of the first with equal values. chi squared as a function of the parameters is then the same (sum over a permutation), so are the constraints' sums; C69_fit_problem gives both problems in terms of chi squared, bounds and constraints; C69_covariance characterises both covariance matrices by the derivatives of chi squared / the squared Jacobian sums and the inverse is unique.

- `C87_same_fit` (Prop_Points.v): FNCX
- `C87_same_result` (Prop_Points.v): FNCX

### C88 Only what the model means matters, not how it is written (proved)

the semantics of the components has one solution (acyclicity), so the solution of the rewritten model is that of the original (means_unique); chi squared, bounds and constraints of C69_fit_problem are then equal, and both matrices of C69_covariance are determined by derivatives of equal functions.
Refuted stronger wording: Writing a component out in the other ones never changes the Fit

- `C88_same_fit` (Prop_Same.v): FNCX
- `C88_same_result` (Prop_Same.v): FNCX
- `C88_written_out_refuted` (Prop_Same.v): FNCX

### C89 A global fit of data sets of different shapes is the least squares fit to all of them together (proved)

GlobSpec.v gives every component its grid (`on_grids`). The array lemmas of ArrGen.v are about any family of suitable shapes that is closed under references and broadcasting; GlobMain.v instantiates it with: the shape lives on the grid of every component using the symbol. JacAnalysis/JacSecond give first and second derivatives of part of a model (`first_order_on`, `second_order_on`), so that definedness is only asked where a component has data points. GlobDiff.v differentiates chi squared, GlobFit.v turns predictions, Jacobian and Hessian into Fit's covariance matrix (least squares on top of C19-C24, C43), Prop_Glob.v states the result for Fit.

- `C89_fit_problem` (Prop_Glob.v): FNCX
- `C89_best_fit` (Prop_Glob.v): FNCX
- `C89_covariance` (Prop_Glob.v): FNCX

### C90 MINPACK fits of numerical models, differential equations and several data sets are least squares fits; data of different sizes are rejected (proved)

GenVec.v: any model whose predictions are known (GenSpec.v `predicts`, `predicts_jac`): value and Jacobian of the vector of residuals (VecSpec.v), best fit, covariance matrix, and the broadcasting error for data of different sizes, on top of the objectives' lemmas of ObjVec.v. Prop_Vec.v instantiates it with num_predicts (C77), ode_predicts (C76) and glob_predicts (C89), and shows that the slope of a residual is its derivative where it is not zero.

- `C90_numerical_problem` (Prop_Vec.v): FNCX
- `C90_numerical_best_fit` (Prop_Vec.v): FNCX
- `C90_numerical_result` (Prop_Vec.v): FNCX
- `C90_ode_problem` (Prop_Vec.v): FNCX
- `C90_ode_best_fit` (Prop_Vec.v): FNCX
- `C90_ode_covariance` (Prop_Vec.v): FNCX
- `C90_different_sizes_rejected` (Prop_Vec.v): FNCX
- `C90_global_problem` (Prop_Vec.v): FNCX
- `C90_global_best_fit` (Prop_Vec.v): FNCX
- `C90_global_covariance` (Prop_Vec.v): FNCX

### C91 A model of Python callables behaves like the symbolic model it computes (proved)

TwinSpec.v says what it means that callables compute the expressions of a dict. NumDepth.v classifies the components of a numerical model by the length of dependency chains, as PropLemmas.v does for symbolic ones, so the lists coincide; the solution of the equations satisfies the callables (TwinMain.v), so C67 gives the call and C89 the predictions at the data; GenFit.v gives the fit.

- `C91_same_arguments` (Prop_Twin.v): -
- `C91_same_call` (Prop_Twin.v): -
- `C91_fit_problem` (Prop_Twin.v): FNCX
- `C91_same_fit` (Prop_Twin.v): FNCX
- `C91_best_fit` (Prop_Twin.v): FNCX
- `C91_result` (Prop_Twin.v): FNCX

### C92 The names of variables and parameters do not matter (proved)

RenameSpec.v states the renaming (new names for variables and parameters, the same symbols and values in every expression, data and attributes under the new names) and when two vectors give namesakes the same value. RenameMain.v shows from the specifications of the variables (C03, C04) that the lists of the two models are permutations of each other, that the solution of the renamed system is the renamed solution, hence chi squared, the bounds and the constraints agree; Prop_Rename.v puts this together with C69.

- `C92_same_fit` (Prop_Rename.v): FNCX
- `C92_same_report` (Prop_Rename.v): FNCX
