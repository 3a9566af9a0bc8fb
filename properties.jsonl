{"id": "C01", "title": "Model call evaluates every component exactly once its dependencies are known", "statement": "Calling a model whose components may refer to one another returns, in alphabetical order of component name, for every component the value of its expression in which every symbol has been replaced by the value passed for it (independent variables, parameters) or by the value of the component of that name; the answer does not depend on the iteration order of Python sets.", "quantifier": "all model dicts with an acyclic dependency graph and pairwise distinct symbol names, all argument values, all set/hash iteration orders", "why_tests_cant": "the number of dependency graphs and of hash-seed dependent iteration orders is unbounded; a test fixes one of each", "anchors": ["symfit/core/models.py:BaseCallableModel.eval_components", "symfit/core/models.py:BaseModel.ordered_symbols", "symfit/core/models.py:BaseModel.connectivity_mapping"]}
{"id": "C02", "title": "A model can be built exactly when its dependency graph is acyclic", "statement": "Ordering the symbols of a model never loops: it raises a circular-dependency error exactly when the dependency graph has a cycle other than a self-loop, and otherwise lists every symbol exactly once, after everything it depends on.", "quantifier": "all finite dependency mappings", "why_tests_cant": "graphs of every size and shape; termination of the loop cannot be tested", "anchors": ["symfit/core/models.py:BaseModel._init_from_dict", "symfit/core/models.py:BaseModel.ordered_symbols (toposort)"]}
{"id": "C03", "title": "Variables of a model are classified soundly and sorted by name", "statement": "After construction independent_vars are exactly the non-parameter symbols that are not components, params exactly the parameters that occur (as components only with a constant expression), all lists are alphabetical and free of duplicates; dependent_vars are components that no other component uses, interdependent_vars are components, none is both. A Parameter that is given as a component with an expression that mentions any other symbol is never accepted.", "quantifier": "all model dicts", "why_tests_cant": "all shapes of dependency graph", "anchors": ["symfit/core/models.py:BaseModel._init_from_dict"], "unguarded_claim_refuted": "Variables of a model are classified soundly and sorted by name: After construction independent_vars are exactly the non-parameter symbols that are not components, params exactly the parameters, all lists are alphabetical; dependent_vars are components that no component uses, and interdependent_vars are components; a Parameter used as a component name is rejected with ModelError."}
{"id": "C04", "title": "Which components are dependent and which interdependent", "statement": "dependent_vars are exactly the components of greatest depth (depth: length of the longest chain of references below a component, at least 1) and interdependent_vars exactly the other components that refer to some other symbol. Hence every component that uses another symbol is in one of the two lists, and when no component uses another component all of them are dependent.", "quantifier": "all model dicts", "why_tests_cant": "only particular graph shapes (components at different depths, constant components) violate it", "anchors": ["symfit/core/models.py:BaseModel._init_from_dict"], "unguarded_claim_refuted": "Every component of a model is reported as dependent or interdependent, and components nobody uses are dependent: Every key of the model dict occurs in dependent_vars or interdependent_vars, and every component that no other component uses occurs in dependent_vars (so that data can be supplied for it)."}
{"id": "C05", "title": "Positional and keyword calls agree; wrong argument lists are rejected", "statement": "A model accepts independent variables then parameters, alphabetically within each group. Any split of the same assignment into leading positional and remaining keyword arguments (in any keyword order) gives the same result; missing, surplus, unknown or doubly given arguments raise TypeError.", "quantifier": "all models, all ways of splitting and ordering the arguments", "why_tests_cant": "the splits and keyword orders are exponentially many", "anchors": ["symfit/core/models.py:BaseCallableModel.__call__", "symfit/core/models.py:BaseCallableModel._make_signature", "symfit/core/models.py:BaseCallableModel.eval_components"]}
{"id": "C06", "title": "ModelOutput gives one value per component by index, attribute and dict", "statement": "Index i, attribute access by the i-th variable's name and _asdict() lookup of the i-th variable return the same value; unknown names raise AttributeError; pickling preserves all of it.", "quantifier": "all variable/value lists with distinct names", "why_tests_cant": "any length, any names", "anchors": ["symfit/core/models.py:ModelOutput"]}
{"id": "C07", "title": "Negating a model flips the sign of the dependent components only", "statement": "-model returns a new model with the same names; evaluating it gives the negated value for every dependent variable and the unchanged value for every interdependent variable; the original is unchanged.", "quantifier": "all models and argument values", "why_tests_cant": "sign must be right for every graph; an interdependent component must not be flipped", "anchors": ["symfit/core/models.py:BaseModel.__neg__", "symfit/core/models.py:ODEModel.__neg__"]}
{"id": "C08", "title": "Negating a numerical model fails loudly", "statement": "-model raises TypeError for every CallableNumericalModel (and every other numerical model): a numerical model cannot be negated, but no wrongly negated model is ever returned.", "quantifier": "all numerical models", "why_tests_cant": "no existing test calls it; must hold for every model", "anchors": ["symfit/core/models.py:BaseNumericalModel.__neg__"], "unguarded_claim_refuted": "Numerical models can be negated too: -model works for CallableNumericalModel and returns the negated dependent components."}
{"id": "C09", "title": "Model equality is an equivalence that ignores the order in which the dict was written", "statement": "model1 == model2 always gives a boolean, True exactly when the two models have the same components with the same expanded expressions and there are at most 256 of them; in particular it does not depend on the order in which the dicts were written; it is symmetric and transitive, and reflexive up to 256 components.", "quantifier": "all models, in particular of every number of components", "why_tests_cant": "size dependent (identity comparison of integers)", "anchors": ["symfit/core/models.py:BaseModel.__eq__"], "unguarded_claim_refuted": "Model equality is an equivalence that ignores the order in which the dict was written: model == model holds for every model; equality is symmetric and transitive, does not depend on the insertion order of the dict and distinguishes models with different components."}
{"id": "C10", "title": "Constraints mean what was written", "statement": "A relation lhs == rhs, lhs >= rhs or lhs <= rhs given as constraint is turned into a scalar model g with type Eq or Ge such that (g = 0 resp. g >= 0) at given parameter values exactly when the original relation holds there, where variables that are components of the fitted model stand for that model's values; strict and != relations are rejected with ModelError.", "quantifier": "all relations, models and argument values", "why_tests_cant": "must hold for all values and all relation types, through the dependency expansion", "anchors": ["symfit/core/models.py:BaseModel.as_constraint", "symfit/core/models.py:BaseModel.with_dependencies", "symfit/core/models.py:BaseModel.__neg__"]}
{"id": "C11", "title": "A constraint takes exactly the parameters of its model", "statement": "The constraint model has the same params list as the fitted model (so parameter vectors line up); a constraint mentioning other parameters is rejected with ModelError.", "quantifier": "all constraints and models", "why_tests_cant": "all parameter sets", "anchors": ["symfit/core/models.py:BaseModel.as_constraint"]}
{"id": "C12", "title": "with_dependencies yields a closed, evaluation-equivalent model", "statement": "The combined model contains the new components, every component of the dependency model it transitively needs and no undefined ones; evaluating it gives for each new component its expression evaluated at the dependency model's outputs.", "quantifier": "all pairs of models", "why_tests_cant": "all dependency graphs and iteration orders", "anchors": ["symfit/core/models.py:BaseModel.with_dependencies"]}
{"id": "C13", "title": "The analytical Jacobian is the derivative of the model", "statement": "Entry (component, parameter) of eval_jacobian is the partial derivative of that component's value with respect to that parameter, with the chain rule through interdependent components; rows in component order, columns in params order. Whatever eval_jacobian returns is this matrix (names made of letters and digits); it does return for every model in which components that others use are given in terms of inputs. The same for array data, entry by entry, and for constraints with the parameters of the fitted model.", "quantifier": "all acyclic models of differentiable expressions, all argument values inside the domain", "why_tests_cant": "analysis over the reals, every expression and graph", "anchors": ["symfit/core/models.py:jacobian_from_model", "symfit/core/models.py:GradientModel.eval_jacobian", "symfit/core/models.py:GradientModel.jacobian_model"], "unguarded_claim_refuted": "The analytical Jacobian is the derivative of the model: Entry (component, parameter) of eval_jacobian is the partial derivative of that component's value with respect to that parameter, with the chain rule applied through interdependent components; rows are in component order and columns in params order."}
{"id": "C14", "title": "The analytical Hessian is the second derivative of the model", "statement": "Entry (component, p1, p2) of eval_hessian is the second partial derivative; it is symmetric in p1 and p2.", "quantifier": "all acyclic models of twice differentiable expressions, all argument values inside the domain", "why_tests_cant": "analysis over the reals", "anchors": ["symfit/core/models.py:hessian_from_model", "symfit/core/models.py:HessianModel.eval_hessian"]}
{"id": "C15", "title": "Finite differences are sixth order and use six calls per parameter", "statement": "finite_difference returns the exact derivative whenever the model is a polynomial of degree at most 6 in the parameter, and has error O(step^6) for smooth models; it makes exactly 6*n_params model calls, each with one parameter moved by one, two or three steps (the model only has to be defined there), and never divides by zero for dx != 0.", "quantifier": "all models, parameter values, dx", "why_tests_cant": "real analysis: holds for all functions, not for samples", "anchors": ["symfit/core/models.py:BaseGradientModel.finite_difference"]}
{"id": "C16", "title": "Pickling a model preserves its behaviour", "statement": "A pickled and unpickled model has the same components, variables, parameters and call signature, and caches are recomputed on demand with the same value.", "quantifier": "all models, with any subset of caches already filled", "why_tests_cant": "every history of cache accesses before pickling", "anchors": ["symfit/core/models.py:BaseModel.__getstate__", "symfit/core/models.py:BaseModel.__setstate__", "symfit/core/support.py:cached_property"]}
{"id": "C17", "title": "shared_parameters tells whether two components share a parameter", "statement": "shared_parameters is True exactly when some parameter occurs in the expressions of two different components.", "quantifier": "all models", "why_tests_cant": "all numbers of components", "anchors": ["symfit/core/models.py:BaseModel.shared_parameters"]}
{"id": "C18", "title": "Model bounds are valid intervals that contain the value of fixed parameters", "statement": "model.bounds has one pair per parameter in order: the declared (min, max) for free ones and, for fixed ones, an interval with lower <= upper that contains the fixed value.", "quantifier": "all parameter lists", "why_tests_cant": "all values including negative ones and zero", "anchors": ["symfit/core/models.py:BaseModel.bounds"]}
{"id": "C19", "title": "LeastSquares is half the weighted sum of squared residuals", "statement": "LeastSquares returns 1/2 * sum over dependent variables with data and over all data points of ((model - data)/sigma)^2; components whose data is None do not contribute; it is >= 0, and 0 exactly for a perfect fit.", "quantifier": "all models, data shapes, parameter values", "why_tests_cant": "all shapes and numbers of components", "anchors": ["symfit/core/objectives.py:LeastSquares.__call__", "symfit/core/objectives.py:BaseObjective._shape_of_dependent_data"]}
{"id": "C20", "title": "LeastSquares.eval_jacobian is the gradient of the objective", "statement": "If the model's Jacobian is the derivative of the model and there is data for at least one dependent variable, LeastSquares.eval_jacobian is the gradient of LeastSquares in the parameters, in params order; without any dependent data the result is the single number 0.", "quantifier": "all models, data, parameter values", "why_tests_cant": "analysis over reals, all sizes", "anchors": ["symfit/core/objectives.py:LeastSquares.eval_jacobian"], "unguarded_claim_refuted": "LeastSquares.eval_jacobian is the gradient of the objective: If the model's Jacobian is the derivative of the model, LeastSquares.eval_jacobian is the gradient of LeastSquares in the parameters, in params order."}
{"id": "C21", "title": "LeastSquares.eval_hessian is the Hessian matrix of the objective", "statement": "If the model's Jacobian and Hessian are its derivatives, eval_hessian is the matrix of second derivatives of LeastSquares and is symmetric.", "quantifier": "all models, data, parameter values", "why_tests_cant": "analysis over reals, all sizes", "anchors": ["symfit/core/objectives.py:LeastSquares.eval_hessian"]}
{"id": "C22", "title": "The Jacobian approximation of the Hessian is J^T W J", "statement": "For models without Hessian the covariance is computed from sum J_i J_j / sigma^2, which is symmetric positive semi-definite.", "quantifier": "all models, data, parameter values", "why_tests_cant": "all sizes", "anchors": ["symfit/core/objectives.py:HessianObjectiveJacApprox", "symfit/core/fit.py:HasCovarianceMatrix.covariance_matrix"]}
{"id": "C23", "title": "LogLikelihood value, gradient and Hessian are consistent", "statement": "For positive model values LogLikelihood is minus the sum of the logs over all components and points, and eval_jacobian / eval_hessian are its first and second derivatives.", "quantifier": "all models and data with positive values", "why_tests_cant": "analysis over reals", "anchors": ["symfit/core/objectives.py:LogLikelihood"]}
{"id": "C24", "title": "VectorLeastSquares squares to chi^2", "statement": "When all dependent data have one shape and there is some, the sum of the squares of the vector returned by VectorLeastSquares equals twice LeastSquares at the same point, and eval_jacobian is the derivative of the vector where it is non-zero.", "quantifier": "all models and data", "why_tests_cant": "all numbers and shapes of components", "anchors": ["symfit/core/objectives.py:VectorLeastSquares"], "unguarded_claim_refuted": "VectorLeastSquares squares to chi^2: The sum of the squares of the vector returned by VectorLeastSquares equals twice LeastSquares at the same point, and eval_jacobian is the derivative of the vector where it is non-zero."}
{"id": "C25", "title": "MinimizeModel returns the model value itself and is scalar only", "statement": "MinimizeModel(model) returns the value, Jacobian and Hessian of the single dependent variable; models with more than one dependent variable raise TypeError.", "quantifier": "all models", "why_tests_cant": "all models, also those with interdependent components", "anchors": ["symfit/core/objectives.py:MinimizeModel"]}
{"id": "C26", "title": "Fixed parameters are always evaluated at their value", "statement": "Whatever positional or keyword parameter values an objective is called with, the model is evaluated with every fixed parameter at its .value.", "quantifier": "all argument lists", "why_tests_cant": "all combinations of positional and keyword arguments", "anchors": ["symfit/core/objectives.py:BaseObjective.__call__", "symfit/core/objectives.py:BaseObjective._invariant_kwargs"]}
{"id": "C27", "title": "Parameter vectors are matched to the free parameters in order", "statement": "The i-th entry of the vector given to an objective is used as the value of the i-th non-fixed parameter of model.params, for call, Jacobian and Hessian alike, and overrides keyword values; independent data is always taken from the stored data.", "quantifier": "all models, fixed subsets and vectors", "why_tests_cant": "2^n fixed subsets", "anchors": ["symfit/core/objectives.py:BaseObjective.__call__", "symfit/core/objectives.py:GradientObjective.eval_jacobian", "symfit/core/objectives.py:HessianObjective.eval_hessian"]}
{"id": "C28", "title": "An objective keeps the data and fixed values of its first evaluation", "statement": "Between two evaluations of the same objective, changing .value of a fixed parameter does not change what the objective returns; what changes are the arguments only.", "quantifier": "all histories of attribute changes and evaluations", "why_tests_cant": "histories", "anchors": ["symfit/core/objectives.py:BaseObjective._invariant_kwargs", "symfit/core/support.py:cached_property"]}
{"id": "C29", "title": "Objective equality is symmetric", "statement": "For two objectives whose data have the same keys and comparable entries (arrays with arrays of the same shape whose allclose comparison is symmetric, None with None) a == b and b == a give the same result; a == a is True.", "quantifier": "all pairs of objectives and data", "why_tests_cant": "asymmetric data dicts and tolerances", "anchors": ["symfit/core/objectives.py:BaseObjective.__eq__"], "unguarded_claim_refuted": "Objective equality is symmetric: a == b and b == a give the same boolean for any two objectives."}
{"id": "C30", "title": "Model output is shaped like the data", "statement": "Before comparing, the value of a component is broadcast to the shape of its data with the value at each point unchanged, or ValueError when that is impossible; its Jacobian to (n_params,)+shape and its Hessian to (n_params, n_params)+shape, unless the Jacobian or Hessian array already happens to have the shape of the data.", "quantifier": "all shapes", "why_tests_cant": "all combinations of shapes and numbers of parameters", "anchors": ["symfit/core/objectives.py:BaseObjective._shape_of_dependent_data"], "unguarded_claim_refuted": "Model output is shaped like the data: Before comparing, the value of a component is broadcast to the shape of its data, its Jacobian to (n_params,)+shape and its Hessian to (n_params, n_params)+shape; values at each point are unchanged."}
{"id": "C31", "title": "LeastSquares(flatten_components=False) does not work", "statement": "LeastSquares(flatten_components=False) raises TypeError for every model and data for which the sum would be defined: the documented list of S per component is never returned, nor any wrong number.", "quantifier": "all models and data", "why_tests_cant": "-", "anchors": ["symfit/core/objectives.py:LeastSquares.__call__"], "unguarded_claim_refuted": "LeastSquares can be split per component: LeastSquares(flatten_components=False) returns the list of S per component, which sums to S."}
{"id": "C32", "title": "Minimizers work on the free parameters only, in order", "statement": "The initial guesses, bounds and Jacobian handed to scipy have exactly one entry per non-fixed parameter, in the same order: entry i belongs to the i-th non-fixed parameter.", "quantifier": "all parameter lists and fixed subsets", "why_tests_cant": "2^n fixed subsets", "anchors": ["symfit/core/minimizers.py:BaseMinimizer.initial_guesses", "symfit/core/minimizers.py:BoundedMinimizer.bounds", "symfit/core/minimizers.py:GradientMinimizer.resize_jac", "symfit/core/minimizers.py:MINPACK.bounds", "symfit/core/minimizers.py:MINPACK.resize_jac"]}
{"id": "C33", "title": "Results put every value back at its parameter", "statement": "The fit result has one value per parameter in order: .value for fixed parameters and the minimizer's answer for free ones.", "quantifier": "all parameter lists, fixed subsets and answers", "why_tests_cant": "2^n fixed subsets", "anchors": ["symfit/core/minimizers.py:ScipyMinimize._pack_output", "symfit/core/fit_results.py:FitResults.__init__"]}
{"id": "C34", "title": "What scipy gets as the Hessian in the free parameters", "statement": "With one free parameter the Hessian handed to scipy is its second derivative as a 1x1 matrix; with k >= 2 free parameters scipy gets a 1 x k row holding the diagonal of the Hessian in the free parameters (the square matrix the user would expect is never passed).", "quantifier": "all parameter lists and fixed subsets", "why_tests_cant": "numpy index semantics for every mask", "anchors": ["symfit/core/minimizers.py:HessianMinimizer.resize_hess"], "unguarded_claim_refuted": "The Hessian handed to scipy is the Hessian in the free parameters: resize_hess returns the square matrix with one row and column per free parameter."}
{"id": "C35", "title": "Chained minimizers get unique option names in order", "statement": "The keyword names of ChainedMinimizer.execute are pairwise distinct, one per minimizer in order: the class name, or class name_k for the k-th repetition (k >= 2); each option dict reaches exactly its minimizer and unknown names raise TypeError.", "quantifier": "all sequences of minimizers", "why_tests_cant": "unbounded sequences", "anchors": ["symfit/core/minimizers.py:ChainedMinimizer._make_signature", "symfit/core/minimizers.py:ChainedMinimizer.execute"]}
{"id": "C36", "title": "Chained minimizers start where the previous one stopped", "statement": "The first minimizer of a chain is started at its own guess. Every later one is started from the values the previous one reported, for all parameters: the fixed ones at their value, the free ones where the previous minimizer stopped. Without fixed parameters this is exactly the answer of the previous minimizer.", "quantifier": "all chains, all fixed subsets", "why_tests_cant": "all chains and fixed subsets", "anchors": ["symfit/core/minimizers.py:ChainedMinimizer.execute"], "unguarded_claim_refuted": "Chained minimizers start where the previous one stopped: Each minimizer in a chain is started at the free-parameter values found by the previous one."}
{"id": "C37", "title": "Constraints reach scipy with the right type and functions", "statement": "Every constraint is passed to scipy in order, with the condition of its relation, its own value function and (for gradient methods) its own Jacobian without the columns of fixed parameters, for constraints with one value; equalities and >= are always accepted; a constraint model given directly is treated the same if it has the minimizer's parameters and refused otherwise. TrustConstr passes every constraint the Hessian of the last one, hence the right one for a single constraint.", "quantifier": "all lists of constraints in every accepted form", "why_tests_cant": "depends on list length and form", "anchors": ["symfit/core/minimizers.py:ScipyConstrainedMinimize.scipy_constraints", "symfit/core/minimizers.py:TrustConstr.scipy_constraints"], "unguarded_claim_refuted": "Constraints reach scipy with the right type and functions: Every constraint is passed with type eq/ineq according to its relation, with its own value, Jacobian and Hessian function."}
{"id": "C38", "title": "How minimizers used directly name the entries of the vector", "statement": "BFGS(f, [p1, .., pn]) reads scipy's vector as the free parameters in alphabetical order when calling f, and reports it as the free parameters in the order given; fixed parameters always have their value. So for an alphabetical list the reported values are those f was called with.", "quantifier": "all orders of the parameter list", "why_tests_cant": "n! orders", "anchors": ["symfit/core/minimizers.py:BaseMinimizer._baseobjective_from_callable"], "unguarded_claim_refuted": "Minimizers used directly treat parameters in the order given: BFGS(f, [p1, .., pn]) minimises f with x[i] standing for p_i and reports x[i] under p_i's name."}
{"id": "C39", "title": "BasinHopping fills in missing options only", "statement": "Options given by the user in minimizer_kwargs (method, jac, constraints, bounds) are passed on unchanged; missing ones come from the local minimizer when it supports them.", "quantifier": "all option dicts and local minimizers", "why_tests_cant": "2^4 option subsets x minimizers", "anchors": ["symfit/core/minimizers.py:BasinHopping.execute"]}
{"id": "C40", "title": "Data is linked to variables by position or name", "statement": "Positional data goes to independent variables, then dependent variables, then sigmas, each alphabetically; keyword data to the variable of that name; the result is the same however it is split, and sigmas may be omitted.", "quantifier": "all models and splits", "why_tests_cant": "exponentially many splits", "anchors": ["symfit/core/fit.py:TakesData.__init__", "symfit/core/fit.py:TakesData._make_signature", "symfit/core/fit.py:TakesData._make_parameters"]}
{"id": "C41", "title": "Sigma defaults and absolute_sigma", "statement": "For data given as arrays (or None): a missing sigma becomes ones of the data's shape, a number is spread to the data's shape, an array is kept; sigma of a variable without data stays as given; it is passed as the argument sigma_<name>; absolute_sigma is the user's choice or else True exactly when some sigma was given.", "quantifier": "all data and sigma combinations", "why_tests_cant": "3^n combinations", "anchors": ["symfit/core/fit.py:TakesData.__init__"], "unguarded_claim_refuted": "Sigma defaults and absolute_sigma: A missing sigma becomes ones of the data's shape, a scalar sigma is spread to the data's shape, an array is kept; sigma of a variable without data stays as given; absolute_sigma is the user's choice or else True exactly when some sigma was given."}
{"id": "C42", "title": "Fit picks minimizer and objective by documented rules", "statement": "Constraints -> SLSQP, else a bound -> LBFGSB, else BFGS. MINPACK -> VectorLeastSquares; scalar model without independent variables and data -> MinimizeModel; else LeastSquares. For LogLikelihood/MinimizeModel giving data for a dependent variable raises TypeError.", "quantifier": "all inputs", "why_tests_cant": "decision table over unbounded models", "anchors": ["symfit/core/fit.py:Fit._determine_minimizer", "symfit/core/fit.py:Fit._determine_objective"]}
{"id": "C43", "title": "Covariance is the scaled inverse Hessian", "statement": "For array data the covariance matrix is s2 * H^-1 with s2 = 1 for absolute sigmas and chi^2/dof otherwise; with relative sigmas it does not change when all sigmas are multiplied by a constant, with absolute sigmas it scales with its square; it is symmetric; for likelihood fits it is the inverse Hessian.", "quantifier": "all models, data, sigmas, scale factors", "why_tests_cant": "algebra for all values", "anchors": ["symfit/core/fit.py:HasCovarianceMatrix._covariance_matrix"], "unguarded_claim_refuted": "Covariance is the scaled inverse Hessian: The covariance matrix is s2 * H^-1 with s2 = 1 for absolute sigmas and chi^2/dof otherwise; with relative sigmas it does not change when all sigmas are multiplied by a constant, with absolute sigmas it scales with its square; it is symmetric."}
{"id": "C44", "title": "Which data points the degrees of freedom count", "statement": "The number of points in dof is the sum over the different shapes of the dependent data, each shape counted once; it is the total number of data points when all these shapes differ, and too small whenever two non-empty data sets share a shape; the number of all parameters is subtracted.", "quantifier": "all data shapes", "why_tests_cant": "depends on coincidence of shapes", "anchors": ["symfit/core/fit.py:TakesData.data_shapes", "symfit/core/fit.py:HasCovarianceMatrix._covariance_matrix"], "unguarded_claim_refuted": "Degrees of freedom count every data point: dof = total number of data points over all dependent variables with data minus the number of parameters."}
{"id": "C45", "title": "The reported parameters reproduce the reported objective value", "statement": "Evaluating the objective at the reported parameter values (by name) gives what it gives at the vector scipy returned; bounds and constraints respected by scipy's answer are respected by the reported parameters.", "quantifier": "all models, fixed subsets, answers of scipy", "why_tests_cant": "all fixed subsets; end to end", "anchors": ["symfit/core/fit.py:Fit.execute", "symfit/core/minimizers.py:ScipyMinimize._pack_output", "symfit/core/objectives.py:BaseObjective.__call__"]}
{"id": "C46", "title": "value, variance, stdev and covariance look up the right parameter", "statement": "value(p), variance(p), stdev(p), covariance(p, q) are the entries of popt and of the covariance matrix at the positions of p and q in model.params; with no covariance matrix variance and stdev are None and covariance raises TypeError; a parameter the model does not have is an error.", "quantifier": "all results and parameters", "why_tests_cant": "all positions", "anchors": ["symfit/core/fit_results.py:FitResults.value", "symfit/core/fit_results.py:FitResults.variance", "symfit/core/fit_results.py:FitResults.stdev", "symfit/core/fit_results.py:FitResults.covariance"], "unguarded_claim_refuted": "value, variance, stdev and covariance look up the right parameter: value(p), variance(p), stdev(p), covariance(p, q) are the entries of popt and of the covariance matrix at the positions of p and q in model.params; with no covariance matrix variance and stdev are None."}
{"id": "C47", "title": "Goodness of fit numbers are what they are called", "statement": "chi_squared is 2*S (LeastSquares) or the sum of squared residuals (VectorLeastSquares, data of one shape), r_squared is 1 - SS_res/SS_tot <= 1, equal to 1 exactly for a perfect fit, whenever components and data broadcast the same way from the front as from the back (e.g. have equal shapes); likelihood = exp(log_likelihood), log_likelihood = -objective_value.", "quantifier": "all data and results", "why_tests_cant": "algebra for all values", "anchors": ["symfit/core/fit_results.py:FitResults._gof_qualifiers", "symfit/core/fit_results.py:r_squared"], "unguarded_claim_refuted": "Goodness of fit numbers are what they are called: chi_squared is 2*S (LeastSquares) or the sum of squared residuals (VectorLeastSquares), r_squared is 1 - SS_res/SS_tot <= 1, equal to 1 exactly for a perfect fit; likelihood = exp(log_likelihood), log_likelihood = -objective_value."}
{"id": "C48", "title": "What survives pickling of a fit result", "statement": "Pickling and loading a fit result keeps the class and the parameters of its minimizer and the classes of the minimizers of an unnested chain; a minimizer without derivatives and constraints is restored completely; Jacobian, Hessian, constraints and guesses are never restored.", "quantifier": "all results", "why_tests_cant": "all minimizer kinds", "anchors": ["symfit/core/fit_results.py:FitResults.__getstate__", "symfit/core/fit_results.py:FitResults.__setstate__"], "unguarded_claim_refuted": "Pickling a fit result keeps its minimizer: After a pickle round trip the result has the same attributes and an equivalent minimizer (class, parameters, objective, constraints, sub-minimizers)."}
{"id": "C49", "title": "Comparison of result dicts", "statement": "_array_safe_dict_eq of two dicts with the same keys: True when all entries agree (arrays by allclose); otherwise the first entry that differs decides: False when it is no array, AssertionError when it is one. Without arrays the result is always a boolean, True exactly when all entries agree.", "quantifier": "all dicts", "why_tests_cant": "nested arrays", "anchors": ["symfit/core/fit_results.py:FitResults._array_safe_dict_eq"], "unguarded_claim_refuted": "Comparison of result dicts returns a boolean: _array_safe_dict_eq returns True or False for any two result dicts with the same keys."}
{"id": "C50", "title": "ODE models evaluated at an array of times", "statement": "For strictly increasing times column i of the output is the solution at the i-th requested time, whether or not the initial time is among them. For times in any other order without the initial time the call raises ValueError or returns the solution at the sorted times. For decreasing times ending at the initial time the initial values are imposed at the first requested time. A result is only returned if the integrations needed for it succeeded.", "quantifier": "all time arrays and initial times", "why_tests_cant": "positions of t_initial relative to the data, orderings", "anchors": ["symfit/core/models.py:ODEModel.eval_components"], "unguarded_claim_refuted": "ODE models return one value per requested time, in order: For every array of times, column i of the output is the solution at the i-th requested time, whether or not the initial time is among them."}
{"id": "C51", "title": "ODE models can be evaluated at any single time", "statement": "Evaluating at a scalar time, the initial time included, or at a one-element array with another time than the initial one returns the solution there; an array with only the initial time, or an empty array, raises AttributeError.", "quantifier": "all times", "why_tests_cant": "only the equality case fails", "anchors": ["symfit/core/models.py:ODEModel.eval_components"], "unguarded_claim_refuted": "ODE models can be evaluated at any single time: Evaluating at a scalar or one-element array, including the initial time, returns the solution there."}
{"id": "C52", "title": "ODE systems keep components, initial values and parameters aligned", "statement": "The i-th right-hand side, initial value and output row belong to the i-th dependent variable in alphabetical order; initial values that are Parameters take the value passed in the call; the integrator's parameters are the model parameters in order.", "quantifier": "all ODE models", "why_tests_cant": "all orders and names", "anchors": ["symfit/core/models.py:ODEModel.__init__", "symfit/core/models.py:ODEModel.eval_components", "symfit/core/models.py:ODEModel._ncomponents"]}
{"id": "C53", "title": "Lookup and membership in an ODE model", "statement": "ode_model[v] is the right hand side of v and keys() lists exactly the unknowns; `v in ode_model` is True for every v.", "quantifier": "all variables", "why_tests_cant": "negative instances", "anchors": ["symfit/core/models.py:ODEModel.__getitem__", "symfit/core/models.py:ODEModel.__iter__"], "unguarded_claim_refuted": "Membership in an ODE model: `v in ode_model` holds exactly for its dependent variables."}
{"id": "C54", "title": "Cached properties are computed once per lifetime", "statement": "Between deletions a cached property is computed at most once and every read returns that first value; deletion makes the next read recompute; assignment is rejected.", "quantifier": "all histories of reads, deletions and assignments", "why_tests_cant": "histories", "anchors": ["symfit/core/support.py:cached_property"]}
{"id": "C55", "title": "Automatically generated names are unique", "statement": "Two Arguments created without a name, of one class or of classes with different prefixes, never share a name and are different objects; an Argument created without a name is a new object unless an Argument of the same class was explicitly given a name of the generated form; provided nobody passes the empty string as a name.", "quantifier": "all creation histories", "why_tests_cant": "histories", "anchors": ["symfit/core/argument.py:Argument.__new__"], "unguarded_claim_refuted": "Automatically generated names are unique: Two Arguments created without a name never share a name."}
{"id": "C56", "title": "Parameter bounds are validated", "statement": "Creating a non-fixed Parameter with min > max raises ValueError; with bounds in order it has the given value, min, max and fixed and no other object changes; whatever happens only an object of that class and name can change.", "quantifier": "all values", "why_tests_cant": "all values", "anchors": ["symfit/core/argument.py:Parameter.__init__"], "unguarded_claim_refuted": "Parameter bounds are validated: Creating a non-fixed Parameter with min > max raises ValueError; otherwise the object has the given value, min, max, fixed."}
{"id": "C57", "title": "parameters() sets attributes per parameter", "statement": "parameters() with single values, or sequences of the right length, creates parameters with exactly the requested attributes (bounds given as sequences: numbers, and not one-shot iterators) and changes no others; a call that returns was given sequences of the right length, and min <= max if both are single values (non-fixed) or both sequences; every rejection is a ValueError.", "quantifier": "all names and keyword combinations", "why_tests_cant": "combinations of scalars and sequences", "anchors": ["symfit/core/support.py:parameters"], "unguarded_claim_refuted": "parameters() sets attributes per parameter: Scalar value/min/max/fixed apply to all created parameters, sequences elementwise; a sequence of another length raises ValueError; no parameter with min > max is created."}
{"id": "C58", "title": "Names of derivatives are unambiguous", "statement": "Two first or second derivatives with the same .name are the same, for variables without '_d' in their name and parameters without 'd' in theirs (for first derivatives any parameters); no derivative has the name of an Argument without underscore.", "quantifier": "all variable and parameter names", "why_tests_cant": "adversarial names", "anchors": ["symfit/core/support.py:name (sympy.Derivative.name)"], "unguarded_claim_refuted": "Names of derivatives are unambiguous: Two different derivative symbols of a model have different .name."}
{"id": "C59", "title": "Expressions can be called with surplus names", "statement": "expr(*values, **named) evaluates with variables first, then parameters, alphabetically; named values that do not occur in expr are ignored.", "quantifier": "all expressions and arguments", "why_tests_cant": "combinations", "anchors": ["symfit/core/operators.py:call", "symfit/core/support.py:seperate_symbols"]}
{"id": "C60", "title": "Printed matrix expressions evaluate to the expression", "statement": "The numpy code printed for a matrix expression evaluates to the expression, when its element-wise products have two factors that are not sums and its element-wise powers a base and exponent that need no parentheses.", "quantifier": "all nested expressions", "why_tests_cant": "operator precedence for all nestings", "anchors": ["symfit/core/printing.py:_print_HadamardProduct", "symfit/core/printing.py:_print_HadamardPower"], "unguarded_claim_refuted": "Printed matrix expressions evaluate to the expression: The numpy code printed for HadamardProduct/HadamardPower denotes the element-wise product/power of the printed arguments."}
{"id": "C61", "title": "Distribution helpers are the stated densities", "statement": "Gaussian and BivariateGaussian are positive and integrate to one, the marginals of the latter are Gaussians and with rho=0 it is their product; the Gaussian is symmetric and falls off; Exp is non-negative and integrates to one over the non-negative reals, but is not cut off at 0.", "quantifier": "all real arguments with positive scale", "why_tests_cant": "real analysis", "anchors": ["symfit/distributions.py:Gaussian", "symfit/distributions.py:BivariateGaussian", "symfit/distributions.py:Exp"], "unguarded_claim_refuted": "Distribution helpers are the stated densities: Gaussian, BivariateGaussian and Exp are non-negative, symmetric/normalised as stated and BivariateGaussian with rho=0 is the product of the two Gaussians."}
{"id": "C62", "title": "Integrator settings given to an ODE model are used", "statement": "Every option the user passes to ODEModel reaches the integrator unchanged; the method is LSODA unless given, and for LSODA only, atol and rtol default to 1.49012e-8.", "quantifier": "all option dictionaries and calls", "why_tests_cant": "all combinations of options", "anchors": ["symfit/core/models.py:ODEModel.__init__", "symfit/core/models.py:ODEModel.eval_components"]}
{"id": "C63", "title": "Negating an ODE model", "statement": "-model negates every right-hand side and keeps unknowns, initial values and parameters; the integrator settings revert to the defaults.", "quantifier": "all ODE models", "why_tests_cant": "all models and options", "anchors": ["symfit/core/models.py:ODEModel.__neg__"]}
{"id": "C64", "title": "The order of the derivatives of an ODE model is ignored", "statement": "A key D(y, t, t, ...) is treated as D(y, t): the model evaluates as the first order one with the same right-hand sides, without an error.", "quantifier": "all ODE models and calls", "why_tests_cant": "all systems", "anchors": ["symfit/core/models.py:ODEModel.__init__"]}
{"id": "C65", "title": "Pickled Variables and Parameters keep their attributes", "statement": "Loading the pickle of a Variable or Parameter, in any interpreter state, gives an object of the same class and name with the value, min, max and fixed it had when it was pickled, and changes no object of another name or class (a live Parameter of that name is reset to the pickled attributes).", "quantifier": "all interpreter states and attribute values", "why_tests_cant": "depends on the symbols that already exist in the loading interpreter", "anchors": ["symfit/core/argument.py:Argument.__getstate__", "symfit/core/argument.py:Argument.__setstate__"], "unguarded_claim_refuted": "Pickled Variables and Parameters keep their attributes: Loading the pickle of a Variable or Parameter, in any interpreter state, gives an object of the same class and name with the same value, min, max and fixed, and changes no other object."}
{"id": "C66", "title": "Functions made from expressions keep the symbol names", "statement": "The function sympy_to_py(expr, args) has exactly the names of args as its parameters, in order, and evaluates expr when these are passed by position and/or by name, even when sympy's lambdify had to rename some of them to dummies.", "quantifier": "all expressions, argument lists and dummy names", "why_tests_cant": "lambdify's choice of dummies depends on version and names", "anchors": ["symfit/core/support.py:sympy_to_py"]}
{"id": "C67", "title": "Numerical models evaluate their callables on the declared dependencies", "statement": "Calling a CallableNumericalModel returns, under the component names in alphabetical order, values such that every callable was called with exactly the values of the symbols connectivity_mapping names for it (components included, evaluated before) and every symbolic component has the value of its expression; the arguments of the model are the remaining symbols, variables first. Dependent variables are the components with the longest chains of dependencies below them, interdependent ones all others that depend on anything.", "quantifier": "all dicts of callables and expressions, all connectivity mappings, all iteration orders of sets, all inputs", "why_tests_cant": "all dependency graphs and set orders", "anchors": ["symfit/core/models.py:BaseNumericalModel.__init__", "symfit/core/models.py:CallableNumericalModel", "symfit/core/models.py:BaseCallableModel.eval_components"]}
{"id": "C68", "title": "Equality of numerical models", "statement": "Two numerical models compare equal exactly when they have the same components with the same dependencies and each component is the same expression or function object.", "quantifier": "all pairs of numerical models", "why_tests_cant": "all pairs", "anchors": ["symfit/core/models.py:BaseNumericalModel.__eq__"]}
{"id": "C69", "title": "A Fit of a symbolic model is the (constrained) least squares fit", "statement": "Fit(model, data, constraints=[..], minimizer=..) hands scipy exactly the problem 'minimise half of the sigma-weighted sum of squares of (model - data) over the free parameters, inside their bounds and subject to the constraints as the user wrote them (at every data point, components of the model standing for their values), starting from the parameters' values', with its exact gradient; for the default minimizer and for every minimizer class that supports the bounds and constraints there are. If scipy answers with a best vector of that problem, fit_result.value(p) is the constrained least squares fit: fixed parameters keep their value, the others respect their bounds, the constraints hold, and no other such values have a smaller chi squared. execute() succeeds, and the covariance matrix is the inverse of the second derivatives of half chi squared there (if singular, of J^T W J; None if that is singular too), times one for absolute sigmas and the reduced chi squared otherwise. With MINPACK scipy gets the residual vector, whose squares sum to chi squared, its Jacobian and the bounds; constraints are not handed over, so the answer is the best fit without them.", "quantifier": "all symbolic models with analytical derivatives, all relations given as constraints, all minimizer classes, the objective chosen by Fit or LeastSquares given by the user, all data on one grid, all sigmas, all bounds and fixed parameters, all iteration orders of sets, all answers of scipy", "why_tests_cant": "a test compares a handful of fits with known answers; here model evaluation, derivatives, objective, parameter bookkeeping and covariance have to fit together for every model and data set", "anchors": ["symfit/core/fit.py:Fit", "symfit/core/fit.py:Fit._init_constraints", "symfit/core/models.py:Model", "symfit/core/models.py:BaseModel.as_constraint", "symfit/core/objectives.py:LeastSquares", "symfit/core/minimizers.py:ScipyMinimize", "symfit/core/fit_results.py:FitResults"]}
{"id": "C70", "title": "Every minimizer calls its scipy algorithm with what that algorithm supports", "statement": "Executing a minimizer calls the scipy routine and method of its class. Bounds are handed over by LBFGSB, SLSQP, TrustConstr, DifferentialEvolution and MINPACK, constraints by SLSQP, COBYLA and TrustConstr, Jacobians by BFGS, LBFGSB, SLSQP, TrustConstr and MINPACK, Hessians by TrustConstr, and by nobody else. A jacobian or hessian passed to execute() replaces the one of the objective. Without one, MINPACK and TrustConstr ask for numerical derivatives.", "quantifier": "all minimizer classes, all parameter lists and attributes, all objectives, all constraints, all user-given derivatives", "why_tests_cant": "the combinations of class, derivative, constraint and fixed parameters are not enumerated by tests", "anchors": ["symfit/core/minimizers.py:ScipyMinimize", "symfit/core/minimizers.py:ScipyGradientMinimize", "symfit/core/minimizers.py:ScipyBoundedMinimizer", "symfit/core/minimizers.py:ScipyConstrainedMinimize", "symfit/core/minimizers.py:TrustConstr", "symfit/core/minimizers.py:MINPACK"]}
{"id": "C71", "title": "A Fit with LogLikelihood is the maximum likelihood fit", "statement": "Fit(model, data, objective=LogLikelihood, constraints=[..]) hands scipy minus the logarithm of the likelihood (the product of the model over the data points) as a function of the free parameters, inside their bounds and subject to the constraints, with its exact gradient, wherever the model is positive at all data points. If scipy answers with a best vector among those, the reported parameters maximise the likelihood among the allowed values that satisfy the constraints. The covariance matrix is the inverse of the matrix of second derivatives of minus the log likelihood; if that is singular, the inverse of the sum of products of first derivatives over squared values, or None if that is singular too.", "quantifier": "all symbolic models with analytical derivatives, all data on one grid, all bounds, fixed parameters and constraints, all suitable minimizers, all iteration orders of sets, all answers of scipy", "why_tests_cant": "tests compare a few known distributions; the statement is about every model and data set", "anchors": ["symfit/core/fit.py:Fit", "symfit/core/fit.py:Fit._covariance_matrix", "symfit/core/objectives.py:LogLikelihood", "symfit/core/models.py:Model"]}
{"id": "C72", "title": "A Fit of a model without data minimises the model", "statement": "A Fit of a model with one component and no independent variables, given no data for that component (or with objective=MinimizeModel), hands scipy the value of the component as a function of the free parameters, inside their bounds and subject to the constraints, with its exact gradient; if scipy answers with a best vector, the reported parameters minimise the component among the allowed values that satisfy the constraints. The covariance matrix is the inverse of the matrix of second derivatives of the component, None if that is singular.", "quantifier": "all symbolic models with one dependent variable and analytical derivatives, all bounds, fixed parameters and constraints, all suitable minimizers, all iteration orders of sets, all answers of scipy", "why_tests_cant": "tests minimise a handful of functions", "anchors": ["symfit/core/fit.py:Fit", "symfit/core/objectives.py:MinimizeModel", "symfit/core/models.py:Model"]}
{"id": "C73", "title": "Constraints between parameters reach scipy with their exact gradient", "statement": "When a Fit uses a minimizer that supports constraints and gradients, every constraint between parameters the user wrote appears at its place in scipy's constraint list with a value function that returns left minus right (right minus left for <=), demanded to be zero for an equality and non-negative otherwise, and with a Jacobian function that returns the exact gradient of that value with one entry for every free parameter of the model, whatever data was given to the fit.", "quantifier": "all symbolic models and lists of constraints, all constraints over parameters only, all vectors of free parameters at which both sides are differentiable, all bounds and fixed parameters, all minimizers with constraint and gradient support, all iteration orders of sets and meaning-preserving rewritings by sympy", "why_tests_cant": "a test compares the gradient of one constraint at one point", "anchors": ["symfit/core/fit.py:Fit._init_constraints", "symfit/core/models.py:BaseModel.as_constraint", "symfit/core/minimizers.py:ScipyConstrainedMinimize.scipy_constraints", "symfit/core/objectives.py:MinimizeModel.eval_jacobian"]}
{"id": "C74", "title": "InteractiveGuess: the parameters have the values of the sliders", "statement": "An InteractiveGuess window has a slider for every parameter of the model, from its minimum (0 without one) to its maximum (twice its value without one). After any sequence of slider movements every parameter's value is the value of its slider: where it was last moved to, or where it started, which is the parameter's old value if that is not negative and between its bounds. Bounds and fixed flags, and other parameters, are untouched; the printed guesses and a minimizer executed afterwards use these values.", "quantifier": "all models, data, parameter values and bounds, all sequences of slider movements", "why_tests_cant": "the user may move any slider any number of times; tests set a slider once", "anchors": ["symfit/contrib/interactive_guess/interactive_guess.py:InteractiveGuess._set_up_sliders", "symfit/contrib/interactive_guess/interactive_guess.py:InteractiveGuess._update_plot", "symfit/contrib/interactive_guess/interactive_guess.py:InteractiveGuess.__str__"], "unguarded_claim_refuted": "opening the window does not change the values of the parameters (false for negative values without a maximum: C74_negative_guess_refuted)"}
{"id": "C75", "title": "InteractiveGuess: the plots show the model at the current values", "statement": "Given data for all variables of a model that acts pointwise (every model made from expressions whose dependent variables depend on an independent one), the window opens and every slider can be moved. The axes cover the data and a tenth of its range on both sides (only to the right along independent variables of models with initial values). With one independent variable the line for a dependent variable goes through the model's values, at the values of the sliders, at n_points evenly spaced points; with more, the plot against one of them shows at each of its points the average over all grid points of the others. Error bars are at the percentiles of those values plus their average.", "quantifier": "all models, numbers of independent variables, data arrays, n_points, percentiles, slider movements", "why_tests_cant": "tests compare a few plots for one model and one set of values", "anchors": ["symfit/contrib/interactive_guess/interactive_guess.py:InteractiveGuess.__init__", "symfit/contrib/interactive_guess/interactive_guess.py:InteractiveGuess._eval_model", "symfit/contrib/interactive_guess/interactive_guess.py:Strategy2D", "symfit/contrib/interactive_guess/interactive_guess.py:StrategynD"], "unguarded_claim_refuted": "the error bars cover the percentiles of the model's values (false: C75_error_bars_refuted)"}
{"id": "C76", "title": "Fit of an ODEModel is the least squares fit of the solutions", "statement": "Fitting an ODEModel to data at increasing times (not only the initial time) minimises half the weighted sum of squared differences between the solution of the user's initial value problem at those times and the data, over the free parameters (of the equations and of the initial values) within their bounds, starting from their values. If scipy finds a best vector, no other parameter values within the bounds have solutions closer to the data. Minimizers that use gradients get the gradient built from six point differences of solutions, which for smooth solutions differs from the true gradient by at most 113/5040 h^6 times the weighted residuals times a bound of the seventh derivatives; the covariance matrix is the (scaled) inverse of the weighted products of those differences, None if singular. Unknowns without data (None) do not count.", "quantifier": "all first order systems, initial values (numbers or parameters), data, standard deviations, bounds, fixed parameters, minimizers other than MINPACK, vectors returned by scipy", "why_tests_cant": "a statement about all systems, all data and all parameter values; tests fit a few reactions", "anchors": ["symfit/core/models.py:ODEModel.eval_components", "symfit/core/models.py:ODEModel.__call__", "symfit/core/models.py:BaseGradientModel.eval_jacobian", "symfit/core/fit.py:Fit.__init__", "symfit/core/fit.py:Fit.execute"], "unguarded_claim_refuted": "the claim for measurement times in any order (false: C76_unsorted_times_refuted)"}
{"id": "C77", "title": "Fit of a model with Python callables is the least squares fit of their values", "statement": "Fitting a CallableNumericalModel minimises half the weighted sum of squared differences between the values of its dependent variables (callables given exactly the symbols of the connectivity mapping, expressions evaluated) and the data, over the free parameters within their bounds, starting from their values; no gradient function is handed to scipy. If scipy finds a best vector, no other allowed parameter values come closer to the data. The result reports that vector and has no covariance matrix.", "quantifier": "all models mixing callables and expressions, mappings, data, standard deviations, bounds, fixed parameters, minimizers other than MINPACK, vectors returned by scipy", "why_tests_cant": "a statement about all callables, all data and all parameter values; tests fit one lambda", "anchors": ["symfit/core/models.py:CallableNumericalModel", "symfit/core/models.py:BaseNumericalModel.__init__", "symfit/core/models.py:BaseCallableModel.eval_components", "symfit/core/fit.py:Fit.__init__", "symfit/core/fit.py:Fit.execute"]}
{"id": "C78", "title": "Minimizers are created with what they support, and pickled minimizers behave like the original", "statement": "Creating a minimizer with a keyword argument its algorithm cannot use (a jacobian for NelderMead, constraints for BFGS) raises TypeError; otherwise the object hands scipy the problem made of the given derivatives and constraints, also after initial guesses were assigned. BasinHopping uses the local minimizer it is given or creates one of the given class (default BFGS); a chain keeps its minimizers. As long as `fixed` does not change, pickling and unpickling any minimizer a program can hold succeeds and gives one that hands scipy the same problems for all values and bounds of the parameters and all options, has the same objective, parameters, initial guesses and signature, and consists of such minimizers.", "quantifier": "all minimizer classes, objectives and derivatives (objectives or callables), constraints, parameters, keyword arguments, chains and local minimizers nested to any depth, histories of guesses and of pickling", "why_tests_cant": "a statement about all classes of a diamond inheritance hierarchy, all arguments and all histories; tests pickle a few instances and compare attributes", "anchors": ["symfit/core/minimizers.py:BaseMinimizer.__init__", "symfit/core/minimizers.py:BaseMinimizer.__getstate__", "symfit/core/minimizers.py:BaseMinimizer.__setstate__", "symfit/core/minimizers.py:ConstrainedMinimizer.__init__", "symfit/core/minimizers.py:GradientMinimizer.__init__", "symfit/core/minimizers.py:HessianMinimizer.__init__", "symfit/core/minimizers.py:ChainedMinimizer.__init__", "symfit/core/minimizers.py:ChainedMinimizer.__getstate__", "symfit/core/minimizers.py:ScipyMinimize.__init__", "symfit/core/minimizers.py:ScipyConstrainedMinimize.__init__", "symfit/core/minimizers.py:BasinHopping.__init__"], "unguarded_claim_refuted": "the claim for programs that change `fixed` between creation and unpickling (false: C78_fixed_later_refuted)"}
{"id": "C79", "title": "Options of execute reach scipy, the rest is filled in, and executing again poses the same problem", "statement": "Calling execute with options calls scipy exactly once per minimizer. Every option the user gives reaches scipy under its name (jacobian as jac, hessian as hess, and those replace the derivative the minimizer would use); what the user does not give is filled in from the problem and symfit's defaults (tol 1e-9, the settings of differential evolution, method trf); an option symfit passes itself (method, bounds of a bounded minimizer, constraints of a constrained one, x0, ...) is a TypeError. BasinHopping keeps what the user put in minimizer_kwargs and fills in the local minimizer's method, jacobian, constraints and bounds. TrustConstr always adds sparse_jacobian=False to options. A chain calls scipy once for each minimizer, in order, with that minimizer's own options, starting at the parameters the minimizer before reported; its answer is the last one and the iterations add up. Executing the same minimizer again with the same options poses the same problem with the same options to scipy, also for a chain.", "quantifier": "all minimizer classes, objects, problems, keyword dictionaries and contents of nested option dictionaries, all answers of scipy, chains of any length", "why_tests_cant": "a statement about all keyword dictionaries through a chain of cooperative execute methods that change dictionaries of the user in place; tests pass two or three options", "anchors": ["symfit/core/minimizers.py:ScipyMinimize.execute", "symfit/core/minimizers.py:ScipyGradientMinimize.execute", "symfit/core/minimizers.py:ScipyBoundedMinimizer.execute", "symfit/core/minimizers.py:ScipyHessianMinimize.execute", "symfit/core/minimizers.py:ScipyConstrainedMinimize.execute", "symfit/core/minimizers.py:TrustConstr.execute", "symfit/core/minimizers.py:DifferentialEvolution.execute", "symfit/core/minimizers.py:BasinHopping.execute", "symfit/core/minimizers.py:MINPACK.execute", "symfit/core/minimizers.py:ChainedMinimizer.execute"], "unguarded_claim_refuted": "the claim that executing a minimizer leaves the user's option dictionaries usable for another one (false: C79_shared_kwargs_refuted), and that every option of the user is kept (false for sparse_jacobian: C79_sparse_jacobian_refuted)"}
{"id": "C80", "title": "The class of the model only decides which derivatives a Fit has", "statement": "A dictionary of expressions made into a CallableModel, a GradientModel or a Model (HessianModel) gives the same Fit: scipy gets the same function (half chi squared, minus the log likelihood, or the model itself), the same start, bounds and constraints; a CallableModel hands over no gradient function, the other two the exact one. If scipy answers with a best vector, the reported values are the constrained least squares fit, the maximum likelihood fit or the minimum of the model, whatever the class; the same holds for MINPACK with the residual vector. execute() succeeds for every class: the covariance matrix of a GradientModel is the (scaled) inverse of J^T W J (for LogLikelihood of the products of first derivatives over squared values), or missing if that is singular; a CallableModel has none, and neither has the minimum of a model without second derivatives.", "quantifier": "the three classes of symbolic models, all models, constraints, data, sigmas, bounds, fixed parameters, objectives (LeastSquares, LogLikelihood, MinimizeModel, MINPACK's residuals), minimizer classes, iteration orders of sets, answers of scipy; models without parameters or without usable derivatives included where only values matter", "why_tests_cant": "tests fit one or two models with one class; that leaving out derivatives never changes what is minimised, and never makes execute fail, has to hold for all of them", "anchors": ["symfit/core/models.py:CallableModel", "symfit/core/models.py:GradientModel", "symfit/core/models.py:HessianModel", "symfit/core/models.py:Model", "symfit/core/fit.py:Fit._init_minimizer", "symfit/core/fit.py:Fit._covariance_matrix", "symfit/core/minimizers.py:GradientMinimizer", "symfit/core/objectives.py:LeastSquares"]}
{"id": "C81", "title": "Constraints with components of the model in them: values and Jacobians handed to scipy", "statement": "Fit(model, ..., constraints=[...]) with constraints that mention components of the model or data (so they have a value per data point): for every constraint scipy gets, in the same place, a function returning the values of left - right (right - left for <=) at every data point, with the comparison that was written; and, if the minimizer uses Jacobians and the model can be differentiated, a function returning all derivatives of these values with respect to the free parameters at every point where both sides are differentiable: a gradient for a single value; for several values and at least two parameters, a matrix with one row per free parameter (scipy wants one row per value). With one parameter and several values it raises IndexError.", "quantifier": "every symbolic model, model class with derivatives, list of constraints, data on a line of N points, heap of bounds/fixed flags, sympy rewriting, constrained minimizer that uses Jacobians and parameter vector", "why_tests_cant": "The derivative must be right for every model, constraint, data and parameter vector; tests with scalar constraints never see the layout, and with as many data points as free parameters a transposed matrix raises no error.", "anchors": ["symfit/core/minimizers.py:GradientMinimizer.resize_jac", "symfit/core/minimizers.py:ScipyGradientMinimize.scipy_constraints", "symfit/core/models.py:BaseModel.as_constraint", "symfit/core/models.py:GradientModel.eval_jacobian", "symfit/core/fit.py:Fit._init_constraints", "symfit/core/fit.py:Fit._init_minimizer", "symfit/core/objectives.py:MinimizeModel.eval_jacobian"], "unguarded_claim_refuted": "The Jacobian scipy gets has one row per value of the constraint and one column per free parameter (C81_scipy_layout_refuted), and exists for every constraint (C81_single_parameter_example: IndexError)."}
{"id": "C82", "title": "The printed report of a fit", "statement": "print(fit_result) shows, line by line: one row per parameter with its name, its reported value and the square root of its variance (None without covariance matrix); the status message, number of iterations, objective and minimizer; the goodness of fit qualifiers sorted by name, which for a least squares fit are chi squared, half of it and R squared of the reported values; and, if the minimizer takes constraints, for every constraint of the user a question with an expression that has to be zero or not negative for the constraint to hold, and as the answer the value of that expression at the reported parameter values and the first data point. A minimizer that takes no constraints reports none.", "quantifier": "every symbolic model, data of any number of points, constraints, choice of objective and single minimizer, any parameter values the minimizer returns, any way of printing numbers and expressions on one line", "why_tests_cant": "It is about all models, data, constraints and results; a test compares one printed text.", "anchors": ["symfit/core/fit_results.py:FitResults.__str__", "symfit/core/fit_results.py:FitResults.value", "symfit/core/fit_results.py:FitResults.stdev", "symfit/core/minimizers.py:ScipyConstrainedMinimize._pack_output", "symfit/core/fit.py:Fit.execute", "symfit/core/fit.py:Fit._init_constraints"], "unguarded_claim_refuted": "The answer printed for a constraint tells whether the constraint holds."}
{"id": "C83", "title": "The printed form of a model", "statement": "print(model) for a symbolic model lists all its components, sorted by name, as name(variables; parameters) = expression, with exactly the variables and the parameters the expression mentions, each sorted by name. The text does not depend on the order in which the components were given or on the iteration order of sets.", "quantifier": "every symbolic model, every order of components and of set iteration, any way of printing expressions", "why_tests_cant": "It is about all models and all hash orders.", "anchors": ["symfit/core/models.py:BaseModel.__str__", "symfit/core/models.py:BaseModel.connectivity_mapping"]}
{"id": "C84", "title": "A sequence of minimizers fits one after the other", "statement": "Fit(model, data, minimizer=[M1, .., Mn]).execute() with minimizer classes: each member of the chain is the minimizer Fit would make for it alone, with the same data, objective, derivatives and constraints (given an explicit objective, or no MINPACK among them, for which alone Fit would use another objective), and the chain can be made exactly when its members can. If no parameter is fixed, M1 starts at the parameters' values, every other one asks scipy exactly what it would ask alone but started where the one before it stopped, and the values the last one finds are reported, with the covariance matrix that belongs to them. So for a symbolic model, if the last algorithm finds the best point the reported values are the (constrained) least squares fit, and if no algorithm makes things worse, chi squared never gets worse along the chain (after the last DifferentialEvolution, which does not look at its start).", "quantifier": "All symbolic models (for the first two parts: all models), data, constraints, bounds, chains of any length, and all behaviours of scipy.", "why_tests_cant": "Tests run a chain or two on one problem; that the hand-over and the choice of objective are right for every chain, and what follows for the result, depends on all of them.", "anchors": ["symfit/core/minimizers.py:ChainedMinimizer.execute", "symfit/core/minimizers.py:ChainedMinimizer.__init__", "symfit/core/fit.py:Fit._init_minimizer", "symfit/core/fit.py:Fit.execute", "symfit/core/fit.py:Fit.__init__"], "unguarded_claim_refuted": "A chain of minimizers, none of which makes things worse, never reports a worse fit than its first member (also with fixed parameters)."}
{"id": "C85", "title": "BasinHopping solves the problem of the default minimizer", "statement": "Fit(model, data, minimizer=BasinHopping): the local minimizations are done by the minimizer Fit would have chosen by itself for this model, bounds and constraints, with the same data and objective. execute() asks scipy's basinhopping to start from the values of the free parameters and to hand to its local minimizations the method, bounds, constraints and gradient that minimizer would have used. So, for a symbolic model, if basinhopping finds the best point of that local problem, the reported values are inside the bounds, satisfy the constraints, leave fixed parameters alone, and no other such values have a smaller chi squared.", "quantifier": "All symbolic models (first part: all models), data, bounds, fixed parameters and constraints, all behaviours of scipy.", "why_tests_cant": "A test runs basinhopping on one objective; that the bounds, constraints and derivatives of every fit reach the local minimizations cannot be settled by that.", "anchors": ["symfit/core/minimizers.py:BasinHopping.execute", "symfit/core/minimizers.py:BasinHopping.__init__", "symfit/core/fit.py:Fit._init_minimizer", "symfit/core/fit.py:Fit.execute"]}
{"id": "C86", "title": "Parameters changed after the Fit was made", "statement": "Between creating a Fit and executing it the attributes of the parameters (value, min, max, the value of fixed ones) may be changed: if the same parameters are fixed, and the minimizer was given explicitly or Fit would choose the same one again (there are constraints, or some parameter is bounded or fixed both times, or neither time), the Fit is exactly the one that would be created with the new attributes: it starts at the new values, keeps to the new bounds, uses the new values of fixed parameters and reports the least squares fit for them.", "quantifier": "all models (any objective, data, constraints), all attributes of all parameters before and after, all explicit or chosen minimizers and chains; for the best fit: all symbolic models, data on a grid, admissible minimizers", "why_tests_cant": "depends on which of the many places read a parameter's attributes when the Fit is created and which when it is executed, for all pairs of attribute assignments", "anchors": ["symfit/core/fit.py:Fit.__init__", "symfit/core/fit.py:Fit._init_minimizer", "symfit/core/fit.py:Fit._determine_minimizer", "symfit/core/minimizers.py:BaseMinimizer.initial_guesses", "symfit/core/minimizers.py:BoundedMinimizer.bounds", "symfit/core/objectives.py:BaseObjective._invariant_kwargs"], "unguarded_claim_refuted": "However parameters are changed between creating and executing a Fit (or between two executions), the result is that of a new Fit"}
{"id": "C87", "title": "The order of the data points and the shape of the arrays do not matter", "statement": "Two Fits of the same symbolic model, one with the points of the other in another order or in arrays of another shape (the same values of the variables and the same sigmas at corresponding points), choose the same minimizer, start at the same values, have the same best vectors, and for the same answer of scipy report the same parameter values and the same covariance matrix (None for both, or equal entries).", "quantifier": "all models with symbolic components, constraints, grids G and G' (both without the shape clash of C22), bijections between their points, data and sigmas given positionally or by keyword, parameter attributes, sympy rewritings and set orders", "why_tests_cant": "a test permutes or reshapes one data set; that no order of accumulation, broadcasting rule, shape test or degree-of-freedom count sees the difference is a statement about every permutation and shape", "anchors": ["symfit/core/fit.py:Fit.__init__", "symfit/core/fit.py:Fit.execute", "symfit/core/fit.py:CovarianceMatrix", "symfit/core/objectives.py:LeastSquares", "symfit/core/fit.py:TakesData"]}
{"id": "C88", "title": "Only what the model means matters, not how it is written", "statement": "Two Fits of symbolic models with the same predictions at the data points, the same dependent data and sigmas and the same free parameters have the same best vectors and start at the same values; with the same (free) parameters and the same answer of scipy they report the same values and the same covariance matrix. In particular rewriting an expression to an equal one, writing a named component out in the others (as long as the dependent variables stay the same), and writing the value of a fixed parameter for it do not change the fit.", "quantifier": "all pairs of symbolic models, constraints that agree, data on a grid, parameter attributes, admissible minimizers, sympy rewritings and set orders", "why_tests_cant": "the expressions go through printing, lambdify, topological sorting, symbolic differentiation and simplification; that none of this depends on the form is a statement about all pairs of equal models", "anchors": ["symfit/core/models.py:BaseModel", "symfit/core/models.py:CallableModel.eval_components", "symfit/core/models.py:GradientModel.eval_jacobian", "symfit/core/fit.py:Fit.__init__", "symfit/core/fit.py:Fit.execute", "symfit/core/objectives.py:LeastSquares"], "unguarded_claim_refuted": "Writing a component out in the other ones never changes the Fit"}
{"id": "C89", "title": "A global fit of data sets of different shapes is the least squares fit to all of them together", "statement": "Fitting a symbolic model whose dependent variables have data of different shapes (each with its own independent variables, sharing parameters or components) minimises half of the sum, over all dependent variables and all points of the data of each, of the squared weighted differences, over the free parameters within their bounds, starting from their values and with the exact gradient. If scipy finds a best vector, no other allowed parameter values come closer to the data sets together. execute succeeds, and the covariance matrix is the inverse of the exact second derivatives of half chi squared at the reported values, or of J^T W J if those are singular (None if both are), scaled for relative sigmas by chi squared over the number of data points, data sets of equal shape counted once, minus the number of parameters.", "quantifier": "all symbolic models with any number of components and dependent variables, all shapes of the data per dependent variable, parameters, bounds, fixed parameters, standard deviations, minimizers other than MINPACK, vectors returned by scipy", "why_tests_cant": "the claim is about all models, shapes and parameter values, and about derivatives; the suite fits two data sets of one model", "anchors": ["symfit/core/models.py:BaseCallableModel.__call__", "symfit/core/models.py:GradientModel.eval_jacobian", "symfit/core/models.py:HessianModel.eval_hessian", "symfit/core/objectives.py:BaseObjective._shape_of_dependent_data", "symfit/core/objectives.py:LeastSquares.__call__", "symfit/core/objectives.py:LeastSquares.eval_jacobian", "symfit/core/objectives.py:LeastSquares.eval_hessian", "symfit/core/fit.py:Fit.__init__", "symfit/core/fit.py:Fit._covariance_matrix", "symfit/core/fit.py:Fit.execute"]}
{"id": "C90", "title": "MINPACK fits of numerical models, differential equations and several data sets are least squares fits; data of different sizes are rejected", "statement": "When MINPACK is chosen, scipy's least_squares is given a vector with one residual per data point, the root of the sum over the dependent variables of the squared weighted differences at that point, so that its squares add up to chi squared; also for models with Python callables, systems of differential equations and symbolic models with several data sets on independent variables of their own. Starting values and bounds are those of the free parameters. For symbolic models the Jacobian handed over is the derivative of every non-zero residual, for differential equations it is built from six point differences of solutions, for Python callables there is none. If least_squares finds a best vector, the reported values are the least squares fit. execute succeeds; without derivatives there is no covariance matrix, otherwise it is the scaled inverse of J^T W J (None if singular). If the data of two dependent variables differ in size, the objective raises ValueError at every vector.", "quantifier": "all symbolic models on any grids, all models with Python callables, all first order systems of differential equations with increasing times, all data, standard deviations, parameters, bounds, fixed parameters, vectors returned by scipy", "why_tests_cant": "quantifies over all models, data and vectors and speaks about derivatives and minima; the suite runs MINPACK on a few models", "anchors": ["symfit/core/objectives.py:VectorLeastSquares.__call__", "symfit/core/objectives.py:VectorLeastSquares.eval_jacobian", "symfit/core/minimizers.py:MINPACK.execute", "symfit/core/minimizers.py:MINPACK.resize_jac", "symfit/core/fit.py:Fit.__init__", "symfit/core/fit.py:Fit._covariance_matrix", "symfit/core/fit.py:Fit.execute"]}
{"id": "C91", "title": "A model of Python callables behaves like the symbolic model it computes", "statement": "If every callable of a CallableNumericalModel returns the value of an expression for the symbols its connectivity_mapping names, the model has the variables, parameters and signature of the symbolic model of these expressions, calling it gives the same results, and fitting it to the same data is the same least squares problem: the same objective function, start and bounds, so a vector is a best fit of one iff it is a best fit of the other. It hands no gradient to scipy and reports no covariance matrix.", "quantifier": "all symbolic models, all choices of components given as callables, all iteration orders of sets, all data (of one or several shapes), standard deviations, bounds, fixed parameters, minimizers other than MINPACK, vectors", "why_tests_cant": "two different classes have to agree for all models and all parameter values", "anchors": ["symfit/core/models.py:CallableNumericalModel", "symfit/core/models.py:BaseNumericalModel.__init__", "symfit/core/models.py:BaseCallableModel.__call__", "symfit/core/fit.py:Fit.__init__", "symfit/core/fit.py:Fit.execute", "symfit/core/objectives.py:LeastSquares.__call__"]}
{"id": "C92", "title": "The names of variables and parameters do not matter", "statement": "A Fit of a symbolic model and a Fit of the same model with other names for its variables and parameters, to the same data and with the same values, bounds, fixed flags and constraints under the new names, are the same problem: every vector has a namesake (the same values in the alphabetical order of the new names), the objective has the same value at both, one is a best vector if and only if the other is, both start at the same values, and the values reported for a parameter and its namesake are equal. So nothing but the order of the entries depends on the alphabetical order of the names, the layering of the components or the iteration order of sets.", "quantifier": "all symbolic models with interdependent components, renamings of variables and parameters that keep different symbols different, constraints, data on a grid, parameter attributes, admissible minimizers, iteration orders of sets, vectors", "why_tests_cant": "names decide the order of signatures, of the vectors handed to scipy, of the bounds and of the data; that this order is used consistently everywhere is a statement about all namings", "anchors": ["symfit/core/models.py:BaseModel", "symfit/core/models.py:CallableModel.eval_components", "symfit/core/support.py:seperate_symbols", "symfit/core/minimizers.py:BaseMinimizer._pack_output", "symfit/core/fit.py:Fit.__init__", "symfit/core/objectives.py:LeastSquares"]}
