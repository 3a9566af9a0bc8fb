{
 "C01": "`Model.call` runs the evaluation loop of `eval_components` over the ordered symbols; proved by induction along the toposort layers against `solution`, a map that satisfies every component's equation and mentions no order. `C01_arrays` lifts it to numpy arrays elementwise.",
 "C02": "`Toposort.toposort` models the package's loop; soundness, termination and completeness (CircularDependency iff there is a cycle of `refers`) by induction on the number of remaining nodes.",
 "C03": "`init_from_dict` builds the five lists; set characterisation, sortedness and absence of duplicates from the layers.",
 "C04": "As C03, with the depth of a component in the dependency graph; `dependent` iff maximal depth.",
 "C05": "`Signature.sig_bind` models `inspect.Signature.bind`; all splits of the same assignment into positional and keyword arguments give the same call.",
 "C06": "`ModelOutput` as a record; lookups by index, name, iteration and after pickling.",
 "C07": "`BaseModel.__neg__`; evaluation of the negated dict compared with `solution` of the original.",
 "C08": "`BaseNumericalModel.__neg__` always raises; general statement.",
 "C09": "`BaseModel.__eq__` with CPython's small-int `is`; equivalence relation on models of at most 256 components.",
 "C10": "`as_constraint` (both branches, all relations) with meaning-preserving sympy subtraction; the value of the constraint model is compared with the written relation.",
 "C11": "Same model; the parameters of the constraint are those of the model.",
 "C12": "`with_dependencies`; closedness and evaluation equivalence.",
 "C13": "`jacobian_from_model` builds a model of derivative symbols; evaluation of that model is shown to be `Derive` of the solution map by induction along the layers (total derivative).",
 "C14": "`hessian_from_model`, twice the construction of C13.",
 "C15": "`finite_difference` as a loop over parameters with counted calls; Taylor's theorem for the error.",
 "C16": "`__getstate__`/`__setstate__` of models and constraints on an object heap with cached properties; every program of property reads and calls gives the same results on original and copy.",
 "C17": "`shared_parameters` over free symbols.",
 "C18": "`bounds` over the parameter heap.",
 "C19": "`LeastSquares.__call__` on numpy arrays; equals half the weighted sum, stated with an independent real sum over indices.",
 "C20": "`LeastSquares.eval_jacobian`; equals `Derive` of the C19 value for every parameter.",
 "C21": "`LeastSquares.eval_hessian`; equals the second derivative.",
 "C22": "`HessianObjectiveJacApprox`; entry (i,j) is the sum over points of J_i J_j / sigma^2.",
 "C23": "`LogLikelihood` value, gradient, Hessian; on points with positive model value they are minus the log-likelihood and its derivatives.",
 "C24": "`VectorLeastSquares` value and Jacobian.",
 "C25": "`MinimizeModel`.",
 "C26": "Fixed parameters in the keyword arguments of an objective call.",
 "C27": "`BaseObjective.__call__`, `eval_jacobian`, `eval_hessian` argument matching.",
 "C28": "Objective objects as a state machine with a cache; arbitrary histories of evaluations and changes.",
 "C29": "`BaseObjective.__eq__` loop.",
 "C30": "`_shape_of_dependent_data` on arbitrary shapes and parameter levels.",
 "C31": "`LeastSquares.__call__` with `flatten_components=False`: always TypeError.",
 "C32": "Minimizer classes as records of what they hand to scipy; masks against free parameters.",
 "C33": "`_pack_output` and `FitResults.__init__`.",
 "C34": "`resize_hess` in its numpy semantics.",
 "C35": "`ChainedMinimizer._make_signature` and binding of the options.",
 "C36": "`ChainedMinimizer.execute` as a fold; hand-over of guesses.",
 "C37": "`scipy_constraints` of all constrained minimizers.",
 "C38": "`_baseobjective_from_callable`.",
 "C39": "`BasinHopping.execute`.",
 "C40": "`TakesData.__init__` with its signature.",
 "C41": "Sigma defaults in `TakesData.__init__`.",
 "C42": "`Fit._determine_minimizer`, `_determine_objective`, `_init_minimizer`.",
 "C43": "`covariance_matrix` with any matrix inverse.",
 "C44": "`_covariance_matrix`'s degrees of freedom.",
 "C45": "`Fit.execute` with scipy as an oracle.",
 "C46": "`FitResults` lookups.",
 "C47": "`_gof_qualifiers`, `r_squared`.",
 "C48": "`FitResults.__getstate__/__setstate__`.",
 "C49": "`_array_safe_dict_eq`.",
 "C50": "`ODEModel.eval_components` with any exact `solve_ivp`.",
 "C51": "Same, single times.",
 "C52": "`ODEModel.__init__`, `_ncomponents`, `_njacobian`.",
 "C53": "`ODEModel.__getitem__`, `__iter__` and python's `in` protocol.",
 "C54": "`cached_property` as a descriptor state machine.",
 "C55": "Creation histories of `Argument` with sympy's symbol cache.",
 "C56": "`Parameter.__init__` and its property setters on the heap.",
 "C57": "`parameters()`.",
 "C58": "`sympy.Derivative.name`.",
 "C59": "`Expr.__call__` with lambdify.",
 "C60": "Printer and a parser-free evaluation of the printed token tree with python precedence.",
 "C61": "`distributions.py`; improper integrals with Coquelicot.",
 "C62": "Integrator keyword arguments of `ODEModel`.",
 "C63": "`ODEModel.__neg__`.",
 "C64": "`ODEModel.__init__` with repeated derivative variables.",
 "C65": "`Argument.__getstate__/__setstate__` and `__reduce__`.",
 "C66": "Dummy renaming in `sympy_to_py`.",
 "C67": "`CallableNumericalModel.eval_components`. NumDepth.v: which components are dependent.",
 "C68": "`BaseNumericalModel.__eq__`.",
 "C69": "Composition of Model, AsConstraint, ConModel, ArrModel, Objective, Minimizer, Fit: what a `Fit` of a symbolic model (with constraints written as relations) hands to scipy is chi^2/2 with its true derivatives, the bounds and the constraints, and scipy's best answer is the best fit. MINPACK and a user-given LeastSquares included.",
 "C70": "Class hierarchy of minimizers and what each one's `execute` passes to scipy.",
 "C71": "The same composition with LogLikelihood: the handed function is minus the logarithm of the product of model values, from C23 and the array model; maximality by monotonicity of ln.",
 "C72": "The same composition with MinimizeModel, from C25 and the array model on a grid of one point.",
 "C73": "EndCon.v: the constraint model built by as_constraint has only parameters in its single component, so its Jacobian model can always be built; its Jacobian (C13 on arrays, ArrObj) goes through MinimizeModel.eval_jacobian and the wrapper that drops fixed parameters (MinLemmas). Assumes sympy's l - r and -e are differentiable where l, r, e are (keeps_defined), and that no parameter has the name symfit gives to a derivative of the constraint.",
 "C74": "`Guess.v` models the window as a state (limits, grid, sliders, lines) and the callbacks as functions on the heap of parameters; induction over the movements. The slider's initial value is any function of its ends and the wanted value.",
 "C75": "Same model; `np.linspace`, `np.meshgrid` and flattening are explicit, so the masks in the n-dimensional strategy are proved to select exactly the grid points with the given coordinate. Symbolic models are proved pointwise from C01's array evaluation.",
 "C76": "OdeModel.v presents the model of `ODEModel` (Ode.v) through the interface the objectives use; `eval_jacobian` is `finite_difference` (FiniteDiff.v) applied to it. GenSpec.v/GenFit.v prove the least squares fit for any model given by what it predicts; OdeFit.v proves that an ODEModel predicts the solution at the given times (from C50/C52) and that its Jacobian is the six point difference (from C15). `solve_ivp` is the error-free oracle of C50. Data for the unknowns are one-dimensional arrays. OdeErrSpec.v/Prop_OdeErr.v bound the distance of that gradient from the true one (C15).",
 "C77": "`init_numerical` and `call` (Model.v, NumModel.v) at arrays, presented by `om_of KCallable`; NumFit.v proves what the objectives get (from C67), GenFit.v the rest. The callables are arbitrary functions from keyword arguments to arrays, constrained only by the given values of the components.",
 "C78": "Objects are attribute dictionaries with a class (MinObj.v): the `__init__` methods run along the C3 method resolution order computed from the class statements, `__getstate__`/`__setstate__` with `_pickle_kwargs`. MinObjFacts.v computes the attributes for every class, MinObjCopy.v proves the invariant `well` of all reachable objects and that copying keeps it; what is handed to scipy is read off the attributes and compared with Minimizer.v.",
 "C79": "MinExec.v models every execute method along the method resolution order, with option dictionaries in a store (the code changes some in place), up to the call of scipy. MinExecSpec.v says in tables which keywords scipy gets. MinExecFacts/Main/Basin prove the tables per class; MinExecAgain proves by a renaming of addresses that a second execution sees the same; MinExecChain does the induction over a chain.",
 "C80": "The end-to-end development of C69, C71, C72 (EndMain.v) is carried out for an arbitrary class of om_of; Prop_EndCls.v states the results for every class, without the hypotheses on derivatives where only values matter. The covariance of gradient models comes from the approximate Hessian path of Fit (the exact one raises), that of callable models from both paths raising AttributeError, which the code answers with no covariance matrix.",
 "C81": "EndConJac.v composes the constraint model (ArrCon.con_built), its array Jacobian (ArrObj.model_mm), the data Fit stored (EndMain.con_data_is) and the minimizer's wrapping (constraint_wrapped, resize_jac) into one statement about the list of constraints in the problem handed to scipy. Prop_EndConJac.v: C81_constraint_jacobian for all classes but CallableModel; examples with two parameters and one; C81_scipy_layout_refuted.",
 "C82": "Report.v models __str__ with an oracle for the text of numbers and expressions; ReportSpec.v splits a text into lines and says which lines there should be. report_of_fit evaluates every constraint of the result (as in C69/C81) at the reported values, ls_report combines C43, C47 and C69 for the numbers; the refutation evaluates a fit whose constraint fails at the last of three points.",
 "C83": "ReportModel.v: the entries of the connectivity mapping are the mentioned symbols (C03), filtering and sorting them by name gives lists that are unique for distinct names.",
 "C84": "Chain.v models Fit.execute with any minimizer (run_minimizer, fit_run) over a scipy oracle; ChainMain.v proves that the members are those of single fits (fit_other, chain_members, chain_made) and reduces a run to its answers (chain_run, with the hand-over lemma of C36); C84_least_squares combines it with C69. The counterexample with a fixed parameter is computed.",
 "C85": "Chain.v (local_problem, run_minimizer); ChainMain.basin_local shows that the local minimizer is that of Fit without a minimizer and the local problem is its problem without a start; C85_best_fit then applies C69_best_fit.",
 "C86": "Later.v repeats Fit.__init__ with two heaps: the attributes at creation (h0) and at execution (h1), each read of the code assigned to the time it happens; it is proved equal to fit_init at h1 when the fixed flags and the choice agree, so all theorems about new Fits apply. Refuted otherwise: C86_fixing_later_refuted, C86_bound_later_refuted, C86_execute_again_refuted.",
 "C87": "same_points says that pi maps the points of the second grid one to one onto those of the first with equal values. chi squared as a function of the parameters is then the same (sum over a permutation), so are the constraints' sums; C69_fit_problem gives both problems in terms of chi squared, bounds and constraints; C69_covariance characterises both covariance matrices by the derivatives of chi squared / the squared Jacobian sums and the inverse is unique.",
 "C88": "the semantics of the components has one solution (acyclicity), so the solution of the rewritten model is that of the original (means_unique); chi squared, bounds and constraints of C69_fit_problem are then equal, and both matrices of C69_covariance are determined by derivatives of equal functions.",
 "C89": "GlobSpec.v gives every component its grid (`on_grids`). The array lemmas of ArrGen.v are about any family of suitable shapes that is closed under references and broadcasting; GlobMain.v instantiates it with: the shape lives on the grid of every component using the symbol. JacAnalysis/JacSecond give first and second derivatives of part of a model (`first_order_on`, `second_order_on`), so that definedness is only asked where a component has data points. GlobDiff.v differentiates chi squared, GlobFit.v turns predictions, Jacobian and Hessian into Fit's covariance matrix (least squares on top of C19-C24, C43), Prop_Glob.v states the result for Fit.",
 "C90": "GenVec.v: any model whose predictions are known (GenSpec.v `predicts`, `predicts_jac`): value and Jacobian of the vector of residuals (VecSpec.v), best fit, covariance matrix, and the broadcasting error for data of different sizes, on top of the objectives' lemmas of ObjVec.v. Prop_Vec.v instantiates it with num_predicts (C77), ode_predicts (C76) and glob_predicts (C89), and shows that the slope of a residual is its derivative where it is not zero.",
 "C91": "TwinSpec.v says what it means that callables compute the expressions of a dict. NumDepth.v classifies the components of a numerical model by the length of dependency chains, as PropLemmas.v does for symbolic ones, so the lists coincide; the solution of the equations satisfies the callables (TwinMain.v), so C67 gives the call and C89 the predictions at the data; GenFit.v gives the fit.",
 "C92": "RenameSpec.v states the renaming (new names for variables and parameters, the same symbols and values in every expression, data and attributes under the new names) and when two vectors give namesakes the same value. RenameMain.v shows from the specifications of the variables (C03, C04) that the lists of the two models are permutations of each other, that the solution of the renamed system is the renamed solution, hence chi squared, the bounds and the constraints agree; Prop_Rename.v puts this together with C69."
}