# Formal model of symfit in Rocq (Coq 8.16.1)

## 1. Approach

The code in /repo is read as text and modelled function by function as total Gallina functions.
Exceptions are values (`res A = Ok a | Err e`, `PyBase.v`), dicts are association lists in
insertion order, objects that are mutated are heaps or records threaded through the functions.
Every definition of a model file carries a comment with the file and lines of /repo it models and
says what is simplified. The layers:

| files | code modelled |
|---|---|
| `PyBase`, `PyFacts` | python dicts, sorting, exceptions, `map` that may raise |
| `Toposort` | the `toposort` package loop used by `BaseModel.ordered_symbols` |
| `Signature` | `inspect.Signature.bind` for the signatures symfit builds |
| `Expr`, `ExprR`, `ExprCall`, `Cast` | sympy expressions (`expr`), their evaluation in an arbitrary algebra, `sympy_to_py`, `seperate_symbols`, `Expr.__call__` |
| `Model` | `BaseModel`, `BaseCallableModel`, `CallableModel`, `BaseNumericalModel` (construction), `ModelOutput`, `as_constraint`, `with_dependencies`, `__neg__`, `__eq__`, `bounds`, `shared_parameters` |
| `Jacobian`, `DerModel` | `jacobian_from_model`, `hessian_from_model`, `GradientModel`, `HessianModel` and their cached derivative models |
| `FiniteDiff` | `BaseGradientModel.finite_difference` |
| `NumModel` | `CallableNumericalModel` and its equality |
| `NumPy`, `Objective` | the numpy operations used (shapes, broadcasting, masks, sums) and all objectives |
| `ArrModel` | symbolic models evaluated on numpy arrays (the real `CallableModel`, `GradientModel`, `Model` seen by an objective) |
| `Minimizer` | all minimizer classes, wrapped objectives, constraints, chained minimizers, BasinHopping |
| `Fit` | `TakesData`, `HasCovarianceMatrix`, `Fit` |
| `Guess` | `InteractiveGuess` (contrib) |
| `Results` | `FitResults` |
| `Cached`, `Pickle` | `cached_property`, pickling of models and constraints |
| `Ode` | `ODEModel` |
| `Args` | `Argument`, `Parameter`, `Variable`, `parameters`, `variables`, their pickling |
| `DerNames`, `Printing`, `Distributions` | names of derivatives, the sympy printers, `distributions.py` |

`*Spec.v` files hold the small independent specifications the theorem statements use; `*Facts`,
`*Lemmas`, `*Main` hold proofs; `Prop_*.v` hold only the property theorems, `Print Assumptions`
and, beside each theorem, an `Example` that a concrete non-trivial case meets the hypotheses.

Where a property one would like is false of the code there is a theorem with suffix `_refuted`
that proves the negation (from a concrete witness or in general), and the property is stated with
the exact guard under which it holds; `properties.jsonl` keeps the refuted wording next to it
(`unguarded_claim_refuted`).

## 2. Trusted base

* Coq's kernel (8.16.1) and the standard library. Coquelicot's lemmas are used (no axioms of
  its own); no other library contributes axioms. No axiom, parameter or section-less hypothesis is
  declared in this development, no functors, no module types, nothing is admitted.
* Axioms reported by `Print Assumptions`, all from the standard library, mostly those of `Reals`:
  - **F** `ClassicalDedekindReals.sig_forall_dec`
  - **N** `ClassicalDedekindReals.sig_not_dec`
  - **X** `FunctionalExtensionality.functional_extensionality_dep`
  - **C** `Classical_Prop.classic`
  - **E** `ClassicalEpsilon.constructive_indefinite_description` (in Examples and `_refuted` theorems only)
  The set for each theorem is listed in section 5.
* The correspondence of the model with the code, which is by reading: the comments at the
  definitions say what is modelled where.

## 3. Third-party behaviour

* **sympy**: expressions are trees over variables, parameters and derivative symbols. Rewritings
  sympy may apply (subtraction, multiplication by -1, `expand`, simplification of derivatives) are
  universally quantified functions assumed only to preserve meaning (and not to invent symbols).
  Iteration order of python sets is a universally quantified function that returns a permutation.
* **numpy**: modelled explicitly: shapes (stored last axis first), broadcasting, `sum`, `nansum`,
  masks, fancy indexing, `np.stack`, `atleast_2d`. `np.linalg.inv` is any function that inverts
  invertible matrices. Floats are real numbers: no rounding, NaN only as the "undefined" value of
  `log` in `LogLikelihood`.
* **scipy**: `scipy.optimize` is an arbitrary function from the problem handed to it to an answer;
  theorems about quality of fits assume that the answer is a minimum of the problem handed over.
  `solve_ivp` is any function meeting a stated exactness contract.
* **matplotlib** (C74, C75): a `Slider` is any function of its ends and the wanted value; a line is the list of its
  points. `np.percentile` is any function (with the contract the theorem states).
* **inspect / pickle / functools**: modelled from their documented behaviour.

## 4. Not modelled

* Floating-point rounding, overflow, warnings, `_repr_latex_`, deprecation wrappers. How numbers and
  expressions are turned into text (C82, C83 take it as any function).
* `contrib/interactive_guess`: drawing of the data (scatter and contour plots), titles and colours.
* sympy itself (its canonical forms, lambdify's code generation beyond name handling), matrix
  valued models (MatrixSymbol) beyond printing, `Idx`/`Indexed` beyond being skipped.
* Concurrency: symfit has none.
* Where a simplification is local to a definition it is named in that definition's comment.

### Deviations found in the code

These are proved as `_refuted` theorems, or noted in comments where they fall outside a property:

1. `HessianMinimizer.resize_hess`: `out[mask, mask]` takes the diagonal, so two or more free
   parameters give a 1 x k matrix when a parameter is fixed (C34).
2. `TrustConstr.scipy_constraints`: the Hessian lambda binds the loop variable late, every
   constraint gets the last one's Hessian (C37). Vector-valued constraint Jacobians reach scipy
   transposed (C37). A `sympy.Le` given to a minimizer directly raises KeyError (C37).
3. `ChainedMinimizer.execute`: the next guess lists all parameters including fixed ones (C36), so a chain can
   spoil the perfect fit of its first member (C84);
   a user class called `BFGS_2` collides with the generated option name (C35).
4. Only the top layer of the dependency order is "dependent"; constant components are in no list;
   a model `{y: 3}` raises IndexError (C04). A Parameter with a constant expression is accepted as
   a component (C03).
5. `BaseNumericalModel.__neg__` always raises TypeError (C08); `ODEModel.__neg__` drops the
   integrator's keyword arguments (C63).
6. `BaseModel.__eq__` compares lengths with `is not`: above 256 components never equal (C09).
7. `Parameter(min > max, fixed=True)` is accepted and has no bounds; a rejected creation has
   already changed the shared object of that name (C56); `parameters()` does not compare mixed
   single/sequence bounds, loses iterators, and sets attributes although it raises (C57); loading
   a pickled Parameter resets the live one (C65).
8. `data_shapes` is a set, so the degrees of freedom count components of equal shape once; fixed
   parameters are subtracted too (C44). Python numbers as data raise AttributeError (C41, C43).
9. `LeastSquares(flatten_components=False)` raises TypeError (C31).
10. `VectorLeastSquares` adds components before the root and broadcasts them (C24).
11. `_shape_of_dependent_data` misjudges derivative arrays whose leading axes match the data (C30).
12. `BaseObjective.__eq__` is asymmetric and may raise (C29); `_array_safe_dict_eq` lets an
    AssertionError escape (C49).
13. Minimizers used directly with parameters not in alphabetical order permute the answer (C38).
14. Cached invariant arguments keep old data and old fixed values (C28).
15. ODE models: an array holding only the initial time, or none, raises; unsorted times are
    silently reordered; decreasing times ending at the initial time solve another problem (C50,
    C51); `in` is always True (C53); the order of a derivative key is ignored (C64).
16. Derivative names collide (C58); automatic names collide with explicit ones (C55).
17. Hadamard printing has no parentheses and drops the third factor (C60); `Exp` is positive for
    negative x (C61).
18. Pickled results lose constraints, Jacobian and local minimizer, nested chains do not load
    (C48); `covariance()` without a matrix raises TypeError (C46).
19. The analytical Jacobian does not exist for dependency chains of depth three on one parameter
    (NameError, C13). Without dependent data the gradient has the wrong length (C20).
20. `r_squared` broadcasts trailing axes: wrong or ValueError (C47).
21. A fixed parameter makes Fit choose L-BFGS-B (C42).
22. Opening an `InteractiveGuess` changes negative values of parameters without a maximum, although no
    slider is touched (C74); the error bars it draws are off by the average (C75); a dependent variable without data, or
    not depending on an independent variable, makes it raise.
23. Constraints passed together with a minimizer that does not support them (MINPACK for one) are
    silently ignored (C69_minpack_problem, C70).
24. Fits of ODE models compare the data with the solution at the SORTED times, when the times are not sorted and do not
    contain the initial time: exact data do not give the true parameters (C76_unsorted_times_refuted).
25. A minimizer chooses which parameters it varies when it is created, and again when it is unpickled: if `fixed` was changed
    in between the copy poses a different problem than the original (C78_fixed_later_refuted).
26. `BasinHopping.execute` writes the local minimizer's method, jacobian, constraints and bounds into the user's `minimizer_kwargs`:
    with the same dictionary another minimizer runs with those of the first (C79_shared_kwargs_refuted). `TrustConstr.execute`
    overrides the user's `sparse_jacobian`, in the user's dictionary (C79_sparse_jacobian_refuted).
27. `GradientMinimizer.resize_jac` on a constraint with one value per data point (a constraint with a component of the model in it): the
    matrix handed to scipy is the transpose of the one scipy expects, silently if there are as many points as free parameters
    (C81_scipy_layout_refuted, SLSQP chosen by default); for a model with one parameter squeezing leaves the values on the first axis and
    masking raises IndexError (C81_single_parameter_example).
28. The printed report answers the question about a constraint with its value at the first data point only: the answer can be fine
    although the constraint fails at other points (C82_answer_tells_constraint_holds_refuted). Minimizers that take no constraints
    list none. (Not modelled: a minimizer used directly with a sympy relation as constraint makes printing the result
    raise AttributeError, since `constraint.model` is looked up on the relation.)
29. Changing parameters after a Fit was created: fixing one then shifts the entries of scipy's vector and its bounds to the wrong parameters
    (C86_fixing_later_refuted); a bound given then is ignored if Fit had chosen BFGS (C86_bound_later_refuted); executing again after changing the
    value of a fixed parameter reports the new value together with the old fit (C86_execute_again_refuted).
