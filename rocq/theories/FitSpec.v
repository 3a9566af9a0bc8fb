(** * FitSpec: small vocabulary for the statements about Fit. *)
From Coq Require Import Reals.
From Verif Require Import PyBase Expr NumPy Model Objective ObjSpec Minimizer MinSpec Fit.
Local Open Scope R_scope.
Local Open Scope string_scope.
Local Open Scope list_scope.

(** The value a call with positional arguments [args] and keywords [kw] gives to [n],
    when positional arguments stand for [names] in order. *)
Definition given {V} (names : list string) (args : list V) (kw : dict string V) (n : string) : option V :=
  dget (combine names args ++ kw) n.
(** No surplus positional argument, no unknown keyword, nothing given twice. *)
Definition well_formed {V} (names : list string) (args : list V) (kw : dict string V) : Prop :=
  (List.length args <= List.length names)%nat /\ NoDup (dkeys kw) /\
  (forall n, In n (firstn (List.length args) names) -> ~ In n (dkeys kw)) /\
  (forall n, In n (dkeys kw) -> In n names).

(** The data arguments of Fit, in order: the independent and then the dependent
    variables of the model, independent variables of the constraints, then the
    standard deviations (and what else may be omitted); every name once. *)
Definition argument_names (om : omodel) (cons : list fcon) : list string :=
  dedup (map sname (om_indep om ++ om_dep om ++ concat (map (fun c => om_indep (fc_om c)) cons))) ++
  dedup (map sname (map sigma_of (om_dep om) ++
                    concat (map (fun c => om_dep (fc_om c) ++ map sigma_of (om_dep (fc_om c))) cons))).
(** The variables of the model have different names, none is called like the standard deviation
    of another; the same for constraints; no name is needed as both required and optional. *)
Definition good_names (om : omodel) (cons : list fcon) : Prop :=
  NoDup (map sname (om_indep om ++ om_dep om ++ map sigma_of (om_dep om))) /\
  (forall c, In c cons -> NoDup (map sname (om_indep (fc_om c) ++ om_dep (fc_om c) ++ map sigma_of (om_dep (fc_om c))))) /\
  NoDup (argument_names om cons).
(** The data stored for a variable *)
Definition stored (d : dict kwkey datum) (v : sym) : option datum := dget d (KSym v).

(** What becomes of a datum: sequences are converted to arrays. *)
Definition as_given (x : datum) : datum := match x with DSeq a => DArr a | x => x end.
(** The standard deviations used for the data [y] when the user gives [s] (None:
    nothing): the user's array, or an array of the data's shape filled with the
    given number or with ones; without data nothing is changed. *)
Definition expected_sigma (y : datum) (s : datum) : datum :=
  match as_given y, as_given s with
  | DataNone, s' => s'
  | DArr a, DataNone => DArr {| shp := shp a; val := fun _ => 1 |}
  | DArr a, DNum r => DArr {| shp := shp a; val := fun _ => r |}
  | _, s' => s'
  end.
(** Data and sigma for which this is possible: data is an array (or None), a
    0-dimensional sigma array only comes with 0-dimensional data. *)
Definition spreadable (y s : datum) : Prop :=
  match as_given y, as_given s with
  | DataNone, _ => True
  | DArr a, DArr b => shp b = [] -> shp a = []
  | DArr _, _ => True
  | DNum _, DArr b => shp b <> []
  | DNum _, _ => False
  | DSeq _, _ => False
  end.

(** Some parameter has a bound or is fixed. *)
Definition bounded_or_fixed (h : heap) (ps : list sym) : Prop :=
  exists p, In p ps /\ (p_fixed (h p) = true \/ p_min (h p) <> None \/ p_max (h p) <> None).

(** *** Matrices *)
(** entry of a matrix, row [k] column [l] (shapes and indices are last axis first) *)
Definition mat (a : nd) (k l : nat) : R := val a [l; k].
Definition delta (k l : nat) : R := if Nat.eqb k l then 1 else 0.
(** [a * b = r * I], for [n] by [n] matrices *)
Definition product_is (n : nat) (a b : nd) (r : R) : Prop :=
  forall k l, (k < n)%nat -> (l < n)%nat -> Rsum (map (fun m => mat a k m * mat b m l) (seq 0 n)) = r * delta k l.
Definition square (n : nat) (a : nd) : Prop := shp a = [n; n].
Definition inverse_of (n : nat) (a b : nd) : Prop := square n b /\ product_is n a b 1 /\ product_is n b a 1.
(** [np.linalg.inv]: the inverse of an invertible matrix, else LinAlgError. *)
Definition inverts (inv : nd -> res nd) : Prop :=
  forall n a, square n a ->
    (exists b, inv a = Ok b /\ inverse_of n a b) \/ (inv a = Raise LinAlgError /\ forall b, ~ inverse_of n a b).
Definition symmetric (n : nat) (a : nd) : Prop := forall k l, (k < n)%nat -> (l < n)%nat -> mat a k l = mat a l k.
(** The same matrix up to a factor; None: there is no matrix. *)
Definition scaled_matrix (n : nat) (r : R) (a b : option nd) : Prop :=
  match a, b with
  | Some x, Some y => square n x /\ square n y /\ forall k l, (k < n)%nat -> (l < n)%nat -> mat y k l = r * mat x k l
  | None, None => True
  | _, _ => False
  end.

(** The same data of the model, but all sigmas multiplied by [c]. *)
Definition sigmas_scaled (c : R) (om : omodel) (data data' : dict sym (option nd)) : Prop :=
  (forall v, In v (om_indep om ++ om_dep om) -> dget data' v = dget data v) /\
  (forall v, In v (om_dep om) -> dget data' (sigma_of v) = option_map (option_map (npmap (Rmult c))) (dget data (sigma_of v))).
(** The same for what a user passes. *)
Definition scale_datum (c : R) (x : datum) : datum :=
  match x with DArr a => DArr (npmap (Rmult c) a) | DSeq a => DSeq (npmap (Rmult c) a) | DNum r => DNum (c * r) | DataNone => DataNone end.

(** The number of data points: one per index of every dependent data array. *)
Definition points (x : datum) : nat := match x with DArr a | DSeq a => List.length (indices (shp a)) | _ => 0%nat end.
Definition data_points (om : omodel) (d : dict kwkey datum) : nat :=
  fold_right Nat.add 0%nat (map (fun v => match stored d v with Some x => points x | None => 0%nat end) (om_dep om)).
(** Data of the model's variables are arrays or absent. *)
Definition arrays_only (om : omodel) (d : dict kwkey datum) : Prop :=
  forall v, In v (om_indep om ++ om_dep om) -> stored d v = Some DataNone \/ exists a, stored d v = Some (DArr a).
(** The different shapes of the dependent data, and the number of points when
    variables with data of the same shape are counted once. *)
Definition dependent_shapes (om : omodel) (d : dict kwkey datum) : list (list nat) :=
  concat (map (fun v => match stored d v with Some (DArr a) => [shp a] | _ => [] end) (om_dep om)).
Definition counted_points (om : omodel) (d : dict kwkey datum) : nat :=
  fold_right Nat.add 0%nat (map (fun s => List.length (indices s)) (dedup (dependent_shapes om d))).
(** [C] is [r] times the inverse of [H]. *)
Definition scaled_inverse (n : nat) (r : R) (H C : nd) : Prop :=
  square n C /\ exists B, inverse_of n H B /\ forall k l, (k < n)%nat -> (l < n)%nat -> mat C k l = r * mat B k l.
Definition singular (n : nat) (H : nd) : Prop := forall B, ~ inverse_of n H B.
(** Two Fits whose data differ only by a factor [c] on all sigmas. *)
Definition fit_sigmas_scaled (c : R) (om : omodel) (d d' : dict kwkey datum) : Prop :=
  (forall v, In v (om_indep om ++ om_dep om) -> stored d' v = stored d v) /\
  (forall v, In v (om_dep om) -> stored d' (sigma_of v) = option_map (scale_datum c) (stored d (sigma_of v))).
(** Variance scale: 1, or the reduced chi squared. *)
Definition variance_scale (absolute : bool) (chi2 dof : R) : R := if absolute then 1 else chi2 / dof.
(** The data a call gives to a name, None when it gives nothing. *)
Definition data_for (om : omodel) (cons : list fcon) (args : list datum) (kw : dict string datum) (v : sym) : datum :=
  match given (argument_names om cons) args kw (sname v) with Some x => x | None => DataNone end.
(** The model as a BaseCallableModel provides it. *)
Definition callable (om : omodel) : Prop := interface om /\ by_keyword om.
(** The minimizer Fit has to choose. *)
Definition expected_minimizer (h : heap) (om : omodel) (cons : list fcon) (c : mclass) : Prop :=
  (cons <> [] /\ c = SLSQP) \/
  (cons = [] /\ bounded_or_fixed h (om_params om) /\ c = LBFGSB) \/
  (cons = [] /\ ~ bounded_or_fixed h (om_params om) /\ c = BFGS).
(** The objective Fit has to choose: [m] is the minimizer argument, [with_data] whether
    data is given for the first dependent variable. *)
Definition expected_objective (fm : fmodel) (m : mchoice) (with_data : bool) (c : oclass) : Prop :=
  (m = MItem (MCls MINPACK) /\ c = OVLS) \/
  (m <> MItem (MCls MINPACK) /\ fm_len fm = 1%nat /\ om_indep (fm_om fm) = [] /\ with_data = false /\ c = OMM) \/
  (m <> MItem (MCls MINPACK) /\ ~ (fm_len fm = 1%nat /\ om_indep (fm_om fm) = [] /\ with_data = false) /\ c = OLS).
(** The model's own data, as a user must give it: data for every independent variable,
    and no bare Python numbers (they have no shape). *)
Definition proper_data (om : omodel) (cons : list fcon) (args : list datum) (kw : dict string datum) : Prop :=
  (forall v, In v (om_indep om) -> data_for om cons args kw v <> DataNone) /\
  (forall v r, In v (om_indep om ++ om_dep om) -> data_for om cons args kw v <> DNum r).
(** The objective is least squares made by Fit itself. *)
Definition least_squares (o : ochoice) (c : oclass) : Prop :=
  (forall c ob, o <> OInst c ob) /\ (c = OLS \/ c = OVLS).
(** What the model returns at the fitted parameters: values [out] that fit the data,
    and the Jacobian [jac]. *)
Definition evaluated (h : heap) (om : omodel) (data : dict sym (option nd)) (popt : list R) (out jac : dict sym nd) : Prop :=
  value_at h om data [] (named_values om popt) out /\ fits_data om data out /\
  jacobian_at h om data [] (named_values om popt) out jac /\ some_data om data.
Definition with_hessian (h : heap) (om : omodel) (data : dict sym (option nd)) (popt : list R) (out hess : dict sym nd) : Prop :=
  hessian_at h om data [] (named_values om popt) out hess.
(** Reduced chi squared, or 1 for absolute sigmas; [points] is the number of data points. *)
Definition s_squared (absolute : bool) (om : omodel) (data : dict sym (option nd)) (out : dict sym nd) (points : nat) : R :=
  variance_scale absolute (Rsum (map (chi2_of data out) (om_dep om))) (INR points - INR (List.length (om_params om))).
Definition symmetric_hessian (om : omodel) (out hess : dict sym nd) : Prop :=
  forall v i k l, In v (om_dep om) -> In i (indices (shp (entry out v))) ->
    (k < List.length (om_params om))%nat -> (l < List.length (om_params om))%nat ->
    val (entry hess v) (i ++ [l; k]) = val (entry hess v) (i ++ [k; l]).
(** [cov] is [r] times the inverse of [H]; None when [H] has no inverse. *)
Definition inverse_or_none (n : nat) (r : R) (H : nd) (cov : option nd) : Prop :=
  (exists C, cov = Some C /\ scaled_inverse n r H C) \/ (singular n H /\ cov = None).

(** The minimizer [mn] made by the Fit [f] works for it: it has its parameters, the derivatives of its
    objective where it uses them, and, where it uses them, its constraints, evaluated on the data of the fit. *)
Definition has_objective_derivatives (h : heap) (om : omodel) (f : fit) (mn : minimizer) : Prop :=
  (uses_jacobian (mi_class mn) = true -> om_jac om <> None -> exists g, mi_jacobian mn = Some g /\
     forall xs, g xs = (r <- obj_jacobian (ft_class f) h om (ft_obj f) xs [] ;; of_opt TypeError r)) /\
  (uses_hessian (mi_class mn) = true -> om_hess om <> None -> ft_class f <> OVLS -> exists g, mi_hessian mn = Some g /\
     forall xs, g xs = (r <- obj_hessian (ft_class f) h om (ft_obj f) xs [] ;; of_opt TypeError r)) /\
  (ft_class f = OVLS -> mi_hessian mn = None).
Definition has_constraints (h : heap) (om : omodel) (cons : list fcon) (f : fit) (mn : minimizer) : Prop :=
  uses_constraints (mi_class mn) = true ->
  List.length (pb_cons (execute_problem h mn DNone DNone)) = List.length cons /\
  forall i c, nth_error cons i = Some c -> exists k ob, nth_error (pb_cons (execute_problem h mn DNone DNone)) i = Some k /\
    mm_init (fc_om c) (objective_data (ft_data f)) = Ok ob /\ (forall v, imposes k v <-> demands (fc_rel c) v) /\
    (forall xs, handed_fun k xs = mm_call h (fc_om c) ob xs []) /\
    (uses_jacobian (mi_class mn) = true -> om_jac (fc_om c) <> None -> NoDup (om_params om) -> exists w, handed_jac k = Some w /\
       forall xs a, mm_jac h (fc_om c) ob xs [] = Ok (Some a) -> gradient_shaped (List.length (om_params om)) a ->
         exists g, w xs = Ok g /\ shp g = [nfree h (om_params om)] /\ forall p n j, free_at h (om_params om) p n j -> val g [n] = gradient_entry a j).
Definition equipped (h : heap) (om : omodel) (cons : list fcon) (f : fit) (mn : minimizer) : Prop :=
  mi_parameters mn = om_params om /\ has_objective_derivatives h om f mn /\ has_constraints h om cons f mn.

(** [sum_v sum_i J_k J_l / f^2]: minus the log likelihood differentiated twice, without the second derivatives of the model. *)
Definition information (out jac : dict sym nd) (dep : list sym) (k l : nat) : R :=
  Rsum (map (fun v => Rsum (map (fun i => val (entry jac v) (i ++ [k]) * val (entry jac v) (i ++ [l]) / val (entry out v) i ^ 2) (indices (shp (entry out v))))) dep).
(** A matrix with leading axes of length one, as numpy.squeeze sees it. *)
Definition matrix_in (n : nat) (a : nd) (H : nd) : Prop :=
  square n H /\ exists d, shp a = repeat 1%nat d ++ [n; n] /\ forall k l, mat H k l = val a (repeat 0%nat d ++ [l; k]).

(** Which exception reports missing data, given the variables of the model in order: the warning about
    [ODEModel] when there is a derivative with no automatically named variable before it (nor its own name). *)
Definition missing_data_error (vars : list sym) (e : exn) : Prop :=
  (e = TypeError \/ e = RuntimeWarning) /\
  (e = RuntimeWarning <-> exists pre y ps post, vars = pre ++ SDer y ps :: post /\
     forall w, In w (pre ++ [SDer y ps]) -> String.prefix "var" (sname w) = false).
