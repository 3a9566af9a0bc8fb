(** * ObjSpec: what an objective should compute, stated without its helpers. *)
From Coq Require Import Reals.
From Coquelicot Require Import Coquelicot.
From Verif Require Import PyBase Expr NumPy Objective.
Local Open Scope R_scope.

(** A model interface as BaseCallableModel provides it: the call signature is the
    independent variables followed by the parameters, all with different names. *)
Definition interface (om : omodel) : Prop :=
  om_names om = map sname (om_indep om ++ om_params om) /\
  NoDup (map sname (om_indep om ++ om_params om)) /\ NoDup (om_dep om).

(** The value the model has to see for the name [n] when an objective with data
    [data] is called with the parameter vector [xs] and keywords [kw]: stored data
    for an independent variable, the fixed value for a fixed parameter, the entry
    of [xs] at the position among the free parameters, otherwise the keyword. *)
Definition seen (h : heap) (om : omodel) (data : dict sym (option nd)) (xs : list R) (kw : dict string R)
           (n : string) : option nd :=
  match find (fun v => eqb (sname v) n) (om_indep om) with
  | Some v => match dget data v with Some a => a | None => None end
  | None =>
  match find (fun p => eqb (sname p) n && p_fixed (h p)) (om_params om) with
  | Some p => Some (scalar (p_value (h p)))
  | None =>
  match dget (combine (map sname (filter (fun p => negb (p_fixed (h p))) (om_params om))) xs) n with
  | Some x => Some (scalar x)
  | None => option_map scalar (dget kw n)
  end end end.
(** [d] is a dict of keyword arguments with exactly these values. *)
Definition arguments_are (d : dict string nd) (f : string -> option nd) : Prop :=
  NoDup (dkeys d) /\ forall n, dget d n = f n.

(** Two models with the same variables, parameters and signature. *)
Definition same_interface (om1 om2 : omodel) : Prop :=
  om_params om1 = om_params om2 /\ om_indep om1 = om_indep om2 /\ om_dep om1 = om_dep om2 /\ om_names om1 = om_names om2.
(** They give the same answer for the keyword arguments [d]. *)
Definition agree_at (om1 om2 : omodel) (d : dict string nd) : Prop :=
  om_call om1 d = om_call om2 d /\
  match om_jac om1, om_jac om2 with Some f, Some g => f d = g d | None, None => True | _, _ => False end /\
  match om_hess om1, om_hess om2 with Some f, Some g => f d = g d | None, None => True | _, _ => False end.

(** Two objectives evaluate alike: call, Jacobian and Hessian of all four classes. *)
Definition same_objectives (h : heap) (om1 om2 : omodel) (ob : obj) (xs : list R) (kw : dict string R) : Prop :=
  (forall b, ls_call b h om1 ob xs kw = ls_call b h om2 ob xs kw) /\ ls_jac h om1 ob xs kw = ls_jac h om2 ob xs kw /\
  ls_hess h om1 ob xs kw = ls_hess h om2 ob xs kw /\ ls_hess_approx h om1 ob xs kw = ls_hess_approx h om2 ob xs kw /\
  (forall b, vls_call b h om1 ob xs kw = vls_call b h om2 ob xs kw) /\ vls_jac h om1 ob xs kw = vls_jac h om2 ob xs kw /\
  ll_call h om1 ob xs kw = ll_call h om2 ob xs kw /\ ll_jac h om1 ob xs kw = ll_jac h om2 ob xs kw /\
  ll_hess h om1 ob xs kw = ll_hess h om2 ob xs kw /\
  mm_call h om1 ob xs kw = mm_call h om2 ob xs kw /\ mm_jac h om1 ob xs kw = mm_jac h om2 ob xs kw /\
  mm_hess h om1 ob xs kw = mm_hess h om2 ob xs kw.

(** *** What a model returns *)
(** Keyword arguments are passed by name: their order in the dict is irrelevant. *)
Definition by_keyword (om : omodel) : Prop :=
  forall d1 d2, NoDup (dkeys d1) -> NoDup (dkeys d2) -> (forall n, dget d1 n = dget d2 n) ->
    om_call om d1 = om_call om d2 /\ (forall f, om_jac om = Some f -> f d1 = f d2) /\ (forall f, om_hess om = Some f -> f d1 = f d2).
(** The answer has one entry per dependent variable, in their order (and possibly
    entries for other components). *)
Definition lists_dependent (om : omodel) (out : dict sym nd) : Prop :=
  filter (fun v => inb v (om_dep om)) (dkeys out) = om_dep om.
Definition entry (out : dict sym nd) (v : sym) : nd := match dget out v with Some c => c | None => scalar 0 end.

(** The value of the component [c] at the data point [i] of [y]: leading axes are
    aligned, missing trailing axes and axes of length 1 are stretched. *)
Definition at_point (c y : nd) (i : list nat) : R := elem c (skipn (List.length (shp y) - List.length (shp c)) i).
(** [c] can be stretched to the data in this way. *)
Definition stretches (c y : nd) : Prop :=
  fits (repeat 1%nat (List.length (shp y) - List.length (shp c)) ++ shp c) (shp y) = true.

(** Data and standard deviation given for [v]. *)
Definition observed (data : dict sym (option nd)) (v : sym) : option nd :=
  match dget data v with Some a => a | None => None end.

(** *** Least squares: half the sum of the squared weighted residuals *)
Definition chi2_of (data : dict sym (option nd)) (out : dict sym nd) (v : sym) : R :=
  match observed data v, observed data (sigma_of v) with
  | Some y, Some s =>
      Rsum (map (fun i => ((at_point (entry out v) y i - val y i) / elem s i) ^ 2) (indices (shp y)))
  | _, _ => 0
  end.
Definition half_chi2 (data : dict sym (option nd)) (out : dict sym nd) (dep : list sym) : R :=
  / 2 * Rsum (map (chi2_of data out) dep).

(** Every dependent variable with data has a non-zero standard deviation and an
    answer that fits the data. *)
Definition fits_data (om : omodel) (data : dict sym (option nd)) (out : dict sym nd) : Prop :=
  forall v y, In v (om_dep om) -> observed data v = Some y ->
    stretches (entry out v) y /\
    exists s, observed data (sigma_of v) = Some s /\ fits (shp s) (shp y) = true /\
              forall i, In i (indices (shp y)) -> elem s i <> 0.
Definition independent_data_given (om : omodel) (data : dict sym (option nd)) : Prop :=
  forall v, In v (om_indep om) -> exists a, dget data v = Some (Some a).

(** replace an entry of the parameter vector *)
Fixpoint set_nth (xs : list R) (j : nat) (t : R) : list R :=
  match xs, j with
  | [], _ => []
  | _ :: xs', O => t :: xs'
  | x :: xs', S j' => x :: set_nth xs' j' t
  end.

(** [ob] is the objective made from [data] ([independent]: LogLikelihood or
    MinimizeModel) for a model with a proper interface, to be called with keywords [kw]. *)
Definition created (independent : bool) (om : omodel) (data : dict sym (option nd)) (ob : obj) (kw : dict string R) : Prop :=
  interface om /\ by_keyword om /\ NoDup (map sname (om_dep om)) /\
  obj_init independent om data = Ok ob /\ NoDup (dkeys kw) /\ independent_data_given om data.

(** [f] (the model's call, Jacobian or Hessian) answers [out] when the objective is
    evaluated at the parameter vector [xs]. *)
Definition answers (f : dict string nd -> res (dict sym nd)) (h : heap) (om : omodel) (data : dict sym (option nd))
           (xs : list R) (kw : dict string R) (out : dict sym nd) : Prop :=
  exists d, arguments_are d (seen h om data xs kw) /\ f d = Ok out /\ lists_dependent om out.
Definition value_at h om data xs kw out : Prop := answers (om_call om) h om data xs kw out.
(** Jacobian: one row per parameter, a row has the shape of the component (last axis
    first: [shape ++ [n]]), and is not mistaken for something of the data's shape. *)
Definition jacobian_at h om data xs kw (out jac : dict sym nd) : Prop :=
  (exists f, om_jac om = Some f /\ answers f h om data xs kw jac) /\
  forall v, In v (om_dep om) -> shp (entry jac v) = shp (entry out v) ++ [List.length (om_params om)] /\
    forall y, observed data v = Some y -> shp (entry jac v) <> shp y.
Definition hessian_at h om data xs kw (out hess : dict sym nd) : Prop :=
  (exists f, om_hess om = Some f /\ answers f h om data xs kw hess) /\
  forall v, In v (om_dep om) ->
    shp (entry hess v) = shp (entry out v) ++ [List.length (om_params om); List.length (om_params om)] /\
    forall y, observed data v = Some y -> shp (entry hess v) <> shp y.
(** Some dependent variable has data. *)
Definition some_data (om : omodel) (data : dict sym (option nd)) : Prop :=
  exists v y, In v (om_dep om) /\ observed data v = Some y.

(** Along the curve [t |-> out t] of model answers, entry [k] of the Jacobian is the
    derivative of every component at every index. *)
Definition derivative_of (dep : list sym) (out : R -> dict sym nd) (t0 : R) (jac : dict sym nd) (k : nat) : Prop :=
  forall v i, In v dep -> In i (indices (shp (entry (out t0) v))) ->
    is_derive (fun t => val (entry (out t) v) i) t0 (val (entry jac v) (i ++ [k])).
Definition same_shapes (dep : list sym) (o1 o2 : dict sym nd) : Prop :=
  forall v, In v dep -> shp (entry o1 v) = shp (entry o2 v).

(** The model's answer [out] (and Jacobian [jac]) when parameter [p] is [t] and every
    other argument is as for the vector [xs]. *)
Definition with_param (h : heap) (om : omodel) (data : dict sym (option nd)) (xs : list R) (kw : dict string R)
           (p : sym) (t : R) (d : dict string nd) : Prop :=
  exists d0, arguments_are d0 (seen h om data xs kw) /\ d = dset d0 (sname p) (scalar t).
(** Row [k] of [jac] is the partial derivative of the model's answer in parameter [p],
    at the point [xs] where [p] has the value [t0]. *)
Definition partial_in (h : heap) (om : omodel) (data : dict sym (option nd)) (xs : list R) (kw : dict string R)
           (p : sym) (t0 : R) (jac : dict sym nd) (k : nat) : Prop :=
  exists out : R -> dict sym nd,
    locally t0 (fun t => exists d, with_param h om data xs kw p t d /\ om_call om d = Ok (out t) /\
                                   lists_dependent om (out t) /\ same_shapes (om_dep om) (out t0) (out t)) /\
    derivative_of (om_dep om) out t0 jac k.
(** Entry [(k, l)] of [hess] is the partial derivative in parameter [p] (number [l]) of
    row [k] of the model's Jacobian [jac]. *)
Definition partial2_in (h : heap) (om : omodel) (data : dict sym (option nd)) (xs : list R) (kw : dict string R)
           (p : sym) (t0 : R) (jac hess : dict sym nd) (k l : nat) : Prop :=
  exists out jacs : R -> dict sym nd,
    locally t0 (fun t => exists d f, with_param h om data xs kw p t d /\ om_call om d = Ok (out t) /\
                                   lists_dependent om (out t) /\ same_shapes (om_dep om) (out t0) (out t) /\
                                   om_jac om = Some f /\ f d = Ok (jacs t) /\ lists_dependent om (jacs t) /\
                                   same_shapes (om_dep om) (jacs t0) (jacs t)) /\
    jacs t0 = jac /\ derivative_of (om_dep om) out t0 jac l /\
    forall v i, In v (om_dep om) -> In i (indices (shp (entry (out t0) v))) ->
      is_derive (fun t => val (entry (jacs t) v) (i ++ [k])) t0 (val (entry hess v) (i ++ [l; k])).
(** Parameter [p] is free, the [j]-th one, and has number [k] among all parameters. *)
Definition free_number (h : heap) (om : omodel) (p : sym) (j k : nat) : Prop :=
  nth_error (om_params om) k = Some p /\
  nth_error (filter (fun q => negb (p_fixed (h q))) (om_params om)) j = Some p.

(** *** Log-likelihood and plain models (no comparison with data) *)
Definition minus_log_sum (out : dict sym nd) (dep : list sym) : R :=
  - Rsum (map (fun v => Rsum (map (fun i => ln (val (entry out v) i)) (indices (shp (entry out v))))) dep).
Definition all_positive (dep : list sym) (out : dict sym nd) : Prop :=
  forall v i, In v dep -> In i (indices (shp (entry out v))) -> 0 < val (entry out v) i.
Definition plain_jacobian h om data xs kw (out jac : dict sym nd) : Prop :=
  (exists f, om_jac om = Some f /\ answers f h om data xs kw jac) /\
  forall v, In v (om_dep om) -> shp (entry jac v) = shp (entry out v) ++ [List.length (om_params om)].
Definition plain_hessian h om data xs kw (out hess : dict sym nd) : Prop :=
  (exists f, om_hess om = Some f /\ answers f h om data xs kw hess) /\
  forall v, In v (om_dep om) -> shp (entry hess v) = shp (entry out v) ++ [List.length (om_params om); List.length (om_params om)].
(** Row [k] of a Jacobian. *)
Definition row (j : nd) (k : nat) : nd := {| shp := removelast (shp j); val := fun i => val j (i ++ [k]) |}.
(** [sum_v sum_i J_k J_l / sigma^2] *)
Definition jtwj (data : dict sym (option nd)) (jac : dict sym nd) (dep : list sym) (k l : nat) : R :=
  Rsum (map (fun v =>
    match observed data v, observed data (sigma_of v) with
    | Some y, Some s =>
        Rsum (map (fun i => at_point (row (entry jac v) k) y i * at_point (row (entry jac v) l) y i / elem s i ^ 2) (indices (shp y)))
    | _, _ => 0
    end) dep).

(** *** Histories of evaluations *)
(** Results of one evaluation of an objective, whatever its class. *)
Record results := { r_ls : res R; r_lsj : res nd; r_lsh : res nd; r_lsa : res nd; r_vls : res nd; r_vlsj : res nd;
                    r_ll : res R; r_llj : res nd; r_llh : res nd; r_mm : res nd; r_mmj : res (option nd); r_mmh : res (option nd) }.
Definition evaluate (h : heap) (om : omodel) (ob : obj) (xs : list R) (kw : dict string R) : results :=
  {| r_ls := ls_call true h om ob xs kw; r_lsj := ls_jac h om ob xs kw; r_lsh := ls_hess h om ob xs kw; r_lsa := ls_hess_approx h om ob xs kw;
     r_vls := vls_call true h om ob xs kw; r_vlsj := vls_jac h om ob xs kw; r_ll := ll_call h om ob xs kw; r_llj := ll_jac h om ob xs kw;
     r_llh := ll_hess h om ob xs kw; r_mm := mm_call h om ob xs kw; r_mmj := mm_jac h om ob xs kw; r_mmh := mm_hess h om ob xs kw |}.
(** A history: at each step the attributes of the parameters are as in the heap, and
    the objective is evaluated. *)
Fixpoint run (om : omodel) (ob : obj) (hist : list (heap * list R * dict string R)) : list results * obj :=
  match hist with
  | [] => ([], ob)
  | (h, xs, kw) :: hist' => let '(rs, ob') := run om (touched h om ob) hist' in (evaluate h om ob xs kw :: rs, ob')
  end.


(** *** Equality of data: same shapes and no pair in between the two tolerances *)
Definition comparable (o v : option nd) : Prop :=
  match o, v with
  | Some a, Some b => shp a = shp b /\ forall i, close (elem a i) (elem b i) = close (elem b i) (elem a i)
  | None, None => True
  | _, _ => False
  end.

(** Both models have, or both lack, a Jacobian and a Hessian. *)
Definition have_same_derivatives (om1 om2 : omodel) : Prop :=
  (om_jac om1 = None <-> om_jac om2 = None) /\ (om_hess om1 = None <-> om_hess om2 = None).
