(** * EndSpec: what a fit of a symbolic model should do, in the user's terms. *)
From Coq Require Import Reals Relations.
From Coquelicot Require Import Coquelicot.
From Verif Require Import PyBase Expr ExprR Model NumPy Objective ObjSpec Minimizer MinSpec Fit FitSpec Cast ArrModel ArrSpec ConModel.
Local Open Scope R_scope.

(** The data, and the standard deviations, a call [Fit(model, *args, constraints=cons, .. kw)] means
    for a variable (None: none). *)
Definition the_data (om : omodel) (cons : list fcon) (args : list datum) (kw : dict string datum) (v : sym) : option nd :=
  datum_nd (data_for om cons args kw v).
Definition the_sigma (om : omodel) (cons : list fcon) (args : list datum) (kw : dict string datum) (v : sym) : option nd :=
  datum_nd (expected_sigma (data_for om cons args kw v) (data_for om cons args kw (sigma_of v))).

(** The numbers the model has to see at data point [i] for the parameter values [theta]. *)
Definition at_data (Y : sym -> option nd) (theta : sym -> R) (i : list nat) : sym -> R :=
  fun s => if is_par s then theta s else match Y s with Some a => elem a i | None => 0 end.
(** The weighted sum of squares of the differences between model and data. *)
Definition chi2_for (sol : (sym -> R) -> sym -> R) (m : amodel) (Y S : sym -> option nd) (theta : sym -> R) : R :=
  Rsum (map (fun v => match Y v, S v with
    | Some y, Some s => Rsum (map (fun i => ((sol (at_data Y theta i) v - val y i) / elem s i) ^ 2) (indices (shp y)))
    | _, _ => 0
    end) (m_dep m)).
(** The independent data live on one non-empty grid [G] .. *)
Definition inputs_on_grid (G : list nat) (m : amodel) (Y : sym -> option nd) : Prop :=
  G <> [] /\ ~ In 0%nat G /\ forall v, In v (m_indep m) -> exists a, Y v = Some a /\ on_grid G (shp a).
(** .. and so do the dependent data, sigmas are not zero, some dependent variable has data. *)
Definition data_on_grid (G : list nat) (m : amodel) (Y S : sym -> option nd) : Prop :=
  inputs_on_grid G m Y /\
  (forall v y, In v (m_dep m) -> Y v = Some y ->
     shp y = G /\ exists s, S v = Some s /\ fits (shp s) G = true /\ forall i, In i (indices G) -> elem s i <> 0) /\
  exists v, In v (m_dep m) /\ Y v <> None.
(** The likelihood: the product of the values the model predicts, over all data points and dependent
    variables, and its logarithm. *)
Definition Rprod (l : list R) : R := fold_right Rmult 1 l.
Definition likelihood (G : list nat) (sol : (sym -> R) -> sym -> R) (m : amodel) (Y : sym -> option nd) (theta : sym -> R) : R :=
  Rprod (map (fun v => Rprod (map (fun i => sol (at_data Y theta i) v) (indices G))) (m_dep m)).
Definition log_likelihood (G : list nat) (sol : (sym -> R) -> sym -> R) (m : amodel) (Y : sym -> option nd) (theta : sym -> R) : R :=
  Rsum (map (fun v => Rsum (map (fun i => ln (sol (at_data Y theta i) v)) (indices G))) (m_dep m)).
(** The model predicts positive values at all data points. *)
Definition positive_for (G : list nat) (sol : (sym -> R) -> sym -> R) (m : amodel) (Y : sym -> option nd) (theta : sym -> R) : Prop :=
  forall v i, In v (m_dep m) -> In i (indices G) -> 0 < sol (at_data Y theta i) v.
(** Every dependent variable refers, directly or through other components, to an independent variable
    whose data fill the grid. *)
Definition covers_data (G : list nat) (es : dict sym expr) (m : amodel) (Y : sym -> option nd) : Prop :=
  m_dep m <> [] /\ forall v, In v (m_dep m) ->
    exists x a, Relation_Operators.clos_trans sym (ModelSpec.refers (comps (V:=R) es)) v x /\ In x (m_indep m) /\ Y x = Some a /\ shp a = G.
(** The same for the variables that occur in the constraints and are not components of the model. *)
Definition constraints_on_grid (G : list nat) (es : dict sym expr) (us : list user_con) (Y : sym -> option nd) : Prop :=
  forall u v, In u us -> ModelSpec.mentions (uc_left u) v \/ ModelSpec.mentions (uc_right u) v -> is_par v = false -> ~ In v (dkeys es) ->
    exists a, Y v = Some a /\ on_grid G (shp a).
(** No data is a bare Python number (they have no shape, C41). *)
Definition no_bare_numbers (om : omodel) (cons : list fcon) (args : list datum) (kw : dict string datum) : Prop :=
  forall v r, In v (om_indep om ++ om_dep om) -> data_for om cons args kw v <> DNum r.

(** Parameter values a fit may report: fixed parameters as they are, the others in their bounds. *)
Definition allowed (h : heap) (m : amodel) (theta : sym -> R) : Prop :=
  forall p, In p (m_params m) -> if p_fixed (h p) then theta p = p_value (h p) else within h p (theta p).

(** [x] respects the bounds in the problem [pb] handed to scipy (no list: no bounds). *)
Definition in_box (pb : problem) (x : list R) : Prop :=
  forall i v, nth_error x i = Some v ->
    (forall lo l, pb_lower pb = Some lo -> nth_error lo i = Some (Some l) -> l <= v) /\
    (forall up u, pb_upper pb = Some up -> nth_error up i = Some (Some u) -> v <= u).
(** .. and its constraints: scipy's condition holds for every entry of their values. *)
Definition feasible (pb : problem) (x : list R) : Prop :=
  in_box pb x /\ forall k, In k (pb_cons pb) -> exists c, handed_fun k x = Ok c /\ forall i, In i (indices (shp c)) -> imposes k (val c i).
(** [x] is a best vector of length [n] for the objective [f]: numpy arrays with one entry count as that number. *)
Definition minimises (f : list R -> res nd) (pb : problem) (n : nat) (x : list R) : Prop :=
  List.length x = n /\ feasible pb x /\
  forall x' r r', List.length x' = n -> feasible pb x' -> f x = Ok r -> f x' = Ok r' -> elem r [] <= elem r' [].
(** .. among the vectors [cand] *)
Definition minimises_among (cand : list R -> Prop) (f : list R -> res nd) (pb : problem) (n : nat) (x : list R) : Prop :=
  List.length x = n /\ feasible pb x /\ cand x /\
  forall x' r r', List.length x' = n -> feasible pb x' -> cand x' -> f x = Ok r -> f x' = Ok r' -> elem r [] <= elem r' [].
(** .. for a vector of residuals: the sum of their squares is smallest *)
Definition squares (r : nd) : R := Rsum (map (fun i => val r i ^ 2) (indices (shp r))).
Definition minimises_squares (f : list R -> res nd) (pb : problem) (n : nat) (x : list R) : Prop :=
  List.length x = n /\ feasible pb x /\
  forall x' r r', List.length x' = n -> feasible pb x' -> f x = Ok r -> f x' = Ok r' -> squares r <= squares r'.

(** What the constraint [l REL r] means .. *)
Definition holds (r : rel) (a b : R) : Prop :=
  match r with REq => a = b | RNe => a <> b | RGe => b <= a | RGt => b < a | RLe => a <= b | RLt => a < b end.
(** .. for the parameter values [theta]: it holds at every data point, where components of the model
    stand for their values there. *)
Definition constraints_hold (G : list nat) (sol : (sym -> R) -> sym -> R) (us : list user_con) (Y : sym -> option nd) (theta : sym -> R) : Prop :=
  forall u i, In u us -> In i (indices G) ->
    holds (uc_rel u) (eval Ralg (sol (at_data Y theta i)) (uc_left u)) (eval Ralg (sol (at_data Y theta i)) (uc_right u)).
(** Constraints as a user writes them: see [constraint_name]. *)
Definition good_constraints (es : dict sym expr) (us : list user_con) : Prop :=
  forall u, In u us -> constraint_name es (uc_left u) (uc_right u) (uc_name u) /\ proper_powers (uc_left u) /\ proper_powers (uc_right u).
(** The minimizer argument: none, or a class, other than MINPACK, that supports the bounds and
    constraints there are. *)
Definition suitable (h : heap) (ps : list sym) (us : list user_con) (mc : mchoice) : Prop :=
  mc = MDefault \/ exists c, mc = MItem (MCls c) /\ c <> MINPACK /\
    (uses_bounds c = true \/ forall p, In p ps -> p_fixed (h p) = true \/ (p_min (h p) = None /\ p_max (h p) = None)) /\
    (uses_constraints c = true \/ us = []).
(** The objective is the one of class [c]: the user asks for it, or leaves the choice to Fit
    (which must then choose it); the minimizer is not MINPACK. *)
Definition objective_chosen (o : ochoice) (mc : mchoice) (c : oclass) : Prop :=
  (o = ODefault \/ o = OClass c) /\ mc <> MItem (MCls MINPACK).
(** The same for MinimizeModel: Fit chooses it for a model with one component and no independent variables, if
    there are no data for the component [v]. *)
Definition model_chosen (om : omodel) (cons : list fcon) (args : list datum) (kw : dict string datum) (es : dict sym expr) (o : ochoice) (mc : mchoice) (v : sym) : Prop :=
  o = OClass OMM \/
  (o = ODefault /\ mc <> MItem (MCls MINPACK) /\ List.length es = 1%nat /\ FitSpec.given (argument_names om cons) args kw (sname v) = None).
(** .. and for MINPACK *)
Definition minpack_chosen (o : ochoice) (mc : mchoice) : Prop := (o = ODefault \/ o = OClass OVLS) /\ mc = MItem (MCls MINPACK).
(** The class of the minimizer to be used *)
Definition chosen_class (h : heap) (om : omodel) (cons : list fcon) (mc : mchoice) (c : Minimizer.mclass) : Prop :=
  (mc = MDefault /\ expected_minimizer h om cons c) \/ mc = MItem (MCls c).

(** The reported values, [fit_result.value(p)]. *)
Definition reported (ps : list sym) (popt : list R) (p : sym) : R :=
  match dget (result_params ps popt) (sname p) with Some v => v | None => 0 end.

(** The model is defined for the parameter values [theta], at every data point .. *)
Definition defined_for (G : list nat) (es : dict sym expr) sol (Y : sym -> option nd) (theta : sym -> R) : Prop :=
  forall i k e, In i (indices G) -> In (k, e) es -> JacAnalysis.defined (sol (at_data Y theta i)) e.
(** .. and for all values near them. *)
Definition defined_around (G : list nat) (es : dict sym expr) sol (Y : sym -> option nd) (theta : sym -> R) : Prop :=
  exists eps, 0 < eps /\ forall theta', (forall p, Rabs (theta' p - theta p) < eps) -> defined_for G es sol Y theta'.

(** The same for a model without independent variables. *)
Definition model_defined (es : dict sym expr) (sol : (sym -> R) -> sym -> R) (theta : sym -> R) : Prop :=
  forall k e, In (k, e) es -> JacAnalysis.defined (sol theta) e.
Definition model_defined_around (es : dict sym expr) (sol : (sym -> R) -> sym -> R) (theta : sym -> R) : Prop :=
  exists eps, 0 < eps /\ forall theta', (forall p, Rabs (theta' p - theta p) < eps) -> model_defined es sol theta'.

(** [theta] with the value of [p] replaced *)
Definition with_value (theta : sym -> R) (p : sym) (t : R) : sym -> R := fun q => if eq_dec q p then t else theta q.
(** [d f / d p] and [d^2 f / d p d q] at [theta] *)
Definition derivative_in (f : (sym -> R) -> R) (theta : sym -> R) (p : sym) (d : R) : Prop :=
  is_derive (fun t => f (with_value theta p t)) (theta p) d.
Definition second_derivative_in (f : (sym -> R) -> R) (theta : sym -> R) (p q : sym) (d : R) : Prop :=
  is_derive (fun t => Derive (fun u => f (with_value (with_value theta p t) q u)) (with_value theta p t q)) (theta p) d.

(** Only parameters occur in the constraint [u] .. *)
Definition only_parameters (u : user_con) : Prop := forall s, ModelSpec.mentions (uc_left u) s \/ ModelSpec.mentions (uc_right u) s -> is_par s = true.
(** .. whose value must be zero, or not negative. *)
Definition constraint_value (u : user_con) (theta : sym -> R) : R :=
  match uc_rel u with
  | RLe => eval Ralg theta (uc_right u) - eval Ralg theta (uc_left u)
  | _ => eval Ralg theta (uc_left u) - eval Ralg theta (uc_right u)
  end.
(** No parameter is called like one of its derivatives. *)
Definition derivative_names_free (ps : list sym) (u : user_con) : Prop :=
  forall p q, In p ps -> In q ps -> sname (Jacobian.der_of (uc_name u) (sname p)) <> sname q.
(** sympy's [l - r] and [e * -1] are defined where [l], [r], [e] are. *)
Definition keeps_defined (sub : expr -> expr -> expr) (mulm1 : expr -> expr) : Prop :=
  (forall l r env, JacAnalysis.defined env l -> JacAnalysis.defined env r -> JacAnalysis.defined env (sub l r)) /\
  (forall e env, JacAnalysis.defined env e -> JacAnalysis.defined env (mulm1 e)).
