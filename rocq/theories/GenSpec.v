(** * GenSpec: least squares fits of models that are not symbolic: what they predict is
    given as a function of the parameter values. *)
From Coq Require Import Reals.
From Verif Require Import PyBase Expr NumPy Model Objective ObjSpec Minimizer MinSpec Fit FitSpec ArrSpec EndSpec.
Local Open Scope R_scope.

(** The keyword arguments [d] give every independent variable its data and every parameter its value. *)
Definition inputs_for (om : omodel) (Y : sym -> option nd) (theta : sym -> R) (d : dict string nd) : Prop :=
  NoDup (dkeys d) /\
  forall n a, dget d n = Some a <->
    (exists v, In v (om_indep om) /\ sname v = n /\ Y v = Some a) \/
    (exists p, In p (om_params om) /\ sname p = n /\ a = scalar (theta p)).
(** Called in this way the model gives [P v i] for the dependent variable [v] at index [i] of an array of shape [sh v]. *)
Definition predicts (om : omodel) (Y : sym -> option nd) (sh : sym -> list nat) (theta : sym -> R) (P : sym -> list nat -> R) : Prop :=
  forall d, inputs_for om Y theta d -> exists out, om_call om d = Ok out /\ lists_dependent om out /\
    forall v, In v (om_dep om) -> shp (entry out v) = sh v /\ forall i, In i (indices (sh v)) -> val (entry out v) i = P v i.
(** .. and [eval_jacobian] gives [J v i k] for the [k]-th parameter. *)
Definition predicts_jac (om : omodel) (Y : sym -> option nd) (sh : sym -> list nat) (theta : sym -> R) (J : sym -> list nat -> nat -> R) : Prop :=
  forall d, inputs_for om Y theta d -> exists f jac, om_jac om = Some f /\ f d = Ok jac /\ lists_dependent om jac /\
    forall v, In v (om_dep om) -> shp (entry jac v) = sh v ++ [List.length (om_params om)] /\
      forall i k, In i (indices (sh v)) -> (k < List.length (om_params om))%nat -> val (entry jac v) (i ++ [k]) = J v i k.

(** The weighted sum of squares of the differences between predictions and data. *)
Definition chi2_with (P : sym -> list nat -> R) (dep : list sym) (Y S : sym -> option nd) : R :=
  Rsum (map (fun v => match Y v, S v with
    | Some y, Some s => Rsum (map (fun i => ((P v i - val y i) / elem s i) ^ 2) (indices (shp y)))
    | _, _ => 0
    end) dep).
(** Its half differentiated, when [J] stands for the derivatives of the predictions in one parameter. *)
Definition chi2_gradient (P : sym -> list nat -> R) (J : sym -> list nat -> R) (dep : list sym) (Y S : sym -> option nd) : R :=
  Rsum (map (fun v => match Y v, S v with
    | Some y, Some s => Rsum (map (fun i => J v i * ((P v i - val y i) / elem s i ^ 2)) (indices (shp y)))
    | _, _ => 0
    end) dep).
(** [J^T W J]: the sum of products of derivatives, weighted with the standard deviations. *)
Definition weighted_products (J J' : sym -> list nat -> R) (dep : list sym) (Y S : sym -> option nd) : R :=
  Rsum (map (fun v => match Y v, S v with
    | Some y, Some s => Rsum (map (fun i => J v i * J' v i / elem s i ^ 2) (indices (shp y)))
    | _, _ => 0
    end) dep).

(** There are data for the independent variables; data of a dependent variable have the shape of the predictions,
    with non-zero standard deviations; some dependent variable has data. *)
Definition data_matches (om : omodel) (sh : sym -> list nat) (Y S : sym -> option nd) : Prop :=
  (forall v, In v (om_indep om) -> Y v <> None) /\
  (forall v y, In v (om_dep om) -> Y v = Some y ->
     shp y = sh v /\ exists s, S v = Some s /\ fits (shp s) (shp y) = true /\ forall i, In i (indices (shp y)) -> elem s i <> 0) /\
  exists v, In v (om_dep om) /\ Y v <> None.

(** Parameter values a fit may report: fixed parameters as they are, the others in their bounds. *)
Definition allowed_for (h : heap) (ps : list sym) (theta : sym -> R) : Prop :=
  forall p, In p ps -> if p_fixed (h p) then theta p = p_value (h p) else within h p (theta p).
(** No minimizer is asked for, or a class other than MINPACK that supports the bounds there are. *)
Definition suitable_class (h : heap) (ps : list sym) (mc : mchoice) : Prop := suitable h ps [] mc.
