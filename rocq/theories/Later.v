(** * Later: a Fit after its parameters were changed: symfit/core/fit.py:336-406, 493-571, minimizers.py:30-41, 85-110.

    [Fit(..)] runs while the parameters have the attributes [h0], [execute] while they have [h1].  What reads attributes when the Fit is
    made: the choice of the minimizer (fit.py:420-437), the lists of fixed and free parameters of a minimizer (minimizers.py:34-41).  Everything
    else reads them when scipy runs: starting values and bounds (minimizers.py:85-110: properties), the objective and constraints and their
    derivatives (objectives.py:81-146).  Below, [init_class], [init_item], [init_choice] and [fit_init] of Fit.v with [h0] and [h1] told apart. *)
From Coq Require Import Reals.
From Verif Require Import PyBase Signature Expr NumPy Model Objective Minimizer Fit.
Local Open Scope R_scope.

Section Later.
  Context (toward0 : R -> R) (h0 h1 : heap) (om : omodel) (cons : list fcon) (data : dict sym (option nd)) (c : oclass) (ob : obj).
  (** fit.py:493-538 [_init_minimizer] *)
  Definition later_class (cls : mclass) : res minimizer :=
    let jac := if is_gradient cls then match om_jac om with
                 | Some _ => Some (as_fn (fun xs => obj_jacobian c h1 om ob xs []))
                 | None => None end else None in
    let hess := if is_hessian cls then match om_hess om with
                  | Some _ => if has_hessian c then Some (as_fn (fun xs => obj_hessian c h1 om ob xs [])) else None
                  | None => None end else None in
    cs <- (if is_constrained cls then mapM (constraint_objective h1 data) cons else Ok []) ;;
    minimizer_init h0 cls (om_params om) jac hess (map CMinimize cs).
  Definition later_item (i : mitem) : res fmin :=
    match i with
    | MInst m => Ok (FMin m None)
    | MCls BasinHopping =>
        local <- later_class (determine_minimizer toward0 h0 om cons) ;;
        m <- later_class BasinHopping ;; Ok (FMin m (Some local))
    | MCls cls => m <- later_class cls ;; Ok (FMin m None)
    end.
  (** fit.py:398-406 *)
  Definition later_choice (m : mchoice) : res fmin :=
    match m with
    | MDefault => later_item (MCls (determine_minimizer toward0 h0 om cons))
    | MItem i => later_item i
    | MSeq l => ms <- mapM later_item l ;; Ok (FChain (om_params om) ms)
    end.
End Later.
(** *** The Fit made under [h0] as it behaves under [h1], fit.py:336-406 *)
Definition fit_later (toward0 : R -> R) (h0 h1 : heap) (fm : fmodel) (cons : list fcon) (o : ochoice) (m : mchoice) (absolute : option bool)
           (args : list datum) (kw : dict string datum) : res fit :=
  '(c, t) <- fit_data fm cons o m absolute args kw ;;
  let data := objective_data (td_data t) in
  ob <- match o with OInst _ ob => Ok ob | _ => make_objective c (fm_om fm) data end ;;
  mn <- later_choice toward0 h0 h1 (fm_om fm) cons data c ob m ;;
  Ok {| ft_data := td_data t; ft_absolute := td_absolute t; ft_class := c; ft_obj := ob; ft_min := mn |}.
(** The same Fit after its objective was evaluated under [h] (objectives.py:131-146: a cached property) *)
Definition evaluated_fit (h : heap) (om : omodel) (f : fit) : fit :=
  {| ft_data := ft_data f; ft_absolute := ft_absolute f; ft_class := ft_class f; ft_obj := touched h om (ft_obj f); ft_min := ft_min f |}.
