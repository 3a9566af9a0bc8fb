(** * Chain: Fit.execute with any minimizer: symfit/core/fit.py:562-581, and what a minimizer
    asks of scipy when it is executed without options, minimizers.py:240-271 (ChainedMinimizer),
    325-349 and its overrides, 706-740 (BasinHopping). *)
From Coq Require Import Reals.
From Verif Require Import PyBase Signature Expr NumPy Model Objective Minimizer Fit.
Local Open Scope R_scope.
Local Open Scope string_scope.
Local Open Scope list_scope.

(** minimizers.py:92-94: the setter of [initial_guesses] *)
Definition with_guess (m : minimizer) (g : list R) : minimizer :=
  {| mi_class := mi_class m; mi_parameters := mi_parameters m; mi_fixed := mi_fixed m; mi_params := mi_params m; mi_guess := Some g;
     mi_jacobian := mi_jacobian m; mi_hessian := mi_hessian m; mi_cons := mi_cons m |}.
(** minimizers.py:715-733: what scipy's basinhopping hands on to its local minimisations.  They start where
    basinhopping hops to. *)
Definition local_problem (h : heap) (l : minimizer) : problem :=
  let c := mi_class l in
  {| pb_routine := RMinimize (method_name c); pb_x0 := None;
     pb_lower := if is_bounded c then Some (map fst (bounds h l)) else None;
     pb_upper := if is_bounded c then Some (map snd (bounds h l)) else None;
     pb_jac := if is_gradient c then of_option (wrapped_jacobian l) else DNone; pb_hess := DNone;
     pb_cons := if is_constrained c then wrapped_constraints l else [] |}.

Section Run.
  (** scipy: given the problem, the problem of the local minimisations (basinhopping), and the objective *)
  Context (scipy : problem -> option problem -> (list R -> res nd) -> res answer) (h : heap) (objective : list R -> res nd).
  (** [minimizer.initial_guesses = guess; minimizer.execute()]; members of a chain that are chains themselves are left out *)
  Definition run_from (x : fmin) (guess : list R) : res answer :=
    match x with
    | FMin m local => scipy (execute_problem h (with_guess m guess) DNone DNone) (option_map (local_problem h) local) objective
    | FChain _ _ => Raise TypeError
    end.
  Definition fmin_name (x : fmin) : string := match x with FMin m _ => class_name (mi_class m) | FChain _ _ => "ChainedMinimizer" end.
  (** [minimizer.execute()] *)
  Definition run_minimizer (x : fmin) : res answer :=
    match x with
    | FMin m local => scipy (execute_problem h m DNone DNone) (option_map (local_problem h) local) objective
    | FChain ps ms =>
        s <- chain_signature (map fmin_name ms) ;;
        '(_, final, nit) <- chain_execute tt h ps s (map (fun x _ => run_from x) ms)
                              (map (fun p => p_value (h p)) (filter (fun p => negb (p_fixed (h p))) ps)) [] ;;
        Ok {| an_x := an_x final; an_nit := Some nit |}
    end.
End Run.
(** fit.py:573-581; the best values and the covariance matrix *)
Definition fit_run (inv : nd -> res nd) (scipy : problem -> option problem -> (list R -> res nd) -> res answer)
           (h : heap) (om : omodel) (f : fit) : res (list R * option nd) :=
  a <- run_minimizer scipy h (fun z => obj_value (ft_class f) h om (ft_obj f) z []) (ft_min f) ;;
  fit_execute inv h om f (an_x a).
