(** * OdeModel: an ODEModel (symfit/core/models.py:982-1250) as the objectives and Fit see it. *)
From Coq Require Import Reals.
From Verif Require Import PyBase Signature Expr NumPy Model Objective FiniteDiff Ode.
Local Open Scope R_scope.
Local Open Scope list_scope.

(** The values a call gives to a name: numbers and one-dimensional arrays.  Simplification: arrays with
    more axes are rejected here; [eval_components] would compare them with the initial time first. *)
Definition oval_of (a : nd) : res oval :=
  match shp a with
  | [] => Ok (VNum (val a []))
  | [n] => Ok (VArr (map (fun k => val a [k]) (seq 0 n)))
  | _ => Raise ValueError
  end.
Definition ovals_of (d : dict string nd) : res (dict string oval) :=
  mapM (fun kv => v <- oval_of (snd kv) ;; Ok (fst kv, v)) d.
(** A row of the matrix [solve_ivp] returns. *)
Definition nd_row (l : list R) : nd := {| shp := [List.length l]; val := fun i => nth (hd 0%nat i) l 0 |}.

(** [model(kwargs)._asdict()], models.py:1235-1250 *)
Definition ode_om_call (S : ivp -> res ivp_result) (simp : expr -> expr) (m : ode) (d : dict string nd) : res (dict sym nd) :=
  kw <- ovals_of d ;;
  o <- ode_call S simp m [] kw ;;
  Ok (combine (mo_vars o) (map nd_row (mo_out o))).
(** What [finite_difference] (models.py:717-787) sees of an ODEModel: it is called positionally. *)
Definition ode_gmodel (S : ivp -> res ivp_result) (simp : expr -> expr) (m : ode) : gmodel := {|
  g_indep := map sname (o_indep m); g_params := map sname (o_params m); g_len := ode_len m;
  g_call := fun l => vs <- mapM oval_of l ;; o <- ode_call S simp m vs [] ;; Ok (map nd_row (mo_out o)) |}.
(** models.py:717 *)
Definition default_dx : R := / 100000000.
(** models.py:789-793 [eval_jacobian]; [finite_difference] returns None for a model without parameters,
    [ModelOutput(keys, None)] is a TypeError. *)
Definition ode_om_jac S simp m (d : dict string nd) : res (dict sym nd) :=
  r <- fst (finite_difference (ode_gmodel S simp m) default_dx [] d []) ;;
  js <- of_opt TypeError r ;;
  Ok (combine (ode_keys m) js).

(** The interface of Objective.v: an ODEModel is a BaseGradientModel, without [eval_hessian]. *)
Definition om_of_ode S simp (m : ode) : omodel := {|
  om_params := o_params m; om_indep := o_indep m; om_dep := o_dep m; om_names := map sp_name (o_sig m);
  om_call := ode_om_call S simp m; om_jac := Some (ode_om_jac S simp m); om_hess := None |}.
