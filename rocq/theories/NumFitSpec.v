(** * NumFitSpec: fitting a model with Python callables as components. *)
From Coq Require Import Reals.
From Verif Require Import PyBase Expr NumPy Model ModelSpec NumSpec ArrModel Objective EndSpec GenSpec.
Local Open Scope R_scope.

(** The values of the symbols that are not components: data for variables, numbers for parameters. *)
Definition given_values (Y : sym -> option nd) (theta : sym -> R) (s : sym) : res nd :=
  Ok (if is_par s then scalar (theta s) else match Y s with Some a => a | None => scalar 0 end).
(** For the parameter values [theta] the components have the values [out]: each callable, given exactly the symbols of its
    mapping, returns its value, and each expression has its value (NumSpec.v); those of the dependent variables have shape [sh]. *)
Definition components_are (items : dict sym (comp (V:=res nd))) (user : dict sym (list sym)) (m : amodel) (Y : sym -> option nd)
    (sh : sym -> list nat) (theta : sym -> R) (out : sym -> nd) : Prop :=
  nsolution NDalg items user (given_values Y theta) (fun s => Ok (out s)) /\
  forall v, In v (m_dep m) -> shp (atleast_1d (out v)) = sh v.
(** The predictions; a number counts as an array with one element. *)
Definition at_points (out : sym -> nd) (v : sym) (i : list nat) : R := val (atleast_1d (out v)) i.
(** [m] is the CallableNumericalModel of [items] with connectivity mapping [user]. *)
Definition numerical_model_of (ord1 ord2 : list sym -> list sym) (items : dict sym (comp (V:=res nd))) (user : dict sym (list sym)) (m : amodel) : Prop :=
  set_order ord1 /\ set_order ord2 /\ proper_numerical items user /\ init_numerical ord1 items user = Ok m.
