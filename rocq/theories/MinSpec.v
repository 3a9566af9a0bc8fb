(** * MinSpec: small vocabulary for the statements about minimizers. *)
From Coq Require Import Reals.
From Verif Require Import PyBase Expr NumPy Model Objective Minimizer.
Local Open Scope R_scope.

(** The free parameters, in order. *)
Definition free_of_list (h : heap) (ps : list sym) : list sym := filter (fun p => negb (p_fixed (h p))) ps.
Definition nfree (h : heap) (ps : list sym) : nat := List.length (free_of_list h ps).
(** [p] is the [i]-th free parameter and number [k] of all. *)
Definition free_at (h : heap) (ps : list sym) (p : sym) (i k : nat) : Prop :=
  nth_error (free_of_list h ps) i = Some p /\ nth_error ps k = Some p.

(** The derivative of a scalar function of [n] parameters: a vector of length [n], or with
    further axes of length one, as a MinimizeModel objective returns it: numpy shape (n, 1)
    (shapes and indices are last axis first).  Entry number [k]. *)
Definition gradient_shaped (n : nat) (a : nd) : Prop := exists d, shp a = repeat 1%nat d ++ [n].
Definition gradient_entry (a : nd) (k : nat) : R := val a (repeat 0%nat (List.length (shp a) - 1) ++ [k]).
(** The same for second derivatives: numpy shape (n, n), (n, n, 1), ..; entry in row [k], column [l]. *)
Definition hessian_shaped (n : nat) (a : nd) : Prop := exists d, shp a = repeat 1%nat d ++ [n; n].
Definition hessian_entry (a : nd) (k l : nat) : R := val a (repeat 0%nat (List.length (shp a) - 2) ++ [l; k]).

(** The number of times the [i]-th name has occurred up to and including position [i]. *)
Definition occurrence (classes : list string) (i : nat) : nat :=
  match nth_error classes i with
  | Some n => List.length (filter (eqb n) (firstn (S i) classes))
  | None => 0%nat
  end.
(** No class is called like another one with an index. *)
Definition no_indexed_names (classes : list string) : Prop :=
  forall n m k, In n classes -> In m classes -> (2 <= k)%nat -> m <> (n ++ "_" ++ string_of_nat k)%string.

(** [v] lies between the bounds of [p]; None is no bound. *)
Definition within (h : heap) (p : sym) (v : R) : Prop :=
  (forall l, p_min (h p) = Some l -> l <= v) /\ (forall u, p_max (h p) = Some u -> v <= u).

(** What the documentation says the minimizers can use. *)
Definition uses_jacobian (c : mclass) : bool := match c with BFGS | LBFGSB | SLSQP | TrustConstr | MINPACK => true | _ => false end.
Definition uses_hessian (c : mclass) : bool := match c with TrustConstr => true | _ => false end.
Definition uses_bounds (c : mclass) : bool := match c with LBFGSB | SLSQP | TrustConstr | MINPACK | DifferentialEvolution => true | _ => false end.
Definition uses_constraints (c : mclass) : bool := match c with SLSQP | COBYLA | TrustConstr => true | _ => false end.

(** What a constraint [g REL 0] demands of the value [v] of [g] .. *)
Definition demands (r : rel) (v : R) : Prop :=
  match r with REq => v = 0 | RNe => v <> 0 | RGe => 0 <= v | RGt => 0 < v | RLe => v <= 0 | RLt => v < 0 end.
(** .. and what scipy imposes: 'eq' and 'ineq' in the dicts for SLSQP and COBYLA, 0 <= g <= upper for
    the NonlinearConstraint objects. *)
Definition imposes (c : handed_con) (v : R) : Prop :=
  match c with
  | HDict c => match sc_type c with CTeq => v = 0 | CTineq => 0 <= v end
  | HNonlinear n => 0 <= v /\ match nc_upper n with Some u => v <= u | None => True end
  end.
Definition handed_fun (c : handed_con) : fn := match c with HDict c => sc_fun c | HNonlinear n => nc_fun n end.
Definition handed_jac (c : handed_con) : option fn := match c with HDict c => sc_jac c | HNonlinear n => nc_jac n end.
