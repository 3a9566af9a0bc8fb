(** * SameSpec: two ways to write the same model. *)
From Coq Require Import Reals.
From Verif Require Import PyBase Expr Model ModelSpec ExprR NumPy Objective Minimizer MinSpec Fit FitSpec Cast ArrModel ArrSpec ConModel EndSpec.
Local Open Scope list_scope.

(** Each expression of [es'] is that of [es] in another form: it has the same value whatever the values of the symbols. *)
Definition rewritten (es es' : dict sym expr) : Prop :=
  dkeys es' = dkeys es /\ forall k e e', In (k, e) es -> In (k, e') es' -> forall env, eval Ralg env e' = eval Ralg env e.
(** In [es'] the component [y] of [es] is written out in the other ones. *)
Definition written_out (y : sym) (es es' : dict sym expr) : Prop :=
  exists ey, In (y, ey) es /\ (forall k, In k (dkeys es') <-> In k (dkeys es) /\ k <> y) /\
  forall k e e', In (k, e) es -> In (k, e') es' -> ~ mentions e' y /\ forall env, eval Ralg env e' = eval Ralg (set_input env y (eval Ralg env ey)) e.
(** In [es'] the number [r] is written for the parameter [p]. *)
Definition constant_for (p : sym) (r : R) (es es' : dict sym expr) : Prop :=
  ~ In p (dkeys es) /\ dkeys es' = dkeys es /\
  forall k e e', In (k, e) es -> In (k, e') es' -> ~ mentions e' p /\ forall env, eval Ralg env e' = eval Ralg (set_input env p r) e.

(** The values of the parameters a fit can try: fixed ones have their value. *)
Definition keeps_fixed (h : heap) (theta : sym -> R) : Prop := forall p, p_fixed (h p) = true -> theta p = p_value (h p).
(** Two models, with their data, predict the same at every point of the grid. *)
Definition same_predictions (h : heap) (G : list nat) (m : amodel) (sol sol' : (sym -> R) -> sym -> R) (Y Y' : sym -> option nd) : Prop :=
  forall theta, keeps_fixed h theta -> forall i v, In i (indices G) -> In v (m_dep m) -> sol' (at_data Y' theta i) v = sol (at_data Y theta i) v.
(** .. and their constraints agree. *)
Definition same_constraints (h : heap) (G : list nat) (us us' : list user_con) (sol sol' : (sym -> R) -> sym -> R) (Y Y' : sym -> option nd) : Prop :=
  forall theta, keeps_fixed h theta -> constraints_hold G sol' us' Y' theta <-> constraints_hold G sol us Y theta.
(** The problems of two (least squares) Fits: the same vectors are best for both, and scipy starts at the same values (if it gets any). *)
Definition same_problem (h : heap) (om om' : omodel) (ps ps' : list sym) (f f' : fit) : Prop :=
  exists mn local mn' local', ft_min f = FMin mn local /\ ft_min f' = FMin mn' local' /\
    (mi_class mn <> DifferentialEvolution -> mi_class mn' <> DifferentialEvolution -> pb_x0 (execute_problem h mn' DNone DNone) = pb_x0 (execute_problem h mn DNone DNone)) /\
    nfree h ps' = nfree h ps /\
    forall x, minimises (fun z => obj_value OLS h om' (ft_obj f') z []) (execute_problem h mn' DNone DNone) (nfree h ps') x <->
              minimises (fun z => obj_value OLS h om (ft_obj f) z []) (execute_problem h mn DNone DNone) (nfree h ps) x.
