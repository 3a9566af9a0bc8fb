(** * GlobSpec: fits of symbolic models whose dependent variables have data of different shapes. *)
From Coq Require Import Reals Relations.
From Verif Require Import PyBase Expr ExprR Model ModelSpec NumPy Cast ArrModel ArrSpec EndSpec.
Local Open Scope R_scope.

(** The component [k] refers to [x], directly or through other components. *)
Definition uses (es : dict sym expr) (k x : sym) : Prop := Relation_Operators.clos_trans sym (refers (comps (V:=R) es)) k x.
(** [sh k] is the grid of the component [k]: the data of the independent variables it uses live on it;
    for dependent variables it is not empty, and the data of one of the independent variables fill it. *)
Definition on_grids (es : dict sym expr) (m : amodel) (Y : sym -> option nd) (sh : sym -> list nat) : Prop :=
  (forall k x a, In k (dkeys es) -> uses es k x -> In x (m_indep m) -> Y x = Some a -> on_grid (sh k) (shp a)) /\
  forall v, In v (m_dep m) -> sh v <> [] /\ exists x a, uses es v x /\ In x (m_indep m) /\ Y x = Some a /\ shp a = sh v.
(** For the parameter values [theta], a dependent variable, and the components it uses, are defined at every point of its grid .. *)
Definition grids_defined (es : dict sym expr) (sol : (sym -> R) -> sym -> R) (m : amodel) (sh : sym -> list nat) (Y : sym -> option nd) (theta : sym -> R) : Prop :=
  forall v i k e, In v (m_dep m) -> In i (indices (sh v)) -> k = v \/ uses es v k -> In (k, e) es -> JacAnalysis.defined (sol (at_data Y theta i)) e.
(** .. and for all values near them. *)
Definition grids_defined_around (es : dict sym expr) (sol : (sym -> R) -> sym -> R) (m : amodel) (sh : sym -> list nat) (Y : sym -> option nd) (theta : sym -> R) : Prop :=
  exists eps, 0 < eps /\ forall theta', (forall p, Rabs (theta' p - theta p) < eps) -> grids_defined es sol m sh Y theta'.
(** The number of data points as the reduced chi squared counts them: the sizes of the different shapes of dependent data. *)
Definition different_sizes (m : amodel) (Y : sym -> option nd) : nat :=
  list_sum (map (fun s => List.length (indices s)) (dedup (concat (map (fun v => match Y v with Some a => [shp a] | None => [] end) (m_dep m))))).
