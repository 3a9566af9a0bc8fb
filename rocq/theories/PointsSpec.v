(** * PointsSpec: the same data points, in another order or arranged in arrays of another shape. *)
From Coq Require Import Reals Permutation.
From Verif Require Import PyBase Expr Model ModelSpec ExprR NumPy Objective Fit FitSpec Cast ArrModel ArrSpec ConModel EndSpec.
Local Open Scope list_scope.

(** The number an array (or broadcast number) gives for point [i]. *)
Definition entry_at (a : option nd) (i : list nat) : option R := option_map (fun a => elem a i) a.
(** The point [i] of the grid [G'] of the second data is the point [pi i] of the grid [G] of the first; every point has one counterpart, at which the variables of the model
    and of the constraints [us] have the same values, and the dependent ones the same sigmas. *)
Definition same_points (pi : list nat -> list nat) (G G' : list nat) (m : amodel) (us : list user_con) (Y S Y' S' : sym -> option nd) : Prop :=
  Permutation (map pi (indices G')) (indices G) /\
  (forall v i, In v (m_indep m ++ m_dep m) \/ (exists u, In u us /\ (mentions (uc_left u) v \/ mentions (uc_right u) v)) -> In i (indices G') ->
     entry_at (Y' v) i = entry_at (Y v) (pi i)) /\
  (forall v i, In v (m_dep m) -> In i (indices G') -> entry_at (S' v) i = entry_at (S v) (pi i)).
(** What a Fit of a symbolic model needs (C69), besides the model itself. *)
Definition good_input simp ord2 (es : dict sym expr) (m : amodel) (us : list user_con) (cons : list fcon) (G : list nat) (args : list datum) (kw : dict string datum) : Prop :=
  let om := om_of KModel simp ord2 m in
  good_names om cons /\ NoDup (dkeys kw) /\ data_on_grid G m (the_data om cons args kw) (the_sigma om cons args kw) /\
  constraints_on_grid G es us (the_data om cons args kw) /\ no_shape_clash G m.
