(** * ConModel: the constraints of a Fit.

    symfit/core/fit.py:540-571 [Fit._init_constraints] for relations, with a symbolic model. *)
From Coq Require Import Reals.
From Verif Require Import PyBase Expr Model NumPy Objective Fit ArrModel.

(** A constraint [left REL right] as passed by the user, with the Variable [as_constraint]
    makes for its value (models.py:142). *)
Record user_con := { uc_name : sym; uc_rel : rel; uc_left : expr; uc_right : expr }.

(** fit.py:553-571: constraints become models of the class of the model (here [cls]; numerical models
    and constraints that are models already are not modelled here).  [sub], [mulm1]: sympy's
    [lhs - rhs] and [expr * -1]. *)
Definition init_constraints (cls : ArrModel.mclass) (simp : expr -> expr) (sub : expr -> expr -> expr) (mulm1 : expr -> expr)
           (ord : list sym -> list sym) (m : amodel) (us : list user_con) : res (list fcon) :=
  mapM (fun u => '(cm, ty) <- as_constraint sub mulm1 (uc_name u) ord (CRel (uc_rel u) (uc_left u) (uc_right u)) m ;;
                 Ok {| fc_rel := ty; fc_om := om_of cls simp ord cm |}) us.
