(** * VecSpec: what MINPACK is asked to minimise. *)
From Coq Require Import Reals.
From Verif Require Import PyBase Expr NumPy Objective.
Local Open Scope R_scope.

(** The entry of the vector of residuals for the data point [i]: the weighted differences of the dependent
    variables there, put together as the root of the sum of their squares. *)
Definition residual_at (P : sym -> list nat -> R) (dep : list sym) (Y S : sym -> option nd) (i : list nat) : R :=
  sqrt (Rsum (map (fun v => match Y v, S v with
    | Some y, Some s => ((P v i - val y i) / elem s i) ^ 2
    | _, _ => 0
    end) dep)).
(** .. differentiated, where it is not zero; [J] stands for the derivatives of the predictions in one parameter. *)
Definition residual_slope (P J : sym -> list nat -> R) (dep : list sym) (Y S : sym -> option nd) (i : list nat) : R :=
  Rsum (map (fun v => match Y v, S v with
    | Some y, Some s => J v i * ((P v i - val y i) / elem s i ^ 2)
    | _, _ => 0
    end) dep) / residual_at P dep Y S i.
(** [r] is the vector of these residuals, one for each of the points [pts]. *)
Definition is_residuals (P : sym -> list nat -> R) (dep : list sym) (Y S : sym -> option nd) (pts : list (list nat)) (r : nd) : Prop :=
  shp r = [List.length pts] /\ forall n i, nth_error pts n = Some i -> val r [n] = residual_at P dep Y S i.
(** Two dependent variables have data of different sizes, neither of a single number. *)
Definition sizes_differ (dep : list sym) (Y : sym -> option nd) : Prop :=
  exists v w a b, In v dep /\ In w dep /\ Y v = Some a /\ Y w = Some b /\
    List.length (indices (shp a)) <> 1%nat /\ List.length (indices (shp b)) <> 1%nat /\ List.length (indices (shp a)) <> List.length (indices (shp b)).
