(** * OdeErrSpec: how far the gradient handed to the minimizer for a system of differential equations is from the true one. *)
From Coq Require Import Reals.
From Coquelicot Require Import Coquelicot.
From Verif Require Import PyBase Expr NumPy FDSpec Objective EndSpec OdeFitSpec.
Local Open Scope R_scope.

(** As a function of the parameter [p] the solution at the times [ts] is seven times differentiable around [theta p] (one more
    than three steps to either side), and [M v i] bounds the seventh derivative between the points used. *)
Definition smooth_in (Phi : (sym -> R) -> sym -> R -> R) (ts : list R) (theta : sym -> R) (p : sym) (dep : list sym) (Y : sym -> option nd) (M : sym -> list nat -> R) : Prop :=
  let h := step_of step_size (theta p) in
  let x := theta p in
  forall v y i, In v dep -> Y v = Some y -> In i (indices (shp y)) ->
    let f := fun u => at_times (Phi (with_value theta p u)) ts v i in
    (forall u, x - 3 * Rabs h - 1 < u < x + 3 * Rabs h + 1 -> forall k, (k <= 7)%nat -> ex_derive_n f k u) /\
    (forall u, x - 3 * Rabs h <= u <= x + 3 * Rabs h -> Rabs (Derive_n f 7 u) <= M v i).
(** The size of the weighted differences between predictions and data, each multiplied by a weight [M]. *)
Definition weighted_sizes (P M : sym -> list nat -> R) (dep : list sym) (Y S : sym -> option nd) : R :=
  Rsum (map (fun v => match Y v, S v with
    | Some y, Some s => Rsum (map (fun i => Rabs (P v i - val y i) / elem s i ^ 2 * M v i) (indices (shp y)))
    | _, _ => 0
    end) dep).
