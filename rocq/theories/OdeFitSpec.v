(** * OdeFitSpec: fitting a system of differential equations. *)
From Coq Require Import Reals Sorted.
From Verif Require Import PyBase Expr NumPy Model FDSpec Ode OdeSpec OdeModel Minimizer MinSpec Fit FitSpec EndSpec GenSpec.
Local Open Scope R_scope.
Local Open Scope list_scope.

(** The times in the array [a]. *)
Definition times (a : nd) : list R := map (fun k => val a [k]) (seq 0 (hd 0%nat (shp a))).
(** The values of [phi] at these times, as predictions. *)
Definition at_times (phi : sym -> R -> R) (ts : list R) (v : sym) (i : list nat) : R := phi v (nth (hd 0%nat i) ts 0).
(** Measurement times: increasing, not only the initial time. *)
Definition increasing_times (t0 : R) (ts : list R) : Prop := StronglySorted Rlt ts /\ exists u, In u ts /\ u <> t0.
(** For the parameter values [theta], [phi] is the solution of the initial value problem, on an interval that contains the times. *)
Definition ode_solved (items : dict odkey expr) (t : sym) (initial : dict sym oinit) (t0 : R) (ts : list R) (theta : sym -> R) (phi : sym -> R -> R) : Prop :=
  exists lo hi, the_solution items t initial theta t0 phi lo hi /\ forall u, In u ts -> lo < u < hi.
(** The documented default step of [finite_difference]: 1e-8, relative to the value of the parameter. *)
Definition step_size : R := / 100000000.
(** .. also after one parameter is moved by one, two or three steps of the finite difference. *)
Definition solved_around (items : dict odkey expr) (t : sym) (initial : dict sym oinit) (t0 : R) (ts : list R) (ps : list sym)
    (Phi : (sym -> R) -> sym -> R -> R) (theta : sym -> R) : Prop :=
  forall p k x, In p ps -> (1 <= k <= 3)%nat ->
    let h := step_of step_size (theta p) in
    x = theta p + INR k * h \/ x = theta p - INR k * h ->
    ode_solved items t initial t0 ts (with_value theta p x) (Phi (with_value theta p x)).
(** The six point difference that stands for the derivative of the predictions in the parameter [p]. *)
Definition ode_difference (Phi : (sym -> R) -> sym -> R -> R) (ts : list R) (theta : sym -> R) (p : sym) (v : sym) (i : list nat) : R :=
  central6 (fun u => at_times (Phi (with_value theta p u)) ts v i) (theta p) (step_of step_size (theta p)).
(** [m] is the ODEModel of the equations [items] with initial values [initial] at time [t0]; [S] integrates without error. *)
Definition ode_model_of (S : ivp -> res ivp_result) (simp : expr -> expr) (ord : list sym -> list sym) (items : dict odkey expr)
    (initial : dict sym oinit) (user : dict string optval) (t : sym) (t0 : R) (m : ode) : Prop :=
  exact S /\ JacAnalysis.simp_ok simp /\ ModelSpec.set_order ord /\ first_order items t /\ initial_ok initial /\ ode_names items initial t /\
  init_ode ord items initial user = Ok m /\ dget initial t = Some (IVal t0).
(** The data: times in an array [a] of one axis, and numbers for at least one unknown, each array as long as that of the
    times, with non-zero standard deviations. *)
Definition ode_data (om : Objective.omodel) (t : sym) (a : nd) (Y Sg : sym -> option nd) : Prop :=
  exists N, shp a = [N] /\ Y t = Some a /\ data_matches om (fun _ => [N]) Y Sg.
(** The times before and after the initial time, in the order given. *)
Definition earlier (t0 : R) (ts : list R) : list R := filter (fun u => if Rlt_dec u t0 then true else false) ts.
Definition later (t0 : R) (ts : list R) : list R := filter (fun u => if Rlt_dec t0 u then true else false) ts.
