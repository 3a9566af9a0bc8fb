(** * Prop_FiniteDiff: property C15. *)
From Coq Require Import Reals Lra.
From Coquelicot Require Import Coquelicot.
From Verif Require Import PyBase PyFacts Signature SignatureFacts Expr NumPy NumFacts ModelSpec FiniteDiff FDSpec FDFacts FDAnalysis FDMain FDExample.
Local Open Scope R_scope.
Local Open Scope string_scope.
Local Open Scope list_scope.

(** ** C15.  [vars] and [pv] are the values of the independent variables and of the
    parameters, passed in any mixture of positional and keyword arguments.  [F xs c]
    is component [c] of the model at parameter values [xs].  The entry of the result for
    component [c], parameter [j] and data point [i] is the six point central
    difference of that component as a function of that parameter, computed with
    exactly 6 * n_params calls, at the points of the stencil (only there the model has to be
    defined). *)
Theorem C15_finite_difference_is_six_point_stencil :
  forall g vars sh F pv dx args kw,
    NoDup (g_indep g ++ g_params g) ->
    List.length vars = List.length (g_indep g) -> List.length pv = List.length (g_params g) ->
    supplies (combine (g_indep g ++ g_params g) (vars ++ map scalar pv)) args kw ->
    evaluates g vars sh F dx pv -> g_params g <> [] ->
    exists out log, finite_difference g dx args kw [] = (Ok (Some out), log) /\
      List.length log = (6 * List.length (g_params g))%nat /\
      (forall xs, In xs log -> stencil dx pv xs) /\
      List.length out = g_len g /\
      forall c, (c < g_len g)%nat ->
        shp (nth c out (scalar 0)) = (match sh c with [] => [1%nat] | s => s end) ++ [List.length (g_params g)] /\
        forall i j, (j < List.length (g_params g))%nat ->
          val (nth c out (scalar 0)) (i ++ [j]) =
          central6 (fun t => elem (F (with_entry pv j t) c) i) (nth j pv 0) (step_of dx (nth j pv 0)).
Proof. exact fd_values. Qed.
Print Assumptions C15_finite_difference_is_six_point_stencil.

(** Whatever the model does (also when it raises), there are never more calls. *)
Theorem C15_calls_bound :
  forall g dx args kw, (List.length (snd (finite_difference g dx args kw [])) <= 6 * List.length (g_params g))%nat.
Proof. exact calls_bound. Qed.
Print Assumptions C15_calls_bound.

(** The denominators are not zero. *)
Theorem C15_no_division_by_zero :
  forall dx v order factor, dx <> 0 -> In (order, factor) fd_orders -> 2 * fd_h dx v order <> 0.
Proof.
  intros dx v order factor Hd Hin E. apply (fd_h_nonzero dx v order Hd).
  - unfold fd_orders in Hin. simpl in Hin. destruct Hin as [H|[H|[H|[]]]]; inv H; lia.
  - lra.
Qed.
Print Assumptions C15_no_division_by_zero.

(** Exact when the component is a polynomial of degree at most 6 in the parameter. *)
Theorem C15_exact_for_degree_6 :
  forall g vars sh F pv dx args kw,
    NoDup (g_indep g ++ g_params g) ->
    List.length vars = List.length (g_indep g) -> List.length pv = List.length (g_params g) ->
    supplies (combine (g_indep g ++ g_params g) (vars ++ map scalar pv)) args kw ->
    evaluates g vars sh F dx pv -> g_params g <> [] -> dx <> 0 ->
    exists out log, finite_difference g dx args kw [] = (Ok (Some out), log) /\
      forall c j i (a : nat -> R), (c < g_len g)%nat -> (j < List.length (g_params g))%nat ->
        (forall t, elem (F (with_entry pv j t) c) i = sum_f_R0 (fun m => a m * t ^ m) 6) ->
        is_derive (fun t => elem (F (with_entry pv j t) c) i) (nth j pv 0) (val (nth c out (scalar 0)) (i ++ [j])).
Proof. exact fd_exact. Qed.
Print Assumptions C15_exact_for_degree_6.

(** Otherwise the error is at most a constant times the sixth power of the step and a
    bound of the seventh derivative between the points used. *)
Theorem C15_error_of_order_6 :
  forall g vars sh F pv dx args kw,
    NoDup (g_indep g ++ g_params g) ->
    List.length vars = List.length (g_indep g) -> List.length pv = List.length (g_params g) ->
    supplies (combine (g_indep g ++ g_params g) (vars ++ map scalar pv)) args kw ->
    evaluates g vars sh F dx pv -> g_params g <> [] -> dx <> 0 ->
    exists out log, finite_difference g dx args kw [] = (Ok (Some out), log) /\
      forall c j i M, (c < g_len g)%nat -> (j < List.length (g_params g))%nat ->
        let f := fun t => elem (F (with_entry pv j t) c) i in
        let x := nth j pv 0 in let h := step_of dx x in
        (forall t, x - 3 * Rabs h - 1 < t < x + 3 * Rabs h + 1 -> forall k, (k <= 7)%nat -> ex_derive_n f k t) ->
        (forall t, x - 3 * Rabs h <= t <= x + 3 * Rabs h -> Rabs (Derive_n f 7 t) <= M) ->
        Rabs (val (nth c out (scalar 0)) (i ++ [j]) - Derive f x) <= 113 / 5040 * M * h ^ 6.
Proof. exact fd_error. Qed.
Print Assumptions C15_error_of_order_6.

(** {y: a * x**2 + b, z: b**3} at x = [1, 2], a = 3, b = 5: dy/da at the second data
    point is 4, dz/db is 75. *)
Example C15_example : exists out log,
  finite_difference fx_g (/ 2) [fx_x] [("b", scalar 5); ("a", scalar 3)] [] = (Ok (Some out), log) /\
  List.length log = 12%nat /\ val (nth 0 out (scalar 0)) [1%nat; 0%nat] = 4 /\ val (nth 1 out (scalar 0)) [0%nat; 1%nat] = 75.
Proof.
  destruct (fd_values fx_g [fx_x] fx_sh fx_F [3; 5] (/ 2) _ _ ltac:(apply nodupb_iff; vm_compute; reflexivity) eq_refl eq_refl fx_supplies (fx_evaluates (/ 2) [3; 5] eq_refl) ltac:(discriminate))
    as (out & log & E & Hl & _ & _ & H).
  exists out, log. split; [exact E|]. split; [exact Hl|]. split.
  - destruct (H 0%nat ltac:(simpl; lia)) as [_ Hv]. specialize (Hv [1%nat] 0%nat ltac:(simpl; lia)). simpl app in Hv. rewrite Hv.
    assert (Hs : step_of (/ 2) 3 <> 0) by (apply step_nonzero; lra). cbn [nth].
    rewrite (central6_ext _ (fun t => sum_f_R0 (fun m => (match m with O => 5 | 1%nat => 4 | _ => 0 end) * t ^ m) 6)).
    + rewrite central6_poly by exact Hs. simpl. lra.
    + intros t. unfold elem. simpl. unfold elem. simpl. ring.
  - destruct (H 1%nat ltac:(simpl; lia)) as [_ Hv]. specialize (Hv [0%nat] 1%nat ltac:(simpl; lia)). simpl app in Hv. rewrite Hv.
    assert (Hs : step_of (/ 2) 5 <> 0) by (apply step_nonzero; lra). cbn [nth].
    rewrite (central6_ext _ (fun t => sum_f_R0 (fun m => (match m with 3%nat => 1 | _ => 0 end) * t ^ m) 6)).
    + rewrite central6_poly by exact Hs. simpl. lra.
    + intros t. unfold elem. simpl. ring.
Qed.
