(** * Prop_EndCls: C80, the class of the model.  A dictionary of expressions can be made into a [CallableModel], a
    [GradientModel] or a [Model]: Fit treats them alike, except for the derivatives they have.  All classes get the same problem
    (C69, C71, C72), with the exact gradient if the class has one and none otherwise (scipy then approximates it); the covariance matrix
    is the one of J^T W J for GradientModels and missing for CallableModels. *)
From Coq Require Import Reals Lra Lia Relations.
From Coquelicot Require Import Coquelicot.
From Verif Require ArrObj.
From Verif Require Import PyBase PyFacts Signature SignatureFacts Expr Model ModelSpec ExprR Jacobian JacAnalysis NumPy NumFacts Objective ObjSpec Minimizer MinSpec Fit FitSpec FitExample Cast ArrModel ArrSpec ArrFacts ConModel EndSpec EndMain Decide Prop_Model Prop_Jacobian Prop_ArrModel Prop_End Prop_EndMore.
Local Open Scope R_scope.

(** ** Least squares: the problem is that of C69 for every class; only the gradient depends on the class. *)
Theorem C80_fit_problem : forall cls simp sub mulm1 ord1 ord2 es m sol us toward0 h cons o mc absolute args kw f G,
  let om := om_of cls simp ord2 m in
  let Y := the_data om cons args kw in
  let chi2 := chi2_for sol m Y (the_sigma om cons args kw) in
  let ps := m_params m in
  sympy_arithmetic sub mulm1 -> set_order ord2 -> model_of ord1 es m -> means es sol ->
  good_constraints es us -> init_constraints cls simp sub mulm1 ord2 m us = Ok cons ->
  good_names om cons -> NoDup (dkeys kw) -> data_on_grid G m Y (the_sigma om cons args kw) -> constraints_on_grid G es us Y ->
  objective_chosen o mc OLS -> suitable h ps us mc ->
  fit_init toward0 h {| fm_om := om; fm_len := List.length es |} cons o mc absolute args kw = Ok f ->
  exists mn local, ft_min f = FMin mn local /\ chosen_class h om cons mc (mi_class mn) /\ ft_class f = OLS /\
    let pb := execute_problem h mn DNone DNone in
    pb_x0 pb = (match mi_class mn with DifferentialEvolution => None | _ => Some (map (fun p => p_value (h p)) (free_of_list h ps)) end) /\
    (forall x, List.length x = nfree h ps -> feasible pb x <-> allowed h m (parameter_value h ps x) /\ constraints_hold G sol us Y (parameter_value h ps x)) /\
    (forall x, List.length x = nfree h ps -> obj_value OLS h om (ft_obj f) x [] = Ok (scalar (/ 2 * chi2 (parameter_value h ps x)))) /\
    (cls = KCallable -> forall w, pb_jac pb <> DFun w) /\
    (cls <> KCallable -> ps <> [] -> has_jacobian simp ord2 m -> no_shape_clash G m -> simp_ok simp -> uses_jacobian (mi_class mn) = true ->
      exists w, pb_jac pb = DFun w /\ forall x, List.length x = nfree h ps -> defined_for G es sol Y (parameter_value h ps x) ->
      exists g, w x = Ok g /\ shp g = [nfree h ps] /\ forall i p, nth_error (free_of_list h ps) i = Some p ->
        derivative_in (fun theta => / 2 * chi2 theta) (parameter_value h ps x) p (val g [i])).
Proof.
  intros cls simp sub mulm1 ord1 ord2 es m sol us toward0 h cons o mc absolute args kw f G om Y chi2 ps Har Ho Hm Hsol Hgc Hic Hg Hk HG Hcg Hoc Hsu Hf.
  exact (fit_problem cls simp sub mulm1 ord1 ord2 es m sol us toward0 h cons o mc absolute args kw f G Ho Hm Hsol Hg Hk (proj1 HG) Hf Har Hic Hgc Hcg HG Hoc Hsu).
Qed.
Print Assumptions C80_fit_problem.

Theorem C80_best_fit : forall cls simp sub mulm1 ord1 ord2 es m sol us toward0 h cons o mc absolute args kw f G mn local x popt,
  let om := om_of cls simp ord2 m in
  let Y := the_data om cons args kw in
  let chi2 := chi2_for sol m Y (the_sigma om cons args kw) in
  let ps := m_params m in
  sympy_arithmetic sub mulm1 -> set_order ord2 -> model_of ord1 es m -> means es sol ->
  good_constraints es us -> init_constraints cls simp sub mulm1 ord2 m us = Ok cons ->
  good_names om cons -> NoDup (dkeys kw) -> data_on_grid G m Y (the_sigma om cons args kw) -> constraints_on_grid G es us Y ->
  objective_chosen o mc OLS -> suitable h ps us mc ->
  fit_init toward0 h {| fm_om := om; fm_len := List.length es |} cons o mc absolute args kw = Ok f ->
  ft_min f = FMin mn local ->
  minimises (fun z => obj_value OLS h om (ft_obj f) z []) (execute_problem h mn DNone DNone) (nfree h ps) x ->
  pack_output h ps x = Ok popt ->
  let theta := reported ps popt in
  allowed h m theta /\ constraints_hold G sol us Y theta /\
  forall theta', allowed h m theta' -> constraints_hold G sol us Y theta' -> chi2 theta <= chi2 theta'.
Proof.
  intros cls simp sub mulm1 ord1 ord2 es m sol us toward0 h cons o mc absolute args kw f G mn local x popt om Y chi2 ps Har Ho Hm Hsol Hgc Hic Hg Hk HG Hcg Hoc Hsu Hf.
  exact (best_fit cls simp sub mulm1 ord1 ord2 es m sol us toward0 h cons o mc absolute args kw f G Ho Hm Hsol Hg Hk (proj1 HG) Hf Har Hic Hgc Hcg HG Hoc mn local x popt Hsu).
Qed.
Print Assumptions C80_best_fit.

(** ** The covariance matrix of a GradientModel is [s2] times the inverse of [K = J^T W J], missing if that is singular. *)
Theorem C80_gradient_covariance : forall inv simp ord1 ord2 es m sol toward0 h cons o mc absolute args kw f G x,
  let om := om_of KGradient simp ord2 m in
  let Y := the_data om cons args kw in
  let S := the_sigma om cons args kw in
  let chi2 := chi2_for sol m Y S in
  let n := List.length (m_params m) in
  simp_ok simp -> set_order ord2 -> model_of ord1 es m -> means es sol -> m_params m <> [] -> has_jacobian simp ord2 m ->
  good_names om cons -> NoDup (dkeys kw) -> data_on_grid G m Y S -> no_shape_clash G m -> no_bare_numbers om cons args kw -> objective_chosen o mc OLS ->
  fit_init toward0 h {| fm_om := om; fm_len := List.length es |} cons o mc absolute args kw = Ok f ->
  inverts inv -> List.length x = nfree h (m_params m) ->
  exists popt cov K, fit_execute inv h om f x = Ok (popt, cov) /\ pack_output h (m_params m) x = Ok popt /\
    let theta := reported (m_params m) popt in
    let s2 := variance_scale (ft_absolute f) (chi2 theta) (INR (List.length (indices G)) - INR n) in
    square n K /\ inverse_or_none n s2 K cov /\
    ((forall p, In p (m_params m) -> p_fixed (h p) = false) -> defined_for G es sol Y theta ->
     symmetric n K /\ forall p q k l, nth_error (m_params m) k = Some p -> nth_error (m_params m) l = Some q ->
        exists Dp Dq, (forall v i, In v (m_dep m) -> In i (indices G) ->
           derivative_in (fun th => sol (at_data Y th i) v) theta p (Dp v i) /\
           derivative_in (fun th => sol (at_data Y th i) v) theta q (Dq v i)) /\
         mat K k l = Rsum (map (fun v => match Y v, S v with
           | Some y, Some s => Rsum (map (fun i => Dp v i * Dq v i / elem s i ^ 2) (indices (shp y)))
           | _, _ => 0 end) (m_dep m))).
Proof.
  intros inv simp ord1 ord2 es m sol toward0 h cons o mc absolute args kw f G x om Y S chi2 n Hs Ho Hm Hsol Hne HJ Hg Hk HG Hc Hb Hmc Hf Hinv Hl.
  exact (grad_covariance KGradient simp ord1 ord2 es m sol toward0 h cons o mc absolute args kw f G Ho Hm Hsol Hg Hk (proj1 HG) Hf inv x HG Hmc Hb Hs eq_refl Hne HJ Hc Hinv Hl).
Qed.
Print Assumptions C80_gradient_covariance.

(** ** A CallableModel has no covariance matrix, with the least squares objective and with MINPACK; [execute] succeeds. *)
Theorem C80_callable_covariance : forall inv simp ord1 ord2 es m sol toward0 h cons o mc absolute args kw f G x,
  let om := om_of KCallable simp ord2 m in
  let Y := the_data om cons args kw in
  set_order ord2 -> model_of ord1 es m -> means es sol -> good_names om cons -> NoDup (dkeys kw) ->
  data_on_grid G m Y (the_sigma om cons args kw) -> no_bare_numbers om cons args kw -> objective_chosen o mc OLS \/ minpack_chosen o mc ->
  fit_init toward0 h {| fm_om := om; fm_len := List.length es |} cons o mc absolute args kw = Ok f ->
  List.length x = nfree h (m_params m) ->
  exists popt, fit_execute inv h om f x = Ok (popt, None) /\ pack_output h (m_params m) x = Ok popt.
Proof.
  intros inv simp ord1 ord2 es m sol toward0 h cons o mc absolute args kw f G x om Y Ho Hm Hsol Hg Hk HG Hb Hmc Hf Hl.
  destruct Hmc as [Hmc|Hmc].
  - destruct (call_covariance KCallable simp ord1 ord2 es m sol toward0 h cons o mc absolute args kw f G Ho Hm Hsol Hg Hk (proj1 HG) Hf inv x HG Hmc Hb eq_refl Hl) as (popt & H1 & H2). eauto.
  - destruct (vls_no_covariance KCallable simp ord1 ord2 es m sol toward0 h cons o mc absolute args kw f G Ho Hm Hsol Hg Hk (proj1 HG) Hf HG Hmc Hb inv x eq_refl Hl) as (popt & H1 & H2). eauto.
Qed.
Print Assumptions C80_callable_covariance.

(** ** MINPACK, for every class. *)
Theorem C80_minpack_problem : forall cls simp ord1 ord2 es m sol toward0 h cons o mc absolute args kw f G,
  let om := om_of cls simp ord2 m in
  let Y := the_data om cons args kw in
  let chi2 := chi2_for sol m Y (the_sigma om cons args kw) in
  let ps := m_params m in
  let N := List.length (indices G) in
  set_order ord2 -> model_of ord1 es m -> means es sol ->
  good_names om cons -> NoDup (dkeys kw) -> data_on_grid G m Y (the_sigma om cons args kw) -> minpack_chosen o mc ->
  fit_init toward0 h {| fm_om := om; fm_len := List.length es |} cons o mc absolute args kw = Ok f ->
  exists mn local, ft_min f = FMin mn local /\ mi_class mn = MINPACK /\ ft_class f = OVLS /\
    let pb := execute_problem h mn DNone DNone in
    let residuals := fun x => obj_value OVLS h om (ft_obj f) x [] in
    pb_routine pb = RLeastSquares /\ pb_x0 pb = Some (map (fun p => p_value (h p)) (free_of_list h ps)) /\
    (forall x, List.length x = nfree h ps -> feasible pb x <-> allowed h m (parameter_value h ps x)) /\
    (forall x, List.length x = nfree h ps -> exists r, residuals x = Ok r /\ shp r = [N] /\ squares r = chi2 (parameter_value h ps x)) /\
    (cls = KCallable -> forall w, pb_jac pb <> DFun w) /\
    (cls <> KCallable -> ps <> [] -> has_jacobian simp ord2 m -> no_shape_clash G m -> simp_ok simp ->
     exists w, pb_jac pb = DFun w /\ forall x, List.length x = nfree h ps -> defined_for G es sol Y (parameter_value h ps x) ->
      exists r D, residuals x = Ok r /\ w x = Ok D /\ shp D = [nfree h ps; N] /\
        forall i n, (i < nfree h ps)%nat -> (n < N)%nat -> val r [n] <> 0 ->
          exists F, locally (nth i x 0) (fun t => exists rt, residuals (set_nth x i t) = Ok rt /\ val rt [n] = F t) /\ is_derive F (nth i x 0) (val D [i; n])).
Proof.
  intros cls simp ord1 ord2 es m sol toward0 h cons o mc absolute args kw f G om Y chi2 ps N Ho Hm Hsol Hg Hk HG Hoc Hf.
  destruct (vls_problem cls simp ord1 ord2 es m sol toward0 h cons o mc absolute args kw f G Ho Hm Hsol Hg Hk (proj1 HG) Hf HG Hoc) as (mn & lc & H1 & H2 & H3 & H4).
  exists mn, lc. split; [exact H1|]. split; [exact H2|]. split; [exact H3|]. cbv zeta. split; [unfold execute_problem; rewrite H2; reflexivity|exact H4].
Qed.
Print Assumptions C80_minpack_problem.

Theorem C80_minpack_best : forall cls simp ord1 ord2 es m sol toward0 h cons o mc absolute args kw f G mn local x popt,
  let om := om_of cls simp ord2 m in
  let Y := the_data om cons args kw in
  let chi2 := chi2_for sol m Y (the_sigma om cons args kw) in
  let ps := m_params m in
  set_order ord2 -> model_of ord1 es m -> means es sol ->
  good_names om cons -> NoDup (dkeys kw) -> data_on_grid G m Y (the_sigma om cons args kw) -> minpack_chosen o mc ->
  fit_init toward0 h {| fm_om := om; fm_len := List.length es |} cons o mc absolute args kw = Ok f ->
  ft_min f = FMin mn local ->
  minimises_squares (fun z => obj_value OVLS h om (ft_obj f) z []) (execute_problem h mn DNone DNone) (nfree h ps) x ->
  pack_output h ps x = Ok popt ->
  let theta := reported ps popt in
  allowed h m theta /\ forall theta', allowed h m theta' -> chi2 theta <= chi2 theta'.
Proof.
  intros cls simp ord1 ord2 es m sol toward0 h cons o mc absolute args kw f G mn local x popt om Y chi2 ps Ho Hm Hsol Hg Hk HG Hoc Hf.
  exact (vls_best cls simp ord1 ord2 es m sol toward0 h cons o mc absolute args kw f G Ho Hm Hsol Hg Hk (proj1 HG) Hf HG Hoc mn local x popt).
Qed.
Print Assumptions C80_minpack_best.

Theorem C80_minpack_covariance : forall inv cls simp ord1 ord2 es m sol toward0 h cons o mc absolute args kw f G x,
  let om := om_of cls simp ord2 m in
  let Y := the_data om cons args kw in
  let S := the_sigma om cons args kw in
  let chi2 := chi2_for sol m Y S in
  let n := List.length (m_params m) in
  cls <> KCallable -> simp_ok simp -> set_order ord2 -> model_of ord1 es m -> means es sol -> m_params m <> [] -> has_jacobian simp ord2 m ->
  good_names om cons -> NoDup (dkeys kw) -> data_on_grid G m Y S -> no_shape_clash G m -> no_bare_numbers om cons args kw -> minpack_chosen o mc ->
  fit_init toward0 h {| fm_om := om; fm_len := List.length es |} cons o mc absolute args kw = Ok f ->
  inverts inv -> List.length x = nfree h (m_params m) ->
  exists popt cov K, fit_execute inv h om f x = Ok (popt, cov) /\ pack_output h (m_params m) x = Ok popt /\
    let theta := reported (m_params m) popt in
    let s2 := variance_scale (ft_absolute f) (chi2 theta) (INR (List.length (indices G)) - INR n) in
    square n K /\ inverse_or_none n s2 K cov /\
    ((forall p, In p (m_params m) -> p_fixed (h p) = false) -> defined_for G es sol Y theta ->
     symmetric n K /\ forall p q k l, nth_error (m_params m) k = Some p -> nth_error (m_params m) l = Some q ->
        exists Dp Dq, (forall v i, In v (m_dep m) -> In i (indices G) ->
           derivative_in (fun th => sol (at_data Y th i) v) theta p (Dp v i) /\
           derivative_in (fun th => sol (at_data Y th i) v) theta q (Dq v i)) /\
         mat K k l = Rsum (map (fun v => match Y v, S v with
           | Some y, Some s => Rsum (map (fun i => Dp v i * Dq v i / elem s i ^ 2) (indices (shp y)))
           | _, _ => 0 end) (m_dep m))).
Proof.
  intros inv cls simp ord1 ord2 es m sol toward0 h cons o mc absolute args kw f G x om Y S chi2 n Hcl Hs Ho Hm Hsol Hne HJ Hg Hk HG Hc Hb Hmc Hf Hinv Hl.
  exact (vls_covariance cls simp ord1 ord2 es m sol toward0 h cons o mc absolute args kw f G Ho Hm Hsol Hg Hk (proj1 HG) Hf HG Hmc Hb inv x Hs Hcl Hne HJ Hc Hinv Hl).
Qed.
Print Assumptions C80_minpack_covariance.

(** ** LogLikelihood, for every class. *)
Theorem C80_likelihood_problem : forall cls simp sub mulm1 ord1 ord2 es m sol us toward0 h cons mc absolute args kw f G,
  let om := om_of cls simp ord2 m in
  let Y := the_data om cons args kw in
  let ps := m_params m in
  sympy_arithmetic sub mulm1 -> set_order ord2 -> model_of ord1 es m -> means es sol ->
  good_constraints es us -> init_constraints cls simp sub mulm1 ord2 m us = Ok cons ->
  good_names om cons -> NoDup (dkeys kw) -> inputs_on_grid G m Y -> covers_data G es m Y -> constraints_on_grid G es us Y ->
  suitable h ps us mc ->
  fit_init toward0 h {| fm_om := om; fm_len := List.length es |} cons (OClass OLL) mc absolute args kw = Ok f ->
  exists mn local, ft_min f = FMin mn local /\ chosen_class h om cons mc (mi_class mn) /\ ft_class f = OLL /\
    let pb := execute_problem h mn DNone DNone in
    pb_x0 pb = (match mi_class mn with DifferentialEvolution => None | _ => Some (map (fun p => p_value (h p)) (free_of_list h ps)) end) /\
    (forall x, List.length x = nfree h ps -> feasible pb x <-> allowed h m (parameter_value h ps x) /\ constraints_hold G sol us Y (parameter_value h ps x)) /\
    (forall x, List.length x = nfree h ps -> positive_for G sol m Y (parameter_value h ps x) ->
       obj_value OLL h om (ft_obj f) x [] = Ok (scalar (- ln (likelihood G sol m Y (parameter_value h ps x))))) /\
    (cls = KCallable -> forall w, pb_jac pb <> DFun w) /\
    (cls <> KCallable -> ps <> [] -> has_jacobian simp ord2 m -> simp_ok simp -> uses_jacobian (mi_class mn) = true ->
      exists w, pb_jac pb = DFun w /\ forall x, List.length x = nfree h ps -> 
      positive_for G sol m Y (parameter_value h ps x) -> defined_for G es sol Y (parameter_value h ps x) ->
      exists g, w x = Ok g /\ shp g = [nfree h ps] /\ forall i p, nth_error (free_of_list h ps) i = Some p ->
        derivative_in (fun th => - log_likelihood G sol m Y th) (parameter_value h ps x) p (val g [i])).
Proof.
  intros cls simp sub mulm1 ord1 ord2 es m sol us toward0 h cons mc absolute args kw f G om Y ps Har Ho Hm Hsol Hgc Hic Hg Hk HG Hcov Hcg Hsu Hf.
  destruct (ll_problem cls simp sub mulm1 ord1 ord2 es m sol us toward0 h cons (OClass OLL) mc absolute args kw f G Ho Hm Hsol Hg Hk HG Hf Har Hic Hgc Hcg eq_refl Hcov Hsu)
    as (mn & lc & H1 & H2 & H3 & H4 & H5 & H6 & H7).
  exists mn, lc. split; [exact H1|]. split; [exact H2|]. split; [exact H3|]. cbv zeta. split; [exact H4|]. split; [exact H5|]. split; [|exact H7].
  intros x Hl Hp. subst om Y ps. rewrite (H6 x Hl Hp). rewrite (proj2 (likelihood_log cls simp ord2 m sol cons args kw G _ Hp)). reflexivity.
Qed.
Print Assumptions C80_likelihood_problem.

Theorem C80_likelihood_best : forall cls simp sub mulm1 ord1 ord2 es m sol us toward0 h cons mc absolute args kw f G mn local x popt,
  let om := om_of cls simp ord2 m in
  let Y := the_data om cons args kw in
  let ps := m_params m in
  sympy_arithmetic sub mulm1 -> set_order ord2 -> model_of ord1 es m -> means es sol ->
  good_constraints es us -> init_constraints cls simp sub mulm1 ord2 m us = Ok cons ->
  good_names om cons -> NoDup (dkeys kw) -> inputs_on_grid G m Y -> covers_data G es m Y -> constraints_on_grid G es us Y ->
  suitable h ps us mc ->
  fit_init toward0 h {| fm_om := om; fm_len := List.length es |} cons (OClass OLL) mc absolute args kw = Ok f ->
  ft_min f = FMin mn local ->
  minimises_among (fun z => positive_for G sol m Y (parameter_value h ps z)) (fun z => obj_value OLL h om (ft_obj f) z []) (execute_problem h mn DNone DNone) (nfree h ps) x ->
  pack_output h ps x = Ok popt ->
  let theta := reported ps popt in
  allowed h m theta /\ constraints_hold G sol us Y theta /\ positive_for G sol m Y theta /\
  forall theta', allowed h m theta' -> constraints_hold G sol us Y theta' -> positive_for G sol m Y theta' ->
    likelihood G sol m Y theta' <= likelihood G sol m Y theta.
Proof.
  intros cls simp sub mulm1 ord1 ord2 es m sol us toward0 h cons mc absolute args kw f G mn local x popt om Y ps Har Ho Hm Hsol Hgc Hic Hg Hk HG Hcov Hcg Hsu Hf.
  exact (ll_best cls simp sub mulm1 ord1 ord2 es m sol us toward0 h cons (OClass OLL) mc absolute args kw f G Ho Hm Hsol Hg Hk HG Hf Har Hic Hgc Hcg eq_refl Hcov mn local x popt Hsu).
Qed.
Print Assumptions C80_likelihood_best.

Theorem C80_likelihood_covariance : forall inv simp ord1 ord2 es m sol toward0 h cons mc absolute args kw f G x,
  let om := om_of KGradient simp ord2 m in
  let Y := the_data om cons args kw in
  let ps := m_params m in
  let n := List.length ps in
  simp_ok simp -> set_order ord2 -> model_of ord1 es m -> means es sol -> ps <> [] -> has_jacobian simp ord2 m ->
  good_names om cons -> NoDup (dkeys kw) -> inputs_on_grid G m Y -> covers_data G es m Y ->
  fit_init toward0 h {| fm_om := om; fm_len := List.length es |} cons (OClass OLL) mc absolute args kw = Ok f ->
  inverts inv -> List.length x = nfree h ps -> defined_for G es sol Y (parameter_value h ps x) ->
  exists popt K cov, pack_output h ps x = Ok popt /\ square n K /\
    fit_execute inv h om f x = Ok (popt, cov) /\ inverse_or_none n 1 K cov /\
    ((forall p, In p ps -> p_fixed (h p) = false) -> forall p q k l, nth_error ps k = Some p -> nth_error ps l = Some q ->
       exists Dp Dq, (forall v i, In v (m_dep m) -> In i (indices G) ->
           derivative_in (fun th => sol (at_data Y th i) v) (reported ps popt) p (Dp v i) /\
           derivative_in (fun th => sol (at_data Y th i) v) (reported ps popt) q (Dq v i)) /\
         mat K k l = Rsum (map (fun v => Rsum (map (fun i => Dp v i * Dq v i / sol (at_data Y (reported ps popt) i) v ^ 2) (indices G))) (m_dep m))).
Proof.
  intros inv simp ord1 ord2 es m sol toward0 h cons mc absolute args kw f G x om Y ps n Hs Ho Hm Hsol Hne HJ Hg Hk HG Hcov Hf Hinv Hl Hd.
  exact (ll_grad_covariance KGradient simp ord1 ord2 es m sol toward0 h cons (OClass OLL) mc absolute args kw f G Ho Hm Hsol Hg Hk HG Hf eq_refl Hcov inv x Hs eq_refl Hne HJ Hinv Hl Hd).
Qed.
Print Assumptions C80_likelihood_covariance.

Theorem C80_likelihood_callable : forall inv simp ord1 ord2 es m sol toward0 h cons mc absolute args kw f G x,
  let om := om_of KCallable simp ord2 m in
  let Y := the_data om cons args kw in
  set_order ord2 -> model_of ord1 es m -> means es sol ->
  good_names om cons -> NoDup (dkeys kw) -> inputs_on_grid G m Y -> covers_data G es m Y ->
  fit_init toward0 h {| fm_om := om; fm_len := List.length es |} cons (OClass OLL) mc absolute args kw = Ok f ->
  List.length x = nfree h (m_params m) ->
  exists popt, fit_execute inv h om f x = Ok (popt, None) /\ pack_output h (m_params m) x = Ok popt.
Proof.
  intros inv simp ord1 ord2 es m sol toward0 h cons mc absolute args kw f G x om Y Ho Hm Hsol Hg Hk HG Hcov Hf Hl.
  destruct (ll_call_covariance KCallable simp ord1 ord2 es m sol toward0 h cons (OClass OLL) mc absolute args kw f G Ho Hm Hsol Hg Hk HG Hf eq_refl Hcov inv x eq_refl Hl) as (popt & H1 & H2). eauto.
Qed.
Print Assumptions C80_likelihood_callable.

(** ** MinimizeModel, for every class. *)
Theorem C80_minimize_problem : forall cls simp sub mulm1 ord1 ord2 es m sol us toward0 h cons o mc absolute args kw f G v,
  let om := om_of cls simp ord2 m in
  let Y := the_data om cons args kw in
  let ps := m_params m in
  sympy_arithmetic sub mulm1 -> set_order ord2 -> model_of ord1 es m -> means es sol ->
  m_indep m = [] -> m_dep m = [v] ->
  good_constraints es us -> init_constraints cls simp sub mulm1 ord2 m us = Ok cons ->
  good_names om cons -> NoDup (dkeys kw) -> inputs_on_grid G m Y -> constraints_on_grid G es us Y ->
  model_chosen om cons args kw es o mc v -> suitable h ps us mc ->
  fit_init toward0 h {| fm_om := om; fm_len := List.length es |} cons o mc absolute args kw = Ok f ->
  exists mn local, ft_min f = FMin mn local /\ chosen_class h om cons mc (mi_class mn) /\ ft_class f = OMM /\
    let pb := execute_problem h mn DNone DNone in
    pb_x0 pb = (match mi_class mn with DifferentialEvolution => None | _ => Some (map (fun p => p_value (h p)) (free_of_list h ps)) end) /\
    (forall x, List.length x = nfree h ps -> feasible pb x <-> allowed h m (parameter_value h ps x) /\ constraints_hold G sol us Y (parameter_value h ps x)) /\
    (forall x, List.length x = nfree h ps -> exists r, obj_value OMM h om (ft_obj f) x [] = Ok r /\ shp r = [1%nat] /\ elem r [] = sol (parameter_value h ps x) v) /\
    (cls = KCallable -> forall w, pb_jac pb <> DFun w) /\
    (cls <> KCallable -> ps <> [] -> has_jacobian simp ord2 m -> simp_ok simp -> uses_jacobian (mi_class mn) = true ->
      exists w, pb_jac pb = DFun w /\ forall x, List.length x = nfree h ps -> 
      model_defined es sol (parameter_value h ps x) ->
      exists g, w x = Ok g /\ shp g = [nfree h ps] /\ forall i p, nth_error (free_of_list h ps) i = Some p ->
        derivative_in (fun th => sol th v) (parameter_value h ps x) p (val g [i])).
Proof.
  intros cls simp sub mulm1 ord1 ord2 es m sol us toward0 h cons o mc absolute args kw f G v om Y ps Har Ho Hm Hsol Hi Hd Hgc Hic Hg Hk HG Hcg Hoc Hsu Hf.
  exact (mm_problem cls simp sub mulm1 ord1 ord2 es m sol us toward0 h cons o mc absolute args kw f G Ho Hm Hsol Hg Hk HG Hf Har Hic Hgc Hcg v Hi Hd Hoc Hsu).
Qed.
Print Assumptions C80_minimize_problem.

Theorem C80_minimum : forall cls simp sub mulm1 ord1 ord2 es m sol us toward0 h cons o mc absolute args kw f G v mn local x popt,
  let om := om_of cls simp ord2 m in
  let Y := the_data om cons args kw in
  let ps := m_params m in
  sympy_arithmetic sub mulm1 -> set_order ord2 -> model_of ord1 es m -> means es sol ->
  m_indep m = [] -> m_dep m = [v] ->
  good_constraints es us -> init_constraints cls simp sub mulm1 ord2 m us = Ok cons ->
  good_names om cons -> NoDup (dkeys kw) -> inputs_on_grid G m Y -> constraints_on_grid G es us Y ->
  model_chosen om cons args kw es o mc v -> suitable h ps us mc ->
  fit_init toward0 h {| fm_om := om; fm_len := List.length es |} cons o mc absolute args kw = Ok f ->
  ft_min f = FMin mn local ->
  minimises (fun z => obj_value OMM h om (ft_obj f) z []) (execute_problem h mn DNone DNone) (nfree h ps) x ->
  pack_output h ps x = Ok popt ->
  let theta := reported ps popt in
  allowed h m theta /\ constraints_hold G sol us Y theta /\
  forall theta', allowed h m theta' -> constraints_hold G sol us Y theta' -> sol theta v <= sol theta' v.
Proof.
  intros cls simp sub mulm1 ord1 ord2 es m sol us toward0 h cons o mc absolute args kw f G v mn local x popt om Y ps Har Ho Hm Hsol Hi Hd Hgc Hic Hg Hk HG Hcg Hoc Hsu Hf.
  exact (mm_best cls simp sub mulm1 ord1 ord2 es m sol us toward0 h cons o mc absolute args kw f G Ho Hm Hsol Hg Hk HG Hf Har Hic Hgc Hcg v Hi Hd Hoc mn local x popt Hsu).
Qed.
Print Assumptions C80_minimum.

(** ** Without second derivatives the minimum of a model has no covariance matrix. *)
Theorem C80_minimize_covariance : forall inv cls simp ord2 es m toward0 h cons o mc absolute args kw f v x,
  let om := om_of cls simp ord2 m in
  cls <> KModel -> m_indep m = [] -> m_dep m = [v] -> good_names om cons -> NoDup (dkeys kw) -> model_chosen om cons args kw es o mc v ->
  fit_init toward0 h {| fm_om := om; fm_len := List.length es |} cons o mc absolute args kw = Ok f ->
  List.length x = nfree h (m_params m) ->
  exists popt, fit_execute inv h om f x = Ok (popt, None) /\ pack_output h (m_params m) x = Ok popt.
Proof.
  intros inv cls simp ord2 es m toward0 h cons o mc absolute args kw f v x om Hcl Hi Hd Hg Hk Hoc Hf Hl.
  destruct (mm_no_covariance cls simp ord2 es m toward0 h cons o mc absolute args kw f Hg Hk Hf v Hi Hd Hoc inv x Hcl Hl) as (popt & H1 & H2). eauto.
Qed.
Print Assumptions C80_minimize_covariance.

(** ** Example: the fit of C69 for every class. *)
Lemma cex_minimises cls toward0 fixed m us cons f mn :
  let om := om_of cls (fun e => e) oid m in
  let Y := the_data om cons eex_args eex_kw in
  let x := if fixed : bool then [2] else [2; 5] in
  model_of oid aex_es m -> m_params m = [pa; pb] -> m_dep m = [vz] ->
  good_constraints aex_es us -> init_constraints cls (fun e => e) ESub ENeg oid m us = Ok cons ->
  good_names om cons -> data_on_grid [3%nat] m Y (the_sigma om cons eex_args eex_kw) -> constraints_on_grid [3%nat] aex_es us Y ->
  Y vx = Some (aex_vec 1 2 3) -> Y vz = Some (aex_vec 14 26 46) -> the_sigma om cons eex_args eex_kw vz = Some {| shp := [3%nat]; val := fun _ => 2 |} ->
  (forall theta, theta pa = 2 -> theta pb = 5 -> constraints_hold [3%nat] jex_sol us Y theta) ->
  fit_init toward0 (eex_heap fixed) {| fm_om := om; fm_len := List.length aex_es |} cons ODefault MDefault None eex_args eex_kw = Ok f ->
  ft_min f = FMin mn None ->
  minimises (fun z => obj_value OLS (eex_heap fixed) om (ft_obj f) z []) (execute_problem (eex_heap fixed) mn DNone DNone) (nfree (eex_heap fixed) (m_params m)) x.
Proof.
  intros om Y x0 Hm E1 E2 Hgc Hic Hg HG Hcg Yx Yz Sz Hcon Hf Hmn. subst x0 om Y.
  assert (Hk : NoDup (dkeys eex_kw)) by (apply nodupb_iff; reflexivity).
  assert (Hoc : objective_chosen ODefault MDefault OLS) by (split; [left; reflexivity|discriminate]).
  destruct (C80_fit_problem cls (fun e => e) ESub ENeg oid oid aex_es m jex_sol us toward0 (eex_heap fixed) cons ODefault MDefault None eex_args eex_kw f [3%nat] eex_arith oid_ok Hm aex_means
    Hgc Hic Hg Hk HG Hcg Hoc (or_introl eq_refl) Hf) as (mn' & local' & Hmn' & _ & _ & _ & Hb & Hv & _). rewrite Hmn in Hmn'. injection Hmn' as <- <-.
  set (x := if fixed then [2] else [2; 5]).
  assert (Hl : List.length x = nfree (eex_heap fixed) (m_params m)) by (rewrite E1; unfold x; destruct fixed; reflexivity).
  assert (Hpa : parameter_value (eex_heap fixed) (m_params m) x pa = 2) by (rewrite E1; unfold x; destruct fixed; reflexivity).
  assert (Hpb : parameter_value (eex_heap fixed) (m_params m) x pb = 5) by (rewrite E1; unfold x; destruct fixed; reflexivity).
  split; [exact Hl|]. split.
  { apply Hb; [exact Hl|]. split; [|exact (Hcon _ Hpa Hpb)]. intros p Hp. rewrite E1 in Hp. assert (Hw : forall v, 0 <= v -> within (eex_heap fixed) p v) by (intros v Hvv; split; cbn; [intros l Hq; injection Hq as <-; exact Hvv|discriminate]).
    destruct Hp as [<-|[<-|[]]]; [change (p_fixed (eex_heap fixed pa)) with false; cbv iota; rewrite Hpa; apply Hw; lra|]. rewrite Hpb.
    change (p_fixed (eex_heap fixed pb)) with fixed. destruct fixed; [reflexivity|apply Hw; lra]. }
  intros x' r r' Hl' _ Hr Hr'. rewrite (Hv x Hl) in Hr. rewrite (Hv x' Hl') in Hr'. injection Hr as <-. injection Hr' as <-. rewrite !elem_scalar.
  rewrite (eex_zero m _ _ _ E2 Yx Yz Sz Hpa Hpb).
  match goal with |- / 2 * 0 <= / 2 * ?B => assert (HB : 0 <= B) by apply chi2_nonneg; lra end.
Qed.
Example C80_example : forall cls toward0 fixed,
  exists m f mn inv, model_of oid aex_es m /\ means aex_es jex_sol /\ m_params m = [pa; pb] /\ m_dep m = [vz] /\
    has_jacobian (fun e => e) oid m /\ ArrSpec.has_hessian (fun e => e) oid m /\ inverts inv /\
    let om := om_of cls (fun e => e) oid m in
    let x := if fixed : bool then [2] else [2; 5] in
    good_names om [] /\ NoDup (dkeys eex_kw) /\ no_bare_numbers om [] eex_args eex_kw /\ no_shape_clash [3%nat] m /\
    data_on_grid [3%nat] m (the_data om [] eex_args eex_kw) (the_sigma om [] eex_args eex_kw) /\
    fit_init toward0 (eex_heap fixed) {| fm_om := om; fm_len := List.length aex_es |} [] ODefault MDefault None eex_args eex_kw = Ok f /\
    ft_min f = FMin mn None /\
    (forall theta, defined_around [3%nat] aex_es jex_sol (the_data om [] eex_args eex_kw) theta) /\
    List.length x = nfree (eex_heap fixed) (m_params m) /\
    minimises (fun z => obj_value OLS (eex_heap fixed) om (ft_obj f) z []) (execute_problem (eex_heap fixed) mn DNone DNone) (nfree (eex_heap fixed) (m_params m)) x /\
    pack_output (eex_heap fixed) (m_params m) x = Ok [2; 5].
Proof.
  intros cls toward0 fixed.
  destruct (init_model oid (comps (V:=res nd) aex_es)) as [m|e] eqn:Hi; [|vm_compute in Hi; discriminate].
  assert (E1 : m_params m = [pa; pb]) by (vm_compute in Hi; inversion Hi; reflexivity).
  assert (E2 : m_dep m = [vz]) by (vm_compute in Hi; inversion Hi; reflexivity).
  assert (E3 : m_indep m = [vx]) by (vm_compute in Hi; inversion Hi; reflexivity).
  assert (Hm : model_of oid aex_es m).
  { split; [exact oid_ok|]. split; [apply nodupb_iff; vm_compute; reflexivity|]. split; [decide_model|]. split; [decide_model|]. split; [exact jex_plain|].
    split; [|exact Hi]. intros k e [Hq|[Hq|[]]]; inv Hq; cbn; repeat split; discriminate. }
  assert (HJ : has_jacobian (fun e => e) oid m).
  { vm_compute in Hi. inversion Hi; subst m. eexists. split; [vm_compute; reflexivity|decide_model]. }
  assert (HH : ArrSpec.has_hessian (fun e => e) oid m).
  { vm_compute in Hi. inversion Hi; subst m. eexists. split; [vm_compute; reflexivity|decide_model]. }
  clear Hi. destruct inverts_exists as (iv & Hiv).
  assert (Hf : exists f mn, fit_init toward0 (eex_heap fixed) {| fm_om := om_of cls (fun e => e) oid m; fm_len := List.length aex_es |} [] ODefault MDefault None eex_args eex_kw = Ok f /\
    ft_min f = FMin mn None).
  { unfold om_of. rewrite E1, E2, E3. destruct cls, fixed; eexists _, _; (split; [reflexivity|reflexivity]). }
  destruct Hf as (f & mn & Hf & Hmn). exists m, f, mn, iv.
  split; [exact Hm|]. split; [exact aex_means|]. split; [exact E1|]. split; [exact E2|]. split; [exact HJ|]. split; [exact HH|]. split; [exact Hiv|]. cbv zeta.
  assert (Hdf : forall v, data_for (om_of cls (fun e => e) oid m) [] eex_args eex_kw v =
    data_for {| om_params := [pa; pb]; om_indep := [vx]; om_dep := [vz]; om_names := map sp_name (m_sig m); om_call := arr_call oid m; om_jac := None; om_hess := None |} [] eex_args eex_kw v).
  { intros v. unfold data_for, argument_names, om_of. cbn [om_indep om_dep]. rewrite E2, E3. reflexivity. }
  assert (Dx : data_for (om_of cls (fun e => e) oid m) [] eex_args eex_kw vx = DArr (aex_vec 1 2 3)) by (rewrite Hdf; reflexivity).
  assert (Dz : data_for (om_of cls (fun e => e) oid m) [] eex_args eex_kw vz = DSeq (aex_vec 14 26 46)) by (rewrite Hdf; reflexivity).
  assert (Ds : data_for (om_of cls (fun e => e) oid m) [] eex_args eex_kw (sigma_of vz) = DNum 2) by (rewrite Hdf; reflexivity).
  assert (Yx : the_data (om_of cls (fun e => e) oid m) [] eex_args eex_kw vx = Some (aex_vec 1 2 3)) by (unfold the_data; rewrite Dx; reflexivity).
  assert (Yz : the_data (om_of cls (fun e => e) oid m) [] eex_args eex_kw vz = Some (aex_vec 14 26 46)) by (unfold the_data; rewrite Dz; reflexivity).
  assert (Sz : the_sigma (om_of cls (fun e => e) oid m) [] eex_args eex_kw vz = Some {| shp := [3%nat]; val := fun _ => 2 |}) by (unfold the_sigma; rewrite Dz, Ds; reflexivity).
  clear Hdf.
  assert (Hg : good_names (om_of cls (fun e => e) oid m) []).
  { unfold good_names, argument_names, om_of. cbn [om_indep om_dep]. rewrite E2, E3. split; [apply nodupb_iff; vm_compute; reflexivity|]. split; [intros c []|apply nodupb_iff; vm_compute; reflexivity]. }
  assert (Hk : NoDup (dkeys eex_kw)) by (apply nodupb_iff; reflexivity).
  assert (HG : data_on_grid [3%nat] m (the_data (om_of cls (fun e => e) oid m) [] eex_args eex_kw) (the_sigma (om_of cls (fun e => e) oid m) [] eex_args eex_kw)).
  { split. { split; [discriminate|]. split; [intros [H|[]]; discriminate|].
      rewrite E3. intros v [<-|[]]. rewrite Yx. eexists. split; [reflexivity|]. split; [reflexivity|right; reflexivity]. }
    split. { rewrite E2. intros v y [<-|[]] Hy. rewrite Yz in Hy. injection Hy as <-. split; [reflexivity|]. rewrite Sz. eexists. split; [reflexivity|]. split; [reflexivity|]. intros i _. cbn. lra. }
    exists vz. rewrite E2, Yz. split; [left; reflexivity|discriminate]. }
  assert (Hsc : no_shape_clash [3%nat] m) by (split; discriminate).
  split; [exact Hg|]. split; [exact Hk|]. split.
  { intros v r Hv. cbn [om_indep om_dep om_of] in Hv. rewrite E2, E3 in Hv. destruct Hv as [<-|[<-|[]]]; [rewrite Dx|rewrite Dz]; discriminate. }
  split; [exact Hsc|]. split; [exact HG|]. split; [exact Hf|]. split; [exact Hmn|].
  split. { intros theta. exists 1. split; [lra|]. intros th _ i k e _ [Hq|[Hq|[]]]; inv Hq; cbn; auto. }
  split. { rewrite E1. destruct fixed; reflexivity. }
  split; [|rewrite E1; destruct fixed; reflexivity].
  apply (cex_minimises cls toward0 fixed m [] [] f mn); auto; [intros u []|intros u v []|intros theta _ _ u i []].
Qed.
(** ** .. and those of C71 and C72. *)
Example C80_likelihood_example : forall cls toward0,
  exists m f mn inv, model_of oid lex_es m /\ means lex_es lex_sol /\ m_params m = [pa] /\ m_dep m = [vy] /\
    has_jacobian (fun e => e) oid m /\ ArrSpec.has_hessian (fun e => e) oid m /\ inverts inv /\
    let om := om_of cls (fun e => e) oid m in
    let Y := the_data om [] eex_args [] in
    let h := eex_heap false in
    good_names om [] /\ inputs_on_grid [3%nat] m Y /\ covers_data [3%nat] lex_es m Y /\
    fit_init toward0 h {| fm_om := om; fm_len := List.length lex_es |} [] (OClass OLL) MDefault None eex_args [] = Ok f /\
    ft_min f = FMin mn None /\ List.length [/ 2] = nfree h (m_params m) /\
    (forall theta, positive_for [3%nat] lex_sol m Y theta <-> 0 < theta pa) /\
    (forall theta, defined_around [3%nat] lex_es lex_sol Y theta) /\
    minimises_among (fun z => positive_for [3%nat] lex_sol m Y (parameter_value h (m_params m) z)) (fun z => obj_value OLL h om (ft_obj f) z [])
      (execute_problem h mn DNone DNone) (nfree h (m_params m)) [/ 2] /\
    pack_output h (m_params m) [/ 2] = Ok [/ 2].
Proof.
  intros cls toward0.
  destruct (init_model oid (comps (V:=res nd) lex_es)) as [m|e] eqn:Hi; [|vm_compute in Hi; discriminate].
  assert (E1 : m_params m = [pa]) by (vm_compute in Hi; inversion Hi; reflexivity).
  assert (E2 : m_dep m = [vy]) by (vm_compute in Hi; inversion Hi; reflexivity).
  assert (E3 : m_indep m = [vx]) by (vm_compute in Hi; inversion Hi; reflexivity).
  assert (Hm : model_of oid lex_es m).
  { split; [exact oid_ok|]. split; [apply nodupb_iff; vm_compute; reflexivity|]. split; [decide_model|]. split; [decide_model|]. split; [exact lex_plain|].
    split; [|exact Hi]. intros k e [Hq|[]]; inv Hq; cbn; repeat split; discriminate. }
  assert (HJ : has_jacobian (fun e => e) oid m).
  { vm_compute in Hi. inversion Hi; subst m. eexists. split; [vm_compute; reflexivity|decide_model]. }
  assert (HH : ArrSpec.has_hessian (fun e => e) oid m).
  { vm_compute in Hi. inversion Hi; subst m. eexists. split; [vm_compute; reflexivity|decide_model]. }
  clear Hi. destruct inverts_exists as (iv & Hiv).
  assert (Hf : exists f mn, fit_init toward0 (eex_heap false) {| fm_om := om_of cls (fun e => e) oid m; fm_len := List.length lex_es |} [] (OClass OLL) MDefault None eex_args [] = Ok f /\
    ft_min f = FMin mn None).
  { unfold om_of. rewrite E1, E2, E3. destruct cls; eexists _, _; (split; [reflexivity|reflexivity]). }
  destruct Hf as (f & mn & Hf & Hmn). exists m, f, mn, iv.
  split; [exact Hm|]. split; [exact lex_means|]. split; [exact E1|]. split; [exact E2|]. split; [exact HJ|]. split; [exact HH|]. split; [exact Hiv|]. cbv zeta.
  assert (Dx : data_for (om_of cls (fun e => e) oid m) [] eex_args [] vx = DArr (aex_vec 1 2 3)) by (unfold data_for, argument_names, om_of; cbn [om_indep om_dep]; rewrite E2, E3; reflexivity).
  assert (Yx : the_data (om_of cls (fun e => e) oid m) [] eex_args [] vx = Some (aex_vec 1 2 3)) by (unfold the_data; rewrite Dx; reflexivity).
  assert (Hg : good_names (om_of cls (fun e => e) oid m) []).
  { unfold good_names, argument_names, om_of. cbn [om_indep om_dep]. rewrite E2, E3. split; [apply nodupb_iff; vm_compute; reflexivity|]. split; [intros c []|apply nodupb_iff; vm_compute; reflexivity]. }
  assert (HG : inputs_on_grid [3%nat] m (the_data (om_of cls (fun e => e) oid m) [] eex_args [])).
  { split; [discriminate|]. split; [intros [H|[]]; discriminate|].
    rewrite E3. intros v [<-|[]]. rewrite Yx. eexists. split; [reflexivity|]. split; [reflexivity|right; reflexivity]. }
  assert (Hcov : covers_data [3%nat] lex_es m (the_data (om_of cls (fun e => e) oid m) [] eex_args [])).
  { split; [rewrite E2; discriminate|]. rewrite E2. intros v [<-|[]]. exists vx, (aex_vec 1 2 3). split; [|split; [rewrite E3; left; reflexivity|split; [exact Yx|reflexivity]]].
    apply t_step; eexists; split; [apply ArrObj.in_comps; left; reflexivity|left; simpl; auto]. }
  assert (Hl : List.length [/ 2] = nfree (eex_heap false) (m_params m)) by (rewrite E1; reflexivity).
  set (Y := the_data (om_of cls (fun e => e) oid m) [] eex_args []) in *.
  assert (Hs : forall theta i, lex_sol (at_data Y theta i) vy = theta pa * exp (theta pa * elem (aex_vec 1 2 3) i * -1)).
  { intros theta i. assert (A1 : at_data Y theta i vx = elem (aex_vec 1 2 3) i) by (unfold at_data; cbn [is_par vx]; rewrite Yx; reflexivity).
    rewrite <- A1. reflexivity. }
  assert (Hpos : forall theta, positive_for [3%nat] lex_sol m Y theta <-> 0 < theta pa).
  { intros theta. split.
    - intros H. assert (Hv : In vy (m_dep m)) by (rewrite E2; left; reflexivity). specialize (H vy [0%nat] Hv (or_introl eq_refl)). rewrite Hs in H.
      pose proof (exp_pos (theta pa * elem (aex_vec 1 2 3) [0%nat] * -1)). nra.
    - intros Ht v i Hv _. rewrite E2 in Hv. destruct Hv as [<-|[]]. rewrite Hs. apply Rmult_lt_0_compat; [exact Ht|apply exp_pos]. }
  assert (Hll : forall theta, 0 < theta pa -> log_likelihood [3%nat] lex_sol m Y theta = 3 * (ln (theta pa) - 2 * theta pa)).
  { intros theta Ht. unfold log_likelihood. rewrite E2. change (indices [3%nat]) with [[0%nat]; [1%nat]; [2%nat]]. cbn [map Rsum]. rewrite !Hs.
    change (elem (aex_vec 1 2 3) [0%nat]) with 1. change (elem (aex_vec 1 2 3) [1%nat]) with 2. change (elem (aex_vec 1 2 3) [2%nat]) with 3.
    rewrite !ln_mult by (auto using exp_pos). rewrite !ln_exp. ring. }
  split; [exact Hg|]. split; [exact HG|]. split; [exact Hcov|]. split; [exact Hf|]. split; [exact Hmn|]. split; [exact Hl|]. split; [exact Hpos|].
  split. { intros theta. exists 1. split; [lra|]. intros th _ i k e _ [Hq|[]]; inv Hq; cbn; auto. }
  split; [|rewrite E1; reflexivity].
  assert (Hne : m_params m <> []) by (rewrite E1; discriminate).
  assert (Hgc : good_constraints lex_es []) by (intros u []).
  assert (Hic : init_constraints cls (fun e => e) ESub ENeg oid m [] = Ok []) by reflexivity.
  assert (Hcg : constraints_on_grid [3%nat] lex_es [] Y) by (intros u v []).
  destruct (C80_likelihood_problem cls (fun e => e) ESub ENeg oid oid lex_es m lex_sol [] toward0 (eex_heap false) [] MDefault None eex_args [] f [3%nat] eex_arith oid_ok Hm lex_means
    Hgc Hic Hg (NoDup_nil _) HG Hcov Hcg (or_introl eq_refl) Hf) as (mn' & local' & Hmn' & _ & _ & _ & Hb & Hv & _). rewrite Hmn in Hmn'. injection Hmn' as <- <-.
  assert (Hpa : parameter_value (eex_heap false) (m_params m) [/ 2] pa = / 2) by (rewrite E1; reflexivity).
  split; [exact Hl|]. split.
  { apply Hb; [exact Hl|]. split; [|intros u i []]. intros p Hp. rewrite E1 in Hp. destruct Hp as [<-|[]]. change (p_fixed (eex_heap false pa)) with false. cbv iota. rewrite Hpa.
    split; cbn; [intros l Hq; injection Hq as <-; lra|discriminate]. }
  assert (Hp0 : positive_for [3%nat] lex_sol m Y (parameter_value (eex_heap false) (m_params m) [/ 2])) by (apply Hpos; rewrite Hpa; lra).
  split; [exact Hp0|]. intros x' r r' Hl' _ Hp' Hr Hr'. rewrite (Hv _ Hl Hp0) in Hr. rewrite (Hv x' Hl' Hp') in Hr'. injection Hr as <-. injection Hr' as <-. rewrite !elem_scalar.
  rewrite (proj2 (likelihood_log cls (fun e => e) oid m lex_sol [] eex_args [] [3%nat] _ Hp0)), (proj2 (likelihood_log cls (fun e => e) oid m lex_sol [] eex_args [] [3%nat] _ Hp')).
  fold Y. apply Hpos in Hp'. rewrite !Hll by (try exact Hp'; rewrite Hpa; lra). rewrite Hpa. pose proof (log_le_half _ Hp'). lra.
Qed.
Example C80_minimize_example : forall cls toward0,
  exists m cons f mn inv, model_of oid mex_es m /\ means mex_es mex_sol /\ m_params m = [pa; pb] /\ m_dep m = [vy] /\ m_indep m = [] /\
    has_jacobian (fun e => e) oid m /\ ArrSpec.has_hessian (fun e => e) oid m /\ inverts inv /\
    good_constraints mex_es mex_us /\ init_constraints cls (fun e => e) ESub ENeg oid m mex_us = Ok cons /\ List.length cons = 1%nat /\
    let om := om_of cls (fun e => e) oid m in
    let Y := the_data om cons [] [] in
    let h := eex_heap false in
    good_names om cons /\ inputs_on_grid [1%nat] m Y /\ constraints_on_grid [1%nat] mex_es mex_us Y /\ model_chosen om cons [] [] mex_es ODefault MDefault vy /\
    fit_init toward0 h {| fm_om := om; fm_len := List.length mex_es |} cons ODefault MDefault None [] [] = Ok f /\
    ft_min f = FMin mn None /\ mi_class mn = SLSQP /\ List.length [1; 1] = nfree h (m_params m) /\
    (forall theta, constraints_hold [1%nat] mex_sol mex_us Y theta <-> 2 <= theta pa + theta pb) /\
    (forall theta, model_defined_around mex_es mex_sol theta) /\
    minimises (fun z => obj_value OMM h om (ft_obj f) z []) (execute_problem h mn DNone DNone) (nfree h (m_params m)) [1; 1] /\
    pack_output h (m_params m) [1; 1] = Ok [1; 1].
Proof.
  intros cls toward0.
  destruct (init_model oid (comps (V:=res nd) mex_es)) as [m|e] eqn:Hi; [|vm_compute in Hi; discriminate].
  assert (E1 : m_params m = [pa; pb]) by (vm_compute in Hi; inversion Hi; reflexivity).
  assert (E2 : m_dep m = [vy]) by (vm_compute in Hi; inversion Hi; reflexivity).
  assert (E3 : m_indep m = []) by (vm_compute in Hi; inversion Hi; reflexivity).
  assert (Hm : model_of oid mex_es m).
  { split; [exact oid_ok|]. split; [apply nodupb_iff; vm_compute; reflexivity|]. split; [decide_model|]. split; [decide_model|]. split; [exact mex_plain|].
    split; [|exact Hi]. intros k e [Hq|[]]; inv Hq; cbn; repeat split; discriminate. }
  assert (HJ : has_jacobian (fun e => e) oid m).
  { vm_compute in Hi. inversion Hi; subst m. eexists. split; [vm_compute; reflexivity|decide_model]. }
  assert (HH : ArrSpec.has_hessian (fun e => e) oid m).
  { vm_compute in Hi. inversion Hi; subst m. eexists. split; [vm_compute; reflexivity|decide_model]. }
  destruct (as_constraint ESub ENeg (SVar "w1") oid (CRel RGe (EAdd (ESym pa) (ESym pb)) (ENum 2)) m) as [[c1 t1]|e] eqn:A1; [|vm_compute in Hi; inversion Hi; subst m; vm_compute in A1; discriminate].
  assert (F1 : t1 = RGe /\ m_params c1 = [pa; pb] /\ m_dep c1 = [SVar "w1"] /\ m_indep c1 = []) by (vm_compute in Hi; inversion Hi; subst m; vm_compute in A1; inversion A1; auto).
  destruct F1 as (-> & F11 & F12 & F13). clear Hi. destruct inverts_exists as (iv & Hiv).
  set (cons := [{| fc_rel := RGe; fc_om := om_of cls (fun e => e) oid c1 |}]).
  assert (Hic : init_constraints cls (fun e => e) ESub ENeg oid m mex_us = Ok cons).
  { unfold init_constraints, mex_us. cbn [mapM bind uc_name uc_rel uc_left uc_right]. rewrite A1. reflexivity. }
  assert (Hf : exists f mn, fit_init toward0 (eex_heap false) {| fm_om := om_of cls (fun e => e) oid m; fm_len := List.length mex_es |} cons ODefault MDefault None [] [] = Ok f /\
    ft_min f = FMin mn None /\ mi_class mn = SLSQP).
  { unfold cons, om_of. rewrite E1, E2, E3, F11, F12, F13. destruct cls; eexists _, _; (split; [reflexivity|split; reflexivity]). }
  destruct Hf as (f & mn & Hf & Hmn & Hcl). exists m, cons, f, mn, iv.
  split; [exact Hm|]. split; [exact mex_means|]. split; [exact E1|]. split; [exact E2|]. split; [exact E3|]. split; [exact HJ|]. split; [exact HH|]. split; [exact Hiv|].
  assert (Hg : good_names (om_of cls (fun e => e) oid m) cons).
  { unfold good_names, argument_names, cons, om_of. cbn [om_indep om_dep fc_om map]. rewrite E2, E3, F12, F13.
    split; [apply nodupb_iff; vm_compute; reflexivity|]. split; [intros c [<-|[]]; cbn [fc_om om_indep om_dep]; rewrite ?F12, ?F13; apply nodupb_iff; vm_compute; reflexivity|apply nodupb_iff; vm_compute; reflexivity]. }
  assert (Hgc : good_constraints mex_es mex_us).
  { intros u [<-|[]]. split; [|cbn; auto]. cbn [uc_left uc_right uc_name].
    split; [eexists; reflexivity|]; split; [decide_model|]; split; [decide_model|]; split; [decide_model|]; split; [decide_model|];
         intros s [Hs|Hs]; apply mentionsl_ok in Hs; cbn in Hs; intuition (subst; reflexivity). }
  set (Y := the_data (om_of cls (fun e => e) oid m) cons [] []).
  assert (Hcg : constraints_on_grid [1%nat] mex_es mex_us Y).
  { intros u v [<-|[]] Hv Hp Hnk; cbn [uc_left uc_right] in Hv; exfalso; rewrite !mentionsl_ok in Hv; cbn in Hv; intuition (subst; try discriminate). }
  assert (HG : inputs_on_grid [1%nat] m Y) by (split; [discriminate|]; split; [intros [H|[]]; discriminate|]; rewrite E3; intros v []).
  assert (Hoc : model_chosen (om_of cls (fun e => e) oid m) cons [] [] mex_es ODefault MDefault vy).
  { right. split; [reflexivity|]. split; [discriminate|]. split; [reflexivity|]. unfold argument_names, cons, om_of. cbn [om_indep om_dep fc_om map]. rewrite E2, E3, F12, F13. reflexivity. }
  assert (Hch : forall theta, constraints_hold [1%nat] mex_sol mex_us Y theta <-> 2 <= theta pa + theta pb).
  { intros theta. assert (B : forall i, mex_sol (at_data Y theta i) pa + mex_sol (at_data Y theta i) pb = theta pa + theta pb) by reflexivity. split.
    - intros Hc. pose proof (Hc _ [0%nat] (or_introl eq_refl) (or_introl eq_refl)) as H1. cbn [uc_rel uc_left uc_right holds eval a_num a_add Ralg] in H1. rewrite B in H1. exact H1.
    - intros K u i [<-|[]] _. cbn [uc_rel uc_left uc_right holds eval a_num a_add Ralg]. rewrite B. exact K. }
  assert (Hl : List.length [1; 1] = nfree (eex_heap false) (m_params m)) by (rewrite E1; reflexivity).
  split; [exact Hgc|]. split; [exact Hic|]. split; [reflexivity|]. cbv zeta. split; [exact Hg|]. split; [exact HG|]. split; [exact Hcg|]. split; [exact Hoc|]. split; [exact Hf|].
  split; [exact Hmn|]. split; [exact Hcl|]. split; [exact Hl|]. split; [exact Hch|].
  split. { intros theta. exists 1. split; [lra|]. intros th _ k e [Hq|[]]; inv Hq; cbn; auto. }
  split; [|rewrite E1; reflexivity].
  assert (Hne : m_params m <> []) by (rewrite E1; discriminate).
  destruct (C80_minimize_problem cls (fun e => e) ESub ENeg oid oid mex_es m mex_sol mex_us toward0 (eex_heap false) cons ODefault MDefault None [] [] f [1%nat] vy eex_arith oid_ok Hm mex_means
    E3 E2 Hgc Hic Hg (NoDup_nil _) HG Hcg Hoc (or_introl eq_refl) Hf) as (mn' & local' & Hmn' & _ & _ & _ & Hb & Hv & _). rewrite Hmn in Hmn'. injection Hmn' as <- <-.
  assert (Hpa : parameter_value (eex_heap false) (m_params m) [1; 1] pa = 1) by (rewrite E1; reflexivity).
  assert (Hpb : parameter_value (eex_heap false) (m_params m) [1; 1] pb = 1) by (rewrite E1; reflexivity).
  split; [exact Hl|]. split.
  { apply Hb; [exact Hl|]. split; [|apply Hch; rewrite Hpa, Hpb; lra]. intros p Hp. rewrite E1 in Hp. assert (Hw : forall v, 0 <= v -> within (eex_heap false) p v) by (intros v Hvv; split; cbn; [intros l Hq; injection Hq as <-; exact Hvv|discriminate]).
    destruct Hp as [<-|[<-|[]]]; [change (p_fixed (eex_heap false pa)) with false; cbv iota; rewrite Hpa; apply Hw; lra|]. rewrite Hpb.
    change (p_fixed (eex_heap false pb)) with false. cbv iota. apply Hw; lra. }
  intros x' r r' Hl' Hf' Hr Hr'. destruct (Hv _ Hl) as (q & Q1 & _ & Q2). destruct (Hv x' Hl') as (q' & Q1' & _ & Q2'). rewrite Hr in Q1. rewrite Hr' in Q1'. injection Q1 as <-. injection Q1' as <-.
  rewrite Q2, Q2'. apply Hb in Hf'; [|exact Hl']. destruct Hf' as [_ Hc']. apply Hch in Hc'.
  assert (Es : forall th, mex_sol th vy = th pa * (th pa * 1) + th pb * (th pb * 1)) by reflexivity. rewrite !Es, Hpa, Hpb.
  revert Hc'. generalize (parameter_value (eex_heap false) (m_params m) x' pa). generalize (parameter_value (eex_heap false) (m_params m) x' pb). intros b a Hab. pose proof (Rle_0_sqr (a - 1)). pose proof (Rle_0_sqr (b - 1)). unfold Rsqr in *. lra.
Qed.
Example C80_minpack_example : forall cls toward0 fixed,
  exists m f mn inv, model_of oid aex_es m /\ means aex_es jex_sol /\ m_params m = [pa; pb] /\ m_dep m = [vz] /\
    has_jacobian (fun e => e) oid m /\ inverts inv /\
    let om := om_of cls (fun e => e) oid m in
    let x := if fixed : bool then [2] else [2; 5] in
    good_names om [] /\ NoDup (dkeys eex_kw) /\ no_bare_numbers om [] eex_args eex_kw /\ no_shape_clash [3%nat] m /\
    data_on_grid [3%nat] m (the_data om [] eex_args eex_kw) (the_sigma om [] eex_args eex_kw) /\
    fit_init toward0 (eex_heap fixed) {| fm_om := om; fm_len := List.length aex_es |} [] ODefault (MItem (MCls MINPACK)) None eex_args eex_kw = Ok f /\
    ft_min f = FMin mn None /\
    (forall theta, defined_around [3%nat] aex_es jex_sol (the_data om [] eex_args eex_kw) theta) /\
    List.length x = nfree (eex_heap fixed) (m_params m) /\
    minimises_squares (fun z => obj_value OVLS (eex_heap fixed) om (ft_obj f) z []) (execute_problem (eex_heap fixed) mn DNone DNone) (nfree (eex_heap fixed) (m_params m)) x /\
    pack_output (eex_heap fixed) (m_params m) x = Ok [2; 5].
Proof.
  intros cls toward0 fixed.
  destruct (init_model oid (comps (V:=res nd) aex_es)) as [m|e] eqn:Hi; [|vm_compute in Hi; discriminate].
  assert (E1 : m_params m = [pa; pb]) by (vm_compute in Hi; inversion Hi; reflexivity).
  assert (E2 : m_dep m = [vz]) by (vm_compute in Hi; inversion Hi; reflexivity).
  assert (E3 : m_indep m = [vx]) by (vm_compute in Hi; inversion Hi; reflexivity).
  assert (Hm : model_of oid aex_es m).
  { split; [exact oid_ok|]. split; [apply nodupb_iff; vm_compute; reflexivity|]. split; [decide_model|]. split; [decide_model|]. split; [exact jex_plain|].
    split; [|exact Hi]. intros k e [Hq|[Hq|[]]]; inv Hq; cbn; repeat split; discriminate. }
  assert (HJ : has_jacobian (fun e => e) oid m).
  { vm_compute in Hi. inversion Hi; subst m. eexists. split; [vm_compute; reflexivity|decide_model]. }
  assert (HH : ArrSpec.has_hessian (fun e => e) oid m).
  { vm_compute in Hi. inversion Hi; subst m. eexists. split; [vm_compute; reflexivity|decide_model]. }
  clear Hi. destruct inverts_exists as (iv & Hiv).
  assert (Hf : exists f mn, fit_init toward0 (eex_heap fixed) {| fm_om := om_of cls (fun e => e) oid m; fm_len := List.length aex_es |} [] ODefault (MItem (MCls MINPACK)) None eex_args eex_kw = Ok f /\
    ft_min f = FMin mn None).
  { unfold om_of. rewrite E1, E2, E3. destruct cls, fixed; eexists _, _; (split; [reflexivity|reflexivity]). }
  destruct Hf as (f & mn & Hf & Hmn). exists m, f, mn, iv.
  split; [exact Hm|]. split; [exact aex_means|]. split; [exact E1|]. split; [exact E2|]. split; [exact HJ|]. split; [exact Hiv|]. cbv zeta.
  assert (Hdf : forall v, data_for (om_of cls (fun e => e) oid m) [] eex_args eex_kw v =
    data_for {| om_params := [pa; pb]; om_indep := [vx]; om_dep := [vz]; om_names := map sp_name (m_sig m); om_call := arr_call oid m; om_jac := None; om_hess := None |} [] eex_args eex_kw v).
  { intros v. unfold data_for, argument_names, om_of. cbn [om_indep om_dep]. rewrite E2, E3. reflexivity. }
  assert (Dx : data_for (om_of cls (fun e => e) oid m) [] eex_args eex_kw vx = DArr (aex_vec 1 2 3)) by (rewrite Hdf; reflexivity).
  assert (Dz : data_for (om_of cls (fun e => e) oid m) [] eex_args eex_kw vz = DSeq (aex_vec 14 26 46)) by (rewrite Hdf; reflexivity).
  assert (Ds : data_for (om_of cls (fun e => e) oid m) [] eex_args eex_kw (sigma_of vz) = DNum 2) by (rewrite Hdf; reflexivity).
  assert (Yx : the_data (om_of cls (fun e => e) oid m) [] eex_args eex_kw vx = Some (aex_vec 1 2 3)) by (unfold the_data; rewrite Dx; reflexivity).
  assert (Yz : the_data (om_of cls (fun e => e) oid m) [] eex_args eex_kw vz = Some (aex_vec 14 26 46)) by (unfold the_data; rewrite Dz; reflexivity).
  assert (Sz : the_sigma (om_of cls (fun e => e) oid m) [] eex_args eex_kw vz = Some {| shp := [3%nat]; val := fun _ => 2 |}) by (unfold the_sigma; rewrite Dz, Ds; reflexivity).
  clear Hdf.
  assert (Hg : good_names (om_of cls (fun e => e) oid m) []).
  { unfold good_names, argument_names, om_of. cbn [om_indep om_dep]. rewrite E2, E3. split; [apply nodupb_iff; vm_compute; reflexivity|]. split; [intros c []|apply nodupb_iff; vm_compute; reflexivity]. }
  assert (Hk : NoDup (dkeys eex_kw)) by (apply nodupb_iff; reflexivity).
  assert (HG : data_on_grid [3%nat] m (the_data (om_of cls (fun e => e) oid m) [] eex_args eex_kw) (the_sigma (om_of cls (fun e => e) oid m) [] eex_args eex_kw)).
  { split. { split; [discriminate|]. split; [intros [H|[]]; discriminate|].
      rewrite E3. intros v [<-|[]]. rewrite Yx. eexists. split; [reflexivity|]. split; [reflexivity|right; reflexivity]. }
    split. { rewrite E2. intros v y [<-|[]] Hy. rewrite Yz in Hy. injection Hy as <-. split; [reflexivity|]. rewrite Sz. eexists. split; [reflexivity|]. split; [reflexivity|]. intros i _. cbn. lra. }
    exists vz. rewrite E2, Yz. split; [left; reflexivity|discriminate]. }
  assert (Hsc : no_shape_clash [3%nat] m) by (split; discriminate).
  split; [exact Hg|]. split; [exact Hk|]. split.
  { intros v r Hv. cbn [om_indep om_dep om_of] in Hv. rewrite E2, E3 in Hv. destruct Hv as [<-|[<-|[]]]; [rewrite Dx|rewrite Dz]; discriminate. }
  split; [exact Hsc|]. split; [exact HG|]. split; [exact Hf|]. split; [exact Hmn|].
  split. { intros theta. exists 1. split; [lra|]. intros th _ i k e _ [Hq|[Hq|[]]]; inv Hq; cbn; auto. }
  split. { rewrite E1. destruct fixed; reflexivity. }
  split; [|rewrite E1; destruct fixed; reflexivity].
  assert (Hne : m_params m <> []) by (rewrite E1; discriminate).
  assert (Hoc : minpack_chosen ODefault (MItem (MCls MINPACK))) by (split; [left; reflexivity|reflexivity]).
  destruct (C80_minpack_problem cls (fun e => e) oid oid aex_es m jex_sol toward0 (eex_heap fixed) [] ODefault (MItem (MCls MINPACK)) None eex_args eex_kw f [3%nat] oid_ok Hm aex_means
    Hg Hk HG Hoc Hf) as (mn' & local' & Hmn' & _ & _ & _ & _ & Hb & Hv & _). rewrite Hmn in Hmn'. injection Hmn' as <- <-.
  set (x := if fixed then [2] else [2; 5]).
  assert (Hl : List.length x = nfree (eex_heap fixed) (m_params m)) by (rewrite E1; unfold x; destruct fixed; reflexivity).
  assert (Hpa : parameter_value (eex_heap fixed) (m_params m) x pa = 2) by (rewrite E1; unfold x; destruct fixed; reflexivity).
  assert (Hpb : parameter_value (eex_heap fixed) (m_params m) x pb = 5) by (rewrite E1; unfold x; destruct fixed; reflexivity).
  split; [exact Hl|]. split.
  { apply Hb; [exact Hl|]. intros p Hp. rewrite E1 in Hp. assert (Hw : forall v, 0 <= v -> within (eex_heap fixed) p v) by (intros v Hvv; split; cbn; [intros l Hq; injection Hq as <-; exact Hvv|discriminate]).
    destruct Hp as [<-|[<-|[]]]; [change (p_fixed (eex_heap fixed pa)) with false; cbv iota; rewrite Hpa; apply Hw; lra|]. rewrite Hpb.
    change (p_fixed (eex_heap fixed pb)) with fixed. destruct fixed; [reflexivity|apply Hw; lra]. }
  intros x' r r' Hl' _ Hr Hr'. destruct (Hv x Hl) as (q & Q1 & _ & Q2). destruct (Hv x' Hl') as (q' & Q1' & _ & Q2'). rewrite Hr in Q1. rewrite Hr' in Q1'. injection Q1 as <-. injection Q1' as <-.
  rewrite Q2, Q2', (eex_zero m _ _ _ E2 Yx Yz Sz Hpa Hpb). apply chi2_nonneg.
Qed.
