(** * Prop_Vec: C90, fits with MINPACK of numerical models, of systems of differential equations, and of symbolic models on several grids. *)
From Coq Require Import Reals Lra Lia Sorted.
From Coquelicot Require Import Coquelicot.
From Verif Require Import PyBase PyFacts Signature SignatureFacts Expr Model ModelSpec ModelFacts ExprR Jacobian JacAnalysis NumPy NumFacts NumModel NumSpec NumMain Objective ObjSpec ObjDiff FDSpec Ode OdeSpec OdeMain OdeModel Minimizer MinSpec Fit FitSpec FitCov FitExample Cast ArrModel ArrSpec ConModel EndSpec EndMain GenSpec GenFit NumFitSpec NumFit OdeFitSpec OdeFit GlobSpec GlobMain GlobFit GlobDiff VecSpec GenVec Decide OdeExample Prop_Model Prop_Jacobian Prop_ArrModel Prop_NumModel Prop_NumFit Prop_OdeFit Prop_Glob.
From Verif Require ArrObj ArrMain ArrFacts MinFacts.
Local Open Scope R_scope.
Local Open Scope string_scope.
Local Open Scope list_scope.

(** The slope of the residuals is their derivative. *)
Lemma residual_derive (P : (sym -> R) -> sym -> list nat -> R) (D : sym -> list nat -> R) dep Y S i theta p :
  (forall v, In v dep -> Y v <> None -> derivative_in (fun th => P th v i) theta p (D v i)) -> with_value theta p (theta p) = theta ->
  (forall v s, In v dep -> Y v <> None -> S v = Some s -> elem s i <> 0) -> residual_at (P theta) dep Y S i <> 0 ->
  derivative_in (fun th => residual_at (P th) dep Y S i) theta p (residual_slope (P theta) D dep Y S i).
Proof.
  intros HD Hw Hs Hr. unfold derivative_in, residual_slope, residual_at in *.
  set (g := fun v t => match Y v, S v with Some y, Some s => ((P (with_value theta p t) v i - val y i) / elem s i) ^ 2 | _, _ => 0 end).
  set (d := fun v => match Y v, S v with Some y, Some s => 2 * (D v i * ((P theta v i - val y i) / elem s i ^ 2)) | _, _ => 0 end).
  assert (H : is_derive (fun t => Rsum (map (fun v => g v t) dep)) (theta p) (Rsum (map d dep))).
  { apply is_derive_Rsum. intros v Hv. unfold g, d. destruct (Y v) as [y|] eqn:Hy; [|apply (is_derive_const (V := R_NormedModule))]. destruct (S v) as [s|] eqn:HS; [|apply (is_derive_const (V := R_NormedModule))].
    assert (Hv' := HD v Hv ltac:(congruence)). assert (Hnz := Hs v s Hv ltac:(congruence) HS). unfold derivative_in in Hv'.
    pose proof (is_derive_half_sq (fun t => P (with_value theta p t) v i) (theta p) (D v i) (val y i) (elem s i)) as Q. cbv beta in Q.
    rewrite Hw in Q. apply Q; [exact Hv'|exact Hnz]. }
  assert (E0 : Rsum (map (fun v => g v (theta p)) dep) = Rsum (map (fun v => match Y v, S v with Some y, Some s => ((P theta v i - val y i) / elem s i) ^ 2 | _, _ => 0 end) dep)) by (unfold g; rewrite Hw; reflexivity).
  assert (Hpos : 0 < Rsum (map (fun v => g v (theta p)) dep)).
  { rewrite E0. destruct (Rle_lt_dec (Rsum (map (fun v => match Y v, S v with Some y, Some s => ((P theta v i - val y i) / elem s i) ^ 2 | _, _ => 0 end) dep)) 0) as [Hle|Hlt]; [|exact Hlt].
    exfalso. apply Hr. apply sqrt_neg_0. exact Hle. }
  replace (Rsum (map (fun v => match Y v, S v with Some y, Some s => D v i * ((P theta v i - val y i) / elem s i ^ 2) | _, _ => 0 end) dep) /
           sqrt (Rsum (map (fun v => match Y v, S v with Some y, Some s => ((P theta v i - val y i) / elem s i) ^ 2 | _, _ => 0 end) dep)))
    with (Rsum (map d dep) * / (2 * sqrt (Rsum (map (fun v => g v (theta p)) dep)))).
  - apply (is_derive_sqrt _ _ _ H Hpos).
  - rewrite E0.
    assert (E2 : Rsum (map d dep) = 2 * Rsum (map (fun v => match Y v, S v with Some y, Some s => D v i * ((P theta v i - val y i) / elem s i ^ 2) | _, _ => 0 end) dep)).
    { clear. unfold d, Rsum. induction dep as [|v l IH]; cbn; [ring|]. cbn in IH. rewrite IH. destruct (Y v); [destruct (S v)|]; ring. }
    rewrite E2. field. exact Hr.
Qed.

(** ** C90, models with Python callables as components.  With MINPACK the problem is a least squares problem in the vector of residuals,
    one for each data point, whose squares add up to chi squared; no derivatives are handed over. *)
Theorem C90_numerical_problem : forall simp ord1 ord2 items user m toward0 h o mc absolute args kw f sh Out G,
  let om := om_of KCallable simp ord2 m in
  let Y := the_data om [] args kw in
  let Sg := the_sigma om [] args kw in
  let ps := m_params m in
  numerical_model_of ord1 ord2 items user m ->
  good_names om [] -> NoDup (dkeys kw) -> data_matches om sh Y Sg -> (forall v y, In v (m_dep m) -> Y v = Some y -> shp y = G) ->
  minpack_chosen o mc ->
  fit_init toward0 h {| fm_om := om; fm_len := List.length items |} [] o mc absolute args kw = Ok f ->
  exists mn local, ft_min f = FMin mn local /\ mi_class mn = MINPACK /\ ft_class f = OVLS /\
    let pb := execute_problem h mn DNone DNone in
    pb_routine pb = RLeastSquares /\ pb_x0 pb = Some (map (fun p => p_value (h p)) (free_of_list h ps)) /\
    (forall x, List.length x = nfree h ps -> feasible pb x <-> allowed_for h ps (parameter_value h ps x)) /\
    (forall x, List.length x = nfree h ps -> let theta := parameter_value h ps x in
       components_are items user m Y sh theta (Out theta) ->
       exists r, obj_value OVLS h om (ft_obj f) x [] = Ok r /\ is_residuals (at_points (Out theta)) (m_dep m) Y Sg (indices G) r /\
         squares r = chi2_with (at_points (Out theta)) (m_dep m) Y Sg) /\
    (forall w, pb_jac pb <> DFun w).
Proof.
  intros simp ord1 ord2 items user m toward0 h o mc absolute args kw f sh Out G om Y Sg ps (Ho1 & Ho2 & Hp & Hm) Hg Hkw Hdm Hsame Hoc Hf.
  pose proof (num_callable simp ord1 ord2 items user m Ho1 Hp Hm) as Hcal. fold om in Hcal.
  pose proof (gv_class om (List.length items) toward0 h o mc absolute args kw f sh Hg Hkw Hf Hdm Hoc) as Hcl.
  destruct (gv_min om (List.length items) toward0 h o mc absolute args kw f Hf Hoc) as (mn & local & Hmn & Hcc & Hini).
  exists mn, local. split; [exact Hmn|]. split; [exact Hcc|]. split; [exact Hcl|]. cbv zeta. split; [unfold execute_problem; rewrite Hcc; reflexivity|]. split; [|split; [|split]].
  - pose proof (gstart om h f mn Hini) as H. rewrite Hcc in H. exact H.
  - intros x Hl. exact (gfeasible om h f Hcal mn x Hini (or_introl (eq_trans (f_equal uses_bounds Hcc) eq_refl)) Hl).
  - intros x Hl Hout. apply (gv_value om (List.length items) toward0 h o mc absolute args kw f sh Hcal Hg Hkw Hf Hdm Hoc G Hsame x _ Hl).
    apply (num_predicts simp ord1 ord2 items user m Ho1 Ho2 Hp Hm); [exact (proj1 Hdm)|exact Hout].
  - exact (gno_gradient om h f mn Hini eq_refl).
Qed.
Print Assumptions C90_numerical_problem.

Theorem C90_numerical_best_fit : forall simp ord1 ord2 items user m toward0 h o mc absolute args kw f sh Out G mn local x popt,
  let om := om_of KCallable simp ord2 m in
  let Y := the_data om [] args kw in
  let Sg := the_sigma om [] args kw in
  let ps := m_params m in
  let chi2 := fun theta => chi2_with (at_points (Out theta)) (m_dep m) Y Sg in
  numerical_model_of ord1 ord2 items user m ->
  good_names om [] -> NoDup (dkeys kw) -> data_matches om sh Y Sg -> (forall v y, In v (m_dep m) -> Y v = Some y -> shp y = G) ->
  minpack_chosen o mc ->
  (forall theta, allowed_for h ps theta -> components_are items user m Y sh theta (Out theta)) ->
  fit_init toward0 h {| fm_om := om; fm_len := List.length items |} [] o mc absolute args kw = Ok f ->
  ft_min f = FMin mn local ->
  minimises_squares (fun z => obj_value OVLS h om (ft_obj f) z []) (execute_problem h mn DNone DNone) (nfree h ps) x ->
  pack_output h ps x = Ok popt ->
  let theta := reported ps popt in
  allowed_for h ps theta /\ forall theta', allowed_for h ps theta' -> chi2 theta <= chi2 theta'.
Proof.
  intros simp ord1 ord2 items user m toward0 h o mc absolute args kw f sh Out G mn local x popt om Y Sg ps chi2 (Ho1 & Ho2 & Hp & Hm) Hg Hkw Hdm Hsame Hoc Hout Hf Hmn Hmin Hpk.
  pose proof (num_callable simp ord1 ord2 items user m Ho1 Hp Hm) as Hcal. fold om in Hcal.
  destruct (gv_min om (List.length items) toward0 h o mc absolute args kw f Hf Hoc) as (mn' & local' & Hmn' & Hcc & Hini).
  rewrite Hmn in Hmn'. injection Hmn' as <- <-.
  apply (gv_best om (List.length items) toward0 h o mc absolute args kw f sh Hcal Hg Hkw Hf Hdm Hoc G Hsame mn x popt (fun theta => at_points (Out theta)) Hini Hcc); [|exact Hmin|exact Hpk].
  intros theta Hth. apply (num_predicts simp ord1 ord2 items user m Ho1 Ho2 Hp Hm); [exact (proj1 Hdm)|exact (Hout theta Hth)].
Qed.
Print Assumptions C90_numerical_best_fit.

Theorem C90_numerical_result : forall inv simp ord1 ord2 items user m toward0 h o mc absolute args kw f sh out x,
  let om := om_of KCallable simp ord2 m in
  let Y := the_data om [] args kw in
  let Sg := the_sigma om [] args kw in
  let ps := m_params m in
  numerical_model_of ord1 ord2 items user m ->
  good_names om [] -> NoDup (dkeys kw) -> data_matches om sh Y Sg -> no_bare_numbers om [] args kw -> minpack_chosen o mc ->
  fit_init toward0 h {| fm_om := om; fm_len := List.length items |} [] o mc absolute args kw = Ok f ->
  List.length x = nfree h ps -> components_are items user m Y sh (parameter_value h ps x) out ->
  exists popt, fit_execute inv h om f x = Ok (popt, None) /\ pack_output h ps x = Ok popt /\
    forall p, In p ps -> reported ps popt p = parameter_value h ps x p.
Proof.
  intros inv simp ord1 ord2 items user m toward0 h o mc absolute args kw f sh out x om Y Sg ps (Ho1 & Ho2 & Hp & Hm) Hg Hkw Hdm Hbare Hoc Hf Hl Hout.
  pose proof (num_callable simp ord1 ord2 items user m Ho1 Hp Hm) as Hcal. fold om in Hcal.
  assert (HP : predicts om Y sh (parameter_value h ps x) (at_points out)) by (apply (num_predicts simp ord1 ord2 items user m Ho1 Ho2 Hp Hm); [exact (proj1 Hdm)|exact Hout]).
  destruct (gv_no_covariance om (List.length items) toward0 h o mc absolute args kw f sh Hcal Hg Hkw Hf Hdm Hoc Hbare inv x _ eq_refl Hl HP) as (popt & Hpk & Hex).
  exists popt. split; [exact Hex|]. split; [exact Hpk|]. intros p Hpp. exact (greported_is h ps (gnodup om Hcal) x popt p (gnames om Hcal) Hl Hpk Hpp).
Qed.
Print Assumptions C90_numerical_result.

(** ** C90, systems of ordinary differential equations: the Jacobian of the residuals is built from six point differences of solutions. *)
Theorem C90_ode_problem : forall S simp ord items initial user t t0 m toward0 h o mc absolute args kw f a Phi,
  let om := om_of_ode S simp m in
  let Y := the_data om [] args kw in
  let Sg := the_sigma om [] args kw in
  let ps := o_params m in
  let ts := times a in
  let N := List.length ts in
  let solved := fun theta => ode_solved items t initial t0 ts theta (Phi theta) in
  let chi2 := fun theta => chi2_with (at_times (Phi theta) ts) (o_dep m) Y Sg in
  ode_model_of S simp ord items initial user t t0 m -> ps <> [] ->
  good_names om [] -> NoDup (dkeys kw) -> ode_data om t a Y Sg -> increasing_times t0 ts -> minpack_chosen o mc ->
  fit_init toward0 h {| fm_om := om; fm_len := ode_len m |} [] o mc absolute args kw = Ok f ->
  exists mn local, ft_min f = FMin mn local /\ mi_class mn = MINPACK /\ ft_class f = OVLS /\
    let pb := execute_problem h mn DNone DNone in
    pb_routine pb = RLeastSquares /\ pb_x0 pb = Some (map (fun p => p_value (h p)) (free_of_list h ps)) /\
    (forall x, List.length x = nfree h ps -> feasible pb x <-> allowed_for h ps (parameter_value h ps x)) /\
    (forall x, List.length x = nfree h ps -> let theta := parameter_value h ps x in solved theta ->
       exists r, obj_value OVLS h om (ft_obj f) x [] = Ok r /\ is_residuals (at_times (Phi theta) ts) (o_dep m) Y Sg (indices [N]) r /\ squares r = chi2 theta) /\
    exists w, pb_jac pb = DFun w /\ forall x, List.length x = nfree h ps ->
      let theta := parameter_value h ps x in
      solved theta -> solved_around items t initial t0 ts ps Phi theta ->
      exists g, w x = Ok g /\ shp g = [nfree h ps; N] /\ forall i p n, nth_error (free_of_list h ps) i = Some p -> (n < N)%nat ->
        val g [i; n] = residual_slope (at_times (Phi theta) ts) (ode_difference Phi ts theta p) (o_dep m) Y Sg [n].
Proof.
  intros S simp ord items initial user t t0 m toward0 h o mc absolute args kw f a Phi om Y Sg ps ts N solved chi2 HM Hps Hg Hkw (N' & Ha & HY & Hdm) Hts Hoc Hf.
  pose proof HM as (HS & Hs & Ho & Hfo & Hi & Hn & Hm & Ht).
  pose proof (ode_callable S simp ord items initial user t m Ho Hfo Hi Hn Hm) as Hcal. fold om in Hcal.
  assert (HtsN : List.length ts = N') by (unfold ts, times; rewrite map_length, seq_length, Ha; reflexivity).
  subst N'. fold N in Ha, Hdm. assert (HtsN : List.length ts = N) by reflexivity.
  pose proof (gv_class om (ode_len m) toward0 h o mc absolute args kw f (fun _ => [N]) Hg Hkw Hf Hdm Hoc) as Hcl.
  destruct (gv_min om (ode_len m) toward0 h o mc absolute args kw f Hf Hoc) as (mn & local & Hmn & Hcc & Hini).
  assert (Hsame : forall v y, In v (om_dep om) -> Y v = Some y -> shp y = [N]) by (intros v y Hv Hy; exact (proj1 (proj1 (proj2 Hdm) v y Hv Hy))).
  assert (HP : forall theta, solved theta -> predicts om Y (fun _ => [N]) theta (at_times (Phi theta) ts)).
  { intros theta Hth. exact (ode_predicts S simp ord items initial user t m Ho Hfo Hi Hn Hm Y a N ts HY Ha HtsN theta (Phi theta) (ascending_reports S simp ord items initial user t t0 m HM a theta (Phi theta) Hts Hth)). }
  exists mn, local. split; [exact Hmn|]. split; [exact Hcc|]. split; [exact Hcl|]. cbv zeta. split; [unfold execute_problem; rewrite Hcc; reflexivity|]. split; [|split; [|split]].
  - pose proof (gstart om h f mn Hini) as H. rewrite Hcc in H. exact H.
  - intros x Hl. exact (gfeasible om h f Hcal mn x Hini (or_introl (eq_trans (f_equal uses_bounds Hcc) eq_refl)) Hl).
  - intros x Hl Hth. exact (gv_value om (ode_len m) toward0 h o mc absolute args kw f (fun _ => [N]) Hcal Hg Hkw Hf Hdm Hoc [N] Hsame x _ Hl (HP _ Hth)).
  - destruct (gv_jacobian om (ode_len m) toward0 h o mc absolute args kw f (fun _ => [N]) Hcal Hg Hkw Hf Hdm Hoc [N] Hsame mn Hini Hcc ltac:(discriminate) Hps) as (w & Hw & Hgr).
    exists w. split; [exact Hw|]. intros x Hl Hth Har.
    assert (HJ : predicts_jac om Y (fun _ => [N]) (parameter_value h ps x) (ode_jacobian t m ts Phi (parameter_value h ps x))).
    { apply (ode_predicts_jac S simp ord items initial user t m Ho Hfo Hi Hn Hm Y a N ts HY Ha HtsN Phi (parameter_value h ps x) Hps).
      intros p k Hp Hk y Hy. apply (ascending_reports S simp ord items initial user t t0 m HM); [exact Hts|]. exact (Har p k y Hp Hk Hy). }
    destruct (Hgr x _ _ Hl (HP _ Hth) HJ) as (g & Hwg & Hsg & Hvg). rewrite GuessMain.indices1, map_length, seq_length in Hsg.
    exists g. split; [exact Hwg|]. split; [exact Hsg|]. intros i p n Hp Hnn.
    assert (Hk : exists k, nth_error ps k = Some p) by (apply In_nth_error; apply nth_error_In in Hp; apply filter_In in Hp; tauto). destruct Hk as (k & Hk).
    assert (Hn1 : nth_error (indices [N]) n = Some [n]).
    { rewrite GuessMain.indices1. rewrite nth_error_map, (nth_error_nth' _ 0%nat) by (rewrite seq_length; exact Hnn). rewrite seq_nth by exact Hnn. reflexivity. }
    rewrite (Hvg i k p n [n] Hp Hk Hn1). unfold ode_jacobian. rewrite (nth_error_nth (o_params m) _ t Hk). reflexivity.
Qed.
Print Assumptions C90_ode_problem.

Theorem C90_ode_best_fit : forall S simp ord items initial user t t0 m toward0 h o mc absolute args kw f a Phi mn local x popt,
  let om := om_of_ode S simp m in
  let Y := the_data om [] args kw in
  let Sg := the_sigma om [] args kw in
  let ps := o_params m in
  let ts := times a in
  let chi2 := fun theta => chi2_with (at_times (Phi theta) ts) (o_dep m) Y Sg in
  ode_model_of S simp ord items initial user t t0 m ->
  good_names om [] -> NoDup (dkeys kw) -> ode_data om t a Y Sg -> increasing_times t0 ts -> minpack_chosen o mc ->
  (forall theta, allowed_for h ps theta -> ode_solved items t initial t0 ts theta (Phi theta)) ->
  fit_init toward0 h {| fm_om := om; fm_len := ode_len m |} [] o mc absolute args kw = Ok f ->
  ft_min f = FMin mn local ->
  minimises_squares (fun z => obj_value OVLS h om (ft_obj f) z []) (execute_problem h mn DNone DNone) (nfree h ps) x ->
  pack_output h ps x = Ok popt ->
  let theta := reported ps popt in
  allowed_for h ps theta /\ forall theta', allowed_for h ps theta' -> chi2 theta <= chi2 theta'.
Proof.
  intros S simp ord items initial user t t0 m toward0 h o mc absolute args kw f a Phi mn local x popt om Y Sg ps ts chi2 HM Hg Hkw (N & Ha & HY & Hdm) Hts Hoc Hsol Hf Hmn Hmin Hp.
  pose proof HM as (HS & Hs & Ho & Hfo & Hi & Hn & Hm & Ht).
  pose proof (ode_callable S simp ord items initial user t m Ho Hfo Hi Hn Hm) as Hcal. fold om in Hcal.
  assert (HtsN : List.length ts = N) by (unfold ts, times; rewrite map_length, seq_length, Ha; reflexivity).
  destruct (gv_min om (ode_len m) toward0 h o mc absolute args kw f Hf Hoc) as (mn' & local' & Hmn' & Hcc & Hini).
  rewrite Hmn in Hmn'. injection Hmn' as <- <-.
  assert (Hsame : forall v y, In v (om_dep om) -> Y v = Some y -> shp y = [N]) by (intros v y Hv Hy; exact (proj1 (proj1 (proj2 Hdm) v y Hv Hy))).
  apply (gv_best om (ode_len m) toward0 h o mc absolute args kw f (fun _ => [N]) Hcal Hg Hkw Hf Hdm Hoc [N] Hsame mn x popt (fun theta => at_times (Phi theta) ts) Hini Hcc); [|exact Hmin|exact Hp].
  intros theta Hth. exact (ode_predicts S simp ord items initial user t m Ho Hfo Hi Hn Hm Y a N ts HY Ha HtsN theta (Phi theta) (ascending_reports S simp ord items initial user t t0 m HM a theta (Phi theta) Hts (Hsol theta Hth))).
Qed.
Print Assumptions C90_ode_best_fit.

Theorem C90_ode_covariance : forall inv S simp ord items initial user t t0 m toward0 h o mc absolute args kw f a Phi x,
  let om := om_of_ode S simp m in
  let Y := the_data om [] args kw in
  let Sg := the_sigma om [] args kw in
  let ps := o_params m in
  let ts := times a in
  let n := List.length ps in
  let theta := parameter_value h ps x in
  ode_model_of S simp ord items initial user t t0 m -> ps <> [] ->
  good_names om [] -> NoDup (dkeys kw) -> ode_data om t a Y Sg -> increasing_times t0 ts -> no_bare_numbers om [] args kw -> minpack_chosen o mc ->
  fit_init toward0 h {| fm_om := om; fm_len := ode_len m |} [] o mc absolute args kw = Ok f ->
  inverts inv -> List.length x = nfree h ps ->
  ode_solved items t initial t0 ts theta (Phi theta) -> solved_around items t initial t0 ts ps Phi theta ->
  exists popt cov K, fit_execute inv h om f x = Ok (popt, cov) /\ pack_output h ps x = Ok popt /\
    (forall p, In p ps -> reported ps popt p = theta p) /\
    let s2 := variance_scale (ft_absolute f) (chi2_with (at_times (Phi theta) ts) (o_dep m) Y Sg) (INR (List.length ts) - INR n) in
    square n K /\ inverse_or_none n s2 K cov /\
    forall p q k l, nth_error ps k = Some p -> nth_error ps l = Some q ->
      mat K k l = weighted_products (ode_difference Phi ts theta p) (ode_difference Phi ts theta q) (o_dep m) Y Sg.
Proof.
  intros inv S simp ord items initial user t t0 m toward0 h o mc absolute args kw f a Phi x om Y Sg ps ts n theta HM Hps Hg Hkw (N & Ha & HY & Hdm) Hts Hbare Hoc Hf Hinv Hl Hsol Har.
  pose proof HM as (HS & Hs & Ho & Hfo & Hi & Hn & Hm & Ht).
  pose proof (ode_callable S simp ord items initial user t m Ho Hfo Hi Hn Hm) as Hcal. fold om in Hcal.
  assert (HtsN : List.length ts = N) by (unfold ts, times; rewrite map_length, seq_length, Ha; reflexivity).
  assert (Hsame : forall v y, In v (om_dep om) -> Y v = Some y -> shp y = [N]) by (intros v y Hv Hy; exact (proj1 (proj1 (proj2 Hdm) v y Hv Hy))).
  pose proof (ode_predicts S simp ord items initial user t m Ho Hfo Hi Hn Hm Y a N ts HY Ha HtsN theta (Phi theta) (ascending_reports S simp ord items initial user t t0 m HM a theta (Phi theta) Hts Hsol)) as HP.
  assert (HJ : predicts_jac om Y (fun _ => [N]) theta (ode_jacobian t m ts Phi theta)).
  { apply (ode_predicts_jac S simp ord items initial user t m Ho Hfo Hi Hn Hm Y a N ts HY Ha HtsN Phi theta Hps).
    intros p k Hp Hk y Hy. apply (ascending_reports S simp ord items initial user t t0 m HM); [exact Hts|]. exact (Har p k y Hp Hk Hy). }
  destruct (gv_covariance om (ode_len m) toward0 h o mc absolute args kw f (fun _ => [N]) Hcal Hg Hkw Hf Hdm Hoc [N] Hsame Hbare inv x _ _ Hinv Hl HP HJ)
    as (popt & cov & K & Hex & Hp & Hsq & Hcov & HK).
  exists popt, cov, K. split; [exact Hex|]. split; [exact Hp|]. split.
  { intros p Hpin. exact (greported_is h ps (params_nodup ord items initial user t m Ho Hfo Hi Hn Hm) x popt p (gnames om Hcal) Hl Hp Hpin). }
  cbv zeta. split; [exact Hsq|]. split.
  - rewrite GuessMain.indices1, map_length, seq_length in Hcov. rewrite HtsN. exact Hcov.
  - intros p q k l Hk Hq. assert (Hkl : (k < n)%nat) by (apply nth_error_Some; fold ps; congruence). assert (Hll : (l < n)%nat) by (apply nth_error_Some; fold ps; congruence).
    rewrite (HK k l Hkl Hll). unfold ode_jacobian. rewrite (nth_error_nth (o_params m) _ t Hk), (nth_error_nth (o_params m) _ t Hq). reflexivity.
Qed.
Print Assumptions C90_ode_covariance.

(** ** C90, symbolic models with data on several grids.  If two of the data sets of the dependent variables have different sizes (none being a
    single number), the vector of residuals does not exist: the objective raises a ValueError at every vector. *)
Theorem C90_different_sizes_rejected : forall simp ord1 ord2 es m sol toward0 h o mc absolute args kw f sh,
  let om := om_of KModel simp ord2 m in
  let Y := the_data om [] args kw in
  let Sg := the_sigma om [] args kw in
  set_order ord2 -> model_of ord1 es m -> means es sol ->
  good_names om [] -> NoDup (dkeys kw) -> on_grids es m Y sh -> data_matches om sh Y Sg -> sizes_differ (m_dep m) Y ->
  minpack_chosen o mc ->
  fit_init toward0 h {| fm_om := om; fm_len := List.length es |} [] o mc absolute args kw = Ok f ->
  exists mn local, ft_min f = FMin mn local /\ mi_class mn = MINPACK /\ ft_class f = OVLS /\
    forall x, List.length x = nfree h (m_params m) -> obj_value OVLS h om (ft_obj f) x [] = Raise ValueError.
Proof.
  intros simp ord1 ord2 es m sol toward0 h o mc absolute args kw f sh om Y Sg Ho2 Hm Hsol Hg Hkw Hgr Hdm Hsz Hoc Hf.
  pose proof (glob_callable simp ord1 ord2 es m Hm) as Hcal. fold om in Hcal.
  pose proof (gv_class om (List.length es) toward0 h o mc absolute args kw f sh Hg Hkw Hf Hdm Hoc) as Hcl.
  destruct (gv_min om (List.length es) toward0 h o mc absolute args kw f Hf Hoc) as (mn & local & Hmn & Hcc & Hini).
  exists mn, local. split; [exact Hmn|]. split; [exact Hcc|]. split; [exact Hcl|]. intros x Hl.
  exact (gv_unequal om (List.length es) toward0 h o mc absolute args kw f sh Hcal Hg Hkw Hf Hdm Hoc x _ Hl
    (glob_predicts simp ord1 ord2 es m sol Ho2 Hm Hsol Y sh Hgr (proj1 Hdm) KModel _) Hsz).
Qed.
Print Assumptions C90_different_sizes_rejected.

(** ** If they have one shape [G] (the independent data of each may still differ) MINPACK solves the least squares problem, with the exact Jacobian. *)
Theorem C90_global_problem : forall simp ord1 ord2 es m sol toward0 h o mc absolute args kw f sh G,
  let om := om_of KModel simp ord2 m in
  let Y := the_data om [] args kw in
  let Sg := the_sigma om [] args kw in
  let ps := m_params m in
  let P := fun theta v i => sol (at_data Y theta i) v in
  let N := List.length (indices G) in
  simp_ok simp -> set_order ord2 -> model_of ord1 es m -> means es sol -> ps <> [] -> has_jacobian simp ord2 m ->
  good_names om [] -> NoDup (dkeys kw) -> on_grids es m Y sh -> data_matches om sh Y Sg -> (forall v y, In v (m_dep m) -> Y v = Some y -> shp y = G) ->
  minpack_chosen o mc ->
  fit_init toward0 h {| fm_om := om; fm_len := List.length es |} [] o mc absolute args kw = Ok f ->
  exists mn local, ft_min f = FMin mn local /\ mi_class mn = MINPACK /\ ft_class f = OVLS /\
    let pb := execute_problem h mn DNone DNone in
    pb_routine pb = RLeastSquares /\ pb_x0 pb = Some (map (fun p => p_value (h p)) (free_of_list h ps)) /\
    (forall x, List.length x = nfree h ps -> feasible pb x <-> allowed h m (parameter_value h ps x)) /\
    (forall x, List.length x = nfree h ps -> let theta := parameter_value h ps x in
       exists r, obj_value OVLS h om (ft_obj f) x [] = Ok r /\ is_residuals (P theta) (m_dep m) Y Sg (indices G) r /\ squares r = chi2_for sol m Y Sg theta) /\
    exists w, pb_jac pb = DFun w /\ forall x, List.length x = nfree h ps -> let theta := parameter_value h ps x in grids_defined es sol m sh Y theta ->
      exists g, w x = Ok g /\ shp g = [nfree h ps; N] /\ forall i p n j, nth_error (free_of_list h ps) i = Some p -> nth_error (indices G) n = Some j ->
        residual_at (P theta) (m_dep m) Y Sg j <> 0 ->
        derivative_in (fun th => residual_at (P th) (m_dep m) Y Sg j) theta p (val g [i; n]).
Proof.
  intros simp ord1 ord2 es m sol toward0 h o mc absolute args kw f sh G om Y Sg ps P N Hs Ho2 Hm Hsol Hne (J & HJ & HnJ) Hg Hkw Hgr Hdm Hsame Hoc Hf.
  pose proof (glob_callable simp ord1 ord2 es m Hm) as Hcal. fold om in Hcal.
  pose proof (gv_class om (List.length es) toward0 h o mc absolute args kw f sh Hg Hkw Hf Hdm Hoc) as Hcl.
  destruct (gv_min om (List.length es) toward0 h o mc absolute args kw f Hf Hoc) as (mn & local & Hmn & Hcc & Hini).
  pose proof (fun theta => glob_predicts simp ord1 ord2 es m sol Ho2 Hm Hsol Y sh Hgr (proj1 Hdm) KModel theta) as HP.
  exists mn, local. split; [exact Hmn|]. split; [exact Hcc|]. split; [exact Hcl|]. cbv zeta. split; [unfold execute_problem; rewrite Hcc; reflexivity|]. split; [|split; [|split]].
  - pose proof (gstart om h f mn Hini) as H. rewrite Hcc in H. exact H.
  - intros x Hl. exact (gfeasible om h f Hcal mn x Hini (or_introl (eq_trans (f_equal uses_bounds Hcc) eq_refl)) Hl).
  - intros x Hl. exact (gv_value om (List.length es) toward0 h o mc absolute args kw f sh Hcal Hg Hkw Hf Hdm Hoc G Hsame x _ Hl (HP _)).
  - destruct (gv_jacobian om (List.length es) toward0 h o mc absolute args kw f sh Hcal Hg Hkw Hf Hdm Hoc G Hsame mn Hini Hcc ltac:(discriminate) Hne) as (w & Hw & Hr).
    exists w. split; [exact Hw|]. intros x Hl Hdef. destruct (ArrMain.solJ_exists simp ord1 ord2 es m J Hs Ho2 Hm HJ HnJ) as (solJ & HsJ).
    destruct (Hr x _ _ Hl (HP _) (glob_predicts_jac simp ord1 ord2 es m sol Hs Ho2 Hm Hsol Y sh Hgr (proj1 Hdm) J solJ HJ HnJ HsJ Hne KModel (parameter_value h ps x) ltac:(discriminate))) as (g & Ew & Sgh & Hval).
    exists g. split; [exact Ew|]. split; [exact Sgh|]. intros i p n j Hi Hn Hnz.
    assert (Hp : In p ps) by (apply nth_error_In in Hi; apply filter_In in Hi; tauto). pose proof Hp as Hp'. apply In_nth_error in Hp' as (k & Hk).
    rewrite (Hval i k p n j Hi Hk Hn).
    match goal with |- derivative_in ?F ?t ?q ?d => match goal with |- _ => replace d with (residual_slope (P t) (fun v i => DJ Y solJ t v i q) (m_dep m) Y Sg j) end end.
    + assert (Hw' : with_value (parameter_value h ps x) p (parameter_value h ps x p) = parameter_value h ps x).
      { apply FunctionalExtensionality.functional_extensionality. intros q. unfold with_value. destruct (eq_dec q p) as [->|]; reflexivity. }
      apply residual_derive; [|exact Hw'| |exact Hnz].
      * intros v Hv Hy. destruct (Y v) as [y|] eqn:Ey; [|congruence]. destruct (proj1 (proj2 Hdm) v y Hv Ey) as (Esh & _).
        apply (glob_derive simp ord1 ord2 es m sol Hs Ho2 Hm Hsol Y sh J solJ HJ HsJ (parameter_value h ps x) v j p Hv); [|exact Hp|exact Hdef].
        rewrite <- Esh, (Hsame v y Hv Ey). exact (nth_error_In _ _ Hn).
      * intros v s Hv Hy ES. destruct (Y v) as [y|] eqn:Ey; [|congruence]. destruct (proj1 (proj2 Hdm) v y Hv Ey) as (Esh & s' & ES' & _ & Hnz').
        rewrite ES in ES'. injection ES' as <-. apply Hnz'. rewrite (Hsame v y Hv Ey). exact (nth_error_In _ _ Hn).
    + unfold DJk. change (m_params m) with ps. rewrite Hk. reflexivity.
Qed.
Print Assumptions C90_global_problem.

Theorem C90_global_best_fit : forall simp ord1 ord2 es m sol toward0 h o mc absolute args kw f sh G mn local x popt,
  let om := om_of KModel simp ord2 m in
  let Y := the_data om [] args kw in
  let Sg := the_sigma om [] args kw in
  let chi2 := chi2_for sol m Y Sg in
  let ps := m_params m in
  set_order ord2 -> model_of ord1 es m -> means es sol ->
  good_names om [] -> NoDup (dkeys kw) -> on_grids es m Y sh -> data_matches om sh Y Sg -> (forall v y, In v (m_dep m) -> Y v = Some y -> shp y = G) ->
  minpack_chosen o mc ->
  fit_init toward0 h {| fm_om := om; fm_len := List.length es |} [] o mc absolute args kw = Ok f ->
  ft_min f = FMin mn local ->
  minimises_squares (fun z => obj_value OVLS h om (ft_obj f) z []) (execute_problem h mn DNone DNone) (nfree h ps) x ->
  pack_output h ps x = Ok popt ->
  let theta := reported ps popt in
  allowed h m theta /\ forall theta', allowed h m theta' -> chi2 theta <= chi2 theta'.
Proof.
  intros simp ord1 ord2 es m sol toward0 h o mc absolute args kw f sh G mn local x popt om Y Sg chi2 ps Ho2 Hm Hsol Hg Hkw Hgr Hdm Hsame Hoc Hf Hmn Hmin Hpk.
  pose proof (glob_callable simp ord1 ord2 es m Hm) as Hcal. fold om in Hcal.
  destruct (gv_min om (List.length es) toward0 h o mc absolute args kw f Hf Hoc) as (mn' & local' & Hmn' & Hcc & Hini).
  rewrite Hmn in Hmn'. injection Hmn' as <- <-.
  exact (gv_best om (List.length es) toward0 h o mc absolute args kw f sh Hcal Hg Hkw Hf Hdm Hoc G Hsame mn x popt (fun theta v i => sol (at_data Y theta i) v) Hini Hcc
    (fun theta _ => glob_predicts simp ord1 ord2 es m sol Ho2 Hm Hsol Y sh Hgr (proj1 Hdm) KModel theta) Hmin Hpk).
Qed.
Print Assumptions C90_global_best_fit.

Theorem C90_global_covariance : forall inv simp ord1 ord2 es m sol toward0 h o mc absolute args kw f sh G x,
  let om := om_of KModel simp ord2 m in
  let Y := the_data om [] args kw in
  let Sg := the_sigma om [] args kw in
  let chi2 := chi2_for sol m Y Sg in
  let ps := m_params m in
  let n := List.length ps in
  simp_ok simp -> set_order ord2 -> model_of ord1 es m -> means es sol -> ps <> [] -> has_jacobian simp ord2 m ->
  good_names om [] -> NoDup (dkeys kw) -> on_grids es m Y sh -> data_matches om sh Y Sg -> no_bare_numbers om [] args kw -> (forall v y, In v (m_dep m) -> Y v = Some y -> shp y = G) ->
  minpack_chosen o mc ->
  fit_init toward0 h {| fm_om := om; fm_len := List.length es |} [] o mc absolute args kw = Ok f ->
  inverts inv -> List.length x = nfree h ps ->
  exists popt cov K, fit_execute inv h om f x = Ok (popt, cov) /\ pack_output h ps x = Ok popt /\
    let theta := parameter_value h ps x in
    let s2 := variance_scale (ft_absolute f) (chi2 theta) (INR (List.length (indices G)) - INR n) in
    (forall p, In p ps -> reported ps popt p = theta p) /\
    square n K /\ inverse_or_none n s2 K cov /\
    (grids_defined es sol m sh Y theta -> forall p q k l, nth_error ps k = Some p -> nth_error ps l = Some q ->
       exists Dp Dq, (forall v i, In v (m_dep m) -> In i (indices (sh v)) ->
          derivative_in (fun th => sol (at_data Y th i) v) theta p (Dp v i) /\
          derivative_in (fun th => sol (at_data Y th i) v) theta q (Dq v i)) /\
        mat K k l = weighted_products Dp Dq (m_dep m) Y Sg).
Proof.
  intros inv simp ord1 ord2 es m sol toward0 h o mc absolute args kw f sh G x om Y Sg chi2 ps n Hs Ho2 Hm Hsol Hne (J & HJ & HnJ) Hg Hkw Hgr Hdm Hbare Hsame Hoc Hf Hinv Hl.
  destruct (ArrMain.solJ_exists simp ord1 ord2 es m J Hs Ho2 Hm HJ HnJ) as (solJ & HsJ).
  pose proof (glob_callable simp ord1 ord2 es m Hm) as Hcal. fold om in Hcal.
  destruct (gv_covariance om (List.length es) toward0 h o mc absolute args kw f sh Hcal Hg Hkw Hf Hdm Hoc G Hsame Hbare inv x _ _ Hinv Hl
    (glob_predicts simp ord1 ord2 es m sol Ho2 Hm Hsol Y sh Hgr (proj1 Hdm) KModel (parameter_value h ps x))
    (glob_predicts_jac simp ord1 ord2 es m sol Hs Ho2 Hm Hsol Y sh Hgr (proj1 Hdm) J solJ HJ HnJ HsJ Hne KModel (parameter_value h ps x) ltac:(discriminate)))
    as (popt & cov & K & Ex & Hpk & SK & Hc & HvK).
  exists popt, cov, K. split; [exact Ex|]. split; [exact Hpk|]. cbv zeta. split.
  { intros p Hpin. exact (greported_is h ps (gnodup om Hcal) x popt p (gnames om Hcal) Hl Hpk Hpin). }
  split; [exact SK|]. split; [exact Hc|].
  intros Hdef p q k l Ek El. exists (fun v i => DJ Y solJ (parameter_value h ps x) v i p), (fun v i => DJ Y solJ (parameter_value h ps x) v i q). split.
  - intros v i Hv Hi. split; apply (glob_derive simp ord1 ord2 es m sol Hs Ho2 Hm Hsol Y sh J solJ HJ HsJ (parameter_value h ps x) v i); auto; eapply nth_error_In; eassumption.
  - rewrite (HvK k l) by (apply nth_error_Some; change (om_params om) with ps; congruence). unfold DJk. fold ps. rewrite Ek, El. reflexivity.
Qed.
Print Assumptions C90_global_covariance.

(** ** Examples: MINPACK for the model with Python callables of C77, for the differential equations of C76 .. *)
Example C90_numerical_example : forall toward0, exists m f mn,
  let om := om_of KCallable (fun e => e) oid m in
  let Y := the_data om [] [] nex_kw in
  numerical_model_of oid oid nex_items nx_user m /\ m_params m = [pa; pb] /\ m_dep m = [vz] /\ m_inter m = [vy] /\
  good_names om [] /\ NoDup (dkeys nex_kw) /\ no_bare_numbers om [] [] nex_kw /\ data_matches om (fun _ => [3%nat]) Y (the_sigma om [] [] nex_kw) /\
  (forall v y, In v (m_dep m) -> Y v = Some y -> shp y = [3%nat]) /\ minpack_chosen ODefault (MItem (MCls MINPACK)) /\
  (forall theta, components_are nex_items nx_user m Y (fun _ => [3%nat]) theta (nex_out Y theta)) /\
  fit_init toward0 nex_heap {| fm_om := om; fm_len := List.length nex_items |} [] ODefault (MItem (MCls MINPACK)) None [] nex_kw = Ok f /\ ft_min f = FMin mn None /\
  minimises_squares (fun z => obj_value OVLS nex_heap om (ft_obj f) z []) (execute_problem nex_heap mn DNone DNone) (nfree nex_heap (m_params m)) [2; 5] /\
  pack_output nex_heap (m_params m) [2; 5] = Ok [2; 5].
Proof.
  intros toward0. destruct (C77_example toward0) as (m & f0 & mn0 & Hm & E1 & E2 & E4 & E3 & Hg & Hk & Hb & HD & Hc & Hf0 & Hmn0 & Hmin0 & Hpk).
  assert (Hf : exists f mn, fit_init toward0 nex_heap {| fm_om := om_of KCallable (fun e => e) oid m; fm_len := List.length nex_items |} [] ODefault (MItem (MCls MINPACK)) None [] nex_kw = Ok f /\ ft_min f = FMin mn None).
  { unfold om_of. rewrite E1, E2, E3. eexists _, _. split; [reflexivity|reflexivity]. }
  destruct Hf as (f & mn & Hf & Hmn). exists m, f, mn. cbv zeta.
  assert (Hsame : forall v y, In v (m_dep m) -> the_data (om_of KCallable (fun e => e) oid m) [] [] nex_kw v = Some y -> shp y = [3%nat]) by (intros v y Hv Hy; exact (proj1 (proj1 (proj2 HD) v y Hv Hy))).
  assert (Hoc : minpack_chosen ODefault (MItem (MCls MINPACK))) by (split; [left; reflexivity|reflexivity]).
  repeat (split; [assumption|]). split; [|exact Hpk].
  destruct (C90_numerical_problem (fun e => e) oid oid nex_items nx_user m toward0 nex_heap ODefault (MItem (MCls MINPACK)) None [] nex_kw f (fun _ => [3%nat])
    (nex_out (the_data (om_of KCallable (fun e => e) oid m) [] [] nex_kw)) [3%nat] Hm Hg Hk HD Hsame Hoc Hf) as (mn' & local & Hmn' & _ & _ & _ & _ & Hb' & Hv & _).
  rewrite Hmn in Hmn'. injection Hmn' as <- <-.
  assert (Hoc0 : objective_chosen ODefault MDefault OLS) by (split; [left; reflexivity|discriminate]).
  assert (Hin0 : m_indep m <> [] \/ (exists v vs, m_dep m = v :: vs /\ the_data (om_of KCallable (fun e => e) oid m) [] [] nex_kw v <> None)) by (left; rewrite E3; discriminate).
  assert (Hsu0 : suitable_class nex_heap (m_params m) MDefault) by (left; reflexivity).
  destruct (C77_numerical_best_fit (fun e => e) oid oid nex_items nx_user m toward0 nex_heap ODefault MDefault None [] nex_kw f0 (fun _ => [3%nat])
    (nex_out (the_data (om_of KCallable (fun e => e) oid m) [] [] nex_kw)) mn0 None [2; 5] [2; 5] Hm Hg Hk HD Hoc0 Hin0 Hsu0
    (fun theta _ => Hc theta) Hf0 Hmn0 Hmin0 Hpk) as (Hal & Hbest).
  assert (Hl : List.length [2; 5] = nfree nex_heap (m_params m)) by exact (proj1 Hmin0).
  assert (Hrep : forall p, In p (m_params m) -> reported (m_params m) [2; 5] p = parameter_value nex_heap (m_params m) [2; 5] p) by (intros p Hp; rewrite E1 in Hp |- *; destruct Hp as [<-|[<-|[]]]; reflexivity).
  split; [exact Hl|]. split.
  { apply Hb'; [exact Hl|]. intros p Hp. rewrite <- (Hrep p Hp). exact (Hal p Hp). }
  intros x' r r' Hl' Hfe Hr Hr'. destruct (Hv [2; 5] Hl (Hc _)) as (r1 & Hr1 & _ & Hs1). destruct (Hv x' Hl' (Hc _)) as (r2 & Hr2 & _ & Hs2).
  rewrite Hr in Hr1. rewrite Hr' in Hr2. injection Hr1 as <-. injection Hr2 as <-. rewrite Hs1, Hs2.
  assert (E : chi2_with (at_points (nex_out (the_data (om_of KCallable (fun e => e) oid m) [] [] nex_kw) (parameter_value nex_heap (m_params m) [2; 5]))) (m_dep m) (the_data (om_of KCallable (fun e => e) oid m) [] [] nex_kw) (the_sigma (om_of KCallable (fun e => e) oid m) [] [] nex_kw) =
    chi2_with (at_points (nex_out (the_data (om_of KCallable (fun e => e) oid m) [] [] nex_kw) (reported (m_params m) [2; 5]))) (m_dep m) (the_data (om_of KCallable (fun e => e) oid m) [] [] nex_kw) (the_sigma (om_of KCallable (fun e => e) oid m) [] [] nex_kw)).
  { assert (Ha : parameter_value nex_heap (m_params m) [2; 5] pa = reported (m_params m) [2; 5] pa) by (symmetry; apply Hrep; rewrite E1; left; reflexivity).
    assert (Hb2 : parameter_value nex_heap (m_params m) [2; 5] pb = reported (m_params m) [2; 5] pb) by (symmetry; apply Hrep; rewrite E1; right; left; reflexivity).
    unfold chi2_with. rewrite E2. cbn [map]. unfold at_points, nex_out. destruct (eq_dec vz vy) as [c|_]; [discriminate|]. destruct (eq_dec vz vz) as [_|c]; [|contradiction]. rewrite Ha, Hb2. reflexivity. }
  rewrite E. apply Hbest. apply Hb'; assumption.
Qed.
Print Assumptions C90_numerical_example.

Example C90_ode_example : forall toward0, exists f mn inv,
  let om := om_of_ode ideal (fun e => e) ex_m in
  let a := oex_vec (-1) 0 2 in
  let kw := oex_kw a (oex_vec 1 3 7) in
  let Y := the_data om [] [] kw in
  ode_model_of ideal (fun e => e) oid ex_ode ex_initial [] ot 0 ex_m /\ o_params ex_m = [oa; ob] /\ inverts inv /\
  good_names om [] /\ NoDup (dkeys kw) /\ no_bare_numbers om [] [] kw /\ ode_data om ot a Y (the_sigma om [] [] kw) /\ increasing_times 0 (times a) /\
  minpack_chosen ODefault (MItem (MCls MINPACK)) /\
  (forall theta, ode_solved ex_ode ot ex_initial 0 (times a) theta (oex_phi theta)) /\
  (forall theta, solved_around ex_ode ot ex_initial 0 (times a) (o_params ex_m) oex_phi theta) /\
  fit_init toward0 oex_heap {| fm_om := om; fm_len := ode_len ex_m |} [] ODefault (MItem (MCls MINPACK)) None [] kw = Ok f /\ ft_min f = FMin mn None /\
  minimises_squares (fun z => obj_value OVLS oex_heap om (ft_obj f) z []) (execute_problem oex_heap mn DNone DNone) (nfree oex_heap (o_params ex_m)) [2; 3] /\
  pack_output oex_heap (o_params ex_m) [2; 3] = Ok [2; 3].
Proof.
  intros toward0. destruct (C76_example toward0) as (f0 & mn0 & iv & Hm & E1 & E2 & Hiv & Hg & Hk & Hb & HD & _ & Hti & Hsol & Har & Hf0 & Hmn0 & Hmin0 & Hpk).
  assert (Hf : exists f mn, fit_init toward0 oex_heap {| fm_om := om_of_ode ideal (fun e => e) ex_m; fm_len := ode_len ex_m |} [] ODefault (MItem (MCls MINPACK)) None [] (oex_kw (oex_vec (-1) 0 2) (oex_vec 1 3 7)) = Ok f /\
    ft_min f = FMin mn None) by (eexists _, _; split; [reflexivity|reflexivity]).
  destruct Hf as (f & mn & Hf & Hmn). exists f, mn, iv. cbv zeta.
  assert (Hoc : minpack_chosen ODefault (MItem (MCls MINPACK))) by (split; [left; reflexivity|reflexivity]).
  repeat (split; [assumption|]). split; [|exact Hpk].
  destruct (C90_ode_problem ideal (fun e => e) oid ex_ode ex_initial [] ot 0 ex_m toward0 oex_heap ODefault (MItem (MCls MINPACK)) None [] (oex_kw (oex_vec (-1) 0 2) (oex_vec 1 3 7)) f (oex_vec (-1) 0 2) oex_phi
    Hm ltac:(rewrite E1; discriminate) Hg Hk HD Hti Hoc Hf) as (mn' & local & Hmn' & _ & _ & _ & _ & Hb' & Hv & _).
  rewrite Hmn in Hmn'. injection Hmn' as <- <-.
  assert (Hoc0 : objective_chosen ODefault MDefault OLS) by (split; [left; reflexivity|discriminate]).
  assert (Hsu0 : suitable_class oex_heap (o_params ex_m) MDefault) by (left; reflexivity).
  destruct (C76_ode_best_fit ideal (fun e => e) oid ex_ode ex_initial [] ot 0 ex_m toward0 oex_heap ODefault MDefault None [] (oex_kw (oex_vec (-1) 0 2) (oex_vec 1 3 7)) f0 (oex_vec (-1) 0 2) oex_phi mn0 None [2; 3] [2; 3]
    Hm Hg Hk HD Hti Hoc0 Hsu0 (fun theta _ => Hsol theta) Hf0 Hmn0 Hmin0 Hpk) as (Hal & Hbest).
  assert (Hl : List.length [2; 3] = nfree oex_heap (o_params ex_m)) by exact (proj1 Hmin0).
  assert (Hrep : forall p, In p (o_params ex_m) -> reported (o_params ex_m) [2; 3] p = parameter_value oex_heap (o_params ex_m) [2; 3] p) by (intros p Hp; rewrite E1 in Hp |- *; destruct Hp as [<-|[<-|[]]]; reflexivity).
  split; [exact Hl|]. split.
  { apply Hb'; [exact Hl|]. intros p Hp. rewrite <- (Hrep p Hp). exact (Hal p Hp). }
  intros x' r r' Hl' Hfe Hr Hr'. destruct (Hv [2; 3] Hl (Hsol _)) as (r1 & Hr1 & _ & Hs1). destruct (Hv x' Hl' (Hsol _)) as (r2 & Hr2 & _ & Hs2).
  rewrite Hr in Hr1. rewrite Hr' in Hr2. injection Hr1 as <-. injection Hr2 as <-. rewrite Hs1, Hs2.
  assert (Ha : parameter_value oex_heap (o_params ex_m) [2; 3] oa = reported (o_params ex_m) [2; 3] oa) by (symmetry; apply Hrep; rewrite E1; left; reflexivity).
  assert (Hb2 : parameter_value oex_heap (o_params ex_m) [2; 3] ob = reported (o_params ex_m) [2; 3] ob) by (symmetry; apply Hrep; rewrite E1; right; left; reflexivity).
  replace (oex_phi (parameter_value oex_heap (o_params ex_m) [2; 3])) with (oex_phi (reported (o_params ex_m) [2; 3])) by (unfold oex_phi; rewrite Ha, Hb2; reflexivity).
  apply Hbest. apply Hb'; assumption.
Qed.
Print Assumptions C90_ode_example.

(** ** .. and for two symbolic components: with 3 and 2 points (rejected) .. *)
Example C90_rejected_example : forall toward0, exists m f,
  let om := om_of KModel (fun e => e) oid m in
  let Y := the_data om [] [] glx_kw in
  model_of oid glx_es m /\ means glx_es glx_sol /\ good_names om [] /\ NoDup (dkeys glx_kw) /\ on_grids glx_es m Y glx_sh /\ data_matches om glx_sh Y (the_sigma om [] [] glx_kw) /\
  sizes_differ (m_dep m) Y /\ minpack_chosen ODefault (MItem (MCls MINPACK)) /\
  fit_init toward0 glx_heap {| fm_om := om; fm_len := List.length glx_es |} [] ODefault (MItem (MCls MINPACK)) None [] glx_kw = Ok f.
Proof.
  intros toward0. destruct (C89_example toward0) as (m & f0 & mn0 & iv & Hm & Hsol & E1 & E2 & E3 & HJ & HH & Hiv & Hg & Hk & Hgr & Hdm & Hb & _).
  assert (Hf : exists f mn, fit_init toward0 glx_heap {| fm_om := om_of KModel (fun e => e) oid m; fm_len := List.length glx_es |} [] ODefault (MItem (MCls MINPACK)) None [] glx_kw = Ok f /\ ft_min f = FMin mn None).
  { unfold om_of. rewrite E1, E2, E3. eexists _, _. split; reflexivity. }
  destruct Hf as (f & mn & Hf & _). exists m, f. cbv zeta. repeat (split; [assumption|]). split; [|split; [split; [left; reflexivity|reflexivity]|exact Hf]].
  assert (Hdf : forall v, data_for (om_of KModel (fun e => e) oid m) [] [] glx_kw v =
    data_for {| om_params := [pa; pb]; om_indep := [vw; vx]; om_dep := [vy; vz]; om_names := map sp_name (m_sig m); om_call := arr_call oid m; om_jac := None; om_hess := None |} [] [] glx_kw v).
  { intros v. unfold data_for, argument_names, om_of. cbn [om_indep om_dep]. rewrite E2, E3. reflexivity. }
  exists vy, vz, (aex_vec 2 4 6), (glx_two 7 12). rewrite E2. split; [left; reflexivity|]. split; [right; left; reflexivity|].
  split; [unfold the_data; rewrite Hdf; reflexivity|]. split; [unfold the_data; rewrite Hdf; reflexivity|]. cbn. lia.
Qed.
Print Assumptions C90_rejected_example.

(** ** .. and with 3 points each, at points of its own independent variable. *)
Definition glv_kw : dict string datum := [("x", DArr (aex_vec 1 2 3)); ("y", DArr (aex_vec 2 4 6)); ("w", DSeq (aex_vec 1 2 3)); ("z", DSeq (aex_vec 7 12 17)); ("sigma_z", DNum 2)].
Definition glv_sh (v : sym) : list nat := [3%nat].
Example C90_global_example : forall toward0, exists m f mn inv,
  let om := om_of KModel (fun e => e) oid m in
  let Y := the_data om [] [] glv_kw in
  model_of oid glx_es m /\ means glx_es glx_sol /\ m_params m = [pa; pb] /\ m_dep m = [vy; vz] /\ m_indep m = [vw; vx] /\
  has_jacobian (fun e => e) oid m /\ ArrSpec.has_hessian (fun e => e) oid m /\ inverts inv /\
  good_names om [] /\ NoDup (dkeys glv_kw) /\ on_grids glx_es m Y glv_sh /\ data_matches om glv_sh Y (the_sigma om [] [] glv_kw) /\ no_bare_numbers om [] [] glv_kw /\
  (forall v y, In v (m_dep m) -> Y v = Some y -> shp y = [3%nat]) /\ minpack_chosen ODefault (MItem (MCls MINPACK)) /\
  fit_init toward0 glx_heap {| fm_om := om; fm_len := List.length glx_es |} [] ODefault (MItem (MCls MINPACK)) None [] glv_kw = Ok f /\
  ft_min f = FMin mn None /\ (forall theta, grids_defined_around glx_es glx_sol m glv_sh Y theta) /\
  minimises_squares (fun z => obj_value OVLS glx_heap om (ft_obj f) z []) (execute_problem glx_heap mn DNone DNone) (nfree glx_heap (m_params m)) [2; 5] /\
  pack_output glx_heap (m_params m) [2; 5] = Ok [2; 5].
Proof.
  intros toward0.
  destruct (init_model oid (comps (V:=res nd) glx_es)) as [m|e] eqn:Hi; [|vm_compute in Hi; discriminate].
  assert (E1 : m_params m = [pa; pb]) by (vm_compute in Hi; inversion Hi; reflexivity).
  assert (E2 : m_dep m = [vy; vz]) by (vm_compute in Hi; inversion Hi; reflexivity).
  assert (E3 : m_indep m = [vw; vx]) by (vm_compute in Hi; inversion Hi; reflexivity).
  assert (Hplain : plain_model (comps (V:=R) glx_es)).
  { split; [intros k Hk; simpl in Hk; destruct Hk as [<-|[<-|[]]]; eexists; reflexivity|]. intros k s Hr. apply glx_refers in Hr as [(_ & H)|(_ & H)]; decompose [or] H; subst; reflexivity. }
  assert (Hm : model_of oid glx_es m).
  { split; [exact oid_ok|]. split; [apply nodupb_iff; vm_compute; reflexivity|]. split; [decide_model|]. split; [decide_model|]. split; [exact Hplain|].
    split; [|exact Hi]. intros k e [Hq|[Hq|[]]]; inv Hq; cbn; repeat split; discriminate. }
  assert (HJ : has_jacobian (fun e => e) oid m) by (vm_compute in Hi; inversion Hi; subst m; eexists; split; [vm_compute; reflexivity|decide_model]).
  assert (HH : ArrSpec.has_hessian (fun e => e) oid m) by (vm_compute in Hi; inversion Hi; subst m; eexists; split; [vm_compute; reflexivity|decide_model]).
  clear Hi. destruct inverts_exists as (iv & Hiv).
  assert (Hf : exists f mn, fit_init toward0 glx_heap {| fm_om := om_of KModel (fun e => e) oid m; fm_len := List.length glx_es |} [] ODefault (MItem (MCls MINPACK)) None [] glv_kw = Ok f /\ ft_min f = FMin mn None).
  { unfold om_of. rewrite E1, E2, E3. eexists _, _. split; reflexivity. }
  destruct Hf as (f & mn & Hf & Hmn). exists m, f, mn, iv. cbv zeta.
  assert (Hdf : forall v, data_for (om_of KModel (fun e => e) oid m) [] [] glv_kw v =
    data_for {| om_params := [pa; pb]; om_indep := [vw; vx]; om_dep := [vy; vz]; om_names := map sp_name (m_sig m); om_call := arr_call oid m; om_jac := None; om_hess := None |} [] [] glv_kw v).
  { intros v. unfold data_for, argument_names, om_of. cbn [om_indep om_dep]. rewrite E2, E3. reflexivity. }
  set (om := om_of KModel (fun e => e) oid m) in *.
  assert (Dx : data_for om [] [] glv_kw vx = DArr (aex_vec 1 2 3)) by (rewrite Hdf; reflexivity).
  assert (Dw : data_for om [] [] glv_kw vw = DSeq (aex_vec 1 2 3)) by (rewrite Hdf; reflexivity).
  assert (Dy : data_for om [] [] glv_kw vy = DArr (aex_vec 2 4 6)) by (rewrite Hdf; reflexivity).
  assert (Dz : data_for om [] [] glv_kw vz = DSeq (aex_vec 7 12 17)) by (rewrite Hdf; reflexivity).
  assert (Dsy : data_for om [] [] glv_kw (sigma_of vy) = DataNone) by (rewrite Hdf; reflexivity).
  assert (Dsz : data_for om [] [] glv_kw (sigma_of vz) = DNum 2) by (rewrite Hdf; reflexivity).
  assert (Yx : the_data om [] [] glv_kw vx = Some (aex_vec 1 2 3)) by (unfold the_data; rewrite Dx; reflexivity).
  assert (Yw : the_data om [] [] glv_kw vw = Some (aex_vec 1 2 3)) by (unfold the_data; rewrite Dw; reflexivity).
  assert (Yy : the_data om [] [] glv_kw vy = Some (aex_vec 2 4 6)) by (unfold the_data; rewrite Dy; reflexivity).
  assert (Yz : the_data om [] [] glv_kw vz = Some (aex_vec 7 12 17)) by (unfold the_data; rewrite Dz; reflexivity).
  assert (Sy : the_sigma om [] [] glv_kw vy = Some {| shp := [3%nat]; val := fun _ => 1 |}) by (unfold the_sigma; rewrite Dy, Dsy; reflexivity).
  assert (Sz : the_sigma om [] [] glv_kw vz = Some {| shp := [3%nat]; val := fun _ => 2 |}) by (unfold the_sigma; rewrite Dz, Dsz; reflexivity).
  clear Hdf.
  assert (Hg : good_names om []).
  { unfold good_names, argument_names, om, om_of. cbn [om_indep om_dep]. rewrite E2, E3. split; [apply nodupb_iff; vm_compute; reflexivity|]. split; [intros c []|apply nodupb_iff; vm_compute; reflexivity]. }
  assert (Hk : NoDup (dkeys glv_kw)) by (apply nodupb_iff; reflexivity).
  assert (Ux : uses glx_es vy vx) by (apply Relation_Operators.t_step; apply refers_list; eexists; split; [left; reflexivity|right; left; reflexivity]).
  assert (Uw : uses glx_es vz vw) by (apply Relation_Operators.t_step; apply refers_list; eexists; split; [right; left; reflexivity|right; left; reflexivity]).
  assert (Hgr : on_grids glx_es m (the_data om [] [] glv_kw) glv_sh).
  { split.
    - intros k s a _ Hu Hs Ha. rewrite E3 in Hs. apply glx_uses in Hu as [(-> & Hu)|(-> & Hu)]; destruct Hs as [<-|[<-|[]]]; decompose [or] Hu; try discriminate.
      + rewrite Yx in Ha. injection Ha as <-. split; [reflexivity|right; reflexivity].
      + rewrite Yw in Ha. injection Ha as <-. split; [reflexivity|right; reflexivity].
    - intros v Hv. rewrite E2 in Hv. destruct Hv as [<-|[<-|[]]].
      + split; [discriminate|]. exists vx, (aex_vec 1 2 3). split; [exact Ux|]. rewrite E3. split; [right; left; reflexivity|]. split; [exact Yx|reflexivity].
      + split; [discriminate|]. exists vw, (aex_vec 1 2 3). split; [exact Uw|]. rewrite E3. split; [left; reflexivity|]. split; [exact Yw|reflexivity]. }
  assert (Hdm : data_matches om glv_sh (the_data om [] [] glv_kw) (the_sigma om [] [] glv_kw)).
  { split; [|split].
    - intros v Hv. cbn [om om_of om_indep] in Hv. rewrite E3 in Hv. destruct Hv as [<-|[<-|[]]]; [rewrite Yw|rewrite Yx]; discriminate.
    - intros v y Hv Hy. cbn [om om_of om_dep] in Hv. rewrite E2 in Hv. destruct Hv as [<-|[<-|[]]].
      + rewrite Yy in Hy. injection Hy as <-. split; [reflexivity|]. rewrite Sy. eexists. split; [reflexivity|]. split; [reflexivity|]. intros i _. cbn. lra.
      + rewrite Yz in Hy. injection Hy as <-. split; [reflexivity|]. rewrite Sz. eexists. split; [reflexivity|]. split; [reflexivity|]. intros i _. cbn. lra.
    - exists vy. cbn [om om_of om_dep]. rewrite E2, Yy. split; [left; reflexivity|discriminate]. }
  assert (Hoc : minpack_chosen ODefault (MItem (MCls MINPACK))) by (split; [left; reflexivity|reflexivity]).
  assert (Hsame : forall v y, In v (m_dep m) -> the_data om [] [] glv_kw v = Some y -> shp y = [3%nat]) by (intros v y Hv Hy; exact (proj1 (proj1 (proj2 Hdm) v y Hv Hy))).
  assert (Hchi : forall theta, theta pa = 2 -> theta pb = 5 -> chi2_for glx_sol m (the_data om [] [] glv_kw) (the_sigma om [] [] glv_kw) theta = 0).
  { intros theta Ha Hb. unfold chi2_for. rewrite E2. cbn [map Rsum fold_right]. rewrite Yy, Yz, Sy, Sz.
    change (indices (shp (aex_vec 2 4 6))) with [[0%nat]; [1%nat]; [2%nat]]. change (indices (shp (aex_vec 7 12 17))) with [[0%nat]; [1%nat]; [2%nat]]. cbn [map Rsum fold_right].
    assert (Hpy : forall i, glx_sol (at_data (the_data om [] [] glv_kw) theta i) vy = 2 * elem (aex_vec 1 2 3) i).
    { intros i. change (glx_sol (at_data (the_data om [] [] glv_kw) theta i) vy) with (at_data (the_data om [] [] glv_kw) theta i pa * at_data (the_data om [] [] glv_kw) theta i vx).
      unfold at_data. cbn [is_par pa vx]. rewrite Yx. change (SPar "a") with pa. rewrite Ha. reflexivity. }
    assert (Hpz : forall i, glx_sol (at_data (the_data om [] [] glv_kw) theta i) vz = 5 * elem (aex_vec 1 2 3) i + 2).
    { intros i. change (glx_sol (at_data (the_data om [] [] glv_kw) theta i) vz) with (at_data (the_data om [] [] glv_kw) theta i pb * at_data (the_data om [] [] glv_kw) theta i vw + at_data (the_data om [] [] glv_kw) theta i pa).
      unfold at_data. cbn [is_par pa pb vw]. rewrite Yw. change (SPar "a") with pa. change (SPar "b") with pb. rewrite Ha, Hb. reflexivity. }
    rewrite !Hpy, !Hpz.
    change (elem (aex_vec 1 2 3) [0%nat]) with 1. change (elem (aex_vec 1 2 3) [1%nat]) with 2. change (elem (aex_vec 1 2 3) [2%nat]) with 3.
    change (val (aex_vec 2 4 6) [0%nat]) with 2. change (val (aex_vec 2 4 6) [1%nat]) with 4. change (val (aex_vec 2 4 6) [2%nat]) with 6.
    change (val (aex_vec 7 12 17) [0%nat]) with 7. change (val (aex_vec 7 12 17) [1%nat]) with 12. change (val (aex_vec 7 12 17) [2%nat]) with 17.
    replace (2 * 1 - 2) with 0 by ring. replace (2 * 2 - 4) with 0 by ring. replace (2 * 3 - 6) with 0 by ring. replace (5 * 1 + 2 - 7) with 0 by ring. replace (5 * 2 + 2 - 12) with 0 by ring. replace (5 * 3 + 2 - 17) with 0 by ring.
    unfold Rdiv. rewrite !Rmult_0_l. ring. }
  split; [exact Hm|]. split; [exact glx_means|]. split; [exact E1|]. split; [exact E2|]. split; [exact E3|]. split; [exact HJ|]. split; [exact HH|]. split; [exact Hiv|].
  split; [exact Hg|]. split; [exact Hk|]. split; [exact Hgr|]. split; [exact Hdm|]. split.
  { intros v r Hv. cbn [om om_indep om_dep om_of] in Hv. rewrite E2, E3 in Hv. destruct Hv as [<-|[<-|[<-|[<-|[]]]]]; [rewrite Dw|rewrite Dx|rewrite Dy|rewrite Dz]; discriminate. }
  split; [exact Hsame|]. split; [exact Hoc|]. split; [exact Hf|]. split; [exact Hmn|]. split.
  { intros theta. exists 1. split; [lra|]. intros th _ v i k e _ _ _ [Hq|[Hq|[]]]; inv Hq; cbn; auto. }
  split; [|rewrite E1; reflexivity].
  assert (Hne : m_params m <> []) by (rewrite E1; discriminate).
  destruct (C90_global_problem (fun e => e) oid oid glx_es m glx_sol toward0 glx_heap ODefault (MItem (MCls MINPACK)) None [] glv_kw f glv_sh [3%nat] simp_id_ok oid_ok Hm glx_means Hne HJ Hg Hk Hgr Hdm Hsame Hoc Hf)
    as (mn' & lc & Hmn' & _ & _ & _ & _ & Hb & Hv & _). fold om in Hb, Hv. rewrite Hmn in Hmn'. injection Hmn' as <- <-.
  assert (Hl : List.length [2; 5] = nfree glx_heap (m_params m)) by (rewrite E1; reflexivity).
  assert (Hpa : parameter_value glx_heap (m_params m) [2; 5] pa = 2) by (rewrite E1; reflexivity).
  assert (Hpb : parameter_value glx_heap (m_params m) [2; 5] pb = 5) by (rewrite E1; reflexivity).
  split; [exact Hl|]. split.
  { apply Hb; [exact Hl|]. intros p Hp. rewrite E1 in Hp. assert (Hw : forall v, 0 <= v -> within glx_heap p v) by (intros v Hvv; split; cbn; [intros l Hq; injection Hq as <-; exact Hvv|discriminate]).
    change (p_fixed (glx_heap p)) with false. cbv iota. destruct Hp as [<-|[<-|[]]]; [rewrite Hpa|rewrite Hpb]; apply Hw; lra. }
  intros x' r r' Hl' _ Hr Hr'. destruct (Hv [2; 5] Hl) as (r1 & Hr1 & _ & Hs1). destruct (Hv x' Hl') as (r2 & Hr2 & _ & Hs2).
  rewrite Hr in Hr1. rewrite Hr' in Hr2. injection Hr1 as <-. injection Hr2 as <-. rewrite Hs1, Hs2. rewrite (Hchi _ Hpa Hpb).
  unfold chi2_for. assert (HS : forall (A : Type) (g : A -> R) l, (forall x, 0 <= g x) -> 0 <= Rsum (map g l)).
  { intros A g l Hgg. induction l as [|a l IH]; cbn; [lra|]. specialize (Hgg a). lra. }
  apply HS. intros v. destruct (the_data om [] [] glv_kw v); [|lra]. destruct (the_sigma om [] [] glv_kw v); [|lra]. apply HS. intros i. apply pow2_ge_0.
Qed.
Print Assumptions C90_global_example.
