(** * Prop_EndMore: C71 and C72, the other objectives end to end: [Fit(model, data, objective=LogLikelihood)] is
    the maximum likelihood fit, [Fit(model)] without data, or with MinimizeModel, minimises the model.  As in
    Prop_End, nothing is assumed about model, objective or minimizer but how they were made. *)
From Coq Require Import Reals Lra Lia Relations.
From Coquelicot Require Import Coquelicot.
From Verif Require ArrObj.
From Verif Require Import PyBase PyFacts Signature SignatureFacts Expr Model ModelSpec ExprR Jacobian JacAnalysis NumPy NumFacts Objective ObjSpec Minimizer MinSpec Fit FitSpec FitExample Cast ArrModel ArrSpec ArrFacts ConModel EndSpec EndMain Decide Prop_Model Prop_Jacobian Prop_ArrModel Prop_End.
Local Open Scope R_scope.

(** ** C71: LogLikelihood.  The problem: minimise minus the logarithm of the likelihood, where that is defined, i.e. where the
    model is positive at all data points. *)
Theorem C71_problem : forall simp sub mulm1 ord1 ord2 es m sol us toward0 h cons mc absolute args kw f G,
  let om := om_of KModel simp ord2 m in
  let Y := the_data om cons args kw in
  let ps := m_params m in
  simp_ok simp -> sympy_arithmetic sub mulm1 -> set_order ord2 -> model_of ord1 es m -> means es sol -> ps <> [] -> has_jacobian simp ord2 m ->
  good_constraints es us -> init_constraints KModel simp sub mulm1 ord2 m us = Ok cons ->
  good_names om cons -> NoDup (dkeys kw) -> inputs_on_grid G m Y -> covers_data G es m Y -> constraints_on_grid G es us Y ->
  suitable h ps us mc ->
  fit_init toward0 h {| fm_om := om; fm_len := List.length es |} cons (OClass OLL) mc absolute args kw = Ok f ->
  exists mn local, ft_min f = FMin mn local /\ chosen_class h om cons mc (mi_class mn) /\ ft_class f = OLL /\
    let pb := execute_problem h mn DNone DNone in
    pb_x0 pb = (match mi_class mn with DifferentialEvolution => None | _ => Some (map (fun p => p_value (h p)) (free_of_list h ps)) end) /\
    (forall x, List.length x = nfree h ps -> feasible pb x <-> allowed h m (parameter_value h ps x) /\ constraints_hold G sol us Y (parameter_value h ps x)) /\
    (forall x, List.length x = nfree h ps -> positive_for G sol m Y (parameter_value h ps x) ->
       obj_value OLL h om (ft_obj f) x [] = Ok (scalar (- ln (likelihood G sol m Y (parameter_value h ps x))))) /\
    (uses_jacobian (mi_class mn) = true -> exists w, pb_jac pb = DFun w /\ forall x, List.length x = nfree h ps ->
      positive_for G sol m Y (parameter_value h ps x) -> defined_for G es sol Y (parameter_value h ps x) ->
      exists g, w x = Ok g /\ shp g = [nfree h ps] /\ forall i p, nth_error (free_of_list h ps) i = Some p ->
        derivative_in (fun th => - log_likelihood G sol m Y th) (parameter_value h ps x) p (val g [i])).
Proof.
  intros simp sub mulm1 ord1 ord2 es m sol us toward0 h cons mc absolute args kw f G om Y ps Hs Har Ho Hm Hsol Hne HJ Hgc Hic Hg Hk HG Hcov Hcg Hsu Hf.
  destruct (ll_problem KModel simp sub mulm1 ord1 ord2 es m sol us toward0 h cons (OClass OLL) mc absolute args kw f G Ho Hm Hsol Hg Hk HG Hf Har Hic Hgc Hcg eq_refl Hcov Hsu)
    as (mn & lc & H1 & H2 & H3 & H4 & H5 & H6 & _ & H7).
  exists mn, lc. split; [exact H1|]. split; [exact H2|]. split; [exact H3|]. cbv zeta. split; [exact H4|]. split; [exact H5|]. split; [|intros Hu; apply H7; [discriminate|exact Hne|exact HJ|exact Hs|exact Hu]].
  intros x Hl Hp. subst om Y ps. rewrite (H6 x Hl Hp). rewrite (proj2 (likelihood_log KModel simp ord2 m sol cons args kw G _ Hp)). reflexivity.
Qed.
Print Assumptions C71_problem.

(** ** If scipy answers with a best vector among those where the model is positive, the reported values are a
    maximum of the likelihood among the allowed values that satisfy the constraints. *)
Theorem C71_best_fit : forall simp sub mulm1 ord1 ord2 es m sol us toward0 h cons mc absolute args kw f G mn local x popt,
  let om := om_of KModel simp ord2 m in
  let Y := the_data om cons args kw in
  let ps := m_params m in
  simp_ok simp -> sympy_arithmetic sub mulm1 -> set_order ord2 -> model_of ord1 es m -> means es sol -> ps <> [] -> has_jacobian simp ord2 m ->
  good_constraints es us -> init_constraints KModel simp sub mulm1 ord2 m us = Ok cons ->
  good_names om cons -> NoDup (dkeys kw) -> inputs_on_grid G m Y -> covers_data G es m Y -> constraints_on_grid G es us Y ->
  suitable h ps us mc ->
  fit_init toward0 h {| fm_om := om; fm_len := List.length es |} cons (OClass OLL) mc absolute args kw = Ok f ->
  ft_min f = FMin mn local ->
  minimises_among (fun z => positive_for G sol m Y (parameter_value h ps z)) (fun z => obj_value OLL h om (ft_obj f) z []) (execute_problem h mn DNone DNone) (nfree h ps) x ->
  pack_output h ps x = Ok popt ->
  let theta := reported ps popt in
  allowed h m theta /\ constraints_hold G sol us Y theta /\ positive_for G sol m Y theta /\
  forall theta', allowed h m theta' -> constraints_hold G sol us Y theta' -> positive_for G sol m Y theta' ->
    likelihood G sol m Y theta' <= likelihood G sol m Y theta.
Proof.
  intros simp sub mulm1 ord1 ord2 es m sol us toward0 h cons mc absolute args kw f G mn local x popt om Y ps Hs Har Ho Hm Hsol Hne HJ Hgc Hic Hg Hk HG Hcov Hcg Hsu Hf.
  exact (ll_best KModel simp sub mulm1 ord1 ord2 es m sol us toward0 h cons (OClass OLL) mc absolute args kw f G Ho Hm Hsol Hg Hk HG Hf Har Hic Hgc Hcg eq_refl Hcov mn local x popt Hsu).
Qed.
Print Assumptions C71_best_fit.

(** ** The covariance matrix is the inverse of the matrix of second derivatives of minus the log likelihood; if that is
    singular, of the sum of the products of first derivatives over the squared values, if that has one. *)
Theorem C71_covariance : forall inv simp ord1 ord2 es m sol toward0 h cons mc absolute args kw f G x,
  let om := om_of KModel simp ord2 m in
  let Y := the_data om cons args kw in
  let ps := m_params m in
  let n := List.length ps in
  simp_ok simp -> set_order ord2 -> model_of ord1 es m -> means es sol -> ps <> [] -> ArrSpec.has_hessian simp ord2 m ->
  good_names om cons -> NoDup (dkeys kw) -> inputs_on_grid G m Y -> covers_data G es m Y ->
  fit_init toward0 h {| fm_om := om; fm_len := List.length es |} cons (OClass OLL) mc absolute args kw = Ok f ->
  inverts inv -> List.length x = nfree h ps ->
  positive_for G sol m Y (parameter_value h ps x) -> defined_around G es sol Y (parameter_value h ps x) ->
  exists popt H K cov, pack_output h ps x = Ok popt /\ square n H /\ symmetric n H /\ square n K /\
    fit_execute inv h om f x = Ok (popt, cov) /\
    ((exists C, cov = Some C /\ inverse_of n H C) \/ (singular n H /\ inverse_or_none n 1 K cov)) /\
    ((forall p, In p ps -> p_fixed (h p) = false) -> forall p q k l, nth_error ps k = Some p -> nth_error ps l = Some q ->
       second_derivative_in (fun th => - log_likelihood G sol m Y th) (reported ps popt) p q (mat H k l) /\
       exists Dp Dq, (forall v i, In v (m_dep m) -> In i (indices G) ->
           derivative_in (fun th => sol (at_data Y th i) v) (reported ps popt) p (Dp v i) /\
           derivative_in (fun th => sol (at_data Y th i) v) (reported ps popt) q (Dq v i)) /\
         mat K k l = Rsum (map (fun v => Rsum (map (fun i => Dp v i * Dq v i / sol (at_data Y (reported ps popt) i) v ^ 2) (indices G))) (m_dep m))).
Proof.
  intros inv simp ord1 ord2 es m sol toward0 h cons mc absolute args kw f G x om Y ps n Hs Ho Hm Hsol Hne HH Hg Hk HG Hcov Hf Hinv Hl Hp Hd.
  exact (ll_covariance KModel simp ord1 ord2 es m sol toward0 h cons (OClass OLL) mc absolute args kw f G Ho Hm Hsol Hg Hk HG Hf eq_refl Hcov inv x Hs eq_refl Hne HH Hinv Hl Hp Hd).
Qed.
Print Assumptions C71_covariance.

(** ** C72: MinimizeModel, for a model without independent variables and one dependent variable [v].  Scipy gets the value of the
    model itself and its exact gradient. *)
Theorem C72_problem : forall simp sub mulm1 ord1 ord2 es m sol us toward0 h cons o mc absolute args kw f G v,
  let om := om_of KModel simp ord2 m in
  let Y := the_data om cons args kw in
  let ps := m_params m in
  simp_ok simp -> sympy_arithmetic sub mulm1 -> set_order ord2 -> model_of ord1 es m -> means es sol -> ps <> [] -> has_jacobian simp ord2 m ->
  m_indep m = [] -> m_dep m = [v] ->
  good_constraints es us -> init_constraints KModel simp sub mulm1 ord2 m us = Ok cons ->
  good_names om cons -> NoDup (dkeys kw) -> inputs_on_grid G m Y -> constraints_on_grid G es us Y ->
  model_chosen om cons args kw es o mc v -> suitable h ps us mc ->
  fit_init toward0 h {| fm_om := om; fm_len := List.length es |} cons o mc absolute args kw = Ok f ->
  exists mn local, ft_min f = FMin mn local /\ chosen_class h om cons mc (mi_class mn) /\ ft_class f = OMM /\
    let pb := execute_problem h mn DNone DNone in
    pb_x0 pb = (match mi_class mn with DifferentialEvolution => None | _ => Some (map (fun p => p_value (h p)) (free_of_list h ps)) end) /\
    (forall x, List.length x = nfree h ps -> feasible pb x <-> allowed h m (parameter_value h ps x) /\ constraints_hold G sol us Y (parameter_value h ps x)) /\
    (forall x, List.length x = nfree h ps -> exists r, obj_value OMM h om (ft_obj f) x [] = Ok r /\ shp r = [1%nat] /\ elem r [] = sol (parameter_value h ps x) v) /\
    (uses_jacobian (mi_class mn) = true -> exists w, pb_jac pb = DFun w /\ forall x, List.length x = nfree h ps ->
      model_defined es sol (parameter_value h ps x) ->
      exists g, w x = Ok g /\ shp g = [nfree h ps] /\ forall i p, nth_error (free_of_list h ps) i = Some p ->
        derivative_in (fun th => sol th v) (parameter_value h ps x) p (val g [i])).
Proof.
  intros simp sub mulm1 ord1 ord2 es m sol us toward0 h cons o mc absolute args kw f G v om Y ps Hs Har Ho Hm Hsol Hne HJ Hi Hd Hgc Hic Hg Hk HG Hcg Hoc Hsu Hf.
  destruct (mm_problem KModel simp sub mulm1 ord1 ord2 es m sol us toward0 h cons o mc absolute args kw f G Ho Hm Hsol Hg Hk HG Hf Har Hic Hgc Hcg v Hi Hd Hoc Hsu) as (mn & lc & H1 & H2 & H3 & H4 & H5 & H6 & _ & H7).
  exists mn, lc. cbv zeta. split; [exact H1|]. split; [exact H2|]. split; [exact H3|]. split; [exact H4|]. split; [exact H5|]. split; [exact H6|].
  intros Hu. apply H7; [discriminate|exact Hne|exact HJ|exact Hs|exact Hu].
Qed.
Print Assumptions C72_problem.
Theorem C72_minimum : forall simp sub mulm1 ord1 ord2 es m sol us toward0 h cons o mc absolute args kw f G v mn local x popt,
  let om := om_of KModel simp ord2 m in
  let Y := the_data om cons args kw in
  let ps := m_params m in
  simp_ok simp -> sympy_arithmetic sub mulm1 -> set_order ord2 -> model_of ord1 es m -> means es sol -> ps <> [] -> has_jacobian simp ord2 m ->
  m_indep m = [] -> m_dep m = [v] ->
  good_constraints es us -> init_constraints KModel simp sub mulm1 ord2 m us = Ok cons ->
  good_names om cons -> NoDup (dkeys kw) -> inputs_on_grid G m Y -> constraints_on_grid G es us Y ->
  model_chosen om cons args kw es o mc v -> suitable h ps us mc ->
  fit_init toward0 h {| fm_om := om; fm_len := List.length es |} cons o mc absolute args kw = Ok f ->
  ft_min f = FMin mn local ->
  minimises (fun z => obj_value OMM h om (ft_obj f) z []) (execute_problem h mn DNone DNone) (nfree h ps) x ->
  pack_output h ps x = Ok popt ->
  let theta := reported ps popt in
  allowed h m theta /\ constraints_hold G sol us Y theta /\
  forall theta', allowed h m theta' -> constraints_hold G sol us Y theta' -> sol theta v <= sol theta' v.
Proof.
  intros simp sub mulm1 ord1 ord2 es m sol us toward0 h cons o mc absolute args kw f G v mn local x popt om Y ps Hs Har Ho Hm Hsol Hne HJ Hi Hd Hgc Hic Hg Hk HG Hcg Hoc Hsu Hf.
  exact (mm_best KModel simp sub mulm1 ord1 ord2 es m sol us toward0 h cons o mc absolute args kw f G Ho Hm Hsol Hg Hk HG Hf Har Hic Hgc Hcg v Hi Hd Hoc mn local x popt Hsu).
Qed.
Print Assumptions C72_minimum.
(** ** The covariance matrix is the inverse of the matrix of second derivatives of the model. *)
Theorem C72_covariance : forall inv simp ord1 ord2 es m sol toward0 h cons o mc absolute args kw f v x,
  let om := om_of KModel simp ord2 m in
  let ps := m_params m in
  let n := List.length ps in
  simp_ok simp -> set_order ord2 -> model_of ord1 es m -> means es sol -> ps <> [] -> ArrSpec.has_hessian simp ord2 m ->
  m_indep m = [] -> m_dep m = [v] -> good_names om cons -> NoDup (dkeys kw) -> model_chosen om cons args kw es o mc v ->
  fit_init toward0 h {| fm_om := om; fm_len := List.length es |} cons o mc absolute args kw = Ok f ->
  inverts inv -> List.length x = nfree h ps -> model_defined_around es sol (parameter_value h ps x) ->
  exists popt H, pack_output h ps x = Ok popt /\ square n H /\ symmetric n H /\
    (exists cov, fit_execute inv h om f x = Ok (popt, cov) /\ inverse_or_none n 1 H cov) /\
    ((forall p, In p ps -> p_fixed (h p) = false) -> forall p q k l, nth_error ps k = Some p -> nth_error ps l = Some q ->
       second_derivative_in (fun th => sol th v) (reported ps popt) p q (mat H k l)).
Proof.
  intros inv simp ord1 ord2 es m sol toward0 h cons o mc absolute args kw f v x om ps n Hs Ho Hm Hsol Hne HH Hi Hd Hg Hk Hoc Hf Hinv Hl Hdef.
  exact (mm_covariance KModel simp ord1 ord2 es m sol toward0 h cons o mc absolute args kw f Ho Hm Hsol Hg Hk Hf v Hi Hd Hoc inv x Hs eq_refl Hne HH Hinv Hl Hdef).
Qed.
Print Assumptions C72_covariance.

(** ** Example for C71: the exponential distribution [{y: a*exp(-a*x)}] with samples [x = [1,2,3]]: [a = 1/2], one over
    their mean. *)
Definition lex_es : dict sym expr := [(vy, EMul (ESym pa) (EFun Fexp (ENeg (EMul (ESym pa) (ESym vx)))))].
Definition lex_sol (inp : sym -> R) (s : sym) : R := if eq_dec s vy then inp pa * exp (inp pa * inp vx * -1) else inp s.
Lemma lex_means : means lex_es lex_sol.
Proof.
  intros inp. split.
  - intros k e [Hq|[]]; inv Hq; cbn; reflexivity.
  - intros s Hs. unfold lex_sol. destruct (eq_dec s vy) as [->|]; [exfalso; apply Hs; left; reflexivity|reflexivity].
Qed.
Lemma lex_plain : plain_model (comps (V:=R) lex_es).
Proof.
  split.
  - intros k Hk. simpl in Hk. destruct Hk as [<-|[]]; eexists; reflexivity.
  - intros k s Hr. apply refers_list in Hr as (c & Hin & Hs). simpl in Hin.
    destruct Hin as [Hq|[]]; inv Hq; simpl in Hs; decompose [or] Hs; subst; try reflexivity; contradiction.
Qed.
Lemma log_le_half a : 0 < a -> ln a - 2 * a <= ln (/ 2) - 1.
Proof.
  intros Ha. pose proof (exp_ineq1_le (2 * a - 1)) as H.
  assert (H2 : ln (2 * a) <= 2 * a - 1) by (rewrite <- (ln_exp (2 * a - 1)); apply Rcomplements.ln_le; lra).
  rewrite ln_mult in H2 by lra. rewrite ln_Rinv by lra. lra.
Qed.
Example C71_example : forall toward0,
  exists m f mn inv, model_of oid lex_es m /\ means lex_es lex_sol /\ m_params m = [pa] /\ m_dep m = [vy] /\
    has_jacobian (fun e => e) oid m /\ ArrSpec.has_hessian (fun e => e) oid m /\ inverts inv /\
    let om := om_of KModel (fun e => e) oid m in
    let Y := the_data om [] eex_args [] in
    let h := eex_heap false in
    good_names om [] /\ inputs_on_grid [3%nat] m Y /\ covers_data [3%nat] lex_es m Y /\
    fit_init toward0 h {| fm_om := om; fm_len := List.length lex_es |} [] (OClass OLL) MDefault None eex_args [] = Ok f /\
    ft_min f = FMin mn None /\ List.length [/ 2] = nfree h (m_params m) /\
    (forall theta, positive_for [3%nat] lex_sol m Y theta <-> 0 < theta pa) /\
    (forall theta, defined_around [3%nat] lex_es lex_sol Y theta) /\
    minimises_among (fun z => positive_for [3%nat] lex_sol m Y (parameter_value h (m_params m) z)) (fun z => obj_value OLL h om (ft_obj f) z [])
      (execute_problem h mn DNone DNone) (nfree h (m_params m)) [/ 2] /\
    pack_output h (m_params m) [/ 2] = Ok [/ 2].
Proof.
  intros toward0.
  destruct (init_model oid (comps (V:=res nd) lex_es)) as [m|e] eqn:Hi; [|vm_compute in Hi; discriminate].
  assert (E1 : m_params m = [pa]) by (vm_compute in Hi; inversion Hi; reflexivity).
  assert (E2 : m_dep m = [vy]) by (vm_compute in Hi; inversion Hi; reflexivity).
  assert (E3 : m_indep m = [vx]) by (vm_compute in Hi; inversion Hi; reflexivity).
  assert (Hm : model_of oid lex_es m).
  { split; [exact oid_ok|]. split; [apply nodupb_iff; vm_compute; reflexivity|]. split; [decide_model|]. split; [decide_model|]. split; [exact lex_plain|].
    split; [|exact Hi]. intros k e [Hq|[]]; inv Hq; cbn; repeat split; discriminate. }
  assert (HJ : has_jacobian (fun e => e) oid m).
  { vm_compute in Hi. inversion Hi; subst m. eexists. split; [vm_compute; reflexivity|decide_model]. }
  assert (HH : ArrSpec.has_hessian (fun e => e) oid m).
  { vm_compute in Hi. inversion Hi; subst m. eexists. split; [vm_compute; reflexivity|decide_model]. }
  clear Hi. destruct inverts_exists as (iv & Hiv).
  assert (Hf : exists f mn, fit_init toward0 (eex_heap false) {| fm_om := om_of KModel (fun e => e) oid m; fm_len := List.length lex_es |} [] (OClass OLL) MDefault None eex_args [] = Ok f /\
    ft_min f = FMin mn None).
  { unfold om_of. rewrite E1, E2, E3. eexists _, _; (split; [reflexivity|reflexivity]). }
  destruct Hf as (f & mn & Hf & Hmn). exists m, f, mn, iv.
  split; [exact Hm|]. split; [exact lex_means|]. split; [exact E1|]. split; [exact E2|]. split; [exact HJ|]. split; [exact HH|]. split; [exact Hiv|]. cbv zeta.
  assert (Dx : data_for (om_of KModel (fun e => e) oid m) [] eex_args [] vx = DArr (aex_vec 1 2 3)) by (unfold data_for, argument_names, om_of; cbn [om_indep om_dep]; rewrite E2, E3; reflexivity).
  assert (Yx : the_data (om_of KModel (fun e => e) oid m) [] eex_args [] vx = Some (aex_vec 1 2 3)) by (unfold the_data; rewrite Dx; reflexivity).
  assert (Hg : good_names (om_of KModel (fun e => e) oid m) []).
  { unfold good_names, argument_names, om_of. cbn [om_indep om_dep]. rewrite E2, E3. split; [apply nodupb_iff; vm_compute; reflexivity|]. split; [intros c []|apply nodupb_iff; vm_compute; reflexivity]. }
  assert (HG : inputs_on_grid [3%nat] m (the_data (om_of KModel (fun e => e) oid m) [] eex_args [])).
  { split; [discriminate|]. split; [intros [H|[]]; discriminate|].
    rewrite E3. intros v [<-|[]]. rewrite Yx. eexists. split; [reflexivity|]. split; [reflexivity|right; reflexivity]. }
  assert (Hcov : covers_data [3%nat] lex_es m (the_data (om_of KModel (fun e => e) oid m) [] eex_args [])).
  { split; [rewrite E2; discriminate|]. rewrite E2. intros v [<-|[]]. exists vx, (aex_vec 1 2 3). split; [|split; [rewrite E3; left; reflexivity|split; [exact Yx|reflexivity]]].
    apply t_step; eexists; split; [apply ArrObj.in_comps; left; reflexivity|left; simpl; auto]. }
  assert (Hl : List.length [/ 2] = nfree (eex_heap false) (m_params m)) by (rewrite E1; reflexivity).
  set (Y := the_data (om_of KModel (fun e => e) oid m) [] eex_args []) in *.
  assert (Hs : forall theta i, lex_sol (at_data Y theta i) vy = theta pa * exp (theta pa * elem (aex_vec 1 2 3) i * -1)).
  { intros theta i. assert (A1 : at_data Y theta i vx = elem (aex_vec 1 2 3) i) by (unfold at_data; cbn [is_par vx]; rewrite Yx; reflexivity).
    rewrite <- A1. reflexivity. }
  assert (Hpos : forall theta, positive_for [3%nat] lex_sol m Y theta <-> 0 < theta pa).
  { intros theta. split.
    - intros H. assert (Hv : In vy (m_dep m)) by (rewrite E2; left; reflexivity). specialize (H vy [0%nat] Hv (or_introl eq_refl)). rewrite Hs in H.
      pose proof (exp_pos (theta pa * elem (aex_vec 1 2 3) [0%nat] * -1)). nra.
    - intros Ht v i Hv _. rewrite E2 in Hv. destruct Hv as [<-|[]]. rewrite Hs. apply Rmult_lt_0_compat; [exact Ht|apply exp_pos]. }
  assert (Hll : forall theta, 0 < theta pa -> log_likelihood [3%nat] lex_sol m Y theta = 3 * (ln (theta pa) - 2 * theta pa)).
  { intros theta Ht. unfold log_likelihood. rewrite E2. change (indices [3%nat]) with [[0%nat]; [1%nat]; [2%nat]]. cbn [map Rsum]. rewrite !Hs.
    change (elem (aex_vec 1 2 3) [0%nat]) with 1. change (elem (aex_vec 1 2 3) [1%nat]) with 2. change (elem (aex_vec 1 2 3) [2%nat]) with 3.
    rewrite !ln_mult by (auto using exp_pos). rewrite !ln_exp. ring. }
  split; [exact Hg|]. split; [exact HG|]. split; [exact Hcov|]. split; [exact Hf|]. split; [exact Hmn|]. split; [exact Hl|]. split; [exact Hpos|].
  split. { intros theta. exists 1. split; [lra|]. intros th _ i k e _ [Hq|[]]; inv Hq; cbn; auto. }
  split; [|rewrite E1; reflexivity].
  assert (Hne : m_params m <> []) by (rewrite E1; discriminate).
  assert (Hgc : good_constraints lex_es []) by (intros u []).
  assert (Hic : init_constraints KModel (fun e => e) ESub ENeg oid m [] = Ok []) by reflexivity.
  assert (Hcg : constraints_on_grid [3%nat] lex_es [] Y) by (intros u v []).
  destruct (C71_problem (fun e => e) ESub ENeg oid oid lex_es m lex_sol [] toward0 (eex_heap false) [] MDefault None eex_args [] f [3%nat] simp_id_ok eex_arith oid_ok Hm lex_means
    Hne HJ Hgc Hic Hg (NoDup_nil _) HG Hcov Hcg (or_introl eq_refl) Hf) as (mn' & local' & Hmn' & _ & _ & _ & Hb & Hv & _). rewrite Hmn in Hmn'. injection Hmn' as <- <-.
  assert (Hpa : parameter_value (eex_heap false) (m_params m) [/ 2] pa = / 2) by (rewrite E1; reflexivity).
  split; [exact Hl|]. split.
  { apply Hb; [exact Hl|]. split; [|intros u i []]. intros p Hp. rewrite E1 in Hp. destruct Hp as [<-|[]]. change (p_fixed (eex_heap false pa)) with false. cbv iota. rewrite Hpa.
    split; cbn; [intros l Hq; injection Hq as <-; lra|discriminate]. }
  assert (Hp0 : positive_for [3%nat] lex_sol m Y (parameter_value (eex_heap false) (m_params m) [/ 2])) by (apply Hpos; rewrite Hpa; lra).
  split; [exact Hp0|]. intros x' r r' Hl' _ Hp' Hr Hr'. rewrite (Hv _ Hl Hp0) in Hr. rewrite (Hv x' Hl' Hp') in Hr'. injection Hr as <-. injection Hr' as <-. rewrite !elem_scalar.
  rewrite (proj2 (likelihood_log KModel (fun e => e) oid m lex_sol [] eex_args [] [3%nat] _ Hp0)), (proj2 (likelihood_log KModel (fun e => e) oid m lex_sol [] eex_args [] [3%nat] _ Hp')).
  fold Y. apply Hpos in Hp'. rewrite !Hll by (try exact Hp'; rewrite Hpa; lra). rewrite Hpa. pose proof (log_le_half _ Hp'). lra.
Qed.

(** ** Example for C72: minimise [{y: a**2 + b**2}] with the constraint [a + b >= 2]; the answer is [a = b = 1]. *)
Definition mex_es : dict sym expr := [(vy, EAdd (EPow (ESym pa) 2) (EPow (ESym pb) 2))].
Definition mex_sol (inp : sym -> R) (s : sym) : R := if eq_dec s vy then inp pa * (inp pa * 1) + inp pb * (inp pb * 1) else inp s.
Definition mex_us : list user_con := [{| uc_name := SVar "w1"; uc_rel := RGe; uc_left := EAdd (ESym pa) (ESym pb); uc_right := ENum 2 |}].
Lemma mex_means : means mex_es mex_sol.
Proof.
  intros inp. split.
  - intros k e [Hq|[]]; inv Hq; cbn; reflexivity.
  - intros s Hs. unfold mex_sol. destruct (eq_dec s vy) as [->|]; [exfalso; apply Hs; left; reflexivity|reflexivity].
Qed.
Lemma mex_plain : plain_model (comps (V:=R) mex_es).
Proof.
  split.
  - intros k Hk. simpl in Hk. destruct Hk as [<-|[]]; eexists; reflexivity.
  - intros k s Hr. apply refers_list in Hr as (c & Hin & Hs). simpl in Hin.
    destruct Hin as [Hq|[]]; inv Hq; simpl in Hs; decompose [or] Hs; subst; try reflexivity; contradiction.
Qed.
Example C72_example : forall toward0,
  exists m cons f mn inv, model_of oid mex_es m /\ means mex_es mex_sol /\ m_params m = [pa; pb] /\ m_dep m = [vy] /\ m_indep m = [] /\
    has_jacobian (fun e => e) oid m /\ ArrSpec.has_hessian (fun e => e) oid m /\ inverts inv /\
    good_constraints mex_es mex_us /\ init_constraints KModel (fun e => e) ESub ENeg oid m mex_us = Ok cons /\ List.length cons = 1%nat /\
    let om := om_of KModel (fun e => e) oid m in
    let Y := the_data om cons [] [] in
    let h := eex_heap false in
    good_names om cons /\ inputs_on_grid [1%nat] m Y /\ constraints_on_grid [1%nat] mex_es mex_us Y /\ model_chosen om cons [] [] mex_es ODefault MDefault vy /\
    fit_init toward0 h {| fm_om := om; fm_len := List.length mex_es |} cons ODefault MDefault None [] [] = Ok f /\
    ft_min f = FMin mn None /\ mi_class mn = SLSQP /\ List.length [1; 1] = nfree h (m_params m) /\
    (forall theta, constraints_hold [1%nat] mex_sol mex_us Y theta <-> 2 <= theta pa + theta pb) /\
    (forall theta, model_defined_around mex_es mex_sol theta) /\
    minimises (fun z => obj_value OMM h om (ft_obj f) z []) (execute_problem h mn DNone DNone) (nfree h (m_params m)) [1; 1] /\
    pack_output h (m_params m) [1; 1] = Ok [1; 1].
Proof.
  intros toward0.
  destruct (init_model oid (comps (V:=res nd) mex_es)) as [m|e] eqn:Hi; [|vm_compute in Hi; discriminate].
  assert (E1 : m_params m = [pa; pb]) by (vm_compute in Hi; inversion Hi; reflexivity).
  assert (E2 : m_dep m = [vy]) by (vm_compute in Hi; inversion Hi; reflexivity).
  assert (E3 : m_indep m = []) by (vm_compute in Hi; inversion Hi; reflexivity).
  assert (Hm : model_of oid mex_es m).
  { split; [exact oid_ok|]. split; [apply nodupb_iff; vm_compute; reflexivity|]. split; [decide_model|]. split; [decide_model|]. split; [exact mex_plain|].
    split; [|exact Hi]. intros k e [Hq|[]]; inv Hq; cbn; repeat split; discriminate. }
  assert (HJ : has_jacobian (fun e => e) oid m).
  { vm_compute in Hi. inversion Hi; subst m. eexists. split; [vm_compute; reflexivity|decide_model]. }
  assert (HH : ArrSpec.has_hessian (fun e => e) oid m).
  { vm_compute in Hi. inversion Hi; subst m. eexists. split; [vm_compute; reflexivity|decide_model]. }
  destruct (as_constraint ESub ENeg (SVar "w1") oid (CRel RGe (EAdd (ESym pa) (ESym pb)) (ENum 2)) m) as [[c1 t1]|e] eqn:A1; [|vm_compute in Hi; inversion Hi; subst m; vm_compute in A1; discriminate].
  assert (F1 : t1 = RGe /\ m_params c1 = [pa; pb] /\ m_dep c1 = [SVar "w1"] /\ m_indep c1 = []) by (vm_compute in Hi; inversion Hi; subst m; vm_compute in A1; inversion A1; auto).
  destruct F1 as (-> & F11 & F12 & F13). clear Hi. destruct inverts_exists as (iv & Hiv).
  set (cons := [{| fc_rel := RGe; fc_om := om_of KModel (fun e => e) oid c1 |}]).
  assert (Hic : init_constraints KModel (fun e => e) ESub ENeg oid m mex_us = Ok cons).
  { unfold init_constraints, mex_us. cbn [mapM bind uc_name uc_rel uc_left uc_right]. rewrite A1. reflexivity. }
  assert (Hf : exists f mn, fit_init toward0 (eex_heap false) {| fm_om := om_of KModel (fun e => e) oid m; fm_len := List.length mex_es |} cons ODefault MDefault None [] [] = Ok f /\
    ft_min f = FMin mn None /\ mi_class mn = SLSQP).
  { unfold cons, om_of. rewrite E1, E2, E3, F11, F12, F13. eexists _, _; (split; [reflexivity|split; reflexivity]). }
  destruct Hf as (f & mn & Hf & Hmn & Hcl). exists m, cons, f, mn, iv.
  split; [exact Hm|]. split; [exact mex_means|]. split; [exact E1|]. split; [exact E2|]. split; [exact E3|]. split; [exact HJ|]. split; [exact HH|]. split; [exact Hiv|].
  assert (Hg : good_names (om_of KModel (fun e => e) oid m) cons).
  { unfold good_names, argument_names, cons, om_of. cbn [om_indep om_dep fc_om map]. rewrite E2, E3, F12, F13.
    split; [apply nodupb_iff; vm_compute; reflexivity|]. split; [intros c [<-|[]]; cbn [fc_om om_indep om_dep]; rewrite ?F12, ?F13; apply nodupb_iff; vm_compute; reflexivity|apply nodupb_iff; vm_compute; reflexivity]. }
  assert (Hgc : good_constraints mex_es mex_us).
  { intros u [<-|[]]. split; [|cbn; auto]. cbn [uc_left uc_right uc_name].
    split; [eexists; reflexivity|]; split; [decide_model|]; split; [decide_model|]; split; [decide_model|]; split; [decide_model|];
         intros s [Hs|Hs]; apply mentionsl_ok in Hs; cbn in Hs; intuition (subst; reflexivity). }
  set (Y := the_data (om_of KModel (fun e => e) oid m) cons [] []).
  assert (Hcg : constraints_on_grid [1%nat] mex_es mex_us Y).
  { intros u v [<-|[]] Hv Hp Hnk; cbn [uc_left uc_right] in Hv; exfalso; rewrite !mentionsl_ok in Hv; cbn in Hv; intuition (subst; try discriminate). }
  assert (HG : inputs_on_grid [1%nat] m Y) by (split; [discriminate|]; split; [intros [H|[]]; discriminate|]; rewrite E3; intros v []).
  assert (Hoc : model_chosen (om_of KModel (fun e => e) oid m) cons [] [] mex_es ODefault MDefault vy).
  { right. split; [reflexivity|]. split; [discriminate|]. split; [reflexivity|]. unfold argument_names, cons, om_of. cbn [om_indep om_dep fc_om map]. rewrite E2, E3, F12, F13. reflexivity. }
  assert (Hch : forall theta, constraints_hold [1%nat] mex_sol mex_us Y theta <-> 2 <= theta pa + theta pb).
  { intros theta. assert (B : forall i, mex_sol (at_data Y theta i) pa + mex_sol (at_data Y theta i) pb = theta pa + theta pb) by reflexivity. split.
    - intros Hc. pose proof (Hc _ [0%nat] (or_introl eq_refl) (or_introl eq_refl)) as H1. cbn [uc_rel uc_left uc_right holds eval a_num a_add Ralg] in H1. rewrite B in H1. exact H1.
    - intros K u i [<-|[]] _. cbn [uc_rel uc_left uc_right holds eval a_num a_add Ralg]. rewrite B. exact K. }
  assert (Hl : List.length [1; 1] = nfree (eex_heap false) (m_params m)) by (rewrite E1; reflexivity).
  split; [exact Hgc|]. split; [exact Hic|]. split; [reflexivity|]. cbv zeta. split; [exact Hg|]. split; [exact HG|]. split; [exact Hcg|]. split; [exact Hoc|]. split; [exact Hf|].
  split; [exact Hmn|]. split; [exact Hcl|]. split; [exact Hl|]. split; [exact Hch|].
  split. { intros theta. exists 1. split; [lra|]. intros th _ k e [Hq|[]]; inv Hq; cbn; auto. }
  split; [|rewrite E1; reflexivity].
  assert (Hne : m_params m <> []) by (rewrite E1; discriminate).
  destruct (C72_problem (fun e => e) ESub ENeg oid oid mex_es m mex_sol mex_us toward0 (eex_heap false) cons ODefault MDefault None [] [] f [1%nat] vy simp_id_ok eex_arith oid_ok Hm mex_means
    Hne HJ E3 E2 Hgc Hic Hg (NoDup_nil _) HG Hcg Hoc (or_introl eq_refl) Hf) as (mn' & local' & Hmn' & _ & _ & _ & Hb & Hv & _). rewrite Hmn in Hmn'. injection Hmn' as <- <-.
  assert (Hpa : parameter_value (eex_heap false) (m_params m) [1; 1] pa = 1) by (rewrite E1; reflexivity).
  assert (Hpb : parameter_value (eex_heap false) (m_params m) [1; 1] pb = 1) by (rewrite E1; reflexivity).
  split; [exact Hl|]. split.
  { apply Hb; [exact Hl|]. split; [|apply Hch; rewrite Hpa, Hpb; lra]. intros p Hp. rewrite E1 in Hp. assert (Hw : forall v, 0 <= v -> within (eex_heap false) p v) by (intros v Hvv; split; cbn; [intros l Hq; injection Hq as <-; exact Hvv|discriminate]).
    destruct Hp as [<-|[<-|[]]]; [change (p_fixed (eex_heap false pa)) with false; cbv iota; rewrite Hpa; apply Hw; lra|]. rewrite Hpb.
    change (p_fixed (eex_heap false pb)) with false. cbv iota. apply Hw; lra. }
  intros x' r r' Hl' Hf' Hr Hr'. destruct (Hv _ Hl) as (q & Q1 & _ & Q2). destruct (Hv x' Hl') as (q' & Q1' & _ & Q2'). rewrite Hr in Q1. rewrite Hr' in Q1'. injection Q1 as <-. injection Q1' as <-.
  rewrite Q2, Q2'. apply Hb in Hf'; [|exact Hl']. destruct Hf' as [_ Hc']. apply Hch in Hc'.
  assert (Es : forall th, mex_sol th vy = th pa * (th pa * 1) + th pb * (th pb * 1)) by reflexivity. rewrite !Es, Hpa, Hpb.
  revert Hc'. generalize (parameter_value (eex_heap false) (m_params m) x' pa). generalize (parameter_value (eex_heap false) (m_params m) x' pb). intros b a Hab. pose proof (Rle_0_sqr (a - 1)). pose proof (Rle_0_sqr (b - 1)). unfold Rsqr in *. lra.
Qed.
