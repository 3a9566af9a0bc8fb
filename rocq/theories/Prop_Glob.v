(** * Prop_Glob: C89, fitting a symbolic model whose dependent variables have data of different shapes ("global" fits). *)
From Coq Require Import Reals Lra Lia.
From Coquelicot Require Import Coquelicot.
From Verif Require Import PyBase PyFacts Signature SignatureFacts Expr Model ModelSpec ExprR Jacobian JacAnalysis NumPy NumFacts Objective ObjSpec Minimizer MinSpec Fit FitSpec FitCov FitExample Cast ArrModel ArrSpec ConModel EndSpec EndMain GenSpec GenFit GlobSpec GlobMain GlobFit GlobDiff Decide Prop_Model Prop_Jacobian Prop_ArrModel.
From Verif Require ArrObj ArrMain ArrFacts MinFacts.
Local Open Scope R_scope.
Local Open Scope string_scope.
Local Open Scope list_scope.

Section Common.
  Context (simp : expr -> expr) (ord1 ord2 : list sym -> list sym) (es : dict sym expr) (m : amodel) (Y S : sym -> option nd) (sh : sym -> list nat).
  Let om := om_of KModel simp ord2 m.
  Lemma glob_callable : model_of ord1 es m -> callable om.
  Proof. intros Hm. split; [exact (ArrObj.om_interface simp ord1 ord2 es m m (ArrObj.built_self ord1 es m Hm) KModel)|apply ArrFacts.om_of_by_keyword]. Qed.
  Lemma glob_indep : on_grids es m Y sh -> data_matches om sh Y S -> om_indep om <> [].
  Proof. intros [_ H] (_ & _ & v & Hv & _). destruct (H v Hv) as (_ & x & _ & _ & Hx & _). cbn [om om_of om_indep]. intros E. rewrite E in Hx. destruct Hx. Qed.
End Common.

(** ** C89.  The problem handed to scipy: minimise half of the sum, over the dependent variables and the points of the data of each,
    of the squared weighted differences, over the free parameters inside their bounds, with the exact gradient.  Every dependent variable
    has its own grid [sh v]; the sets of independent data are the ones it uses. *)
Theorem C89_fit_problem : forall simp ord1 ord2 es m sol toward0 h o mc absolute args kw f sh,
  let om := om_of KModel simp ord2 m in
  let Y := the_data om [] args kw in
  let Sg := the_sigma om [] args kw in
  let chi2 := chi2_for sol m Y Sg in
  let ps := m_params m in
  simp_ok simp -> set_order ord2 -> model_of ord1 es m -> means es sol -> ps <> [] -> has_jacobian simp ord2 m ->
  good_names om [] -> NoDup (dkeys kw) -> on_grids es m Y sh -> data_matches om sh Y Sg ->
  objective_chosen o mc OLS -> suitable_class h ps mc ->
  fit_init toward0 h {| fm_om := om; fm_len := List.length es |} [] o mc absolute args kw = Ok f ->
  exists mn local, ft_min f = FMin mn local /\ chosen_class h om [] mc (mi_class mn) /\ ft_class f = OLS /\
    let pb := execute_problem h mn DNone DNone in
    pb_x0 pb = (match mi_class mn with DifferentialEvolution => None | _ => Some (map (fun p => p_value (h p)) (free_of_list h ps)) end) /\
    (forall x, List.length x = nfree h ps -> feasible pb x <-> allowed h m (parameter_value h ps x)) /\
    (forall x, List.length x = nfree h ps -> obj_value OLS h om (ft_obj f) x [] = Ok (scalar (/ 2 * chi2 (parameter_value h ps x)))) /\
    (uses_jacobian (mi_class mn) = true -> exists w, pb_jac pb = DFun w /\ forall x, List.length x = nfree h ps -> grids_defined es sol m sh Y (parameter_value h ps x) ->
      exists g, w x = Ok g /\ shp g = [nfree h ps] /\ forall i p, nth_error (free_of_list h ps) i = Some p ->
        derivative_in (fun theta => / 2 * chi2 theta) (parameter_value h ps x) p (val g [i])).
Proof.
  intros simp ord1 ord2 es m sol toward0 h o mc absolute args kw f sh om Y Sg chi2 ps Hs Ho2 Hm Hsol Hne (J & HJ & HnJ) Hg Hkw Hgr Hdm Hoc Hsu Hf.
  pose proof (glob_callable simp ord1 ord2 es m Hm) as Hcal. fold om in Hcal.
  destruct (gchosen om (List.length es) toward0 h o mc absolute args kw f sh Hg Hkw Hf Hdm Hoc (or_introl (glob_indep simp ord2 es m Y Sg sh Hgr Hdm))) as (Hcl & Hmade & Hoi).
  destruct (gmin_made om (List.length es) toward0 h o mc absolute args kw f Hf Hsu) as (mn & local & Hmn & Hcc & Hini & Hnm & Hb).
  pose proof (fun theta => glob_predicts simp ord1 ord2 es m sol Ho2 Hm Hsol Y sh Hgr (proj1 Hdm) KModel theta) as HP.
  exists mn, local. split; [exact Hmn|]. split; [exact Hcc|]. split; [exact Hcl|]. cbv zeta. split; [|split; [|split]].
  - exact (gstart om h f mn Hini).
  - intros x Hl. exact (gfeasible om h f Hcal mn x Hini Hb Hl).
  - intros x Hl. exact (gobj om (List.length es) toward0 h o mc absolute args kw f sh Hcal Hg Hkw Hf Hdm Hmade x _ Hl (HP _)).
  - intros Hu. destruct (ggradient om (List.length es) toward0 h o mc absolute args kw f sh Hcal Hg Hkw Hf Hdm Hcl Hmade mn Hini Hnm ltac:(discriminate) Hu) as (w & Hw & Hr).
    exists w. split; [exact Hw|]. intros x Hl Hdef. destruct (ArrMain.solJ_exists simp ord1 ord2 es m J Hs Ho2 Hm HJ HnJ) as (solJ & HsJ).
    destruct (Hr x _ _ Hl (HP _) (glob_predicts_jac simp ord1 ord2 es m sol Hs Ho2 Hm Hsol Y sh Hgr (proj1 Hdm) J solJ HJ HnJ HsJ Hne KModel (parameter_value h ps x) ltac:(discriminate))) as (g & Ew & Sgh & Hval).
    exists g. split; [exact Ew|]. split; [exact Sgh|]. intros i p Hi.
    assert (Hp : In p ps) by (apply nth_error_In in Hi; apply filter_In in Hi; tauto). pose proof Hp as Hp'. apply In_nth_error in Hp' as (k & Hk).
    rewrite (Hval i k p Hi Hk).
    match goal with |- derivative_in ?F ?t ?q ?d => match goal with |- _ => replace d with (chi2_gradient (fun v i => sol (at_data Y t i) v) (fun v i => DJ Y solJ t v i q) (m_dep m) Y Sg) end end.
    + exact (glob_chi2_derive simp ord1 ord2 es m sol Hs Ho2 Hm Hsol Y Sg sh (proj1 (proj2 Hdm)) J solJ HJ HsJ (parameter_value h ps x) p Hp Hdef).
    + unfold DJk. change (m_params m) with ps. rewrite Hk. reflexivity.
Qed.
Print Assumptions C89_fit_problem.

(** ** If scipy answers with a best vector of that problem, the reported values are the least squares fit to all data sets together. *)
Theorem C89_best_fit : forall simp ord1 ord2 es m sol toward0 h o mc absolute args kw f sh mn local x popt,
  let om := om_of KModel simp ord2 m in
  let Y := the_data om [] args kw in
  let Sg := the_sigma om [] args kw in
  let chi2 := chi2_for sol m Y Sg in
  let ps := m_params m in
  set_order ord2 -> model_of ord1 es m -> means es sol ->
  good_names om [] -> NoDup (dkeys kw) -> on_grids es m Y sh -> data_matches om sh Y Sg ->
  objective_chosen o mc OLS -> suitable_class h ps mc ->
  fit_init toward0 h {| fm_om := om; fm_len := List.length es |} [] o mc absolute args kw = Ok f ->
  ft_min f = FMin mn local ->
  minimises (fun z => obj_value OLS h om (ft_obj f) z []) (execute_problem h mn DNone DNone) (nfree h ps) x ->
  pack_output h ps x = Ok popt ->
  let theta := reported ps popt in
  allowed h m theta /\ forall theta', allowed h m theta' -> chi2 theta <= chi2 theta'.
Proof.
  intros simp ord1 ord2 es m sol toward0 h o mc absolute args kw f sh mn local x popt om Y Sg chi2 ps Ho2 Hm Hsol Hg Hkw Hgr Hdm Hoc Hsu Hf Hmn Hmin Hpk.
  pose proof (glob_callable simp ord1 ord2 es m Hm) as Hcal. fold om in Hcal.
  destruct (gchosen om (List.length es) toward0 h o mc absolute args kw f sh Hg Hkw Hf Hdm Hoc (or_introl (glob_indep simp ord2 es m Y Sg sh Hgr Hdm))) as (Hcl & Hmade & Hoi).
  destruct (gmin_made om (List.length es) toward0 h o mc absolute args kw f Hf Hsu) as (mn' & local' & Hmn' & Hcc & Hini & Hnm & Hb).
  rewrite Hmn in Hmn'. injection Hmn' as <- <-.
  exact (gbest om (List.length es) toward0 h o mc absolute args kw f sh Hcal Hg Hkw Hf Hdm Hcl Hmade mn x popt (fun theta v i => sol (at_data Y theta i) v) Hini Hb
    (fun theta _ => glob_predicts simp ord1 ord2 es m sol Ho2 Hm Hsol Y sh Hgr (proj1 Hdm) KModel theta) Hmin Hpk).
Qed.
Print Assumptions C89_best_fit.

(** ** The result.  [execute] succeeds; the covariance matrix is [s2] times the inverse of the matrix [H] of second derivatives of half of
    chi squared at the reported values, or, if that is singular, of [K = J^T W J], and None if both are.  [s2] is 1 for absolute sigmas, otherwise
    chi squared divided by the number of data points, where data sets of the same shape are counted once, minus the number of parameters. *)
Theorem C89_covariance : forall inv simp ord1 ord2 es m sol toward0 h o mc absolute args kw f sh x,
  let om := om_of KModel simp ord2 m in
  let Y := the_data om [] args kw in
  let Sg := the_sigma om [] args kw in
  let chi2 := chi2_for sol m Y Sg in
  let ps := m_params m in
  let n := List.length ps in
  simp_ok simp -> set_order ord2 -> model_of ord1 es m -> means es sol -> ps <> [] -> ArrSpec.has_hessian simp ord2 m ->
  good_names om [] -> NoDup (dkeys kw) -> on_grids es m Y sh -> data_matches om sh Y Sg -> no_bare_numbers om [] args kw ->
  objective_chosen o mc OLS ->
  fit_init toward0 h {| fm_om := om; fm_len := List.length es |} [] o mc absolute args kw = Ok f ->
  inverts inv -> List.length x = nfree h ps ->
  exists popt cov H K, fit_execute inv h om f x = Ok (popt, cov) /\ pack_output h ps x = Ok popt /\
    let theta := reported ps popt in
    let s2 := variance_scale (ft_absolute f) (chi2 theta) (INR (different_sizes m Y) - INR n) in
    square n H /\ square n K /\
    ((exists C, cov = Some C /\ scaled_inverse n s2 H C) \/ (singular n H /\ inverse_or_none n s2 K cov)) /\
    (grids_defined_around es sol m sh Y theta -> symmetric n H /\ forall p q k l, nth_error ps k = Some p -> nth_error ps l = Some q ->
       second_derivative_in (fun th => / 2 * chi2 th) theta p q (mat H k l)) /\
    (grids_defined es sol m sh Y theta -> forall p q k l, nth_error ps k = Some p -> nth_error ps l = Some q ->
       exists Dp Dq, (forall v i, In v (m_dep m) -> In i (indices (sh v)) ->
          derivative_in (fun th => sol (at_data Y th i) v) theta p (Dp v i) /\
          derivative_in (fun th => sol (at_data Y th i) v) theta q (Dq v i)) /\
        mat K k l = weighted_products Dp Dq (m_dep m) Y Sg).
Proof.
  intros inv simp ord1 ord2 es m sol toward0 h o mc absolute args kw f sh x om Y Sg chi2 ps n Hs Ho2 Hm Hsol Hne (HI & HHI & HnH) Hg Hkw Hgr Hdm Hbare Hoc Hf Hinv Hl.
  destruct (ArrMain.H_gives_J simp ord1 ord2 es m HI Hs Ho2 Hm HHI HnH) as (J & solJ & solH & HJ & HnJ & HsJ & HsH).
  pose proof (glob_callable simp ord1 ord2 es m Hm) as Hcal. fold om in Hcal.
  destruct (gchosen om (List.length es) toward0 h o mc absolute args kw f sh Hg Hkw Hf Hdm Hoc (or_introl (glob_indep simp ord2 es m Y Sg sh Hgr Hdm))) as (Hcl & Hmade & Hoi).
  destruct (MinFacts.pack_ok h ps x Hl) as (popt0 & Hpk0 & _). pose (theta := reported ps popt0).
  assert (Ht : forall p, In p ps -> parameter_value h ps x p = theta p) by (intros p Hp; symmetry; exact (greported_is h ps (gnodup om Hcal) x popt0 p (gnames om Hcal) Hl Hpk0 Hp)).
  destruct (gcovariance_exact om (List.length es) toward0 h o mc absolute args kw f sh Hcal Hg Hkw Hf Hdm Hcl Hmade Hbare Hoi inv x theta _ _ _ Hinv Hl Ht
    (glob_predicts simp ord1 ord2 es m sol Ho2 Hm Hsol Y sh Hgr (proj1 Hdm) KModel theta)
    (glob_predicts_jac simp ord1 ord2 es m sol Hs Ho2 Hm Hsol Y sh Hgr (proj1 Hdm) J solJ HJ HnJ HsJ Hne KModel theta ltac:(discriminate))
    (glob_predicts_hess simp ord1 ord2 es m sol Hs Ho2 Hm Hsol Y sh Hgr (proj1 Hdm) J HJ HI solH HHI HnH HsH Hne theta))
    as (popt & cov & H & K & Ex & Hpk & SH & SK & Hc & HvH & HvK).
  assert (popt = popt0) by (change (om_params om) with ps in Hpk; congruence). subst popt0.
  exists popt, cov, H, K. split; [exact Ex|]. split; [exact Hpk|]. cbv zeta. fold theta. split; [exact SH|]. split; [exact SK|]. split; [|split].
  - rewrite (gcount om (List.length es) toward0 h o mc absolute args kw f sh Hg Hkw Hf Hdm Hbare) in Hc. exact Hc.
  - intros Hdef. assert (Hent : forall p q k l, nth_error ps k = Some p -> nth_error ps l = Some q ->
      mat H k l = chi2_hessian (fun v i => sol (at_data Y theta i) v) (fun v i => DJ Y solJ theta v i p) (fun v i => DJ Y solJ theta v i q) (fun v i => DH Y solH theta v i p q) (m_dep m) Y Sg).
    { intros p q k l Hk Hl'. rewrite (HvH k l) by (apply nth_error_Some; change (om_params om) with ps; congruence). unfold DJk, DHk. fold ps. rewrite Hk, Hl'. reflexivity. }
    split.
    + intros k l Hk Hl'. destruct (nth_error ps k) as [p|] eqn:Ek; [|apply nth_error_None in Ek; unfold n in Hk; lia]. destruct (nth_error ps l) as [q|] eqn:El; [|apply nth_error_None in El; unfold n in Hl'; lia].
      rewrite (Hent p q k l Ek El), (Hent q p l k El Ek). unfold chi2_hessian. apply Rsum_ext. intros v Hv. destruct (Y v) as [y|] eqn:Hy; [|reflexivity]. destruct (Sg v) as [s|]; [|reflexivity].
      apply Rsum_ext. intros i Hi. destruct Hdm as (_ & Hdd & _). destruct (Hdd v y Hv Hy) as (Esh & _). rewrite Esh in Hi.
      rewrite (glob_sym simp ord1 ord2 es m sol Hs Ho2 Hm Hsol Y sh J solJ HJ HnJ HsJ HI solH HHI HsH theta Hdef v i p q Hv Hi (nth_error_In _ _ Ek) (nth_error_In _ _ El)).
      unfold Rdiv. ring.
    + intros p q k l Ek El. rewrite (Hent p q k l Ek El).
      exact (glob_chi2_second simp ord1 ord2 es m sol Hs Ho2 Hm Hsol Y Sg sh (proj1 (proj2 Hdm)) J solJ HJ HnJ HsJ HI solH HHI HsH theta Hdef p q (nth_error_In _ _ Ek) (nth_error_In _ _ El)).
  - intros Hdef p q k l Ek El. exists (fun v i => DJ Y solJ theta v i p), (fun v i => DJ Y solJ theta v i q). split.
    + intros v i Hv Hi. split; apply (glob_derive simp ord1 ord2 es m sol Hs Ho2 Hm Hsol Y sh J solJ HJ HsJ theta v i); auto; eapply nth_error_In; eassumption.
    + rewrite (HvK k l) by (apply nth_error_Some; change (om_params om) with ps; congruence). unfold DJk. fold ps. rewrite Ek, El. reflexivity.
Qed.
Print Assumptions C89_covariance.

(** ** Example: [{y: a*x, z: b*w + a}] with three points for [y], two for [z]; [a = 2, b = 5] fits exactly. *)
Definition vw : sym := SVar "w".
Definition glx_es : dict sym expr := [(vy, EMul (ESym pa) (ESym vx)); (vz, EAdd (EMul (ESym pb) (ESym vw)) (ESym pa))].
Definition glx_sol (inp : sym -> R) (s : sym) : R :=
  if eq_dec s vy then inp pa * inp vx else if eq_dec s vz then inp pb * inp vw + inp pa else inp s.
Definition glx_two (a b : R) : nd := {| shp := [2%nat]; val := fun i => match i with [0%nat] => a | _ => b end |}.
Definition glx_kw : dict string datum := [("x", DArr (aex_vec 1 2 3)); ("y", DArr (aex_vec 2 4 6)); ("w", DSeq (glx_two 1 2)); ("z", DSeq (glx_two 7 12)); ("sigma_z", DNum 2)].
Definition glx_sh (v : sym) : list nat := if eq_dec v vy then [3%nat] else [2%nat].
Definition glx_heap : heap := fun p => {| p_value := 1; p_min := Some 0; p_max := None; p_fixed := false |}.
Lemma glx_refers k s : refers (comps (V:=R) glx_es) k s -> (k = vy /\ (s = pa \/ s = vx)) \/ (k = vz /\ (s = pb \/ s = vw \/ s = pa)).
Proof.
  intros Hr. apply refers_list in Hr as (c & Hin & Hs). simpl in Hin.
  destruct Hin as [Hq|[Hq|[]]]; inv Hq; simpl in Hs; decompose [or] Hs; subst; auto 6; contradiction.
Qed.
Lemma glx_uses k s : uses glx_es k s -> (k = vy /\ (s = pa \/ s = vx)) \/ (k = vz /\ (s = pb \/ s = vw \/ s = pa)).
Proof.
  intros H. induction H as [k s Hr|k y s _ IH1 _ IH2]; [exact (glx_refers k s Hr)|]. exfalso.
  destruct IH1 as [(_ & H1)|(_ & H1)], IH2 as [(H2 & _)|(H2 & _)]; subst; decompose [or] H1; discriminate.
Qed.
Lemma glx_means : means glx_es glx_sol.
Proof.
  intros inp. split.
  - intros k e [H|[H|[]]]; injection H as <- <-; reflexivity.
  - intros s Hs. unfold glx_sol. destruct (eq_dec s vy) as [->|]; [exfalso; apply Hs; left; reflexivity|]. destruct (eq_dec s vz) as [->|]; [exfalso; apply Hs; right; left; reflexivity|reflexivity].
Qed.
Example C89_example : forall toward0, exists m f mn inv,
  let om := om_of KModel (fun e => e) oid m in
  let Y := the_data om [] [] glx_kw in
  model_of oid glx_es m /\ means glx_es glx_sol /\ m_params m = [pa; pb] /\ m_dep m = [vy; vz] /\ m_indep m = [vw; vx] /\
  has_jacobian (fun e => e) oid m /\ ArrSpec.has_hessian (fun e => e) oid m /\ inverts inv /\
  good_names om [] /\ NoDup (dkeys glx_kw) /\ on_grids glx_es m Y glx_sh /\ data_matches om glx_sh Y (the_sigma om [] [] glx_kw) /\ no_bare_numbers om [] [] glx_kw /\
  objective_chosen ODefault MDefault OLS /\ suitable_class glx_heap (m_params m) MDefault /\
  fit_init toward0 glx_heap {| fm_om := om; fm_len := List.length glx_es |} [] ODefault MDefault None [] glx_kw = Ok f /\
  ft_min f = FMin mn None /\ different_sizes m Y = 5%nat /\ (forall theta, grids_defined_around glx_es glx_sol m glx_sh Y theta) /\
  minimises (fun z => obj_value OLS glx_heap om (ft_obj f) z []) (execute_problem glx_heap mn DNone DNone) (nfree glx_heap (m_params m)) [2; 5] /\
  pack_output glx_heap (m_params m) [2; 5] = Ok [2; 5].
Proof.
  intros toward0.
  destruct (init_model oid (comps (V:=res nd) glx_es)) as [m|e] eqn:Hi; [|vm_compute in Hi; discriminate].
  assert (E1 : m_params m = [pa; pb]) by (vm_compute in Hi; inversion Hi; reflexivity).
  assert (E2 : m_dep m = [vy; vz]) by (vm_compute in Hi; inversion Hi; reflexivity).
  assert (E3 : m_indep m = [vw; vx]) by (vm_compute in Hi; inversion Hi; reflexivity).
  assert (Hplain : plain_model (comps (V:=R) glx_es)).
  { split; [intros k Hk; simpl in Hk; destruct Hk as [<-|[<-|[]]]; eexists; reflexivity|]. intros k s Hr. apply glx_refers in Hr as [(_ & H)|(_ & H)]; decompose [or] H; subst; reflexivity. }
  assert (Hm : model_of oid glx_es m).
  { split; [exact oid_ok|]. split; [apply nodupb_iff; vm_compute; reflexivity|]. split; [decide_model|]. split; [decide_model|]. split; [exact Hplain|].
    split; [|exact Hi]. intros k e [Hq|[Hq|[]]]; inv Hq; cbn; repeat split; discriminate. }
  assert (HJ : has_jacobian (fun e => e) oid m) by (vm_compute in Hi; inversion Hi; subst m; eexists; split; [vm_compute; reflexivity|decide_model]).
  assert (HH : ArrSpec.has_hessian (fun e => e) oid m) by (vm_compute in Hi; inversion Hi; subst m; eexists; split; [vm_compute; reflexivity|decide_model]).
  clear Hi. destruct inverts_exists as (iv & Hiv).
  assert (Hf : exists f mn, fit_init toward0 glx_heap {| fm_om := om_of KModel (fun e => e) oid m; fm_len := List.length glx_es |} [] ODefault MDefault None [] glx_kw = Ok f /\ ft_min f = FMin mn None).
  { unfold om_of. rewrite E1, E2, E3. eexists _, _. split; reflexivity. }
  destruct Hf as (f & mn & Hf & Hmn). exists m, f, mn, iv. cbv zeta.
  assert (Hdf : forall v, data_for (om_of KModel (fun e => e) oid m) [] [] glx_kw v =
    data_for {| om_params := [pa; pb]; om_indep := [vw; vx]; om_dep := [vy; vz]; om_names := map sp_name (m_sig m); om_call := arr_call oid m; om_jac := None; om_hess := None |} [] [] glx_kw v).
  { intros v. unfold data_for, argument_names, om_of. cbn [om_indep om_dep]. rewrite E2, E3. reflexivity. }
  set (om := om_of KModel (fun e => e) oid m) in *.
  assert (Dx : data_for om [] [] glx_kw vx = DArr (aex_vec 1 2 3)) by (rewrite Hdf; reflexivity).
  assert (Dw : data_for om [] [] glx_kw vw = DSeq (glx_two 1 2)) by (rewrite Hdf; reflexivity).
  assert (Dy : data_for om [] [] glx_kw vy = DArr (aex_vec 2 4 6)) by (rewrite Hdf; reflexivity).
  assert (Dz : data_for om [] [] glx_kw vz = DSeq (glx_two 7 12)) by (rewrite Hdf; reflexivity).
  assert (Dsy : data_for om [] [] glx_kw (sigma_of vy) = DataNone) by (rewrite Hdf; reflexivity).
  assert (Dsz : data_for om [] [] glx_kw (sigma_of vz) = DNum 2) by (rewrite Hdf; reflexivity).
  assert (Yx : the_data om [] [] glx_kw vx = Some (aex_vec 1 2 3)) by (unfold the_data; rewrite Dx; reflexivity).
  assert (Yw : the_data om [] [] glx_kw vw = Some (glx_two 1 2)) by (unfold the_data; rewrite Dw; reflexivity).
  assert (Yy : the_data om [] [] glx_kw vy = Some (aex_vec 2 4 6)) by (unfold the_data; rewrite Dy; reflexivity).
  assert (Yz : the_data om [] [] glx_kw vz = Some (glx_two 7 12)) by (unfold the_data; rewrite Dz; reflexivity).
  assert (Sy : the_sigma om [] [] glx_kw vy = Some {| shp := [3%nat]; val := fun _ => 1 |}) by (unfold the_sigma; rewrite Dy, Dsy; reflexivity).
  assert (Sz : the_sigma om [] [] glx_kw vz = Some {| shp := [2%nat]; val := fun _ => 2 |}) by (unfold the_sigma; rewrite Dz, Dsz; reflexivity).
  clear Hdf.
  assert (Hg : good_names om []).
  { unfold good_names, argument_names, om, om_of. cbn [om_indep om_dep]. rewrite E2, E3. split; [apply nodupb_iff; vm_compute; reflexivity|]. split; [intros c []|apply nodupb_iff; vm_compute; reflexivity]. }
  assert (Hk : NoDup (dkeys glx_kw)) by (apply nodupb_iff; reflexivity).
  assert (Ux : uses glx_es vy vx) by (apply Relation_Operators.t_step; apply refers_list; eexists; split; [left; reflexivity|right; left; reflexivity]).
  assert (Uw : uses glx_es vz vw) by (apply Relation_Operators.t_step; apply refers_list; eexists; split; [right; left; reflexivity|right; left; reflexivity]).
  assert (Hgr : on_grids glx_es m (the_data om [] [] glx_kw) glx_sh).
  { split.
    - intros k s a _ Hu Hs Ha. rewrite E3 in Hs. apply glx_uses in Hu as [(-> & Hu)|(-> & Hu)]; destruct Hs as [<-|[<-|[]]]; decompose [or] Hu; try discriminate.
      + rewrite Yx in Ha. injection Ha as <-. split; [reflexivity|right; reflexivity].
      + rewrite Yw in Ha. injection Ha as <-. split; [reflexivity|right; reflexivity].
    - intros v Hv. rewrite E2 in Hv. destruct Hv as [<-|[<-|[]]].
      + split; [discriminate|]. exists vx, (aex_vec 1 2 3). split; [exact Ux|]. rewrite E3. split; [right; left; reflexivity|]. split; [exact Yx|reflexivity].
      + split; [discriminate|]. exists vw, (glx_two 1 2). split; [exact Uw|]. rewrite E3. split; [left; reflexivity|]. split; [exact Yw|reflexivity]. }
  assert (Hdm : data_matches om glx_sh (the_data om [] [] glx_kw) (the_sigma om [] [] glx_kw)).
  { split; [|split].
    - intros v Hv. cbn [om om_of om_indep] in Hv. rewrite E3 in Hv. destruct Hv as [<-|[<-|[]]]; [rewrite Yw|rewrite Yx]; discriminate.
    - intros v y Hv Hy. cbn [om om_of om_dep] in Hv. rewrite E2 in Hv. destruct Hv as [<-|[<-|[]]].
      + rewrite Yy in Hy. injection Hy as <-. split; [reflexivity|]. rewrite Sy. eexists. split; [reflexivity|]. split; [reflexivity|]. intros i _. cbn. lra.
      + rewrite Yz in Hy. injection Hy as <-. split; [reflexivity|]. rewrite Sz. eexists. split; [reflexivity|]. split; [reflexivity|]. intros i _. cbn. lra.
    - exists vy. cbn [om om_of om_dep]. rewrite E2, Yy. split; [left; reflexivity|discriminate]. }
  assert (Hoc : objective_chosen ODefault MDefault OLS) by (split; [left; reflexivity|discriminate]).
  assert (Hsu : suitable_class glx_heap (m_params m) MDefault) by (left; reflexivity).
  assert (Hchi : forall theta, theta pa = 2 -> theta pb = 5 -> chi2_for glx_sol m (the_data om [] [] glx_kw) (the_sigma om [] [] glx_kw) theta = 0).
  { intros theta Ha Hb. unfold chi2_for. rewrite E2. cbn [map Rsum fold_right]. rewrite Yy, Yz, Sy, Sz.
    change (indices (shp (aex_vec 2 4 6))) with [[0%nat]; [1%nat]; [2%nat]]. change (indices (shp (glx_two 7 12))) with [[0%nat]; [1%nat]]. cbn [map Rsum fold_right].
    assert (Hpy : forall i, glx_sol (at_data (the_data om [] [] glx_kw) theta i) vy = 2 * elem (aex_vec 1 2 3) i).
    { intros i. change (glx_sol (at_data (the_data om [] [] glx_kw) theta i) vy) with (at_data (the_data om [] [] glx_kw) theta i pa * at_data (the_data om [] [] glx_kw) theta i vx).
      unfold at_data. cbn [is_par pa vx]. rewrite Yx. change (SPar "a") with pa. rewrite Ha. reflexivity. }
    assert (Hpz : forall i, glx_sol (at_data (the_data om [] [] glx_kw) theta i) vz = 5 * elem (glx_two 1 2) i + 2).
    { intros i. change (glx_sol (at_data (the_data om [] [] glx_kw) theta i) vz) with (at_data (the_data om [] [] glx_kw) theta i pb * at_data (the_data om [] [] glx_kw) theta i vw + at_data (the_data om [] [] glx_kw) theta i pa).
      unfold at_data. cbn [is_par pa pb vw]. rewrite Yw. change (SPar "a") with pa. change (SPar "b") with pb. rewrite Ha, Hb. reflexivity. }
    rewrite !Hpy, !Hpz.
    change (elem (aex_vec 1 2 3) [0%nat]) with 1. change (elem (aex_vec 1 2 3) [1%nat]) with 2. change (elem (aex_vec 1 2 3) [2%nat]) with 3.
    change (val (aex_vec 2 4 6) [0%nat]) with 2. change (val (aex_vec 2 4 6) [1%nat]) with 4. change (val (aex_vec 2 4 6) [2%nat]) with 6.
    change (elem (glx_two 1 2) [0%nat]) with 1. change (elem (glx_two 1 2) [1%nat]) with 2. change (val (glx_two 7 12) [0%nat]) with 7. change (val (glx_two 7 12) [1%nat]) with 12.
    replace (2 * 1 - 2) with 0 by ring. replace (2 * 2 - 4) with 0 by ring. replace (2 * 3 - 6) with 0 by ring. replace (5 * 1 + 2 - 7) with 0 by ring. replace (5 * 2 + 2 - 12) with 0 by ring.
    unfold Rdiv. rewrite !Rmult_0_l. ring. }
  split; [exact Hm|]. split; [exact glx_means|]. split; [exact E1|]. split; [exact E2|]. split; [exact E3|]. split; [exact HJ|]. split; [exact HH|]. split; [exact Hiv|].
  split; [exact Hg|]. split; [exact Hk|]. split; [exact Hgr|]. split; [exact Hdm|]. split.
  { intros v r Hv. cbn [om om_indep om_dep om_of] in Hv. rewrite E2, E3 in Hv. destruct Hv as [<-|[<-|[<-|[<-|[]]]]]; [rewrite Dw|rewrite Dx|rewrite Dy|rewrite Dz]; discriminate. }
  split; [exact Hoc|]. split; [exact Hsu|]. split; [exact Hf|]. split; [exact Hmn|]. split.
  { unfold different_sizes. rewrite E2. cbn [map concat]. rewrite Yy, Yz. reflexivity. }
  split.
  { intros theta. exists 1. split; [lra|]. intros th _ v i k e _ _ _ [Hq|[Hq|[]]]; inv Hq; cbn; auto. }
  split; [|rewrite E1; reflexivity].
  assert (Hne : m_params m <> []) by (rewrite E1; discriminate).
  destruct (C89_fit_problem (fun e => e) oid oid glx_es m glx_sol toward0 glx_heap ODefault MDefault None [] glx_kw f glx_sh simp_id_ok oid_ok Hm glx_means Hne HJ Hg Hk Hgr Hdm Hoc Hsu Hf)
    as (mn' & lc & Hmn' & _ & _ & _ & Hb & Hv & _). fold om in Hb, Hv. rewrite Hmn in Hmn'. injection Hmn' as <- <-.
  assert (Hl : List.length [2; 5] = nfree glx_heap (m_params m)) by (rewrite E1; reflexivity).
  assert (Hpa : parameter_value glx_heap (m_params m) [2; 5] pa = 2) by (rewrite E1; reflexivity).
  assert (Hpb : parameter_value glx_heap (m_params m) [2; 5] pb = 5) by (rewrite E1; reflexivity).
  split; [exact Hl|]. split.
  { apply Hb; [exact Hl|]. intros p Hp. rewrite E1 in Hp. assert (Hw : forall v, 0 <= v -> within glx_heap p v) by (intros v Hvv; split; cbn; [intros l Hq; injection Hq as <-; exact Hvv|discriminate]).
    change (p_fixed (glx_heap p)) with false. cbv iota. destruct Hp as [<-|[<-|[]]]; [rewrite Hpa|rewrite Hpb]; apply Hw; lra. }
  intros x' r r' Hl' _ Hr Hr'. rewrite (Hv [2; 5] Hl) in Hr. rewrite (Hv x' Hl') in Hr'. injection Hr as <-. injection Hr' as <-. rewrite !elem_scalar.
  rewrite (Hchi _ Hpa Hpb).
  match goal with |- / 2 * 0 <= / 2 * ?B => assert (HB : 0 <= B) end.
  { unfold chi2_for. assert (HS : forall (A : Type) (g : A -> R) l, (forall x, 0 <= g x) -> 0 <= Rsum (map g l)).
    { intros A g l Hgg. induction l as [|a l IH]; cbn; [lra|]. specialize (Hgg a). lra. }
    apply HS. intros v. destruct (the_data om [] [] glx_kw v); [|lra]. destruct (the_sigma om [] [] glx_kw v); [|lra]. apply HS. intros i. apply pow2_ge_0. }
  lra.
Qed.
Print Assumptions C89_example.
