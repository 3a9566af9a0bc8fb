(** * Prop_Twin: C91, a model with callables that compute the expressions of a symbolic model behaves like that model. *)
From Coq Require Import Reals Lra Lia.
From Coquelicot Require Import Coquelicot.
From Verif Require Import PyBase PyFacts Signature SignatureFacts Expr Model ModelSpec ModelFacts CallFacts ExprR Jacobian JacAnalysis NumPy NumFacts Objective ObjSpec Minimizer MinSpec Fit FitSpec FitCov FitExample Cast ArrModel ArrSpec ConModel EndSpec EndMain GenSpec GenFit GlobSpec GlobMain GlobFit NumModel NumSpec NumMain NumDepthSpec NumDepth NumFitSpec NumFit TwinSpec TwinMain Decide Prop_Model Prop_Jacobian Prop_ArrModel Prop_NumFit Prop_Glob.
From Verif Require ArrObj ArrFacts MinFacts.
Local Open Scope R_scope.
Local Open Scope string_scope.
Local Open Scope list_scope.

(** ** C67.  Dependent are the components with the longest chains of dependencies, interdependent all others that depend on anything. *)
Theorem C67_dependent_by_depth : forall V ord (items : dict sym (comp (V:=V))) user m,
  set_order ord -> proper_numerical items user -> init_numerical ord items user = Ok m ->
  (forall s, In s (m_dep m) <-> exists n, (0 < n)%nat /\ depends_down items user s n /\ forall t k, depends_down items user t k -> (k <= n)%nat) /\
  (forall s, In s (m_inter m) <-> (exists t, depends items user s t) /\ ~ In s (m_dep m)) /\
  alphabetical sname (m_dep m) /\ alphabetical sname (m_inter m).
Proof.
  intros V ord items user m Ho Hp Hi. destruct (num_classified ord items user m Ho Hp Hi) as (H1 & H2).
  destruct (nm_layer_lists ord items user m Ho Hi) as (_ & _ & _ & _ & _ & _ & H3 & H4). auto.
Qed.
Print Assumptions C67_dependent_by_depth.

(** ** C91.  The model has the same variables and parameters, in the same order, and the same signature as the symbolic one. *)
Theorem C91_same_arguments : forall V (A : alg V) ord1 ord1' (es : dict sym expr) (items : dict sym (comp (V:=V))) user (m m' : model (V:=V)),
  set_order ord1 -> set_order ord1' -> NoDup (dkeys es) -> no_self_reference (comps (V:=V) es) -> init_model ord1 (comps es) = Ok m ->
  proper_numerical items user -> init_numerical ord1' items user = Ok m' -> callables_for A es items user ->
  m_indep m' = m_indep m /\ m_params m' = m_params m /\ m_dep m' = m_dep m /\ m_inter m' = m_inter m /\ m_sig m' = m_sig m.
Proof.
  intros V A ord1 ord1' es items user m m' Ho1 Ho1' Hd Hs Hi Hp Hi' Ht.
  destruct (twin_lists A ord1 ord1' es items user m m' Ho1 Ho1' Hd Hs Hi Hp Hi' Ht) as (E1 & E2 & E3 & E4).
  pose proof (twin_signature A ord1 ord1' es items user m m' Ho1 Ho1' Hd Hs Hi Hp Hi' Ht). auto.
Qed.
Print Assumptions C91_same_arguments.

(** ** Calling either gives the same result. *)
Theorem C91_same_call : forall V (A : alg V) ord1 ord1' ord2 ord2' (es : dict sym expr) (items : dict sym (comp (V:=V))) user (m m' : model (V:=V)) inp args kw,
  set_order ord1 -> set_order ord1' -> set_order ord2 -> set_order ord2' ->
  NoDup (dkeys es) -> distinct_names (comps (V:=V) es) -> no_self_reference (comps (V:=V) es) -> init_model ord1 (comps es) = Ok m ->
  proper_numerical items user -> init_numerical ord1' items user = Ok m' -> callables_for A es items user ->
  supplies (named inp (m_indep m ++ m_params m)) args kw ->
  exists out, call A ord2 m args kw = Ok out /\ call A ord2' m' args kw = Ok out.
Proof.
  intros V A ord1 ord1' ord2 ord2' es items user m m' inp args kw Ho1 Ho1' Ho2 Ho2' Hd Hn Hs Hi Hp Hi' Ht Hsup.
  assert (Hdd : is_dict (comps (V:=V) es)) by (unfold is_dict; rewrite ArrObj.dkeys_comps; exact Hd).
  assert (Hv : forall k, In k (dkeys (comps (V:=V) es)) -> is_par k = false).
  { intros k Hk. apply (pn_vars _ _ Hp). apply (twin_keys A es items user Ht). exact Hk. }
  destruct (C01_call_evaluates_every_component V A ord1 ord2 (comps es) m inp Ho1 Ho2 Hdd Hn Hs Hv Hi) as (w & Hw & _ & Hcall).
  destruct (Hcall args kw Hsup) as (names & P1 & A1 & C1).
  destruct (C91_same_arguments V A ord1 ord1' es items user m m' Ho1 Ho1' Hd Hs Hi Hp Hi' Ht) as (E1 & E2 & _).
  assert (Hsup' : supplies (named inp (m_indep m' ++ m_params m')) args kw) by (rewrite E1, E2; exact Hsup).
  destruct (numerical_call A ord1' ord2' items user m' inp w args kw Ho1' Ho2' Hp Hi' (twin_solution A es items user Hd Ht inp w Hw) Hsup') as (names' & P2 & A2 & C2).
  assert (En : names' = names).
  { apply (alphabetical_unique sname); [| |exact A2|exact A1].
    - intros a b Ha Hb. apply (pn_names _ _ Hp); left; [exact (Permutation_in _ P2 Ha)|exact (Permutation_in _ P2 Hb)].
    - eapply Permutation_trans; [exact P2|]. eapply Permutation_trans; [|apply Permutation_sym; exact P1].
      apply NoDup_Permutation; [exact (pn_dict _ _ Hp)|exact Hdd|]. intros k. apply (twin_keys A es items user Ht). }
  subst names'. eexists. split; [exact C1|exact C2].
Qed.
Print Assumptions C91_same_call.

Section Common.
  Context (simp : expr -> expr) (ord1 ord1' ord2 : list sym -> list sym) (es : dict sym expr) (items : dict sym (comp (V:=res nd))) (user : dict sym (list sym)) (m m' : amodel) (cls : mclass).
  Let om := om_of cls simp ord2 m.
  Let om' := om_of KCallable simp ord2 m'.
  Hypothesis Hm : model_of ord1 es m.
  Hypothesis Hnum : numerical_model_of ord1' ord2 items user m'.
  Hypothesis Htwin : callables_for NDalg es items user.
  Lemma twin_data args kw v : data_for om' [] args kw v = data_for om [] args kw v.
  Proof using Hm Hnum Htwin.
    destruct (twin_same ord1 ord1' ord2 es items user m m' Hm Hnum Htwin) as (E1 & _ & E3 & _).
    unfold data_for, argument_names, om, om', om_of. cbn [om_indep om_dep]. rewrite E1, E3. reflexivity.
  Qed.
  Lemma twin_Y args kw v : the_data om' [] args kw v = the_data om [] args kw v.
  Proof using Hm Hnum Htwin. unfold the_data. rewrite twin_data. reflexivity. Qed.
  Lemma twin_S args kw v : the_sigma om' [] args kw v = the_sigma om [] args kw v.
  Proof using Hm Hnum Htwin. unfold the_sigma. rewrite !twin_data. reflexivity. Qed.
  Lemma twin_names : good_names om [] -> good_names om' [].
  Proof using Hm Hnum Htwin.
    destruct (twin_same ord1 ord1' ord2 es items user m m' Hm Hnum Htwin) as (E1 & _ & E3 & _).
    unfold good_names, argument_names, om, om', om_of. cbn [om_indep om_dep]. rewrite E1, E3. auto.
  Qed.
  Lemma twin_matches args kw sh : data_matches om sh (the_data om [] args kw) (the_sigma om [] args kw) -> data_matches om' sh (the_data om' [] args kw) (the_sigma om' [] args kw).
  Proof using Hm Hnum Htwin.
    destruct (twin_same ord1 ord1' ord2 es items user m m' Hm Hnum Htwin) as (E1 & _ & E3 & _).
    intros (H1 & H2 & v & Hv & H3). cbn [om om_of om_indep om_dep] in H1, H2, Hv. split; [|split]; cbn [om' om_of om_indep om_dep].
    - intros w. rewrite E1, twin_Y. exact (H1 w).
    - intros w y. rewrite E3, twin_Y, twin_S. exact (H2 w y).
    - exists v. rewrite E3, twin_Y. auto.
  Qed.
  Lemma twin_grids args kw sh : on_grids es m (the_data om [] args kw) sh -> on_grids es m (the_data om' [] args kw) sh.
  Proof using Hm Hnum Htwin.
    intros (H1 & H2). split.
    - intros k x a. rewrite twin_Y. apply H1.
    - intros v Hv. destruct (H2 v Hv) as (Hne & x & a & Hu & Hx & Hy & Hs). split; [exact Hne|]. exists x, a. rewrite twin_Y. auto.
  Qed.
  Lemma twin_chi2 sol args kw theta : chi2_for sol m (the_data om' [] args kw) (the_sigma om' [] args kw) theta = chi2_for sol m (the_data om [] args kw) (the_sigma om [] args kw) theta.
  Proof using Hm Hnum Htwin.
    unfold chi2_for. apply Rsum_ext. intros v _. rewrite twin_Y, twin_S. destruct (the_data om [] args kw v); [|reflexivity]. destruct (the_sigma om [] args kw v); [|reflexivity].
    apply Rsum_ext. intros i _. do 3 f_equal. f_equal. unfold at_data. apply Coq.Logic.FunctionalExtensionality.functional_extensionality. intros s. rewrite twin_Y. reflexivity.
  Qed.
End Common.

(** ** Fitting it: the problem handed to scipy is the least squares problem of the symbolic model, without a gradient. *)
Theorem C91_fit_problem : forall simp ord1 ord1' ord2 es items user m m' sol toward0 h o mc absolute args kw f sh,
  let om := om_of KCallable simp ord2 m' in
  let Y := the_data om [] args kw in
  let Sg := the_sigma om [] args kw in
  let ps := m_params m in
  model_of ord1 es m -> means es sol -> numerical_model_of ord1' ord2 items user m' -> callables_for NDalg es items user ->
  good_names om [] -> NoDup (dkeys kw) -> on_grids es m Y sh -> data_matches om sh Y Sg ->
  objective_chosen o mc OLS -> suitable_class h ps mc ->
  fit_init toward0 h {| fm_om := om; fm_len := List.length items |} [] o mc absolute args kw = Ok f ->
  exists mn local, ft_min f = FMin mn local /\ chosen_class h om [] mc (mi_class mn) /\ ft_class f = OLS /\
    let pb := execute_problem h mn DNone DNone in
    pb_x0 pb = (match mi_class mn with DifferentialEvolution => None | _ => Some (map (fun p => p_value (h p)) (free_of_list h ps)) end) /\
    (forall x, List.length x = nfree h ps -> feasible pb x <-> allowed h m (parameter_value h ps x)) /\
    (forall x, List.length x = nfree h ps -> obj_value OLS h om (ft_obj f) x [] = Ok (scalar (/ 2 * chi2_for sol m Y Sg (parameter_value h ps x)))) /\
    (forall w, pb_jac pb <> DFun w).
Proof.
  intros simp ord1 ord1' ord2 es items user m m' sol toward0 h o mc absolute args kw f sh om Y Sg ps Hm Hsol Hnum Ht Hg Hkw Hgr Hdm Hoc Hsu Hf.
  destruct (twin_same ord1 ord1' ord2 es items user m m' Hm Hnum Ht) as (E1 & E2 & E3 & _). pose proof Hnum as (Ho1' & Ho2 & Hp & Hi').
  pose proof (num_callable simp ord1' ord2 items user m' Ho1' Hp Hi') as Hcal. fold om in Hcal.
  assert (Hne : om_indep om <> []).
  { destruct Hgr as [_ H], Hdm as (_ & _ & v & Hv & _). cbn [om om_of om_dep om_indep] in *. rewrite E3 in Hv. destruct (H v Hv) as (_ & x & _ & _ & Hx & _). rewrite E1. intros E. rewrite E in Hx. destruct Hx. }
  destruct (gchosen om (List.length items) toward0 h o mc absolute args kw f sh Hg Hkw Hf Hdm Hoc (or_introl Hne)) as (Hcl & Hmade & Hoi).
  assert (Eps : om_params om = ps) by exact E2.
  assert (Hsu' : suitable_class h (om_params om) mc) by (rewrite Eps; exact Hsu).
  destruct (gmin_made om (List.length items) toward0 h o mc absolute args kw f Hf Hsu') as (mn & local & Hmn & Hcc & Hini & Hnm & Hb).
  assert (HYi : forall v, In v (m_indep m) -> Y v <> None) by (rewrite <- E1; exact (proj1 Hdm)).
  pose proof (twin_predicts simp ord1 ord1' ord2 es items user m m' sol Hm Hsol Hnum Ht Y sh Hgr HYi) as HP.
  exists mn, local. split; [exact Hmn|]. split; [exact Hcc|]. split; [exact Hcl|]. cbv zeta. split; [|split; [|split]].
  - rewrite <- Eps. exact (gstart om h f mn Hini).
  - intros x Hl. change (allowed h m (parameter_value h ps x)) with (allowed_for h ps (parameter_value h ps x)). rewrite <- Eps in *. exact (gfeasible om h f Hcal mn x Hini Hb Hl).
  - intros x Hl. rewrite <- Eps in *. rewrite (gobj om (List.length items) toward0 h o mc absolute args kw f sh Hcal Hg Hkw Hf Hdm Hmade x _ Hl (HP _)).
    cbn [om om_of om_dep]. rewrite E3. reflexivity.
  - exact (gno_gradient om h f mn Hini eq_refl).
Qed.
Print Assumptions C91_fit_problem.

(** ** Fitted to the same data, with minimizers that respect the bounds, both models have the same objective function and the same best vectors. *)
Theorem C91_same_fit : forall simp ord1 ord1' ord2 es items user m m' sol toward0 h o mc absolute o' mc' absolute' args kw f f' sh mn local mn' local',
  let om := om_of KModel simp ord2 m in
  let om' := om_of KCallable simp ord2 m' in
  let Y := the_data om [] args kw in
  let Sg := the_sigma om [] args kw in
  let ps := m_params m in
  simp_ok simp -> ps <> [] -> has_jacobian simp ord2 m ->
  model_of ord1 es m -> means es sol -> numerical_model_of ord1' ord2 items user m' -> callables_for NDalg es items user ->
  good_names om [] -> NoDup (dkeys kw) -> on_grids es m Y sh -> data_matches om sh Y Sg ->
  objective_chosen o mc OLS -> suitable_class h ps mc -> objective_chosen o' mc' OLS -> suitable_class h ps mc' ->
  fit_init toward0 h {| fm_om := om; fm_len := List.length es |} [] o mc absolute args kw = Ok f -> ft_min f = FMin mn local ->
  fit_init toward0 h {| fm_om := om'; fm_len := List.length items |} [] o' mc' absolute' args kw = Ok f' -> ft_min f' = FMin mn' local' ->
  (forall x, List.length x = nfree h ps -> obj_value OLS h om' (ft_obj f') x [] = obj_value OLS h om (ft_obj f) x []) /\
  (forall x, minimises (fun z => obj_value OLS h om' (ft_obj f') z []) (execute_problem h mn' DNone DNone) (nfree h ps) x <->
             minimises (fun z => obj_value OLS h om (ft_obj f) z []) (execute_problem h mn DNone DNone) (nfree h ps) x).
Proof.
  intros simp ord1 ord1' ord2 es items user m m' sol toward0 h o mc absolute o' mc' absolute' args kw f f' sh mn local mn' local' om om' Y Sg ps
    Hs Hne HJ Hm Hsol Hnum Ht Hg Hkw Hgr Hdm Hoc Hsu Hoc' Hsu' Hf Hmn Hf' Hmn'.
  destruct (C89_fit_problem simp ord1 ord2 es m sol toward0 h o mc absolute args kw f sh Hs (proj1 (proj2 Hnum)) Hm Hsol Hne HJ Hg Hkw Hgr Hdm Hoc Hsu Hf)
    as (mn1 & local1 & Hmn1 & _ & _ & _ & Hb & Hv & _). rewrite Hmn in Hmn1. injection Hmn1 as <- <-.
  destruct (C91_fit_problem simp ord1 ord1' ord2 es items user m m' sol toward0 h o' mc' absolute' args kw f' sh Hm Hsol Hnum Ht
    (twin_names simp ord1 ord1' ord2 es items user m m' KModel Hm Hnum Ht Hg) Hkw (twin_grids simp ord1 ord1' ord2 es items user m m' KModel Hm Hnum Ht args kw sh Hgr)
    (twin_matches simp ord1 ord1' ord2 es items user m m' KModel Hm Hnum Ht args kw sh Hdm) Hoc' Hsu' Hf')
    as (mn2 & local2 & Hmn2 & _ & _ & _ & Hb' & Hv' & _). rewrite Hmn' in Hmn2. injection Hmn2 as <- <-.
  fold om om' ps in Hb, Hv, Hb', Hv'.
  assert (Hobj : forall x, List.length x = nfree h ps -> obj_value OLS h om' (ft_obj f') x [] = obj_value OLS h om (ft_obj f) x []).
  { intros x Hl. rewrite (Hv x Hl), (Hv' x Hl). do 3 f_equal. exact (twin_chi2 simp ord1 ord1' ord2 es items user m m' KModel Hm Hnum Ht sol args kw _). }
  assert (Hfe : forall x, List.length x = nfree h ps -> feasible (execute_problem h mn' DNone DNone) x <-> feasible (execute_problem h mn DNone DNone) x).
  { intros x Hl. rewrite (Hb x Hl), (Hb' x Hl). reflexivity. }
  split; [exact Hobj|]. intros x. split; intros (Hl & Hx & H); (split; [exact Hl|split; [apply Hfe; assumption|]]); intros x' r r' Hl' Hx' Hr Hr'.
  - apply (H x' r r' Hl'); [apply Hfe; assumption|rewrite Hobj by exact Hl; exact Hr|rewrite Hobj by exact Hl'; exact Hr'].
  - rewrite Hobj in Hr by exact Hl. rewrite Hobj in Hr' by exact Hl'. apply (H x' r r' Hl'); [apply Hfe; assumption|exact Hr|exact Hr'].
Qed.
Print Assumptions C91_same_fit.

(** ** If scipy answers with a best vector, the reported values are the least squares fit of the symbolic model. *)
Theorem C91_best_fit : forall simp ord1 ord1' ord2 es items user m m' sol toward0 h o mc absolute args kw f sh mn local x popt,
  let om := om_of KCallable simp ord2 m' in
  let Y := the_data om [] args kw in
  let Sg := the_sigma om [] args kw in
  let chi2 := chi2_for sol m Y Sg in
  let ps := m_params m in
  model_of ord1 es m -> means es sol -> numerical_model_of ord1' ord2 items user m' -> callables_for NDalg es items user ->
  good_names om [] -> NoDup (dkeys kw) -> on_grids es m Y sh -> data_matches om sh Y Sg ->
  objective_chosen o mc OLS -> suitable_class h ps mc ->
  fit_init toward0 h {| fm_om := om; fm_len := List.length items |} [] o mc absolute args kw = Ok f -> ft_min f = FMin mn local ->
  minimises (fun z => obj_value OLS h om (ft_obj f) z []) (execute_problem h mn DNone DNone) (nfree h ps) x ->
  pack_output h ps x = Ok popt ->
  let theta := reported ps popt in
  allowed h m theta /\ forall theta', allowed h m theta' -> chi2 theta <= chi2 theta'.
Proof.
  intros simp ord1 ord1' ord2 es items user m m' sol toward0 h o mc absolute args kw f sh mn local x popt om Y Sg chi2 ps Hm Hsol Hnum Ht Hg Hkw Hgr Hdm Hoc Hsu Hf Hmn Hmin Hpk.
  destruct (twin_same ord1 ord1' ord2 es items user m m' Hm Hnum Ht) as (E1 & E2 & E3 & _). pose proof Hnum as (Ho1' & Ho2 & Hp & Hi').
  pose proof (num_callable simp ord1' ord2 items user m' Ho1' Hp Hi') as Hcal. fold om in Hcal.
  assert (Hne : om_indep om <> []).
  { destruct Hgr as [_ H], Hdm as (_ & _ & v & Hv & _). cbn [om om_of om_dep om_indep] in *. rewrite E3 in Hv. destruct (H v Hv) as (_ & x0 & _ & _ & Hx & _). rewrite E1. intros E. rewrite E in Hx. destruct Hx. }
  destruct (gchosen om (List.length items) toward0 h o mc absolute args kw f sh Hg Hkw Hf Hdm Hoc (or_introl Hne)) as (Hcl & Hmade & Hoi).
  assert (Eps : om_params om = ps) by exact E2.
  assert (Hsu' : suitable_class h (om_params om) mc) by (rewrite Eps; exact Hsu).
  destruct (gmin_made om (List.length items) toward0 h o mc absolute args kw f Hf Hsu') as (mn' & local' & Hmn' & Hcc & Hini & Hnm & Hb).
  rewrite Hmn in Hmn'. injection Hmn' as <- <-.
  assert (HYi : forall v, In v (m_indep m) -> Y v <> None) by (rewrite <- E1; exact (proj1 Hdm)).
  rewrite <- Eps in Hmin, Hpk.
  destruct (gbest om (List.length items) toward0 h o mc absolute args kw f sh Hcal Hg Hkw Hf Hdm Hcl Hmade mn x popt (fun theta v i => sol (at_data Y theta i) v) Hini Hb
    (fun theta _ => twin_predicts simp ord1 ord1' ord2 es items user m m' sol Hm Hsol Hnum Ht Y sh Hgr HYi theta) Hmin Hpk) as (R1 & R2).
  rewrite Eps in R1, R2. cbn [om om_of om_dep] in R2. rewrite E3 in R2. cbv zeta. split; [exact R1|exact R2].
Qed.
Print Assumptions C91_best_fit.

(** ** The result reports the vector scipy returned; there is no covariance matrix. *)
Theorem C91_result : forall inv simp ord1 ord1' ord2 es items user m m' sol toward0 h o mc absolute args kw f sh x,
  let om := om_of KCallable simp ord2 m' in
  let Y := the_data om [] args kw in
  let Sg := the_sigma om [] args kw in
  let ps := m_params m in
  model_of ord1 es m -> means es sol -> numerical_model_of ord1' ord2 items user m' -> callables_for NDalg es items user ->
  good_names om [] -> NoDup (dkeys kw) -> on_grids es m Y sh -> data_matches om sh Y Sg -> no_bare_numbers om [] args kw ->
  objective_chosen o mc OLS ->
  fit_init toward0 h {| fm_om := om; fm_len := List.length items |} [] o mc absolute args kw = Ok f -> List.length x = nfree h ps ->
  exists popt, fit_execute inv h om f x = Ok (popt, None) /\ pack_output h ps x = Ok popt /\
    forall p, In p ps -> reported ps popt p = parameter_value h ps x p.
Proof.
  intros inv simp ord1 ord1' ord2 es items user m m' sol toward0 h o mc absolute args kw f sh x om Y Sg ps Hm Hsol Hnum Ht Hg Hkw Hgr Hdm Hbare Hoc Hf Hl.
  destruct (twin_same ord1 ord1' ord2 es items user m m' Hm Hnum Ht) as (E1 & E2 & E3 & _). pose proof Hnum as (Ho1' & Ho2 & Hp & Hi').
  pose proof (num_callable simp ord1' ord2 items user m' Ho1' Hp Hi') as Hcal. fold om in Hcal.
  assert (Hne : om_indep om <> []).
  { destruct Hgr as [_ H], Hdm as (_ & _ & v & Hv & _). cbn [om om_of om_dep om_indep] in *. rewrite E3 in Hv. destruct (H v Hv) as (_ & x0 & _ & _ & Hx & _). rewrite E1. intros E. rewrite E in Hx. destruct Hx. }
  destruct (gchosen om (List.length items) toward0 h o mc absolute args kw f sh Hg Hkw Hf Hdm Hoc (or_introl Hne)) as (Hcl & Hmade & Hoi).
  assert (Eps : om_params om = ps) by exact E2.
  assert (HYi : forall v, In v (m_indep m) -> Y v <> None) by (rewrite <- E1; exact (proj1 Hdm)).
  rewrite <- Eps in *.
  destruct (gno_covariance om (List.length items) toward0 h o mc absolute args kw f sh Hcal Hg Hkw Hf Hdm Hcl Hmade Hbare Hoi inv x _ eq_refl eq_refl Hl
    (twin_predicts simp ord1 ord1' ord2 es items user m m' sol Hm Hsol Hnum Ht Y sh Hgr HYi (parameter_value h (om_params om) x))) as (popt & Hpk & Hex).
  exists popt. split; [exact Hex|]. split; [exact Hpk|]. intros p Hpp. exact (greported_is h (om_params om) (gnodup om Hcal) x popt p (gnames om Hcal) Hl Hpk Hpp).
Qed.
Print Assumptions C91_result.

(** ** An example: the two data sets of C89 with the component [y = a*x] given as a Python function. *)
Definition tw_f (kw : dict string (res nd)) : res (res nd) :=
  x <- dlook kw "x" ;; a <- dlook kw "a" ;; if Nat.eqb (List.length kw) 2 then Ok (nd2 Rmult a x) else Raise TypeError.
Definition tw_items : dict sym (comp (V:=res nd)) := [(vz, CExpr (EAdd (EMul (ESym pb) (ESym vw)) (ESym pa))); (vy, CFun 0 tw_f)].
Definition tw_user : dict sym (list sym) := [(vy, [vx; pa])].
Lemma tw_es k e : In (k, e) glx_es <-> (k = vy /\ e = EMul (ESym pa) (ESym vx)) \/ (k = vz /\ e = EAdd (EMul (ESym pb) (ESym vw)) (ESym pa)).
Proof. unfold glx_es. simpl. split; [intros [H|[H|[]]]; injection H as <- <-; auto|intros [(-> & ->)|(-> & ->)]; auto]. Qed.
Lemma tw_mentions_y s : mentions (EMul (ESym pa) (ESym vx)) s <-> s = pa \/ s = vx.
Proof.
  unfold mentions. cbn [occs app]. split.
  - intros [[<-|[<-|[]]]|(y & ps & [H|[H|[]]] & _)]; auto; discriminate.
  - intros [->| ->]; left; [left|right; left]; reflexivity.
Qed.
Lemma tw_mentions_z s : mentions (EAdd (EMul (ESym pb) (ESym vw)) (ESym pa)) s <-> s = pb \/ s = vw \/ s = pa.
Proof.
  unfold mentions. cbn [occs app]. split.
  - intros [[<-|[<-|[<-|[]]]]|(y & ps & [H|[H|[H|[]]]] & _)]; auto; discriminate.
  - intros [->|[->| ->]]; left; [left|right; left|right; right; left]; reflexivity.
Qed.
Lemma tw_depends k s : depends tw_items tw_user k s <-> (k = vy /\ (s = pa \/ s = vx)) \/ (k = vz /\ (s = pb \/ s = vw \/ s = pa)).
Proof.
  unfold depends, tw_user. cbn [dget]. destruct (eq_dec k vy) as [->|Hk].
  - split; [intros [<-|[<-|[]]]; auto|intros [(_ & [->| ->])|(H & _)]; [right; left; reflexivity|left; reflexivity|discriminate]].
  - split.
    + intros (e & [H|[H|[]]] & Hm); [|discriminate]. injection H as <- <-. right. split; [reflexivity|]. apply tw_mentions_z. exact Hm.
    + intros [(-> & _)|(-> & H)]; [contradiction|]. eexists. split; [left; reflexivity|]. apply tw_mentions_z. exact H.
Qed.
Lemma tw_callables : callables_for NDalg glx_es tw_items tw_user.
Proof.
  split; [|split; [|split]].
  - intros k. unfold tw_items, glx_es. simpl. tauto.
  - intros k e [H|[H|[]]]; [|discriminate]. injection H as <- <-. apply tw_es. auto.
  - intros k i f e [H|[H|[]]] He; [discriminate|]. injection H as <- <- <-. apply tw_es in He as [(_ & ->)|(Hc & _)]; [|discriminate].
    intros kw v Hnd Hkw.
    assert (Dx : dget kw "x" = Some (v vx)) by (apply In_dget; [exact Hnd|]; apply Hkw; exists vx; split; [apply tw_mentions_y; auto|split; reflexivity]).
    assert (Da : dget kw "a" = Some (v pa)) by (apply In_dget; [exact Hnd|]; apply Hkw; exists pa; split; [apply tw_mentions_y; auto|split; reflexivity]).
    assert (Hl : List.length kw = 2%nat).
    { assert (HP : Permutation (dkeys kw) ["x"; "a"]).
      { apply NoDup_Permutation; [exact Hnd|apply nodupb_iff; reflexivity|]. intros n. split.
        - intros Hn. apply in_map_iff in Hn as ([n' a] & <- & Hin). apply Hkw in Hin as (s & Hs & -> & _). apply tw_mentions_y in Hs as [->| ->]; [right; left; reflexivity|left; reflexivity].
        - intros [<-|[<-|[]]]; apply dget_keys; [rewrite Dx|rewrite Da]; discriminate. }
      apply Permutation_length in HP. unfold dkeys in HP. rewrite map_length in HP. exact HP. }
    unfold tw_f, dlook, of_opt. rewrite Dx, Da. cbn [bind]. rewrite Hl. reflexivity.
  - intros k s. rewrite tw_depends. split.
    + intros [(-> & H)|(-> & H)]; eexists; (split; [apply tw_es; auto|]); [apply tw_mentions_y|apply tw_mentions_z]; exact H.
    + intros (e & He & H). apply tw_es in He as [(-> & ->)|(-> & ->)]; [apply tw_mentions_y in H|apply tw_mentions_z in H]; auto.
Qed.
Lemma tw_proper : proper_numerical tw_items tw_user.
Proof.
  assert (Hs : forall s, nsymbol tw_items tw_user s -> s = vx \/ s = vy \/ s = vz \/ s = vw \/ s = pa \/ s = pb).
  { intros s [[<-|[<-|[]]]|(k & Hk)]; auto. apply tw_depends in Hk as [(_ & H)|(_ & H)]; decompose [or] H; subst; auto 8. }
  split.
  - apply nodupb_iff; vm_compute; reflexivity.
  - apply nodupb_iff; vm_compute; reflexivity.
  - intros k deps [H|[]]. injection H as <- <-. apply nodupb_iff; vm_compute; reflexivity.
  - intros k [<-|[]]. right. left. reflexivity.
  - intros k i f [H|[H|[]]]; [discriminate|]. apply (f_equal fst) in H. cbn [fst] in H. subst k. left. reflexivity.
  - intros k e deps s [H|[H|[]]] [H2|[]]; [|discriminate]. injection H as <- _. discriminate.
  - intros k H. apply tw_depends in H as [(-> & H)|(-> & H)]; decompose [or] H; discriminate.
  - intros k [<-|[<-|[]]]; reflexivity.
  - intros s t H1 H2. apply Hs in H1, H2.
    destruct H1 as [->|[->|[->|[->|[->| ->]]]]], H2 as [->|[->|[->|[->|[->| ->]]]]]; try reflexivity; discriminate.
Qed.

Example C91_example : forall toward0, exists m f mn m' f' mn',
  let om := om_of KModel (fun e => e) oid m in
  let om' := om_of KCallable (fun e => e) oid m' in
  let Y := the_data om [] [] glx_kw in
  simp_ok (fun e => e) /\ has_jacobian (fun e => e) oid m /\
  model_of oid glx_es m /\ means glx_es glx_sol /\ numerical_model_of oid oid tw_items tw_user m' /\ callables_for NDalg glx_es tw_items tw_user /\
  m_params m' = [pa; pb] /\ m_dep m' = [vy; vz] /\
  good_names om [] /\ NoDup (dkeys glx_kw) /\ on_grids glx_es m Y glx_sh /\ data_matches om glx_sh Y (the_sigma om [] [] glx_kw) /\ no_bare_numbers om' [] [] glx_kw /\
  objective_chosen ODefault MDefault OLS /\ suitable_class glx_heap (m_params m) MDefault /\
  fit_init toward0 glx_heap {| fm_om := om; fm_len := List.length glx_es |} [] ODefault MDefault None [] glx_kw = Ok f /\ ft_min f = FMin mn None /\
  fit_init toward0 glx_heap {| fm_om := om'; fm_len := List.length tw_items |} [] ODefault MDefault None [] glx_kw = Ok f' /\ ft_min f' = FMin mn' None /\
  minimises (fun z => obj_value OLS glx_heap om' (ft_obj f') z []) (execute_problem glx_heap mn' DNone DNone) (nfree glx_heap (m_params m)) [2; 5] /\
  pack_output glx_heap (m_params m) [2; 5] = Ok [2; 5].
Proof.
  intros toward0. pose proof (C89_example toward0) as Hex. cbv zeta in Hex.
  destruct Hex as (m & f & mn & iv & Hm & Hsol & E1 & E2 & E3 & HJ & _ & _ & Hg & Hk & Hgr & Hdm & Hbare & Hoc & Hsu & Hf & Hmn & _ & _ & Hmin & Hpk).
  destruct (init_numerical oid tw_items tw_user) as [m'|e] eqn:Hi; [|vm_compute in Hi; discriminate].
  assert (Hnum : numerical_model_of oid oid tw_items tw_user m') by (split; [exact oid_ok|split; [exact oid_ok|split; [exact tw_proper|exact Hi]]]).
  clear Hi.
  destruct (twin_same oid oid oid glx_es tw_items tw_user m m' Hm Hnum tw_callables) as (L1 & L2 & L3 & _). rewrite E3 in L1. rewrite E1 in L2. rewrite E2 in L3.
  assert (Hf' : exists f' mn', fit_init toward0 glx_heap {| fm_om := om_of KCallable (fun e => e) oid m'; fm_len := List.length tw_items |} [] ODefault MDefault None [] glx_kw = Ok f' /\ ft_min f' = FMin mn' None).
  { unfold om_of. rewrite L1, L2, L3. eexists _, _. split; reflexivity. }
  destruct Hf' as (f' & mn' & Hf' & Hmn'). exists m, f, mn, m', f', mn'. cbv zeta.
  assert (Hsi : simp_ok (fun e => e)) by exact simp_id_ok.
  assert (Hne : m_params m <> []) by (rewrite E1; discriminate).
  split; [exact Hsi|]. split; [exact HJ|]. split; [exact Hm|]. split; [exact Hsol|]. split; [exact Hnum|]. split; [exact tw_callables|]. split; [exact L2|]. split; [exact L3|].
  split; [exact Hg|]. split; [exact Hk|]. split; [exact Hgr|]. split; [exact Hdm|]. split.
  { intros v r Hv. rewrite (twin_data (fun e => e) oid oid oid glx_es tw_items tw_user m m' KModel Hm Hnum tw_callables). apply Hbare.
    cbn [om_of om_indep om_dep] in *. rewrite L1, L3 in Hv. rewrite E2, E3. exact Hv. }
  split; [exact Hoc|]. split; [exact Hsu|]. split; [exact Hf|]. split; [exact Hmn|]. split; [exact Hf'|]. split; [exact Hmn'|]. split; [|exact Hpk].
  refine (proj2 (proj2 (C91_same_fit (fun e => e) oid oid oid glx_es tw_items tw_user m m' glx_sol toward0 glx_heap ODefault MDefault None ODefault MDefault None [] glx_kw f f' glx_sh mn None mn' None
    Hsi Hne HJ Hm Hsol Hnum tw_callables Hg Hk Hgr Hdm Hoc Hsu Hoc Hsu Hf Hmn Hf' Hmn') [2; 5]) Hmin).
Qed.
