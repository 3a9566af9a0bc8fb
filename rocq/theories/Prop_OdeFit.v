(** * Prop_OdeFit: C76, fitting a system of ordinary differential equations. *)
From Coq Require Import Reals Lra Lia Sorted.
From Coquelicot Require Import Coquelicot.
From Verif Require Import PyBase PyFacts Signature SignatureFacts Expr Model ModelSpec ModelFacts ExprR Jacobian JacAnalysis NumPy NumFacts Objective ObjSpec FiniteDiff FDSpec Ode OdeSpec OdeFacts OdeMain OdeModel Minimizer MinSpec Fit FitSpec FitCov FitExample ArrSpec EndSpec GenSpec GenFit OdeFitSpec OdeFit OdeExample.
Local Open Scope R_scope.
Local Open Scope string_scope.
Local Open Scope list_scope.

Section Times.
  Context (S : ivp -> res ivp_result) (simp : expr -> expr) (ord : list sym -> list sym) (items : dict odkey expr)
    (initial : dict sym oinit) (user : dict string optval) (t : sym) (t0 : R) (m : ode).
  Hypothesis HM : ode_model_of S simp ord items initial user t t0 m.
  Lemma ascending_reports a theta phi : increasing_times t0 (times a) -> ode_solved items t initial t0 (times a) theta phi -> calls_report S simp items t m a (times a) theta phi.
  Proof.
    destruct HM as (HS & Hs & Ho & Hf & Hi & Hn & Hm & Ht). intros (Hasc & Hne) (lo & hi & Hsol & Hr) args kw Hsup.
    exact (ode_ascending S simp ord items initial user t m theta t0 t0 lo hi phi HS Hs Ho Hf Hi Hn Hm Ht Hsol (times a) args kw eq_refl Hsup Hasc Hne Hr).
  Qed.
  Lemma unsorted_reports a theta phi : times a <> [] -> ~ In t0 (times a) -> StronglySorted Rlt (earlier t0 (times a)) -> StronglySorted Rlt (later t0 (times a)) ->
    ode_solved items t initial t0 (times a) theta phi -> calls_report S simp items t m a (earlier t0 (times a) ++ later t0 (times a)) theta phi.
  Proof.
    destruct HM as (HS & Hs & Ho & Hf & Hi & Hn & Hm & Ht). intros Hne Hn0 H1 H2 (lo & hi & Hsol & Hr) args kw Hsup.
    destruct (ode_unsorted S simp ord items initial user t m theta t0 t0 lo hi phi HS Hs Ho Hf Hi Hn Hm Ht Hsol (times a) args kw eq_refl Hsup Hne Hn0 Hr) as [(Hc & _)|(o & Ho' & _ & _ & Hrep)];
      [exfalso; apply Hc; split; assumption|]. exists o. split; [exact Ho'|exact Hrep].
  Qed.
  Lemma ode_has_indep : om_indep (om_of_ode S simp m) <> [].
  Proof.
    destruct HM as (HS & Hs & Ho & Hf & Hi & Hn & Hm & Ht). destruct (ode_fields ord items initial user t m Ho Hf Hi Hn Hm) as (E & _). cbn [om_of_ode om_indep]. rewrite E. discriminate.
  Qed.
End Times.

(** ** C76.  [Phi theta] is the solution of the user's initial value problem for the parameter values [theta].
    The problem handed to scipy: minimise half of the weighted sum of squares of the differences between the solution at
    the measurement times and the data, over the free parameters (of the equations and of the initial values), inside
    their bounds, starting from their values; the gradient is built from six point differences of solutions. *)
Theorem C76_ode_fit_problem : forall S simp ord items initial user t t0 m toward0 h o mc absolute args kw f a Phi,
  let om := om_of_ode S simp m in
  let Y := the_data om [] args kw in
  let Sg := the_sigma om [] args kw in
  let ps := o_params m in
  let ts := times a in
  let solved := fun theta => ode_solved items t initial t0 ts theta (Phi theta) in
  let chi2 := fun theta => chi2_with (at_times (Phi theta) ts) (o_dep m) Y Sg in
  ode_model_of S simp ord items initial user t t0 m -> ps <> [] ->
  good_names om [] -> NoDup (dkeys kw) -> ode_data om t a Y Sg -> increasing_times t0 ts ->
  objective_chosen o mc OLS -> suitable_class h ps mc ->
  fit_init toward0 h {| fm_om := om; fm_len := ode_len m |} [] o mc absolute args kw = Ok f ->
  exists mn local, ft_min f = FMin mn local /\ chosen_class h om [] mc (mi_class mn) /\ ft_class f = OLS /\
    let pb := execute_problem h mn DNone DNone in
    pb_x0 pb = (match mi_class mn with DifferentialEvolution => None | _ => Some (map (fun p => p_value (h p)) (free_of_list h ps)) end) /\
    (forall x, List.length x = nfree h ps -> feasible pb x <-> allowed_for h ps (parameter_value h ps x)) /\
    (forall x, List.length x = nfree h ps -> solved (parameter_value h ps x) -> obj_value OLS h om (ft_obj f) x [] = Ok (scalar (/ 2 * chi2 (parameter_value h ps x)))) /\
    (uses_jacobian (mi_class mn) = true -> exists w, pb_jac pb = DFun w /\ forall x, List.length x = nfree h ps ->
      let theta := parameter_value h ps x in
      solved theta -> solved_around items t initial t0 ts ps Phi theta ->
      exists g, w x = Ok g /\ shp g = [nfree h ps] /\ forall i p, nth_error (free_of_list h ps) i = Some p ->
        val g [i] = chi2_gradient (at_times (Phi theta) ts) (ode_difference Phi ts theta p) (o_dep m) Y Sg).
Proof.
  intros S simp ord items initial user t t0 m toward0 h o mc absolute args kw f a Phi om Y Sg ps ts solved chi2 HM Hps Hg Hkw (N & Ha & HY & Hdm) Hts Hoc Hsu Hf.
  pose proof HM as (HS & Hs & Ho & Hfo & Hi & Hn & Hm & Ht).
  pose proof (ode_callable S simp ord items initial user t m Ho Hfo Hi Hn Hm) as Hcal. fold om in Hcal.
  assert (HtsN : List.length ts = N) by (unfold ts, times; rewrite map_length, seq_length, Ha; reflexivity).
  destruct (gchosen om (ode_len m) toward0 h o mc absolute args kw f (fun _ => [N]) Hg Hkw Hf Hdm Hoc (or_introl (ode_has_indep S simp ord items initial user t t0 m HM))) as (Hcl & Hmade & Hoi).
  destruct (gmin_made om (ode_len m) toward0 h o mc absolute args kw f Hf Hsu) as (mn & local & Hmn & Hcc & Hini & Hnm & Hb).
  assert (HP : forall theta, solved theta -> predicts om Y (fun _ => [N]) theta (at_times (Phi theta) ts)).
  { intros theta Hth. exact (ode_predicts S simp ord items initial user t m Ho Hfo Hi Hn Hm Y a N ts HY Ha HtsN theta (Phi theta) (ascending_reports S simp ord items initial user t t0 m HM a theta (Phi theta) Hts Hth)). }
  exists mn, local. split; [exact Hmn|]. split; [exact Hcc|]. split; [exact Hcl|]. cbv zeta. split; [|split; [|split]].
  - exact (gstart om h f mn Hini).
  - intros x Hl. exact (gfeasible om h f Hcal mn x Hini Hb Hl).
  - intros x Hl Hth. exact (gobj om (ode_len m) toward0 h o mc absolute args kw f (fun _ => [N]) Hcal Hg Hkw Hf Hdm Hmade x _ Hl (HP _ Hth)).
  - intros Hu. destruct (ggradient om (ode_len m) toward0 h o mc absolute args kw f (fun _ => [N]) Hcal Hg Hkw Hf Hdm Hcl Hmade mn Hini Hnm ltac:(discriminate) Hu) as (w & Hw & Hgr).
    exists w. split; [exact Hw|]. intros x Hl Hth Har.
    assert (HJ : predicts_jac om Y (fun _ => [N]) (parameter_value h ps x) (ode_jacobian t m ts Phi (parameter_value h ps x))).
    { apply (ode_predicts_jac S simp ord items initial user t m Ho Hfo Hi Hn Hm Y a N ts HY Ha HtsN Phi (parameter_value h ps x) Hps).
      intros p k Hp Hk y Hy. apply (ascending_reports S simp ord items initial user t t0 m HM); [exact Hts|]. exact (Har p k y Hp Hk Hy). }
    destruct (Hgr x _ _ Hl (HP _ Hth) HJ) as (g & Hwg & Hsg & Hvg). exists g. split; [exact Hwg|]. split; [exact Hsg|]. intros i p Hp.
    assert (Hk : exists k, nth_error ps k = Some p) by (apply In_nth_error; apply nth_error_In in Hp; apply filter_In in Hp; tauto). destruct Hk as (k & Hk).
    rewrite (Hvg i k p Hp Hk). unfold ode_jacobian. rewrite (nth_error_nth (o_params m) _ t Hk). reflexivity.
Qed.
Print Assumptions C76_ode_fit_problem.

(** ** If scipy answers with a best vector of that problem, the reported values are the least squares fit: no other
    parameter values inside the bounds have solutions closer to the data. *)
Theorem C76_ode_best_fit : forall S simp ord items initial user t t0 m toward0 h o mc absolute args kw f a Phi mn local x popt,
  let om := om_of_ode S simp m in
  let Y := the_data om [] args kw in
  let Sg := the_sigma om [] args kw in
  let ps := o_params m in
  let ts := times a in
  let chi2 := fun theta => chi2_with (at_times (Phi theta) ts) (o_dep m) Y Sg in
  ode_model_of S simp ord items initial user t t0 m ->
  good_names om [] -> NoDup (dkeys kw) -> ode_data om t a Y Sg -> increasing_times t0 ts ->
  objective_chosen o mc OLS -> suitable_class h ps mc ->
  (forall theta, allowed_for h ps theta -> ode_solved items t initial t0 ts theta (Phi theta)) ->
  fit_init toward0 h {| fm_om := om; fm_len := ode_len m |} [] o mc absolute args kw = Ok f ->
  ft_min f = FMin mn local ->
  minimises (fun z => obj_value OLS h om (ft_obj f) z []) (execute_problem h mn DNone DNone) (nfree h ps) x ->
  pack_output h ps x = Ok popt ->
  let theta := reported ps popt in
  allowed_for h ps theta /\ forall theta', allowed_for h ps theta' -> chi2 theta <= chi2 theta'.
Proof.
  intros S simp ord items initial user t t0 m toward0 h o mc absolute args kw f a Phi mn local x popt om Y Sg ps ts chi2 HM Hg Hkw (N & Ha & HY & Hdm) Hts Hoc Hsu Hsol Hf Hmn Hmin Hp.
  pose proof HM as (HS & Hs & Ho & Hfo & Hi & Hn & Hm & Ht).
  pose proof (ode_callable S simp ord items initial user t m Ho Hfo Hi Hn Hm) as Hcal. fold om in Hcal.
  assert (HtsN : List.length ts = N) by (unfold ts, times; rewrite map_length, seq_length, Ha; reflexivity).
  destruct (gchosen om (ode_len m) toward0 h o mc absolute args kw f (fun _ => [N]) Hg Hkw Hf Hdm Hoc (or_introl (ode_has_indep S simp ord items initial user t t0 m HM))) as (Hcl & Hmade & Hoi).
  destruct (gmin_made om (ode_len m) toward0 h o mc absolute args kw f Hf Hsu) as (mn' & local' & Hmn' & Hcc & Hini & Hnm & Hb).
  rewrite Hmn in Hmn'. injection Hmn' as <- <-.
  apply (gbest om (ode_len m) toward0 h o mc absolute args kw f (fun _ => [N]) Hcal Hg Hkw Hf Hdm Hcl Hmade mn x popt (fun theta => at_times (Phi theta) ts) Hini Hb); [|exact Hmin|exact Hp].
  intros theta Hth. exact (ode_predicts S simp ord items initial user t m Ho Hfo Hi Hn Hm Y a N ts HY Ha HtsN theta (Phi theta) (ascending_reports S simp ord items initial user t t0 m HM a theta (Phi theta) Hts (Hsol theta Hth))).
Qed.
Print Assumptions C76_ode_best_fit.

(** ** The result: [execute] succeeds; the covariance matrix is [s2] times the inverse of the matrix of products of
    those six point differences, weighted with the standard deviations; None if that matrix is singular. *)
Theorem C76_ode_covariance : forall inv S simp ord items initial user t t0 m toward0 h o mc absolute args kw f a Phi x,
  let om := om_of_ode S simp m in
  let Y := the_data om [] args kw in
  let Sg := the_sigma om [] args kw in
  let ps := o_params m in
  let ts := times a in
  let n := List.length ps in
  let theta := parameter_value h ps x in
  ode_model_of S simp ord items initial user t t0 m -> ps <> [] ->
  good_names om [] -> NoDup (dkeys kw) -> ode_data om t a Y Sg -> increasing_times t0 ts -> no_bare_numbers om [] args kw -> objective_chosen o mc OLS ->
  fit_init toward0 h {| fm_om := om; fm_len := ode_len m |} [] o mc absolute args kw = Ok f ->
  inverts inv -> List.length x = nfree h ps ->
  ode_solved items t initial t0 ts theta (Phi theta) -> solved_around items t initial t0 ts ps Phi theta ->
  exists popt cov K, fit_execute inv h om f x = Ok (popt, cov) /\ pack_output h ps x = Ok popt /\
    (forall p, In p ps -> reported ps popt p = theta p) /\
    let s2 := variance_scale (ft_absolute f) (chi2_with (at_times (Phi theta) ts) (o_dep m) Y Sg) (INR (List.length ts) - INR n) in
    square n K /\ inverse_or_none n s2 K cov /\
    forall p q k l, nth_error ps k = Some p -> nth_error ps l = Some q ->
      mat K k l = weighted_products (ode_difference Phi ts theta p) (ode_difference Phi ts theta q) (o_dep m) Y Sg.
Proof.
  intros inv S simp ord items initial user t t0 m toward0 h o mc absolute args kw f a Phi x om Y Sg ps ts n theta HM Hps Hg Hkw (N & Ha & HY & Hdm) Hts Hbare Hoc Hf Hinv Hl Hsol Har.
  pose proof HM as (HS & Hs & Ho & Hfo & Hi & Hn & Hm & Ht).
  pose proof (ode_callable S simp ord items initial user t m Ho Hfo Hi Hn Hm) as Hcal. fold om in Hcal.
  assert (HtsN : List.length ts = N) by (unfold ts, times; rewrite map_length, seq_length, Ha; reflexivity).
  destruct (gchosen om (ode_len m) toward0 h o mc absolute args kw f (fun _ => [N]) Hg Hkw Hf Hdm Hoc (or_introl (ode_has_indep S simp ord items initial user t t0 m HM))) as (Hcl & Hmade & Hoi).
  pose proof (ode_predicts S simp ord items initial user t m Ho Hfo Hi Hn Hm Y a N ts HY Ha HtsN theta (Phi theta) (ascending_reports S simp ord items initial user t t0 m HM a theta (Phi theta) Hts Hsol)) as HP.
  assert (HJ : predicts_jac om Y (fun _ => [N]) theta (ode_jacobian t m ts Phi theta)).
  { apply (ode_predicts_jac S simp ord items initial user t m Ho Hfo Hi Hn Hm Y a N ts HY Ha HtsN Phi theta Hps).
    intros p k Hp Hk y Hy. apply (ascending_reports S simp ord items initial user t t0 m HM); [exact Hts|]. exact (Har p k y Hp Hk Hy). }
  destruct (gcovariance om (ode_len m) toward0 h o mc absolute args kw f (fun _ => [N]) Hcal Hg Hkw Hf Hdm Hcl Hmade Hbare Hoi inv x _ _ [N] Hinv eq_refl (fun _ _ => eq_refl) Hl HP HJ)
    as (popt & cov & K & Hex & Hp & Hsq & Hcov & HK).
  exists popt, cov, K. split; [exact Hex|]. split; [exact Hp|]. split.
  { intros p Hpin. exact (greported_is h ps (params_nodup ord items initial user t m Ho Hfo Hi Hn Hm) x popt p (gnames om Hcal) Hl Hp Hpin). }
  cbv zeta. split; [exact Hsq|]. split.
  - rewrite GuessMain.indices1, map_length, seq_length in Hcov. rewrite HtsN. exact Hcov.
  - intros p q k l Hk Hq. assert (Hkl : (k < n)%nat) by (apply nth_error_Some; fold ps; congruence). assert (Hll : (l < n)%nat) by (apply nth_error_Some; fold ps; congruence).
    rewrite (HK k l Hkl Hll). unfold ode_jacobian. rewrite (nth_error_nth (o_params m) _ t Hk), (nth_error_nth (o_params m) _ t Hq). reflexivity.
Qed.
Print Assumptions C76_ode_covariance.

(** ** Times in another order, without the initial time: the data are compared with the solution at the SORTED times
    (if the times before and those after the initial time each increase; otherwise there is a ValueError, C50). *)
Theorem C76_unsorted_times_misaligned : forall S simp ord items initial user t t0 m toward0 h o mc absolute args kw f a Phi x,
  let om := om_of_ode S simp m in
  let Y := the_data om [] args kw in
  let Sg := the_sigma om [] args kw in
  let ps := o_params m in
  let ts := times a in
  let theta := parameter_value h ps x in
  ode_model_of S simp ord items initial user t t0 m ->
  good_names om [] -> NoDup (dkeys kw) -> ode_data om t a Y Sg ->
  ts <> [] -> ~ In t0 ts -> StronglySorted Rlt (earlier t0 ts) -> StronglySorted Rlt (later t0 ts) ->
  objective_chosen o mc OLS ->
  fit_init toward0 h {| fm_om := om; fm_len := ode_len m |} [] o mc absolute args kw = Ok f ->
  List.length x = nfree h ps -> ode_solved items t initial t0 ts theta (Phi theta) ->
  obj_value OLS h om (ft_obj f) x [] = Ok (scalar (/ 2 * chi2_with (at_times (Phi theta) (earlier t0 ts ++ later t0 ts)) (o_dep m) Y Sg)).
Proof.
  intros S simp ord items initial user t t0 m toward0 h o mc absolute args kw f a Phi x om Y Sg ps ts theta HM Hg Hkw (N & Ha & HY & Hdm) Hne Hn0 H1 H2 Hoc Hf Hl Hsol.
  pose proof HM as (HS & Hs & Ho & Hfo & Hi & Hn & Hm & Ht).
  pose proof (ode_callable S simp ord items initial user t m Ho Hfo Hi Hn Hm) as Hcal. fold om in Hcal.
  assert (HtsN : List.length ts = N) by (unfold ts, times; rewrite map_length, seq_length, Ha; reflexivity).
  assert (Hsl : List.length (earlier t0 ts ++ later t0 ts) = N).
  { rewrite app_length, <- HtsN. clear -Hn0. induction ts as [|u l IH]; [reflexivity|]. assert (Hu : u <> t0) by (intros ->; apply Hn0; left; reflexivity).
    assert (IH' : (List.length (earlier t0 l) + List.length (later t0 l))%nat = List.length l) by (apply IH; intros H; apply Hn0; right; exact H).
    unfold earlier, later in *. cbn [filter]. destruct (Rlt_dec u t0), (Rlt_dec t0 u); cbn [List.length]; try lra; rewrite <- IH'; clear; lia. }
  destruct (gchosen om (ode_len m) toward0 h o mc absolute args kw f (fun _ => [N]) Hg Hkw Hf Hdm Hoc (or_introl (ode_has_indep S simp ord items initial user t t0 m HM))) as (Hcl & Hmade & Hoi).
  apply (gobj om (ode_len m) toward0 h o mc absolute args kw f (fun _ => [N]) Hcal Hg Hkw Hf Hdm Hmade x _ Hl).
  exact (ode_predicts S simp ord items initial user t m Ho Hfo Hi Hn Hm Y a N (earlier t0 ts ++ later t0 ts) HY Ha Hsl theta (Phi theta) (unsorted_reports S simp ord items initial user t t0 m HM a theta (Phi theta) Hne Hn0 H1 H2 Hsol)).
Qed.
Print Assumptions C76_unsorted_times_misaligned.

(** ** An example: {D(z,t): a, D(y,t): a*z} with z(0) = b and y(0) = 1, data for z at the times -1, 0, 2, y=None. *)
Definition oex_vec (a b c : R) : nd := {| shp := [3%nat]; val := fun i => match i with [O] => a | [1%nat] => b | _ => c end |}.
Definition oex_phi (theta : sym -> R) : sym -> R -> R := ex_phi (theta oa) (theta ob) 0.
Definition oex_kw (a : nd) (z : nd) : dict string datum := [("z", DArr z); ("y", DataNone); ("t", DArr a)].
Definition oex_heap : heap := fun p => {| p_value := 1; p_min := Some 0; p_max := None; p_fixed := false |}.
Lemma oex_model : ode_model_of ideal (fun e => e) oid ex_ode ex_initial [] ot 0 ex_m.
Proof.
  split; [exact exact_exists|]. split; [exact simp_id|]. split; [exact oid_set|]. split; [exact ex_first_order|]. split; [exact ex_initial_ok|]. split; [exact ex_names|]. split; [exact ex_init|reflexivity].
Qed.
Lemma oex_solved ts theta : (forall u, In u ts -> -10 < u < 10) -> ode_solved ex_ode ot ex_initial 0 ts theta (oex_phi theta).
Proof. intros H. exists (-10), 10. split; [apply ex_solution_at; [reflexivity|reflexivity|lra]|exact H]. Qed.
Section Oex.
  Context (a z : nd) (Ha : shp a = [3%nat]) (Hz : shp z = [3%nat]).
  Local Notation om := (om_of_ode ideal (fun e => e) ex_m).
  Lemma oex_dt : data_for om [] [] (oex_kw a z) ot = DArr a. Proof. reflexivity. Qed.
  Lemma oex_dz : data_for om [] [] (oex_kw a z) oz = DArr z. Proof. reflexivity. Qed.
  Lemma oex_dy : data_for om [] [] (oex_kw a z) oy = DataNone. Proof. reflexivity. Qed.
  Lemma oex_good : good_names om [] /\ NoDup (dkeys (oex_kw a z)) /\ no_bare_numbers om [] [] (oex_kw a z).
  Proof.
    split; [split; [apply nodupb_iff; vm_compute; reflexivity|split; [intros c []|apply nodupb_iff; vm_compute; reflexivity]]|].
    split; [apply nodupb_iff; reflexivity|]. intros v r Hv. change (In v [ot; oy; oz]) in Hv. destruct Hv as [<-|[<-|[<-|[]]]]; [rewrite oex_dt|rewrite oex_dy|rewrite oex_dz]; discriminate.
  Qed.
End Oex.
Lemma oex_data a z : shp a = [3%nat] -> shp z = [3%nat] ->
  let om := om_of_ode ideal (fun e => e) ex_m in
  the_data om [] [] (oex_kw a z) ot = Some a /\ the_data om [] [] (oex_kw a z) oz = Some z /\ the_data om [] [] (oex_kw a z) oy = None /\
  the_sigma om [] [] (oex_kw a z) oz = Some {| shp := [3%nat]; val := fun _ => 1 |} /\
  ode_data om ot a (the_data om [] [] (oex_kw a z)) (the_sigma om [] [] (oex_kw a z)).
Proof.
  intros Ha Hz om.
  assert (Yt : the_data om [] [] (oex_kw a z) ot = Some a) by (unfold the_data, om; rewrite oex_dt; reflexivity).
  assert (Yz : the_data om [] [] (oex_kw a z) oz = Some z) by (unfold the_data, om; rewrite oex_dz; reflexivity).
  assert (Yy : the_data om [] [] (oex_kw a z) oy = None) by (unfold the_data, om; rewrite oex_dy; reflexivity).
  assert (Sz : the_sigma om [] [] (oex_kw a z) oz = Some {| shp := [3%nat]; val := fun _ => 1 |}).
  { unfold the_sigma, om. rewrite oex_dz. change (data_for (om_of_ode ideal (fun e => e) ex_m) [] [] (oex_kw a z) (sigma_of oz)) with DataNone. cbn. rewrite Hz. reflexivity. }
  split; [exact Yt|]. split; [exact Yz|]. split; [exact Yy|]. split; [exact Sz|].
  exists 3%nat. split; [exact Ha|]. split; [exact Yt|]. split; [|split].
  - intros v Hv. change (In v [ot]) in Hv. destruct Hv as [<-|[]]. rewrite Yt. discriminate.
  - intros v y Hv Hy. change (In v [oy; oz]) in Hv. destruct Hv as [<-|[<-|[]]]; [rewrite Yy in Hy; discriminate|]. rewrite Yz in Hy. injection Hy as <-. split; [exact Hz|]. rewrite Sz. eexists. split; [reflexivity|]. rewrite Hz.
    split; [reflexivity|]. intros i _. unfold elem. cbn [val]. lra.
  - exists oz. split; [right; left; reflexivity|rewrite Yz; discriminate].
Qed.
Example C76_example : forall toward0, exists f mn inv,
  let om := om_of_ode ideal (fun e => e) ex_m in
  let a := oex_vec (-1) 0 2 in
  let kw := oex_kw a (oex_vec 1 3 7) in
  let Y := the_data om [] [] kw in
  ode_model_of ideal (fun e => e) oid ex_ode ex_initial [] ot 0 ex_m /\ o_params ex_m = [oa; ob] /\ o_dep ex_m = [oy; oz] /\ inverts inv /\
  good_names om [] /\ NoDup (dkeys kw) /\ no_bare_numbers om [] [] kw /\ ode_data om ot a Y (the_sigma om [] [] kw) /\ Y oy = None /\ increasing_times 0 (times a) /\
  (forall theta, ode_solved ex_ode ot ex_initial 0 (times a) theta (oex_phi theta)) /\
  (forall theta, solved_around ex_ode ot ex_initial 0 (times a) (o_params ex_m) oex_phi theta) /\
  fit_init toward0 oex_heap {| fm_om := om; fm_len := ode_len ex_m |} [] ODefault MDefault None [] kw = Ok f /\ ft_min f = FMin mn None /\
  minimises (fun z => obj_value OLS oex_heap om (ft_obj f) z []) (execute_problem oex_heap mn DNone DNone) (nfree oex_heap (o_params ex_m)) [2; 3] /\
  pack_output oex_heap (o_params ex_m) [2; 3] = Ok [2; 3].
Proof.
  intros toward0. destruct inverts_exists as (iv & Hiv).
  assert (Hf : exists f mn, fit_init toward0 oex_heap {| fm_om := om_of_ode ideal (fun e => e) ex_m; fm_len := ode_len ex_m |} [] ODefault MDefault None [] (oex_kw (oex_vec (-1) 0 2) (oex_vec 1 3 7)) = Ok f /\
    ft_min f = FMin mn None) by (eexists _, _; split; [reflexivity|reflexivity]).
  destruct Hf as (f & mn & Hf & Hmn). exists f, mn, iv. cbv zeta.
  destruct (oex_good (oex_vec (-1) 0 2) (oex_vec 1 3 7)) as (Hg & Hk & Hbn).
  destruct (oex_data (oex_vec (-1) 0 2) (oex_vec 1 3 7) eq_refl eq_refl) as (Yt & Yz & Yy & Sz & Hd).
  assert (Hti : times (oex_vec (-1) 0 2) = [-1; 0; 2]) by reflexivity.
  assert (Hinc : increasing_times 0 (times (oex_vec (-1) 0 2))).
  { rewrite Hti. split; [repeat constructor; lra|]. exists 2. split; [right; right; left; reflexivity|lra]. }
  assert (Hsol : forall theta, ode_solved ex_ode ot ex_initial 0 (times (oex_vec (-1) 0 2)) theta (oex_phi theta)).
  { intros theta. apply oex_solved. rewrite Hti. intros u [<-|[<-|[<-|[]]]]; lra. }
  split; [exact oex_model|]. split; [reflexivity|]. split; [reflexivity|]. split; [exact Hiv|]. split; [exact Hg|]. split; [exact Hk|]. split; [exact Hbn|]. split; [exact Hd|]. split; [exact Yy|].
  split; [exact Hinc|]. split; [exact Hsol|]. split; [intros theta p k x Hq1 Hq2 hh Hq3; apply Hsol|]. split; [exact Hf|]. split; [exact Hmn|]. split; [|reflexivity].
  assert (Hne : o_params ex_m <> []) by discriminate. assert (Hoc : objective_chosen ODefault MDefault OLS) by (split; [left; reflexivity|discriminate]).
  destruct (C76_ode_fit_problem ideal (fun e => e) oid ex_ode ex_initial [] ot 0 ex_m toward0 oex_heap ODefault MDefault None [] _ f (oex_vec (-1) 0 2) oex_phi oex_model Hne Hg Hk Hd Hinc
    Hoc (or_introl eq_refl) Hf) as (mn' & local & Hmn' & _ & _ & _ & Hb & Hv & _). rewrite Hmn in Hmn'. injection Hmn' as <- <-.
  assert (Hpa : parameter_value oex_heap (o_params ex_m) [2; 3] oa = 2) by reflexivity. assert (Hpb : parameter_value oex_heap (o_params ex_m) [2; 3] ob = 3) by reflexivity.
  split; [reflexivity|]. split.
  { apply Hb; [reflexivity|]. intros p Hpp; change (In p [oa; ob]) in Hpp; destruct Hpp as [<-|[<-|[]]]; change (p_fixed (oex_heap _)) with false; cbv iota; [rewrite Hpa|rewrite Hpb]; (split; cbn; [intros l Hq; injection Hq as <-; lra|discriminate]). }
  intros x' r r' Hl' _ Hr Hr'. rewrite (Hv [2; 3] eq_refl (Hsol _)) in Hr. rewrite (Hv x' Hl' (Hsol _)) in Hr'. injection Hr as <-. injection Hr' as <-. rewrite !elem_scalar.
  assert (H0 : chi2_with (at_times (oex_phi (parameter_value oex_heap (o_params ex_m) [2; 3])) (times (oex_vec (-1) 0 2))) (o_dep ex_m)
    (the_data (om_of_ode ideal (fun e => e) ex_m) [] [] (oex_kw (oex_vec (-1) 0 2) (oex_vec 1 3 7))) (the_sigma (om_of_ode ideal (fun e => e) ex_m) [] [] (oex_kw (oex_vec (-1) 0 2) (oex_vec 1 3 7))) = 0).
  { unfold chi2_with. change (o_dep ex_m) with [oy; oz]. cbn [map Rsum fold_right]. rewrite Yy, Yz, Sz. change (indices (shp (oex_vec 1 3 7))) with [[0%nat]; [1%nat]; [2%nat]]. cbn [map Rsum fold_right].
    unfold at_times, oex_phi. rewrite Hpa, Hpb, Hti. cbn [hd nth]. unfold ex_phi. destruct (eq_dec oz oz) as [_|c]; [|contradiction].
    unfold elem. cbn [shp val oex_vec NumPy.bidx List.length]. field. }
  change (o_dep ex_m) with [oy; oz] in H0. change (o_params ex_m) with [oa; ob] in H0. rewrite H0. match goal with |- / 2 * 0 <= / 2 * ?B => assert (HB : 0 <= B); [|lra] end.
  unfold chi2_with. assert (H : forall (A : Type) (g : A -> R) l, (forall x, 0 <= g x) -> 0 <= Rsum (map g l)).
  { intros A g l Hg'. induction l as [|x l IH]; cbn; [lra|]. specialize (Hg' x). lra. }
  apply H. intros v. destruct (the_data _ _ _ _ v); [|lra]. destruct (the_sigma _ _ _ _ v); [|lra]. apply H. intros i. apply pow2_ge_0.
Qed.

(** ** Without the order of the times the claim fails: z = 3 + 2 t measured exactly at the times 2, -1, -1/2, in this
    order.  The values a = 2, b = 3 have objective 31 and not 0, and they are not what the fit reports: a = 0, b = 10/3 is better. *)
Lemma oex_value a z f toward0 x : let om := om_of_ode ideal (fun e => e) ex_m in
  a = oex_vec 2 (-1) (- / 2) -> z = oex_vec 7 1 2 ->
  fit_init toward0 oex_heap {| fm_om := om; fm_len := ode_len ex_m |} [] ODefault MDefault None [] (oex_kw a z) = Ok f ->
  List.length x = nfree oex_heap (o_params ex_m) ->
  let u := parameter_value oex_heap (o_params ex_m) x oa in let b := parameter_value oex_heap (o_params ex_m) x ob in
  obj_value OLS oex_heap om (ft_obj f) x [] = Ok (scalar (/ 2 * ((b - u - 7) ^ 2 + (b - u / 2 - 1) ^ 2 + (b + 2 * u - 2) ^ 2))).
Proof.
  intros om Ea Ez Hf Hl u b. subst om.
  assert (Ha : shp a = [3%nat]) by (rewrite Ea; reflexivity). assert (Hz : shp z = [3%nat]) by (rewrite Ez; reflexivity).
  destruct (oex_good a z) as (Hg & Hk & _). destruct (oex_data a z Ha Hz) as (Yt & Yz & Yy & Sz & Hd).
  assert (Hti : times a = [2; -1; - / 2]) by (rewrite Ea; reflexivity).
  assert (He : earlier 0 (times a) = [-1; - / 2]).
  { rewrite Hti. unfold earlier. cbn [filter]. destruct (Rlt_dec 2 0), (Rlt_dec (-1) 0), (Rlt_dec (- / 2) 0); try lra. reflexivity. }
  assert (Hla : later 0 (times a) = [2]).
  { rewrite Hti. unfold later. cbn [filter]. destruct (Rlt_dec 0 2), (Rlt_dec 0 (-1)), (Rlt_dec 0 (- / 2)); try lra. reflexivity. }
  rewrite (C76_unsorted_times_misaligned ideal (fun e => e) oid ex_ode ex_initial [] ot 0 ex_m toward0 oex_heap ODefault MDefault None [] (oex_kw a z) f a oex_phi x oex_model Hg Hk Hd).
  - f_equal. f_equal. f_equal. rewrite He, Hla. cbn [app]. unfold chi2_with. change (o_dep ex_m) with [oy; oz]. cbn [map Rsum fold_right]. rewrite Yy, Yz, Sz, Ez.
    change (indices (shp (oex_vec 7 1 2))) with [[0%nat]; [1%nat]; [2%nat]]. cbn [map Rsum fold_right].
    unfold at_times, oex_phi. fold u b. cbn [hd nth]. unfold ex_phi. destruct (eq_dec oz oz) as [_|c]; [|contradiction].
    unfold elem. cbn [shp val oex_vec NumPy.bidx List.length]. clearbody u b. field.
  - rewrite Hti. discriminate.
  - rewrite Hti. intros [H|[H|[H|[]]]]; lra.
  - rewrite He. repeat constructor. lra.
  - rewrite Hla. repeat constructor.
  - split; [left; reflexivity|discriminate].
  - exact Hf.
  - exact Hl.
  - apply oex_solved. rewrite Hti. intros w [<-|[<-|[<-|[]]]]; lra.
Qed.
Theorem C76_unsorted_times_refuted : forall toward0, exists a z f mn,
  let om := om_of_ode ideal (fun e => e) ex_m in
  let truth := [2; 3] in
  let theta := parameter_value oex_heap (o_params ex_m) truth in
  ode_model_of ideal (fun e => e) oid ex_ode ex_initial [] ot 0 ex_m /\
  times a = [2; -1; - / 2] /\ shp a = [3%nat] /\ shp z = [3%nat] /\ ode_solved ex_ode ot ex_initial 0 (times a) theta (oex_phi theta) /\
  (forall k, (k < 3)%nat -> val z [k] = oex_phi theta oz (nth k (times a) 0)) /\
  fit_init toward0 oex_heap {| fm_om := om; fm_len := ode_len ex_m |} [] ODefault MDefault None [] (oex_kw a z) = Ok f /\ ft_min f = FMin mn None /\
  obj_value OLS oex_heap om (ft_obj f) truth [] = Ok (scalar 31) /\
  ~ minimises (fun x => obj_value OLS oex_heap om (ft_obj f) x []) (execute_problem oex_heap mn DNone DNone) (nfree oex_heap (o_params ex_m)) truth.
Proof.
  intros toward0. set (a := oex_vec 2 (-1) (- / 2)). set (z := oex_vec 7 1 2).
  assert (Hf : exists f mn, fit_init toward0 oex_heap {| fm_om := om_of_ode ideal (fun e => e) ex_m; fm_len := ode_len ex_m |} [] ODefault MDefault None [] (oex_kw a z) = Ok f /\
    ft_min f = FMin mn None) by (eexists _, _; split; [reflexivity|reflexivity]).
  destruct Hf as (f & mn & Hf & Hmn). exists a, z, f, mn. cbv zeta.
  assert (Hti : times a = [2; -1; - / 2]) by reflexivity.
  assert (Hpa : parameter_value oex_heap (o_params ex_m) [2; 3] oa = 2) by reflexivity. assert (Hpb : parameter_value oex_heap (o_params ex_m) [2; 3] ob = 3) by reflexivity.
  assert (Hqa : parameter_value oex_heap (o_params ex_m) [0; 10 / 3] oa = 0) by reflexivity. assert (Hqb : parameter_value oex_heap (o_params ex_m) [0; 10 / 3] ob = 10 / 3) by reflexivity.
  pose proof (oex_value a z f toward0 [2; 3] eq_refl eq_refl Hf eq_refl) as V1. cbv zeta in V1. rewrite Hpa, Hpb in V1.
  pose proof (oex_value a z f toward0 [0; 10 / 3] eq_refl eq_refl Hf eq_refl) as V2. cbv zeta in V2. rewrite Hqa, Hqb in V2.
  split; [exact oex_model|]. split; [exact Hti|]. split; [reflexivity|]. split; [reflexivity|].
  split. { apply oex_solved. rewrite Hti. intros w [<-|[<-|[<-|[]]]]; lra. }
  split. { intros k Hk. unfold oex_phi. rewrite Hpa, Hpb, Hti. unfold ex_phi. destruct (eq_dec oz oz) as [_|c]; [|contradiction].
    destruct k as [|[|[|k]]]; [| | |exfalso; lia]; cbn; field. }
  split; [exact Hf|]. split; [exact Hmn|]. split.
  { rewrite V1. f_equal. f_equal. field. }
  intros (_ & _ & Hmin).
  destruct (gmin_made (om_of_ode ideal (fun e => e) ex_m) (ode_len ex_m) toward0 oex_heap ODefault MDefault None [] (oex_kw a z) f Hf (or_introl eq_refl)) as (mn' & local & Hmn' & _ & Hini & _ & Hb).
  rewrite Hmn in Hmn'. injection Hmn' as <- <-.
  assert (Hfe : feasible (execute_problem oex_heap mn DNone DNone) [0; 10 / 3]).
  { apply (gfeasible (om_of_ode ideal (fun e => e) ex_m) oex_heap f (ode_callable ideal (fun e => e) oid ex_ode ex_initial [] ot ex_m oid_set ex_first_order ex_initial_ok ex_names ex_init) mn [0; 10 / 3] Hini Hb eq_refl).
    intros p Hpp. change (In p [oa; ob]) in Hpp. destruct Hpp as [<-|[<-|[]]]; change (p_fixed (oex_heap _)) with false; cbv iota;
      [change (within oex_heap oa 0)|change (within oex_heap ob (10 / 3))]; (split; cbn; [intros l Hq; injection Hq as <-; lra|discriminate]). }
  pose proof (Hmin [0; 10 / 3] _ _ eq_refl Hfe V1 V2) as H. rewrite !elem_scalar in H. lra.
Qed.
Print Assumptions C76_unsorted_times_refuted.
