(** * Prop_End: C69, from [Fit(model, data).execute()] to the reported values, for
    symbolic models with nothing assumed about model, objective or minimizer but how
    they were made.  Only scipy's minimization and numpy's matrix inversion are taken
    as given. *)
From Coq Require Import Reals Lra Lia.
From Coquelicot Require Import Coquelicot.
From Verif Require Import PyBase PyFacts Signature SignatureFacts Expr Model ModelSpec ExprR Jacobian JacAnalysis NumPy NumFacts Objective ObjSpec Minimizer MinSpec Fit FitSpec FitExample Cast ArrModel ArrSpec ConModel EndSpec EndMain Decide Prop_Model Prop_Jacobian Prop_ArrModel.
Local Open Scope R_scope.

(** ** The problem handed to scipy: minimise half of chi squared over the free parameters,
    inside their bounds and subject to the constraints as the user wrote them, starting from
    their values, with the exact gradient.  For the default minimizer, and for every minimizer class
    the user may ask for (but MINPACK) that supports the bounds and constraints there are. *)
Theorem C69_fit_problem : forall simp sub mulm1 ord1 ord2 es m sol us toward0 h cons o mc absolute args kw f G,
  let om := om_of KModel simp ord2 m in
  let Y := the_data om cons args kw in
  let chi2 := chi2_for sol m Y (the_sigma om cons args kw) in
  let ps := m_params m in
  simp_ok simp -> sympy_arithmetic sub mulm1 -> set_order ord2 -> model_of ord1 es m -> means es sol -> ps <> [] -> has_jacobian simp ord2 m ->
  good_constraints es us -> init_constraints KModel simp sub mulm1 ord2 m us = Ok cons ->
  good_names om cons -> NoDup (dkeys kw) -> data_on_grid G m Y (the_sigma om cons args kw) -> constraints_on_grid G es us Y -> no_shape_clash G m ->
  objective_chosen o mc OLS -> suitable h ps us mc ->
  fit_init toward0 h {| fm_om := om; fm_len := List.length es |} cons o mc absolute args kw = Ok f ->
  exists mn local, ft_min f = FMin mn local /\ chosen_class h om cons mc (mi_class mn) /\ ft_class f = OLS /\
    let pb := execute_problem h mn DNone DNone in
    pb_x0 pb = (match mi_class mn with DifferentialEvolution => None | _ => Some (map (fun p => p_value (h p)) (free_of_list h ps)) end) /\
    (forall x, List.length x = nfree h ps -> feasible pb x <-> allowed h m (parameter_value h ps x) /\ constraints_hold G sol us Y (parameter_value h ps x)) /\
    (forall x, List.length x = nfree h ps -> obj_value OLS h om (ft_obj f) x [] = Ok (scalar (/ 2 * chi2 (parameter_value h ps x)))) /\
    (uses_jacobian (mi_class mn) = true -> exists w, pb_jac pb = DFun w /\ forall x, List.length x = nfree h ps -> defined_for G es sol Y (parameter_value h ps x) ->
      exists g, w x = Ok g /\ shp g = [nfree h ps] /\ forall i p, nth_error (free_of_list h ps) i = Some p ->
        derivative_in (fun theta => / 2 * chi2 theta) (parameter_value h ps x) p (val g [i])).
Proof.
  intros simp sub mulm1 ord1 ord2 es m sol us toward0 h cons o mc absolute args kw f G om Y chi2 ps Hs Har Ho Hm Hsol Hne HJ Hgc Hic Hg Hk HG Hcg Hc Hoc Hsu Hf.
  destruct (fit_problem KModel simp sub mulm1 ord1 ord2 es m sol us toward0 h cons o mc absolute args kw f G Ho Hm Hsol Hg Hk (proj1 HG) Hf Har Hic Hgc Hcg HG Hoc Hsu) as (mn & lc & H1 & H2 & H3 & H4 & H5 & H6 & _ & H7).
  exists mn, lc. cbv zeta. split; [exact H1|]. split; [exact H2|]. split; [exact H3|]. split; [exact H4|]. split; [exact H5|]. split; [exact H6|].
  intros Hu. apply H7; [discriminate|exact Hne|exact HJ|exact Hc|exact Hs|exact Hu].
Qed.
Print Assumptions C69_fit_problem.

(** ** If scipy answers with a best vector of that problem, the reported parameter values
    are the (constrained) least squares fit: they are allowed, satisfy the constraints at every data
    point, and no other such values have a smaller chi squared. *)
Theorem C69_best_fit : forall simp sub mulm1 ord1 ord2 es m sol us toward0 h cons o mc absolute args kw f G mn local x popt,
  let om := om_of KModel simp ord2 m in
  let Y := the_data om cons args kw in
  let chi2 := chi2_for sol m Y (the_sigma om cons args kw) in
  let ps := m_params m in
  simp_ok simp -> sympy_arithmetic sub mulm1 -> set_order ord2 -> model_of ord1 es m -> means es sol -> ps <> [] -> has_jacobian simp ord2 m ->
  good_constraints es us -> init_constraints KModel simp sub mulm1 ord2 m us = Ok cons ->
  good_names om cons -> NoDup (dkeys kw) -> data_on_grid G m Y (the_sigma om cons args kw) -> constraints_on_grid G es us Y -> no_shape_clash G m ->
  objective_chosen o mc OLS -> suitable h ps us mc ->
  fit_init toward0 h {| fm_om := om; fm_len := List.length es |} cons o mc absolute args kw = Ok f ->
  ft_min f = FMin mn local ->
  minimises (fun z => obj_value OLS h om (ft_obj f) z []) (execute_problem h mn DNone DNone) (nfree h ps) x ->
  pack_output h ps x = Ok popt ->
  let theta := reported ps popt in
  allowed h m theta /\ constraints_hold G sol us Y theta /\
  forall theta', allowed h m theta' -> constraints_hold G sol us Y theta' -> chi2 theta <= chi2 theta'.
Proof.
  intros simp sub mulm1 ord1 ord2 es m sol us toward0 h cons o mc absolute args kw f G mn local x popt om Y chi2 ps Hs Har Ho Hm Hsol Hne HJ Hgc Hic Hg Hk HG Hcg Hc Hoc Hsu Hf.
  exact (best_fit KModel simp sub mulm1 ord1 ord2 es m sol us toward0 h cons o mc absolute args kw f G Ho Hm Hsol Hg Hk (proj1 HG) Hf Har Hic Hgc Hcg HG Hoc mn local x popt Hsu).
Qed.
Print Assumptions C69_best_fit.

(** ** The result: [execute] succeeds, and the covariance matrix is [s2] times the inverse
    of the matrix [H] of second derivatives of half chi squared, or, if that is singular, of
    the matrix [K = J^T W J]; None if both are singular.  [s2] is 1 for absolute sigmas, otherwise
    the reduced chi squared (for several dependent variables see C44: the points of the grid are counted once). *)
Theorem C69_covariance : forall inv simp ord1 ord2 es m sol toward0 h cons o mc absolute args kw f G x,
  let om := om_of KModel simp ord2 m in
  let Y := the_data om cons args kw in
  let S := the_sigma om cons args kw in
  let chi2 := chi2_for sol m Y S in
  let n := List.length (m_params m) in
  simp_ok simp -> set_order ord2 -> model_of ord1 es m -> means es sol -> m_params m <> [] -> ArrSpec.has_hessian simp ord2 m ->
  good_names om cons -> NoDup (dkeys kw) -> data_on_grid G m Y S -> no_shape_clash G m -> no_bare_numbers om cons args kw -> objective_chosen o mc OLS ->
  fit_init toward0 h {| fm_om := om; fm_len := List.length es |} cons o mc absolute args kw = Ok f ->
  inverts inv -> List.length x = nfree h (m_params m) ->
  exists popt cov H K, fit_execute inv h om f x = Ok (popt, cov) /\ pack_output h (m_params m) x = Ok popt /\
    let theta := reported (m_params m) popt in
    let s2 := variance_scale (ft_absolute f) (chi2 theta) (INR (List.length (indices G)) - INR n) in
    square n H /\ square n K /\
    ((exists C, cov = Some C /\ scaled_inverse n s2 H C) \/ (singular n H /\ inverse_or_none n s2 K cov)) /\
    ((forall p, In p (m_params m) -> p_fixed (h p) = false) ->
     (defined_around G es sol Y theta -> symmetric n H /\ forall p q k l, nth_error (m_params m) k = Some p -> nth_error (m_params m) l = Some q ->
        second_derivative_in (fun th => / 2 * chi2 th) theta p q (mat H k l)) /\
     (defined_for G es sol Y theta -> symmetric n K /\ forall p q k l, nth_error (m_params m) k = Some p -> nth_error (m_params m) l = Some q ->
        exists Dp Dq, (forall v i, In v (m_dep m) -> In i (indices G) ->
           derivative_in (fun th => sol (at_data Y th i) v) theta p (Dp v i) /\
           derivative_in (fun th => sol (at_data Y th i) v) theta q (Dq v i)) /\
         mat K k l = Rsum (map (fun v => match Y v, S v with
           | Some y, Some s => Rsum (map (fun i => Dp v i * Dq v i / elem s i ^ 2) (indices (shp y)))
           | _, _ => 0 end) (m_dep m)))).
Proof.
  intros inv simp ord1 ord2 es m sol toward0 h cons o mc absolute args kw f G x om Y S chi2 n Hs Ho Hm Hsol Hne HH Hg Hk HG Hc Hb Hmc Hf Hinv Hl.
  exact (fit_covariance KModel simp ord1 ord2 es m sol toward0 h cons o mc absolute args kw f G Ho Hm Hsol Hg Hk (proj1 HG) Hf HG Hmc Hb inv x Hs eq_refl Hne HH Hc Hinv Hl).
Qed.
Print Assumptions C69_covariance.

(** ** MINPACK: scipy gets the vector of residuals, one per data point, whose squares add up to chi squared, their
    Jacobian (at points where they are not 0), and the bounds.  Constraints are not handed over: whatever the
    constraints, the answer is the fit without them. *)
Theorem C69_minpack_problem : forall simp ord1 ord2 es m sol toward0 h cons o mc absolute args kw f G,
  let om := om_of KModel simp ord2 m in
  let Y := the_data om cons args kw in
  let chi2 := chi2_for sol m Y (the_sigma om cons args kw) in
  let ps := m_params m in
  let N := List.length (indices G) in
  simp_ok simp -> set_order ord2 -> model_of ord1 es m -> means es sol -> ps <> [] -> has_jacobian simp ord2 m ->
  good_names om cons -> NoDup (dkeys kw) -> data_on_grid G m Y (the_sigma om cons args kw) -> no_shape_clash G m -> minpack_chosen o mc ->
  fit_init toward0 h {| fm_om := om; fm_len := List.length es |} cons o mc absolute args kw = Ok f ->
  exists mn local, ft_min f = FMin mn local /\ mi_class mn = MINPACK /\ ft_class f = OVLS /\
    let pb := execute_problem h mn DNone DNone in
    let residuals := fun x => obj_value OVLS h om (ft_obj f) x [] in
    pb_routine pb = RLeastSquares /\ pb_x0 pb = Some (map (fun p => p_value (h p)) (free_of_list h ps)) /\
    (forall x, List.length x = nfree h ps -> feasible pb x <-> allowed h m (parameter_value h ps x)) /\
    (forall x, List.length x = nfree h ps -> exists r, residuals x = Ok r /\ shp r = [N] /\ squares r = chi2 (parameter_value h ps x)) /\
    exists w, pb_jac pb = DFun w /\ forall x, List.length x = nfree h ps -> defined_for G es sol Y (parameter_value h ps x) ->
      exists r D, residuals x = Ok r /\ w x = Ok D /\ shp D = [nfree h ps; N] /\
        forall i n, (i < nfree h ps)%nat -> (n < N)%nat -> val r [n] <> 0 ->
          exists F, locally (nth i x 0) (fun t => exists rt, residuals (set_nth x i t) = Ok rt /\ val rt [n] = F t) /\ is_derive F (nth i x 0) (val D [i; n]).
Proof.
  intros simp ord1 ord2 es m sol toward0 h cons o mc absolute args kw f G om Y chi2 ps N Hs Ho Hm Hsol Hne HJ Hg Hk HG Hc Hoc Hf.
  destruct (vls_problem KModel simp ord1 ord2 es m sol toward0 h cons o mc absolute args kw f G Ho Hm Hsol Hg Hk (proj1 HG) Hf HG Hoc) as (mn & lc & H1 & H2 & H3 & H4 & H5 & H6 & _ & H7).
  exists mn, lc. split; [exact H1|]. split; [exact H2|]. split; [exact H3|]. cbv zeta. split; [unfold execute_problem; rewrite H2; reflexivity|]. split; [exact H4|]. split; [exact H5|]. split; [exact H6|]. apply H7; [discriminate|exact Hne|exact HJ|exact Hc|exact Hs].
Qed.
Print Assumptions C69_minpack_problem.
Theorem C69_minpack_best : forall simp ord1 ord2 es m sol toward0 h cons o mc absolute args kw f G mn local x popt,
  let om := om_of KModel simp ord2 m in
  let Y := the_data om cons args kw in
  let chi2 := chi2_for sol m Y (the_sigma om cons args kw) in
  let ps := m_params m in
  simp_ok simp -> set_order ord2 -> model_of ord1 es m -> means es sol -> ps <> [] -> has_jacobian simp ord2 m ->
  good_names om cons -> NoDup (dkeys kw) -> data_on_grid G m Y (the_sigma om cons args kw) -> no_shape_clash G m -> minpack_chosen o mc ->
  fit_init toward0 h {| fm_om := om; fm_len := List.length es |} cons o mc absolute args kw = Ok f ->
  ft_min f = FMin mn local ->
  minimises_squares (fun z => obj_value OVLS h om (ft_obj f) z []) (execute_problem h mn DNone DNone) (nfree h ps) x ->
  pack_output h ps x = Ok popt ->
  let theta := reported ps popt in
  allowed h m theta /\ forall theta', allowed h m theta' -> chi2 theta <= chi2 theta'.
Proof.
  intros simp ord1 ord2 es m sol toward0 h cons o mc absolute args kw f G mn local x popt om Y chi2 ps Hs Ho Hm Hsol Hne HJ Hg Hk HG Hc Hoc Hf.
  exact (vls_best KModel simp ord1 ord2 es m sol toward0 h cons o mc absolute args kw f G Ho Hm Hsol Hg Hk (proj1 HG) Hf HG Hoc mn local x popt).
Qed.
Print Assumptions C69_minpack_best.
Theorem C69_minpack_covariance : forall inv simp ord1 ord2 es m sol toward0 h cons o mc absolute args kw f G x,
  let om := om_of KModel simp ord2 m in
  let Y := the_data om cons args kw in
  let S := the_sigma om cons args kw in
  let chi2 := chi2_for sol m Y S in
  let n := List.length (m_params m) in
  simp_ok simp -> set_order ord2 -> model_of ord1 es m -> means es sol -> m_params m <> [] -> has_jacobian simp ord2 m ->
  good_names om cons -> NoDup (dkeys kw) -> data_on_grid G m Y S -> no_shape_clash G m -> no_bare_numbers om cons args kw -> minpack_chosen o mc ->
  fit_init toward0 h {| fm_om := om; fm_len := List.length es |} cons o mc absolute args kw = Ok f ->
  inverts inv -> List.length x = nfree h (m_params m) ->
  exists popt cov K, fit_execute inv h om f x = Ok (popt, cov) /\ pack_output h (m_params m) x = Ok popt /\
    let theta := reported (m_params m) popt in
    let s2 := variance_scale (ft_absolute f) (chi2 theta) (INR (List.length (indices G)) - INR n) in
    square n K /\ inverse_or_none n s2 K cov /\
    ((forall p, In p (m_params m) -> p_fixed (h p) = false) -> defined_for G es sol Y theta ->
     symmetric n K /\ forall p q k l, nth_error (m_params m) k = Some p -> nth_error (m_params m) l = Some q ->
        exists Dp Dq, (forall v i, In v (m_dep m) -> In i (indices G) ->
           derivative_in (fun th => sol (at_data Y th i) v) theta p (Dp v i) /\
           derivative_in (fun th => sol (at_data Y th i) v) theta q (Dq v i)) /\
         mat K k l = Rsum (map (fun v => match Y v, S v with
           | Some y, Some s => Rsum (map (fun i => Dp v i * Dq v i / elem s i ^ 2) (indices (shp y)))
           | _, _ => 0 end) (m_dep m))).
Proof.
  intros inv simp ord1 ord2 es m sol toward0 h cons o mc absolute args kw f G x om Y S chi2 n Hs Ho Hm Hsol Hne HJ Hg Hk HG Hc Hb Hoc Hf Hinv Hl.
  apply (vls_covariance KModel simp ord1 ord2 es m sol toward0 h cons o mc absolute args kw f G Ho Hm Hsol Hg Hk (proj1 HG) Hf HG Hoc Hb inv x Hs); try assumption. discriminate.
Qed.
Print Assumptions C69_minpack_covariance.

(** ** Example: [{y: a*x, z: y**2 + a*b}], [x = [1,2,3]], [z = [14,26,46]], [sigma_z = 2];
    [b] is fixed at 5 in the first heap, free in the second.  [a = 2, b = 5] fits exactly. *)
Definition eex_heap (fixed : bool) : heap := fun p => {| p_value := 5; p_min := Some 0; p_max := None; p_fixed := if eq_dec p pb then fixed else false |}.
Definition eex_args : list datum := [DArr (aex_vec 1 2 3)].
Definition eex_kw : dict string datum := [("z"%string, DSeq (aex_vec 14 26 46)); ("sigma_z"%string, DNum 2)].
Lemma Rsq_nonneg (x : R) : 0 <= x ^ 2. Proof. simpl. nra. Qed.
Lemma eex_arith : sympy_arithmetic ESub ENeg.
Proof.
  split; [intros l r env; cbn; ring|]. split; [intros e env; cbn; ring|].
  split; [intros l r s H; unfold mentions, ESub, ENeg in *; cbn [occs] in H; rewrite app_nil_r in H; destruct H as [H|(y & ps & H & ->)]; apply in_app_or in H; destruct H as [H|H]; eauto 7|].
  split; [intros e s; unfold mentions, ENeg; cbn [occs]; rewrite app_nil_r; reflexivity|]. split; [intros l r; cbn; tauto|]. intros e; cbn; tauto.
Qed.
Lemma chi2_nonneg sol m Y S theta : 0 <= chi2_for sol m Y S theta.
Proof.
  unfold chi2_for. assert (H : forall (A : Type) (g : A -> R) l, (forall x, 0 <= g x) -> 0 <= Rsum (map g l)).
  { intros A g l Hg. induction l as [|x l IH]; cbn; [lra|]. specialize (Hg x). lra. }
  apply H. intros v. destruct (Y v); [|lra]. destruct (S v); [|lra]. apply H. intros i. apply Rsq_nonneg.
Qed.
Lemma eex_zero m Y S theta : m_dep m = [vz] -> Y vx = Some (aex_vec 1 2 3) -> Y vz = Some (aex_vec 14 26 46) -> S vz = Some {| shp := [3%nat]; val := fun _ => 2 |} ->
  theta pa = 2 -> theta pb = 5 -> chi2_for jex_sol m Y S theta = 0.
Proof.
  intros E2 Yx Yz Sz Ha Hb. unfold chi2_for. rewrite E2. cbn [map Rsum fold_right]. rewrite Yz, Sz. change (indices (shp (aex_vec 14 26 46))) with [[0%nat]; [1%nat]; [2%nat]]. cbn [map Rsum fold_right].
  assert (Hs : forall i, jex_sol (at_data Y theta i) vz = (2 * elem (aex_vec 1 2 3) i) * ((2 * elem (aex_vec 1 2 3) i) * 1) + 2 * 5).
  { intros i. assert (A1 : at_data Y theta i vx = elem (aex_vec 1 2 3) i) by (unfold at_data; cbn [is_par vx]; rewrite Yx; reflexivity).
    assert (A2 : at_data Y theta i pa = 2) by (unfold at_data; cbn [is_par pa]; exact Ha). assert (A3 : at_data Y theta i pb = 5) by (unfold at_data; cbn [is_par pb]; exact Hb).
    revert A1 A2 A3. generalize (at_data Y theta i). intros env A1 A2 A3. unfold jex_sol. rewrite <- A1, <- A2, <- A3. reflexivity. }
  rewrite !Hs. change (elem (aex_vec 1 2 3) [0%nat]) with 1. change (elem (aex_vec 1 2 3) [1%nat]) with 2. change (elem (aex_vec 1 2 3) [2%nat]) with 3.
  change (val (aex_vec 14 26 46) [0%nat]) with 14. change (val (aex_vec 14 26 46) [1%nat]) with 26. change (val (aex_vec 14 26 46) [2%nat]) with 46.
  replace (2 * 1 * (2 * 1 * 1) + 2 * 5 - 14) with 0 by ring. replace (2 * 2 * (2 * 2 * 1) + 2 * 5 - 26) with 0 by ring. replace (2 * 3 * (2 * 3 * 1) + 2 * 5 - 46) with 0 by ring.
  unfold Rdiv. rewrite !Rmult_0_l. ring.
Qed.
Lemma eex_minimises toward0 fixed m us cons f mn :
  let om := om_of KModel (fun e => e) oid m in
  let Y := the_data om cons eex_args eex_kw in
  let x := if fixed : bool then [2] else [2; 5] in
  model_of oid aex_es m -> m_params m = [pa; pb] -> m_dep m = [vz] -> has_jacobian (fun e => e) oid m ->
  good_constraints aex_es us -> init_constraints KModel (fun e => e) ESub ENeg oid m us = Ok cons ->
  good_names om cons -> data_on_grid [3%nat] m Y (the_sigma om cons eex_args eex_kw) -> constraints_on_grid [3%nat] aex_es us Y ->
  Y vx = Some (aex_vec 1 2 3) -> Y vz = Some (aex_vec 14 26 46) -> the_sigma om cons eex_args eex_kw vz = Some {| shp := [3%nat]; val := fun _ => 2 |} ->
  (forall theta, theta pa = 2 -> theta pb = 5 -> constraints_hold [3%nat] jex_sol us Y theta) ->
  fit_init toward0 (eex_heap fixed) {| fm_om := om; fm_len := List.length aex_es |} cons ODefault MDefault None eex_args eex_kw = Ok f ->
  ft_min f = FMin mn None ->
  minimises (fun z => obj_value OLS (eex_heap fixed) om (ft_obj f) z []) (execute_problem (eex_heap fixed) mn DNone DNone) (nfree (eex_heap fixed) (m_params m)) x.
Proof.
  intros om Y x0 Hm E1 E2 HJ Hgc Hic Hg HG Hcg Yx Yz Sz Hcon Hf Hmn. subst x0 om Y.
  assert (Hk : NoDup (dkeys eex_kw)) by (apply nodupb_iff; reflexivity).
  assert (Hsc : no_shape_clash [3%nat] m) by (split; discriminate).
  assert (Hne : m_params m <> []) by (rewrite E1; discriminate).
  assert (Hoc : objective_chosen ODefault MDefault OLS) by (split; [left; reflexivity|discriminate]).
  destruct (C69_fit_problem (fun e => e) ESub ENeg oid oid aex_es m jex_sol us toward0 (eex_heap fixed) cons ODefault MDefault None eex_args eex_kw f [3%nat] simp_id_ok eex_arith oid_ok Hm aex_means
    Hne HJ Hgc Hic Hg Hk HG Hcg Hsc Hoc (or_introl eq_refl) Hf) as (mn' & local' & Hmn' & _ & _ & _ & Hb & Hv & _). rewrite Hmn in Hmn'. injection Hmn' as <- <-.
  set (x := if fixed then [2] else [2; 5]).
  assert (Hl : List.length x = nfree (eex_heap fixed) (m_params m)) by (rewrite E1; unfold x; destruct fixed; reflexivity).
  assert (Hpa : parameter_value (eex_heap fixed) (m_params m) x pa = 2) by (rewrite E1; unfold x; destruct fixed; reflexivity).
  assert (Hpb : parameter_value (eex_heap fixed) (m_params m) x pb = 5) by (rewrite E1; unfold x; destruct fixed; reflexivity).
  split; [exact Hl|]. split.
  { apply Hb; [exact Hl|]. split; [|exact (Hcon _ Hpa Hpb)]. intros p Hp. rewrite E1 in Hp. assert (Hw : forall v, 0 <= v -> within (eex_heap fixed) p v) by (intros v Hvv; split; cbn; [intros l Hq; injection Hq as <-; exact Hvv|discriminate]).
    destruct Hp as [<-|[<-|[]]]; [change (p_fixed (eex_heap fixed pa)) with false; cbv iota; rewrite Hpa; apply Hw; lra|]. rewrite Hpb.
    change (p_fixed (eex_heap fixed pb)) with fixed. destruct fixed; [reflexivity|apply Hw; lra]. }
  intros x' r r' Hl' _ Hr Hr'. rewrite (Hv x Hl) in Hr. rewrite (Hv x' Hl') in Hr'. injection Hr as <-. injection Hr' as <-. rewrite !elem_scalar.
  rewrite (eex_zero m _ _ _ E2 Yx Yz Sz Hpa Hpb).
  match goal with |- / 2 * 0 <= / 2 * ?B => assert (HB : 0 <= B) by apply chi2_nonneg; lra end.
Qed.
Example C69_example : forall toward0 fixed,
  exists m f mn inv, model_of oid aex_es m /\ means aex_es jex_sol /\ m_params m = [pa; pb] /\ m_dep m = [vz] /\
    has_jacobian (fun e => e) oid m /\ ArrSpec.has_hessian (fun e => e) oid m /\ inverts inv /\
    let om := om_of KModel (fun e => e) oid m in
    let x := if fixed : bool then [2] else [2; 5] in
    good_names om [] /\ NoDup (dkeys eex_kw) /\ no_bare_numbers om [] eex_args eex_kw /\ no_shape_clash [3%nat] m /\
    data_on_grid [3%nat] m (the_data om [] eex_args eex_kw) (the_sigma om [] eex_args eex_kw) /\
    fit_init toward0 (eex_heap fixed) {| fm_om := om; fm_len := List.length aex_es |} [] ODefault MDefault None eex_args eex_kw = Ok f /\
    ft_min f = FMin mn None /\
    (forall theta, defined_around [3%nat] aex_es jex_sol (the_data om [] eex_args eex_kw) theta) /\
    List.length x = nfree (eex_heap fixed) (m_params m) /\
    minimises (fun z => obj_value OLS (eex_heap fixed) om (ft_obj f) z []) (execute_problem (eex_heap fixed) mn DNone DNone) (nfree (eex_heap fixed) (m_params m)) x /\
    pack_output (eex_heap fixed) (m_params m) x = Ok [2; 5].
Proof.
  intros toward0 fixed.
  destruct (init_model oid (comps (V:=res nd) aex_es)) as [m|e] eqn:Hi; [|vm_compute in Hi; discriminate].
  assert (E1 : m_params m = [pa; pb]) by (vm_compute in Hi; inversion Hi; reflexivity).
  assert (E2 : m_dep m = [vz]) by (vm_compute in Hi; inversion Hi; reflexivity).
  assert (E3 : m_indep m = [vx]) by (vm_compute in Hi; inversion Hi; reflexivity).
  assert (Hm : model_of oid aex_es m).
  { split; [exact oid_ok|]. split; [apply nodupb_iff; vm_compute; reflexivity|]. split; [decide_model|]. split; [decide_model|]. split; [exact jex_plain|].
    split; [|exact Hi]. intros k e [Hq|[Hq|[]]]; inv Hq; cbn; repeat split; discriminate. }
  assert (HJ : has_jacobian (fun e => e) oid m).
  { vm_compute in Hi. inversion Hi; subst m. eexists. split; [vm_compute; reflexivity|decide_model]. }
  assert (HH : ArrSpec.has_hessian (fun e => e) oid m).
  { vm_compute in Hi. inversion Hi; subst m. eexists. split; [vm_compute; reflexivity|decide_model]. }
  clear Hi. destruct inverts_exists as (iv & Hiv).
  assert (Hf : exists f mn, fit_init toward0 (eex_heap fixed) {| fm_om := om_of KModel (fun e => e) oid m; fm_len := List.length aex_es |} [] ODefault MDefault None eex_args eex_kw = Ok f /\
    ft_min f = FMin mn None).
  { unfold om_of. rewrite E1, E2, E3. destruct fixed; eexists _, _; (split; [reflexivity|reflexivity]). }
  destruct Hf as (f & mn & Hf & Hmn). exists m, f, mn, iv.
  split; [exact Hm|]. split; [exact aex_means|]. split; [exact E1|]. split; [exact E2|]. split; [exact HJ|]. split; [exact HH|]. split; [exact Hiv|]. cbv zeta.
  assert (Hdf : forall v, data_for (om_of KModel (fun e => e) oid m) [] eex_args eex_kw v =
    data_for {| om_params := [pa; pb]; om_indep := [vx]; om_dep := [vz]; om_names := map sp_name (m_sig m); om_call := arr_call oid m; om_jac := None; om_hess := None |} [] eex_args eex_kw v).
  { intros v. unfold data_for, argument_names, om_of. cbn [om_indep om_dep]. rewrite E2, E3. reflexivity. }
  assert (Dx : data_for (om_of KModel (fun e => e) oid m) [] eex_args eex_kw vx = DArr (aex_vec 1 2 3)) by (rewrite Hdf; reflexivity).
  assert (Dz : data_for (om_of KModel (fun e => e) oid m) [] eex_args eex_kw vz = DSeq (aex_vec 14 26 46)) by (rewrite Hdf; reflexivity).
  assert (Ds : data_for (om_of KModel (fun e => e) oid m) [] eex_args eex_kw (sigma_of vz) = DNum 2) by (rewrite Hdf; reflexivity).
  assert (Yx : the_data (om_of KModel (fun e => e) oid m) [] eex_args eex_kw vx = Some (aex_vec 1 2 3)) by (unfold the_data; rewrite Dx; reflexivity).
  assert (Yz : the_data (om_of KModel (fun e => e) oid m) [] eex_args eex_kw vz = Some (aex_vec 14 26 46)) by (unfold the_data; rewrite Dz; reflexivity).
  assert (Sz : the_sigma (om_of KModel (fun e => e) oid m) [] eex_args eex_kw vz = Some {| shp := [3%nat]; val := fun _ => 2 |}) by (unfold the_sigma; rewrite Dz, Ds; reflexivity).
  clear Hdf.
  assert (Hg : good_names (om_of KModel (fun e => e) oid m) []).
  { unfold good_names, argument_names, om_of. cbn [om_indep om_dep]. rewrite E2, E3. split; [apply nodupb_iff; vm_compute; reflexivity|]. split; [intros c []|apply nodupb_iff; vm_compute; reflexivity]. }
  assert (Hk : NoDup (dkeys eex_kw)) by (apply nodupb_iff; reflexivity).
  assert (HG : data_on_grid [3%nat] m (the_data (om_of KModel (fun e => e) oid m) [] eex_args eex_kw) (the_sigma (om_of KModel (fun e => e) oid m) [] eex_args eex_kw)).
  { split. { split; [discriminate|]. split; [intros [H|[]]; discriminate|].
      rewrite E3. intros v [<-|[]]. rewrite Yx. eexists. split; [reflexivity|]. split; [reflexivity|right; reflexivity]. }
    split. { rewrite E2. intros v y [<-|[]] Hy. rewrite Yz in Hy. injection Hy as <-. split; [reflexivity|]. rewrite Sz. eexists. split; [reflexivity|]. split; [reflexivity|]. intros i _. cbn. lra. }
    exists vz. rewrite E2, Yz. split; [left; reflexivity|discriminate]. }
  assert (Hsc : no_shape_clash [3%nat] m) by (split; discriminate).
  split; [exact Hg|]. split; [exact Hk|]. split.
  { intros v r Hv. cbn [om_indep om_dep om_of] in Hv. rewrite E2, E3 in Hv. destruct Hv as [<-|[<-|[]]]; [rewrite Dx|rewrite Dz]; discriminate. }
  split; [exact Hsc|]. split; [exact HG|]. split; [exact Hf|]. split; [exact Hmn|].
  split. { intros theta. exists 1. split; [lra|]. intros th _ i k e _ [Hq|[Hq|[]]]; inv Hq; cbn; auto. }
  split. { rewrite E1. destruct fixed; reflexivity. }
  split; [|rewrite E1; destruct fixed; reflexivity].
  apply (eex_minimises toward0 fixed m [] [] f mn); auto; [intros u []|intros u v []|intros theta _ _ u i []].
Qed.

(** ** With MINPACK *)
Example C69_minpack_example : forall toward0 fixed,
  exists m f mn inv, model_of oid aex_es m /\ means aex_es jex_sol /\ m_params m = [pa; pb] /\ m_dep m = [vz] /\
    has_jacobian (fun e => e) oid m /\ inverts inv /\
    let om := om_of KModel (fun e => e) oid m in
    let x := if fixed : bool then [2] else [2; 5] in
    good_names om [] /\ NoDup (dkeys eex_kw) /\ no_bare_numbers om [] eex_args eex_kw /\ no_shape_clash [3%nat] m /\
    data_on_grid [3%nat] m (the_data om [] eex_args eex_kw) (the_sigma om [] eex_args eex_kw) /\
    fit_init toward0 (eex_heap fixed) {| fm_om := om; fm_len := List.length aex_es |} [] ODefault (MItem (MCls MINPACK)) None eex_args eex_kw = Ok f /\
    ft_min f = FMin mn None /\
    (forall theta, defined_around [3%nat] aex_es jex_sol (the_data om [] eex_args eex_kw) theta) /\
    List.length x = nfree (eex_heap fixed) (m_params m) /\
    minimises_squares (fun z => obj_value OVLS (eex_heap fixed) om (ft_obj f) z []) (execute_problem (eex_heap fixed) mn DNone DNone) (nfree (eex_heap fixed) (m_params m)) x /\
    pack_output (eex_heap fixed) (m_params m) x = Ok [2; 5].
Proof.
  intros toward0 fixed.
  destruct (init_model oid (comps (V:=res nd) aex_es)) as [m|e] eqn:Hi; [|vm_compute in Hi; discriminate].
  assert (E1 : m_params m = [pa; pb]) by (vm_compute in Hi; inversion Hi; reflexivity).
  assert (E2 : m_dep m = [vz]) by (vm_compute in Hi; inversion Hi; reflexivity).
  assert (E3 : m_indep m = [vx]) by (vm_compute in Hi; inversion Hi; reflexivity).
  assert (Hm : model_of oid aex_es m).
  { split; [exact oid_ok|]. split; [apply nodupb_iff; vm_compute; reflexivity|]. split; [decide_model|]. split; [decide_model|]. split; [exact jex_plain|].
    split; [|exact Hi]. intros k e [Hq|[Hq|[]]]; inv Hq; cbn; repeat split; discriminate. }
  assert (HJ : has_jacobian (fun e => e) oid m).
  { vm_compute in Hi. inversion Hi; subst m. eexists. split; [vm_compute; reflexivity|decide_model]. }
  assert (HH : ArrSpec.has_hessian (fun e => e) oid m).
  { vm_compute in Hi. inversion Hi; subst m. eexists. split; [vm_compute; reflexivity|decide_model]. }
  clear Hi. destruct inverts_exists as (iv & Hiv).
  assert (Hf : exists f mn, fit_init toward0 (eex_heap fixed) {| fm_om := om_of KModel (fun e => e) oid m; fm_len := List.length aex_es |} [] ODefault (MItem (MCls MINPACK)) None eex_args eex_kw = Ok f /\
    ft_min f = FMin mn None).
  { unfold om_of. rewrite E1, E2, E3. destruct fixed; eexists _, _; (split; [reflexivity|reflexivity]). }
  destruct Hf as (f & mn & Hf & Hmn). exists m, f, mn, iv.
  split; [exact Hm|]. split; [exact aex_means|]. split; [exact E1|]. split; [exact E2|]. split; [exact HJ|]. split; [exact Hiv|]. cbv zeta.
  assert (Hdf : forall v, data_for (om_of KModel (fun e => e) oid m) [] eex_args eex_kw v =
    data_for {| om_params := [pa; pb]; om_indep := [vx]; om_dep := [vz]; om_names := map sp_name (m_sig m); om_call := arr_call oid m; om_jac := None; om_hess := None |} [] eex_args eex_kw v).
  { intros v. unfold data_for, argument_names, om_of. cbn [om_indep om_dep]. rewrite E2, E3. reflexivity. }
  assert (Dx : data_for (om_of KModel (fun e => e) oid m) [] eex_args eex_kw vx = DArr (aex_vec 1 2 3)) by (rewrite Hdf; reflexivity).
  assert (Dz : data_for (om_of KModel (fun e => e) oid m) [] eex_args eex_kw vz = DSeq (aex_vec 14 26 46)) by (rewrite Hdf; reflexivity).
  assert (Ds : data_for (om_of KModel (fun e => e) oid m) [] eex_args eex_kw (sigma_of vz) = DNum 2) by (rewrite Hdf; reflexivity).
  assert (Yx : the_data (om_of KModel (fun e => e) oid m) [] eex_args eex_kw vx = Some (aex_vec 1 2 3)) by (unfold the_data; rewrite Dx; reflexivity).
  assert (Yz : the_data (om_of KModel (fun e => e) oid m) [] eex_args eex_kw vz = Some (aex_vec 14 26 46)) by (unfold the_data; rewrite Dz; reflexivity).
  assert (Sz : the_sigma (om_of KModel (fun e => e) oid m) [] eex_args eex_kw vz = Some {| shp := [3%nat]; val := fun _ => 2 |}) by (unfold the_sigma; rewrite Dz, Ds; reflexivity).
  clear Hdf.
  assert (Hg : good_names (om_of KModel (fun e => e) oid m) []).
  { unfold good_names, argument_names, om_of. cbn [om_indep om_dep]. rewrite E2, E3. split; [apply nodupb_iff; vm_compute; reflexivity|]. split; [intros c []|apply nodupb_iff; vm_compute; reflexivity]. }
  assert (Hk : NoDup (dkeys eex_kw)) by (apply nodupb_iff; reflexivity).
  assert (HG : data_on_grid [3%nat] m (the_data (om_of KModel (fun e => e) oid m) [] eex_args eex_kw) (the_sigma (om_of KModel (fun e => e) oid m) [] eex_args eex_kw)).
  { split. { split; [discriminate|]. split; [intros [H|[]]; discriminate|].
      rewrite E3. intros v [<-|[]]. rewrite Yx. eexists. split; [reflexivity|]. split; [reflexivity|right; reflexivity]. }
    split. { rewrite E2. intros v y [<-|[]] Hy. rewrite Yz in Hy. injection Hy as <-. split; [reflexivity|]. rewrite Sz. eexists. split; [reflexivity|]. split; [reflexivity|]. intros i _. cbn. lra. }
    exists vz. rewrite E2, Yz. split; [left; reflexivity|discriminate]. }
  assert (Hsc : no_shape_clash [3%nat] m) by (split; discriminate).
  split; [exact Hg|]. split; [exact Hk|]. split.
  { intros v r Hv. cbn [om_indep om_dep om_of] in Hv. rewrite E2, E3 in Hv. destruct Hv as [<-|[<-|[]]]; [rewrite Dx|rewrite Dz]; discriminate. }
  split; [exact Hsc|]. split; [exact HG|]. split; [exact Hf|]. split; [exact Hmn|].
  split. { intros theta. exists 1. split; [lra|]. intros th _ i k e _ [Hq|[Hq|[]]]; inv Hq; cbn; auto. }
  split. { rewrite E1. destruct fixed; reflexivity. }
  split; [|rewrite E1; destruct fixed; reflexivity].
  assert (Hne : m_params m <> []) by (rewrite E1; discriminate).
  assert (Hoc : minpack_chosen ODefault (MItem (MCls MINPACK))) by (split; [left; reflexivity|reflexivity]).
  destruct (C69_minpack_problem (fun e => e) oid oid aex_es m jex_sol toward0 (eex_heap fixed) [] ODefault (MItem (MCls MINPACK)) None eex_args eex_kw f [3%nat] simp_id_ok oid_ok Hm aex_means
    Hne HJ Hg Hk HG Hsc Hoc Hf) as (mn' & local' & Hmn' & _ & _ & _ & _ & Hb & Hv & _). rewrite Hmn in Hmn'. injection Hmn' as <- <-.
  set (x := if fixed then [2] else [2; 5]).
  assert (Hl : List.length x = nfree (eex_heap fixed) (m_params m)) by (rewrite E1; unfold x; destruct fixed; reflexivity).
  assert (Hpa : parameter_value (eex_heap fixed) (m_params m) x pa = 2) by (rewrite E1; unfold x; destruct fixed; reflexivity).
  assert (Hpb : parameter_value (eex_heap fixed) (m_params m) x pb = 5) by (rewrite E1; unfold x; destruct fixed; reflexivity).
  split; [exact Hl|]. split.
  { apply Hb; [exact Hl|]. intros p Hp. rewrite E1 in Hp. assert (Hw : forall v, 0 <= v -> within (eex_heap fixed) p v) by (intros v Hvv; split; cbn; [intros l Hq; injection Hq as <-; exact Hvv|discriminate]).
    destruct Hp as [<-|[<-|[]]]; [change (p_fixed (eex_heap fixed pa)) with false; cbv iota; rewrite Hpa; apply Hw; lra|]. rewrite Hpb.
    change (p_fixed (eex_heap fixed pb)) with fixed. destruct fixed; [reflexivity|apply Hw; lra]. }
  intros x' r r' Hl' _ Hr Hr'. destruct (Hv x Hl) as (q & Q1 & _ & Q2). destruct (Hv x' Hl') as (q' & Q1' & _ & Q2'). rewrite Hr in Q1. rewrite Hr' in Q1'. injection Q1 as <-. injection Q1' as <-.
  rewrite Q2, Q2', (eex_zero m _ _ _ E2 Yx Yz Sz Hpa Hpb). apply chi2_nonneg.
Qed.

(** ** The same fit with the constraints [a <= b] and [y >= 1]: the second one has a component of the
    model in it, and holds at every data point. *)
Definition eex_us : list user_con :=
  [{| uc_name := SVar "w1"; uc_rel := RLe; uc_left := ESym pa; uc_right := ESym pb |};
   {| uc_name := SVar "w2"; uc_rel := RGe; uc_left := ESym vy; uc_right := ENum 1 |}].
Example C69_example_constraints : forall toward0 fixed,
  exists m cons f mn, model_of oid aex_es m /\ means aex_es jex_sol /\ sympy_arithmetic ESub ENeg /\ has_jacobian (fun e => e) oid m /\ ArrSpec.has_hessian (fun e => e) oid m /\
    good_constraints aex_es eex_us /\ init_constraints KModel (fun e => e) ESub ENeg oid m eex_us = Ok cons /\ List.length cons = 2%nat /\
    let om := om_of KModel (fun e => e) oid m in
    let Y := the_data om cons eex_args eex_kw in
    good_names om cons /\ NoDup (dkeys eex_kw) /\ no_bare_numbers om cons eex_args eex_kw /\ no_shape_clash [3%nat] m /\
    data_on_grid [3%nat] m Y (the_sigma om cons eex_args eex_kw) /\ constraints_on_grid [3%nat] aex_es eex_us Y /\
    fit_init toward0 (eex_heap fixed) {| fm_om := om; fm_len := List.length aex_es |} cons ODefault MDefault None eex_args eex_kw = Ok f /\
    ft_min f = FMin mn None /\ mi_class mn = SLSQP /\
    (forall theta, constraints_hold [3%nat] jex_sol eex_us Y theta <-> theta pa <= theta pb /\ 1 <= theta pa * 1 /\ 1 <= theta pa * 2 /\ 1 <= theta pa * 3) /\
    minimises (fun z => obj_value OLS (eex_heap fixed) om (ft_obj f) z []) (execute_problem (eex_heap fixed) mn DNone DNone) (nfree (eex_heap fixed) (m_params m)) (if fixed : bool then [2] else [2; 5]).
Proof.
  intros toward0 fixed.
  destruct (init_model oid (comps (V:=res nd) aex_es)) as [m|e] eqn:Hi; [|vm_compute in Hi; discriminate].
  assert (E1 : m_params m = [pa; pb]) by (vm_compute in Hi; inversion Hi; reflexivity).
  assert (E2 : m_dep m = [vz]) by (vm_compute in Hi; inversion Hi; reflexivity).
  assert (E3 : m_indep m = [vx]) by (vm_compute in Hi; inversion Hi; reflexivity).
  assert (Hm : model_of oid aex_es m).
  { split; [exact oid_ok|]. split; [apply nodupb_iff; vm_compute; reflexivity|]. split; [decide_model|]. split; [decide_model|]. split; [exact jex_plain|].
    split; [|exact Hi]. intros k e [Hq|[Hq|[]]]; inv Hq; cbn; repeat split; discriminate. }
  assert (HJ : has_jacobian (fun e => e) oid m).
  { vm_compute in Hi. inversion Hi; subst m. eexists. split; [vm_compute; reflexivity|decide_model]. }
  assert (HH : ArrSpec.has_hessian (fun e => e) oid m).
  { vm_compute in Hi. inversion Hi; subst m. eexists. split; [vm_compute; reflexivity|decide_model]. }
  destruct (as_constraint ESub ENeg (SVar "w1") oid (CRel RLe (ESym pa) (ESym pb)) m) as [[c1 t1]|e] eqn:A1; [|vm_compute in Hi; inversion Hi; subst m; vm_compute in A1; discriminate].
  destruct (as_constraint ESub ENeg (SVar "w2") oid (CRel RGe (ESym vy) (ENum 1)) m) as [[c2 t2]|e] eqn:A2; [|vm_compute in Hi; inversion Hi; subst m; vm_compute in A2; discriminate].
  assert (F1 : t1 = RGe /\ m_params c1 = [pa; pb] /\ m_dep c1 = [SVar "w1"] /\ m_indep c1 = []) by (vm_compute in Hi; inversion Hi; subst m; vm_compute in A1; inversion A1; auto).
  assert (F2 : t2 = RGe /\ m_params c2 = [pa; pb] /\ m_dep c2 = [SVar "w2"] /\ m_indep c2 = [vx]) by (vm_compute in Hi; inversion Hi; subst m; vm_compute in A2; inversion A2; auto).
  destruct F1 as (-> & F11 & F12 & F13). destruct F2 as (-> & F21 & F22 & F23). clear Hi.
  set (cons := [{| fc_rel := RGe; fc_om := om_of KModel (fun e => e) oid c1 |}; {| fc_rel := RGe; fc_om := om_of KModel (fun e => e) oid c2 |}]).
  assert (Hic : init_constraints KModel (fun e => e) ESub ENeg oid m eex_us = Ok cons).
  { unfold init_constraints, eex_us. cbn [mapM bind uc_name uc_rel uc_left uc_right]. rewrite A1. cbn [bind]. rewrite A2. reflexivity. }
  assert (Hf : exists f mn, fit_init toward0 (eex_heap fixed) {| fm_om := om_of KModel (fun e => e) oid m; fm_len := List.length aex_es |} cons ODefault MDefault None eex_args eex_kw = Ok f /\
    ft_min f = FMin mn None /\ mi_class mn = SLSQP).
  { unfold cons, om_of. rewrite E1, E2, E3, F11, F12, F13, F21, F22, F23. destruct fixed; eexists _, _; (split; [reflexivity|split; reflexivity]). }
  destruct Hf as (f & mn & Hf & Hmn & Hcl). exists m, cons, f, mn.
  split; [exact Hm|]. split; [exact aex_means|]. split; [exact eex_arith|]. split; [exact HJ|]. split; [exact HH|].
  assert (Hdf : forall v, data_for (om_of KModel (fun e => e) oid m) cons eex_args eex_kw v =
    match given ["x"; "z"; "sigma_z"; "w1"; "sigma_w1"; "w2"; "sigma_w2"]%string eex_args eex_kw (sname v) with Some x => x | None => DataNone end).
  { intros v. unfold data_for, argument_names, cons, om_of. cbn [om_indep om_dep fc_om map]. rewrite E2, E3, F12, F13, F22, F23. reflexivity. }
  assert (Dx : data_for (om_of KModel (fun e => e) oid m) cons eex_args eex_kw vx = DArr (aex_vec 1 2 3)) by (rewrite Hdf; reflexivity).
  assert (Dz : data_for (om_of KModel (fun e => e) oid m) cons eex_args eex_kw vz = DSeq (aex_vec 14 26 46)) by (rewrite Hdf; reflexivity).
  assert (Ds : data_for (om_of KModel (fun e => e) oid m) cons eex_args eex_kw (sigma_of vz) = DNum 2) by (rewrite Hdf; reflexivity).
  assert (Yx : the_data (om_of KModel (fun e => e) oid m) cons eex_args eex_kw vx = Some (aex_vec 1 2 3)) by (unfold the_data; rewrite Dx; reflexivity).
  assert (Yz : the_data (om_of KModel (fun e => e) oid m) cons eex_args eex_kw vz = Some (aex_vec 14 26 46)) by (unfold the_data; rewrite Dz; reflexivity).
  assert (Sz : the_sigma (om_of KModel (fun e => e) oid m) cons eex_args eex_kw vz = Some {| shp := [3%nat]; val := fun _ => 2 |}) by (unfold the_sigma; rewrite Dz, Ds; reflexivity).
  clear Hdf.
  assert (Hg : good_names (om_of KModel (fun e => e) oid m) cons).
  { unfold good_names, argument_names, cons, om_of. cbn [om_indep om_dep fc_om map]. rewrite E2, E3, F12, F13, F22, F23.
    split; [apply nodupb_iff; vm_compute; reflexivity|]. split; [intros c [<-|[<-|[]]]; cbn [fc_om om_indep om_dep]; rewrite ?F12, ?F13, ?F22, ?F23; apply nodupb_iff; vm_compute; reflexivity|apply nodupb_iff; vm_compute; reflexivity]. }
  assert (HG : data_on_grid [3%nat] m (the_data (om_of KModel (fun e => e) oid m) cons eex_args eex_kw) (the_sigma (om_of KModel (fun e => e) oid m) cons eex_args eex_kw)).
  { split. { split; [discriminate|]. split; [intros [H|[]]; discriminate|].
      rewrite E3. intros v [<-|[]]. rewrite Yx. eexists. split; [reflexivity|]. split; [reflexivity|right; reflexivity]. }
    split. { rewrite E2. intros v y [<-|[]] Hy. rewrite Yz in Hy. injection Hy as <-. split; [reflexivity|]. rewrite Sz. eexists. split; [reflexivity|]. split; [reflexivity|]. intros i _. cbn. lra. }
    exists vz. rewrite E2, Yz. split; [left; reflexivity|discriminate]. }
  assert (Hgc : good_constraints aex_es eex_us).
  { intros u Hu. assert (Hn : constraint_name aex_es (uc_left u) (uc_right u) (uc_name u)).
    { destruct Hu as [<-|[<-|[]]]; cbn [uc_left uc_right uc_name];
        (split; [eexists; reflexivity|]; split; [decide_model|]; split; [decide_model|]; split; [decide_model|]; split; [decide_model|];
         intros s [Hs|Hs]; apply mentionsl_ok in Hs; cbn in Hs; intuition (subst; reflexivity)). }
    split; [exact Hn|]. destruct Hu as [<-|[<-|[]]]; cbn; auto. }
  assert (Hcg : constraints_on_grid [3%nat] aex_es eex_us (the_data (om_of KModel (fun e => e) oid m) cons eex_args eex_kw)).
  { intros u v [<-|[<-|[]]] Hv Hp Hnk; cbn [uc_left uc_right] in Hv; exfalso; rewrite !mentionsl_ok in Hv; cbn in Hv; intuition (subst; try discriminate);
      apply Hnk; left; reflexivity. }
  assert (Hch : forall theta, constraints_hold [3%nat] jex_sol eex_us (the_data (om_of KModel (fun e => e) oid m) cons eex_args eex_kw) theta <-> theta pa <= theta pb /\ 1 <= theta pa * 1 /\ 1 <= theta pa * 2 /\ 1 <= theta pa * 3).
  { intros theta. set (Y := the_data (om_of KModel (fun e => e) oid m) cons eex_args eex_kw) in *.
    assert (B1 : forall i, jex_sol (at_data Y theta i) pa = theta pa) by reflexivity.
    assert (B2 : forall i, jex_sol (at_data Y theta i) pb = theta pb) by reflexivity.
    assert (B3 : forall i, jex_sol (at_data Y theta i) vy = theta pa * elem (aex_vec 1 2 3) i).
    { intros i. change (jex_sol (at_data Y theta i) vy) with (at_data Y theta i pa * at_data Y theta i vx). f_equal. unfold at_data. cbn [is_par vx]. rewrite Yx. reflexivity. }
    split.
    - intros Hc. pose proof (fun i => Hc _ i (or_introl eq_refl)) as H1. pose proof (fun i => Hc _ i (or_intror (or_introl eq_refl))) as H2.
      cbn [uc_rel uc_left uc_right holds eval a_num Ralg] in H1, H2.
      split; [rewrite <- (B1 [0%nat]), <- (B2 [0%nat]); apply H1; left; reflexivity|].
      pose proof (H2 [0%nat] (or_introl eq_refl)) as Q0. pose proof (H2 [1%nat] (or_intror (or_introl eq_refl))) as Q1. pose proof (H2 [2%nat] (or_intror (or_intror (or_introl eq_refl)))) as Q2.
      rewrite B3 in Q0, Q1, Q2. auto.
    - intros (K1 & K2 & K3 & K4) u i [<-|[<-|[]]] Hi; cbn [uc_rel uc_left uc_right holds eval a_num Ralg].
      + rewrite B1, B2. exact K1.
      + rewrite B3. destruct Hi as [<-|[<-|[<-|[]]]]; assumption. }
  split; [exact Hgc|]. split; [exact Hic|]. split; [reflexivity|]. cbv zeta. split; [exact Hg|]. split; [apply nodupb_iff; reflexivity|]. split.
  { intros v r Hv. cbn [om_indep om_dep om_of] in Hv. rewrite E2, E3 in Hv. destruct Hv as [<-|[<-|[]]]; [rewrite Dx|rewrite Dz]; discriminate. }
  split; [split; discriminate|]. split; [exact HG|]. split; [exact Hcg|]. split; [exact Hf|]. split; [exact Hmn|]. split; [exact Hcl|]. split; [exact Hch|].
  apply (eex_minimises toward0 fixed m eex_us cons f mn); auto.
  intros theta Ha Hb. apply Hch. rewrite Ha, Hb. lra.
Qed.
