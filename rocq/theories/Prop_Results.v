(** * Prop_Results: C46-C49, results of a fit (symfit/core/fit_results.py). *)
From Coq Require Import Reals Lra Lia.
From Verif Require Import PyBase PyFacts Signature SignatureFacts Expr NumPy NumFacts Objective ObjSpec ObjFacts ObjExample Minimizer MinSpec MinFacts Fit FitSpec FitExample Results ResultsSpec ResultsFacts ResultsMore ResultsExample.
Local Open Scope R_scope.
Local Open Scope string_scope.
Local Open Scope list_scope.

(** ** C46 *)
Theorem C46_lookups : forall ps popt cov k l p q v,
  NoDup (map sname ps) -> nth_error ps k = Some p -> nth_error ps l = Some q -> nth_error popt k = Some v -> square (List.length ps) cov ->
  value (result_params ps popt) p = Ok v /\
  variance ps (Some cov) p = Ok (Some (mat cov k k)) /\
  stdev ps (Some cov) p = Ok (Some (sqrt (mat cov k k))) /\
  param_covariance ps (Some cov) p q = Ok (mat cov k l) /\
  variance ps None p = Ok None /\ stdev ps None p = Ok None.
Proof.
  intros ps popt cov k l p q v Hn Hk Hl Hv Hc. pose proof (NoDup_map_of _ _ Hn) as Hn'.
  assert (Hlt : (k < List.length ps)%nat) by (apply nth_error_Some; congruence). assert (Hlt' : (l < List.length ps)%nat) by (apply nth_error_Some; congruence).
  split; [unfold value, dlook; rewrite (result_lookup ps popt k p v Hn Hk Hv); reflexivity|].
  unfold stdev, variance, param_covariance. rewrite (param_index_nth ps p k Hn' Hk), (param_index_nth ps q l Hn' Hl). cbn [bind].
  rewrite (index2_square _ cov k k Hc Hlt Hlt), (index2_square _ cov k l Hc Hlt Hlt'). repeat split.
Qed.
Print Assumptions C46_lookups.
(** A parameter that is not in the model: KeyError and ValueError, never the entry of another parameter. *)
Theorem C46_foreign_parameter : forall ps popt cov p q,
  ~ In (sname p) (map sname ps) ->
  value (result_params ps popt) p = Raise KeyError /\ variance ps cov p = Raise ValueError /\ stdev ps cov p = Raise ValueError /\
  param_covariance ps cov p q = Raise ValueError.
Proof.
  intros ps popt cov p q H. assert (H' : ~ In p ps) by (intros Hi; apply H; apply in_map; exact Hi).
  split.
  - unfold value, dlook. destruct (dget (result_params ps popt) (sname p)) eqn:E; [|reflexivity]. exfalso. apply H.
    unfold result_params, dict_of in E. rewrite dget_dupdate in E. cbn [dget] in E. destruct (dget (rev _) _) eqn:E'; [|discriminate].
    apply dget_In in E'. apply in_rev in E'. apply in_combine_l in E'. exact E'.
  - unfold stdev, variance, param_covariance. rewrite (param_index_absent ps p H'). repeat split.
Qed.
Print Assumptions C46_foreign_parameter.
(** End to end: what a Fit reports for the number [k] parameter. *)
Theorem C46_fit_report : forall inv h om f x fv rp k p,
  interface om -> List.length x = nfree h (om_params om) -> nth_error (om_params om) k = Some p ->
  fit_report inv h om f x fv = Ok rp ->
  (p_fixed (h p) = true -> value (rp_params rp) p = Ok (p_value (h p))) /\
  (forall i v, nth_error (free_of_list h (om_params om)) i = Some p -> nth_error x i = Some v -> value (rp_params rp) p = Ok v) /\
  (rp_cov rp = None -> variance (om_params om) (rp_cov rp) p = Ok None /\ stdev (om_params om) (rp_cov rp) p = Ok None) /\
  (forall c, rp_cov rp = Some c -> square (List.length (om_params om)) c ->
     variance (om_params om) (rp_cov rp) p = Ok (Some (mat c k k)) /\ stdev (om_params om) (rp_cov rp) p = Ok (Some (sqrt (mat c k k)))).
Proof.
  intros inv h om f x fv rp k p Hi Hl Hk H. unfold fit_report in H. apply bind_Ok in H as (popt & Hp & H). apply bind_Ok in H as (g & _ & H). apply bind_Ok in H as (cov & _ & H).
  injection H as <-. cbn [rp_params rp_cov]. pose proof (params_names om Hi) as Hn. pose proof (NoDup_map_of _ _ Hn) as Hn'.
  destruct (pack_ok h (om_params om) x Hl) as (popt' & Hp' & Hlen & Hfix & Hfree). rewrite Hp in Hp'. injection Hp' as <-.
  assert (Hlt : (k < List.length (om_params om))%nat) by (apply nth_error_Some; congruence).
  split; [intros Hf; unfold value, dlook; rewrite (result_lookup (om_params om) popt k p _ Hn Hk (Hfix k p Hk Hf)); reflexivity|].
  split; [intros i v Hpi Hv; unfold value, dlook; rewrite (result_lookup (om_params om) popt k p v Hn Hk); [reflexivity|]; rewrite (Hfree p i k Hn' (conj Hpi Hk)); exact Hv|].
  unfold stdev, variance. rewrite (param_index_nth _ p k Hn' Hk). cbn [bind].
  split; [intros ->; split; reflexivity|]. intros c -> Hc. rewrite (index2_square _ c k k Hc Hlt Hlt). split; reflexivity.
Qed.
Print Assumptions C46_fit_report.
(** Without a covariance matrix [covariance(p, q)] raises (variance and stdev give None). *)
Theorem C46_covariance_none_refuted : forall ps p q, NoDup ps -> In p ps -> In q ps -> param_covariance ps None p q = Raise TypeError.
Proof.
  intros ps p q Hn Hp Hq. apply In_nth_error in Hp as (k & Hk). apply In_nth_error in Hq as (l & Hl).
  unfold param_covariance. rewrite (param_index_nth ps p k Hn Hk), (param_index_nth ps q l Hn Hl). reflexivity.
Qed.
Print Assumptions C46_covariance_none_refuted.
Example C46_example : exists rp c,
  fit_report (fun _ => Ok (cov2 4)) ex_heap ex_om (ex_fit 2) [2; 1] (scalar 0) = Ok rp /\ rp_cov rp = Some c /\ square 2 c /\
  value (rp_params rp) (SPar "b") = Ok 1 /\ stdev (om_params ex_om) (rp_cov rp) (SPar "b") = Ok (Some (sqrt (1 * 4))).
Proof. do 2 eexists. split; [reflexivity|]. split; [reflexivity|]. split; [reflexivity|]. split; reflexivity. Qed.

(** ** C47 *)
(** scipy reports in [f] the value of the objective at its answer [x]. *)
Theorem C47_least_squares : forall h om data ob x popt out f,
  created false om data ob [] -> List.length x = nfree h (om_params om) -> pack_output h (om_params om) x = Ok popt ->
  value_at h om data x [] out -> fits_data om data out -> comparable_shapes om data out ->
  obj_value OLS h om ob x [] = Ok f ->
  exists g, gof_qualifiers OLS om (ob_data ob) (result_params (om_params om) popt) f = Ok g /\
    (exists o, dget g "objective_value" = Some o /\ shp o = [] /\ val o [] = / 2 * Rsum (map (chi2_of data out) (om_dep om))) /\
    (exists c, dget g "chi_squared" = Some c /\ shp c = [] /\ val c [] = Rsum (map (chi2_of data out) (om_dep om))) /\
    (exists r, dget g "r_squared" = Some (scalar r) /\ r = 1 - residual_ss data out (om_dep om) / total_ss data (om_dep om)).
Proof. exact gof_least_squares. Qed.
Print Assumptions C47_least_squares.
(** For data sets of one shape; for others see C24_unequal_shapes_refuted. *)
Theorem C47_vector_least_squares : forall h om data ob S x popt out f,
  created false om data ob [] -> (forall v y, In v (om_dep om) -> observed data v = Some y -> shp y = S) -> some_data om data ->
  List.length x = nfree h (om_params om) -> pack_output h (om_params om) x = Ok popt ->
  value_at h om data x [] out -> fits_data om data out -> comparable_shapes om data out ->
  obj_value OVLS h om ob x [] = Ok f ->
  exists g, gof_qualifiers OVLS om (ob_data ob) (result_params (om_params om) popt) f = Ok g /\ dget g "objective_value" = Some f /\
    (exists c, dget g "chi_squared" = Some (scalar c) /\ c = Rsum (map (chi2_of data out) (om_dep om))) /\
    (exists r, dget g "r_squared" = Some (scalar r) /\ r = 1 - residual_ss data out (om_dep om) / total_ss data (om_dep om)).
Proof. exact gof_vector. Qed.
Print Assumptions C47_vector_least_squares.
Theorem C47_log_likelihood : forall h om data ob x popt out f,
  created true om data ob [] -> List.length x = nfree h (om_params om) -> pack_output h (om_params om) x = Ok popt ->
  value_at h om data x [] out -> obj_value OLL h om ob x [] = Ok f ->
  exists g, gof_qualifiers OLL om (ob_data ob) (result_params (om_params om) popt) f = Ok g /\
    dget g "objective_value" = Some f /\ dget g "r_squared" = None /\ dget g "chi_squared" = None /\
    (exists l, dget g "log_likelihood" = Some l /\ shp l = [] /\ val l [] = Rsum (map ln (all_values out (om_dep om)))) /\
    (exists l, dget g "likelihood" = Some l /\ shp l = [] /\ (all_positive (om_dep om) out -> val l [] = Rprod (all_values out (om_dep om)))).
Proof. exact gof_likelihood. Qed.
Print Assumptions C47_log_likelihood.
(** The number called r_squared is at most 1, and 1 exactly for a perfect fit. *)
Theorem C47_r_squared_range : forall om data out, varied om data ->
  1 - residual_ss data out (om_dep om) / total_ss data (om_dep om) <= 1 /\
  (1 - residual_ss data out (om_dep om) / total_ss data (om_dep om) = 1 <-> perfect om data out).
Proof.
  intros om data out Hv. pose proof (total_positive om data Hv) as Ht. pose proof (residual_nonneg data out (om_dep om)) as Hr.
  assert (Hd : 0 <= residual_ss data out (om_dep om) / total_ss data (om_dep om)) by (apply Rmult_le_pos; [assumption|left; apply Rinv_0_lt_compat; assumption]).
  split; [lra|]. rewrite <- residual_zero. split.
  - intros H. assert (H0 : residual_ss data out (om_dep om) / total_ss data (om_dep om) = 0) by lra. unfold Rdiv in H0. apply Rmult_integral in H0 as [H0|H0]; [exact H0|].
    exfalso. pose proof (Rinv_0_lt_compat _ Ht). lra.
  - intros ->. unfold Rdiv. lra.
Qed.
Print Assumptions C47_r_squared_range.
(** Goodness of fit is looked up by attribute: the entry, or AttributeError. *)
Theorem C47_attributes : forall g item, (forall v, dget g item = Some v -> get_qualifier g item = Ok v) /\ (dget g item = None -> get_qualifier g item = Raise AttributeError).
Proof. intros g item. unfold get_qualifier. split; [intros v ->|intros ->]; reflexivity. Qed.
Print Assumptions C47_attributes.
(** The objective stretches a component of shape (n,) to data of shape (n, m); r_squared does not: the
    perfect fit has r_squared -1 for n = m = 2, and the fit fails for n = 3, m = 2. *)
Theorem C47_r_squared_refuted : 
  (exists data ob out popt, created false ex_om data ob [] /\ value_at (fun _ => ex_free) ex_om data [1; 0] [] out /\ fits_data ex_om data out /\ perfect ex_om data out /\
     pack_output (fun _ => ex_free) (om_params ex_om) [1; 0] = Ok popt /\ ls_call true (fun _ => ex_free) ex_om ob [1; 0] [] = Ok 0 /\
     r_squared ex_om (result_params (om_params ex_om) popt) data = Ok (-1)) /\
  (exists data ob out popt, created false ex_om data ob [] /\ value_at (fun _ => ex_free) ex_om data [1; 0] [] out /\ fits_data ex_om data out /\ perfect ex_om data out /\
     pack_output (fun _ => ex_free) (om_params ex_om) [1; 0] = Ok popt /\ ls_call true (fun _ => ex_free) ex_om ob [1; 0] [] = Ok 0 /\
     r_squared ex_om (result_params (om_params ex_om) popt) data = Raise ValueError).
Proof.
  split.
  - exists (rep_data 2 2), (rep_ob 2 2), (rep_out 2), [1; 0]. split; [apply rep_created|]. split; [apply rep_value|]. split; [apply rep_fits|]. split; [apply rep_perfect|].
    split; [reflexivity|]. split; [apply rep_ls|exact rep_wrong].
  - exists (rep_data 3 2), (rep_ob 3 2), (rep_out 3), [1; 0]. split; [apply rep_created|]. split; [apply rep_value|]. split; [apply rep_fits|]. split; [apply rep_perfect|].
    split; [reflexivity|]. split; [apply rep_ls|exact rep_fails].
Qed.
Print Assumptions C47_r_squared_refuted.
Example C47_example : created false ex_om ex_data ex_ob [] /\ List.length [2; 1] = nfree (fun _ => ex_free) (om_params ex_om) /\
  pack_output (fun _ => ex_free) (om_params ex_om) [2; 1] = Ok [2; 1] /\ value_at (fun _ => ex_free) ex_om ex_data [2; 1] [] (ex_out 2 1) /\
  fits_data ex_om ex_data (ex_out 2 1) /\ comparable_shapes ex_om ex_data (ex_out 2 1) /\ (exists f, obj_value OLS (fun _ => ex_free) ex_om ex_ob [2; 1] [] = Ok f) /\
  (exists f, obj_value OVLS (fun _ => ex_free) ex_om ex_ob [2; 1] [] = Ok f) /\ varied ex_om (rep_data 2 2).
Proof.
  split; [exact ex_created|]. split; [reflexivity|]. split; [reflexivity|]. split; [apply ex_value|]. split; [apply ex_fits|].
  split; [intros v y Hv Hy; destruct (ex_observed v y Hv Hy) as [-> ->]; split; [reflexivity|right; reflexivity]|].
  split; [eexists; reflexivity|]. split; [eexists; reflexivity|].
  exists (SVar "y"), (ynm 2 2), [0%nat; 0%nat], [0%nat; 1%nat]. split; [left; reflexivity|]. split; [reflexivity|]. split; [simpl; auto|]. split; [simpl; auto|]. simpl. lra.
Qed.

(** ** C48 *)
(** Class, parameters and the classes of the minimizers of a chain survive. *)
Theorem C48_pickle_classes : forall h m, (forall s, In s (sub_minimizers m) -> is_chain s = false) ->
  exists m', setstate h (getstate m) = Ok m' /\ type_of m' = type_of m /\ parameters_of m' = parameters_of m /\
             map type_of (sub_minimizers m') = map type_of (sub_minimizers m).
Proof. exact pickle_kind. Qed.
Print Assumptions C48_pickle_classes.
(** Nothing else does: the minimizer has no Jacobian, Hessian, constraints or initial guesses any more, and the
    fixed parameters are those of today. *)
Theorem C48_pickle_rest_is_lost : forall h m local, exists m' local', setstate h (getstate (FMin m local)) = Ok (FMin m' local') /\
  mi_class m' = mi_class m /\ mi_parameters m' = mi_parameters m /\
  mi_params m' = filter (fun p => negb (p_fixed (h p))) (mi_parameters m) /\
  mi_jacobian m' = None /\ mi_hessian m' = None /\ mi_cons m' = [] /\ mi_guess m' = None.
Proof. exact pickle_bare. Qed.
Print Assumptions C48_pickle_rest_is_lost.

(** A minimizer that uses neither derivatives nor constraints, made by Fit, is restored completely. *)
Theorem C48_pickle_gradient_free : forall h om cons data c ob cls m,
  init_class h om cons data c ob cls = Ok m -> is_gradient cls = false -> is_constrained cls = false -> cls <> BasinHopping ->
  setstate h (getstate (FMin m None)) = Ok (FMin m None).
Proof. exact pickle_same. Qed.
Print Assumptions C48_pickle_gradient_free.
Theorem C48_pickle_refuted :
  (exists f m, slsqp_fit = Ok f /\ ft_min f = FMin m None /\ mi_class m = SLSQP /\
     List.length (mi_cons m) = 1%nat /\ (exists j, mi_jacobian m = Some j) /\
     exists m', setstate ex_heap (getstate (ft_min f)) = Ok (FMin m' None) /\ mi_class m' = SLSQP /\ mi_cons m' = [] /\ mi_jacobian m' = None /\
       (exists g, pb_jac (execute_problem ex_heap m DNone DNone) = DFun g) /\ pb_jac (execute_problem ex_heap m' DNone DNone) = DNone) /\
  (exists f m l m' l', fit_init (fun r => r) bounded_heap ex_fm [] ODefault (MItem (MCls BasinHopping)) None [DArr ex_x; DArr ex_y] [] = Ok f /\
     ft_min f = FMin m (Some l) /\ mi_class l = LBFGSB /\
     setstate bounded_heap (getstate (ft_min f)) = Ok (FMin m' (Some l')) /\ mi_class l' = BFGS) /\
  (forall h ps l m, In m l -> is_chain m = true -> setstate h (getstate (FChain ps l)) = Raise TypeError).
Proof. split; [exact slsqp_lost|]. split; [exact basin_lost|exact pickle_nested]. Qed.
Print Assumptions C48_pickle_refuted.
Example C48_example : exists m f, init_class ex_heap ex_om [] [] OLS ex_ob NelderMead = Ok m /\
  fit_init (fun r => r) ex_heap ex_fm [] ODefault (MSeq [MCls NelderMead; MCls BFGS]) None [DArr ex_x; DArr ex_y] [] = Ok f /\
  map type_of (sub_minimizers (ft_min f)) = [TMin NelderMead; TMin BFGS] /\ (forall s, In s (sub_minimizers (ft_min f)) -> is_chain s = false).
Proof. do 2 eexists. split; [reflexivity|]. split; [reflexivity|]. split; [reflexivity|]. intros s [<-|[<-|[]]]; reflexivity. Qed.

(** ** C49 *)
(** Without arrays: always a boolean, True exactly when all entries agree. *)
Theorem C49_plain : forall o o' d e, plain (VDict o d) -> plain (VDict o' e) -> (forall k, In k (map fst d) -> In k (map fst e)) ->
  exists b, safe_dict_eq (VDict o d) (VDict o' e) = Ok b /\ (b = true <-> forall k v w, In (k, v) d -> dget e k = Some w -> agrees k v w).
Proof. exact plain_dicts. Qed.
Print Assumptions C49_plain.
(** With arrays: True when all entries agree (arrays up to np.allclose). *)
Theorem C49_equal : forall o o' d e, (forall k v, In (k, v) d -> exists w, dget e k = Some w /\ agrees k v w) ->
  safe_dict_eq (VDict o d) (VDict o' e) = Ok true.
Proof. intros o o' d e H. rewrite safe_dict, <- (app_nil_r d). rewrite safe_agree by exact H. reflexivity. Qed.
Print Assumptions C49_equal.
(** The first difference decides: False when it is not an array, an AssertionError instead of
    False when it is one. *)
Theorem C49_first_difference : forall o o' d1 k v d2 e w,
  (forall k v, In (k, v) d1 -> exists w, dget e k = Some w /\ agrees k v w) -> dget e k = Some w ->
  (plain_difference k v w -> safe_dict_eq (VDict o (d1 ++ (k, v) :: d2)) (VDict o' e) = Ok false) /\
  (array_difference k v w -> safe_dict_eq (VDict o (d1 ++ (k, v) :: d2)) (VDict o' e) = Raise AssertionError).
Proof.
  intros o o' d1 k v d2 e w H Hw. rewrite safe_dict, safe_agree by exact H. split; intros Hd; [exact (safe_plain_difference k v w d2 o' e Hw Hd)|exact (safe_array_difference k v w d2 o' e Hw Hd)].
Qed.
Print Assumptions C49_first_difference.
(** Other first differences: an entry the other one lacks is a KeyError, even of a key the other does not need; empty
    arrays are never equal; None on one side and an array of two or more numbers on the other is a TypeError. *)
Theorem C49_other_differences : forall o o' d1 k v d2 e,
  (forall k v, In (k, v) d1 -> exists w, dget e k = Some w /\ agrees k v w) -> k <> "minimizer" -> k <> "minimizer_output" ->
  (dget e k = None -> safe_dict_eq (VDict o (d1 ++ (k, v) :: d2)) (VDict o' e) = Raise KeyError) /\
  (forall w, dget e k = Some w -> empty_arrays v w -> safe_dict_eq (VDict o (d1 ++ (k, v) :: d2)) (VDict o' e) = Ok false) /\
  (forall w, dget e k = Some w -> none_and_array v w -> safe_dict_eq (VDict o (d1 ++ (k, v) :: d2)) (VDict o' e) = Raise TypeError).
Proof.
  intros o o' d1 k v d2 e H Hk1 Hk2. rewrite safe_dict, safe_agree by exact H. cbn [safe_go]. fold (safe_go (VDict o' e)).
  destruct (eqb k "minimizer_output") eqn:E1; [apply (proj1 (eqb_true _ _)) in E1; contradiction|]. destruct (eqb k "minimizer") eqn:E2; [apply (proj1 (eqb_true _ _)) in E2; contradiction|].
  cbn [subscript]. unfold dlook. split; [intros ->; reflexivity|]. split; intros w -> Hw; cbn [of_opt].
  - destruct Hw as (a & b & -> & -> & Hs & Hi). cbn [py_eq]. unfold array_eq. rewrite <- Hs, bshape_self, Hi. reflexivity.
  - destruct Hw as (a & Hn & Hw). assert (Hc : compare_none a = Raise ValueError) by (unfold compare_none; destruct (Nat.leb_spec (List.length (indices (shp a))) 1); [lia|reflexivity]).
    destruct Hw as [(-> & ->)|(-> & ->)]; cbn [py_eq]; rewrite Hc; reflexivity.
Qed.
Print Assumptions C49_other_differences.
Theorem C49_arrays_refuted : exists d e, map fst d = map fst e /\ NoDup (map fst d) /\ safe_dict_eq (VDict false d) (VDict false e) = Raise AssertionError.
Proof.
  exists (res_dict "ok" 3), (res_dict "ok" 0). split; [reflexivity|]. split; [apply nodupb_iff; vm_compute; reflexivity|].
  apply (C49_first_difference false false [("minimizer", VObj 0 1); ("status_message", VStr "ok"); ("params", VDict true [("a", VNum 1); ("b", VNum 2)])]
           "covariance_matrix" (VArr (cov2 3)) [] (res_dict "ok" 0) (VArr (cov2 0))).
  - assert (Hp : plain (VDict true [("a", VNum 1); ("b", VNum 2)])).
    { constructor; [intros k v [Hq|[Hq|[]]]; inversion Hq; constructor|apply nodupb_iff; vm_compute; reflexivity]. }
    intros k v [Hq|[Hq|[Hq|[]]]]; inversion Hq; subst; clear Hq; eexists; (split; [reflexivity|]).
    + right. left. split; reflexivity.
    + right. right. split; [discriminate|]. split; [discriminate|]. left. split; [constructor|]. split; constructor.
    + right. right. split; [discriminate|]. split; [discriminate|]. left. split; [exact Hp|]. split; [exact Hp|].
      apply same_dict; [reflexivity|reflexivity| |].
      * intros k v [Hq|[Hq|[]]]; inversion Hq; simpl; auto.
      * intros k v w [Hq|[Hq|[]]] Hw; inversion Hq; subst; vm_compute in Hw; inversion Hw; eapply same_num; left; reflexivity.
  - reflexivity.
  - split; [discriminate|]. split; [discriminate|]. exists (cov2 3), (cov2 0). split; [split; [reflexivity|]; split; [reflexivity|]; split; [reflexivity|simpl; lia]|].
    intros H. specialize (H [0%nat; 0%nat] (or_introl eq_refl)). simpl in H. rewrite Rabs_R0, Rminus_0_r, Rabs_right in H by lra. lra.
Qed.
Print Assumptions C49_arrays_refuted.
