(** * Prop_Fit: C40-C44, Fit. *)
From Coq Require Import Reals Lra.
From Verif Require Import PyBase PyFacts SignatureFacts Expr NumPy Objective ObjSpec ObjExample Minimizer Fit FitSpec FitData FitMain FitLik FitExample.
Local Open Scope R_scope.
Local Open Scope string_scope.
Local Open Scope list_scope.

(** ** C40: data is linked to variables by position or by name. *)
(** Without constraints the positional order is: independent, dependent, sigmas. *)
Theorem C40_positional_order : forall om, good_names om [] ->
  argument_names om [] = map sname (om_indep om ++ om_dep om) ++ map (fun v => append "sigma_" (sname v)) (om_dep om).
Proof. intros om H. rewrite (argument_names_model om H), !map_app, map_map, app_assoc. reflexivity. Qed.
Print Assumptions C40_positional_order.

Theorem C40_data_linked : forall toward0 h fm cons o m absolute args kw f,
  good_names (fm_om fm) cons -> NoDup (dkeys kw) -> fit_init toward0 h fm cons o m absolute args kw = Ok f ->
  well_formed (argument_names (fm_om fm) cons) args kw /\
  (forall v, In v (om_indep (fm_om fm) ++ om_dep (fm_om fm)) ->
     stored (ft_data f) v = Some (as_given (data_for (fm_om fm) cons args kw v))) /\
  (forall c v, In c cons -> In v (om_indep (fc_om c)) -> ~ In (sname v) (map sname (vars_of (fm_om fm))) ->
     (forall c2 w, In c2 cons -> In w (vars_of (fc_om c2)) -> sname w = sname v -> w = v) ->
     stored (ft_data f) v = Some (as_given (data_for (fm_om fm) cons args kw v))).
Proof. intros toward0 h fm cons o m absolute args kw f Hg Hk Hf. exact (fit_stored toward0 h fm cons o m absolute Hg args kw f Hk Hf). Qed.
Print Assumptions C40_data_linked.

Theorem C40_split_independent : forall toward0 h fm cons o m absolute args1 kw1 args2 kw2,
  good_names (fm_om fm) cons ->
  well_formed (argument_names (fm_om fm) cons) args1 kw1 -> well_formed (argument_names (fm_om fm) cons) args2 kw2 ->
  (forall n, given (argument_names (fm_om fm) cons) args1 kw1 n = given (argument_names (fm_om fm) cons) args2 kw2 n) ->
  fit_init toward0 h fm cons o m absolute args1 kw1 = fit_init toward0 h fm cons o m absolute args2 kw2.
Proof. intros toward0 h fm cons o m absolute args1 kw1 args2 kw2 Hg. exact (fit_split toward0 h fm cons o m absolute Hg args1 kw1 args2 kw2). Qed.
Print Assumptions C40_split_independent.

Theorem C40_wrong_arguments_rejected : forall toward0 h fm cons o m absolute args kw,
  good_names (fm_om fm) cons -> NoDup (dkeys kw) -> ~ well_formed (argument_names (fm_om fm) cons) args kw ->
  fit_init toward0 h fm cons o m absolute args kw = Raise TypeError.
Proof. intros toward0 h fm cons o m absolute args kw Hg. exact (fit_ill_formed toward0 h fm cons o m absolute Hg args kw). Qed.
Print Assumptions C40_wrong_arguments_rejected.

(** With data for all independent and dependent variables, sigmas may be omitted. *)
Theorem C40_sigmas_optional : forall fm cons o m absolute args kw c,
  good_names (fm_om fm) cons -> well_formed (argument_names (fm_om fm) cons) args kw ->
  o = OClass c \/ (exists ob, o = OInst c ob) \/ (o = ODefault /\ om_dep (fm_om fm) <> []) ->
  (forall v, In v (om_indep (fm_om fm) ++ om_dep (fm_om fm) ++ concat (map (fun c => om_indep (fc_om c)) cons)) ->
     given (argument_names (fm_om fm) cons) args kw (sname v) <> None) ->
  (forall v, In v (om_dep (fm_om fm)) -> spreadable (data_for (fm_om fm) cons args kw v) (data_for (fm_om fm) cons args kw (sigma_of v))) ->
  c = OLS \/ c = OVLS ->
  exists c' t, fit_data fm cons o m absolute args kw = Ok (c', t).
Proof. intros fm cons o m absolute args kw c Hg. intros Hw Ho Hr Hs Hc. apply (fit_data_succeeds fm cons o m absolute Hg args kw c Hw Ho Hr Hs). destruct Hc as [-> | ->]; reflexivity. Qed.
Print Assumptions C40_sigmas_optional.

(** Data missing for an independent or dependent variable (or an independent variable of a constraint) is an
    error for the least squares objectives: a TypeError, or the warning that an ODEModel was meant. *)
Theorem C40_missing_data_rejected : forall toward0 h fm cons o m absolute args kw c v,
  good_names (fm_om fm) cons -> well_formed (argument_names (fm_om fm) cons) args kw ->
  o = OClass c \/ (exists ob, o = OInst c ob) -> c = OLS \/ c = OVLS ->
  In v (om_indep (fm_om fm) ++ om_dep (fm_om fm) ++ concat (map (fun c => om_indep (fc_om c)) cons)) ->
  given (argument_names (fm_om fm) cons) args kw (sname v) = None ->
  exists e, fit_init toward0 h fm cons o m absolute args kw = Raise e /\ missing_data_error (om_indep (fm_om fm) ++ om_dep (fm_om fm) ++ map sigma_of (om_dep (fm_om fm))) e.
Proof.
  intros toward0 h fm cons o m absolute args kw c v Hg Hw Ho Hc Hv Hn. eexists. split; [|exact (bind_error_spec _)].
  exact (missing_rejected toward0 h fm cons m absolute args kw Hg (proj1 (proj2 Hw)) o c v Ho Hc Hw Hv Hn).
Qed.
Print Assumptions C40_missing_data_rejected.
(** Model without derivatives: TypeError; with one and ordinary names: RuntimeWarning. *)
Example C40_missing_example :
  (forall e, missing_data_error [SVar "x"; SVar "y"; SVar "sigma_y"] e -> e = TypeError) /\
  (forall e, missing_data_error [SVar "t"; SDer "y" ["t"]; SVar "s"] e -> e = RuntimeWarning) /\
  (forall e, missing_data_error [SVar "var_0"; SDer "y" ["t"]] e -> e = TypeError) /\
  (forall toward0, fit_init toward0 ex_heap ex_fm [] (OClass OLS) MDefault None [DArr ex_x] [] = Raise TypeError).
Proof.
  split; [|split; [|split]].
  - intros e ([He|He] & H); [exact He|]. exfalso. apply (proj1 H) in He as (pre & y & ps & post & E & _).
    do 3 (destruct pre as [|? pre]; [discriminate|apply (f_equal (@tl sym)) in E; cbn [tl app] in E]). destruct pre; discriminate.
  - intros e (_ & H). apply H. exists [SVar "t"], "y", ["t"], [SVar "s"]. split; [reflexivity|]. intros w [<-|[<-|[]]]; reflexivity.
  - intros e ([He|He] & H); [exact He|]. exfalso. apply (proj1 H) in He as (pre & y & ps & post & E & Hn).
    destruct pre as [|u pre]; [discriminate|]. apply (f_equal (fun l => hd u l)) in E. cbn [hd app] in E. specialize (Hn u (or_introl eq_refl)). rewrite <- E in Hn. discriminate.
  - intros toward0. reflexivity.
Qed.

Example C40_example : forall toward0,
  good_names ex_om [] /\ well_formed (argument_names ex_om []) [DArr ex_x] (ex_kw (DNum 2)) /\
  well_formed (argument_names ex_om []) [DArr ex_x; DArr ex_y] [("sigma_y", DNum 2)] /\
  fit_init toward0 ex_heap ex_fm [] ODefault MDefault None [DArr ex_x] (ex_kw (DNum 2)) = Ok (ex_fit 2) /\
  fit_init toward0 ex_heap ex_fm [] ODefault MDefault None [DArr ex_x; DArr ex_y] [("sigma_y", DNum 2)] = Ok (ex_fit 2) /\
  fit_init toward0 ex_heap ex_fm [] ODefault MDefault None [DArr ex_x; DArr ex_y; DNum 2; DNum 3] [] = Raise TypeError.
Proof.
  intros toward0. split; [exact ex_good|].
  assert (Hw : forall (a : list datum) (k : dict string datum), (List.length a <= 3)%nat -> NoDup (dkeys k) -> (forall n, In n (firstn (List.length a) ["x"; "y"; "sigma_y"]) -> ~ In n (dkeys k)) ->
    (forall n, In n (dkeys k) -> In n ["x"; "y"; "sigma_y"]) -> well_formed (argument_names ex_om []) a k) by (intros; split; [|split; [|split]]; assumption).
  split; [apply Hw; cbn; [lia|apply nodupb_iff; vm_compute; reflexivity|intros n [<-|[]] [H|[H|[]]]; discriminate|intros n [<-|[<-|[]]]; auto]|].
  split; [apply Hw; cbn; [lia|apply nodupb_iff; vm_compute; reflexivity|intros n [<-|[<-|[]]] [H|[]]; discriminate|intros n [<-|[]]; auto]|].
  split; [apply ex_fit_ok|]. split; reflexivity.
Qed.

(** ** C41 *)
Theorem C41_sigmas : forall toward0 h fm cons o m absolute args kw f,
  good_names (fm_om fm) cons -> NoDup (dkeys kw) -> fit_init toward0 h fm cons o m absolute args kw = Ok f ->
  (forall v, In v (om_dep (fm_om fm)) ->
     stored (ft_data f) (sigma_of v) =
       Some (expected_sigma (data_for (fm_om fm) cons args kw v) (data_for (fm_om fm) cons args kw (sigma_of v)))) /\
  (ft_absolute f = true <-> absolute = Some true \/
     (absolute = None /\ exists v, In v (om_dep (fm_om fm)) /\ data_for (fm_om fm) cons args kw (sigma_of v) <> DataNone)).
Proof. intros toward0 h fm cons o m absolute args kw f Hg Hk Hf. exact (fit_sigmas toward0 h fm cons o m absolute Hg args kw f Hk Hf). Qed.
Print Assumptions C41_sigmas.

(** The standard deviations of [y] are passed as the argument sigma_y. *)
Theorem C41_sigma_argument : forall om cons args kw v,
  data_for om cons args kw (sigma_of v) =
  match given (argument_names om cons) args kw ("sigma_" ++ sname v)%string with Some x => x | None => DataNone end.
Proof. reflexivity. Qed.
Print Assumptions C41_sigma_argument.

(** A dependent variable given as a Python number has no [.shape]: the documented
    default does not exist for it.  A 0-dimensional numpy sigma cannot be spread. *)
Theorem C41_number_data_refuted : forall toward0,
  fit_init toward0 ex_heap ex_fm [] ODefault MDefault None [DArr ex_x; DNum 3] [] = Raise AttributeError /\
  fit_init toward0 ex_heap ex_fm [] ODefault MDefault None [DArr ex_x; DArr ex_y; DArr (scalar 1)] [] = Raise ValueError.
Proof. intros toward0. split; [apply bare_dependent|apply zero_dim_sigma]. Qed.
Print Assumptions C41_number_data_refuted.

(** ** C42 *)
Theorem C42_default_minimizer : forall toward0 h fm cons o absolute args kw f, NoDup (om_params (fm_om fm)) ->
  fit_init toward0 h fm cons o MDefault absolute args kw = Ok f ->
  exists mn, ft_min f = FMin mn None /\ expected_minimizer h (fm_om fm) cons (mi_class mn) /\ equipped h (fm_om fm) cons f mn.
Proof. exact default_minimizer. Qed.
Print Assumptions C42_default_minimizer.

(** A class given by the user is used, equipped with the parameters, derivatives and constraints of the fit
    where it takes them.  BasinHopping gets the default minimizer of the fit as its local minimizer. *)
Theorem C42_chosen_minimizer : forall toward0 h fm cons o cls absolute args kw f, NoDup (om_params (fm_om fm)) ->
  fit_init toward0 h fm cons o (MItem (MCls cls)) absolute args kw = Ok f ->
  exists mn local, ft_min f = FMin mn local /\ mi_class mn = cls /\ equipped h (fm_om fm) cons f mn /\
    match local with
    | None => cls <> BasinHopping
    | Some l => cls = BasinHopping /\ expected_minimizer h (fm_om fm) cons (mi_class l) /\ equipped h (fm_om fm) cons f l
    end.
Proof. exact chosen_minimizer. Qed.
Print Assumptions C42_chosen_minimizer.

Theorem C42_chain_in_given_order : forall toward0 h fm cons o l absolute args kw f, NoDup (om_params (fm_om fm)) ->
  fit_init toward0 h fm cons o (MSeq (map MCls l)) absolute args kw = Ok f ->
  exists ms, ft_min f = FChain (om_params (fm_om fm)) ms /\
    Forall2 (fun cls x => exists mn local, x = FMin mn local /\ mi_class mn = cls /\ equipped h (fm_om fm) cons f mn /\
      match local with
      | None => cls <> BasinHopping
      | Some l => cls = BasinHopping /\ expected_minimizer h (fm_om fm) cons (mi_class l) /\ equipped h (fm_om fm) cons f l
      end) l ms.
Proof. exact chosen_chain. Qed.
Print Assumptions C42_chain_in_given_order.

Theorem C42_default_objective : forall toward0 h fm cons m absolute args kw f v vs,
  good_names (fm_om fm) cons -> NoDup (dkeys kw) -> fit_init toward0 h fm cons ODefault m absolute args kw = Ok f ->
  om_dep (fm_om fm) = v :: vs ->
  expected_objective fm m (is_some (given (argument_names (fm_om fm) cons) args kw (sname v))) (ft_class f).
Proof. intros toward0 h fm cons m absolute args kw f v vs Hg Hk. exact (default_objective_rule toward0 h fm cons m absolute args kw Hg Hk f v vs). Qed.
Print Assumptions C42_default_objective.

Theorem C42_chosen_objective : forall toward0 h fm cons m absolute args kw o c f,
  good_names (fm_om fm) cons -> NoDup (dkeys kw) -> fit_init toward0 h fm cons o m absolute args kw = Ok f ->
  o = OClass c \/ (exists ob, o = OInst c ob) ->
  ft_class f = c /\ (forall ob, o = OInst c ob -> ft_obj f = ob).
Proof. intros toward0 h fm cons m absolute args kw o c f Hg Hk. exact (explicit_objective toward0 h fm cons m absolute args kw Hg Hk o c f). Qed.
Print Assumptions C42_chosen_objective.

Theorem C42_dependent_data_rejected : forall toward0 h fm cons m absolute args kw o c v,
  good_names (fm_om fm) cons -> NoDup (dkeys kw) ->
  o = OClass c \/ (exists ob, o = OInst c ob) -> c = OLL \/ c = OMM ->
  In v (om_dep (fm_om fm) ++ map sigma_of (om_dep (fm_om fm))) ->
  given (argument_names (fm_om fm) cons) args kw (sname v) <> None ->
  fit_init toward0 h fm cons o m absolute args kw = Raise TypeError.
Proof.
  intros toward0 h fm cons m absolute args kw o c v Hg Hk Ho Hc. apply (data_rejected toward0 h fm cons m absolute args kw Hg Hk o c v Ho).
  destruct Hc as [->| ->]; reflexivity.
Qed.
Print Assumptions C42_dependent_data_rejected.

Example C42_example : forall toward0,
  expected_minimizer ex_heap ex_om [] BFGS /\ expected_objective ex_fm MDefault true OLS /\
  (exists f, fit_init toward0 (fun _ => {| p_value := 1; p_min := Some 0; p_max := None; p_fixed := false |}) ex_fm [] ODefault MDefault None [DArr ex_x; DArr ex_y] [] = Ok f /\
     class_of_fmin (ft_min f) = Some LBFGSB) /\
  (exists f, fit_init toward0 ex_heap ex_fm [] ODefault (MItem (MCls MINPACK)) None [DArr ex_x; DArr ex_y] [] = Ok f /\ ft_class f = OVLS) /\
  fit_init toward0 ex_heap ex_fm [] (OClass OLL) MDefault None [DArr ex_x; DArr ex_y] [] = Raise TypeError.
Proof.
  intros toward0. split. { right; right. split; [reflexivity|]. split; [|reflexivity]. intros (p & _ & [H|[H|H]]); cbn in H; congruence. }
  split. { right; right. split; [discriminate|]. split; [intros (_ & _ & H); discriminate|reflexivity]. }
  split; [eexists; split; reflexivity|]. split; [eexists; split; reflexivity|reflexivity].
Qed.

(** ** C43 *)
(** With the model's Hessian: the inverse of the objective's Hessian [H] (C21) at the
    fitted parameters, times 1 or the reduced chi squared; for singular [H] the same
    with J^T W J (C22). *)
Theorem C43_covariance : forall inv toward0 h fm cons o m absolute args kw f x popt out jac hess,
  good_names (fm_om fm) cons -> NoDup (dkeys kw) -> fit_init toward0 h fm cons o m absolute args kw = Ok f ->
  proper_data (fm_om fm) cons args kw -> inverts inv -> callable (fm_om fm) -> least_squares o (ft_class f) ->
  pack_output h (om_params (fm_om fm)) x = Ok popt ->
  evaluated h (fm_om fm) (objective_data (ft_data f)) popt out jac ->
  ft_class f = OLS -> with_hessian h (fm_om fm) (objective_data (ft_data f)) popt out hess ->
  let n := List.length (om_params (fm_om fm)) in
  let s2 := s_squared (ft_absolute f) (fm_om fm) (objective_data (ft_data f)) out (counted_points (fm_om fm) (ft_data f)) in
  exists H K cov,
    ls_hess h (fm_om fm) (ft_obj f) [] (named_values (fm_om fm) popt) = Ok H /\ square n H /\
    ls_hess_approx h (fm_om fm) (ft_obj f) [] (named_values (fm_om fm) popt) = Ok K /\ square n K /\
    fit_execute inv h (fm_om fm) f x = Ok (popt, cov) /\
    ((exists C, cov = Some C /\ scaled_inverse n s2 H C) \/ (singular n H /\ inverse_or_none n s2 K cov)).
Proof.
  intros inv toward0 h fm cons o m absolute args kw f x popt out jac hess H1 H2 H3 H4 H5 H6 H7 H8 H9 H10 H11.
  exact (fit_covariance_exact inv toward0 h fm cons o m absolute args kw f H1 H2 H3 H4 x popt out jac H5 H6 H7 H8 H9 hess H10 H11).
Qed.
Print Assumptions C43_covariance.

(** Without a Hessian, and for VectorLeastSquares: J^T W J. *)
Theorem C43_covariance_approximate : forall inv toward0 h fm cons o m absolute args kw f x popt out jac,
  good_names (fm_om fm) cons -> NoDup (dkeys kw) -> fit_init toward0 h fm cons o m absolute args kw = Ok f ->
  proper_data (fm_om fm) cons args kw -> inverts inv -> callable (fm_om fm) -> least_squares o (ft_class f) ->
  pack_output h (om_params (fm_om fm)) x = Ok popt ->
  evaluated h (fm_om fm) (objective_data (ft_data f)) popt out jac ->
  ft_class f = OVLS \/ om_hess (fm_om fm) = None ->
  let n := List.length (om_params (fm_om fm)) in
  let s2 := s_squared (ft_absolute f) (fm_om fm) (objective_data (ft_data f)) out (counted_points (fm_om fm) (ft_data f)) in
  exists K cov, ls_hess_approx h (fm_om fm) (ft_obj f) [] (named_values (fm_om fm) popt) = Ok K /\ square n K /\
    fit_execute inv h (fm_om fm) f x = Ok (popt, cov) /\ inverse_or_none n s2 K cov.
Proof.
  intros inv toward0 h fm cons o m absolute args kw f x popt out jac H1 H2 H3 H4 H5 H6 H7 H8 H9.
  exact (fit_covariance_approx inv toward0 h fm cons o m absolute args kw f H1 H2 H3 H4 x popt out jac H5 H6 H7 H8 H9).
Qed.
Print Assumptions C43_covariance_approximate.

Theorem C43_covariance_symmetric : forall inv toward0 h fm cons o m absolute args kw f x popt out jac C,
  good_names (fm_om fm) cons -> NoDup (dkeys kw) -> fit_init toward0 h fm cons o m absolute args kw = Ok f ->
  proper_data (fm_om fm) cons args kw -> inverts inv -> callable (fm_om fm) -> least_squares o (ft_class f) ->
  pack_output h (om_params (fm_om fm)) x = Ok popt ->
  evaluated h (fm_om fm) (objective_data (ft_data f)) popt out jac ->
  ft_class f = OVLS \/ om_hess (fm_om fm) = None \/
    (exists hess, with_hessian h (fm_om fm) (objective_data (ft_data f)) popt out hess /\ symmetric_hessian (fm_om fm) out hess) ->
  fit_execute inv h (fm_om fm) f x = Ok (popt, Some C) -> symmetric (List.length (om_params (fm_om fm))) C.
Proof.
  intros inv toward0 h fm cons o m absolute args kw f x popt out jac C H1 H2 H3 H4 H5 H6 H7 H8 H9.
  exact (fit_covariance_symmetric inv toward0 h fm cons o m absolute args kw f H1 H2 H3 H4 x popt out jac H5 H6 H7 H8 H9 C).
Qed.
Print Assumptions C43_covariance_symmetric.

(** All sigmas multiplied by [c]: factor [c^2] for absolute sigmas, no change for relative ones. *)
Theorem C43_sigma_scaling : forall inv toward0 h fm cons o m absolute args args' kw kw' f f' c x popt out jac,
  good_names (fm_om fm) cons -> NoDup (dkeys kw) -> NoDup (dkeys kw') ->
  fit_init toward0 h fm cons o m absolute args kw = Ok f -> fit_init toward0 h fm cons o m absolute args' kw' = Ok f' ->
  (forall v, In v (om_indep (fm_om fm) ++ om_dep (fm_om fm)) ->
     given (argument_names (fm_om fm) cons) args' kw' (sname v) = given (argument_names (fm_om fm) cons) args kw (sname v)) ->
  (forall v, In v (om_dep (fm_om fm)) -> data_for (fm_om fm) cons args kw (sigma_of v) <> DataNone /\
     data_for (fm_om fm) cons args' kw' (sigma_of v) = scale_datum c (data_for (fm_om fm) cons args kw (sigma_of v))) ->
  inverts inv -> c <> 0 -> proper_data (fm_om fm) cons args kw -> callable (fm_om fm) -> least_squares o (ft_class f) ->
  pack_output h (om_params (fm_om fm)) x = Ok popt ->
  evaluated h (fm_om fm) (objective_data (ft_data f)) popt out jac ->
  ft_class f = OVLS \/ om_hess (fm_om fm) = None \/
    (exists hess, with_hessian h (fm_om fm) (objective_data (ft_data f)) popt out hess) ->
  exists cov cov', fit_execute inv h (fm_om fm) f x = Ok (popt, cov) /\ fit_execute inv h (fm_om fm) f' x = Ok (popt, cov') /\
    scaled_matrix (List.length (om_params (fm_om fm))) (if ft_absolute f then c ^ 2 else 1) cov cov'.
Proof.
  intros inv toward0 h fm cons o m absolute args args' kw kw' f f' c x popt out jac H1 H2 H3 H4 H5 H6 H7 H8 H9 H10 H11 H12 H13 H14.
  exact (two_covariances inv toward0 h fm cons o m absolute args args' kw kw' f f' c H1 H2 H3 H4 H5 H6 H7 x popt out jac H8 H9 H10 H11 H12 H13 H14).
Qed.
Print Assumptions C43_sigma_scaling.

(** LogLikelihood and MinimizeModel: the inverse Hessian, unscaled. *)
Theorem C43_covariance_likelihood : forall inv h om f x popt H,
  inverts inv -> ft_class f = OLL \/ ft_class f = OMM -> pack_output h (om_params om) x = Ok popt ->
  obj_hessian (ft_class f) h om (ft_obj f) [] (named_values om popt) = Ok (Some H) ->
  square (List.length (om_params om)) H -> ~ singular (List.length (om_params om)) H ->
  exists C, fit_execute inv h om f x = Ok (popt, Some C) /\ inverse_of (List.length (om_params om)) H C.
Proof. exact likelihood_covariance. Qed.
Print Assumptions C43_covariance_likelihood.

(** LogLikelihood with a model without Hessian: the inverse of [K = sum J J^T / f^2], None if that is singular. *)
Theorem C43_covariance_likelihood_approximate : forall inv toward0 h fm cons o m absolute args kw f x popt out jac,
  let om := fm_om fm in
  let data := objective_data (ft_data f) in
  let n := List.length (om_params om) in
  good_names om cons -> NoDup (dkeys kw) -> fit_init toward0 h fm cons o m absolute args kw = Ok f ->
  (forall v, In v (om_indep om) -> data_for om cons args kw v <> DataNone) ->
  inverts inv -> callable om -> (forall c ob, o <> OInst c ob) -> pack_output h (om_params om) x = Ok popt ->
  value_at h om data [] (named_values om popt) out -> ft_class f = OLL ->
  plain_jacobian h om data [] (named_values om popt) out jac -> om_dep om <> [] -> om_hess om = None ->
  exists K cov, square n K /\ (forall k l, (k < n)%nat -> (l < n)%nat -> mat K k l = information out jac (om_dep om) k l) /\
    fit_execute inv h om f x = Ok (popt, cov) /\ inverse_or_none n 1 K cov.
Proof. intros inv toward0 h fm cons o m absolute args kw f x popt out jac om data n Hg Hk Hf Hgi Hi Hc Ho Hp Hv. exact (ll_covariance_approx inv toward0 h fm cons o m absolute args kw f Hg Hk Hf Hgi x popt out Hi Hc Ho Hp Hv jac). Qed.
Print Assumptions C43_covariance_likelihood_approximate.

(** With a Hessian: the inverse of the Hessian of minus the log likelihood (C23); if that is singular, of [K]. *)
Theorem C43_covariance_likelihood_exact : forall inv toward0 h fm cons o m absolute args kw f x popt out jac hess,
  let om := fm_om fm in
  let data := objective_data (ft_data f) in
  let n := List.length (om_params om) in
  good_names om cons -> NoDup (dkeys kw) -> fit_init toward0 h fm cons o m absolute args kw = Ok f ->
  (forall v, In v (om_indep om) -> data_for om cons args kw v <> DataNone) ->
  inverts inv -> callable om -> (forall c ob, o <> OInst c ob) -> pack_output h (om_params om) x = Ok popt ->
  value_at h om data [] (named_values om popt) out -> ft_class f = OLL ->
  plain_jacobian h om data [] (named_values om popt) out jac -> om_dep om <> [] ->
  plain_hessian h om data [] (named_values om popt) out hess ->
  exists H K cov, ll_hess h om (ft_obj f) [] (named_values om popt) = Ok H /\ square n H /\
    square n K /\ (forall k l, (k < n)%nat -> (l < n)%nat -> mat K k l = information out jac (om_dep om) k l) /\
    fit_execute inv h om f x = Ok (popt, cov) /\
    ((exists C, cov = Some C /\ inverse_of n H C) \/ (singular n H /\ inverse_or_none n 1 K cov)).
Proof. intros inv toward0 h fm cons o m absolute args kw f x popt out jac hess om data n Hg Hk Hf Hgi Hi Hc Ho Hp Hv. exact (ll_covariance_exact inv toward0 h fm cons o m absolute args kw f Hg Hk Hf Hgi x popt out Hi Hc Ho Hp Hv jac hess). Qed.
Print Assumptions C43_covariance_likelihood_exact.

(** MinimizeModel: the inverse of the model's Hessian; None if it is singular, and if the model has no Hessian. *)
Theorem C43_covariance_minimize_model : forall inv toward0 h fm cons o m absolute args kw f x popt out v,
  let om := fm_om fm in
  let data := objective_data (ft_data f) in
  let n := List.length (om_params om) in
  good_names om cons -> NoDup (dkeys kw) -> fit_init toward0 h fm cons o m absolute args kw = Ok f ->
  (forall v, In v (om_indep om) -> data_for om cons args kw v <> DataNone) ->
  inverts inv -> callable om -> (forall c ob, o <> OInst c ob) -> pack_output h (om_params om) x = Ok popt ->
  value_at h om data [] (named_values om popt) out -> ft_class f = OMM -> om_dep om = [v] ->
  (om_hess om = None -> fit_execute inv h om f x = Ok (popt, None)) /\
  (forall hess H, plain_hessian h om data [] (named_values om popt) out hess -> (0 < n)%nat -> matrix_in n (entry hess v) H ->
     exists cov, fit_execute inv h om f x = Ok (popt, cov) /\ inverse_or_none n 1 H cov).
Proof.
  intros inv toward0 h fm cons o m absolute args kw f x popt out v om data n Hg Hk Hf Hgi Hi Hc Ho Hp Hv Hcl Hd. split.
  - exact (mm_covariance_none inv toward0 h fm cons o m absolute args kw f Hf x popt Ho Hp v Hcl Hd).
  - intros hess H. exact (mm_covariance_all inv toward0 h fm cons o m absolute args kw f Hg Hk Hf Hgi x popt out Hi Hc Ho Hp Hv v hess H Hcl Hd).
Qed.
Print Assumptions C43_covariance_minimize_model.

(** A likelihood fit of [y = a*x + b] meets the hypotheses, and a minimisation of [a^2]. *)
Example C43_likelihood_example : forall toward0, exists f,
  fit_init toward0 ex_heap ex_fm [] (OClass OLL) MDefault None [DArr ex_x] [] = Ok f /\ ft_class f = OLL /\
  (forall v, In v (om_indep ex_om) -> data_for ex_om [] [DArr ex_x] [] v <> DataNone) /\
  let data := objective_data (ft_data f) in
  let kw := named_values ex_om [2; 1] in
  value_at ex_heap ex_om data [] kw (ex_out 2 1) /\ plain_jacobian ex_heap ex_om data [] kw (ex_out 2 1) ex_jac /\ plain_hessian ex_heap ex_om data [] kw (ex_out 2 1) ex_hess.
Proof. exact exl_fit. Qed.
Example C43_minimize_example : forall toward0, exists f,
  fit_init toward0 ex_heap exm_fm [] (OClass OMM) MDefault None [] [] = Ok f /\ ft_class f = OMM /\ good_names exm_om [] /\ callable exm_om /\
  let data := objective_data (ft_data f) in
  let kw := named_values exm_om [0] in
  value_at ex_heap exm_om data [] kw exm_out /\ plain_hessian ex_heap exm_om data [] kw exm_out exm_hess /\
  matrix_in 1 (entry exm_hess (SVar "y")) {| shp := [1; 1]%nat; val := fun _ => 2 |}.
Proof. exact exm_fit. Qed.

(** Independent data given as a Python number: no covariance, execute() raises. *)
Theorem C43_number_data_refuted : forall toward0 inv, inverts inv ->
  exists f, fit_init toward0 ex_heap ex3_fm [] ODefault MDefault None [DNum 2; DArr ex_y] [] = Ok f /\
  fit_execute inv ex_heap ex3_om f [5] = Raise AttributeError.
Proof. intros toward0 inv. exact (bare_independent toward0 inv). Qed.
Print Assumptions C43_number_data_refuted.

Example C43_example : forall toward0,
  (exists inv, inverts inv) /\ good_names ex_om [] /\ callable ex_om /\ proper_data ex_om [] [DArr ex_x] (ex_kw (DNum 2)) /\
  fit_init toward0 ex_heap ex_fm [] ODefault MDefault None [DArr ex_x] (ex_kw (DNum 2)) = Ok (ex_fit 2) /\
  fit_init toward0 ex_heap ex_fm [] ODefault MDefault None [DArr ex_x] (ex_kw (DNum (3 * 2))) = Ok (ex_fit (3 * 2)) /\
  least_squares ODefault (ft_class (ex_fit 2)) /\ pack_output ex_heap (om_params ex_om) [2; 1] = Ok [2; 1] /\
  evaluated ex_heap ex_om (objective_data (ft_data (ex_fit 2))) [2; 1] (ex_out 2 1) ex_jac /\
  with_hessian ex_heap ex_om (objective_data (ft_data (ex_fit 2))) [2; 1] (ex_out 2 1) ex_hess /\
  symmetric_hessian ex_om (ex_out 2 1) ex_hess.
Proof.
  intros toward0. split; [exact inverts_exists|]. split; [exact ex_good|]. split; [exact ex_callable|]. split; [apply exf_proper|].
  split; [apply ex_fit_ok|]. split; [apply ex_fit_ok|]. split; [apply ex_ls|]. split; [exact ex_pack|].
  split; [apply exf_evaluated; lra|]. split; [apply exf_hessian|apply exf_symmetric].
Qed.

(** ** C44 *)
(** ** C44.  The number of points used: those of the different shapes of the dependent data, each once; the
    number of all parameters is subtracted (C43: s2). *)
Theorem C44_points_counted : forall toward0 h fm cons o m absolute args kw f,
  good_names (fm_om fm) cons -> NoDup (dkeys kw) -> fit_init toward0 h fm cons o m absolute args kw = Ok f ->
  proper_data (fm_om fm) cons args kw -> raw_dof (fm_om fm) (ft_data f) = Ok (counted_points (fm_om fm) (ft_data f)).
Proof. exact dof_counted. Qed.
Print Assumptions C44_points_counted.

(** All data points are counted when no two dependent variables have data of the same shape. *)
Theorem C44_dof_distinct_shapes : forall toward0 h fm cons o m absolute args kw f,
  good_names (fm_om fm) cons -> NoDup (dkeys kw) -> fit_init toward0 h fm cons o m absolute args kw = Ok f ->
  proper_data (fm_om fm) cons args kw -> NoDup (dependent_shapes (fm_om fm) (ft_data f)) ->
  raw_dof (fm_om fm) (ft_data f) = Ok (data_points (fm_om fm) (ft_data f)).
Proof. exact fit_dof. Qed.
Print Assumptions C44_dof_distinct_shapes.

(** Otherwise the number used is too small, always. *)
Theorem C44_shared_shape_refuted : forall om d v w vs ws us a b,
  om_dep om = vs ++ v :: ws ++ w :: us -> stored d v = Some (DArr a) -> stored d w = Some (DArr b) -> shp a = shp b ->
  (0 < List.length (indices (shp a)))%nat -> arrays_only om d ->
  exists k, raw_dof om d = Ok k /\ (k < data_points om d)%nat.
Proof. exact dof_too_small. Qed.
Print Assumptions C44_shared_shape_refuted.

Example C44_example : forall toward0, exists f,
  fit_init toward0 ex_heap {| fm_om := ex2_om; fm_len := 2 |} [] ODefault MDefault (Some false) [DArr ex_x; DArr ex_y; DArr ex_y] [] = Ok f /\
  counted_points ex2_om (ft_data f) = 3%nat /\ data_points ex2_om (ft_data f) = 6%nat.
Proof. exact ex2_fit. Qed.
