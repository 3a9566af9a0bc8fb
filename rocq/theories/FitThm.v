(** * FitThm: what the covariance matrix of a Fit is, and what happens when the sigmas
    are scaled. *)
From Coq Require Import Reals Lra.
From Coquelicot Require Import Coquelicot.
From Verif Require Import PyBase PyFacts Signature SignatureFacts Expr NumPy NumFacts Objective ObjSpec ObjFacts ObjLS ObjLeast ObjDiff ObjMore ObjExample Minimizer Fit FitSpec FitFacts FitData FitCov.
Local Open Scope R_scope.
Local Open Scope string_scope.
Local Open Scope list_scope.

Lemma objective_data_get d v : dget (objective_data d) v = option_map datum_nd (stored d v).
Proof.
  unfold objective_data, stored. induction d as [|[k x] d IH]; [reflexivity|]. destruct k as [n|w]; cbn [map concat fst snd app dget].
  - destruct (eq_dec (KSym v) (KStr n)); [discriminate|]. exact IH.
  - cbn [dget]. destruct (eq_dec v w) as [->|Hne].
    + destruct (eq_dec (KSym w) (KSym w)); [reflexivity|congruence].
    + destruct (eq_dec (KSym v) (KSym w)); [congruence|exact IH].
Qed.
Lemma product_indices s : np_product s = List.length (indices s).
Proof.
  induction s as [|n s IH]; [reflexivity|]. change (np_product (n :: s)) with (n * np_product s)%nat. rewrite IH. cbn [indices].
  generalize (indices s). intros l. induction l as [|o l IHl]; cbn [flat_map List.length]; [lia|]. rewrite app_length, map_length, seq_length, <- IHl. lia.
Qed.
Lemma raw_dof_ok om d : arrays_only om d -> raw_dof om d = Ok (counted_points om d).
Proof.
  intros Ha. unfold raw_dof, data_shapes.
  assert (Hs : forall vs, (forall v, In v vs -> In v (om_indep om ++ om_dep om)) ->
    shapes_of d vs = Ok (dedup (concat (map (fun v => match stored d v with Some (DArr a) => [shp a] | _ => [] end) vs)))).
  { intros vs Hvs. unfold shapes_of. rewrite mapM_map with (g := fun v => match stored d v with Some (DArr a) => [shp a] | _ => [] end); [reflexivity|].
    intros v Hv. unfold dlook. change (dget d (KSym v)) with (stored d v). destruct (Ha v (Hvs v Hv)) as [->|(a & ->)]; reflexivity. }
  rewrite Hs by (intros; apply in_or_app; auto). cbn [bind].
  replace (filter (fun v => dmem d (KSym v)) (om_dep om)) with (om_dep om).
  - rewrite Hs by (intros; apply in_or_app; auto). cbn [bind]. unfold counted_points, dependent_shapes. f_equal. f_equal. apply map_ext. intros s. apply product_indices.
  - symmetry. apply filter_all_eq. intros v Hv. unfold dmem. change (dget d (KSym v)) with (stored d v). destruct (Ha v) as [->|(a & ->)]; [apply in_or_app; auto| |]; reflexivity.
Qed.

Lemma init_data b om data ob : obj_init b om data = Ok ob -> ob_data ob = data.
Proof.
  unfold obj_init. intros H. apply bind_Ok in H as (x & _ & H). apply bind_Ok in H as (y & _ & H). apply bind_Ok in H as (z & _ & H). inv H. reflexivity.
Qed.

Section Cov.
  Context (inv : nd -> res nd) (h : heap) (om : omodel) (d : dict kwkey datum) (absolute : bool) (ob : obj) (popt : list R).
  Let data := objective_data d.
  Let kw := named_values om popt.
  Let n := List.length (om_params om).
  Hypothesis Hinv : inverts inv.
  Hypothesis Hcr : created false om data ob kw.
  Hypothesis Harr : arrays_only om d.
  Context (out jac : dict sym nd).
  Hypothesis Hval : value_at h om data [] kw out.
  Hypothesis Hfit : fits_data om data out.
  Hypothesis Hjac : jacobian_at h om data [] kw out jac.
  Hypothesis Hsome : some_data om data.
  Definition scale_here : R := variance_scale absolute (Rsum (map (chi2_of (objective_data d) out) (om_dep om))) (INR (counted_points om d) - INR (List.length (om_params om))).

  Lemma cov_value a : square n a ->
    (exists C, scaled_inverse n scale_here a C /\ cov_of inv om d absolute true (Ok (Some a)) (ls_call true h om ob [] kw) = Ok (Some C)) \/
    (singular n a /\ cov_of inv om d absolute true (Ok (Some a)) (ls_call true h om ob [] kw) = Ok None).
  Proof using Hinv Hcr Harr Hval Hfit.
    intros Ha. rewrite (ls_value h om data ob kw Hcr [] out Hval Hfit).
    destruct (cov_of_ls inv om d absolute n Hinv a (half_chi2 data out (om_dep om)) (counted_points om d) Ha (raw_dof_ok om d Harr)) as [(b & Hb & Hc)|(Hb & Hc)]; [left|right; split; [exact Hb|exact Hc]].
    rewrite Hc. eexists. split; [|reflexivity]. split; [exact (proj1 Hb)|]. exists b. split; [exact Hb|]. intros k l _ _. unfold nscale, mat, npmap. cbn [val]. f_equal.
    unfold factor, scale_here, variance_scale. destruct absolute; [reflexivity|]. f_equal. unfold half_chi2, data. lra.
  Qed.
  Lemma cov_second_ls c : c = OLS \/ c = OVLS -> exists K, ls_hess_approx h om ob [] kw = Ok K /\ square n K /\
    (forall k l, (k < n)%nat -> (l < n)%nat -> mat K k l = Rsum (map (fun v => jtwj_of data out jac v k l) (om_dep om))) /\
    ((exists C, scaled_inverse n scale_here K C /\ cov_second inv h om d absolute c ob popt = Ok (Some C)) \/
     (singular n K /\ cov_second inv h om d absolute c ob popt = Ok None)).
  Proof using Hinv Hcr Harr Hval Hfit Hjac Hsome.
    intros Hcl. destruct (ls_approx h om data ob kw Hcr [] out jac Hval Hfit Hjac Hsome) as (K & HK & Hs & Hk). exists K.
    split; [exact HK|]. split; [exact Hs|]. split; [exact Hk|].
    assert (Hi : obj_init false om data = Ok ob) by apply Hcr.
    assert (He : cov_second inv h om d absolute c ob popt = cov_of inv om d absolute true (Ok (Some K)) (ls_call true h om ob [] kw)).
    { destruct Hcl as [->| ->]; cbn [cov_second]; rewrite (init_data _ _ _ _ Hi), Hi; cbn [bind]; fold kw; rewrite HK; reflexivity. }
    rewrite He. apply cov_value. exact Hs.
  Qed.
  Lemma no_hessian : om_hess om = None -> cov_first inv h om d absolute OLS ob popt = Ok None.
  Proof using Hcr Hval Hfit Hjac Hsome.
    intros Hn. unfold cov_first. cbn [obj_hessian]. destruct (ls_approx h om data ob kw Hcr [] out jac Hval Hfit Hjac Hsome) as (K & HK & _).
    unfold ls_hess, ls_hess_approx, ls_hess_with in *. fold kw. apply bind_Ok in HK as (fs & Hfs & HK). apply bind_Ok in HK as (js & Hjs & HK).
    rewrite Hfs. cbn [bind]. rewrite Hjs. cbn [bind]. unfold base_hess. rewrite Hn. reflexivity.
  Qed.
  Lemma vector_first : cov_first inv h om d absolute OVLS ob popt = Ok None.
  Proof using. reflexivity. Qed.
  Lemma cov_first_ls hess : hessian_at h om data [] kw out hess ->
    exists H, ls_hess h om ob [] kw = Ok H /\ square n H /\
      (forall k l, (k < n)%nat -> (l < n)%nat -> mat H k l = Rsum (map (fun v => hess_of data out jac hess v k l) (om_dep om))) /\
      ((exists C, scaled_inverse n scale_here H C /\ cov_first inv h om d absolute OLS ob popt = Ok (Some C)) \/
       (singular n H /\ cov_first inv h om d absolute OLS ob popt = Ok None)).
  Proof using Hinv Hcr Harr Hval Hfit Hjac Hsome.
    intros Hh. destruct (ls_hessian h om data ob kw Hcr [] out jac hess Hval Hfit Hjac Hh Hsome) as (H & HH & Hs & Hk). exists H.
    split; [exact HH|]. split; [exact Hs|]. split; [exact Hk|]. unfold cov_first. cbn [obj_hessian]. fold kw. rewrite HH. cbn [bind]. apply cov_value. exact Hs.
  Qed.
  Definition from (a : nd) (r : res (option nd)) : Prop :=
    (exists C, scaled_inverse n scale_here a C /\ r = Ok (Some C)) \/ (singular n a /\ r = Ok None).
  (** least squares without model Hessian, and vector least squares *)
  Lemma covariance_approx c : c = OVLS \/ (c = OLS /\ om_hess om = None) -> exists K, ls_hess_approx h om ob [] kw = Ok K /\ square n K /\
    from K (covariance inv h om d absolute c ob popt).
  Proof using Hinv Hcr Harr Hval Hfit Hjac Hsome.
    intros Hcl. destruct (cov_second_ls c) as (K & HK & Hs & _ & Hr); [destruct Hcl as [->|[-> _]]; auto|]. exists K. split; [exact HK|]. split; [exact Hs|].
    unfold covariance. destruct Hcl as [->|[-> Hn]]; [rewrite vector_first|rewrite (no_hessian Hn)]; exact Hr.
  Qed.
  Lemma covariance_exact hess : hessian_at h om data [] kw out hess ->
    exists H K, ls_hess h om ob [] kw = Ok H /\ square n H /\ ls_hess_approx h om ob [] kw = Ok K /\ square n K /\
      ((exists C, scaled_inverse n scale_here H C /\ covariance inv h om d absolute OLS ob popt = Ok (Some C)) \/
       (singular n H /\ from K (covariance inv h om d absolute OLS ob popt))).
  Proof using Hinv Hcr Harr Hval Hfit Hjac Hsome.
    intros Hh. destruct (cov_first_ls hess Hh) as (H & HH & Hs & _ & Hr). destruct (cov_second_ls OLS (or_introl eq_refl)) as (K & HK & Hsk & _ & Hrk).
    exists H, K. split; [exact HH|]. split; [exact Hs|]. split; [exact HK|]. split; [exact Hsk|]. unfold covariance.
    destruct Hr as [(C & Hc & ->)|(Hsg & ->)]; cbn [bind]; [left; exists C; auto|right; split; [exact Hsg|exact Hrk]].
  Qed.
End Cov.

Lemma scaled_inverse_symmetric n r H C : scaled_inverse n r H C -> symmetric n H -> symmetric n C.
Proof. intros [_ (B & HB & He)] Hs k l Hk Hl. rewrite !He by assumption. rewrite (inverse_symmetric n H B HB Hs k l Hk Hl). reflexivity. Qed.

Section Sym.
  Context (inv : nd -> res nd) (h : heap) (om : omodel) (d : dict kwkey datum) (absolute : bool) (ob : obj) (popt : list R).
  Let data := objective_data d.
  Let kw := named_values om popt.
  Let n := List.length (om_params om).
  Hypothesis Hinv : inverts inv.
  Hypothesis Hcr : created false om data ob kw.
  Hypothesis Harr : arrays_only om d.
  Context (out jac : dict sym nd).
  Hypothesis Hval : value_at h om data [] kw out.
  Hypothesis Hfit : fits_data om data out.
  Hypothesis Hjac : jacobian_at h om data [] kw out jac.
  Hypothesis Hsome : some_data om data.
  Definition symmetric_model (hess : dict sym nd) : Prop :=
    forall v i k l, In v (om_dep om) -> In i (indices (shp (entry out v))) -> (k < n)%nat -> (l < n)%nat ->
      val (entry hess v) (i ++ [l; k]) = val (entry hess v) (i ++ [k; l]).
  Lemma approx_symmetric K : ls_hess_approx h om ob [] kw = Ok K -> symmetric n K.
  Proof using Hcr Hval Hfit Hjac Hsome.
    intros HK. destruct (ls_approx_spec h om data ob kw [] out jac Hcr Hval Hfit Hjac Hsome) as (g & Hg & _ & _ & Hs & _). rewrite HK in Hg. inv Hg.
    intros k l Hk Hl. unfold mat. apply Hs; assumption.
  Qed.
  Lemma hessian_symmetric hess H : hessian_at h om data [] kw out hess -> symmetric_model hess -> ls_hess h om ob [] kw = Ok H -> symmetric n H.
  Proof using Hcr Hval Hfit Hjac Hsome.
    intros Hh Hsm HH. destruct (ls_hessian_is_derivative h om data ob kw Hcr [] out jac hess Hval Hfit Hjac Hh Hsome) as (g & Hg & _ & _ & Hs). rewrite HH in Hg. inv Hg.
    intros k l Hk Hl. unfold mat. apply Hs; assumption.
  Qed.
  Lemma covariance_symmetric c C : c = OVLS \/ (c = OLS /\ (om_hess om = None \/ exists hess, hessian_at h om data [] kw out hess /\ symmetric_model hess)) ->
    covariance inv h om d absolute c ob popt = Ok (Some C) -> symmetric n C.
  Proof using Hinv Hcr Harr Hval Hfit Hjac Hsome.
    intros Hcl Hc.
    assert (Hap : c = OVLS \/ (c = OLS /\ om_hess om = None) -> symmetric n C).
    { intros Hd. destruct (covariance_approx inv h om d absolute ob popt Hinv Hcr Harr out jac Hval Hfit Hjac Hsome c Hd) as (K & HK & _ & [(C' & Hi & He)|(_ & He)]);
        rewrite Hc in He; inv He. apply (scaled_inverse_symmetric _ _ _ _ Hi). apply approx_symmetric. exact HK. }
    destruct Hcl as [Hv|[Hl [Hn|(hess & Hh & Hsm)]]]; [apply Hap; auto|apply Hap; auto|]. subst c.
    destruct (covariance_exact inv h om d absolute ob popt Hinv Hcr Harr out jac Hval Hfit Hjac Hsome hess Hh) as (H & K & HH & _ & HK & _ & [(C' & Hi & He)|(_ & [(C' & Hi & He)|(_ & He)])]);
      rewrite Hc in He; inv He; apply (scaled_inverse_symmetric _ _ _ _ Hi); [apply (hessian_symmetric hess); assumption|apply approx_symmetric; exact HK].
  Qed.
End Sym.

(** ** Scaling the sigmas *)
Lemma fit_scaled_data c om d d' : fit_sigmas_scaled c om d d' -> sigmas_scaled c om (objective_data d) (objective_data d').
Proof.
  intros [H1 H2]. split; intros v Hv; rewrite !objective_data_get; [rewrite H1 by exact Hv; reflexivity|]. rewrite H2 by exact Hv.
  destruct (stored d (sigma_of v)) as [[| | |]|]; reflexivity.
Qed.
Lemma scaled_arrays c om d d' : fit_sigmas_scaled c om d d' -> arrays_only om d -> arrays_only om d'.
Proof. intros [H1 _] Ha v Hv. rewrite H1 by exact Hv. apply Ha; exact Hv. Qed.
Lemma scaled_points c om d d' : fit_sigmas_scaled c om d d' -> counted_points om d' = counted_points om d.
Proof.
  intros [H1 _]. unfold counted_points, dependent_shapes. do 3 f_equal. f_equal. apply map_ext_in. intros v Hv. rewrite H1; [reflexivity|]. apply in_or_app; auto.
Qed.

Section ScaleCov.
  Context (inv : nd -> res nd) (h : heap) (om : omodel) (d d' : dict kwkey datum) (absolute : bool) (ob ob' : obj) (popt : list R) (c : R).
  Let data := objective_data d.
  Let data' := objective_data d'.
  Let kw := named_values om popt.
  Let n := List.length (om_params om).
  Hypothesis Hinv : inverts inv.
  Hypothesis Hc : c <> 0.
  Hypothesis Hfs : fit_sigmas_scaled c om d d'.
  Hypothesis Hcr : created false om data ob kw.
  Hypothesis Hcr' : created false om data' ob' kw.
  Hypothesis Harr : arrays_only om d.
  Context (out jac : dict sym nd).
  Hypothesis Hval : value_at h om data [] kw out.
  Hypothesis Hfit : fits_data om data out.
  Hypothesis Hjac : jacobian_at h om data [] kw out jac.
  Hypothesis Hsome : some_data om data.
  Let Hsc : sigmas_scaled c om data data' := fit_scaled_data c om d d' Hfs.
  Let r : R := / c ^ 2.
  Lemma r_nz : r <> 0.
  Proof using Hc. apply Rinv_neq_0_compat, pow_nonzero. exact Hc. Qed.
  Lemma inv_r : / r = c ^ 2.
  Proof using Hc. unfold r. apply Rinv_inv. Qed.
  Let Hval' : value_at h om data' [] kw out := scale_answers om data data' c Hsc _ h [] kw out Hval.
  Let Hfit' : fits_data om data' out := scale_fits om data data' c Hsc Hc out Hfit.
  Let Hjac' : jacobian_at h om data' [] kw out jac := scale_jacobian om data data' c Hsc h [] kw out jac Hjac.
  Let Hsome' : some_data om data' := scale_some om data data' c Hsc Hsome.
  Let Harr' : arrays_only om d' := scaled_arrays c om d d' Hfs Harr.

  Lemma cov_pair a a' : square n a -> square n a' -> (forall k l, (k < n)%nat -> (l < n)%nat -> mat a' k l = r * mat a k l) ->
    exists o o', cov_of inv om d absolute true (Ok (Some a)) (ls_call true h om ob [] kw) = Ok o /\
      cov_of inv om d' absolute true (Ok (Some a')) (ls_call true h om ob' [] kw) = Ok o' /\ scaled_matrix n (if absolute then c ^ 2 else 1) o o'.
  Proof using Hinv Hc Hfs Hcr Hcr' Harr Hval Hfit.
    intros Ha Ha' Hm. rewrite (ls_value h om data ob kw Hcr [] out Hval Hfit), (ls_value h om data' ob' kw Hcr' [] out Hval' Hfit').
    rewrite <- inv_r. apply (cov_scaled inv om d absolute n Hinv d' a a' _ _ (counted_points om d) r); [apply raw_dof_ok; exact Harr| |exact Ha|exact Ha'|exact r_nz|exact Hm|].
    - rewrite (raw_dof_ok om d' Harr'), (scaled_points c om d d' Hfs). reflexivity.
    - apply (half_scaled om data data' c Hsc Hc out Hfit).
  Qed.
  Lemma second_pair cl : cl = OLS \/ cl = OVLS ->
    exists o o', cov_second inv h om d absolute cl ob popt = Ok o /\ cov_second inv h om d' absolute cl ob' popt = Ok o' /\ scaled_matrix n (if absolute then c ^ 2 else 1) o o'.
  Proof using Hinv Hc Hfs Hcr Hcr' Harr Hval Hfit Hjac Hsome.
    intros Hcl.
    destruct (ls_approx h om data ob kw Hcr [] out jac Hval Hfit Hjac Hsome) as (K & HK & Hs & Hk).
    destruct (ls_approx h om data' ob' kw Hcr' [] out jac Hval' Hfit' Hjac' Hsome') as (K' & HK' & Hs' & Hk').
    assert (He : forall dd ob0 K0, obj_init false om (ob_data ob0) = Ok ob0 -> ls_hess_approx h om ob0 [] kw = Ok K0 ->
      cov_second inv h om dd absolute cl ob0 popt = cov_of inv om dd absolute true (Ok (Some K0)) (ls_call true h om ob0 [] kw)).
    { intros dd ob0 K0 Hi H0. destruct Hcl as [->| ->]; cbn [cov_second]; rewrite Hi; cbn [bind]; fold kw; rewrite H0; reflexivity. }
    rewrite (He d ob K), (He d' ob' K'); [|rewrite (init_data _ _ _ _ (proj1 (proj2 (proj2 (proj2 Hcr'))))); apply Hcr'|exact HK'|rewrite (init_data _ _ _ _ (proj1 (proj2 (proj2 (proj2 Hcr))))); apply Hcr|exact HK].
    apply cov_pair; [exact Hs|exact Hs'|]. intros k l Hk0 Hl0. unfold mat. rewrite Hk, Hk' by assumption. apply (jtwj_scaled om data data' c Hsc Hc out jac k l Hfit).
  Qed.
  Lemma covariance_pair cl : cl = OVLS \/ (cl = OLS /\ (om_hess om = None \/ exists hess, hessian_at h om data [] kw out hess)) ->
    exists o o', covariance inv h om d absolute cl ob popt = Ok o /\ covariance inv h om d' absolute cl ob' popt = Ok o' /\ scaled_matrix n (if absolute then c ^ 2 else 1) o o'.
  Proof using Hinv Hc Hfs Hcr Hcr' Harr Hval Hfit Hjac Hsome.
    intros Hcl. unfold covariance. destruct Hcl as [->|[-> [Hn|(hess & Hh)]]].
    - rewrite !vector_first. cbn [bind]. apply second_pair. auto.
    - rewrite (no_hessian inv h om d absolute ob popt Hcr out jac Hval Hfit Hjac Hsome Hn), (no_hessian inv h om d' absolute ob' popt Hcr' out jac Hval' Hfit' Hjac' Hsome' Hn).
      cbn [bind]. apply second_pair. auto.
    - destruct (ls_hessian h om data ob kw Hcr [] out jac hess Hval Hfit Hjac Hh Hsome) as (H & HH & Hs & Hk).
      destruct (ls_hessian h om data' ob' kw Hcr' [] out jac hess Hval' Hfit' Hjac' (scale_hessian om data data' c Hsc h [] kw out hess Hh) Hsome') as (H' & HH' & Hs' & Hk').
      unfold cov_first. cbn [obj_hessian]. fold kw. rewrite HH, HH'. cbn [bind].
      destruct (cov_pair H H' Hs Hs') as (o & o' & E & E' & Hm).
      { intros k l Hk0 Hl0. unfold mat. rewrite Hk, Hk' by assumption. apply (hess_scaled om data data' c Hsc Hc out jac hess k l Hfit). }
      rewrite E, E'. cbn [bind]. destruct o as [o|], o' as [o'|]; try contradiction.
      + exists (Some o), (Some o'). auto.
      + apply second_pair. auto.
  Qed.
End ScaleCov.
