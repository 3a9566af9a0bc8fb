(** * GlobFit: chi squared over data of different shapes, its derivatives, and the covariance matrix. *)
From Coq Require Import Reals Relations Lra Lia.
From Coquelicot Require Import Coquelicot.
From Verif Require Import PyBase PyFacts Signature Expr Model ModelSpec ModelFacts CallFacts InitFacts ModelMisc ExprR Jacobian JacFacts JacAnalysis JacSecond JacLemmas Cast NumPy NumFacts Objective ObjSpec ObjFacts ObjLeast ObjDiff ArrModel ArrSpec ArrFacts ArrGen Minimizer MinSpec MinFacts MinLemmas Fit FitSpec FitData FitFacts FitCov FitThm FitMain EndSpec GenSpec GenFit GlobSpec GlobMain.
From Verif Require ArrObj ArrMain EndMain.
Local Open Scope R_scope.

(** [eval_hessian] gives [H v i k l] for the [k]-th and [l]-th parameter. *)
Definition predicts_hess (om : omodel) (Y : sym -> option nd) (sh : sym -> list nat) (theta : sym -> R) (H : sym -> list nat -> nat -> nat -> R) : Prop :=
  forall d, inputs_for om Y theta d -> exists f hess, om_hess om = Some f /\ f d = Ok hess /\ lists_dependent om hess /\
    forall v, In v (om_dep om) -> shp (entry hess v) = sh v ++ [List.length (om_params om); List.length (om_params om)] /\
      forall i k l, In i (indices (sh v)) -> (k < List.length (om_params om))%nat -> (l < List.length (om_params om))%nat -> val (entry hess v) (i ++ [l; k]) = H v i k l.
(** Half of chi squared differentiated twice. *)
Definition chi2_hessian (P : sym -> list nat -> R) (J J' H : sym -> list nat -> R) (dep : list sym) (Y S : sym -> option nd) : R :=
  Rsum (map (fun v => match Y v, S v with
    | Some y, Some s => Rsum (map (fun i => J v i * J' v i / elem s i ^ 2 + H v i * ((P v i - val y i) / elem s i ^ 2)) (indices (shp y)))
    | _, _ => 0
    end) dep).

Section Same.
  Context (om : omodel) (Y : sym -> option nd) (t1 t2 : sym -> R) (E : forall p, In p (om_params om) -> t1 p = t2 p).
  Lemma inputs_same d : inputs_for om Y t2 d -> inputs_for om Y t1 d.
  Proof using E.
    intros [Hn Hd]. split; [exact Hn|]. intros n a. rewrite Hd. split; intros [H|(p & Hp & Hs & Ha)]; auto; right; exists p; [rewrite E by exact Hp|rewrite <- E by exact Hp]; auto.
  Qed.
End Same.

(** ** The covariance matrix of a fit whose model has a Hessian. *)
Section Gen.
  Context (om : omodel) (len : nat) (toward0 : R -> R) (h : heap) (o : ochoice) (mc : mchoice) (absolute : option bool) (args : list datum) (kw : dict string datum) (f : fit) (sh : sym -> list nat).
  Let fm := {| fm_om := om; fm_len := len |}.
  Notation ps := (om_params om).
  Notation n := (List.length ps).
  Let Y := the_data om [] args kw.
  Let Sg := the_sigma om [] args kw.
  Let data := objective_data (ft_data f).
  Hypothesis Hcal : callable om.
  Hypothesis Hg : good_names om [].
  Hypothesis Hkw : NoDup (dkeys kw).
  Hypothesis Hf : fit_init toward0 h fm [] o mc absolute args kw = Ok f.
  Hypothesis Hdm : data_matches om sh Y Sg.
  Hypothesis Hcls : ft_class f = OLS.
  Hypothesis Hmade : obj_init false om data = Ok (ft_obj f).
  Hypothesis Hbare : no_bare_numbers om [] args kw.
  Hypothesis Hoc : forall c ob, o <> OInst c ob.
  Let gd := gdata_is om len toward0 h o mc absolute args kw f Hg Hkw Hf.
  Let gobs := gobserved om len toward0 h o mc absolute args kw f Hg Hkw Hf.
  Let gsig := gsigma om len toward0 h o mc absolute args kw f Hg Hkw Hf.

  Lemma gcount : counted_points om (ft_data f) = list_sum (map (fun s => List.length (indices s)) (dedup (concat (map (fun v => match Y v with Some a => [shp a] | None => [] end) (om_dep om))))).
  Proof using Hg Hkw Hf Hdm Hbare.
    unfold counted_points, dependent_shapes, list_sum. do 4 f_equal. apply map_ext_in. intros v Hv.
    destruct (fit_stored toward0 h fm [] o mc absolute Hg args kw f Hkw Hf) as (_ & H & _). rewrite (H v) by (apply in_or_app; auto).
    pose proof (fun r => Hbare v r (in_or_app _ _ _ (or_intror Hv))) as Hb. unfold Y, the_data. change (fm_om fm) with om.
    destruct (data_for om [] args kw v) as [|r|a|a]; cbn [as_given datum_nd]; try reflexivity. exfalso. exact (Hb r eq_refl).
  Qed.

  Lemma gcovariance_exact inv x theta P J H : inverts inv -> List.length x = nfree h ps -> (forall p, In p ps -> parameter_value h ps x p = theta p) ->
    predicts om Y sh theta P -> predicts_jac om Y sh theta J -> predicts_hess om Y sh theta H ->
    exists popt cov HH K, fit_execute inv h om f x = Ok (popt, cov) /\ pack_output h ps x = Ok popt /\
      let s2 := variance_scale (ft_absolute f) (chi2_with P (om_dep om) Y Sg) (INR (counted_points om (ft_data f)) - INR n) in
      square n HH /\ square n K /\
      ((exists C, cov = Some C /\ scaled_inverse n s2 HH C) \/ (singular n HH /\ inverse_or_none n s2 K cov)) /\
      (forall k l, (k < n)%nat -> (l < n)%nat -> mat HH k l = chi2_hessian P (fun v i => J v i k) (fun v i => J v i l) (fun v i => H v i k l) (om_dep om) Y Sg) /\
      (forall k l, (k < n)%nat -> (l < n)%nat -> mat K k l = weighted_products (fun v i => J v i k) (fun v i => J v i l) (om_dep om) Y Sg).
  Proof using Hcal Hg Hkw Hf Hdm Hmade Hcls Hbare Hoc.
    intros Hinv Hl Ht HP0 HJ0 HH0.
    assert (HP : predicts om Y sh (parameter_value h ps x) P) by (intros d Hd; apply HP0; eapply inputs_same; [|exact Hd]; intros p Hp; symmetry; apply Ht; exact Hp).
    assert (HJ : predicts_jac om Y sh (parameter_value h ps x) J) by (intros d Hd; apply HJ0; eapply inputs_same; [|exact Hd]; intros p Hp; symmetry; apply Ht; exact Hp).
    assert (HH : predicts_hess om Y sh (parameter_value h ps x) H) by (intros d Hd; apply HH0; eapply inputs_same; [|exact Hd]; intros p Hp; symmetry; apply Ht; exact Hp).
    clear HP0 HJ0 HH0.
    destruct (pack_ok h ps x Hl) as (popt & Hp & _).
    destruct (gjac_at om len toward0 h o mc absolute args kw f sh Hcal Hg Hkw Hf Hdm Hmade x P J Hl HP HJ) as (out & jac & Hv & Hfi & Hj & Hout & Hjac).
    fold data in Hv, Hfi, Hj.
    pose proof (ganswers om h f Hcal) as Hga. fold data in Hga.
    destruct (gargs om len toward0 h o mc absolute args kw f sh Hcal Hg Hkw Hf Hdm (ft_obj f) false x Hmade) as (d & Hd).
    destruct (HH d (gseen_inputs om len toward0 h o mc absolute args kw f sh Hcal Hg Hkw Hf Hdm x d Hl Hd)) as (fh & hess & Hfh & Hfd & Hlh & Hhess).
    assert (Hev : evaluated h om data popt out jac).
    { split; [exact (Hga _ x popt out Hl Hp Hv)|]. split; [exact Hfi|]. split; [|exact (gsome om len toward0 h o mc absolute args kw f sh Hg Hkw Hf Hdm)].
      destruct Hj as [(fn & Hfn & Ha) Hs]. split; [exists fn; split; [exact Hfn|exact (Hga _ x popt jac Hl Hp Ha)]|exact Hs]. }
    assert (Hhd : with_hessian h om data popt out hess).
    { split; [exists fh; split; [exact Hfh|]; apply (Hga _ x popt hess Hl Hp); exists d; auto|].
      intros v Hvd. rewrite (proj1 (Hhess v Hvd)), (proj1 (Hout v Hvd)). split; [reflexivity|].
      intros y Hy He. rewrite gobs in Hy by (apply in_or_app; auto). destruct Hdm as (_ & Hdd & _). destruct (Hdd v y Hvd Hy) as (Hs & _).
      rewrite Hs in He. apply (f_equal (@List.length nat)) in He. rewrite app_length in He. cbn [List.length] in He. clear -He. lia. }
    destruct (fit_covariance_exact inv toward0 h fm [] o mc absolute args kw f Hg Hkw Hf (gproper om args kw sh Hdm Hbare) x popt out jac Hinv Hcal (gls o f Hcls Hoc) Hp Hev hess Hcls Hhd)
      as (H' & K & cov & EH & SH & EK & SK & Ex & Hc).
    change (om_params (fm_om fm)) with ps in *. change (fm_om fm) with om in *.
    exists popt, cov, H', K. split; [exact Ex|]. split; [exact Hp|]. cbv zeta. split; [exact SH|]. split; [exact SK|].
    pose proof (fit_created toward0 h fm [] o mc absolute args kw f Hg Hkw Hf (gproper om args kw sh Hdm Hbare) popt Hcal (gls o f Hcls Hoc)) as Hcr. change (fm_om fm) with om in Hcr.
    destruct Hev as (Hv' & _ & Hj' & Hsd).
    split; [|split].
    - assert (E : chi2_with P (om_dep om) Y Sg = Rsum (map (chi2_of data out) (om_dep om))).
      { pose proof (ghalf om len toward0 h o mc absolute args kw f sh Hg Hkw Hf Hdm out P Hout) as H0. unfold half_chi2 in H0. fold data Y Sg in H0. clear -H0. lra. }
      rewrite E. exact Hc.
    - intros k l Hk Hl'. destruct (ls_hessian h om data (ft_obj f) (named_values om popt) Hcr [] out jac hess Hv' Hfi Hj' Hhd Hsd) as (g & Eg & _ & Hval).
      rewrite EH in Eg. injection Eg as <-. unfold mat. rewrite (Hval k l Hk Hl'). unfold chi2_hessian. apply Rsum_ext. intros v Hvd. unfold hess_of.
      rewrite gobs by (apply in_or_app; auto). rewrite gsig by exact Hvd. fold Y Sg.
      destruct (Y v) as [y|] eqn:Hy; [|reflexivity]. destruct (Sg v) as [s|]; [|reflexivity]. apply Rsum_ext. intros i Hi. destruct (Hout v Hvd) as (H1 & H2).
      destruct (gpt om args kw sh Hdm out v y i Hvd Hy Hi H1) as (Ept & Hi'). rewrite Ept. rewrite !(Hjac v i) by assumption. rewrite (proj2 (Hhess v Hvd) i k l Hi' Hk Hl').
      rewrite (gat_point om args kw sh Hdm out v y i P Hvd Hy Hi H1 H2). reflexivity.
    - intros k l Hk Hl'. destruct (ls_approx h om data (ft_obj f) (named_values om popt) Hcr [] out jac Hv' Hfi Hj' Hsd) as (g & Eg & _ & Hval).
      rewrite EK in Eg. injection Eg as <-. unfold mat. rewrite (Hval k l Hk Hl'). unfold weighted_products. apply Rsum_ext. intros v Hvd. unfold jtwj_of.
      rewrite gobs by (apply in_or_app; auto). rewrite gsig by exact Hvd. fold Y Sg.
      destruct (Y v) as [y|] eqn:Hy; [|reflexivity]. destruct (Sg v) as [s|]; [|reflexivity]. apply Rsum_ext. intros i Hi. destruct (Hout v Hvd) as (H1 & H2).
      destruct (gpt om args kw sh Hdm out v y i Hvd Hy Hi H1) as (Ept & Hi'). rewrite Ept. rewrite !(Hjac v i) by assumption. reflexivity.
  Qed.
End Gen.
