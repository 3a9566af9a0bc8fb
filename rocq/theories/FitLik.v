(** * FitLik: the covariance matrix of LogLikelihood and MinimizeModel fits, with and without model Hessian,
    for regular and singular Hessians (fit.py:233-304). *)
From Coq Require Import Reals Lra.
From Coquelicot Require Import Coquelicot.
From Verif Require Import PyBase PyFacts Signature SignatureFacts Expr NumPy NumFacts Objective ObjSpec ObjFacts ObjLS ObjLeast ObjMore Minimizer Fit FitSpec FitFacts FitData FitCov FitThm FitMain.
Local Open Scope R_scope.
Local Open Scope string_scope.
Local Open Scope list_scope.

Lemma zero_singular n a : (0 < n)%nat -> (forall k l, (k < n)%nat -> (l < n)%nat -> mat a k l = 0) -> singular n a.
Proof.
  intros Hn Ha b (_ & H & _). specialize (H 0%nat 0%nat Hn Hn). rewrite (Rsum_ext _ (fun _ => 0)) in H.
  - rewrite Rsum_const0 in H. unfold delta in H. cbn in H. lra.
  - intros m Hm. apply in_range in Hm. rewrite Ha by assumption. ring.
Qed.

Section Lik.
  Context (inv : nd -> res nd) (toward0 : R -> R) (h : heap) (fm : fmodel) (cons : list fcon) (o : ochoice) (m : mchoice) (absolute : option bool) (args : list datum) (kw : dict string datum) (f : fit).
  Let om := fm_om fm.
  Hypothesis Hg : good_names om cons.
  Hypothesis Hkw : NoDup (dkeys kw).
  Hypothesis Hf : fit_init toward0 h fm cons o m absolute args kw = Ok f.
  Hypothesis Hgiven : forall v, In v (om_indep om) -> data_for om cons args kw v <> DataNone.
  Let data := objective_data (ft_data f).
  Context (x popt : list R) (out : dict sym nd).
  Hypothesis Hinv : inverts inv.
  Hypothesis Hcall : callable om.
  Hypothesis Hno : forall c ob, o <> OInst c ob.
  Hypothesis Hpack : pack_output h (om_params om) x = Ok popt.
  Let n := List.length (om_params om).
  Let kwp := named_values om popt.
  Hypothesis Hval : value_at h om data [] kwp out.

  Lemma lik_independent : independent_data_given om data.
  Proof using Hg Hkw Hf Hgiven.
    intros v Hv. destruct (fit_stored toward0 h fm cons o m absolute Hg args kw f Hkw Hf) as (_ & Hs & _). unfold data. rewrite objective_data_get, Hs by (apply in_or_app; auto).
    pose proof (Hgiven v Hv) as Hn. unfold om in Hn. destruct (data_for (fm_om fm) cons args kw v) as [|r|a|a]; [congruence| | |]; cbn [as_given option_map datum_nd]; eauto.
  Qed.
  Lemma lik_init c : ft_class f = c -> (c = OLL -> obj_init true om data = Ok (ft_obj f)) /\ (c = OMM -> mm_init om data = Ok (ft_obj f)).
  Proof using Hf Hno.
    intros Hc. destruct (fit_init_inv toward0 h fm cons o m absolute args kw f Hf) as (t & _ & _ & _ & Ho & _).
    destruct o as [|c0|c0 ob0]; [| |exfalso; exact (Hno _ _ eq_refl)]; rewrite Hc in Ho; split; intros ->; exact Ho.
  Qed.
  Lemma lik_created : obj_init true om data = Ok (ft_obj f) -> created true om data (ft_obj f) kwp.
  Proof using Hg Hkw Hf Hgiven Hcall.
    intros Ho. destruct Hcall as [Hi Hb]. split; [exact Hi|]. split; [exact Hb|]. split.
    { destruct Hg as (Hn & _). rewrite !map_app in Hn. apply NoDup_app_split in Hn as (_ & Hn & _). apply NoDup_app_split in Hn as (Hn & _). exact Hn. }
    split; [exact Ho|]. split; [apply NoDup_dupdate; constructor|exact lik_independent].
  Qed.

  Lemma lik_second jac : ft_class f = OLL -> plain_jacobian h om data [] kwp out jac -> om_dep om <> [] ->
    exists K cov, square n K /\ (forall k l, (k < n)%nat -> (l < n)%nat -> mat K k l = information out jac (om_dep om) k l) /\
      ll_hess_with (zero_hess h om (ft_obj f) [] kwp) h om (ft_obj f) [] kwp = Ok K /\
      cov_second inv h om (ft_data f) (ft_absolute f) OLL (ft_obj f) popt = Ok cov /\ inverse_or_none n 1 K cov.
  Proof using Hg Hkw Hf Hgiven Hinv Hcall Hno Hval.
    intros Hc Hj Hne. pose proof (proj1 (lik_init _ Hc) eq_refl) as Ho. pose proof (lik_created Ho) as Hcr.
    destruct (ll_approx h om data (ft_obj f) kwp Hcr [] out jac Hval Hj Hne) as (K & HK & Hs & Hk). fold n in Hs, Hk.
    assert (He : cov_second inv h om (ft_data f) (ft_absolute f) OLL (ft_obj f) popt = cov_of inv om (ft_data f) (ft_absolute f) false (Ok (Some K)) (Raise TypeError)).
    { cbn [cov_second]. rewrite (init_data _ _ _ _ Ho), Ho. cbn [bind]. fold kwp. rewrite HK. reflexivity. }
    exists K. rewrite He. destruct (cov_of_other inv om (ft_data f) (ft_absolute f) n Hinv K (Raise TypeError) Hs) as [(b & Hb & E)|(Hb & E)]; rewrite E; eexists; (split; [exact Hs|]);
      (split; [intros k l Hk' Hl'; unfold mat; rewrite (Hk k l Hk' Hl'); reflexivity|]); (split; [exact HK|]); (split; [reflexivity|]).
    - left. exists b. split; [reflexivity|]. split; [apply Hb|]. exists b. split; [exact Hb|]. intros k l _ _. ring.
    - right. split; [exact Hb|reflexivity].
  Qed.
  Lemma lik_execute c r : ft_class f = c -> covariance inv h om (ft_data f) (ft_absolute f) c (ft_obj f) popt = Ok r -> fit_execute inv h om f x = Ok (popt, r).
  Proof using Hpack. intros Hc Hr. unfold fit_execute. rewrite Hpack. cbn [bind]. rewrite Hc, Hr. reflexivity. Qed.

  Lemma ll_covariance_approx jac : ft_class f = OLL -> plain_jacobian h om data [] kwp out jac -> om_dep om <> [] -> om_hess om = None ->
    exists K cov, square n K /\ (forall k l, (k < n)%nat -> (l < n)%nat -> mat K k l = information out jac (om_dep om) k l) /\
      fit_execute inv h om f x = Ok (popt, cov) /\ inverse_or_none n 1 K cov.
  Proof using Hg Hkw Hf Hgiven Hinv Hcall Hno Hpack Hval.
    intros Hc Hj Hne Hnh. destruct (lik_second jac Hc Hj Hne) as (K & cov & H1 & H2 & HK & H3 & H4). exists K, cov. split; [exact H1|]. split; [exact H2|]. split; [|exact H4].
    apply (lik_execute OLL _ Hc). unfold covariance, cov_first. cbn [obj_hessian]. fold kwp. unfold ll_hess, ll_hess_with in *. apply bind_Ok in HK as (fs & Hfs & HK). apply bind_Ok in HK as (js & Hjs & HK).
    rewrite Hfs. cbn [bind]. rewrite Hjs. cbn [bind]. unfold base_hess. rewrite Hnh. exact H3.
  Qed.
  Lemma ll_covariance_exact jac hess : ft_class f = OLL -> plain_jacobian h om data [] kwp out jac -> om_dep om <> [] -> plain_hessian h om data [] kwp out hess ->
    exists H K cov, ll_hess h om (ft_obj f) [] kwp = Ok H /\ square n H /\
      square n K /\ (forall k l, (k < n)%nat -> (l < n)%nat -> mat K k l = information out jac (om_dep om) k l) /\
      fit_execute inv h om f x = Ok (popt, cov) /\
      ((exists C, cov = Some C /\ inverse_of n H C) \/ (singular n H /\ inverse_or_none n 1 K cov)).
  Proof using Hg Hkw Hf Hgiven Hinv Hcall Hno Hpack Hval.
    intros Hc Hj Hne Hh. destruct (lik_second jac Hc Hj Hne) as (K & cov & H1 & H2 & _ & H3 & H4).
    pose proof (proj1 (lik_init _ Hc) eq_refl) as Ho. pose proof (lik_created Ho) as Hcr.
    destruct (ll_hessian h om data (ft_obj f) kwp Hcr [] out jac hess Hval Hj Hh Hne) as (H & HH & Hs & _). fold n in Hs. exists H, K.
    destruct (cov_of_other inv om (ft_data f) (ft_absolute f) n Hinv H (ls_call true h om (ft_obj f) [] kwp) Hs) as [(b & Hb & E)|(Hb & E)]; [exists (Some b)|exists cov];
      (split; [exact HH|]; split; [exact Hs|]; split; [exact H1|]; split; [exact H2|]; split;
        [apply (lik_execute OLL _ Hc); unfold covariance, cov_first; cbn [obj_hessian]; fold kwp; rewrite HH; cbn [bind]; rewrite E; cbn [bind]; first [reflexivity|exact H3]|]).
    - left. exists b. auto.
    - right. split; [exact Hb|exact H4].
  Qed.

  Lemma mm_covariance_none v : ft_class f = OMM -> om_dep om = [v] -> om_hess om = None -> fit_execute inv h om f x = Ok (popt, None).
  Proof using Hf Hno Hpack.
    intros Hc Hd Hnh. pose proof (proj2 (lik_init _ Hc) eq_refl) as Ho. apply (lik_execute OMM _ Hc). unfold covariance, cov_first. cbn [obj_hessian]. unfold mm_hess. rewrite Hnh. cbn [cov_of bind cov_second].
    assert (Ho' : obj_init true om data = Ok (ft_obj f)) by (unfold mm_init in Ho; destruct (Nat.ltb _ _); [discriminate|exact Ho]).
    rewrite (init_data _ _ _ _ Ho'), Ho. cbn [bind]. rewrite Hnh. reflexivity.
  Qed.
  Lemma cov_of_matrix a H v' : matrix_in n a H ->
    (exists b, inverse_of n H b /\ cov_of inv om (ft_data f) (ft_absolute f) false (Ok (Some a)) v' = Ok (Some b)) \/
    (singular n H /\ cov_of inv om (ft_data f) (ft_absolute f) false (Ok (Some a)) v' = Ok None).
  Proof using Hinv.
    intros (Hsq & d & Hs & Hv). set (M := {| shp := [n; n]; val := fun i => val a (repeat 0%nat d ++ i) |}).
    assert (Esq : cov_of inv om (ft_data f) (ft_absolute f) false (Ok (Some a)) v' = cov_of inv om (ft_data f) (ft_absolute f) false (Ok (Some M)) v').
    { unfold cov_of. rewrite (squeeze_ones a d [n; n] Hs). reflexivity. }
    assert (HM : forall k l, (k < n)%nat -> (l < n)%nat -> mat H k l = mat M k l) by (intros k l _ _; rewrite Hv; reflexivity).
    rewrite Esq. destruct (cov_of_other inv om (ft_data f) (ft_absolute f) n Hinv M v' eq_refl) as [(b & Hb & E)|(Hb & E)].
    - left. exists b. split; [apply (inverse_ext n M H b HM Hb)|exact E].
    - right. split; [|exact E]. intros b Hb'. apply (Hb b). apply (inverse_ext n H); [intros k l Hk Hl; symmetry; apply HM; assumption|exact Hb'].
  Qed.
  Lemma mm_covariance_all v hess H : ft_class f = OMM -> om_dep om = [v] -> plain_hessian h om data [] kwp out hess -> (0 < n)%nat ->
    matrix_in n (entry hess v) H ->
    exists cov, fit_execute inv h om f x = Ok (popt, cov) /\ inverse_or_none n 1 H cov.
  Proof using Hg Hkw Hf Hgiven Hinv Hcall Hno Hpack Hval.
    intros Hc Hd [(f2 & Hf2 & Hh) Hs2] Hn HM. pose proof (proj2 (lik_init _ Hc) eq_refl) as Ho.
    assert (Ho' : obj_init true om data = Ok (ft_obj f)) by (unfold mm_init in Ho; destruct (Nat.ltb _ _); [discriminate|exact Ho]).
    pose proof (lik_created Ho') as Hcr.
    assert (E1 : cov_first inv h om (ft_data f) (ft_absolute f) OMM (ft_obj f) popt = cov_of inv om (ft_data f) (ft_absolute f) false (Ok (Some (entry hess v))) (ls_call true h om (ft_obj f) [] kwp)).
    { unfold cov_first. cbn [obj_hessian]. fold kwp. unfold mm_hess. rewrite Hf2. rewrite (base_hess_i h om data (ft_obj f) kwp Hcr _ _ _ Hf2 Hh), Hd. reflexivity. }
    destruct (cov_of_matrix (entry hess v) H (ls_call true h om (ft_obj f) [] kwp) HM) as [(b & Hb & E)|(Hb & E)].
    - exists (Some b). split; [apply (lik_execute OMM _ Hc); unfold covariance; rewrite E1, E; reflexivity|].
      left. exists b. split; [reflexivity|]. split; [apply Hb|]. exists b. split; [exact Hb|]. intros k l _ _. ring.
    - exists None. split; [|right; auto]. apply (lik_execute OMM _ Hc). unfold covariance. rewrite E1, E. cbn [bind cov_second]. rewrite (init_data _ _ _ _ Ho'), Ho. cbn [bind]. rewrite Hf2. fold kwp.
      rewrite (zero_hess_i h om data (ft_obj f) kwp Hcr [] out Hval), Hd. cbn [map bind first_of of_opt nth_error].
      match goal with |- cov_of _ _ _ _ _ (Ok (Some ?z)) _ = _ => set (Z := z) end.
      destruct HM as (_ & d & Hsd & _). rewrite (Hs2 v) in Hsd by (rewrite Hd; left; reflexivity). fold n in Hsd.
      set (Z0 := {| shp := [n; n]; val := fun i => val Z (repeat 0%nat d ++ i) |}).
      assert (HZ : matrix_in n Z Z0) by (split; [reflexivity|]; exists d; split; [exact Hsd|reflexivity]).
      destruct (cov_of_matrix Z Z0 (Raise TypeError) HZ) as [(b & Hb' & _)|(_ & E')]; [|exact E'].
      exfalso. apply (zero_singular n Z0 Hn) with (B := b); [|exact Hb']. intros k l _ _. unfold mat, Z0, Z. cbn [val]. unfold elem, np_zeros_like. reflexivity.
  Qed.
End Lik.
