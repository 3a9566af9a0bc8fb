(** * FitCov: the covariance matrix. *)
From Coq Require Import Reals Lra.
From Coquelicot Require Import Coquelicot.
From Verif Require Import PyBase PyFacts Signature SignatureFacts Expr NumPy NumFacts Objective ObjSpec ObjFacts ObjLS ObjLeast Minimizer Fit FitSpec FitFacts FitData.
Local Open Scope R_scope.
Local Open Scope string_scope.
Local Open Scope list_scope.

(** ** matrices *)
Lemma delta_sum (g : nat -> R) k : forall n s, (s <= k)%nat -> (k < s + n)%nat -> Rsum (map (fun m => delta k m * g m) (seq s n)) = g k.
Proof.
  induction n as [|n IH]; intros s H1 H2; [lia|]. cbn [seq map Rsum]. unfold delta at 1. destruct (Nat.eqb_spec k s) as [->|Hne].
  - replace (Rsum (map (fun m => delta s m * g m) (seq (S s) n))) with 0; [lra|]. symmetry. transitivity (Rsum (map (fun _ : nat => 0) (seq (S s) n))); [|apply Rsum_const0].
    apply Rsum_ext. intros m Hm. apply in_seq in Hm. unfold delta. destruct (Nat.eqb_spec s m); [lia|lra].
  - rewrite IH by lia. lra.
Qed.
Lemma delta_sym k l : delta k l = delta l k.
Proof. unfold delta. rewrite Nat.eqb_sym. reflexivity. Qed.
Lemma in_range n k : In k (seq 0 n) <-> (k < n)%nat.
Proof. rewrite in_seq. lia. Qed.

Lemma inverse_unique n a b c : product_is n b a 1 -> product_is n a c 1 -> forall k l, (k < n)%nat -> (l < n)%nat -> mat b k l = mat c k l.
Proof.
  intros Hb Hc k l Hk Hl.
  (* b = b (a c) = (b a) c = c *)
  transitivity (Rsum (map (fun m => mat b k m * Rsum (map (fun j => mat a m j * mat c j l) (seq 0 n))) (seq 0 n))).
  - rewrite <- (delta_sum (fun m => mat b k m) l n 0) by lia. apply Rsum_ext. intros m Hm. apply in_range in Hm. rewrite Hc by assumption. rewrite (delta_sym l m). ring.
  - transitivity (Rsum (map (fun j => Rsum (map (fun m => mat b k m * mat a m j) (seq 0 n)) * mat c j l) (seq 0 n))).
    + transitivity (Rsum (map (fun m => Rsum (map (fun j => mat b k m * mat a m j * mat c j l) (seq 0 n))) (seq 0 n))).
      * apply Rsum_ext. intros m Hm. rewrite <- Rsum_scal. apply Rsum_ext. intros j Hj. ring.
      * rewrite Rsum_swap. apply Rsum_ext. intros j Hj. rewrite Rmult_comm, <- Rsum_scal. apply Rsum_ext. intros m Hm. ring.
    + rewrite <- (delta_sum (fun j => mat c j l) k n 0) by lia. apply Rsum_ext. intros j Hj. apply in_range in Hj. rewrite Hb by assumption. ring.
Qed.
Lemma inverse_scaled n a a' b r : r <> 0 -> (forall k l, (k < n)%nat -> (l < n)%nat -> mat a' k l = r * mat a k l) -> inverse_of n a b ->
  inverse_of n a' (npmap (Rmult (/ r)) b).
Proof.
  intros Hr Ha (Hs & H1 & H2). split; [exact Hs|]. split; intros k l Hk Hl.
  - rewrite <- H1 by assumption. apply Rsum_ext. intros m Hm. apply in_range in Hm. rewrite Ha by assumption. unfold mat, npmap. simpl. field. exact Hr.
  - rewrite <- H2 by assumption. apply Rsum_ext. intros m Hm. apply in_range in Hm. rewrite Ha by assumption. unfold mat, npmap. simpl. field. exact Hr.
Qed.
Lemma inverse_ext n a a' b : (forall k l, (k < n)%nat -> (l < n)%nat -> mat a' k l = mat a k l) -> inverse_of n a b -> inverse_of n a' b.
Proof.
  intros Ha (Hs & H1 & H2). split; [exact Hs|]. split; intros k l Hk Hl; [rewrite <- H1 by assumption|rewrite <- H2 by assumption];
    apply Rsum_ext; intros m Hm; apply in_range in Hm; rewrite Ha by assumption; reflexivity.
Qed.
Lemma inverse_symmetric n a b : inverse_of n a b -> symmetric n a -> symmetric n b.
Proof.
  intros (Hs & H1 & H2) Ha. set (bt := {| shp := shp b; val := fun i => match i with [l; k] => mat b l k | _ => 0 end |}).
  assert (Hbt : forall k l, mat bt k l = mat b l k) by reflexivity.
  assert (Hp : product_is n a bt 1).
  { intros k l Hk Hl. specialize (H2 l k Hl Hk). rewrite delta_sym. rewrite <- H2. apply Rsum_ext. intros m Hm. apply in_range in Hm. rewrite Hbt, (Ha k m) by assumption. ring. }
  intros k l Hk Hl. rewrite <- (Hbt l k). rewrite <- (inverse_unique n a b bt H2 Hp) by assumption. reflexivity.
Qed.
Lemma product_scaled n a b r : product_is n a b 1 -> product_is n a (npmap (Rmult r) b) r /\ (product_is n b a 1 -> product_is n (npmap (Rmult r) b) a r).
Proof.
  intros H. split; [|intros H'].
  - intros k l Hk Hl. rewrite <- (Rmult_1_l (delta k l)), <- (H k l) by assumption. rewrite <- Rsum_scal. apply Rsum_ext. intros m Hm. unfold mat, npmap. simpl. ring.
  - intros k l Hk Hl. rewrite <- (Rmult_1_l (delta k l)), <- (H' k l) by assumption. rewrite <- Rsum_scal. apply Rsum_ext. intros m Hm. unfold mat, npmap. simpl. ring.
Qed.

Lemma sq2 a n : square n a -> square n (atleast_2d (squeeze a)) /\ forall k l, (k < n)%nat -> (l < n)%nat -> mat (atleast_2d (squeeze a)) k l = mat a k l.
Proof. intros H. destruct (atleast_2d_squeeze a n H) as [H1 H2]. split; [exact H1|]. intros k l Hk Hl. apply H2; assumption. Qed.

Section CovOf.
  Context (inv : nd -> res nd) (om : omodel) (d : dict kwkey datum) (absolute : bool) (n : nat).
  Hypothesis Hinv : inverts inv.
  Definition factor (f raw : R) : R := if absolute then 1 else 2 * f / (raw - INR (List.length (om_params om))).
  Lemma cov_of_ls a f raw : square n a -> raw_dof om d = Ok raw ->
    (exists b, inverse_of n a b /\ cov_of inv om d absolute true (Ok (Some a)) (Ok f) = Ok (Some (nscale (factor f (INR raw)) b))) \/
    ((forall b, ~ inverse_of n a b) /\ cov_of inv om d absolute true (Ok (Some a)) (Ok f) = Ok None).
  Proof using Hinv.
    intros Ha Hr. destruct (sq2 a n Ha) as [Hq1 Hq2]. unfold cov_of. destruct (Hinv n _ Hq1) as [(b & Hb & Hi)|(Hb & Hi)]; rewrite Hb.
    - left. exists b. split; [apply (inverse_ext n (atleast_2d (squeeze a)) a b); [intros; rewrite Hq2 by assumption; reflexivity|exact Hi]|].
      cbn [bind]. rewrite Hr. reflexivity.
    - right. split; [|reflexivity]. intros b Hc. apply (Hi b). apply (inverse_ext n a); [exact Hq2|exact Hc].
  Qed.
  Lemma cov_of_other a v : square n a ->
    (exists b, inverse_of n a b /\ cov_of inv om d absolute false (Ok (Some a)) v = Ok (Some b)) \/
    ((forall b, ~ inverse_of n a b) /\ cov_of inv om d absolute false (Ok (Some a)) v = Ok None).
  Proof using Hinv.
    intros Ha. destruct (sq2 a n Ha) as [Hq1 Hq2]. unfold cov_of. destruct (Hinv n _ Hq1) as [(b & Hb & Hi)|(Hb & Hi)]; rewrite Hb.
    - left. exists b. split; [apply (inverse_ext n (atleast_2d (squeeze a)) a b); [intros; rewrite Hq2 by assumption; reflexivity|exact Hi]|reflexivity].
    - right. split; [|reflexivity]. intros b Hc. apply (Hi b). apply (inverse_ext n a); [exact Hq2|exact Hc].
  Qed.
  Lemma cov_scaled d' a a' f f' raw r : raw_dof om d = Ok raw -> raw_dof om d' = Ok raw -> square n a -> square n a' -> r <> 0 ->
    (forall k l, (k < n)%nat -> (l < n)%nat -> mat a' k l = r * mat a k l) -> f' = r * f ->
    exists o o', cov_of inv om d absolute true (Ok (Some a)) (Ok f) = Ok o /\ cov_of inv om d' absolute true (Ok (Some a')) (Ok f') = Ok o' /\
      scaled_matrix n (if absolute then / r else 1) o o'.
  Proof using Hinv.
    intros Hr Hr' Ha Ha' Hnz Hm ->. destruct (sq2 a' n Ha') as [Hq1 Hq2].
    assert (Hinv_back : forall b, inverse_of n a' b -> inverse_of n a (npmap (Rmult (/ / r)) b)).
    { intros b Hb. apply (inverse_scaled n a' a b (/ r)); [apply Rinv_neq_0_compat; exact Hnz| |exact Hb]. intros k l Hk Hl. rewrite Hm by assumption. field. exact Hnz. }
    destruct (cov_of_ls a f raw Ha Hr) as [(b & Hb & Hc)|(Hb & Hc)].
    - pose proof (inverse_scaled n a a' b r Hnz Hm Hb) as Hb'.
      assert (Hc' : exists b', inverse_of n a' b' /\ cov_of inv om d' absolute true (Ok (Some a')) (Ok (r * f)) = Ok (Some (nscale (factor (r * f) (INR raw)) b'))).
      { unfold cov_of. destruct (Hinv n _ Hq1) as [(b' & E & Hi)|(E & Hi)]; rewrite E.
        - exists b'. split; [apply (inverse_ext n (atleast_2d (squeeze a')) a' b'); [intros; rewrite Hq2 by assumption; reflexivity|exact Hi]|]. cbn [bind]. rewrite Hr'. reflexivity.
        - exfalso. apply (Hi (npmap (Rmult (/ r)) b)). apply (inverse_ext n a'); [exact Hq2|exact Hb']. }
      destruct Hc' as (b' & Hi' & Hc'). eexists; eexists. split; [exact Hc|]. split; [exact Hc'|]. simpl.
      split; [exact (proj1 Hb)|]. split; [exact (proj1 Hi')|]. intros k l Hk Hl.
      pose proof (inverse_unique n a' b' (npmap (Rmult (/ r)) b) (proj2 (proj2 Hi')) (proj1 (proj2 Hb')) k l Hk Hl) as Hu.
      clear - Hu Hnz. unfold mat in Hu |- *. unfold nscale, npmap in Hu |- *. cbn [val] in Hu |- *. rewrite Hu. unfold factor. destruct absolute; [ring|].
      unfold Rdiv. match goal with |- 2 * (r * f) * ?D * (/ r * ?x) = _ => transitivity (2 * f * D * (r * / r) * x); [ring|] end. rewrite Rinv_r by exact Hnz. ring.
    - exists None, None. split; [exact Hc|]. split; [|exact I]. unfold cov_of. destruct (Hinv n _ Hq1) as [(b' & E & Hi)|(E & Hi)]; rewrite E; [|reflexivity].
      exfalso. apply (Hb (npmap (Rmult (/ / r)) b')). apply Hinv_back. apply (inverse_ext n (atleast_2d (squeeze a'))); [intros; rewrite Hq2 by assumption; reflexivity|exact Hi].
  Qed.
End CovOf.

(** ** scaling all sigmas *)
Section Scale.
  Context (om : omodel) (data data' : dict sym (option nd)) (c : R).
  Hypothesis Hsc : sigmas_scaled c om data data'.
  Hypothesis Hc : c <> 0.
  Lemma scale_other v : In v (om_indep om ++ om_dep om) -> dget data' v = dget data v.
  Proof using Hsc. apply (proj1 Hsc). Qed.
  Lemma scale_observed v : In v (om_indep om ++ om_dep om) -> observed data' v = observed data v.
  Proof using Hsc. intros Hv. unfold observed. rewrite scale_other by exact Hv. reflexivity. Qed.
  Lemma scale_sigma v : In v (om_dep om) -> observed data' (sigma_of v) = option_map (npmap (Rmult c)) (observed data (sigma_of v)).
  Proof using Hsc.
    intros Hv. unfold observed. rewrite (proj2 Hsc v Hv). destruct (dget data (sigma_of v)) as [[a|]|]; reflexivity.
  Qed.
  Lemma dep_both v : In v (om_dep om) -> In v (om_indep om ++ om_dep om).
  Proof using. intros; apply in_or_app; auto. Qed.
  Lemma scale_seen h xs kw n : seen h om data' xs kw n = seen h om data xs kw n.
  Proof using Hsc.
    unfold seen. destruct (find _ (om_indep om)) as [v|] eqn:E; [|reflexivity]. apply find_some in E as [Hv _]. rewrite scale_other by (apply in_or_app; auto). reflexivity.
  Qed.
  Lemma scale_answers f h xs kw out : answers f h om data xs kw out -> answers f h om data' xs kw out.
  Proof using Hsc.
    intros (dd & [Hn Hd] & H1 & H2). exists dd. split; [|split; [exact H1|exact H2]]. split; [exact Hn|]. intros n. rewrite scale_seen. apply Hd.
  Qed.
  Lemma scale_fits out : fits_data om data out -> fits_data om data' out.
  Proof using Hsc Hc.
    intros Hf v y Hv Hy. rewrite scale_observed in Hy by (apply dep_both; exact Hv). destruct (Hf v y Hv Hy) as (Hst & s & Hs & Hsf & Hnz). split; [exact Hst|].
    exists (npmap (Rmult c) s). rewrite scale_sigma, Hs by exact Hv. split; [reflexivity|]. split; [exact Hsf|]. intros i Hi. unfold elem, npmap. simpl.
    apply Rmult_integral_contrapositive_currified; [exact Hc|apply Hnz; exact Hi].
  Qed.
  Lemma scale_jacobian h xs kw out jac : jacobian_at h om data xs kw out jac -> jacobian_at h om data' xs kw out jac.
  Proof using Hsc.
    intros [(f & Hf & Ha) Hs]. split; [exists f; split; [exact Hf|apply scale_answers; exact Ha]|]. intros v Hv. destruct (Hs v Hv) as [H1 H2]. split; [exact H1|].
    intros y Hy. apply H2. rewrite scale_observed in Hy by (apply dep_both; exact Hv). exact Hy.
  Qed.
  Lemma scale_hessian h xs kw out jac : hessian_at h om data xs kw out jac -> hessian_at h om data' xs kw out jac.
  Proof using Hsc.
    intros [(f & Hf & Ha) Hs]. split; [exists f; split; [exact Hf|apply scale_answers; exact Ha]|]. intros v Hv. destruct (Hs v Hv) as [H1 H2]. split; [exact H1|].
    intros y Hy. apply H2. rewrite scale_observed in Hy by (apply dep_both; exact Hv). exact Hy.
  Qed.
  Lemma scale_some : some_data om data -> some_data om data'.
  Proof using Hsc. intros (v & y & Hv & Hy). exists v, y. split; [exact Hv|]. rewrite scale_observed by (apply dep_both; exact Hv). exact Hy. Qed.
  Lemma scale_indep : independent_data_given om data -> independent_data_given om data'.
  Proof using Hsc. intros H v Hv. rewrite scale_other by (apply in_or_app; auto). apply H; exact Hv. Qed.
  Lemma scale_created ob kw : created false om data ob kw -> exists ob', obj_init false om data' = Ok ob' /\ created false om data' ob' kw /\ ob_data ob' = data'.
  Proof using Hsc.
    intros (Hi & Hk & Hn & Ho & Hkw & Hin).
    assert (Hex : exists ob', obj_init false om data' = Ok ob' /\ ob_data ob' = data').
    { unfold obj_init in *. apply bind_Ok in Ho as (dep & Hd & Ho). apply bind_Ok in Ho as (ind & Hi2 & Ho). apply bind_Ok in Ho as (sg & Hsg & Ho).
      assert (Hm : forall (vs : list sym) (g : sym -> sym) r, (forall v x, In v vs -> dget data (g v) = Some x -> exists x', dget data' (g v) = Some x') ->
                   mapM (fun v => x <- dlook data (g v) ;; Ok (g v, x)) vs = Ok r ->
                   exists r', mapM (fun v => x <- dlook data' (g v) ;; Ok (g v, x)) vs = Ok r').
      { clear. induction vs as [|v vs IH]; intros g r Hvs H; [eexists; reflexivity|]. cbn [mapM] in *. apply bind_Ok in H as (y & Hy & H). apply bind_Ok in H as (ys & Hys & H).
        destruct (IH g ys) as (r' & Hr'); [intros w x Hw; apply Hvs; right; exact Hw|exact Hys|]. rewrite Hr'. apply bind_Ok in Hy as (x & Hx & Hy). unfold dlook in *.
        destruct (dget data (g v)) as [z|] eqn:E; [|discriminate]. destruct (Hvs v z (or_introl eq_refl) E) as (x' & ->). simpl. eexists; reflexivity. }
      destruct (Hm (om_dep om) (fun v => v) dep) as (dep' & Hd'); [intros v x Hv; rewrite scale_other by (apply dep_both; exact Hv); eauto|exact Hd|].
      destruct (Hm (om_indep om) (fun v => v) ind) as (ind' & Hi'); [intros v x Hv; rewrite scale_other by (apply in_or_app; auto); eauto|exact Hi2|].
      destruct (Hm (om_dep om) sigma_of sg) as (sg' & Hs'); [intros v x Hv; rewrite (proj2 Hsc v Hv); intros ->; eexists; reflexivity|exact Hsg|].
      cbn beta in *. rewrite Hd'. cbn [bind]. rewrite Hi'. cbn [bind]. rewrite Hs'. cbn [bind]. eexists; split; reflexivity. }
    destruct Hex as (ob' & H1 & H2). exists ob'. split; [exact H1|]. split; [|exact H2].
    split; [exact Hi|]. split; [exact Hk|]. split; [exact Hn|]. split; [exact H1|]. split; [exact Hkw|apply scale_indep; exact Hin].
  Qed.

  Lemma inv_sq x : x <> 0 -> / (c * x) ^ 2 = / c ^ 2 * / x ^ 2.
  Proof using Hc. intros Hx. field. split; assumption. Qed.
  Lemma chi2_scaled out v : In v (om_dep om) -> fits_data om data out -> chi2_of data' out v = / c ^ 2 * chi2_of data out v.
  Proof using Hsc Hc.
    intros Hv Hf. unfold chi2_of. rewrite (scale_observed v (dep_both v Hv)), (scale_sigma v Hv). destruct (observed data v) as [y|] eqn:Hy; [|simpl; ring].
    destruct (Hf v y Hv Hy) as (_ & s & Hs & _ & Hnz). rewrite Hs. cbn [option_map]. rewrite <- Rsum_scal. apply Rsum_ext. intros i Hi. specialize (Hnz i Hi).
    unfold elem, npmap in *. simpl in *. field. split; assumption.
  Qed.
  Lemma half_scaled out : fits_data om data out -> half_chi2 data' out (om_dep om) = / c ^ 2 * half_chi2 data out (om_dep om).
  Proof using Hsc Hc.
    intros Hf. unfold half_chi2. replace (Rsum (map (chi2_of data' out) (om_dep om))) with (/ c ^ 2 * Rsum (map (chi2_of data out) (om_dep om))); [ring|].
    rewrite <- Rsum_scal. apply Rsum_ext. intros v Hv. symmetry. apply chi2_scaled; assumption.
  Qed.
  Lemma hess_scaled out jac hess k l : fits_data om data out ->
    Rsum (map (fun v => hess_of data' out jac hess v k l) (om_dep om)) = / c ^ 2 * Rsum (map (fun v => hess_of data out jac hess v k l) (om_dep om)).
  Proof using Hsc Hc.
    intros Hf. rewrite <- Rsum_scal. apply Rsum_ext. intros v Hv. unfold hess_of. rewrite (scale_observed v (dep_both v Hv)), (scale_sigma v Hv).
    destruct (observed data v) as [y|] eqn:Hy; [|simpl; ring].
    destruct (Hf v y Hv Hy) as (_ & s & Hs & _ & Hnz). rewrite Hs. cbn [option_map]. rewrite <- Rsum_scal. apply Rsum_ext. intros i Hi. specialize (Hnz i Hi).
    unfold elem, npmap in *. simpl val. simpl shp. field. split; assumption.
  Qed.
  Lemma jtwj_scaled out jac k l : fits_data om data out ->
    Rsum (map (fun v => jtwj_of data' out jac v k l) (om_dep om)) = / c ^ 2 * Rsum (map (fun v => jtwj_of data out jac v k l) (om_dep om)).
  Proof using Hsc Hc.
    intros Hf. rewrite <- Rsum_scal. apply Rsum_ext. intros v Hv. unfold jtwj_of. rewrite (scale_observed v (dep_both v Hv)), (scale_sigma v Hv).
    destruct (observed data v) as [y|] eqn:Hy; [|simpl; ring].
    destruct (Hf v y Hv Hy) as (_ & s & Hs & _ & Hnz). rewrite Hs. cbn [option_map]. rewrite <- Rsum_scal. apply Rsum_ext. intros i Hi. specialize (Hnz i Hi).
    unfold elem, npmap in *. simpl val. simpl shp. field. split; assumption.
  Qed.
End Scale.
