(** * ObjDiff: the gradient and Hessian of LeastSquares are derivatives. *)
From Coq Require Import Reals Lra.
From Coquelicot Require Import Coquelicot.
From Verif Require Import PyBase PyFacts Expr NumPy NumFacts JacAnalysis Objective ObjSpec ObjFacts ObjLS ObjLeast.
Local Open Scope R_scope.

Lemma locally_at (t0 : R) (P : R -> Prop) : locally t0 P -> P t0.
Proof. apply locally_singleton. Qed.

(** ** setting an entry of the vector = setting that keyword *)
Lemma nth_error_set_nth xs : forall j t i, nth_error (set_nth xs j t) i = if Nat.eqb i j then option_map (fun _ => t) (nth_error xs i) else nth_error xs i.
Proof.
  induction xs as [|x xs IH]; intros j t i; simpl; [destruct i; destruct (Nat.eqb _ _); reflexivity|].
  destruct j as [|j], i as [|i]; simpl; try reflexivity. apply IH.
Qed.
Lemma dget_combine_set_nth (ks : list string) : forall xs j t n k, NoDup ks -> nth_error ks j = Some k -> (j < List.length xs)%nat ->
  dget (combine ks (set_nth xs j t)) n = if eq_dec n k then Some t else dget (combine ks xs) n.
Proof.
  induction ks as [|a ks IH]; intros xs j t n k Hnd Hk Hj; [destruct j; discriminate|]. inv Hnd.
  destruct xs as [|x xs]; [simpl in Hj; lia|]. destruct j as [|j]; simpl in *.
  - inv Hk. destruct (eq_dec n k); reflexivity.
  - rewrite (IH xs j t n k) by (auto; lia). destruct (eq_dec n a) as [->|]; [|reflexivity].
    destruct (eq_dec a k) as [->|]; [|reflexivity]. exfalso. apply H1. eapply nth_error_In; exact Hk.
Qed.
Lemma seen_set_nth h om data xs kw p j k t : interface om -> free_number h om p j k -> (j < List.length xs)%nat ->
  forall n, seen h om data (set_nth xs j t) kw n = if eq_dec n (sname p) then Some (scalar t) else seen h om data xs kw n.
Proof.
  intros Hi [Hk Hj] Hl n. unfold seen. assert (Hp : In p (om_params om)) by (eapply nth_error_In; exact Hk).
  assert (Hnf : p_fixed (h p) = false).
  { apply nth_error_In, filter_In in Hj as [_ Hj]. apply negb_true_iff in Hj. exact Hj. }
  pose proof (params_names om Hi) as Hnd.
  destruct (find (fun v => eqb (sname v) n) (om_indep om)) as [v|] eqn:Ev.
  { apply find_some in Ev as [Hv He]. apply (proj1 (eqb_true _ _)) in He. subst n.
    destruct (eq_dec (sname v) (sname p)) as [E|]; [|reflexivity]. exfalso. exact (names_disjoint om Hi v p Hv Hp E). }
  destruct (find _ (om_params om)) as [q|] eqn:Eq.
  { apply find_some in Eq as [Hq He]. apply andb_prop in He as [He Hfq]. apply (proj1 (eqb_true _ _)) in He. subst n.
    destruct (eq_dec (sname q) (sname p)) as [E|]; [|reflexivity]. exfalso.
    assert (q = p); [|congruence]. clear -Hnd Hq Hp E. induction (om_params om) as [|a l IH]; [contradiction|]. simpl in Hnd. inv Hnd.
    destruct Hq as [->|Hq], Hp as [->|Hp]; auto.
    - exfalso. apply H1. rewrite E. apply in_map; exact Hp.
    - exfalso. apply H1. rewrite <- E. apply in_map; exact Hq. }
  rewrite (dget_combine_set_nth _ xs j t n (sname p)).
  - destruct (eq_dec n (sname p)); reflexivity.
  - apply NoDup_map_filter. exact Hnd.
  - rewrite nth_error_map, Hj. reflexivity.
  - exact Hl.
Qed.
Lemma with_param_seen h om data xs kw p j k t d : interface om -> free_number h om p j k -> (j < List.length xs)%nat ->
  with_param h om data xs kw p t d -> arguments_are d (seen h om data (set_nth xs j t) kw).
Proof.
  intros Hi Hf Hl (d0 & [H1 H2] & ->). split; [apply NoDup_dset; exact H1|]. intros n.
  rewrite (seen_set_nth _ _ _ _ _ p j k t Hi Hf Hl). rewrite dget_dset. rewrite H2. destruct (eq_dec n (sname p)); reflexivity.
Qed.
Lemma set_nth_same xs j t : (j < List.length xs)%nat -> t = nth j xs 0 -> set_nth xs j t = xs.
Proof. revert j; induction xs as [|x xs IH]; intros [|j] H ->; simpl in *; try lia; [reflexivity|]. f_equal. apply IH; [lia|reflexivity]. Qed.

(** ** the derivative of the spec value *)
Section Diff.
  Context (om : omodel) (data : dict sym (option nd)).
  Lemma is_derive_half_sq (f : R -> R) t0 f' y s : is_derive f t0 f' -> s <> 0 ->
    is_derive (fun t => ((f t - y) / s) ^ 2) t0 (2 * (f' * ((f t0 - y) / s ^ 2))).
  Proof using. intros Hf Hs. auto_derive; [exists f'; exact Hf|]. rewrite (is_derive_unique (fun x : R => f x) t0 f' Hf). field. exact Hs. Qed.

  Lemma at_point_shape (o1 o2 : dict sym nd) v y i : shp (entry o1 v) = shp (entry o2 v) ->
    at_point (entry o2 v) y i = val (entry o2 v) (pt o1 v y i).
  Proof using. intros H. unfold at_point, pt, elem. rewrite H. reflexivity. Qed.

  Lemma half_chi2_derive (out : R -> dict sym nd) t0 jac k : fits_data om data (out t0) ->
    locally t0 (fun t => same_shapes (om_dep om) (out t0) (out t)) -> derivative_of (om_dep om) out t0 jac k ->
    is_derive (fun t => half_chi2 data (out t) (om_dep om)) t0 (Rsum (map (fun v => grad_of data (out t0) jac v k) (om_dep om))).
  Proof using.
    intros Hf Hsh Hd. unfold half_chi2.
    assert (H : is_derive (fun t => Rsum (map (fun v => chi2_of data (out t) v) (om_dep om))) t0 (Rsum (map (fun v => 2 * grad_of data (out t0) jac v k) (om_dep om)))).
    { apply is_derive_Rsum. intros v Hv. unfold chi2_of, grad_of. destruct (observed data v) as [y|] eqn:Hy.
      2:{ rewrite Rmult_0_r. apply der_const. }
      destruct (Hf v y Hv Hy) as (Hst & s & Hs & Hsf & Hnz). rewrite Hs. rewrite <- Rsum_scal. apply is_derive_Rsum. intros i Hi.
      apply is_derive_ext_loc with (f := fun t => ((val (entry (out t) v) (pt (out t0) v y i) - val y i) / elem s i) ^ 2).
      - apply (filter_imp (fun t => same_shapes (om_dep om) (out t0) (out t))); [|exact Hsh].
        intros t Ht. rewrite (at_point_shape (out t0) (out t)) by (apply Ht; exact Hv). reflexivity.
      - pose proof (is_derive_half_sq (fun t => val (entry (out t) v) (pt (out t0) v y i)) t0 _ (val y i) (elem s i) (Hd v (pt (out t0) v y i) Hv (point_index _ _ _ Hst Hi)) (Hnz i Hi)) as H.
        exact H. }
    pose proof (der_mult (fun _ => / 2) _ t0 0 _ (der_const (/2) t0) H) as H'. rewrite Rmult_0_l, Rplus_0_l in H'.
    rewrite Rsum_scal in H'. replace (/ 2 * (2 * Rsum (map (fun v => grad_of data (out t0) jac v k) (om_dep om)))) with (Rsum (map (fun v => grad_of data (out t0) jac v k) (om_dep om))) in H' by lra.
    exact H'.
  Qed.
  Lemma grad_derive (out jacs : R -> dict sym nd) t0 jac hess k l : fits_data om data (out t0) ->
    locally t0 (fun t => same_shapes (om_dep om) (out t0) (out t)) -> jacs t0 = jac -> derivative_of (om_dep om) out t0 jac l ->
    (forall v i, In v (om_dep om) -> In i (indices (shp (entry (out t0) v))) ->
      is_derive (fun t => val (entry (jacs t) v) (i ++ [k])) t0 (val (entry hess v) (i ++ [l; k]))) ->
    is_derive (fun t => Rsum (map (fun v => grad_of data (out t) (jacs t) v k) (om_dep om))) t0 (Rsum (map (fun v => hess_of data (out t0) jac hess v k l) (om_dep om))).
  Proof using.
    intros Hf Hsh Hj0 Hd Hd2. apply is_derive_Rsum. intros v Hv. unfold grad_of, hess_of. destruct (observed data v) as [y|] eqn:Hy; [|apply der_const].
    destruct (Hf v y Hv Hy) as (Hst & s & Hs & Hsf & Hnz). rewrite Hs. apply is_derive_Rsum. intros i Hi.
    apply is_derive_ext_loc with (f := fun t => val (entry (jacs t) v) (pt (out t0) v y i ++ [k]) * ((val (entry (out t) v) (pt (out t0) v y i) - val y i) / elem s i ^ 2)).
    - apply (filter_imp (fun t => same_shapes (om_dep om) (out t0) (out t))); [|exact Hsh].
      intros t Ht. rewrite (at_point_shape (out t0) (out t)) by (apply Ht; exact Hv). unfold pt. rewrite (Ht v Hv). reflexivity.
    - pose proof (point_index _ _ _ Hst Hi) as Hpt. fold (pt (out t0) v y i) in Hpt.
      assert (H1 : is_derive (fun t => (val (entry (out t) v) (pt (out t0) v y i) - val y i) / elem s i ^ 2) t0 (val (entry jac v) (pt (out t0) v y i ++ [l]) / elem s i ^ 2)).
      { pose proof (Hd v _ Hv Hpt) as H0. cbv beta in H0. set (F := fun t => val (entry (out t) v) (pt (out t0) v y i)) in *.
        change (is_derive (fun t => (F t - val y i) / elem s i ^ 2) t0 (val (entry jac v) (pt (out t0) v y i ++ [l]) / elem s i ^ 2)).
        auto_derive; [eexists; exact H0|]. rewrite (is_derive_unique (fun x : R => F x) t0 _ H0). pose proof (Hnz i Hi). field. assumption. }
      pose proof (der_mult _ _ t0 _ _ (Hd2 v _ Hv Hpt) H1) as H2. cbv beta in H2. rewrite Hj0 in H2.
      match type of H2 with is_derive _ _ ?a => match goal with |- is_derive _ _ ?b => replace b with a end end; [exact H2|].
      rewrite (at_point_shape (out t0) (out t0)) by reflexivity. unfold Rdiv. lra.
  Qed.
End Diff.

Section Thm.
  Context (h : heap) (om : omodel) (data : dict sym (option nd)) (ob : obj) (kw : dict string R).
  Hypothesis Hcr : created false om data ob kw.
  Let np := List.length (om_params om).

  Lemma args_unique xs d1 d2 : arguments_are d1 (seen h om data xs kw) -> arguments_are d2 (seen h om data xs kw) ->
    om_call om d1 = om_call om d2 /\ (forall f, om_jac om = Some f -> f d1 = f d2) /\ (forall f, om_hess om = Some f -> f d1 = f d2).
  Proof using Hcr. intros [H1 H2] [H3 H4]. destruct Hcr as (_ & Hk & _). apply Hk; auto. intros n. rewrite H2, H4. reflexivity. Qed.

  Lemma fits_same out1 out2 : same_shapes (om_dep om) out1 out2 -> fits_data om data out1 -> fits_data om data out2.
  Proof using. intros Hs Hf v y Hv Hy. destruct (Hf v y Hv Hy) as [H1 H2]. split; [|exact H2]. unfold stretches in *. rewrite <- (Hs v Hv). exact H1. Qed.

  Lemma ls_gradient_is_derivative xs out jac : value_at h om data xs kw out -> fits_data om data out -> jacobian_at h om data xs kw out jac -> some_data om data ->
    exists g, ls_jac h om ob xs kw = Ok g /\ shp g = [np] /\
      forall p j k, free_number h om p j k -> (j < List.length xs)%nat -> partial_in h om data xs kw p (nth j xs 0) jac k ->
        exists F, locally (nth j xs 0) (fun t => ls_call true h om ob (set_nth xs j t) kw = Ok (F t)) /\ is_derive F (nth j xs 0) (val g [k]).
  Proof using Hcr.
    intros Hv Hf Hj Hsd. destruct (ls_gradient h om data ob kw Hcr xs out jac Hv Hf Hj Hsd) as (g & Hg & Hgs & Hgv).
    exists g. split; [exact Hg|]. split; [exact Hgs|]. intros p j k Hfn Hjl (o & Hloc & Hd).
    destruct Hcr as (Hi & _). pose proof Hv as (d & Hd1 & Hd2 & Hd3).
    assert (Ho : o (nth j xs 0) = out).
    { apply locally_at in Hloc as (d' & Hw & Hc & _). apply (with_param_seen _ _ _ _ _ p j k _ _ Hi Hfn Hjl) in Hw.
      rewrite set_nth_same in Hw by auto. destruct (args_unique xs d d' Hd1 Hw) as [He _]. rewrite <- He in Hc. congruence. }
    assert (Hk : (k < np)%nat).
    { destruct Hfn as [Hk _]. apply nth_error_Some. rewrite Hk. discriminate. }
    exists (fun t => half_chi2 data (o t) (om_dep om)). split.
    - eapply filter_imp; [|exact Hloc]. intros t (d' & Hw & Hc & Hl & Hsh). apply (with_param_seen _ _ _ _ _ p j k _ _ Hi Hfn Hjl) in Hw.
      apply (ls_value h om data ob kw Hcr).
      + exists d'. auto.
      + apply (fits_same (o (nth j xs 0))); [exact Hsh|rewrite Ho; exact Hf].
    - rewrite Hgv by exact Hk. pose proof (half_chi2_derive om data o (nth j xs 0) jac k) as H. rewrite Ho in H. apply H; [exact Hf| |exact Hd].
      eapply filter_imp; [|exact Hloc]. intros t (d' & _ & _ & _ & Hsh). rewrite Ho in Hsh. exact Hsh.
  Qed.

  Lemma ls_hessian_is_derivative xs out jac hess : value_at h om data xs kw out -> fits_data om data out -> jacobian_at h om data xs kw out jac ->
    hessian_at h om data xs kw out hess -> some_data om data ->
    exists g, ls_hess h om ob xs kw = Ok g /\ shp g = [np; np] /\
      (forall p j k l, free_number h om p j l -> (j < List.length xs)%nat -> (k < np)%nat -> partial2_in h om data xs kw p (nth j xs 0) jac hess k l ->
        exists G, locally (nth j xs 0) (fun t => ls_jac h om ob (set_nth xs j t) kw = Ok (G t) /\ shp (G t) = [np]) /\
                  is_derive (fun t => val (G t) [k]) (nth j xs 0) (val g [l; k])) /\
      ((forall v i k l, In v (om_dep om) -> In i (indices (shp (entry out v))) -> (k < np)%nat -> (l < np)%nat -> val (entry hess v) (i ++ [l; k]) = val (entry hess v) (i ++ [k; l])) ->
       forall k l, (k < np)%nat -> (l < np)%nat -> val g [l; k] = val g [k; l]).
  Proof using Hcr.
    intros Hv Hf Hj Hh Hsd. destruct (ls_hessian h om data ob kw Hcr xs out jac hess Hv Hf Hj Hh Hsd) as (g & Hg & Hgs & Hgv).
    exists g. split; [exact Hg|]. split; [exact Hgs|]. split.
    - intros p j k l Hfn Hjl Hk (o & js & Hloc & Hj0 & Hd & Hd2).
      destruct Hcr as (Hi & _). pose proof Hv as (d & Hd1 & Hd2' & Hd3).
      assert (Ho : o (nth j xs 0) = out).
      { pose proof (locally_at _ _ Hloc) as (d' & f & Hw & Hc & _). apply (with_param_seen _ _ _ _ _ p j l _ _ Hi Hfn Hjl) in Hw.
        rewrite set_nth_same in Hw by auto. destruct (args_unique xs d d' Hd1 Hw) as [He _]. rewrite <- He in Hc. congruence. }
      assert (Hl : (l < np)%nat).
      { destruct Hfn as [Hl _]. apply nth_error_Some. rewrite Hl. discriminate. }
      assert (HG : forall t, (exists d f, with_param h om data xs kw p t d /\ om_call om d = Ok (o t) /\
                                   lists_dependent om (o t) /\ same_shapes (om_dep om) (o (nth j xs 0)) (o t) /\
                                   om_jac om = Some f /\ f d = Ok (js t) /\ lists_dependent om (js t) /\
                                   same_shapes (om_dep om) (js (nth j xs 0)) (js t)) ->
               exists G, ls_jac h om ob (set_nth xs j t) kw = Ok G /\ shp G = [np] /\ val G [k] = Rsum (map (fun v => grad_of data (o t) (js t) v k) (om_dep om))).
      { intros t (d' & f & Hw & Hc & Hld & Hsh & Hjf & Hjd & Hjl' & Hjs). apply (with_param_seen _ _ _ _ _ p j l _ _ Hi Hfn Hjl) in Hw.
        destruct (ls_gradient h om data ob kw Hcr (set_nth xs j t) (o t) (js t)) as (G & H1 & H2 & H3).
        - exists d'. auto.
        - apply (fits_same (o (nth j xs 0))); [exact Hsh|rewrite Ho; exact Hf].
        - split; [exists f; split; [exact Hjf|exists d'; auto]|]. intros v Hvd. destruct Hj as [_ Hj]. destruct (Hj v Hvd) as [Ha Hb].
          rewrite <- (Hjs v Hvd), <- (Hsh v Hvd), Hj0, Ho. split; [exact Ha|exact Hb].
        - exact Hsd.
        - exists G. split; [exact H1|]. split; [exact H2|]. apply H3; exact Hk. }
      exists (fun t => match ls_jac h om ob (set_nth xs j t) kw with Ok G => G | Raise _ => scalar 0 end). split.
      + eapply filter_imp; [|exact Hloc]. intros t Ht. destruct (HG t Ht) as (G & -> & Hs & _). auto.
      + apply is_derive_ext_loc with (f := fun t => Rsum (map (fun v => grad_of data (o t) (js t) v k) (om_dep om))).
        * eapply filter_imp; [|exact Hloc]. intros t Ht. destruct (HG t Ht) as (G & -> & _ & ->). reflexivity.
        * rewrite Hgv by assumption. pose proof (grad_derive om data o js (nth j xs 0) jac hess k l) as H. rewrite Ho in H. apply H; auto.
          -- eapply filter_imp; [|exact Hloc]. intros t (d' & f & _ & _ & _ & Hsh & _). rewrite Ho in Hsh. exact Hsh.
          -- intros v i Hvd Hii. apply Hd2; [exact Hvd|]. rewrite Ho. exact Hii.
    - intros Hsym k l Hk Hl. rewrite !Hgv by assumption. apply Rsum_ext. intros v Hvd. unfold hess_of.
      destruct (observed data v) as [y|] eqn:Hy; [|reflexivity]. destruct (observed data (sigma_of v)) as [s|]; [|reflexivity].
      apply Rsum_ext. intros i Hii. destruct (Hf v y Hvd Hy) as [Hst _]. rewrite (Hsym v (pt out v y i) k l Hvd (point_index _ _ _ Hst Hii) Hk Hl). unfold Rdiv. lra.
  Qed.

  (** *** JᵀWJ *)
  Lemma Rsum_square {A} (z : A -> R) (l : list A) : Rsum (map (fun a => Rsum (map (fun b => z a * z b) l)) l) = Rsum (map z l) ^ 2.
  Proof using.
    transitivity (Rsum (map (fun a => Rsum (map z l) * z a) l)).
    - apply Rsum_ext. intros a _. rewrite Rsum_scal. lra.
    - rewrite Rsum_scal. lra.
  Qed.
  Lemma ls_approx_psd xs out jac : value_at h om data xs kw out -> fits_data om data out -> jacobian_at h om data xs kw out jac -> some_data om data ->
    exists g, ls_hess_approx h om ob xs kw = Ok g /\ shp g = [np; np] /\
      (forall k l, (k < np)%nat -> (l < np)%nat -> val g [l; k] = Rsum (map (fun v => jtwj_of data out jac v k l) (om_dep om))) /\
      (forall k l, (k < np)%nat -> (l < np)%nat -> val g [l; k] = val g [k; l]) /\
      forall z : nat -> R, 0 <= Rsum (map (fun k => Rsum (map (fun l => z k * val g [l; k] * z l) (seq 0 np))) (seq 0 np)).
  Proof using Hcr.
    intros Hv Hf Hj Hsd. destruct (ls_approx h om data ob kw Hcr xs out jac Hv Hf Hj Hsd) as (g & Hg & Hgs & Hgv).
    exists g. split; [exact Hg|]. split; [exact Hgs|]. split; [exact Hgv|]. split.
    - intros k l Hk Hl. rewrite !Hgv by assumption. apply Rsum_ext. intros v Hvd. unfold jtwj_of.
      destruct (observed data v) as [y|]; [|reflexivity]. destruct (observed data (sigma_of v)) as [s|]; [|reflexivity].
      apply Rsum_ext. intros i _. unfold Rdiv. lra.
    - intros z. apply Rle_trans with (Rsum (map (fun v => Rsum (map (fun k => Rsum (map (fun l => z k * jtwj_of data out jac v k l * z l) (seq 0 np))) (seq 0 np))) (om_dep om))).
      + apply Rsum_nonneg. intros v Hvd. unfold jtwj_of. destruct (observed data v) as [y|] eqn:Hy.
        2:{ apply Rsum_nonneg. intros k _. apply Rsum_nonneg. intros l _. lra. }
        destruct (Hf v y Hvd Hy) as (_ & s & Hs & _ & Hnz). rewrite Hs.
        apply Rle_trans with (Rsum (map (fun i => (Rsum (map (fun k => z k * val (entry jac v) (pt out v y i ++ [k]) / elem s i) (seq 0 np))) ^ 2) (indices (shp y)))).
        { apply Rsum_nonneg. intros; apply pow2_ge_0. }
        apply Req_le. rewrite (Rsum_ext _ (fun i => Rsum (map (fun k => Rsum (map (fun l => (z k * val (entry jac v) (pt out v y i ++ [k]) / elem s i) * (z l * val (entry jac v) (pt out v y i ++ [l]) / elem s i)) (seq 0 np))) (seq 0 np)))) by (intros i _; rewrite Rsum_square; reflexivity).
        rewrite Rsum_swap. apply Rsum_ext. intros k _. rewrite Rsum_swap. apply Rsum_ext. intros l _.
        rewrite Rmult_comm, <- Rmult_assoc, <- Rsum_scal. apply Rsum_ext. intros i Hii. specialize (Hnz i Hii). field. exact Hnz.
      + apply Req_le. rewrite Rsum_swap. apply Rsum_ext. intros k Hk. rewrite Rsum_swap. apply Rsum_ext. intros l Hl.
        apply in_seq in Hk. apply in_seq in Hl. rewrite Hgv by lia. rewrite Rmult_comm, <- Rmult_assoc, <- Rsum_scal. apply Rsum_ext. intros v _. lra.
  Qed.
End Thm.
