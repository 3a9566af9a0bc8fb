(** * ObjLeast: value, gradient and Hessian of LeastSquares. *)
From Coq Require Import Reals Lra.
From Coquelicot Require Import Coquelicot.
From Verif Require Import PyBase PyFacts Expr NumPy NumFacts JacAnalysis Objective ObjSpec ObjFacts ObjLS.
Local Open Scope R_scope.

(** ** folds that accumulate an array *)
Lemma fold_steps {A} (step : nd -> A -> res nd) (has : A -> bool) (t : list nat) (term : A -> list nat -> R) l :
  (forall acc a, In a l -> fits (shp acc) t = true ->
     if has a then exists acc', step acc a = Ok acc' /\ shp acc' = t /\ (forall k, In k (indices t) -> elem acc' k = elem acc k + term a k)
     else step acc a = Ok acc) ->
  forall acc, fits (shp acc) t = true -> exists r, foldM step acc l = Ok r /\ fits (shp r) t = true /\
    (forall k, In k (indices t) -> elem r k = elem acc k + Rsum (map (fun a => if has a then term a k else 0) l)) /\
    (existsb has l = true \/ shp acc = t -> shp r = t).
Proof.
  induction l as [|a l IH]; intros Hs acc Ha; simpl.
  - exists acc. split; [reflexivity|]. split; [exact Ha|]. split; [intros; lra|]. intros [H|H]; [discriminate|exact H].
  - pose proof (Hs acc a (or_introl eq_refl) Ha) as H. destruct (has a) eqn:E.
    + destruct H as (acc' & -> & Hsh & Hv). simpl. destruct (IH (fun acc b Hb => Hs acc b (or_intror Hb)) acc') as (r & Hr & Hf & Hk & Hsr).
      { rewrite Hsh. apply fits_refl. }
      exists r. split; [exact Hr|]. split; [exact Hf|]. split; [|auto]. intros k Hin. rewrite Hk, Hv by exact Hin. lra.
    + rewrite H. simpl. destruct (IH (fun acc b Hb => Hs acc b (or_intror Hb)) acc Ha) as (r & Hr & Hf & Hk & Hsr).
      exists r. split; [exact Hr|]. split; [exact Hf|]. split; [|exact Hsr]. intros k Hin. rewrite Hk by exact Hin. lra.
Qed.

Lemma fits_app_ones s S n k : fits s S = true -> List.length s = List.length S -> fits (s ++ repeat 1%nat k) (S ++ repeat n k) = true.
Proof. intros H _. apply fits_ones. exact H. Qed.

Lemma index_split S t i : In i (indices (S ++ t)) -> exists a k, i = a ++ k /\ In a (indices S) /\ In k (indices t).
Proof. intros H. apply in_indices in H. apply Forall2_app_inv_r in H as (a & k & H1 & H2 & ->). exists a, k. rewrite !in_indices. auto. Qed.
Lemma index_app S t a k : In a (indices S) -> In k (indices t) -> In (a ++ k) (indices (S ++ t)).
Proof. rewrite !in_indices. apply Forall2_app. Qed.
Lemma elem_full a i k : In i (indices (shp a)) -> elem a (i ++ k) = val a i.
Proof. intros H. pose proof (indices_length _ _ H). rewrite elem_more by lia. apply elem_val. exact H. Qed.

(** the weight [(y - f) / s**2] *)
Lemma weight_ok (y f s : nd) : shp f = shp y -> fits (shp s) (shp y) = true ->
  exists d w, nsub y f = Ok d /\ ndiv d (nsq s) = Ok w /\ shp w = shp y /\
    forall i k, In i (indices (shp y)) -> elem w (i ++ k) = (val y i - val f i) / elem s i ^ 2.
Proof.
  intros Hf Hs. destruct (nbin_fits Rminus y f (shp y)) as (d & Hd & Hd1 & Hd2 & Hd3 & _); [apply fits_refl|rewrite Hf; apply fits_refl|].
  destruct (nbin_fits Rdiv d (nsq s) (shp y)) as (w & Hw & Hw1 & Hw2 & Hw3 & _); [exact Hd1|exact Hs|].
  exists d, w. split; [exact Hd|]. split; [exact Hw|]. split; [apply Hw3; auto|].
  intros i k Hi. rewrite Hw2, Hd2. change (elem (nsq s) (i ++ k)) with ((elem s (i ++ k)) ^ 2).
  rewrite (elem_full y) by exact Hi. rewrite (elem_full f) by (rewrite Hf; exact Hi).
  rewrite elem_more; [reflexivity|]. rewrite (indices_length _ _ Hi). apply fits_length; exact Hs.
Qed.

Definition jac_term (y f s j : nd) (k : list nat) : R :=
  - Rsum (map (fun i => val j (i ++ k) * ((val y i - val f i) / elem s i ^ 2)) (indices (shp y))).
Lemma ls_jac_step_ok (y f s j acc : nd) n : shp f = shp y -> fits (shp s) (shp y) = true -> shp j = shp y ++ [n] -> fits (shp acc) [n] = true ->
  exists acc', (d <- nsub y f ;; w <- ndiv d (nsq s) ;; pre <- nmul j (newaxis w) ;; nsub acc (np_sum_keep 1 pre)) = Ok acc' /\
    shp acc' = [n] /\ forall k, In k (indices [n]) -> elem acc' k = elem acc k + jac_term y f s j k.
Proof.
  intros Hf Hs Hj Ha. destruct (weight_ok y f s Hf Hs) as (d & w & -> & Hw & Hws & Hwv). simpl. rewrite Hw. simpl.
  destruct (nbin_fits Rmult j (newaxis w) (shp y ++ [n])) as (p & Hp & _ & Hpv & Hps & _).
  { rewrite Hj; apply fits_refl. } { simpl. rewrite Hws. apply (fits_ones _ _ 1 n (fits_refl _)). }
  unfold nmul. rewrite Hp. simpl. specialize (Hps Hj). destruct (np_sum_keep_app p (shp y) [n] Hps) as [Hk1 Hk2]. simpl List.length in Hk1, Hk2.
  destruct (nbin_fits Rminus acc (np_sum_keep 1 p) [n]) as (r & Hr & _ & Hrv & _ & Hrs & _); [exact Ha|rewrite Hk1; apply fits_refl|].
  exists r. split; [exact Hr|]. split; [apply Hrs; exact Hk1|]. intros k Hk. rewrite Hrv. unfold jac_term, Rminus. f_equal. f_equal.
  rewrite elem_val by (rewrite Hk1; exact Hk). rewrite Hk2. apply Rsum_ext. intros i Hi.
  rewrite <- elem_val by (rewrite Hps; apply index_app; assumption). rewrite Hpv, elem_newaxis. rewrite elem_val by (rewrite Hj; apply index_app; assumption).
  rewrite Hwv by exact Hi. reflexivity.
Qed.

Definition hess_term (y f s j hc : nd) (k l : nat) : R :=
  Rsum (map (fun i => val j (i ++ [k]) * val j (i ++ [l]) / elem s i ^ 2 - val hc (i ++ [l; k]) * ((val y i - val f i) / elem s i ^ 2)) (indices (shp y))).
Lemma in_indices1 n k : In [k] (indices [n]) <-> (k < n)%nat.
Proof. rewrite in_indices. split; [inversion 1; assumption|repeat constructor; assumption]. Qed.
Lemma in_indices2 n m k l : In [k; l] (indices [n; m]) <-> (k < n)%nat /\ (l < m)%nat.
Proof. rewrite in_indices. split; [intros H; inv H; inv H5; auto|intros [? ?]; repeat constructor; assumption]. Qed.
Lemma outer_ok j S n : shp j = S ++ [n] -> shp (outer j) = S ++ [n; n] /\
  forall i k l, List.length i = List.length S -> val (outer j) (i ++ [l; k]) = val j (i ++ [k]) * val j (i ++ [l]).
Proof.
  intros Hj. unfold outer. rewrite Hj, removelast_last, last_last. simpl. split; [reflexivity|].
  intros i k l Hl. rewrite <- Hl. rewrite firstn_app, firstn_all, Nat.sub_diag, firstn_O, app_nil_r.
  rewrite !app_nth2 by lia. replace (Datatypes.S (List.length i) - List.length i)%nat with 1%nat by lia. rewrite Nat.sub_diag. reflexivity.
Qed.
Lemma newaxis2_fits (a : nd) S n : fits (shp a) S = true -> fits (shp (newaxis (newaxis a))) (S ++ [n; n]) = true.
Proof. intros H. simpl. rewrite <- app_assoc. apply (fits_ones _ _ 2 n). exact H. Qed.
Lemma ls_hess_step_ok (y f s j hc acc : nd) n : shp f = shp y -> fits (shp s) (shp y) = true -> shp j = shp y ++ [n] -> shp hc = shp y ++ [n; n] ->
  fits (shp acc) [n; n] = true ->
  exists acc', (d <- nsub y f ;; w <- ndiv d (nsq s) ;; p1 <- nmul hc (newaxis (newaxis w)) ;;
                p2 <- ndiv (outer j) (nsq (newaxis (newaxis s))) ;; df <- nsub p2 p1 ;; nadd acc (np_sum_keep 2 df)) = Ok acc' /\
    shp acc' = [n; n] /\ forall k l, (k < n)%nat -> (l < n)%nat -> elem acc' [l; k] = elem acc [l; k] + hess_term y f s j hc k l.
Proof.
  intros Hf Hs Hj Hh Ha. destruct (weight_ok y f s Hf Hs) as (d & w & -> & Hw & Hws & Hwv). simpl. rewrite Hw. simpl.
  destruct (outer_ok j _ _ Hj) as [Hos Hov].
  destruct (nbin_fits Rmult hc (newaxis (newaxis w)) (shp y ++ [n; n])) as (p1 & Hp1 & Hf1 & Hv1 & Hs1 & _).
  { rewrite Hh; apply fits_refl. } { apply newaxis2_fits. rewrite Hws. apply fits_refl. }
  unfold nmul. rewrite Hp1. simpl.
  destruct (nbin_fits Rdiv (outer j) (nsq (newaxis (newaxis s))) (shp y ++ [n; n])) as (p2 & Hp2 & Hf2 & Hv2 & Hs2 & _).
  { rewrite Hos; apply fits_refl. } { apply (newaxis2_fits s). exact Hs. }
  unfold ndiv. rewrite Hp2. simpl.
  destruct (nbin_fits Rminus p2 p1 (shp y ++ [n; n])) as (df & Hdf & _ & Hv3 & Hs3 & _); [exact Hf2|exact Hf1|].
  unfold nsub. rewrite Hdf. simpl. specialize (Hs3 (Hs2 Hos)). destruct (np_sum_keep_app df (shp y) [n; n] Hs3) as [Hk1 Hk2]. simpl List.length in Hk1, Hk2.
  destruct (nbin_fits Rplus acc (np_sum_keep 2 df) [n; n]) as (r & Hr & _ & Hrv & _ & Hrs & _); [exact Ha|rewrite Hk1; apply fits_refl|].
  exists r. split; [exact Hr|]. split; [apply Hrs; exact Hk1|]. intros k l Hk Hl. rewrite Hrv. f_equal.
  assert (Hlk : In [l; k] (indices [n; n])) by (apply in_indices2; auto).
  rewrite elem_val by (rewrite Hk1; exact Hlk). rewrite Hk2. unfold hess_term. apply Rsum_ext. intros i Hi.
  rewrite <- elem_val by (rewrite Hs3; apply index_app; assumption). rewrite Hv3, Hv2, Hv1.
  rewrite (elem_val (outer j)) by (rewrite Hos; apply index_app; assumption). rewrite Hov by (apply indices_length; exact Hi).
  rewrite (elem_val hc) by (rewrite Hh; apply index_app; assumption).
  rewrite !elem_newaxis, Hwv by exact Hi. f_equal. unfold nsq. rewrite elem_npmap, !elem_newaxis.
  rewrite elem_more; [reflexivity|]. rewrite (indices_length _ _ Hi). apply fits_length; exact Hs.
Qed.

Section Least.
  Context (h : heap) (om : omodel) (data : dict sym (option nd)) (ob : obj) (kw : dict string R).
  Hypothesis Hcr : created false om data ob kw.
  Let np := List.length (om_params om).

  Lemma cr_parts : interface om /\ by_keyword om /\ NoDup (map sname (om_dep om)) /\ obj_init false om data = Ok ob /\ NoDup (dkeys kw) /\ independent_data_given om data.
  Proof using Hcr. exact Hcr. Qed.
  Lemma dep_observed v : In v (om_dep om) -> dep_data ob v = observed data v.
  Proof using Hcr. destruct cr_parts as (Hi & _ & _ & Ho & _). apply (dep_data_observed om data ob false Hi Ho v eq_refl). Qed.
  Lemma sig_observed v s : In v (om_dep om) -> observed data (sigma_of v) = Some s -> sigma_data ob v = Ok s.
  Proof using Hcr. destruct cr_parts as (Hi & _ & Hn & Ho & _). apply (sigma_data_observed om data ob false Hi Ho v s eq_refl Hn). Qed.

  (** the shaped answer of a dependent variable *)
  Definition at_level (level : nat) (out : dict sym nd) (v : sym) : nd := shaped_for om ob level v (entry out v).

  Lemma base_value xs out : value_at h om data xs kw out -> fits_data om data out -> base_call h om ob xs kw = Ok (map (at_level 0 out) (om_dep om)).
  Proof using Hcr.
    intros (d & Hd & Ho & Hl) Hf. destruct cr_parts as (Hi & Hk & _ & Hob & Hkw & Hin). unfold base_call.
    rewrite (base_eval_ok h om data ob xs kw false Hi Hob Hkw Hin (om_call om) 0 out d); [reflexivity| |exact Hd|exact Ho|exact Hl|].
    - intros d1 d2 H1 H2 H3. destruct (Hk d1 d2 H1 H2 H3) as [H _]. exact H.
    - intros v y Hv Hy. rewrite dep_observed in Hy by exact Hv. apply stretches_0. destruct (Hf v y Hv Hy) as [H _]. exact H.
  Qed.
  Lemma base_jacobian xs out jac : jacobian_at h om data xs kw out jac -> fits_data om data out -> base_jac h om ob xs kw = Ok (map (at_level 1 jac) (om_dep om)).
  Proof using Hcr.
    intros [(f & Hjf & d & Hd & Ho & Hl) Hs] Hf. destruct cr_parts as (Hi & Hk & _ & Hob & Hkw & Hin). unfold base_jac. rewrite Hjf.
    rewrite (base_eval_ok h om data ob xs kw false Hi Hob Hkw Hin f 1 jac d); [reflexivity| |exact Hd|exact Ho|exact Hl|].
    - intros d1 d2 H1 H2 H3. destruct (Hk d1 d2 H1 H2 H3) as (_ & H & _). apply H; exact Hjf.
    - intros v y Hv Hy. rewrite dep_observed in Hy by exact Hv. destruct (Hf v y Hv Hy) as [Hst _]. destruct (Hs v Hv) as [H1 H2].
      apply (stretches_jac _ y (entry out v) _ 1 Hst); [exact H1|apply H2; exact Hy].
  Qed.
  Lemma base_hessian xs out hess : hessian_at h om data xs kw out hess -> fits_data om data out -> base_hess h om ob xs kw = Ok (map (at_level 2 hess) (om_dep om)).
  Proof using Hcr.
    intros [(f & Hjf & d & Hd & Ho & Hl) Hs] Hf. destruct cr_parts as (Hi & Hk & _ & Hob & Hkw & Hin). unfold base_hess. rewrite Hjf.
    rewrite (base_eval_ok h om data ob xs kw false Hi Hob Hkw Hin f 2 hess d); [reflexivity| |exact Hd|exact Ho|exact Hl|].
    - intros d1 d2 H1 H2 H3. destruct (Hk d1 d2 H1 H2 H3) as (_ & _ & H). apply H; exact Hjf.
    - intros v y Hv Hy. rewrite dep_observed in Hy by exact Hv. destruct (Hf v y Hv Hy) as [Hst _]. destruct (Hs v Hv) as [H1 H2].
      apply (stretches_jac _ y (entry out v) _ 2 Hst); [exact H1|apply H2; exact Hy].
  Qed.
  (** values of the shaped answers *)
  Lemma shaped_value out v y : In v (om_dep om) -> observed data v = Some y -> stretches (entry out v) y ->
    shp (at_level 0 out v) = shp y /\ forall i, In i (indices (shp y)) -> val (at_level 0 out v) i = at_point (entry out v) y i.
  Proof using Hcr.
    intros Hv Hy Hst. unfold at_level, shaped_for. rewrite dep_observed, Hy by exact Hv.
    destruct (shaped_ok (List.length (om_params om)) 0 y (entry out v) (stretches_0 _ _ _ Hst)) as (_ & H1 & H2). simpl in H1, H2. rewrite app_nil_r in H1, H2.
    split; [exact H1|]. intros i Hi. rewrite H2 by exact Hi. rewrite dim_diff_0. reflexivity.
  Qed.
  (** the index of the component read at data point [i] *)
  Definition pt (out : dict sym nd) (v : sym) (y : nd) (i : list nat) : list nat :=
    bidx (shp (entry out v)) (skipn (List.length (shp y) - List.length (shp (entry out v))) i).
  Lemma shaped_jac out jac v y : In v (om_dep om) -> observed data v = Some y -> stretches (entry out v) y ->
    shp (entry jac v) = shp (entry out v) ++ [np] -> shp (entry jac v) <> shp y ->
    shp (at_level 1 jac v) = shp y ++ [np] /\ forall i k, In i (indices (shp y)) -> (k < np)%nat -> val (at_level 1 jac v) (i ++ [k]) = val (entry jac v) (pt out v y i ++ [k]).
  Proof using Hcr.
    intros Hv Hy Hst Hj Hne. unfold at_level, shaped_for. rewrite dep_observed, Hy by exact Hv. fold np.
    destruct (stretches_jac np y (entry out v) (entry jac v) 1 Hst Hj Hne) as [Ht _]. destruct (shaped_ok _ _ _ _ Ht) as (_ & H1 & _). split; [exact H1|].
    intros i k Hi Hk. apply (at_point_jac np y (entry out v) (entry jac v) 1 i [k] Hst Hj Hne Hi). apply in_indices1; exact Hk.
  Qed.
  Lemma shaped_hess out hess v y : In v (om_dep om) -> observed data v = Some y -> stretches (entry out v) y ->
    shp (entry hess v) = shp (entry out v) ++ [np; np] -> shp (entry hess v) <> shp y ->
    shp (at_level 2 hess v) = shp y ++ [np; np] /\
    forall i k l, In i (indices (shp y)) -> (k < np)%nat -> (l < np)%nat -> val (at_level 2 hess v) (i ++ [l; k]) = val (entry hess v) (pt out v y i ++ [l; k]).
  Proof using Hcr.
    intros Hv Hy Hst Hj Hne. unfold at_level, shaped_for. rewrite dep_observed, Hy by exact Hv. fold np.
    destruct (stretches_jac np y (entry out v) (entry hess v) 2 Hst Hj Hne) as [Ht _]. destruct (shaped_ok _ _ _ _ Ht) as (_ & H1 & _). split; [exact H1|].
    intros i k l Hi Hk Hl. apply (at_point_jac np y (entry out v) (entry hess v) 2 i [l; k] Hst Hj Hne Hi). apply in_indices2; auto.
  Qed.

  (** *** value *)
  Lemma ls_component_ok out v : In v (om_dep om) -> fits_data om data out -> ls_component ob (v, at_level 0 out v) = Ok (chi2_of data out v).
  Proof using Hcr.
    intros Hv Hf. unfold ls_component, chi2_of. simpl. rewrite dep_observed by exact Hv.
    destruct (observed data v) as [y|] eqn:Hy; [|reflexivity].
    destruct (Hf v y Hv Hy) as (Hst & s & Hs & Hsf & Hnz). rewrite Hs, (sig_observed v s Hv Hs). simpl.
    destruct (shaped_value out v y Hv Hy Hst) as [H1 H2].
    destruct (nbin_fits Rminus (at_level 0 out v) y (shp y)) as (d & Hd & Hd1 & Hd2 & Hd3 & _); [rewrite H1; apply fits_refl|apply fits_refl|].
    unfold nsub. rewrite Hd. simpl.
    destruct (nbin_fits Rdiv (nsq d) (nsq s) (shp y)) as (w & Hw & Hw1 & Hw2 & Hw3 & _); [exact Hd1|exact Hsf|].
    unfold ndiv. rewrite Hw. simpl. f_equal. specialize (Hw3 (Hd3 H1)). unfold np_sum. rewrite Hw3. apply Rsum_ext. intros i Hi.
    rewrite <- elem_val by (rewrite Hw3; exact Hi). rewrite Hw2. unfold nsq. rewrite !elem_npmap, Hd2.
    rewrite elem_val by (rewrite H1; exact Hi). rewrite H2 by exact Hi. rewrite elem_val by exact Hi.
    specialize (Hnz i Hi). field. exact Hnz.
  Qed.
  Lemma ls_value xs out : value_at h om data xs kw out -> fits_data om data out ->
    ls_call true h om ob xs kw = Ok (half_chi2 data out (om_dep om)).
  Proof using Hcr.
    intros Hv Hf. unfold ls_call, ls_chi2. rewrite (base_value _ _ Hv Hf). simpl. rewrite combine_self.
    rewrite mapM_map with (g := fun vf => chi2_of data out (fst vf)).
    - simpl. rewrite map_map. simpl. unfold half_chi2. f_equal. unfold Rdiv. rewrite Rmult_comm. reflexivity.
    - intros [v c] Hin. apply in_map_iff in Hin as (w & Hq & Hw). inv Hq. apply ls_component_ok; assumption.
  Qed.
  Lemma chi2_nonneg out v : 0 <= chi2_of data out v.
  Proof using. unfold chi2_of. destruct (observed data v) as [y|]; [|lra]. destruct (observed data (sigma_of v)) as [s|]; [|lra]. apply Rsum_nonneg. intros; apply pow2_ge_0. Qed.
  Lemma half_chi2_nonneg out : 0 <= half_chi2 data out (om_dep om).
  Proof using. unfold half_chi2. pose proof (Rsum_nonneg (chi2_of data out) (om_dep om) (fun v _ => chi2_nonneg out v)). lra. Qed.
  Lemma half_chi2_zero out : fits_data om data out ->
    (half_chi2 data out (om_dep om) = 0 <->
     forall v y i, In v (om_dep om) -> observed data v = Some y -> In i (indices (shp y)) -> at_point (entry out v) y i = val y i).
  Proof using.
    intros Hf. unfold half_chi2. split.
    - intros H0 v y i Hv Hy Hi. assert (Hz : Rsum (map (chi2_of data out) (om_dep om)) = 0) by lra.
      apply (Rsum_zero (chi2_of data out) _ (fun w _ => chi2_nonneg out w)) with (x := v) in Hz; [|exact Hv].
      unfold chi2_of in Hz. rewrite Hy in Hz. destruct (Hf v y Hv Hy) as (_ & s & Hs & _ & Hnz). rewrite Hs in Hz.
      apply (Rsum_zero (fun i => ((at_point (entry out v) y i - val y i) / elem s i) ^ 2) _ (fun w _ => pow2_ge_0 _)) with (x := i) in Hz; [|exact Hi].
      specialize (Hnz i Hi). simpl in Hz. rewrite Rmult_1_r in Hz. apply Rmult_integral in Hz.
      assert (Hz' : (at_point (entry out v) y i - val y i) / elem s i = 0) by (destruct Hz; assumption).
      unfold Rdiv in Hz'. apply Rmult_integral in Hz' as [Hz'|Hz']; [lra|]. exfalso. apply (Rinv_neq_0_compat _ Hnz Hz').
    - intros H. transitivity (/ 2 * Rsum (map (fun _ : sym => 0) (om_dep om))); [|rewrite Rsum_const0; lra]. f_equal. apply Rsum_ext. intros v Hv.
      unfold chi2_of. destruct (observed data v) as [y|] eqn:Hy; [|reflexivity]. destruct (observed data (sigma_of v)) as [s|]; [|reflexivity].
      transitivity (Rsum (map (fun _ : list nat => 0) (indices (shp y)))); [|apply Rsum_const0]. apply Rsum_ext. intros i Hi. rewrite (H v y i Hv Hy Hi).
      unfold Rminus. rewrite Rplus_opp_r. unfold Rdiv. rewrite Rmult_0_l. simpl. lra.
  Qed.

  (** *** gradient *)
  Definition has_data (v : sym) : bool := match observed data v with Some _ => true | None => false end.
  Definition grad_of (out jac : dict sym nd) (v : sym) (k : nat) : R :=
    match observed data v, observed data (sigma_of v) with
    | Some y, Some s => Rsum (map (fun i => val (entry jac v) (pt out v y i ++ [k]) * ((at_point (entry out v) y i - val y i) / elem s i ^ 2)) (indices (shp y)))
    | _, _ => 0
    end.
  Lemma ls_gradient xs out jac : value_at h om data xs kw out -> fits_data om data out -> jacobian_at h om data xs kw out jac -> some_data om data ->
    exists g, ls_jac h om ob xs kw = Ok g /\ shp g = [np] /\
      forall k, (k < np)%nat -> val g [k] = Rsum (map (fun v => grad_of out jac v k) (om_dep om)).
  Proof using Hcr.
    intros Hv Hf Hj (v0 & y0 & Hv0 & Hy0). unfold ls_jac. rewrite (base_value _ _ Hv Hf). simpl. rewrite (base_jacobian _ _ _ Hj Hf). simpl.
    rewrite combine_self, combine_map2 with (f := fun v => (v, at_level 0 out v)).
    set (l := map (fun a => (a, at_level 0 out a, at_level 1 jac a)) (om_dep om)).
    set (has := fun a : sym * nd * nd => has_data (fst (fst a))).
    set (term := fun (a : sym * nd * nd) (k : list nat) => grad_of out jac (fst (fst a)) (hd 0%nat k)).
    destruct (fold_steps (ls_jac_step ob) has [np] term l) with (acc := scalar 0) as (r & Hr & _ & Hrv & Hrs).
    - intros acc a Ha Hfa. apply in_map_iff in Ha as (v & <- & Hvd). unfold has, has_data, term. simpl fst. unfold ls_jac_step. rewrite dep_observed by exact Hvd.
      destruct (observed data v) as [y|] eqn:Hy; [|reflexivity].
      destruct (Hf v y Hvd Hy) as (Hst & s & Hs & Hsf & Hnz). rewrite (sig_observed v s Hvd Hs). simpl bind.
      destruct Hj as [_ Hj]. destruct (Hj v Hvd) as [Hj1 Hj2].
      destruct (shaped_value out v y Hvd Hy Hst) as [Hf1 Hf2]. destruct (shaped_jac out jac v y Hvd Hy Hst Hj1 (Hj2 y Hy)) as [Hg1 Hg2].
      destruct (ls_jac_step_ok y (at_level 0 out v) s (at_level 1 jac v) acc np Hf1 Hsf Hg1 Hfa) as (acc' & He & Hsh & Hval).
      exists acc'. split; [exact He|]. split; [exact Hsh|]. intros k Hk. rewrite Hval by exact Hk. f_equal. unfold jac_term, grad_of. rewrite Hy, Hs.
      destruct (in_indices [np] k) as [Hk' _]. specialize (Hk' Hk). inv Hk'. inv H3. simpl hd.
      match goal with |- - ?x = _ => replace (- x) with (-1 * x) by lra end. rewrite <- Rsum_scal. apply Rsum_ext. intros i Hi. rewrite Hg2 by assumption. rewrite Hf2 by exact Hi. unfold Rdiv. lra.
    - reflexivity.
    - rewrite Hr. simpl. assert (Hsr : shp r = [np]).
      { apply Hrs. left. apply existsb_exists. exists (v0, at_level 0 out v0, at_level 1 jac v0). split; [apply in_map_iff; exists v0; auto|].
        unfold has, has_data. simpl. rewrite Hy0. reflexivity. }
      destruct (atleast_1d_squeeze r np Hsr) as [H1 H2]. eexists. split; [reflexivity|]. split; [exact H1|]. intros k Hk. rewrite H2 by exact Hk.
      assert (Hik : In [k] (indices [np])) by (apply in_indices1; exact Hk).
      rewrite <- elem_val by (rewrite Hsr; exact Hik). rewrite Hrv by exact Hik. unfold l. rewrite map_map. rewrite elem_scalar, Rplus_0_l. apply Rsum_ext.
      intros v Hvd. unfold has, term, has_data, grad_of. simpl. destruct (observed data v); reflexivity.
  Qed.

  Lemma ls_gradient_none xs out jac : value_at h om data xs kw out -> fits_data om data out -> jacobian_at h om data xs kw out jac ->
    (forall v, In v (om_dep om) -> observed data v = None) ->
    exists g, ls_jac h om ob xs kw = Ok g /\ shp g = [1%nat] /\ val g [0%nat] = 0.
  Proof using Hcr.
    intros Hv Hf Hj Hno. unfold ls_jac. rewrite (base_value _ _ Hv Hf). simpl bind. rewrite (base_jacobian _ _ _ Hj Hf). simpl bind.
    assert (Hr : forall l, (forall a, In a l -> In (fst (fst a)) (om_dep om)) -> foldM (ls_jac_step ob) (scalar 0) l = Ok (scalar 0)).
    { induction l as [|[[v f] j] l IH]; intros Hl; [reflexivity|]. simpl. rewrite dep_observed by (apply (Hl (v, f, j)); left; reflexivity).
      rewrite (Hno v) by (apply (Hl (v, f, j)); left; reflexivity). simpl. apply IH. intros a Ha. apply Hl. right; exact Ha. }
    rewrite Hr; [|intros [[v f] j] Ha; apply in_combine_l in Ha; apply in_combine_l in Ha; exact Ha].
    eexists. split; [reflexivity|]. split; reflexivity.
  Qed.

  (** *** Hessian *)
  Definition hess_of (out jac hess : dict sym nd) (v : sym) (k l : nat) : R :=
    match observed data v, observed data (sigma_of v) with
    | Some y, Some s => Rsum (map (fun i =>
        val (entry jac v) (pt out v y i ++ [k]) * val (entry jac v) (pt out v y i ++ [l]) / elem s i ^ 2
        + val (entry hess v) (pt out v y i ++ [l; k]) * ((at_point (entry out v) y i - val y i) / elem s i ^ 2)) (indices (shp y)))
    | _, _ => 0
    end.
  Lemma ls_hess_gen xs out jac H : value_at h om data xs kw out -> fits_data om data out -> jacobian_at h om data xs kw out jac -> some_data om data ->
    forall hs, hs = Ok (map H (om_dep om)) -> forall term,
    (forall v y, In v (om_dep om) -> observed data v = Some y -> shp (H v) = shp y ++ [np; np]) ->
    (forall v y s k l, In v (om_dep om) -> observed data v = Some y -> observed data (sigma_of v) = Some s -> (k < np)%nat -> (l < np)%nat ->
       hess_term y (at_level 0 out v) s (at_level 1 jac v) (H v) k l = term v k l) ->
    (forall v k l, observed data v = None -> term v k l = 0) ->
    exists g, ls_hess_with hs h om ob xs kw = Ok g /\ shp g = [np; np] /\
      forall k l, (k < np)%nat -> (l < np)%nat -> val g [l; k] = Rsum (map (fun v => term v k l) (om_dep om)).
  Proof using Hcr.
    intros Hv Hf Hj (v0 & y0 & Hv0 & Hy0) hs Hhs term HH1 HH2 HH3. unfold ls_hess_with. rewrite (base_value _ _ Hv Hf). simpl. rewrite (base_jacobian _ _ _ Hj Hf). simpl.
    rewrite Hhs. simpl. rewrite combine_self, combine_map2 with (f := fun v => (v, at_level 0 out v)), combine_map2 with (f := fun v => (v, at_level 0 out v, at_level 1 jac v)).
    set (lst := map (fun a => (a, at_level 0 out a, at_level 1 jac a, H a)) (om_dep om)).
    set (has := fun a : sym * nd * nd * nd => has_data (fst (fst (fst a)))).
    set (trm := fun (a : sym * nd * nd * nd) (k : list nat) => term (fst (fst (fst a))) (nth 1 k 0%nat) (nth 0 k 0%nat)).
    destruct (fold_steps (ls_hess_step ob) has [np; np] trm lst) with (acc := scalar 0) as (r & Hr & _ & Hrv & Hrs).
    - intros acc a Ha Hfa. apply in_map_iff in Ha as (v & <- & Hvd). unfold has, has_data, trm. simpl fst. unfold ls_hess_step. rewrite dep_observed by exact Hvd.
      destruct (observed data v) as [y|] eqn:Hy; [|reflexivity].
      destruct (Hf v y Hvd Hy) as (Hst & s & Hs & Hsf & Hnz). rewrite (sig_observed v s Hvd Hs). simpl bind.
      destruct Hj as [_ Hj]. destruct (Hj v Hvd) as [Hj1 Hj2].
      destruct (shaped_value out v y Hvd Hy Hst) as [Hf1 Hf2]. destruct (shaped_jac out jac v y Hvd Hy Hst Hj1 (Hj2 y Hy)) as [Hg1 Hg2].
      destruct (ls_hess_step_ok y (at_level 0 out v) s (at_level 1 jac v) (H v) acc np Hf1 Hsf Hg1 (HH1 v y Hvd Hy) Hfa) as (acc' & He & Hsh & Hval).
      exists acc'. split; [exact He|]. split; [exact Hsh|]. intros k Hk.
      destruct (in_indices [np; np] k) as [Hk' _]. specialize (Hk' Hk). inv Hk'. inv H4. inv H6. simpl nth. rewrite Hval by assumption.
      rewrite (HH2 v y s) by assumption. reflexivity.
    - reflexivity.
    - rewrite Hr. simpl. assert (Hsr : shp r = [np; np]).
      { apply Hrs. left. apply existsb_exists. exists (v0, at_level 0 out v0, at_level 1 jac v0, H v0). split; [apply in_map_iff; exists v0; auto|].
        unfold has, has_data. simpl. rewrite Hy0. reflexivity. }
      destruct (atleast_2d_squeeze r np Hsr) as [H1 H2]. eexists. split; [reflexivity|]. split; [exact H1|]. intros k l Hk Hl. rewrite H2 by assumption.
      assert (Hik : In [l; k] (indices [np; np])) by (apply in_indices2; auto).
      rewrite <- elem_val by (rewrite Hsr; exact Hik). rewrite Hrv by exact Hik. unfold lst. rewrite map_map. rewrite elem_scalar, Rplus_0_l. apply Rsum_ext.
      intros v Hvd. unfold has, trm, has_data. simpl. destruct (observed data v) eqn:E; [reflexivity|]. symmetry. apply HH3. exact E.
  Qed.
  Lemma ls_hessian xs out jac hess : value_at h om data xs kw out -> fits_data om data out -> jacobian_at h om data xs kw out jac ->
    hessian_at h om data xs kw out hess -> some_data om data ->
    exists g, ls_hess h om ob xs kw = Ok g /\ shp g = [np; np] /\
      forall k l, (k < np)%nat -> (l < np)%nat -> val g [l; k] = Rsum (map (fun v => hess_of out jac hess v k l) (om_dep om)).
  Proof using Hcr.
    intros Hv Hf Hj Hh Hsd. unfold ls_hess.
    apply (ls_hess_gen xs out jac (at_level 2 hess) Hv Hf Hj Hsd _ (base_hessian _ _ _ Hh Hf)).
    - intros v y Hvd Hy. destruct Hh as [_ Hh]. destruct (Hh v Hvd) as [Hh1 Hh2]. destruct (Hf v y Hvd Hy) as (Hst & _).
      destruct (shaped_hess out hess v y Hvd Hy Hst Hh1 (Hh2 y Hy)) as [H _]. exact H.
    - intros v y s k l Hvd Hy Hs Hk Hl. destruct Hh as [_ Hh]. destruct (Hh v Hvd) as [Hh1 Hh2]. destruct (Hf v y Hvd Hy) as (Hst & _).
      destruct Hj as [_ Hj]. destruct (Hj v Hvd) as [Hj1 Hj2].
      destruct (shaped_value out v y Hvd Hy Hst) as [_ Hf2]. destruct (shaped_jac out jac v y Hvd Hy Hst Hj1 (Hj2 y Hy)) as [_ Hg2].
      destruct (shaped_hess out hess v y Hvd Hy Hst Hh1 (Hh2 y Hy)) as [_ Hhv].
      unfold hess_term, hess_of. rewrite Hy, Hs. apply Rsum_ext. intros i Hi. rewrite !Hg2, Hhv by assumption. rewrite Hf2 by exact Hi. unfold Rdiv. lra.
    - intros v k l Hn. unfold hess_of. rewrite Hn. reflexivity.
  Qed.
  Definition jtwj_of (out jac : dict sym nd) (v : sym) (k l : nat) : R :=
    match observed data v, observed data (sigma_of v) with
    | Some y, Some s => Rsum (map (fun i => val (entry jac v) (pt out v y i ++ [k]) * val (entry jac v) (pt out v y i ++ [l]) / elem s i ^ 2) (indices (shp y)))
    | _, _ => 0
    end.
  Lemma ls_approx xs out jac : value_at h om data xs kw out -> fits_data om data out -> jacobian_at h om data xs kw out jac -> some_data om data ->
    exists g, ls_hess_approx h om ob xs kw = Ok g /\ shp g = [np; np] /\
      forall k l, (k < np)%nat -> (l < np)%nat -> val g [l; k] = Rsum (map (fun v => jtwj_of out jac v k l) (om_dep om)).
  Proof using Hcr.
    intros Hv Hf Hj Hsd. unfold ls_hess_approx.
    set (H := fun v => {| shp := shp (at_level 0 out v) ++ [np; np]; val := elem (np_zeros_like (at_level 0 out v)) |}).
    assert (Hz : zero_hess h om ob xs kw = Ok (map H (om_dep om))).
    { unfold zero_hess. rewrite (base_value _ _ Hv Hf). simpl. rewrite <- (map_map (at_level 0 out) (fun c => {| shp := shp c ++ [np; np]; val := elem (np_zeros_like c) |})).
      apply mapM_map. intros c Hin. apply in_map_iff in Hin as (v & <- & Hvd). unfold broadcast_to, np_zeros_like at 1. simpl shp. fold np.
      replace (fits (shp (at_level 0 out v)) (shp (at_level 0 out v) ++ [np; np])) with true; [reflexivity|]. symmetry.
      generalize (shp (at_level 0 out v)). intros s; induction s; simpl; [reflexivity|]. rewrite Nat.eqb_refl, IHs; reflexivity. }
    apply (ls_hess_gen xs out jac H Hv Hf Hj Hsd _ Hz).
    - intros v y Hvd Hy. destruct (Hf v y Hvd Hy) as (Hst & _). destruct (shaped_value out v y Hvd Hy Hst) as [Hs _]. simpl. rewrite Hs. reflexivity.
    - intros v y s k l Hvd Hy Hs Hk Hl. destruct (Hf v y Hvd Hy) as (Hst & _).
      destruct Hj as [_ Hj]. destruct (Hj v Hvd) as [Hj1 Hj2].
      destruct (shaped_jac out jac v y Hvd Hy Hst Hj1 (Hj2 y Hy)) as [_ Hg2].
      unfold hess_term, jtwj_of. rewrite Hy, Hs. apply Rsum_ext. intros i Hi. rewrite !Hg2 by assumption. simpl. unfold elem. simpl. lra.
    - intros v k l Hn. unfold jtwj_of. rewrite Hn. reflexivity.
  Qed.
End Least.
