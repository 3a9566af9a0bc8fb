(** * ObjLL: the gradient and Hessian of LogLikelihood are derivatives. *)
From Coq Require Import Reals Lra.
From Coquelicot Require Import Coquelicot.
From Verif Require Import PyBase PyFacts Expr NumPy NumFacts JacAnalysis Objective ObjSpec ObjFacts ObjLS ObjLeast ObjDiff ObjMore.
Local Open Scope R_scope.

Lemma der_opp (f : R -> R) t0 f' : is_derive f t0 f' -> is_derive (fun t => - f t) t0 (- f').
Proof. intros H. exact (is_derive_opp f t0 f' H). Qed.

Section DiffLL.
  Context (om : omodel).
  Lemma log_sum_derive (out : R -> dict sym nd) t0 jac k : all_positive (om_dep om) (out t0) ->
    locally t0 (fun t => same_shapes (om_dep om) (out t0) (out t)) -> derivative_of (om_dep om) out t0 jac k ->
    is_derive (fun t => minus_log_sum (out t) (om_dep om)) t0 (Rsum (map (fun v => ll_grad_of (out t0) jac v k) (om_dep om))).
  Proof using.
    intros Hp Hsh Hd. unfold minus_log_sum.
    assert (H : is_derive (fun t => Rsum (map (fun v => Rsum (map (fun i => ln (val (entry (out t) v) i)) (indices (shp (entry (out t) v))))) (om_dep om))) t0
                (Rsum (map (fun v => -1 * ll_grad_of (out t0) jac v k) (om_dep om)))).
    { apply is_derive_Rsum. intros v Hv.
      apply is_derive_ext_loc with (f := fun t => Rsum (map (fun i => ln (val (entry (out t) v) i)) (indices (shp (entry (out t0) v))))).
      - eapply filter_imp; [|exact Hsh]. intros t Ht. rewrite (Ht v Hv). reflexivity.
      - unfold ll_grad_of. replace (-1 * - Rsum _) with (Rsum (map (fun i => val (entry jac v) (i ++ [k]) / val (entry (out t0) v) i) (indices (shp (entry (out t0) v))))) by lra.
        apply is_derive_Rsum. intros i Hi. pose proof (der_comp ln (fun t => val (entry (out t) v) i) t0 _ _ (is_derive_ln _ (Hp v i Hv Hi)) (Hd v i Hv Hi)) as H. exact H. }
    apply der_opp in H. rewrite Rsum_scal in H. match type of H with is_derive _ _ ?a => match goal with |- is_derive _ _ ?b => replace b with a by lra end end. exact H.
  Qed.
  Lemma ll_grad_derive (out jacs : R -> dict sym nd) t0 jac hess k l : all_positive (om_dep om) (out t0) ->
    locally t0 (fun t => same_shapes (om_dep om) (out t0) (out t)) -> jacs t0 = jac -> derivative_of (om_dep om) out t0 jac l ->
    (forall v i, In v (om_dep om) -> In i (indices (shp (entry (out t0) v))) ->
      is_derive (fun t => val (entry (jacs t) v) (i ++ [k])) t0 (val (entry hess v) (i ++ [l; k]))) ->
    is_derive (fun t => Rsum (map (fun v => ll_grad_of (out t) (jacs t) v k) (om_dep om))) t0 (Rsum (map (fun v => ll_hess_of (out t0) jac hess v k l) (om_dep om))).
  Proof using.
    intros Hp Hsh Hj0 Hd Hd2. apply is_derive_Rsum. intros v Hv.
    apply is_derive_ext_loc with (f := fun t => - Rsum (map (fun i => val (entry (jacs t) v) (i ++ [k]) / val (entry (out t) v) i) (indices (shp (entry (out t0) v))))).
    - eapply filter_imp; [|exact Hsh]. intros t Ht. unfold ll_grad_of. rewrite (Ht v Hv). reflexivity.
    - unfold ll_hess_of.
      assert (H : is_derive (fun t => Rsum (map (fun i => val (entry (jacs t) v) (i ++ [k]) / val (entry (out t) v) i) (indices (shp (entry (out t0) v))))) t0
        (Rsum (map (fun i => -1 * (- val (entry hess v) (i ++ [l; k]) / val (entry (out t0) v) i
                        + 1 / val (entry (out t0) v) i ^ 2 * (val (entry jac v) (i ++ [k]) * val (entry jac v) (i ++ [l])))) (indices (shp (entry (out t0) v)))))).
      { apply is_derive_Rsum. intros i Hi. pose proof (Hd2 v i Hv Hi) as H2. pose proof (Hd v i Hv Hi) as H1. pose proof (Hp v i Hv Hi) as Hpos. cbv beta in H1, H2.
        set (F := fun t => val (entry (out t) v) i) in *. set (J := fun t => val (entry (jacs t) v) (i ++ [k])) in *.
        change (is_derive (fun t => J t / F t) t0 (-1 * (- val (entry hess v) (i ++ [l; k]) / F t0 + 1 / F t0 ^ 2 * (val (entry jac v) (i ++ [k]) * val (entry jac v) (i ++ [l]))))).
        assert (HF : F t0 <> 0) by (unfold F; lra).
        replace (val (entry jac v) (i ++ [k])) with (J t0) by (unfold J; rewrite Hj0; reflexivity).
        auto_derive; [split; [eexists; exact H2|split; [eexists; exact H1|split; [exact HF|exact I]]]|].
        rewrite (is_derive_unique (fun x : R => F x) t0 _ H1), (is_derive_unique (fun x : R => J x) t0 _ H2). field. exact HF. }
      apply der_opp in H. rewrite Rsum_scal in H. match type of H with is_derive _ _ ?a => match goal with |- is_derive _ _ ?b => replace b with a by lra end end. exact H.
  Qed.
End DiffLL.

Section ThmLL.
  Context (h : heap) (om : omodel) (data : dict sym (option nd)) (ob : obj) (kw : dict string R).
  Hypothesis Hcr : created true om data ob kw.
  Let np := List.length (om_params om).

  Lemma args_unique_i xs d1 d2 : arguments_are d1 (seen h om data xs kw) -> arguments_are d2 (seen h om data xs kw) ->
    om_call om d1 = om_call om d2 /\ (forall f, om_jac om = Some f -> f d1 = f d2) /\ (forall f, om_hess om = Some f -> f d1 = f d2).
  Proof using Hcr. intros [H1 H2] [H3 H4]. destruct Hcr as (_ & Hk & _). apply Hk; auto. intros n. rewrite H2, H4. reflexivity. Qed.

  Lemma ll_gradient_is_derivative xs out jac : value_at h om data xs kw out -> all_positive (om_dep om) out -> plain_jacobian h om data xs kw out jac -> om_dep om <> [] ->
    exists g, ll_jac h om ob xs kw = Ok g /\ shp g = [np] /\
      forall p j k, free_number h om p j k -> (j < List.length xs)%nat -> partial_in h om data xs kw p (nth j xs 0) jac k ->
        exists F, locally (nth j xs 0) (fun t => ll_call h om ob (set_nth xs j t) kw = Ok (F t)) /\ is_derive F (nth j xs 0) (val g [k]).
  Proof using Hcr.
    intros Hv Hf Hj Hsd. destruct (ll_gradient h om data ob kw Hcr xs out jac Hv Hj Hsd) as (g & Hg & Hgs & Hgv).
    exists g. split; [exact Hg|]. split; [exact Hgs|]. intros p j k Hfn Hjl (o & Hloc & Hd).
    pose proof Hcr as (Hi & _). pose proof Hv as (d & Hd1 & Hd2 & Hd3).
    assert (Ho : o (nth j xs 0) = out).
    { apply locally_at in Hloc as (d' & Hw & Hc & _). apply (with_param_seen _ _ _ _ _ p j k _ _ Hi Hfn Hjl) in Hw.
      rewrite set_nth_same in Hw by auto. destruct (args_unique_i xs d d' Hd1 Hw) as [He _]. rewrite <- He in Hc. congruence. }
    assert (Hk : (k < np)%nat).
    { destruct Hfn as [Hk _]. apply nth_error_Some. rewrite Hk. discriminate. }
    exists (fun t => minus_log_sum (o t) (om_dep om)). split.
    - eapply filter_imp; [|exact Hloc]. intros t (d' & Hw & Hc & Hl & Hsh). apply (with_param_seen _ _ _ _ _ p j k _ _ Hi Hfn Hjl) in Hw.
      apply (ll_value h om data ob kw Hcr). exists d'. auto.
    - rewrite Hgv by exact Hk. pose proof (log_sum_derive om o (nth j xs 0) jac k) as H. rewrite Ho in H. apply H; [exact Hf| |exact Hd].
      eapply filter_imp; [|exact Hloc]. intros t (d' & _ & _ & _ & Hsh). rewrite Ho in Hsh. exact Hsh.
  Qed.

  Lemma ll_hessian_is_derivative xs out jac hess : value_at h om data xs kw out -> all_positive (om_dep om) out -> plain_jacobian h om data xs kw out jac ->
    plain_hessian h om data xs kw out hess -> om_dep om <> [] ->
    exists g, ll_hess h om ob xs kw = Ok g /\ shp g = [np; np] /\
      (forall p j k l, free_number h om p j l -> (j < List.length xs)%nat -> (k < np)%nat -> partial2_in h om data xs kw p (nth j xs 0) jac hess k l ->
        exists G, locally (nth j xs 0) (fun t => ll_jac h om ob (set_nth xs j t) kw = Ok (G t) /\ shp (G t) = [np]) /\
                  is_derive (fun t => val (G t) [k]) (nth j xs 0) (val g [l; k])) /\
      ((forall v i k l, In v (om_dep om) -> In i (indices (shp (entry out v))) -> (k < np)%nat -> (l < np)%nat -> val (entry hess v) (i ++ [l; k]) = val (entry hess v) (i ++ [k; l])) ->
       forall k l, (k < np)%nat -> (l < np)%nat -> val g [l; k] = val g [k; l]).
  Proof using Hcr.
    intros Hv Hf Hj Hh Hsd. destruct (ll_hessian h om data ob kw Hcr xs out jac hess Hv Hj Hh Hsd) as (g & Hg & Hgs & Hgv).
    exists g. split; [exact Hg|]. split; [exact Hgs|]. split.
    - intros p j k l Hfn Hjl Hk (o & js & Hloc & Hj0 & Hd & Hd2).
      pose proof Hcr as (Hi & _). pose proof Hv as (d & Hd1 & Hd2' & Hd3).
      assert (Ho : o (nth j xs 0) = out).
      { pose proof (locally_at _ _ Hloc) as (d' & f & Hw & Hc & _). apply (with_param_seen _ _ _ _ _ p j l _ _ Hi Hfn Hjl) in Hw.
        rewrite set_nth_same in Hw by auto. destruct (args_unique_i xs d d' Hd1 Hw) as [He _]. rewrite <- He in Hc. congruence. }
      assert (Hl : (l < np)%nat).
      { destruct Hfn as [Hl _]. apply nth_error_Some. rewrite Hl. discriminate. }
      assert (HG : forall t, (exists d f, with_param h om data xs kw p t d /\ om_call om d = Ok (o t) /\
                                   lists_dependent om (o t) /\ same_shapes (om_dep om) (o (nth j xs 0)) (o t) /\
                                   om_jac om = Some f /\ f d = Ok (js t) /\ lists_dependent om (js t) /\
                                   same_shapes (om_dep om) (js (nth j xs 0)) (js t)) ->
               exists G, ll_jac h om ob (set_nth xs j t) kw = Ok G /\ shp G = [np] /\ val G [k] = Rsum (map (fun v => ll_grad_of (o t) (js t) v k) (om_dep om))).
      { intros t (d' & f & Hw & Hc & Hld & Hsh & Hjf & Hjd & Hjl' & Hjs). apply (with_param_seen _ _ _ _ _ p j l _ _ Hi Hfn Hjl) in Hw.
        destruct (ll_gradient h om data ob kw Hcr (set_nth xs j t) (o t) (js t)) as (G & H1 & H2 & H3).
        - exists d'. auto.
        - split; [exists f; split; [exact Hjf|exists d'; auto]|]. intros v Hvd. destruct Hj as [_ Hj]. pose proof (Hj v Hvd) as Ha.
          rewrite <- (Hjs v Hvd), <- (Hsh v Hvd), Hj0, Ho. exact Ha.
        - exact Hsd.
        - exists G. split; [exact H1|]. split; [exact H2|]. apply H3; exact Hk. }
      exists (fun t => match ll_jac h om ob (set_nth xs j t) kw with Ok G => G | Raise _ => scalar 0 end). split.
      + eapply filter_imp; [|exact Hloc]. intros t Ht. destruct (HG t Ht) as (G & -> & Hs & _). auto.
      + apply is_derive_ext_loc with (f := fun t => Rsum (map (fun v => ll_grad_of (o t) (js t) v k) (om_dep om))).
        * eapply filter_imp; [|exact Hloc]. intros t Ht. destruct (HG t Ht) as (G & -> & _ & ->). reflexivity.
        * rewrite Hgv by assumption. pose proof (ll_grad_derive om o js (nth j xs 0) jac hess k l) as H. rewrite Ho in H. apply H; auto.
          -- eapply filter_imp; [|exact Hloc]. intros t (d' & f & _ & _ & _ & Hsh & _). rewrite Ho in Hsh. exact Hsh.
          -- intros v i Hvd Hii. apply Hd2; [exact Hvd|]. rewrite Ho. exact Hii.
    - intros Hsym k l Hk Hl. rewrite !Hgv by assumption. apply Rsum_ext. intros v Hvd. unfold ll_hess_of.
      apply Rsum_ext. intros i Hii. rewrite (Hsym v i k l Hvd Hii Hk Hl). unfold Rdiv. lra.
  Qed.
End ThmLL.

(** ** MinimizeModel *)
Section MM.
  Context (h : heap) (om : omodel) (data : dict sym (option nd)) (ob : obj) (kw : dict string R).
  Hypothesis Hcr : created true om data ob kw.
  Lemma mm_value v rest xs out : om_dep om = v :: rest -> value_at h om data xs kw out -> mm_call h om ob xs kw = Ok (entry out v).
  Proof using Hcr. intros Hd Hv. unfold mm_call. rewrite (base_call_i h om data ob kw Hcr xs out Hv), Hd. reflexivity. Qed.
  Lemma mm_jacobian v rest xs f jac : om_dep om = v :: rest -> om_jac om = Some f -> answers f h om data xs kw jac -> mm_jac h om ob xs kw = Ok (Some (entry jac v)).
  Proof using Hcr. intros Hd Hf Hv. unfold mm_jac. rewrite Hf, (base_jac_i h om data ob kw Hcr xs f jac Hf Hv), Hd. reflexivity. Qed.
  Lemma mm_hessian v rest xs f hess : om_dep om = v :: rest -> om_hess om = Some f -> answers f h om data xs kw hess -> mm_hess h om ob xs kw = Ok (Some (entry hess v)).
  Proof using Hcr. intros Hd Hf Hv. unfold mm_hess. rewrite Hf, (base_hess_i h om data ob kw Hcr xs f hess Hf Hv), Hd. reflexivity. Qed.
End MM.
Lemma mm_init_scalar om data : (1 < List.length (om_dep om))%nat -> mm_init om data = Raise TypeError.
Proof. intros H. unfold mm_init. apply Nat.ltb_lt in H. rewrite H. reflexivity. Qed.
Lemma mm_init_ok om data : (List.length (om_dep om) <= 1)%nat -> mm_init om data = obj_init true om data.
Proof. intros H. unfold mm_init. replace (Nat.ltb 1 (List.length (om_dep om))) with false; [reflexivity|]. symmetry. apply Nat.ltb_ge. exact H. Qed.
