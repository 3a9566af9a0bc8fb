(** * Prop_OdeErr: C76, the error of the gradient of a fit of differential equations. *)
From Coq Require Import Reals Lra Lia Sorted.
From Coquelicot Require Import Coquelicot.
From Verif Require Import PyBase PyFacts Signature SignatureFacts Expr Model ModelSpec ModelFacts ExprR Jacobian JacAnalysis NumPy NumFacts Objective ObjSpec ObjDiff FiniteDiff FDSpec FDFacts FDAnalysis Ode OdeSpec OdeFacts OdeMain OdeModel Minimizer MinSpec Fit FitSpec FitCov FitExample ArrSpec EndSpec GenSpec GenFit OdeFitSpec OdeFit OdeExample OdeErrSpec Prop_OdeFit.
Local Open Scope R_scope.
Local Open Scope string_scope.
Local Open Scope list_scope.

Lemma Rsum_close {A} (f g e : A -> R) l : (forall a, In a l -> Rabs (f a - g a) <= e a) -> Rabs (Rsum (map f l) - Rsum (map g l)) <= Rsum (map e l).
Proof.
  induction l as [|a l IH]; intros H; cbn.
  - rewrite Rminus_diag_eq by reflexivity. rewrite Rabs_R0. lra.
  - change (Rabs (f a + Rsum (map f l) - (g a + Rsum (map g l))) <= e a + Rsum (map e l)).
    assert (H1 := H a (or_introl eq_refl)). assert (H2 := IH (fun b Hb => H b (or_intror Hb))).
    replace (f a + Rsum (map f l) - (g a + Rsum (map g l))) with ((f a - g a) + (Rsum (map f l) - Rsum (map g l))) by ring.
    eapply Rle_trans; [apply Rabs_triang|]. lra.
Qed.
(** chi squared of any differentiable predictions *)
Lemma chi2_with_derive (P : (sym -> R) -> sym -> list nat -> R) (D : sym -> list nat -> R) dep Y S theta p :
  with_value theta p (theta p) = theta ->
  (forall v y i, In v dep -> Y v = Some y -> In i (indices (shp y)) -> derivative_in (fun th => P th v i) theta p (D v i)) ->
  (forall v y s i, In v dep -> Y v = Some y -> S v = Some s -> In i (indices (shp y)) -> elem s i <> 0) ->
  derivative_in (fun th => / 2 * chi2_with (P th) dep Y S) theta p (chi2_gradient (P theta) D dep Y S).
Proof.
  intros Hw HD Hs. unfold derivative_in, chi2_with.
  assert (H : is_derive (fun t => Rsum (map (fun v => match Y v, S v with
      | Some y, Some s => Rsum (map (fun i => ((P (with_value theta p t) v i - val y i) / elem s i) ^ 2) (indices (shp y)))
      | _, _ => 0 end) dep)) (theta p)
    (Rsum (map (fun v => match Y v, S v with
      | Some y, Some s => Rsum (map (fun i => 2 * (D v i * ((P theta v i - val y i) / elem s i ^ 2))) (indices (shp y)))
      | _, _ => 0 end) dep))).
  { apply (is_derive_Rsum (fun v t => match Y v, S v with
      | Some y, Some s => Rsum (map (fun i => ((P (with_value theta p t) v i - val y i) / elem s i) ^ 2) (indices (shp y)))
      | _, _ => 0 end)).
    intros v Hv. destruct (Y v) as [y|] eqn:Hy; [|apply der_const]. destruct (S v) as [s|] eqn:HS; [|apply der_const].
    apply (is_derive_Rsum (fun i t => ((P (with_value theta p t) v i - val y i) / elem s i) ^ 2)). intros i Hi.
    pose proof (is_derive_half_sq (fun t => P (with_value theta p t) v i) (theta p) (D v i) (val y i) (elem s i)) as Q. cbv beta in Q.
    rewrite Hw in Q. apply Q; [exact (HD v y i Hv Hy Hi)|exact (Hs v y s i Hv Hy HS Hi)]. }
  pose proof (der_mult (fun _ => / 2) _ (theta p) 0 _ (der_const (/2) (theta p)) H) as H'. rewrite Rmult_0_l, Rplus_0_l in H'.
  match type of H' with is_derive _ _ ?a => match goal with |- is_derive _ _ ?b => replace b with a end end; [exact H'|].
  rewrite <- Rsum_scal. unfold chi2_gradient. apply Rsum_ext. intros v _. destruct (Y v) as [y|]; [|lra]. destruct (S v) as [s|]; [|lra].
  rewrite <- Rsum_scal. apply Rsum_ext. intros i _. lra.
Qed.
Lemma step_size_nonzero : step_size <> 0.
Proof. unfold step_size. apply Rinv_neq_0_compat. lra. Qed.

(** ** The gradient handed to the minimizer differs from the true gradient of half of chi squared by at most a constant times the
    sixth power of the step (1e-8, relative to the value of the parameter), the sizes of the weighted differences and the bounds
    of the seventh derivatives of the solution in that parameter. *)
Theorem C76_gradient_error : forall S simp ord items initial user t t0 m toward0 h o mc absolute args kw f a Phi mn local w x M,
  let om := om_of_ode S simp m in
  let Y := the_data om [] args kw in
  let Sg := the_sigma om [] args kw in
  let ps := o_params m in
  let ts := times a in
  let theta := parameter_value h ps x in
  let solved := fun th => ode_solved items t initial t0 ts th (Phi th) in
  let chi2 := fun th => chi2_with (at_times (Phi th) ts) (o_dep m) Y Sg in
  ode_model_of S simp ord items initial user t t0 m -> ps <> [] ->
  good_names om [] -> NoDup (dkeys kw) -> ode_data om t a Y Sg -> increasing_times t0 ts ->
  objective_chosen o mc OLS -> suitable_class h ps mc ->
  fit_init toward0 h {| fm_om := om; fm_len := ode_len m |} [] o mc absolute args kw = Ok f ->
  ft_min f = FMin mn local -> pb_jac (execute_problem h mn DNone DNone) = DFun w -> uses_jacobian (mi_class mn) = true ->
  List.length x = nfree h ps -> solved theta -> solved_around items t initial t0 ts ps Phi theta ->
  exists g, w x = Ok g /\ shp g = [nfree h ps] /\ forall i p, nth_error (free_of_list h ps) i = Some p ->
    smooth_in Phi ts theta p (o_dep m) Y (M p) ->
    exists d, derivative_in (fun th => / 2 * chi2 th) theta p d /\
      Rabs (val g [i] - d) <= 113 / 5040 * step_of step_size (theta p) ^ 6 * weighted_sizes (at_times (Phi theta) ts) (M p) (o_dep m) Y Sg.
Proof.
  intros S simp ord items initial user t t0 m toward0 h o mc absolute args kw f a Phi mn local w x M om Y Sg ps ts theta solved chi2 HM Hps Hg Hkw Hdata Hts Hoc Hsu Hf Hmn Hw Hu Hl Hsol Har.
  destruct (C76_ode_fit_problem S simp ord items initial user t t0 m toward0 h o mc absolute args kw f a Phi HM Hps Hg Hkw Hdata Hts Hoc Hsu Hf)
    as (mn' & local' & Hmn' & _ & _ & _ & _ & _ & Hgr).
  rewrite Hmn in Hmn'. injection Hmn' as <- <-. destruct (Hgr Hu) as (w' & Hw' & Hval). rewrite Hw in Hw'. injection Hw' as <-.
  destruct (Hval x Hl Hsol Har) as (g & Hwg & Hsg & Hvg). exists g. split; [exact Hwg|]. split; [exact Hsg|].
  intros i p Hp Hsm. specialize (Hvg i p Hp). cbv zeta in Hvg. fold om Y Sg ps ts theta in Hvg.
  destruct Hdata as (N & Ha & HY & Hdm).
  assert (Hwt : with_value theta p (theta p) = theta).
  { apply FunctionalExtensionality.functional_extensionality. intros q. unfold with_value. destruct (eq_dec q p) as [->|]; reflexivity. }
  pose (D := fun v i => Derive (fun u => at_times (Phi (with_value theta p u)) ts v i) (theta p)).
  set (st := step_of step_size (theta p)) in *.
  exists (chi2_gradient (at_times (Phi theta) ts) D (o_dep m) Y Sg). split.
  - apply (chi2_with_derive (fun th => at_times (Phi th) ts) D (o_dep m) Y Sg theta p Hwt).
    + intros v y k Hv Hy Hk. unfold derivative_in, D. apply Derive_correct. destruct (Hsm v y k Hv Hy Hk) as (H & _).
      assert (Hab : 0 <= Rabs st) by apply Rabs_pos.
      assert (Hin : theta p - 3 * Rabs st - 1 < theta p < theta p + 3 * Rabs st + 1) by lra. exact (H (theta p) Hin 1%nat ltac:(lia)).
    + intros v y s k Hv Hy HS Hk. destruct (proj1 (proj2 Hdm) v y Hv Hy) as (Hsh & s' & HS' & _ & Hnz). rewrite HS in HS'. injection HS' as <-. exact (Hnz k Hk).
  - rewrite Hvg. unfold chi2_gradient, weighted_sizes. rewrite <- Rsum_scal. apply Rsum_close. intros v Hv.
    destruct (Y v) as [y|] eqn:Hy; [|rewrite Rminus_diag_eq by reflexivity; rewrite Rabs_R0; lra].
    destruct (Sg v) as [s|] eqn:HS; [|rewrite Rminus_diag_eq by reflexivity; rewrite Rabs_R0; lra].
    rewrite <- Rsum_scal. apply Rsum_close. intros k Hk.
    destruct (Hsm v y k Hv Hy Hk) as (H1 & H2).
    pose proof (central6_error _ (theta p) st (M p v k) (step_nonzero step_size (theta p) step_size_nonzero) H1 H2) as He.
    fold (D v k) in He. unfold ode_difference. fold st.
    match goal with |- Rabs (?A * ?C - ?B * ?C) <= _ => replace (A * C - B * C) with ((A - B) * C) by ring end.
    rewrite Rabs_mult. unfold Rdiv at 1. rewrite (Rabs_mult (at_times _ _ _ _ - _)).
    assert (Hnn : 0 <= elem s k ^ 2) by apply pow2_ge_0.
    assert (Hi : 0 <= / elem s k ^ 2).
    { destruct Hnn as [Hpos|Hz]; [left; apply Rinv_0_lt_compat; exact Hpos|]. destruct (proj1 (proj2 Hdm) v y Hv Hy) as (_ & s' & HS' & _ & Hnz).
      fold Sg in HS'. rewrite HS in HS'. injection HS' as <-. exfalso. exact (pow_nonzero _ 2 (Hnz k Hk) (eq_sym Hz)). }
    rewrite (Rabs_right (/ elem s k ^ 2)) by lra.
    set (r := Rabs (at_times (Phi theta) ts v k - val y k)) in *. assert (Hr : 0 <= r) by apply Rabs_pos.
    replace (113 / 5040 * st ^ 6 * (r / elem s k ^ 2 * M p v k)) with ((113 / 5040 * M p v k * st ^ 6) * (r * / elem s k ^ 2)) by (unfold Rdiv; ring).
    apply Rmult_le_compat_r; [apply Rmult_le_pos; assumption|exact He].
Qed.
Print Assumptions C76_gradient_error.

(** ** Example (the system of C76): the solution is affine in each parameter, so that the bound is 0 and the gradient exact. *)
Lemma affine_Derive_n A B n u : Derive_n (fun t => A + B * t) n u = match n with O => A + B * u | 1%nat => B | _ => 0 end.
Proof.
  revert u. induction n as [|n IH]; intros u; [reflexivity|]. cbn [Derive_n]. rewrite (Derive_ext _ _ _ IH). destruct n as [|[|n]].
  - apply is_derive_unique. auto_derive; [exact I|]. ring.
  - apply Derive_const.
  - apply Derive_const.
Qed.
Lemma affine_ex A B n u : ex_derive_n (fun t => A + B * t) n u.
Proof.
  destruct n as [|n]; [exact I|]. cbn [ex_derive_n]. apply (ex_derive_ext (fun u => match n with O => A + B * u | 1%nat => B | _ => 0 end)).
  { intros t. symmetry. apply affine_Derive_n. }
  destruct n as [|[|n]]; auto_derive; exact I.
Qed.
Example C76_gradient_example : forall z theta p, shp z = [3%nat] -> In p (o_params ex_m) ->
  let a := oex_vec (-1) 0 2 in
  let Y := the_data (om_of_ode ideal (fun e => e) ex_m) [] [] (oex_kw a z) in
  smooth_in oex_phi (times a) theta p (o_dep ex_m) Y (fun _ _ => 0) /\ Y oz = Some z /\ In oz (o_dep ex_m).
Proof.
  intros z theta p Hz Hp a Y. destruct (oex_data a z eq_refl Hz) as (_ & Yz & Yy & _). fold Y in Yz, Yy.
  split; [|split; [exact Yz|right; left; reflexivity]].
  assert (Haff : forall i, exists A B, forall u, at_times (oex_phi (with_value theta p u)) (times a) oz i = A + B * u).
  { intros i. unfold at_times, oex_phi, ex_phi. destruct (eq_dec oz oz) as [_|c]; [|contradiction].
    change (In p [oa; ob]) in Hp. destruct Hp as [<-|[<-|[]]].
    - exists (theta ob), (nth (hd 0%nat i) (times a) 0 - 0). intros u. unfold with_value. destruct (eq_dec ob oa) as [c|_]; [discriminate|]. destruct (eq_dec oa oa) as [_|c]; [|contradiction]. ring.
    - exists (theta oa * (nth (hd 0%nat i) (times a) 0 - 0)), 1. intros u. unfold with_value. destruct (eq_dec oa ob) as [c|_]; [discriminate|]. destruct (eq_dec ob ob) as [_|c]; [|contradiction]. ring. }
  intros v y i Hv Hy Hi. change (In v [oy; oz]) in Hv. destruct Hv as [<-|[<-|[]]]; [congruence|].
  destruct (Haff i) as (A & B & Hab). split.
  - intros u _ k _. apply (ex_derive_n_ext (fun t => A + B * t)); [intros t; symmetry; apply Hab|apply affine_ex].
  - intros u _. rewrite (Derive_n_ext _ (fun t => A + B * t) 7 u Hab), affine_Derive_n, Rabs_R0. lra.
Qed.
Print Assumptions C76_gradient_example.
