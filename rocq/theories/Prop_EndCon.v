(** * Prop_EndCon: C73, constraints between the parameters reach scipy with their exact gradient. *)
From Coq Require Import Reals Lra Lia Relations.
From Coquelicot Require Import Coquelicot.
From Verif Require ArrObj.
From Verif Require Import PyBase PyFacts Signature SignatureFacts Expr Model ModelSpec ExprR Jacobian JacAnalysis NumPy NumFacts Objective ObjSpec Minimizer MinSpec Fit FitSpec FitExample Cast ArrModel ArrSpec ArrFacts ConModel EndSpec EndMain EndCon Decide Prop_Model Prop_Jacobian Prop_ArrModel Prop_End Prop_EndMore.
Local Open Scope R_scope.

(** For every constraint between parameters the user wrote, scipy's constraint at the same place in its list demands that
    left minus right (right minus left for <=) is zero or not negative, and comes with a function that
    returns, for every vector of free parameters at which both sides are differentiable, the exact gradient, one
    entry for every free parameter.  No other derivative is needed: the Jacobian model of such a constraint can always be built. *)
Theorem C73_constraint_gradient : forall simp sub mulm1 ord1 ord2 es m sol us toward0 h cons o mc absolute args kw f mn local n u,
  let om := om_of KModel simp ord2 m in
  let ps := m_params m in
  simp_ok simp -> sympy_arithmetic sub mulm1 -> keeps_defined sub mulm1 -> set_order ord2 -> model_of ord1 es m -> means es sol -> ps <> [] ->
  good_constraints es us -> init_constraints KModel simp sub mulm1 ord2 m us = Ok cons ->
  fit_init toward0 h {| fm_om := om; fm_len := List.length es |} cons o mc absolute args kw = Ok f ->
  (mc = MDefault \/ exists c, mc = MItem (MCls c)) -> ft_min f = FMin mn local ->
  uses_constraints (mi_class mn) = true -> uses_jacobian (mi_class mn) = true ->
  nth_error us n = Some u -> only_parameters u -> derivative_names_free ps u ->
  exists k w, nth_error (pb_cons (execute_problem h mn DNone DNone)) n = Some k /\ handed_jac k = Some w /\
    (forall v, imposes k v <-> match uc_rel u with REq => v = 0 | _ => 0 <= v end) /\
    forall x, List.length x = nfree h ps ->
      (exists c, handed_fun k x = Ok c /\ shp c = [1%nat] /\ val c [0%nat] = constraint_value u (parameter_value h ps x)) /\
      (defined (parameter_value h ps x) (uc_left u) -> defined (parameter_value h ps x) (uc_right u) ->
       exists g, w x = Ok g /\ shp g = [nfree h ps] /\ forall i p, nth_error (free_of_list h ps) i = Some p ->
         derivative_in (constraint_value u) (parameter_value h ps x) p (val g [i])).
Proof. exact constraint_handed. Qed.
Print Assumptions C73_constraint_gradient.

Lemma with_same theta p t : with_value theta p t p = t.
Proof. unfold with_value. destruct (eq_dec p p); [reflexivity|congruence]. Qed.
Lemma with_other theta p q t : q <> p -> with_value theta p t q = theta q.
Proof. intros H. unfold with_value. destruct (eq_dec q p); [congruence|reflexivity]. Qed.
(** a + b >= 2: all hypotheses hold for the default minimizer (SLSQP) and the gradient handed over is (1, 1) everywhere. *)
Example C73_example : forall toward0,
  exists m cons f mn k w, model_of oid mex_es m /\ means mex_es mex_sol /\ m_params m = [pa; pb] /\
    sympy_arithmetic ESub ENeg /\ keeps_defined ESub ENeg /\ good_constraints mex_es mex_us /\
    init_constraints KModel (fun e => e) ESub ENeg oid m mex_us = Ok cons /\
    fit_init toward0 (eex_heap false) {| fm_om := om_of KModel (fun e => e) oid m; fm_len := List.length mex_es |} cons ODefault MDefault None [] [] = Ok f /\
    ft_min f = FMin mn None /\ uses_constraints (mi_class mn) = true /\ uses_jacobian (mi_class mn) = true /\
    (forall u, In u mex_us -> only_parameters u /\ derivative_names_free (m_params m) u) /\
    nth_error (pb_cons (execute_problem (eex_heap false) mn DNone DNone)) 0 = Some k /\ handed_jac k = Some w /\
    forall a b, (exists c, handed_fun k [a; b] = Ok c /\ val c [0%nat] = a + b - 2) /\
                (exists g, w [a; b] = Ok g /\ shp g = [2%nat] /\ val g [0%nat] = 1 /\ val g [1%nat] = 1).
Proof.
  intros toward0. destruct (C72_example toward0) as (m & cons & f & mn & inv & Hm & Hs & E1 & E2 & E3 & _ & _ & _ & Hgc & Hic & Hlen & X). cbv zeta in X.
  destruct X as (_ & _ & _ & _ & Hf & Hmn & Hcl & _).
  assert (Hkd : keeps_defined ESub ENeg) by (split; intros; cbn in *; tauto).
  assert (Huse : uses_constraints (mi_class mn) = true /\ uses_jacobian (mi_class mn) = true) by (rewrite Hcl; split; reflexivity).
  assert (Hon : forall u, In u mex_us -> only_parameters u /\ derivative_names_free (m_params m) u).
  { intros u [<-|[]]. split; [intros s; cbn [uc_left uc_right]; rewrite !mentionsl_ok; cbn; intros H; intuition (subst; reflexivity)|].
    rewrite E1. intros p q [<-|[<-|[]]] [<-|[<-|[]]]; vm_compute; discriminate. }
  assert (Hne : m_params m <> []) by (rewrite E1; discriminate).
  destruct (Hon _ (or_introl eq_refl)) as [Ho Hn'].
  destruct (C73_constraint_gradient (fun e => e) ESub ENeg oid oid mex_es m mex_sol mex_us toward0 (eex_heap false) cons ODefault MDefault None [] [] f mn None 0 _
    simp_id_ok eex_arith Hkd oid_ok Hm Hs Hne Hgc Hic Hf (or_introl eq_refl) Hmn (proj1 Huse) (proj2 Huse) eq_refl Ho Hn') as (k & w & Hk & Hw & _ & Hx).
  exists m, cons, f, mn, k, w. split; [exact Hm|]. split; [exact Hs|]. split; [exact E1|]. split; [exact eex_arith|]. split; [exact Hkd|]. split; [exact Hgc|]. split; [exact Hic|]. split; [exact Hf|].
  split; [exact Hmn|]. split; [apply Huse|]. split; [apply Huse|]. split; [exact Hon|].
  split; [exact Hk|]. split; [exact Hw|].
  intros a b. rewrite E1 in Hx. destruct (Hx [a; b] eq_refl) as [(c & C1 & _ & C2) Hg]. 
  assert (Ea : parameter_value (eex_heap false) [pa; pb] [a; b] pa = a) by reflexivity. assert (Eb : parameter_value (eex_heap false) [pa; pb] [a; b] pb = b) by reflexivity.
  split.
  - exists c. split; [exact C1|]. rewrite C2. unfold constraint_value. cbn [uc_rel uc_left uc_right eval a_num a_add Ralg]. rewrite Ea, Eb. reflexivity.
  - destruct Hg as (g & G1 & G2 & G3); [cbn; auto|cbn; auto|]. exists g. split; [exact G1|]. split; [exact G2|].
    split; [pose proof (G3 0%nat pa eq_refl) as D|pose proof (G3 1%nat pb eq_refl) as D]; apply is_derive_unique in D; rewrite <- D; apply is_derive_unique;
      unfold constraint_value; cbn [uc_rel uc_left uc_right eval a_num a_add Ralg].
    + eapply is_derive_ext; [intros t; rewrite (with_same (parameter_value (eex_heap false) [pa; pb] [a; b]) pa t), (with_other (parameter_value (eex_heap false) [pa; pb] [a; b]) pa pb t) by discriminate; rewrite Eb; reflexivity|]. auto_derive; [exact I|ring].
    + eapply is_derive_ext; [intros t; rewrite (with_same (parameter_value (eex_heap false) [pa; pb] [a; b]) pb t), (with_other (parameter_value (eex_heap false) [pa; pb] [a; b]) pb pa t) by discriminate; rewrite Ea; reflexivity|]. auto_derive; [exact I|ring].
Qed.
