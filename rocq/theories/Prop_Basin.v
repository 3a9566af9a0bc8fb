(** * Property C85: fits with BasinHopping. *)
From Coq Require Import Reals Lra Lia ClassicalEpsilon.
From Coquelicot Require Import Coquelicot.
From Verif Require Import PyBase PyFacts Signature SignatureFacts Expr Model ModelSpec ExprR Jacobian JacAnalysis NumPy NumFacts Objective ObjSpec Minimizer MinSpec MinFacts MinLemmas Fit FitSpec FitMain FitExample Cast ArrModel ArrSpec ConModel EndSpec EndMain Decide Prop_Model Prop_Jacobian Prop_ArrModel Prop_End Chain ChainSpec ChainMain Prop_Chain.
Local Open Scope R_scope.

(** [Fit(.., minimizer=BasinHopping)] makes a BasinHopping that uses, for its local minimisations, the minimizer [Fit] would have chosen
    by itself, with the same data and objective; [execute] asks scipy's basinhopping, started at the values of the free parameters, to solve the problem that minimizer
    would have solved (method, bounds, constraints, derivatives), from wherever it hops to. *)
Theorem C85_local_minimizer : forall toward0 h fm cons o absolute args kw f,
  fit_init toward0 h fm cons o (MItem (MCls BasinHopping)) absolute args kw = Ok f ->
  exists mn local, ft_min f = FMin mn (Some local) /\
    fit_init toward0 h fm cons o MDefault absolute args kw = Ok (fit_with f (FMin local None)) /\
    let pb := execute_problem h mn DNone DNone in
    let pl := execute_problem h local DNone DNone in
    pb_routine pb = RBasinHopping /\ pb_x0 pb = Some (map (fun p => p_value (h p)) (free_of_list h (om_params (fm_om fm)))) /\
    (forall scipy ob, run_minimizer scipy h ob (ft_min f) = scipy pb (Some (local_problem h local)) ob) /\
    local_problem h local =
      {| pb_routine := pb_routine pl; pb_x0 := None; pb_lower := pb_lower pl; pb_upper := pb_upper pl; pb_jac := pb_jac pl; pb_hess := pb_hess pl; pb_cons := pb_cons pl |}.
Proof.
  intros toward0 h fm cons o absolute args kw f Hf. destruct (basin_local _ _ _ _ _ _ _ _ _ Hf) as (mn & local & Hmn & Hc & Hd & Hlp). exists mn, local.
  split; [exact Hmn|]. split; [exact Hd|]. cbv zeta. split; [rewrite pb_routine_eq, Hc; reflexivity|]. split.
  { destruct (fit_init_inv _ _ _ _ _ _ _ _ _ _ Hf) as (t & _ & _ & _ & _ & Hm). cbn [init_choice init_item] in Hm.
    apply bind_Ok in Hm as (l' & _ & Hm). apply bind_Ok in Hm as (mn' & Hmn' & Hm). assert (mn' = mn) by congruence. subst mn'. clear Hm.
    unfold init_class in Hmn'. apply bind_Ok in Hmn' as (cs & _ & Hi). destruct (problem_vectors _ _ _ _ _ _ _ DNone DNone Hi) as (Hx & _). exact Hx. }
  split; [intros scipy ob; rewrite Hmn; reflexivity|]. cbv zeta in Hlp. rewrite <- Hlp. reflexivity.
Qed.
Print Assumptions C85_local_minimizer.

(** So if scipy's basinhopping finds the best of the local problem, the reported values are the (constrained) least squares fit. *)
Definition global (scipy : problem -> option problem -> (list R -> res nd) -> res answer) (n : nat) : Prop :=
  forall pb lp ob a, pb_routine pb = RBasinHopping -> scipy pb (Some lp) ob = Ok a -> minimises ob lp n (an_x a).
Theorem C85_best_fit : forall simp sub mulm1 ord1 ord2 es m sol us toward0 h cons o absolute args kw f G inv scipy popt cov,
  let om := om_of KModel simp ord2 m in
  let Y := the_data om cons args kw in
  let chi2 := chi2_for sol m Y (the_sigma om cons args kw) in
  let ps := m_params m in
  simp_ok simp -> sympy_arithmetic sub mulm1 -> set_order ord2 -> model_of ord1 es m -> means es sol -> ps <> [] -> has_jacobian simp ord2 m ->
  good_constraints es us -> init_constraints KModel simp sub mulm1 ord2 m us = Ok cons ->
  good_names om cons -> NoDup (dkeys kw) -> data_on_grid G m Y (the_sigma om cons args kw) -> constraints_on_grid G es us Y -> no_shape_clash G m ->
  o = ODefault \/ o = OClass OLS ->
  fit_init toward0 h {| fm_om := om; fm_len := List.length es |} cons o (MItem (MCls BasinHopping)) absolute args kw = Ok f ->
  global scipy (nfree h ps) -> fit_run inv scipy h om f = Ok (popt, cov) ->
  let theta := reported ps popt in
  allowed h m theta /\ constraints_hold G sol us Y theta /\
  forall theta', allowed h m theta' -> constraints_hold G sol us Y theta' -> chi2 theta <= chi2 theta'.
Proof.
  intros simp sub mulm1 ord1 ord2 es m sol us toward0 h cons o absolute args kw f G inv scipy popt cov om Y chi2 ps
    Hsimp Har Ho2 Hm Hsol Hps HJ Hgc Hic Hg Hkw HG Hcg Hsc Ho Hf Hgl Hr theta.
  destruct (C85_local_minimizer _ _ _ _ _ _ _ _ _ Hf) as (mn & local & Hmn & Hd & Hrt & _ & Hrun & Hlp).
  unfold fit_run in Hr. apply bind_Ok in Hr as (a & Ha & Hr). rewrite Hrun in Ha. pose proof (Hgl _ _ _ _ Hrt Ha) as Hmin.
  assert (Hoc : objective_chosen o MDefault OLS) by (split; [exact Ho|discriminate]).
  assert (Hcl : ft_class f = OLS).
  { destruct (C69_fit_problem simp sub mulm1 ord1 ord2 es m sol us toward0 h cons o MDefault absolute args kw _ G Hsimp Har Ho2 Hm Hsol Hps HJ Hgc Hic Hg Hkw HG Hcg Hsc Hoc (or_introl eq_refl) Hd)
      as (? & ? & _ & _ & Hcl & _). exact Hcl. }
  rewrite Hcl in Hmin. unfold fit_execute in Hr. apply bind_Ok in Hr as (po & Hpo & Hr). apply bind_Ok in Hr as (cv & _ & Hr). assert (po = popt) by congruence. subst po.
  apply (C69_best_fit simp sub mulm1 ord1 ord2 es m sol us toward0 h cons o MDefault absolute args kw (fit_with f (FMin local None)) G local None (an_x a) popt
    Hsimp Har Ho2 Hm Hsol Hps HJ Hgc Hic Hg Hkw HG Hcg Hsc Hoc (or_introl eq_refl) Hd eq_refl); [|exact Hpo].
  rewrite Hlp in Hmin. exact Hmin.
Qed.
Print Assumptions C85_best_fit.

(** [b] may be fixed here *)
Example C85_example : forall toward0 fixed, exists m f inv scipy popt cov,
  model_of oid aex_es m /\ means aex_es jex_sol /\ m_params m = [pa; pb] /\ has_jacobian (fun e => e) oid m /\
    let om := om_of KModel (fun e => e) oid m in
    let h := eex_heap fixed in
    let Y := the_data om [] eex_args eex_kw in
    let S := the_sigma om [] eex_args eex_kw in
    good_names om [] /\ NoDup (dkeys eex_kw) /\ no_shape_clash [3%nat] m /\ data_on_grid [3%nat] m Y S /\
    fit_init toward0 h {| fm_om := om; fm_len := List.length aex_es |} [] ODefault (MItem (MCls BasinHopping)) None eex_args eex_kw = Ok f /\
    global scipy (nfree h (m_params m)) /\ fit_run inv scipy h om f = Ok (popt, cov) /\ chi2_for jex_sol m Y S (reported (m_params m) popt) = 0.
Proof.
  intros toward0 fixed. destruct (C69_example toward0 fixed) as (m & f0 & mn0 & inv & Hm & Hsol & E1 & E2 & HJ & HH & Hinv & Hg & Hk & Hb & Hsc & HG & Hf0 & Hmn0 & _ & Hxl & Hmin0 & Hpk0). cbv zeta in *.
  set (om := om_of KModel (fun e => e) oid m) in *. set (h := eex_heap fixed) in *. set (x := if fixed then [2] else [2; 5]) in *.
  assert (Hne : m_params m <> []) by (rewrite E1; discriminate).
  assert (Hf : exists f, fit_init toward0 h {| fm_om := om; fm_len := List.length aex_es |} [] ODefault (MItem (MCls BasinHopping)) None eex_args eex_kw = Ok f).
  { assert (E3 : m_indep m = [vx]). { destruct Hm as (_ & _ & _ & _ & _ & _ & Hi). vm_compute in Hi. inversion Hi. reflexivity. }
    clear -E1 E2 E3. subst h om. unfold om_of. rewrite E1, E2, E3. destruct fixed; eexists; reflexivity. }
  destruct Hf as (f & Hf). destruct (C85_local_minimizer _ _ _ _ _ _ _ _ _ Hf) as (mn & local & Hmn & Hd & Hrt & _ & Hrun & Hlp).
  rewrite Hf0 in Hd. injection Hd as Hd. assert (Hloc : mn0 = local) by (rewrite Hd in Hmn0; cbn [fit_with ft_min] in Hmn0; congruence). subst mn0.
  assert (Hob : ft_obj f = ft_obj f0) by (rewrite Hd; reflexivity). assert (Hce : ft_class f = ft_class f0) by (rewrite Hd; reflexivity).
  assert (Hgc : good_constraints aex_es []) by (intros u []). assert (Hcg : constraints_on_grid [3%nat] aex_es [] (the_data om [] eex_args eex_kw)) by (intros u v []).
  assert (Hoc : objective_chosen ODefault MDefault OLS) by (split; [left; reflexivity|discriminate]).
  assert (Hoc2 : objective_chosen ODefault (MItem (MCls BasinHopping)) OLS) by (split; [left; reflexivity|discriminate]).
  destruct (C69_fit_problem (fun e => e) ESub ENeg oid oid aex_es m jex_sol [] toward0 h [] ODefault MDefault None eex_args eex_kw f0 [3%nat] simp_id_ok eex_arith oid_ok Hm aex_means
      Hne HJ Hgc eq_refl Hg Hk HG Hcg Hsc Hoc (or_introl eq_refl) Hf0) as (? & ? & _ & _ & Hcl & _ & _ & Hv & _). fold om in Hv.
  destruct (ch_perfect (nfree h (m_params m))) as (sc & _ & _ & Hall & Hsome).
  set (scipy := fun (pb : problem) (lp : option problem) (ob : list R -> res nd) => match lp with Some l => sc l None ob | None => Raise ValueError end).
  destruct (Hsome (local_problem h local) None (fun z => obj_value OLS h om (ft_obj f0) z [])) as (a & Ha & (Hmin & _)).
  { exists {| an_x := x; an_nit := Some 1%nat |}. split; [rewrite Hlp; exact Hmin0|]. split; [reflexivity|]. intros xs0 r r' Hx0. rewrite Hlp in Hx0. discriminate. }
  assert (Hal : List.length (an_x a) = nfree h (m_params m)) by exact (proj1 Hmin).
  destruct (C69_covariance inv (fun e => e) oid oid aex_es m jex_sol toward0 h [] ODefault (MItem (MCls BasinHopping)) None eex_args eex_kw f [3%nat] (an_x a) simp_id_ok oid_ok Hm aex_means
     Hne HH Hg Hk HG Hsc Hb Hoc2 Hf Hinv Hal) as (popt & cov & A1 & B1 & Hex & Hpo & _).
  exists m, f, inv, scipy, popt, cov. split; [exact Hm|]. split; [exact Hsol|]. split; [exact E1|]. split; [exact HJ|]. cbv zeta. fold om.
  split; [exact Hg|]. split; [exact Hk|]. split; [exact Hsc|]. split; [exact HG|]. split; [exact Hf|].
  assert (Hglob : global scipy (nfree h (m_params m))).
  { intros pb lp ob a' _ Ha'. exact (Hall _ _ _ _ Ha'). }
  split; [exact Hglob|].
  assert (HR : fit_run inv scipy h om f = Ok (popt, cov)).
  { unfold fit_run. rewrite Hrun. unfold scipy. rewrite Hce, Hcl, Hob, Ha. cbn [bind]. exact Hex. }
  split; [exact HR|].
  destruct (C85_best_fit (fun e => e) ESub ENeg oid oid aex_es m jex_sol [] toward0 h [] ODefault None eex_args eex_kw f [3%nat] inv scipy popt cov simp_id_ok eex_arith oid_ok Hm aex_means
      Hne HJ Hgc eq_refl Hg Hk HG Hcg Hsc (or_introl eq_refl) Hf Hglob HR) as (_ & _ & Hbest).
  destruct (C69_best_fit (fun e => e) ESub ENeg oid oid aex_es m jex_sol [] toward0 h [] ODefault MDefault None eex_args eex_kw f0 [3%nat] local None x [2; 5] simp_id_ok eex_arith oid_ok Hm aex_means
      Hne HJ Hgc eq_refl Hg Hk HG Hcg Hsc Hoc (or_introl eq_refl) Hf0 Hmn0 Hmin0 Hpk0) as (Hal0 & Hc0 & _).
  assert (Hz : chi2_for jex_sol m (the_data om [] eex_args eex_kw) (the_sigma om [] eex_args eex_kw) (reported (m_params m) [2; 5]) = 0).
  { destruct (ch_setting toward0 h) as (m' & Hm' & _ & _ & _ & _ & _ & _ & _ & _ & _ & Yx & Yz & Sz & _).
    assert (m' = m). { destruct Hm as (_ & _ & _ & _ & _ & _ & H1). destruct Hm' as (_ & _ & _ & _ & _ & _ & H2). congruence. }
    subst m'. apply (eex_zero m _ _ _ E2 Yx Yz Sz); rewrite E1; reflexivity. }
  specialize (Hbest _ Hal0 Hc0). fold om in Hbest. rewrite Hz in Hbest. apply Rle_antisym; [exact Hbest|apply chi2_nonneg].
Qed.
