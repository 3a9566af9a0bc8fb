(** * Property C88: only what the model means matters, not how it is written. *)
From Coq Require Import Reals Lra Lia Permutation FunctionalExtensionality.
From Coquelicot Require Import Coquelicot.
From Verif Require Import PyBase PyFacts Signature SignatureFacts Expr Model ModelSpec ExprR Jacobian JacAnalysis NumPy NumFacts Objective ObjSpec Minimizer MinSpec MinFacts MinLemmas Fit FitSpec FitMain FitExample Cast ArrModel ArrSpec ConModel EndSpec EndMain Decide Prop_Model Prop_Jacobian Prop_ArrModel Prop_End Prop_Chain PointsSpec PointsMain SameSpec SameMain.
Local Open Scope R_scope.

(** ** C88.  Fits of two models with the same predictions, data and free parameters: the same vectors are best for both problems, and they start at the same values
    (unless the minimizer takes no starting values). *)
Theorem C88_same_fit : forall simp sub mulm1 ord1 ord2 es es' m m' sol sol' us us' toward0 h cons cons' o mc mc' absolute absolute' args kw args' kw' f f' G,
  let om := om_of KModel simp ord2 m in
  let om' := om_of KModel simp ord2 m' in
  let Y := the_data om cons args kw in
  let Y' := the_data om' cons' args' kw' in
  simp_ok simp -> sympy_arithmetic sub mulm1 -> set_order ord2 -> objective_chosen o mc OLS -> objective_chosen o mc' OLS ->
  model_of ord1 es m -> means es sol -> m_params m <> [] -> has_jacobian simp ord2 m -> good_constraints es us -> init_constraints KModel simp sub mulm1 ord2 m us = Ok cons -> suitable h (m_params m) us mc ->
  model_of ord1 es' m' -> means es' sol' -> m_params m' <> [] -> has_jacobian simp ord2 m' -> good_constraints es' us' -> init_constraints KModel simp sub mulm1 ord2 m' us' = Ok cons' -> suitable h (m_params m') us' mc' ->
  good_input simp ord2 es m us cons G args kw -> good_input simp ord2 es' m' us' cons' G args' kw' ->
  fit_init toward0 h {| fm_om := om; fm_len := List.length es |} cons o mc absolute args kw = Ok f ->
  fit_init toward0 h {| fm_om := om'; fm_len := List.length es' |} cons' o mc' absolute' args' kw' = Ok f' ->
  free_of_list h (m_params m') = free_of_list h (m_params m) -> m_dep m' = m_dep m ->
  (forall v, In v (m_dep m) -> Y' v = Y v /\ the_sigma om' cons' args' kw' v = the_sigma om cons args kw v) ->
  same_predictions h G m sol sol' Y Y' -> same_constraints h G us us' sol sol' Y Y' ->
  same_problem h om om' (m_params m) (m_params m') f f'.
Proof.
  intros simp sub mulm1 ord1 ord2 es es' m m' sol sol' us us' toward0 h cons cons' o mc mc' absolute absolute' args kw args' kw' f f' G om om' Y Y'
    Hsimp Har Ho2 Hoc Hoc' Hm Hsol Hps HJ Hgc Hic Hsu Hm' Hsol' Hps' HJ' Hgc' Hic' Hsu' (Hg & Hkw & HG & Hcg & Hsc) (Hg' & Hkw' & HG' & Hcg' & Hsc') Hf Hf' Hfree Hdep HYS Hpred Hcon.
  fold om in HG, Hcg, Hg. fold om' in HG', Hcg', Hg'. fold Y in HG, Hcg. fold Y' in HG', Hcg'.
  destruct (C69_fit_problem simp sub mulm1 ord1 ord2 es m sol us toward0 h cons o mc absolute args kw f G Hsimp Har Ho2 Hm Hsol Hps HJ Hgc Hic Hg Hkw HG Hcg Hsc Hoc Hsu Hf) as (mn & local & Hmn & _ & _ & Hx0 & Hfe & Hv & _).
  destruct (C69_fit_problem simp sub mulm1 ord1 ord2 es' m' sol' us' toward0 h cons' o mc' absolute' args' kw' f' G Hsimp Har Ho2 Hm' Hsol' Hps' HJ' Hgc' Hic' Hg' Hkw' HG' Hcg' Hsc' Hoc' Hsu' Hf') as (mn' & local' & Hmn' & _ & _ & Hx0' & Hfe' & Hv' & _).
  fold om in Hfe, Hv. fold om' in Hfe', Hv'. fold Y in Hfe, Hv. fold Y' in Hfe', Hv'.
  assert (Hnf : nfree h (m_params m') = nfree h (m_params m)) by (unfold nfree; rewrite Hfree; reflexivity).
  unfold same_problem. rewrite Hnf in Hfe', Hv' |- *.
  exists mn, local, mn', local'. split; [exact Hmn|]. split; [exact Hmn'|]. split.
  { intros Hc Hc'. rewrite Hx0, Hx0', Hfree. destruct (mi_class mn); try congruence; destruct (mi_class mn'); congruence. }
  split; [reflexivity|].
  assert (Hpv : forall x, parameter_value h (m_params m') x = parameter_value h (m_params m) x) by (intros x; apply pv_free; exact Hfree).
  assert (Hfeq : forall x, List.length x = nfree h (m_params m) -> feasible (execute_problem h mn' DNone DNone) x <-> feasible (execute_problem h mn DNone DNone) x).
  { intros x Hx. rewrite (Hfe x Hx), (Hfe' x Hx), Hpv. rewrite (allowed_same h m m' _ (pv_keeps h (m_params m) x) Hfree), (Hcon _ (pv_keeps h (m_params m) x)). reflexivity. }
  assert (Hveq : forall x, List.length x = nfree h (m_params m) -> obj_value OLS h om' (ft_obj f') x [] = obj_value OLS h om (ft_obj f) x []).
  { intros x Hx. rewrite (Hv x Hx), (Hv' x Hx), Hpv. rewrite (same_chi2 h G m m' sol sol' Y _ Y' _ HG Hdep HYS Hpred _ (pv_keeps h (m_params m) x)). reflexivity. }
  intros x. unfold minimises. split; intros (Hx & Hxf & Hb); (split; [exact Hx|]); (split; [apply (Hfeq x Hx); exact Hxf|]); intros x' r r' Hx' Hf'' Hr Hr'; apply (Hb x' r r' Hx' (proj2 (Hfeq x' Hx') Hf'') ) || apply (Hb x' r r' Hx' (proj1 (Hfeq x' Hx') Hf'')).
  - rewrite (Hveq x Hx); exact Hr.
  - rewrite (Hveq x' Hx'); exact Hr'.
  - rewrite <- (Hveq x Hx); exact Hr.
  - rewrite <- (Hveq x' Hx'); exact Hr'.
Qed.
Print Assumptions C88_same_fit.

(** For the same answer of scipy, models with the same parameters (none of them fixed) report the same values and the same covariance matrix. *)
Theorem C88_same_result : forall inv simp ord1 ord2 es es' m m' sol sol' toward0 h cons cons' us us' o mc mc' absolute args kw args' kw' f f' G x,
  let om := om_of KModel simp ord2 m in
  let om' := om_of KModel simp ord2 m' in
  let Y := the_data om cons args kw in
  let Y' := the_data om' cons' args' kw' in
  simp_ok simp -> set_order ord2 -> objective_chosen o mc OLS -> objective_chosen o mc' OLS ->
  model_of ord1 es m -> means es sol -> m_params m <> [] -> ArrSpec.has_hessian simp ord2 m ->
  model_of ord1 es' m' -> means es' sol' -> ArrSpec.has_hessian simp ord2 m' ->
  good_input simp ord2 es m us cons G args kw -> good_input simp ord2 es' m' us' cons' G args' kw' -> no_bare_numbers om cons args kw -> no_bare_numbers om' cons' args' kw' ->
  fit_init toward0 h {| fm_om := om; fm_len := List.length es |} cons o mc absolute args kw = Ok f ->
  fit_init toward0 h {| fm_om := om'; fm_len := List.length es' |} cons' o mc' absolute args' kw' = Ok f' ->
  m_params m' = m_params m -> m_dep m' = m_dep m ->
  (forall v, In v (m_dep m) -> Y' v = Y v /\ the_sigma om' cons' args' kw' v = the_sigma om cons args kw v) ->
  same_predictions h G m sol sol' Y Y' ->
  inverts inv -> List.length x = nfree h (m_params m) -> (forall p, p_fixed (h p) = false) -> ft_absolute f' = ft_absolute f ->
  (forall popt, pack_output h (m_params m) x = Ok popt -> defined_around G es sol Y (reported (m_params m) popt) /\ defined_around G es' sol' Y' (reported (m_params m) popt)) ->
  exists popt cov cov', fit_execute inv h om f x = Ok (popt, cov) /\ fit_execute inv h om' f' x = Ok (popt, cov') /\ scaled_matrix (List.length (m_params m)) 1 cov cov'.
Proof.
  intros inv simp ord1 ord2 es es' m m' sol sol' toward0 h cons cons' us us' o mc mc' absolute args kw args' kw' f f' G x om om' Y Y'
    Hsimp Ho2 Hoc Hoc' Hm Hsol Hps HH Hm' Hsol' HH' (Hg & Hkw & HG & _ & Hsc) (Hg' & Hkw' & HG' & _ & Hsc') Hnb Hnb' Hf Hf' Hpar Hdep HYS Hpred Hinv Hl Hfree Habs Hdef.
  fold om in HG, Hg. fold om' in HG', Hg'. fold Y in HG. fold Y' in HG'.
  set (S := the_sigma om cons args kw) in *. set (S' := the_sigma om' cons' args' kw') in *. set (ps := m_params m) in *.
  assert (Hps' : m_params m' <> []) by (rewrite Hpar; exact Hps). assert (Hl' : List.length x = nfree h (m_params m')) by (rewrite Hpar; exact Hl).
  destruct (C69_covariance inv simp ord1 ord2 es m sol toward0 h cons o mc absolute args kw f G x Hsimp Ho2 Hm Hsol Hps HH Hg Hkw HG Hsc Hnb Hoc Hf Hinv Hl) as (popt & cov & H & K & Hex & Hpk & _ & _ & Hrule & Hent).
  destruct (C69_covariance inv simp ord1 ord2 es' m' sol' toward0 h cons' o mc' absolute args' kw' f' G x Hsimp Ho2 Hm' Hsol' Hps' HH' Hg' Hkw' HG' Hsc' Hnb' Hoc' Hf' Hinv Hl') as (popt' & cov' & H' & K' & Hex' & Hpk' & _ & _ & Hrule' & Hent').
  fold om in Hex, Hrule, Hent. fold om' in Hex', Hrule', Hent'. rewrite Hpar in Hpk', Hrule', Hent'. fold ps in Hpk, Hpk', Hrule, Hrule', Hent, Hent'. fold Y in Hrule, Hent. fold S in Hrule, Hent. fold Y' in Hrule', Hent'. fold S' in Hrule', Hent'.
  rewrite Hpk in Hpk'. injection Hpk' as <-. exists popt, cov, cov'. split; [exact Hex|]. split; [exact Hex'|].
  destruct (Hdef popt Hpk) as (Hd & Hd'). set (theta := reported ps popt) in *.
  assert (Hat : defined_for G es sol Y theta) by (destruct Hd as (eps & He & Hd); apply Hd; intros p; rewrite Rminus_eq_0, Rabs_R0; exact He).
  assert (Hat' : defined_for G es' sol' Y' theta) by (destruct Hd' as (eps & He & Hd'); apply Hd'; intros p; rewrite Rminus_eq_0, Rabs_R0; exact He).
  assert (Hkeep : forall th, keeps_fixed h th) by (intros th p Hp; rewrite Hfree in Hp; discriminate).
  assert (Echi : chi2_for sol' m' Y' S' = chi2_for sol m Y S) by (extensionality th; exact (same_chi2 h G m m' sol sol' Y S Y' S' HG Hdep HYS Hpred th (Hkeep th))).
  destruct (Hent (fun p _ => Hfree p)) as (HHe & HKe). destruct (Hent' (fun p _ => Hfree p)) as (HHe' & HKe'). specialize (HHe Hd). specialize (HHe' Hd'). specialize (HKe Hat). specialize (HKe' Hat').
  destruct HHe as (_ & HHe). destruct HHe' as (_ & HHe'). destruct HKe as (_ & HKe). destruct HKe' as (_ & HKe').
  assert (Hnth : forall k, (k < List.length ps)%nat -> exists p, nth_error ps k = Some p) by (intros k Hk; destruct (nth_error ps k) eqn:E; [eauto|apply nth_error_None in E; lia]).
  rewrite Echi, Habs in Hrule'.
  refine (cov_same (List.length ps) (variance_scale (ft_absolute f) (chi2_for sol m Y S theta) (INR (List.length (indices G)) - INR (List.length ps))) H K H' K' cov cov' _ _ Hrule Hrule').
  - intros k l Hk Hkl. destruct (Hnth k Hk) as (p & Ep). destruct (Hnth l Hkl) as (q & Eq). specialize (HHe p q k l Ep Eq). specialize (HHe' p q k l Ep Eq). rewrite Echi in HHe'.
    apply is_derive_unique in HHe. apply is_derive_unique in HHe'. rewrite <- HHe, <- HHe'. reflexivity.
  - intros k l Hk Hkl. destruct (Hnth k Hk) as (p & Ep). destruct (Hnth l Hkl) as (q & Eq). destruct (HKe p q k l Ep Eq) as (Dp & Dq & HD & ->). destruct (HKe' p q k l Ep Eq) as (Dp' & Dq' & HD' & ->).
    rewrite Hdep in HD' |- *. apply Rsum_ext. intros v Hv. destruct (HYS v Hv) as (-> & ->). destruct (Y v) as [y|] eqn:Ey; [|reflexivity]. destruct (S v) as [s|]; [|reflexivity].
    apply Rsum_ext. intros i Hi. pose proof HG as (_ & HGd & _). rewrite (proj1 (HGd v y Hv Ey)) in Hi.
    destruct (HD v i Hv Hi) as (A1 & A2). destruct (HD' v i Hv Hi) as (B1 & B2).
    assert (Es : (fun th => sol' (at_data Y' th i) v) = (fun th => sol (at_data Y th i) v)) by (extensionality th; exact (Hpred th (Hkeep th) i v Hi Hv)).
    rewrite Es in B1, B2. apply is_derive_unique in A1, A2, B1, B2. assert (E1 : Dp' v i = Dp v i) by congruence. assert (E2 : Dq' v i = Dq v i) by congruence. rewrite E1, E2. reflexivity.
Qed.
Print Assumptions C88_same_result.

(** ** So the form of the expressions does not matter (for models without constraints), ... *)
Lemma same_data simp ord2 m m' args kw : m_indep m' = m_indep m -> m_dep m' = m_dep m ->
  let om := om_of KModel simp ord2 m in let om' := om_of KModel simp ord2 m' in
  (forall v, the_data om' [] args kw v = the_data om [] args kw v) /\ (forall v, the_sigma om' [] args kw v = the_sigma om [] args kw v) /\
  (forall cons, no_bare_numbers om [] args kw -> cons = [] -> no_bare_numbers om' cons args kw).
Proof.
  intros Hi Hd om om'. assert (Hn : forall v, data_for om' [] args kw v = data_for om [] args kw v) by (intros v; unfold data_for, argument_names, om, om', om_of; cbn [om_indep om_dep]; rewrite Hi, Hd; reflexivity).
  split; [intros v; unfold the_data; rewrite Hn; reflexivity|]. split; [intros v; unfold the_sigma; rewrite !Hn; reflexivity|].
  intros cons H -> v r Hv. rewrite Hn. apply H. unfold om, om', om_of in *. cbn [om_indep om_dep] in *. rewrite <- Hi, <- Hd. exact Hv.
Qed.
Section Forms.
  Context (simp : expr -> expr) (sub : expr -> expr -> expr) (mulm1 : expr -> expr) (ord1 ord2 : list sym -> list sym) (es es' : dict sym expr) (m m' : amodel) (sol sol' : (sym -> R) -> sym -> R)
          (toward0 : R -> R) (h : heap) (o : ochoice) (mc : mchoice) (absolute : option bool) (args : list datum) (kw : dict string datum) (f f' : fit) (G : list nat).
  Let om := om_of KModel simp ord2 m.
  Let om' := om_of KModel simp ord2 m'.
  Definition both_fits : Prop :=
    simp_ok simp /\ sympy_arithmetic sub mulm1 /\ set_order ord2 /\ objective_chosen o mc OLS /\
    (model_of ord1 es m /\ means es sol /\ m_params m <> [] /\ has_jacobian simp ord2 m /\ suitable h (m_params m) [] mc /\ good_input simp ord2 es m [] [] G args kw) /\
    (model_of ord1 es' m' /\ means es' sol' /\ m_params m' <> [] /\ has_jacobian simp ord2 m' /\ suitable h (m_params m') [] mc /\ good_input simp ord2 es' m' [] [] G args kw) /\
    m_indep m' = m_indep m /\ m_dep m' = m_dep m /\
    fit_init toward0 h {| fm_om := om; fm_len := List.length es |} [] o mc absolute args kw = Ok f /\
    fit_init toward0 h {| fm_om := om'; fm_len := List.length es' |} [] o mc absolute args kw = Ok f'.
  Lemma forms_same : both_fits -> free_of_list h (m_params m') = free_of_list h (m_params m) ->
    (forall theta, keeps_fixed h theta -> forall i v, In v (m_dep m) -> sol' (at_data (the_data om [] args kw) theta i) v = sol (at_data (the_data om [] args kw) theta i) v) ->
    same_problem h om om' (m_params m) (m_params m') f f'.
  Proof.
    intros (Hsimp & Har & Ho2 & Hoc & (Hm & Hsol & Hps & HJ & Hsu & Hin) & (Hm' & Hsol' & Hps' & HJ' & Hsu' & Hin') & Hi & Hd & Hf & Hf') Hfree Hs.
    destruct (same_data simp ord2 m m' args kw Hi Hd) as (EY & ES & _). fold om om' in EY, ES.
    assert (Hgc : forall es0, good_constraints es0 []) by (intros es0 u []).
    assert (EYf : the_data om' [] args kw = the_data om [] args kw) by (extensionality v; apply EY).
    eapply (C88_same_fit simp sub mulm1 ord1 ord2 es es' m m' sol sol' [] [] toward0 h [] [] o mc mc absolute absolute args kw args kw f f' G); try assumption; auto.
    - intros theta Hth i v _ Hv. fold om om'. rewrite EYf. apply Hs; assumption.
    - intros theta _. split; intros _ u i [].
  Qed.
  Theorem C88_rewritten : both_fits -> rewritten es es' -> m_params m' = m_params m -> same_problem h om om' (m_params m) (m_params m') f f'.
  Proof.
    intros H Hr Hp. apply forms_same; [exact H|rewrite Hp; reflexivity|]. intros theta _ i v _. destruct H as (_ & _ & _ & _ & (Hm & Hsol & _) & (Hm' & Hsol' & _) & _).
    exact (rewritten_sol ord1 es es' m m' sol sol' Hm Hm' Hsol Hsol' Hr _ v).
  Qed.
  (** .. nor does it matter whether a component has a name of its own or is written out, ... *)
  Theorem C88_written_out : forall y, both_fits -> written_out y es es' -> m_params m' = m_params m -> same_problem h om om' (m_params m) (m_params m') f f'.
  Proof.
    intros y H Hr Hp. apply forms_same; [exact H|rewrite Hp; reflexivity|]. intros theta _ i v Hv. destruct H as (_ & _ & _ & _ & (Hm & Hsol & _) & (Hm' & Hsol' & _) & _ & Hd & _).
    apply (written_out_sol ord1 es es' m m' sol sol' y Hm Hm' Hsol Hsol' Hr). intros ->.
    rewrite <- Hd in Hv. apply (ArrObj.dep_key ord1 es' m' m' (ArrObj.built_self ord1 es' m' Hm')) in Hv. rewrite ArrObj.dkeys_comps in Hv. destruct Hr as (ey & _ & Hk & _). apply Hk in Hv as (_ & Hv). congruence.
  Qed.
  (** .. and a fixed parameter is the same as its value. *)
  Theorem C88_constant : forall p, both_fits -> In p (m_params m) -> p_fixed (h p) = true -> constant_for p (p_value (h p)) es es' -> m_params m' = filter (fun q => if eq_dec q p then false else true) (m_params m) ->
    same_problem h om om' (m_params m) (m_params m') f f'.
  Proof.
    intros p H Hpin Hp Hr Hps. apply forms_same; [exact H| |].
    - rewrite Hps. unfold free_of_list. clear -Hp. induction (m_params m) as [|q l IH]; [reflexivity|]. cbn [filter]. destruct (eq_dec q p) as [->|Hq].
      + rewrite Hp. cbn [negb]. exact IH.
      + cbn [filter]. destruct (negb (p_fixed (h q))); [f_equal|]; exact IH.
    - intros theta Hth i v _. destruct H as (_ & _ & _ & _ & (Hm & Hsol & _) & (Hm' & Hsol' & Hps' & _) & _).
      apply (constant_sol ord1 es es' m m' sol sol' p (p_value (h p)) Hm Hm' Hsol Hsol' Hr). unfold at_data. rewrite (ArrObj.Hps ord1 es m m (ArrObj.built_self ord1 es m Hm) p Hpin). apply Hth. exact Hp.
  Qed.
  (** Named component or not, whatever the form: same reported values and covariance matrix. *)
  Theorem C88_same_report : forall inv x, both_fits -> (rewritten es es' \/ exists y, written_out y es es') -> m_params m' = m_params m ->
    ArrSpec.has_hessian simp ord2 m -> ArrSpec.has_hessian simp ord2 m' -> no_bare_numbers om [] args kw -> ft_absolute f' = ft_absolute f ->
    inverts inv -> List.length x = nfree h (m_params m) -> (forall p, p_fixed (h p) = false) ->
    let Y := the_data om [] args kw in
    (forall popt, pack_output h (m_params m) x = Ok popt -> defined_around G es sol Y (reported (m_params m) popt) /\ defined_around G es' sol' Y (reported (m_params m) popt)) ->
    exists popt cov cov', fit_execute inv h om f x = Ok (popt, cov) /\ fit_execute inv h om' f' x = Ok (popt, cov') /\ scaled_matrix (List.length (m_params m)) 1 cov cov'.
  Proof.
    intros inv x (Hsimp & Har & Ho2 & Hoc & (Hm & Hsol & Hps & HJ & Hsu & Hin) & (Hm' & Hsol' & Hps' & HJ' & Hsu' & Hin') & Hi & Hd & Hf & Hf') Hr Hp HH HH' Hnb Habs Hinv Hl Hfree Y Hdef.
    destruct (same_data simp ord2 m m' args kw Hi Hd) as (EY & ES & EN). fold om om' in EY, ES, EN.
    assert (EYf : the_data om' [] args kw = the_data om [] args kw) by (extensionality v; apply EY).
    assert (Hs : forall inp v, In v (m_dep m) -> sol' inp v = sol inp v).
    { intros inp v Hv. destruct Hr as [Hr|(y & Hr)]; [exact (rewritten_sol ord1 es es' m m' sol sol' Hm Hm' Hsol Hsol' Hr _ v)|].
      apply (written_out_sol ord1 es es' m m' sol sol' y Hm Hm' Hsol Hsol' Hr). intros ->.
      rewrite <- Hd in Hv. apply (ArrObj.dep_key ord1 es' m' m' (ArrObj.built_self ord1 es' m' Hm')) in Hv. rewrite ArrObj.dkeys_comps in Hv. destruct Hr as (ey & _ & Hk & _). apply Hk in Hv as (_ & Hv). congruence. }
    refine (C88_same_result inv simp ord1 ord2 es es' m m' sol sol' toward0 h [] [] [] [] o mc mc absolute args kw args kw f f' G x Hsimp Ho2 Hoc Hoc Hm Hsol Hps HH Hm' Hsol' HH' Hin Hin' Hnb (EN [] Hnb eq_refl) Hf Hf' Hp Hd (fun v _ => conj (EY v) (ES v)) _ Hinv Hl Hfree Habs _).
    - intros theta Hth i v _ Hv. fold om om'. rewrite EYf. apply Hs. exact Hv.
    - intros popt Hpk. fold om om'. rewrite EYf. apply Hdef. exact Hpk.
  Qed.
End Forms.
Print Assumptions C88_written_out. Print Assumptions C88_constant. Print Assumptions C88_same_report.

(** ** Examples: the model [{y: a*x, z: y**2 + a*b}] of [C69_example], with [y] written out, [{z: (a*x)**2 + a*b}], .. *)
Definition sm_out : dict sym expr := [(vz, EAdd (EPow (EMul (ESym pa) (ESym vx)) 2) (EMul (ESym pa) (ESym pb)))].
(** .. and with 5 for [b], [{y: a*x, z: y**2 + a*5}]. *)
Definition sm_five : dict sym expr := [(vy, EMul (ESym pa) (ESym vx)); (vz, EAdd (EPow (ESym vy) 2) (EMul (ESym pa) (ENum 5)))].
Definition sm_out_sol (inp : sym -> R) (s : sym) : R := if eq_dec s vz then (inp pa * inp vx) * ((inp pa * inp vx) * 1) + inp pa * inp pb else inp s.
Definition sm_five_sol (inp : sym -> R) (s : sym) : R :=
  if eq_dec s vy then inp pa * inp vx else if eq_dec s vz then (inp pa * inp vx) * ((inp pa * inp vx) * 1) + inp pa * 5 else inp s.
Lemma sm_input es m : m_indep m = [vx] -> m_dep m = [vz] ->
  (m_params m = [pa] \/ m_params m = [pa; pb]) ->
  good_input (fun e => e) oid es m [] [] [3%nat] eex_args eex_kw /\ no_bare_numbers (om_of KModel (fun e => e) oid m) [] eex_args eex_kw /\
  forall toward0 fixed n, (n = 1%nat \/ n = 2%nat) -> exists f, fit_init toward0 (eex_heap fixed) {| fm_om := om_of KModel (fun e => e) oid m; fm_len := n |} [] ODefault MDefault None eex_args eex_kw = Ok f /\ ft_absolute f = true.
Proof.
  intros E3 E2 E1. set (om := om_of KModel (fun e => e) oid m).
  assert (Hdf : forall v, data_for om [] eex_args eex_kw v =
    data_for {| om_params := [pa; pb]; om_indep := [vx]; om_dep := [vz]; om_names := map sp_name (m_sig m); om_call := arr_call oid m; om_jac := None; om_hess := None |} [] eex_args eex_kw v).
  { intros v. unfold data_for, argument_names, om, om_of. cbn [om_indep om_dep]. rewrite E2, E3. reflexivity. }
  assert (Dx : data_for om [] eex_args eex_kw vx = DArr (aex_vec 1 2 3)) by (rewrite Hdf; reflexivity).
  assert (Dz : data_for om [] eex_args eex_kw vz = DSeq (aex_vec 14 26 46)) by (rewrite Hdf; reflexivity).
  assert (Ds : data_for om [] eex_args eex_kw (sigma_of vz) = DNum 2) by (rewrite Hdf; reflexivity).
  assert (Yx : the_data om [] eex_args eex_kw vx = Some (aex_vec 1 2 3)) by (unfold the_data; rewrite Dx; reflexivity).
  assert (Yz : the_data om [] eex_args eex_kw vz = Some (aex_vec 14 26 46)) by (unfold the_data; rewrite Dz; reflexivity).
  assert (Sz : the_sigma om [] eex_args eex_kw vz = Some {| shp := [3%nat]; val := fun _ => 2 |}) by (unfold the_sigma; rewrite Dz, Ds; reflexivity).
  split.
  { split. { unfold good_names, argument_names, om_of. cbn [om_indep om_dep]. rewrite E2, E3. split; [apply nodupb_iff; vm_compute; reflexivity|]. split; [intros c []|apply nodupb_iff; vm_compute; reflexivity]. }
    split; [apply nodupb_iff; reflexivity|]. fold om. split; [|split; [intros u v []|split; discriminate]].
    split. { split; [discriminate|]. split; [intros [H|[]]; discriminate|]. rewrite E3. intros v [<-|[]]. rewrite Yx. eexists. split; [reflexivity|]. split; [reflexivity|right; reflexivity]. }
    split. { rewrite E2. intros v y [<-|[]] Hy. rewrite Yz in Hy. injection Hy as <-. split; [reflexivity|]. rewrite Sz. eexists. split; [reflexivity|]. split; [reflexivity|]. intros i _. cbn. lra. }
    exists vz. rewrite E2, Yz. split; [left; reflexivity|discriminate]. }
  split. { intros v r Hv. unfold om, om_of in Hv. cbn [om_indep om_dep] in Hv. rewrite E2, E3 in Hv. destruct Hv as [<-|[<-|[]]]; [rewrite Dx|rewrite Dz]; discriminate. }
  intros toward0 fixed n Hn. unfold om, om_of. rewrite E2, E3. destruct Hn as [-> | ->], E1 as [-> | ->]; destruct fixed; eexists; (split; [reflexivity|reflexivity]).
Qed.
Lemma sm_aex : exists m, model_of oid aex_es m /\ means aex_es jex_sol /\ m_params m = [pa; pb] /\ m_dep m = [vz] /\ m_indep m = [vx] /\ has_jacobian (fun e => e) oid m /\ ArrSpec.has_hessian (fun e => e) oid m.
Proof.
  destruct (ch_setting (fun x => x) (eex_heap false)) as (m & Hm & E1 & E2 & HJ & HH & _). exists m.
  assert (E3 : m_indep m = [vx]). { destruct Hm as (_ & _ & _ & _ & _ & _ & Hi). vm_compute in Hi. inversion Hi. reflexivity. }
  split; [exact Hm|]. split; [exact aex_means|]. auto.
Qed.
Lemma sm_out_model : exists m, model_of oid sm_out m /\ means sm_out sm_out_sol /\ m_params m = [pa; pb] /\ m_dep m = [vz] /\ m_indep m = [vx] /\ has_jacobian (fun e => e) oid m /\ ArrSpec.has_hessian (fun e => e) oid m.
Proof.
  destruct (init_model oid (comps (V:=res nd) sm_out)) as [m|e] eqn:Hi; [|vm_compute in Hi; discriminate]. exists m.
  split. { split; [exact oid_ok|]. split; [apply nodupb_iff; vm_compute; reflexivity|]. split; [decide_model|]. split; [decide_model|].
    split. { split; [intros k [<-|[]]; eexists; reflexivity|]. intros k s (e & [Hq|[]] & Hs). injection Hq as <- <-. cbn in Hs. destruct Hs as [Hs|(y & ps & Hs & _)]; repeat (destruct Hs as [<-|Hs]; try reflexivity); try contradiction; repeat (destruct Hs as [Hs|Hs]; try discriminate); contradiction. }
    split; [|exact Hi]. intros k e [Hq|[]]. injection Hq as <- <-. cbn. repeat split; discriminate. }
  split. { intros inp. split; [intros k e [Hq|[]]; injection Hq as <- <-; cbn; reflexivity|]. intros s Hs. unfold sm_out_sol. destruct (eq_dec s vz) as [->|]; [exfalso; apply Hs; left; reflexivity|reflexivity]. }
  vm_compute in Hi. inversion Hi; subst m. split; [reflexivity|]. split; [reflexivity|]. split; [reflexivity|]. split; (eexists; split; [vm_compute; reflexivity|decide_model]).
Qed.
Lemma sm_five_model : exists m, model_of oid sm_five m /\ means sm_five sm_five_sol /\ m_params m = [pa] /\ m_dep m = [vz] /\ m_indep m = [vx] /\ has_jacobian (fun e => e) oid m /\ ArrSpec.has_hessian (fun e => e) oid m.
Proof.
  destruct (init_model oid (comps (V:=res nd) sm_five)) as [m|e] eqn:Hi; [|vm_compute in Hi; discriminate]. exists m.
  split. { split; [exact oid_ok|]. split; [apply nodupb_iff; vm_compute; reflexivity|]. split; [decide_model|]. split; [decide_model|].
    split. { split; [intros k [<-|[<-|[]]]; eexists; reflexivity|]. intros k s (e & [Hq|[Hq|[]]] & Hs); injection Hq as <- <-; cbn in Hs; destruct Hs as [Hs|(y & ps & Hs & _)]; repeat (destruct Hs as [<-|Hs]; try reflexivity); try contradiction; repeat (destruct Hs as [Hs|Hs]; try discriminate); contradiction. }
    split; [|exact Hi]. intros k e [Hq|[Hq|[]]]; injection Hq as <- <-; cbn; repeat split; discriminate. }
  split. { intros inp. split; [intros k e [Hq|[Hq|[]]]; injection Hq as <- <-; cbn; reflexivity|]. intros s Hs. unfold sm_five_sol. destruct (eq_dec s vy) as [->|]; [exfalso; apply Hs; left; reflexivity|]. destruct (eq_dec s vz) as [->|]; [exfalso; apply Hs; right; left; reflexivity|reflexivity]. }
  vm_compute in Hi. inversion Hi; subst m. split; [reflexivity|]. split; [reflexivity|]. split; [reflexivity|]. split; (eexists; split; [vm_compute; reflexivity|decide_model]).
Qed.
Example C88_written_out_example : forall toward0, exists m m' f f' inv,
  both_fits (fun e => e) ESub ENeg oid oid aex_es sm_out m m' jex_sol sm_out_sol toward0 (eex_heap false) ODefault MDefault None eex_args eex_kw f f' [3%nat] /\
  written_out vy aex_es sm_out /\ m_params m' = m_params m /\ ArrSpec.has_hessian (fun e => e) oid m /\ ArrSpec.has_hessian (fun e => e) oid m' /\ no_bare_numbers (om_of KModel (fun e => e) oid m) [] eex_args eex_kw /\ ft_absolute f' = ft_absolute f /\
  inverts inv /\ (forall p, p_fixed (eex_heap false p) = false) /\
  let Y := the_data (om_of KModel (fun e => e) oid m) [] eex_args eex_kw in
  forall theta, defined_around [3%nat] aex_es jex_sol Y theta /\ defined_around [3%nat] sm_out sm_out_sol Y theta.
Proof.
  intros toward0. destruct sm_aex as (m & Hm & Hsol & E1 & E2 & E3 & HJ & HH). destruct sm_out_model as (m' & Hm' & Hsol' & E1' & E2' & E3' & HJ' & HH'). destruct inverts_exists as (inv & Hinv).
  destruct (sm_input aex_es m E3 E2 (or_intror E1)) as (Hin & Hnb & Hf). destruct (sm_input sm_out m' E3' E2' (or_intror E1')) as (Hin' & _ & Hf').
  destruct (Hf toward0 false (List.length aex_es) (or_intror eq_refl)) as (f & Hf1 & Ha). destruct (Hf' toward0 false (List.length sm_out) (or_introl eq_refl)) as (f' & Hf1' & Ha').
  exists m, m', f, f', inv. split.
  { split; [exact simp_id_ok|]. split; [exact eex_arith|]. split; [exact oid_ok|]. split; [split; [left; reflexivity|discriminate]|].
    split. { split; [exact Hm|]. split; [exact Hsol|]. split; [rewrite E1; discriminate|]. split; [exact HJ|]. split; [left; reflexivity|exact Hin]. }
    split. { split; [exact Hm'|]. split; [exact Hsol'|]. split; [rewrite E1'; discriminate|]. split; [exact HJ'|]. split; [left; reflexivity|exact Hin']. }
    split; [congruence|]. split; [congruence|]. split; assumption. }
  split. { exists (EMul (ESym pa) (ESym vx)). split; [left; reflexivity|]. split.
    - intros k. cbn. split; [intros [<-|[]]; split; [right; left; reflexivity|discriminate]|intros ([<-|[<-|[]]] & H); [congruence|left; reflexivity]].
    - intros k e e' He [Hq|[]]. injection Hq as <- <-. destruct He as [Hq|[Hq|[]]]; [discriminate Hq|]. injection Hq as <-. split; [|reflexivity].
      intros H. unfold mentions in H. cbn in H. destruct H as [H|(y & ps & H & _)]; repeat (destruct H as [H|H]; try discriminate H); exact H. }
  split; [congruence|]. split; [exact HH|]. split; [exact HH'|]. split; [exact Hnb|]. split; [congruence|]. split; [exact Hinv|].
  split. { intros p. unfold eex_heap. cbn. destruct (eq_dec p pb); reflexivity. }
  intros theta. split; (exists 1; split; [lra|]); intros th _ i k e _ Hq; [destruct Hq as [Hq|[Hq|[]]]|destruct Hq as [Hq|[]]]; injection Hq as <- <-; cbn; auto.
Qed.
Example C88_constant_example : forall toward0, exists m m' f f',
  both_fits (fun e => e) ESub ENeg oid oid aex_es sm_five m m' jex_sol sm_five_sol toward0 (eex_heap true) ODefault MDefault None eex_args eex_kw f f' [3%nat] /\
  In pb (m_params m) /\ p_fixed (eex_heap true pb) = true /\ constant_for pb (p_value (eex_heap true pb)) aex_es sm_five /\ m_params m' = filter (fun q => if eq_dec q pb then false else true) (m_params m).
Proof.
  intros toward0. destruct sm_aex as (m & Hm & Hsol & E1 & E2 & E3 & HJ & HH). destruct sm_five_model as (m' & Hm' & Hsol' & E1' & E2' & E3' & HJ' & HH').
  destruct (sm_input aex_es m E3 E2 (or_intror E1)) as (Hin & Hnb & Hf). destruct (sm_input sm_five m' E3' E2' (or_introl E1')) as (Hin' & _ & Hf').
  destruct (Hf toward0 true (List.length aex_es) (or_intror eq_refl)) as (f & Hf1 & Ha). destruct (Hf' toward0 true (List.length sm_five) (or_intror eq_refl)) as (f' & Hf1' & Ha').
  exists m, m', f, f'. split.
  { split; [exact simp_id_ok|]. split; [exact eex_arith|]. split; [exact oid_ok|]. split; [split; [left; reflexivity|discriminate]|].
    split. { split; [exact Hm|]. split; [exact Hsol|]. split; [rewrite E1; discriminate|]. split; [exact HJ|]. split; [left; reflexivity|exact Hin]. }
    split. { split; [exact Hm'|]. split; [exact Hsol'|]. split; [rewrite E1'; discriminate|]. split; [exact HJ'|]. split; [left; reflexivity|exact Hin']. }
    split; [congruence|]. split; [congruence|]. split; assumption. }
  split; [rewrite E1; right; left; reflexivity|]. split; [reflexivity|]. split; [|rewrite E1, E1'; reflexivity].
  split; [intros [H|[H|[]]]; discriminate H|]. split; [reflexivity|].
  intros k e e' He Hq. destruct He as [He|[He|[]]]; injection He as <- <-; destruct Hq as [Hq|[Hq|[]]]; try discriminate Hq; injection Hq as <-; (split; [intros H; unfold mentions in H; cbn in H; destruct H as [H|(y & ps & H & _)]; repeat (destruct H as [H|H]; try discriminate H); exact H|]); intros env; cbn; reflexivity.
Qed.

(** ** Not otherwise.  What is a dependent variable depends on the depth of the components (C04), so writing one out can change it: in [{y: a*x, z: y**2, w: b*x}] only [z] is
    dependent, and Fit rejects data for [w]; in [{z: (a*x)**2, w: b*x}] both are. *)
Definition sm_deep : dict sym expr := [(vy, EMul (ESym pa) (ESym vx)); (vz, EPow (ESym vy) 2); (vw, EMul (ESym pb) (ESym vx))].
Definition sm_flat : dict sym expr := [(vz, EPow (EMul (ESym pa) (ESym vx)) 2); (vw, EMul (ESym pb) (ESym vx))].
Definition sm_kw : dict string datum := [("z"%string, DSeq (aex_vec 4 16 36)); ("w"%string, DSeq (aex_vec 3 6 9))].
Theorem C88_written_out_refuted : forall toward0, exists m m' f e,
  init_model oid (comps (V:=res nd) sm_deep) = Ok m /\ init_model oid (comps (V:=res nd) sm_flat) = Ok m' /\ written_out vy sm_deep sm_flat /\ m_params m' = m_params m /\ m_indep m' = m_indep m /\
  fit_init toward0 (eex_heap false) {| fm_om := om_of KModel (fun e => e) oid m; fm_len := List.length sm_deep |} [] ODefault MDefault None eex_args sm_kw = Raise e /\
  fit_init toward0 (eex_heap false) {| fm_om := om_of KModel (fun e => e) oid m'; fm_len := List.length sm_flat |} [] ODefault MDefault None eex_args sm_kw = Ok f.
Proof.
  intros toward0.
  destruct (init_model oid (comps (V:=res nd) sm_deep)) as [m|e] eqn:Hi; [|vm_compute in Hi; discriminate].
  destruct (init_model oid (comps (V:=res nd) sm_flat)) as [m'|e] eqn:Hi'; [|vm_compute in Hi'; discriminate].
  assert (E1 : m_params m = [pa; pb] /\ m_dep m = [vz] /\ m_indep m = [vx]) by (vm_compute in Hi; inversion Hi; auto). destruct E1 as (E1 & E2 & E3).
  assert (E1' : m_params m' = [pa; pb] /\ m_dep m' = [vw; vz] /\ m_indep m' = [vx]) by (vm_compute in Hi'; inversion Hi'; auto). destruct E1' as (E1' & E2' & E3').
  assert (H : exists f e, fit_init toward0 (eex_heap false) {| fm_om := om_of KModel (fun e => e) oid m; fm_len := List.length sm_deep |} [] ODefault MDefault None eex_args sm_kw = Raise e /\
    fit_init toward0 (eex_heap false) {| fm_om := om_of KModel (fun e => e) oid m'; fm_len := List.length sm_flat |} [] ODefault MDefault None eex_args sm_kw = Ok f).
  { unfold om_of. rewrite E1, E2, E3, E1', E2', E3'. eexists _, _. split; reflexivity. }
  destruct H as (f & e & He & Hf). exists m, m', f, e. split; [reflexivity|]. split; [reflexivity|]. split; [|split; [congruence|split; [congruence|split; [exact He|exact Hf]]]].
  exists (EMul (ESym pa) (ESym vx)). split; [left; reflexivity|]. split.
  - intros k. cbn. split; [intros [<-|[<-|[]]]; split; auto; discriminate|intros ([<-|[<-|[<-|[]]]] & H); [congruence|left; reflexivity|right; left; reflexivity]].
  - intros k e1 e1' Hq Hq'. destruct Hq as [Hq|[Hq|[Hq|[]]]]; injection Hq as <- <-; destruct Hq' as [Hq'|[Hq'|[]]]; try discriminate Hq'; injection Hq' as <-; (split; [intros H; unfold mentions in H; cbn in H; destruct H as [H|(y & ps & H & _)]; repeat (destruct H as [H|H]; try discriminate H); exact H|]); intros env; cbn; reflexivity.
Qed.
