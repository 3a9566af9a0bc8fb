(** * Property C86: parameters changed after the Fit was made. *)
From Coq Require Import Reals Lra Lia.
From Coquelicot Require Import Coquelicot.
From Verif Require Import PyBase PyFacts Signature SignatureFacts Expr Model ModelSpec ExprR Jacobian JacAnalysis NumPy NumFacts Objective ObjSpec ObjFacts ObjCommon Minimizer MinSpec MinFacts MinLemmas Fit FitSpec FitMain FitExample Cast ArrModel ArrSpec ConModel EndSpec EndMain Decide Prop_Model Prop_Jacobian Prop_ArrModel Prop_End Prop_Chain Later LaterSpec LaterMain.
Local Open Scope R_scope.

(** ** C86.  A Fit made while the parameters had the attributes [h0] behaves, under the attributes [h1], like a Fit made then: for any model,
    objective, data and constraints, if the same parameters are fixed and the minimizer does not depend on the difference. *)
Theorem C86_like_a_new_fit : forall toward0 h0 h1 fm cons o m absolute args kw,
  same_fixed h0 h1 (fm_om fm) -> same_choice h0 h1 (fm_om fm) cons m ->
  fit_later toward0 h0 h1 fm cons o m absolute args kw = fit_init toward0 h1 fm cons o m absolute args kw.
Proof. intros toward0 h0 h1 fm cons o m absolute args kw Hf Hc. apply later_same; [exact Hf|apply choice_same; exact Hc]. Qed.
Print Assumptions C86_like_a_new_fit.

(** So for a symbolic model [execute] reports the least squares fit within the bounds, and with the values of the fixed parameters, of [h1]. *)
Theorem C86_best_fit : forall simp sub mulm1 ord1 ord2 es m sol us toward0 h0 h1 cons o mc absolute args kw f G mn local x popt,
  let om := om_of KModel simp ord2 m in
  let Y := the_data om cons args kw in
  let chi2 := chi2_for sol m Y (the_sigma om cons args kw) in
  let ps := m_params m in
  simp_ok simp -> sympy_arithmetic sub mulm1 -> set_order ord2 -> model_of ord1 es m -> means es sol -> ps <> [] -> has_jacobian simp ord2 m ->
  good_constraints es us -> init_constraints KModel simp sub mulm1 ord2 m us = Ok cons ->
  good_names om cons -> NoDup (dkeys kw) -> data_on_grid G m Y (the_sigma om cons args kw) -> constraints_on_grid G es us Y -> no_shape_clash G m ->
  objective_chosen o mc OLS -> suitable h1 ps us mc ->
  same_fixed h0 h1 om -> same_choice h0 h1 om cons mc ->
  fit_later toward0 h0 h1 {| fm_om := om; fm_len := List.length es |} cons o mc absolute args kw = Ok f ->
  ft_min f = FMin mn local ->
  minimises (fun z => obj_value OLS h1 om (ft_obj f) z []) (execute_problem h1 mn DNone DNone) (nfree h1 ps) x ->
  pack_output h1 ps x = Ok popt ->
  let theta := reported ps popt in
  (match mi_class mn with DifferentialEvolution => True | _ => pb_x0 (execute_problem h1 mn DNone DNone) = Some (map (fun p => p_value (h1 p)) (free_of_list h1 ps)) end) /\
  allowed h1 m theta /\ constraints_hold G sol us Y theta /\
  forall theta', allowed h1 m theta' -> constraints_hold G sol us Y theta' -> chi2 theta <= chi2 theta'.
Proof.
  intros simp sub mulm1 ord1 ord2 es m sol us toward0 h0 h1 cons o mc absolute args kw f G mn local x popt om Y chi2 ps
    Hsimp Har Ho2 Hm Hsol Hps HJ Hgc Hic Hg Hkw HG Hcg Hsc Hoc Hsu Hsf Hch Hf Hmn Hmin Hpk theta.
  rewrite (C86_like_a_new_fit toward0 h0 h1 {| fm_om := om; fm_len := List.length es |} cons o mc absolute args kw Hsf Hch) in Hf. split.
  - destruct (C69_fit_problem simp sub mulm1 ord1 ord2 es m sol us toward0 h1 cons o mc absolute args kw f G Hsimp Har Ho2 Hm Hsol Hps HJ Hgc Hic Hg Hkw HG Hcg Hsc Hoc Hsu Hf)
      as (mn' & local' & Hmn' & _ & _ & Hx0 & _). rewrite Hmn in Hmn'. injection Hmn' as <- <-. destruct (mi_class mn); exact Hx0 || exact I.
  - exact (C69_best_fit simp sub mulm1 ord1 ord2 es m sol us toward0 h1 cons o mc absolute args kw f G mn local x popt Hsimp Har Ho2 Hm Hsol Hps HJ Hgc Hic Hg Hkw HG Hcg Hsc Hoc Hsu Hf Hmn Hmin Hpk).
Qed.
Print Assumptions C86_best_fit.

(** Example: made without bounds while both parameters were 1, [LBFGSB] asked for; then both set to 5 and given the bound [min=0]. *)
Definition la_heap : heap := fun p => {| p_value := 1; p_min := None; p_max := None; p_fixed := false |}.
Lemma la_setting toward0 h0 h1 c : c <> BasinHopping -> forall m, model_of oid aex_es m ->
  exists f, fit_later toward0 h0 h1 {| fm_om := om_of KModel (fun e => e) oid m; fm_len := List.length aex_es |} [] ODefault (MItem (MCls c)) None eex_args eex_kw = Ok f.
Proof.
  intros Hc m (_ & _ & _ & _ & _ & _ & Hi). assert (E1 : m_params m = [pa; pb]) by (vm_compute in Hi; inversion Hi; reflexivity). assert (E2 : m_dep m = [vz]) by (vm_compute in Hi; inversion Hi; reflexivity).
  assert (E3 : m_indep m = [vx]) by (vm_compute in Hi; inversion Hi; reflexivity). clear Hi. unfold om_of. rewrite E1, E2, E3. destruct c; try congruence; eexists; reflexivity.
Qed.
Lemma la_chi2 m Y S theta : m_dep m = [vz] -> Y vx = Some (aex_vec 1 2 3) -> Y vz = Some (aex_vec 14 26 46) -> S vz = Some {| shp := [3%nat]; val := fun _ => 2 |} ->
  chi2_for jex_sol m Y S theta = ((theta pa * theta pa + theta pa * theta pb - 14) / 2) ^ 2 + ((4 * theta pa * theta pa + theta pa * theta pb - 26) / 2) ^ 2 + ((9 * theta pa * theta pa + theta pa * theta pb - 46) / 2) ^ 2.
Proof.
  intros E2 Yx Yz Sz. unfold chi2_for. rewrite E2. cbn [map Rsum fold_right]. rewrite Yz, Sz. change (indices (shp (aex_vec 14 26 46))) with [[0%nat]; [1%nat]; [2%nat]]. cbn [map Rsum fold_right].
  assert (Hs : forall i, jex_sol (at_data Y theta i) vz = (theta pa * elem (aex_vec 1 2 3) i) * ((theta pa * elem (aex_vec 1 2 3) i) * 1) + theta pa * theta pb).
  { intros i. assert (B : at_data Y theta i vx = elem (aex_vec 1 2 3) i) by (unfold at_data; cbn [is_par vx]; rewrite Yx; reflexivity).
    assert (B2' : at_data Y theta i pa = theta pa) by reflexivity. assert (B3 : at_data Y theta i pb = theta pb) by reflexivity.
    revert B B2' B3. generalize (at_data Y theta i). intros env B B2' B3. change (jex_sol env vz) with ((env pa * env vx) * ((env pa * env vx) * 1) + env pa * env pb). rewrite B, B2', B3. reflexivity. }
  rewrite !Hs. change (elem (aex_vec 1 2 3) [0%nat]) with 1. change (elem (aex_vec 1 2 3) [1%nat]) with 2. change (elem (aex_vec 1 2 3) [2%nat]) with 3.
  change (val (aex_vec 14 26 46) [0%nat]) with 14. change (val (aex_vec 14 26 46) [1%nat]) with 26. change (val (aex_vec 14 26 46) [2%nat]) with 46.
  assert (He : forall i, List.length i = 1%nat -> elem {| shp := [3%nat]; val := fun _ => 2 |} i = 2) by (intros i _; reflexivity). rewrite !He by reflexivity. field.
Qed.
Example C86_example : forall toward0, exists m f mn,
  model_of oid aex_es m /\ means aex_es jex_sol /\ m_params m = [pa; pb] /\ has_jacobian (fun e => e) oid m /\
    let om := om_of KModel (fun e => e) oid m in
    let h1 := eex_heap false in
    good_names om [] /\ NoDup (dkeys eex_kw) /\ no_shape_clash [3%nat] m /\ data_on_grid [3%nat] m (the_data om [] eex_args eex_kw) (the_sigma om [] eex_args eex_kw) /\
    suitable h1 (m_params m) [] (MItem (MCls LBFGSB)) /\ same_fixed la_heap h1 om /\ same_choice la_heap h1 om [] (MItem (MCls LBFGSB)) /\
    fit_later toward0 la_heap h1 {| fm_om := om; fm_len := List.length aex_es |} [] ODefault (MItem (MCls LBFGSB)) None eex_args eex_kw = Ok f /\
    ft_min f = FMin mn None /\ minimises (fun z => obj_value OLS h1 om (ft_obj f) z []) (execute_problem h1 mn DNone DNone) (nfree h1 (m_params m)) [2; 5] /\
    pack_output h1 (m_params m) [2; 5] = Ok [2; 5].
Proof.
  intros toward0. set (h := eex_heap false). destruct (ch_setting toward0 h) as (m & Hm & E1 & E2 & HJ & HH & Hg & Hk & Hb & Hsc & HG & Yx & Yz & Sz & Hmk). cbv zeta in *.
  set (om := om_of KModel (fun e => e) oid m) in *.
  destruct (la_setting toward0 la_heap h LBFGSB ltac:(discriminate) m Hm) as (f & Hf). fold om in Hf.
  assert (Hfree : forall p, In p (m_params m) -> p_fixed (h p) = false) by (intros p _; unfold h, eex_heap; cbn; destruct (eq_dec p pb); reflexivity).
  assert (Hsf : same_fixed la_heap h om) by (intros p Hp; rewrite (Hfree p Hp); reflexivity).
  assert (Hch : same_choice la_heap h om [] (MItem (MCls LBFGSB))) by (left; cbn; discriminate).
  assert (Hsu : suitable h (m_params m) [] (MItem (MCls LBFGSB))) by (right; exists LBFGSB; split; [reflexivity|]; split; [discriminate|]; split; [left; reflexivity|right; reflexivity]).
  destruct (later_fields toward0 la_heap h _ [] ODefault LBFGSB None eex_args eex_kw f ltac:(discriminate) Hf) as (mn & Hmn & _).
  exists m, f, mn. split; [exact Hm|]. split; [exact aex_means|]. split; [exact E1|]. split; [exact HJ|]. cbv zeta. fold om.
  split; [exact Hg|]. split; [exact Hk|]. split; [exact Hsc|]. split; [exact HG|]. split; [exact Hsu|]. split; [exact Hsf|]. split; [exact Hch|]. split; [exact Hf|]. split; [exact Hmn|].
  split; [|rewrite E1; reflexivity].
  rewrite (C86_like_a_new_fit toward0 la_heap h {| fm_om := om; fm_len := List.length aex_es |} [] ODefault (MItem (MCls LBFGSB)) None eex_args eex_kw Hsf Hch) in Hf.
  assert (Hne : m_params m <> []) by (rewrite E1; discriminate). assert (Hn2 : nfree h (m_params m) = 2%nat) by (rewrite E1; reflexivity).
  assert (Hoc : objective_chosen ODefault (MItem (MCls LBFGSB)) OLS) by (split; [left; reflexivity|discriminate]).
  assert (Hgc : good_constraints aex_es []) by (intros u []). assert (Hcg : constraints_on_grid [3%nat] aex_es [] (the_data om [] eex_args eex_kw)) by (intros u v []).
  destruct (C69_fit_problem (fun e => e) ESub ENeg oid oid aex_es m jex_sol [] toward0 h [] ODefault (MItem (MCls LBFGSB)) None eex_args eex_kw f [3%nat] simp_id_ok eex_arith oid_ok Hm aex_means
      Hne HJ Hgc eq_refl Hg Hk HG Hcg Hsc Hoc Hsu Hf) as (mn' & local' & Hmn' & _ & _ & _ & Hfe & Hv & _). rewrite Hmn in Hmn'. injection Hmn' as <- <-. rewrite Hn2 in Hv, Hfe |- *. fold om in Hv, Hfe.
  assert (Hpa : parameter_value h (m_params m) [2; 5] pa = 2) by (rewrite E1; reflexivity). assert (Hpb : parameter_value h (m_params m) [2; 5] pb = 5) by (rewrite E1; reflexivity).
  split; [reflexivity|]. split.
  { apply Hfe; [reflexivity|]. split; [|intros u i []]. intros p Hp. rewrite (Hfree p Hp). assert (Hw : forall v, 0 <= v -> within h p v) by (intros v Hvv; split; cbn; [intros l Hq; injection Hq as <-; exact Hvv|discriminate]).
    rewrite E1 in Hp. destruct Hp as [<-|[<-|[]]]; apply Hw; [rewrite Hpa|rewrite Hpb]; lra. }
  intros x' r r' Hl' _ Hr Hr'. rewrite (Hv [2; 5] eq_refl) in Hr. rewrite (Hv x' Hl') in Hr'. injection Hr as <-. injection Hr' as <-. rewrite !elem_scalar.
  rewrite (eex_zero m _ _ _ E2 Yx Yz Sz Hpa Hpb). match goal with |- / 2 * 0 <= / 2 * ?B => assert (HB : 0 <= B) by apply chi2_nonneg; lra end.
Qed.

(** ** Not otherwise.  Fixing a parameter later: [a] is in [0, 3] and is fixed at 2 after the Fit (LBFGSB) was made.  [b], without bounds, should become 5,
    but scipy's vector has an entry for [a] first: it is taken for [b] and kept in the bounds of [a]. *)
Definition la_ab (fixed : bool) : heap := fun p => if eq_dec p pa then {| p_value := 2; p_min := Some 0; p_max := Some 3; p_fixed := fixed |} else {| p_value := 5; p_min := None; p_max := None; p_fixed := false |}.
Theorem C86_fixing_later_refuted : forall toward0, exists m f mn,
  model_of oid aex_es m /\ means aex_es jex_sol /\ m_params m = [pa; pb] /\
    let om := om_of KModel (fun e => e) oid m in
    let chi2 := chi2_for jex_sol m (the_data om [] eex_args eex_kw) (the_sigma om [] eex_args eex_kw) in
    fit_later toward0 (la_ab false) (la_ab true) {| fm_om := om; fm_len := List.length aex_es |} [] ODefault (MItem (MCls LBFGSB)) None eex_args eex_kw = Ok f /\ ft_min f = FMin mn None /\
    pb_x0 (execute_problem (la_ab true) mn DNone DNone) = Some [2; 5] /\ feasible (execute_problem (la_ab true) mn DNone DNone) [2; 5] /\
    (forall x popt, feasible (execute_problem (la_ab true) mn DNone DNone) x -> pack_output (la_ab true) (m_params m) x = Ok popt -> 0 < chi2 (reported (m_params m) popt)) /\
    exists theta, allowed (la_ab true) m theta /\ chi2 theta = 0.
Proof.
  intros toward0. destruct (ch_setting toward0 (la_ab true)) as (m & Hm & E1 & E2 & HJ & HH & Hg & Hk & Hb & Hsc & HG & Yx & Yz & Sz & Hmk). cbv zeta in *.
  destruct (la_setting toward0 (la_ab false) (la_ab true) LBFGSB ltac:(discriminate) m Hm) as (f & Hf).
  destruct (later_fields toward0 _ _ _ [] ODefault LBFGSB None eex_args eex_kw f ltac:(discriminate) Hf) as (mn & Hmn & Hc & Hp & Hg0). cbn [fm_om om_params om_of] in Hp. rewrite E1 in Hp.
  assert (Hp' : mi_params mn = [pa; pb]) by exact Hp. clear Hp.
  exists m, f, mn. split; [exact Hm|]. split; [exact aex_means|]. split; [exact E1|]. cbv zeta. split; [exact Hf|]. split; [exact Hmn|].
  set (pbm := execute_problem (la_ab true) mn DNone DNone).
  assert (Hlo : pb_lower pbm = Some [Some 0; None]) by (unfold pbm, execute_problem; rewrite Hc; cbn [pb_lower option_map]; unfold bounds; rewrite Hp'; reflexivity).
  assert (Hup : pb_upper pbm = Some [Some 3; None]) by (unfold pbm, execute_problem; rewrite Hc; cbn [pb_upper option_map]; unfold bounds; rewrite Hp'; reflexivity).
  assert (Hcn : pb_cons pbm = []) by (unfold pbm, execute_problem; rewrite Hc; reflexivity).
  split; [unfold pbm, execute_problem; rewrite Hc; cbn [pb_x0]; unfold initial_guesses; rewrite Hg0, Hp'; reflexivity|].
  split. { split; [|rewrite Hcn; intros k []]. intros i v Hi. rewrite Hlo, Hup. destruct i as [|[|i]].
    - assert (v = 2) by (cbn in Hi; congruence). subst v. split; intros q b Hq Hb2.
      + assert (q = [Some 0; None]) by congruence. subst q. assert (b = 0) by (cbn in Hb2; congruence). lra.
      + assert (q = [Some 3; None]) by congruence. subst q. assert (b = 3) by (cbn in Hb2; congruence). lra.
    - split; intros q b Hq Hb2; [assert (q = [Some 0; None]) by congruence|assert (q = [Some 3; None]) by congruence]; subst q; discriminate.
    - destruct i; discriminate. }
  split.
  - intros x popt Hfe Hpk. rewrite E1 in Hpk |- *. destruct x as [|v x]; [discriminate|]. assert (popt = [2; v]) by (cbn in Hpk; congruence). subst popt.
    assert (Hv : v <= 3) by exact (proj2 (proj1 Hfe 0%nat v eq_refl) _ 3 Hup eq_refl).
    rewrite (la_chi2 m _ _ _ E2 Yx Yz Sz). change (reported [pa; pb] [2; v] pa) with 2. change (reported [pa; pb] [2; v] pb) with v. nra.
  - exists (fun p => if eq_dec p pa then 2 else 5). split.
    + intros p Hp. rewrite E1 in Hp. destruct Hp as [<-|[<-|[]]]; cbn; [reflexivity|]. split; cbn; discriminate.
    + apply (eex_zero m _ _ _ E2 Yx Yz Sz); reflexivity.
Qed.
Print Assumptions C86_fixing_later_refuted.

(** A bound given later, when Fit chose the minimizer: it chose BFGS, which does not know bounds, so [b.max = 3] is ignored: the best answer to the problem posed is [b = 5]. *)
Definition la_max (u : option R) : heap := fun p => if eq_dec p pb then {| p_value := 1; p_min := None; p_max := u; p_fixed := false |} else {| p_value := 1; p_min := None; p_max := None; p_fixed := false |}.
Theorem C86_bound_later_refuted : forall toward0, exists m f mn,
  model_of oid aex_es m /\ means aex_es jex_sol /\ m_params m = [pa; pb] /\
    let om := om_of KModel (fun e => e) oid m in
    let h1 := la_max (Some 3) in
    fit_later toward0 (la_max None) h1 {| fm_om := om; fm_len := List.length aex_es |} [] ODefault MDefault None eex_args eex_kw = Ok f /\ ft_min f = FMin mn None /\
    minimises (fun z => obj_value OLS h1 om (ft_obj f) z []) (execute_problem h1 mn DNone DNone) 2 [2; 5] /\
    pack_output h1 (m_params m) [2; 5] = Ok [2; 5] /\ ~ allowed h1 m (reported (m_params m) [2; 5]).
Proof.
  intros toward0. set (h := la_max None). destruct (ch_setting toward0 h) as (m & Hm & E1 & E2 & HJ & HH & Hg & Hk & Hb & Hsc & HG & Yx & Yz & Sz & Hmk). cbv zeta in *.
  set (om := om_of KModel (fun e => e) oid m) in *.
  (* it is the fit with BFGS *)
  assert (Hbf : forall h1, fit_later toward0 h h1 {| fm_om := om; fm_len := List.length aex_es |} [] ODefault MDefault None eex_args eex_kw = fit_later toward0 h h1 {| fm_om := om; fm_len := List.length aex_es |} [] ODefault (MItem (MCls BFGS)) None eex_args eex_kw).
  { intros h1. unfold fit_later. rewrite (ChainMain.fit_data_choice _ [] ODefault MDefault (MItem (MCls BFGS)) None eex_args eex_kw) by (right; split; discriminate).
    assert (Ed : determine_minimizer toward0 h om [] = BFGS). { destruct (minimizer_rule toward0 h om []) as [(A & _)|[(_ & B & _)|(_ & _ & ->)]]; [congruence| |reflexivity].
      exfalso. destruct B as (p & Hp & Hq). change (om_params om) with (m_params m) in Hp. rewrite E1 in Hp. destruct Hp as [<-|[<-|[]]]; cbn in Hq; destruct Hq as [Hq|[Hq|Hq]]; congruence. }
    cbn [later_choice fm_om]. rewrite Ed. reflexivity. }
  set (h1 := la_max (Some 3)).
  destruct (la_setting toward0 h h1 BFGS ltac:(discriminate) m Hm) as (f & Hf). fold om in Hf.
  destruct (later_fields toward0 _ _ _ [] ODefault BFGS None eex_args eex_kw f ltac:(discriminate) Hf) as (mn & Hmn & Hc & _).
  exists m, f, mn. split; [exact Hm|]. split; [exact aex_means|]. split; [exact E1|]. cbv zeta. fold om. fold h. fold h1. split; [rewrite Hbf; exact Hf|]. split; [exact Hmn|].
  assert (Hne : m_params m <> []) by (rewrite E1; discriminate). assert (Hn2 : nfree h1 (m_params m) = 2%nat) by (rewrite E1; reflexivity).
  split.
  - (* the objective *)
    assert (Hv : forall z, List.length z = 2%nat -> obj_value OLS h1 om (ft_obj f) z [] = Ok (scalar (/ 2 * chi2_for jex_sol m (the_data om [] eex_args eex_kw) (the_sigma om [] eex_args eex_kw) (parameter_value h1 (m_params m) z)))).
    { assert (Hf1 : fit_init toward0 h1 {| fm_om := om; fm_len := List.length aex_es |} [] ODefault (MItem (MCls BFGS)) None eex_args eex_kw = Ok f).
      { rewrite <- Hf. symmetry. apply C86_like_a_new_fit; [|left; cbn; discriminate]. intros p Hp. change (In p (m_params m)) in Hp. rewrite E1 in Hp. destruct Hp as [<-|[<-|[]]]; reflexivity. }
      assert (Hoc : objective_chosen ODefault (MItem (MCls BFGS)) OLS) by (split; [left; reflexivity|discriminate]).
      intros z Hz. apply (obj_is KModel (fun e => e) oid oid aex_es m jex_sol toward0 h1 [] ODefault (MItem (MCls BFGS)) None eex_args eex_kw f [3%nat] oid_ok Hm aex_means Hg Hk (proj1 HG) Hf1 HG Hoc). unfold full_vector.
      rewrite E1. exact Hz. }
    assert (Hlo : pb_lower (execute_problem h1 mn DNone DNone) = None) by (unfold execute_problem; rewrite Hc; reflexivity).
    assert (Hup : pb_upper (execute_problem h1 mn DNone DNone) = None) by (unfold execute_problem; rewrite Hc; reflexivity).
    assert (Hcn : pb_cons (execute_problem h1 mn DNone DNone) = []) by (unfold execute_problem; rewrite Hc; reflexivity).
    split; [reflexivity|]. split; [split; [|rewrite Hcn; intros k []]; intros i v Hi; rewrite Hlo, Hup; split; discriminate|].
    intros x' r r' Hl' _ Hr Hr'. rewrite (Hv [2; 5] eq_refl) in Hr. rewrite (Hv x' Hl') in Hr'. injection Hr as <-. injection Hr' as <-. rewrite !elem_scalar.
    rewrite (eex_zero m _ _ (parameter_value h1 (m_params m) [2; 5]) E2 Yx Yz Sz) by (rewrite E1; reflexivity). match goal with |- / 2 * 0 <= / 2 * ?B => assert (HB : 0 <= B) by apply chi2_nonneg; lra end.
  - split; [rewrite E1; reflexivity|]. intros Ha. specialize (Ha pb). rewrite E1 in Ha. specialize (Ha (or_intror (or_introl eq_refl))). change (p_fixed (h1 pb)) with false in Ha. cbv iota in Ha.
    destruct Ha as (_ & Hu). specialize (Hu 3 eq_refl). change (reported [pa; pb] [2; 5] pb) with 5 in Hu. lra.
Qed.
Print Assumptions C86_bound_later_refuted.

(** Executing again after the value of a fixed parameter was changed: the objective keeps the value of the first evaluation (C28), the result reports the new one.
    Here [a] is fixed at 2 for the first [execute] and at 3 for the second: the best answer to the second problem is still [b = 5]; reported are [3; 5], though [3; 0] fits better. *)
Definition la_fix (v : R) : heap := fun p => if eq_dec p pa then {| p_value := v; p_min := None; p_max := None; p_fixed := true |} else {| p_value := 1; p_min := None; p_max := None; p_fixed := false |}.
Theorem C86_execute_again_refuted : forall toward0, exists m f2 mn,
  model_of oid aex_es m /\ means aex_es jex_sol /\ m_params m = [pa; pb] /\
    let om := om_of KModel (fun e => e) oid m in
    let chi2 := chi2_for jex_sol m (the_data om [] eex_args eex_kw) (the_sigma om [] eex_args eex_kw) in
    fit_later toward0 (la_fix 2) (la_fix 3) {| fm_om := om; fm_len := List.length aex_es |} [] ODefault (MItem (MCls NelderMead)) None eex_args eex_kw = Ok f2 /\ ft_min f2 = FMin mn None /\
    minimises (fun z => obj_value OLS (la_fix 3) om (ft_obj (evaluated_fit (la_fix 2) om f2)) z []) (execute_problem (la_fix 3) mn DNone DNone) 1 [5] /\
    pack_output (la_fix 3) (m_params m) [5] = Ok [3; 5] /\
    exists theta, allowed (la_fix 3) m theta /\ chi2 theta < chi2 (reported (m_params m) [3; 5]).
Proof.
  intros toward0. set (h2 := la_fix 2). set (h3 := la_fix 3). destruct (ch_setting toward0 h2) as (m & Hm & E1 & E2 & HJ & HH & Hg & Hk & Hb & Hsc & HG & Yx & Yz & Sz & Hmk). cbv zeta in *.
  set (om := om_of KModel (fun e => e) oid m) in *.
  destruct (la_setting toward0 h2 h3 NelderMead ltac:(discriminate) m Hm) as (f & Hf). fold om in Hf. destruct (Hmk NelderMead ltac:(discriminate)) as (f1 & Hf1).
  destruct (later_fields toward0 _ _ _ [] ODefault NelderMead None eex_args eex_kw f ltac:(discriminate) Hf) as (mn & Hmn & Hc & _).
  assert (Hob : ft_obj f = ft_obj f1). { unfold fit_later in Hf. unfold fit_init in Hf1. apply bind_Ok in Hf as ([c t] & Hd & Hf). rewrite Hd in Hf1. cbn [bind] in Hf1. apply bind_Ok in Hf as (ob & Ho & Hf). rewrite Ho in Hf1. cbn [bind] in Hf1.
    apply bind_Ok in Hf as (x & _ & Hf). apply bind_Ok in Hf1 as (x1 & _ & Hf1). injection Hf as <-. injection Hf1 as <-. reflexivity. }
  exists m, f, mn. split; [exact Hm|]. split; [exact aex_means|]. split; [exact E1|]. cbv zeta. fold om. split; [exact Hf|]. split; [exact Hmn|].
  split.
  - assert (Hv : forall z, List.length z = 1%nat -> obj_value OLS h3 om (touched h2 om (ft_obj f)) z [] = Ok (scalar (/ 2 * chi2_for jex_sol m (the_data om [] eex_args eex_kw) (the_sigma om [] eex_args eex_kw) (parameter_value h2 (m_params m) z)))).
    { intros z Hz. assert (Hoc : objective_chosen ODefault (MItem (MCls NelderMead)) OLS) by (split; [left; reflexivity|discriminate]).
      pose proof (obj_is KModel (fun e => e) oid oid aex_es m jex_sol toward0 h2 [] ODefault (MItem (MCls NelderMead)) None eex_args eex_kw f1 [3%nat] oid_ok Hm aex_means Hg Hk (proj1 HG) Hf1 HG Hoc z) as H.
      fold om in H.
      pose proof (fit_obj_made KModel (fun e => e) oid oid aex_es m toward0 h2 [] ODefault (MItem (MCls NelderMead)) None eex_args eex_kw f1 [3%nat] Hm Hg Hk (proj1 HG) Hf1 HG Hoc) as Ho.
      rewrite <- Hob in Ho. destruct (obj_init_inv _ _ _ _ Ho) as (_ & Hn & _).
      assert (Hfull : full_vector h2 m z) by (unfold full_vector; rewrite E1; exact Hz). specialize (H Hfull). rewrite <- Hob in H.
      destruct (compute_inv h2 om (ft_obj f)) as [inv|e] eqn:Hci.
      - assert (Ev : evaluate h3 om (touched h2 om (ft_obj f)) z [] = evaluate h2 om (ft_obj f) z []).
        { apply (evaluate_touched om h3 h2 (ft_obj f) inv z [] Hci Hn). intros p Hp. change (In p (m_params m)) in Hp. rewrite E1 in Hp. destruct Hp as [<-|[<-|[]]]; reflexivity. }
        apply (f_equal r_ls) in Ev. cbn [evaluate r_ls] in Ev. unfold obj_value. rewrite Ev. exact H.
      - exfalso. unfold obj_value, ls_call, ls_chi2, base_call, base_eval, invariant_kwargs in H. rewrite Hn, Hci in H. discriminate H. }
    assert (Hlo : pb_lower (execute_problem h3 mn DNone DNone) = None) by (unfold execute_problem; rewrite Hc; reflexivity).
    assert (Hup : pb_upper (execute_problem h3 mn DNone DNone) = None) by (unfold execute_problem; rewrite Hc; reflexivity).
    assert (Hcn : pb_cons (execute_problem h3 mn DNone DNone) = []) by (unfold execute_problem; rewrite Hc; reflexivity).
    cbn [evaluated_fit ft_obj].
    split; [reflexivity|]. split; [split; [|rewrite Hcn; intros k []]; intros i v Hi; rewrite Hlo, Hup; split; discriminate|].
    intros x' r r' Hl' _ Hr Hr'. rewrite (Hv [5] eq_refl) in Hr. rewrite (Hv x' Hl') in Hr'. injection Hr as <-. injection Hr' as <-. rewrite !elem_scalar.
    rewrite (eex_zero m _ _ (parameter_value h2 (m_params m) [5]) E2 Yx Yz Sz) by (rewrite E1; reflexivity). match goal with |- / 2 * 0 <= / 2 * ?B => assert (HB : 0 <= B) by apply chi2_nonneg; lra end.
  - split; [rewrite E1; reflexivity|]. exists (fun p => if eq_dec p pa then 3 else 0). split.
    + intros p Hp. rewrite E1 in Hp. destruct Hp as [<-|[<-|[]]]; cbn; [reflexivity|]. split; cbn; discriminate.
    + rewrite !(la_chi2 m _ _ _ E2 Yx Yz Sz), E1. change (reported [pa; pb] [3; 5] pa) with 3. change (reported [pa; pb] [3; 5] pb) with 5.
      change ((if eq_dec pa pa then 3 else 0)) with 3. change ((if eq_dec pb pa then 3 else 0)) with 0. lra.
Qed.
Print Assumptions C86_execute_again_refuted.
