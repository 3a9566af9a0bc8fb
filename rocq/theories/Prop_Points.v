(** * Property C87: the order of the data points, and the shape of the arrays they are in, do not matter. *)
From Coq Require Import Reals Lra Lia Permutation FunctionalExtensionality.
From Coquelicot Require Import Coquelicot.
From Verif Require Import PyBase PyFacts Signature SignatureFacts Expr Model ModelSpec ExprR Jacobian JacAnalysis NumPy NumFacts Objective ObjSpec Minimizer MinSpec MinFacts MinLemmas Fit FitSpec FitMain FitExample Cast ArrModel ArrSpec ConModel EndSpec EndMain Decide Prop_Model Prop_Jacobian Prop_ArrModel Prop_End Prop_Chain PointsSpec PointsMain.
Local Open Scope R_scope.

(** ** C87.  Two Fits of the same model with the same points: their problems have the same best vectors, ... *)
Theorem C87_same_fit : forall simp sub mulm1 ord1 ord2 es m sol us toward0 h cons o mc absolute args kw args' kw' f f' G G' pi,
  let om := om_of KModel simp ord2 m in
  let ps := m_params m in
  simp_ok simp -> sympy_arithmetic sub mulm1 -> set_order ord2 -> model_of ord1 es m -> means es sol -> ps <> [] -> has_jacobian simp ord2 m ->
  good_constraints es us -> init_constraints KModel simp sub mulm1 ord2 m us = Ok cons -> objective_chosen o mc OLS -> suitable h ps us mc ->
  good_input simp ord2 es m us cons G args kw -> good_input simp ord2 es m us cons G' args' kw' ->
  fit_init toward0 h {| fm_om := om; fm_len := List.length es |} cons o mc absolute args kw = Ok f ->
  fit_init toward0 h {| fm_om := om; fm_len := List.length es |} cons o mc absolute args' kw' = Ok f' ->
  same_points pi G G' m us (the_data om cons args kw) (the_sigma om cons args kw) (the_data om cons args' kw') (the_sigma om cons args' kw') ->
  exists mn local mn' local', ft_min f = FMin mn local /\ ft_min f' = FMin mn' local' /\ mi_class mn' = mi_class mn /\
    pb_x0 (execute_problem h mn' DNone DNone) = pb_x0 (execute_problem h mn DNone DNone) /\
    forall x, minimises (fun z => obj_value OLS h om (ft_obj f') z []) (execute_problem h mn' DNone DNone) (nfree h ps) x <->
              minimises (fun z => obj_value OLS h om (ft_obj f) z []) (execute_problem h mn DNone DNone) (nfree h ps) x.
Proof.
  intros simp sub mulm1 ord1 ord2 es m sol us toward0 h cons o mc absolute args kw args' kw' f f' G G' pi om ps
    Hsimp Har Ho2 Hm Hsol Hps HJ Hgc Hic Hoc Hsu (Hg & Hkw & HG & Hcg & Hsc) (_ & Hkw' & HG' & Hcg' & Hsc') Hf Hf' Hsame. fold om in HG, HG', Hcg, Hcg', Hg.
  destruct (C69_fit_problem simp sub mulm1 ord1 ord2 es m sol us toward0 h cons o mc absolute args kw f G Hsimp Har Ho2 Hm Hsol Hps HJ Hgc Hic Hg Hkw HG Hcg Hsc Hoc Hsu Hf) as (mn & local & Hmn & Hcc & _ & Hx0 & Hfe & Hv & _).
  destruct (C69_fit_problem simp sub mulm1 ord1 ord2 es m sol us toward0 h cons o mc absolute args' kw' f' G' Hsimp Har Ho2 Hm Hsol Hps HJ Hgc Hic Hg Hkw' HG' Hcg' Hsc' Hoc Hsu Hf') as (mn' & local' & Hmn' & Hcc' & _ & Hx0' & Hfe' & Hv' & _).
  fold om in Hcc, Hcc', Hfe, Hfe', Hv, Hv'.
  exists mn, local, mn', local'. split; [exact Hmn|]. split; [exact Hmn'|].
  assert (Hcl : mi_class mn' = mi_class mn).
  { destruct Hcc as [(E & Hc)|Hc], Hcc' as [(E' & Hc')|Hc']; try congruence.
    destruct Hc as [(A & ->)|[(A & B & ->)|(A & B & ->)]], Hc' as [(A' & ->)|[(A' & B' & ->)|(A' & B' & ->)]]; try reflexivity; contradiction. }
  split; [exact Hcl|]. split; [rewrite Hx0', Hx0, Hcl; reflexivity|].
  assert (Hfeq : forall x, List.length x = nfree h ps -> feasible (execute_problem h mn' DNone DNone) x <-> feasible (execute_problem h mn DNone DNone) x).
  { intros x Hx. rewrite (Hfe x Hx), (Hfe' x Hx). rewrite (constraints_same ord1 es m sol us pi G G' _ _ _ _ Hm Hsol Hsame). reflexivity. }
  assert (Hveq : forall x, List.length x = nfree h ps -> obj_value OLS h om (ft_obj f') x [] = obj_value OLS h om (ft_obj f) x []).
  { intros x Hx. rewrite (Hv x Hx), (Hv' x Hx). rewrite (chi2_same ord1 es m sol us pi G G' _ _ _ _ Hm Hsol HG HG' Hsame). reflexivity. }
  intros x. unfold minimises. split; intros (Hx & Hxf & Hb); (split; [exact Hx|]); (split; [apply (Hfeq x Hx); exact Hxf|]); intros x' r r' Hx' Hf'' Hr Hr'; apply (Hb x' r r' Hx' (proj2 (Hfeq x' Hx') Hf'') ) || apply (Hb x' r r' Hx' (proj1 (Hfeq x' Hx') Hf'')).
  - rewrite (Hveq x Hx); exact Hr.
  - rewrite (Hveq x' Hx'); exact Hr'.
  - rewrite <- (Hveq x Hx); exact Hr.
  - rewrite <- (Hveq x' Hx'); exact Hr'.
Qed.
Print Assumptions C87_same_fit.

(** .. and for the same answer of scipy they report the same values and the same covariance matrix. *)
Theorem C87_same_result : forall inv simp ord1 ord2 es m sol toward0 h cons us o mc absolute args kw args' kw' f f' G G' pi x,
  let om := om_of KModel simp ord2 m in
  let ps := m_params m in
  simp_ok simp -> set_order ord2 -> model_of ord1 es m -> means es sol -> ps <> [] -> ArrSpec.has_hessian simp ord2 m -> objective_chosen o mc OLS ->
  good_input simp ord2 es m us cons G args kw -> good_input simp ord2 es m us cons G' args' kw' -> no_bare_numbers om cons args kw -> no_bare_numbers om cons args' kw' ->
  fit_init toward0 h {| fm_om := om; fm_len := List.length es |} cons o mc absolute args kw = Ok f ->
  fit_init toward0 h {| fm_om := om; fm_len := List.length es |} cons o mc absolute args' kw' = Ok f' ->
  same_points pi G G' m us (the_data om cons args kw) (the_sigma om cons args kw) (the_data om cons args' kw') (the_sigma om cons args' kw') ->
  inverts inv -> List.length x = nfree h ps -> (forall p, In p ps -> p_fixed (h p) = false) -> ft_absolute f' = ft_absolute f ->
  (forall popt, pack_output h ps x = Ok popt -> defined_around G es sol (the_data om cons args kw) (reported ps popt)) ->
  exists popt cov cov', fit_execute inv h om f x = Ok (popt, cov) /\ fit_execute inv h om f' x = Ok (popt, cov') /\ scaled_matrix (List.length ps) 1 cov cov'.
Proof.
  intros inv simp ord1 ord2 es m sol toward0 h cons us o mc absolute args kw args' kw' f f' G G' pi x om ps
    Hsimp Ho2 Hm Hsol Hps HH Hoc (Hg & Hkw & HG & _ & Hsc) (_ & Hkw' & HG' & _ & Hsc') Hnb Hnb' Hf Hf' Hsame Hinv Hl Hfree Habs Hdef. fold om in HG, HG', Hg.
  set (Y := the_data om cons args kw) in *. set (S := the_sigma om cons args kw) in *. set (Y' := the_data om cons args' kw') in *. set (S' := the_sigma om cons args' kw') in *.
  destruct (C69_covariance inv simp ord1 ord2 es m sol toward0 h cons o mc absolute args kw f G x Hsimp Ho2 Hm Hsol Hps HH Hg Hkw HG Hsc Hnb Hoc Hf Hinv Hl) as (popt & cov & H & K & Hex & Hpk & _ & _ & Hrule & Hent).
  destruct (C69_covariance inv simp ord1 ord2 es m sol toward0 h cons o mc absolute args' kw' f' G' x Hsimp Ho2 Hm Hsol Hps HH Hg Hkw' HG' Hsc' Hnb' Hoc Hf' Hinv Hl) as (popt' & cov' & H' & K' & Hex' & Hpk' & _ & _ & Hrule' & Hent').
  fold om in Hex, Hex', Hrule, Hrule', Hent, Hent'. fold ps in Hpk, Hpk', Hrule, Hrule', Hent, Hent'. fold Y in Hrule, Hent. fold S in Hrule, Hent. fold Y' in Hrule', Hent'. fold S' in Hrule', Hent'.
  rewrite Hpk in Hpk'. injection Hpk' as <-. exists popt, cov, cov'. split; [exact Hex|]. split; [exact Hex'|].
  specialize (Hdef popt Hpk). set (theta := reported ps popt) in *.
  assert (Hdef' : defined_around G' es sol Y' theta).
  { destruct Hdef as (eps & He & Hd). exists eps. split; [exact He|]. intros th Hth. exact (defined_same ord1 es m sol us pi G G' Y S Y' S' Hm Hsol Hsame th (Hd th Hth)). }
  assert (Hat : defined_for G es sol Y theta) by (destruct Hdef as (eps & He & Hd); apply Hd; intros p; rewrite Rminus_eq_0, Rabs_R0; exact He).
  assert (Hat' : defined_for G' es sol Y' theta) by exact (defined_same ord1 es m sol us pi G G' Y S Y' S' Hm Hsol Hsame theta Hat).
  assert (Echi : chi2_for sol m Y' S' = chi2_for sol m Y S) by (extensionality th; exact (chi2_same ord1 es m sol us pi G G' Y S Y' S' Hm Hsol HG HG' Hsame th)).
  destruct (Hent Hfree) as (HHe & HKe). destruct (Hent' Hfree) as (HHe' & HKe'). specialize (HHe Hdef). specialize (HHe' Hdef'). specialize (HKe Hat). specialize (HKe' Hat'). destruct HHe as (_ & HHe). destruct HHe' as (_ & HHe'). destruct HKe as (_ & HKe). destruct HKe' as (_ & HKe').
  assert (Hnth : forall k, (k < List.length ps)%nat -> exists p, nth_error ps k = Some p) by (intros k Hk; destruct (nth_error ps k) eqn:E; [eauto|apply nth_error_None in E; lia]).
  rewrite Echi, Habs, (grid_size m us pi G G' Y S Y' S' Hsame) in Hrule'.
  refine (cov_same (List.length ps) (variance_scale (ft_absolute f) (chi2_for sol m Y S theta) (INR (List.length (indices G)) - INR (List.length ps))) H K H' K' cov cov' _ _ Hrule Hrule').
  - intros k l Hk Hkl. destruct (Hnth k Hk) as (p & Ep). destruct (Hnth l Hkl) as (q & Eq). specialize (HHe p q k l Ep Eq). specialize (HHe' p q k l Ep Eq). rewrite Echi in HHe'.
    apply is_derive_unique in HHe. apply is_derive_unique in HHe'. rewrite <- HHe, <- HHe'. reflexivity.
  - intros k l Hk Hkl. destruct (Hnth k Hk) as (p & Ep). destruct (Hnth l Hkl) as (q & Eq). destruct (HKe p q k l Ep Eq) as (Dp & Dq & HD & ->). destruct (HKe' p q k l Ep Eq) as (Dp' & Dq' & HD' & ->).
    apply Rsum_ext. intros v Hv. pose proof HG as (_ & HGd & _). pose proof HG' as (_ & HGd' & _). pose proof Hsame as (Hp & HY & HS).
    assert (Hsol' : forall i, In i (indices G') -> (fun th => sol (at_data Y' th i) v) = (fun th => sol (at_data Y th (pi i)) v)).
    { intros i Hi. extensionality th. apply (sol_same_point ord1 es m sol us pi G G' Y S Y' S' Hm Hsol Hsame th i v Hi). left. exact (ArrObj.dep_key ord1 es m m (ArrObj.built_self ord1 es m Hm) v Hv). }
    assert (HDD : forall i, In i (indices G') -> Dp' v i = Dp v (pi i) /\ Dq' v i = Dq v (pi i)).
    { intros i Hi. assert (Hpi := pi_in m us pi G G' Y S Y' S' Hsame i Hi). destruct (HD v (pi i) Hv Hpi) as (A1 & A2). destruct (HD' v i Hv Hi) as (B1 & B2). rewrite (Hsol' i Hi) in B1, B2.
      apply is_derive_unique in A1, A2, B1, B2. split; congruence. }
    destruct (Y' v) as [y'|] eqn:Ey'.
    + destruct (HGd' v y' Hv Ey') as (Es' & s' & Ess' & _). rewrite Ess', Es'.
      destruct (Y v) as [y|] eqn:Ey.
      * destruct (HGd v y Hv Ey) as (Es & s & Ess & _). rewrite Ess, Es.
        rewrite (Rsum_perm (map (fun i => Dp v i * Dq v i / elem s i ^ 2) (indices G)) (map (fun i => Dp v i * Dq v i / elem s i ^ 2) (map pi (indices G')))) by (apply Permutation_map, Permutation_sym; exact Hp).
        rewrite map_map. apply Rsum_ext. intros i Hi. destruct (HDD i Hi) as (-> & ->). specialize (HS v i Hv Hi). rewrite Ess, Ess' in HS. cbn in HS. injection HS as ->. reflexivity.
      * destruct (indices G') as [|i0 l0] eqn:Ei; [reflexivity|]. exfalso. assert (H0 : In i0 (indices G')) by (rewrite Ei; left; reflexivity).
        rewrite <- Ei in HY. specialize (HY v i0 (or_introl (in_or_app _ _ _ (or_intror Hv))) H0). rewrite Ey, Ey' in HY. discriminate HY.
    + destruct (Y v) as [y|] eqn:Ey; [|reflexivity]. destruct (HGd v y Hv Ey) as (Es & s & Ess & _). rewrite Ess, Es.
      destruct (indices G') as [|i0 l0] eqn:Ei; [cbn in Hp; apply Permutation_nil in Hp; rewrite Hp; reflexivity|].
      exfalso. assert (H0 : In i0 (indices G')) by (rewrite Ei; left; reflexivity).
      rewrite <- Ei in HY. specialize (HY v i0 (or_introl (in_or_app _ _ _ (or_intror Hv))) H0). rewrite Ey, Ey' in HY. discriminate HY.
Qed.
Print Assumptions C87_same_result.

(** Example: the setting of [C69_example] once more, with [x = [[3, 2, 1]]] and [z = [[46, 26, 14]]] instead of [x = [1, 2, 3]] and [z = [14, 26, 46]]:
    the points in the reverse order, in an array with two axes.  For any attributes of the parameters and any answer of scipy. *)
Definition px_row (a b c : R) : nd := {| shp := [3%nat; 1%nat]; val := fun i => match i with 0%nat :: _ => a | 1%nat :: _ => b | _ => c end |}.
Definition px_args : list datum := [DArr (px_row 3 2 1)].
Definition px_kw : dict string datum := [("z"%string, DSeq (px_row 46 26 14)); ("sigma_z"%string, DNum 2)].
Definition px_pi (i : list nat) : list nat := match i with k :: _ => [(2 - k)%nat] | [] => [] end.
Example C87_example : forall toward0 h c, c <> BasinHopping -> exists m f f', model_of oid aex_es m /\ means aex_es jex_sol /\ m_params m = [pa; pb] /\ has_jacobian (fun e => e) oid m /\ ArrSpec.has_hessian (fun e => e) oid m /\
    let om := om_of KModel (fun e => e) oid m in
    good_input (fun e => e) oid aex_es m [] [] [3%nat] eex_args eex_kw /\ good_input (fun e => e) oid aex_es m [] [] [3%nat; 1%nat] px_args px_kw /\
    no_bare_numbers om [] eex_args eex_kw /\ no_bare_numbers om [] px_args px_kw /\
    fit_init toward0 h {| fm_om := om; fm_len := List.length aex_es |} [] ODefault (MItem (MCls c)) None eex_args eex_kw = Ok f /\
    fit_init toward0 h {| fm_om := om; fm_len := List.length aex_es |} [] ODefault (MItem (MCls c)) None px_args px_kw = Ok f' /\ ft_absolute f' = ft_absolute f /\
    same_points px_pi [3%nat] [3%nat; 1%nat] m [] (the_data om [] eex_args eex_kw) (the_sigma om [] eex_args eex_kw) (the_data om [] px_args px_kw) (the_sigma om [] px_args px_kw) /\
    (forall theta, defined_around [3%nat] aex_es jex_sol (the_data om [] eex_args eex_kw) theta) /\
    (the_data om [] px_args px_kw vx = Some (px_row 3 2 1) /\ the_data om [] px_args px_kw vz = Some (px_row 46 26 14)).
Proof.
  intros toward0 h c Hc. destruct (ch_setting toward0 h) as (m & Hm & E1 & E2 & HJ & HH & Hg & Hk & Hb & Hsc & HG & Yx & Yz & Sz & Hmk). cbv zeta in *.
  assert (E3 : m_indep m = [vx]). { destruct Hm as (_ & _ & _ & _ & _ & _ & Hi). vm_compute in Hi. inversion Hi. reflexivity. }
  set (om := om_of KModel (fun e => e) oid m) in *.
  assert (Hff : exists f f', fit_init toward0 h {| fm_om := om; fm_len := List.length aex_es |} [] ODefault (MItem (MCls c)) None eex_args eex_kw = Ok f /\
    fit_init toward0 h {| fm_om := om; fm_len := List.length aex_es |} [] ODefault (MItem (MCls c)) None px_args px_kw = Ok f' /\ ft_absolute f' = ft_absolute f).
  { unfold om, om_of. rewrite E1, E2, E3. destruct c; try congruence; eexists _, _; (split; [reflexivity|]); (split; [reflexivity|]); reflexivity. }
  destruct Hff as (f & f' & Hf & Hf' & Habs).
  assert (Hdf : forall v, data_for om [] px_args px_kw v =
    data_for {| om_params := [pa; pb]; om_indep := [vx]; om_dep := [vz]; om_names := map sp_name (m_sig m); om_call := arr_call oid m; om_jac := None; om_hess := None |} [] px_args px_kw v).
  { intros v. unfold data_for, argument_names, om, om_of. cbn [om_indep om_dep]. rewrite E2, E3. reflexivity. }
  assert (Dx : data_for om [] px_args px_kw vx = DArr (px_row 3 2 1)) by (rewrite Hdf; reflexivity).
  assert (Dz : data_for om [] px_args px_kw vz = DSeq (px_row 46 26 14)) by (rewrite Hdf; reflexivity).
  assert (Ds : data_for om [] px_args px_kw (sigma_of vz) = DNum 2) by (rewrite Hdf; reflexivity).
  assert (Yx' : the_data om [] px_args px_kw vx = Some (px_row 3 2 1)) by (unfold the_data; rewrite Dx; reflexivity).
  assert (Yz' : the_data om [] px_args px_kw vz = Some (px_row 46 26 14)) by (unfold the_data; rewrite Dz; reflexivity).
  assert (Sz' : the_sigma om [] px_args px_kw vz = Some {| shp := [3%nat; 1%nat]; val := fun _ => 2 |}) by (unfold the_sigma; rewrite Dz, Ds; reflexivity).
  exists m, f, f'. split; [exact Hm|]. split; [exact aex_means|]. split; [exact E1|]. split; [exact HJ|]. split; [exact HH|]. fold om.
  split. { split; [exact Hg|]. split; [exact Hk|]. split; [exact HG|]. split; [intros u v []|exact Hsc]. }
  split. { split; [exact Hg|]. split; [apply nodupb_iff; reflexivity|]. fold om. split; [|split; [intros u v []|split; discriminate]].
    split. { split; [discriminate|]. split; [intros [H|[H|[]]]; discriminate|].
      rewrite E3. intros v [<-|[]]. rewrite Yx'. eexists. split; [reflexivity|]. split; [reflexivity|right; reflexivity]. }
    split. { rewrite E2. intros v y [<-|[]] Hy. rewrite Yz' in Hy. injection Hy as <-. split; [reflexivity|]. rewrite Sz'. eexists. split; [reflexivity|]. split; [reflexivity|]. intros i _. cbn. lra. }
    exists vz. rewrite E2, Yz'. split; [left; reflexivity|discriminate]. }
  split; [exact Hb|]. split. { intros v r Hv. cbn [om_indep om_dep om_of om] in Hv. rewrite E2, E3 in Hv. destruct Hv as [<-|[<-|[]]]; [rewrite Dx|rewrite Dz]; discriminate. }
  split; [exact Hf|]. split; [exact Hf'|]. split; [exact Habs|]. split.
  { assert (Hi : forall i, In i (indices [3%nat; 1%nat]) -> i = [0; 0]%nat \/ i = [1; 0]%nat \/ i = [2; 0]%nat) by (intros i [H|[H|[H|[]]]]; subst; auto).
    split. { change (Permutation [[2%nat]; [1%nat]; [0%nat]] [[0%nat]; [1%nat]; [2%nat]]). change [[2%nat]; [1%nat]; [0%nat]] with (rev [[0%nat]; [1%nat]; [2%nat]]). apply Permutation_sym, Permutation_rev. }
    split. { intros v i [Hv|(u & [] & _)] Hin. rewrite E2, E3 in Hv. destruct Hv as [<-|[<-|[]]]; [rewrite Yx, Yx'|rewrite Yz, Yz']; apply Hi in Hin; destruct Hin as [->|[->| ->]]; reflexivity. }
    intros v i Hv _. rewrite E2 in Hv. destruct Hv as [<-|[]]. rewrite Sz, Sz'. reflexivity. }
  split; [|split; assumption]. intros theta. exists 1. split; [lra|]. intros th _ i k e _ [Hq|[Hq|[]]]; inv Hq; cbn; auto.
Qed.
