(** * Prop_NumFit: C77, fitting models with Python callables as components. *)
From Coq Require Import Reals Lra Lia.
From Verif Require Import PyBase PyFacts Signature SignatureFacts Expr Model ModelSpec ModelFacts NumPy NumFacts NumModel NumSpec NumMain ArrModel Objective ObjSpec Minimizer MinSpec Fit FitSpec FitCov ArrSpec EndSpec GenSpec GenFit NumFitSpec NumFit FitExample Prop_Model Prop_NumModel.
Local Open Scope R_scope.
Local Open Scope string_scope.
Local Open Scope list_scope.

(** ** C77.  [Out theta] are the values of the components for the parameter values [theta], as arrays.  The problem handed
    to scipy: minimise half of the weighted sum of squares of the differences between the values of the dependent variables
    and the data, over the free parameters inside their bounds, starting from their values.  No function for the gradient is handed over. *)
Theorem C77_numerical_fit_problem : forall simp ord1 ord2 items user m toward0 h o mc absolute args kw f sh Out,
  let om := om_of KCallable simp ord2 m in
  let Y := the_data om [] args kw in
  let Sg := the_sigma om [] args kw in
  let ps := m_params m in
  numerical_model_of ord1 ord2 items user m ->
  good_names om [] -> NoDup (dkeys kw) -> data_matches om sh Y Sg ->
  objective_chosen o mc OLS -> m_indep m <> [] \/ (exists v vs, m_dep m = v :: vs /\ Y v <> None) -> suitable_class h ps mc ->
  fit_init toward0 h {| fm_om := om; fm_len := List.length items |} [] o mc absolute args kw = Ok f ->
  exists mn local, ft_min f = FMin mn local /\ chosen_class h om [] mc (mi_class mn) /\ ft_class f = OLS /\
    let pb := execute_problem h mn DNone DNone in
    pb_x0 pb = (match mi_class mn with DifferentialEvolution => None | _ => Some (map (fun p => p_value (h p)) (free_of_list h ps)) end) /\
    (forall x, List.length x = nfree h ps -> feasible pb x <-> allowed_for h ps (parameter_value h ps x)) /\
    (forall x, List.length x = nfree h ps -> let theta := parameter_value h ps x in
       components_are items user m Y sh theta (Out theta) ->
       obj_value OLS h om (ft_obj f) x [] = Ok (scalar (/ 2 * chi2_with (at_points (Out theta)) (m_dep m) Y Sg))) /\
    (forall w, pb_jac pb <> DFun w).
Proof.
  intros simp ord1 ord2 items user m toward0 h o mc absolute args kw f sh Out om Y Sg ps (Ho1 & Ho2 & Hp & Hm) Hg Hkw Hdm Hoc Hin Hsu Hf.
  pose proof (num_callable simp ord1 ord2 items user m Ho1 Hp Hm) as Hcal. fold om in Hcal.
  destruct (gchosen om (List.length items) toward0 h o mc absolute args kw f sh Hg Hkw Hf Hdm Hoc Hin) as (Hcl & Hmade & Hoi).
  destruct (gmin_made om (List.length items) toward0 h o mc absolute args kw f Hf Hsu) as (mn & local & Hmn & Hcc & Hini & Hnm & Hb).
  exists mn, local. split; [exact Hmn|]. split; [exact Hcc|]. split; [exact Hcl|]. cbv zeta. split; [|split; [|split]].
  - exact (gstart om h f mn Hini).
  - intros x Hl. exact (gfeasible om h f Hcal mn x Hini Hb Hl).
  - intros x Hl Hout. apply (gobj om (List.length items) toward0 h o mc absolute args kw f sh Hcal Hg Hkw Hf Hdm Hmade x _ Hl).
    apply (num_predicts simp ord1 ord2 items user m Ho1 Ho2 Hp Hm); [exact (proj1 Hdm)|exact Hout].
  - exact (gno_gradient om h f mn Hini eq_refl).
Qed.
Print Assumptions C77_numerical_fit_problem.

(** ** If scipy answers with a best vector of that problem, the reported values are the least squares fit. *)
Theorem C77_numerical_best_fit : forall simp ord1 ord2 items user m toward0 h o mc absolute args kw f sh Out mn local x popt,
  let om := om_of KCallable simp ord2 m in
  let Y := the_data om [] args kw in
  let Sg := the_sigma om [] args kw in
  let ps := m_params m in
  let chi2 := fun theta => chi2_with (at_points (Out theta)) (m_dep m) Y Sg in
  numerical_model_of ord1 ord2 items user m ->
  good_names om [] -> NoDup (dkeys kw) -> data_matches om sh Y Sg ->
  objective_chosen o mc OLS -> m_indep m <> [] \/ (exists v vs, m_dep m = v :: vs /\ Y v <> None) -> suitable_class h ps mc ->
  (forall theta, allowed_for h ps theta -> components_are items user m Y sh theta (Out theta)) ->
  fit_init toward0 h {| fm_om := om; fm_len := List.length items |} [] o mc absolute args kw = Ok f ->
  ft_min f = FMin mn local ->
  minimises (fun z => obj_value OLS h om (ft_obj f) z []) (execute_problem h mn DNone DNone) (nfree h ps) x ->
  pack_output h ps x = Ok popt ->
  let theta := reported ps popt in
  allowed_for h ps theta /\ forall theta', allowed_for h ps theta' -> chi2 theta <= chi2 theta'.
Proof.
  intros simp ord1 ord2 items user m toward0 h o mc absolute args kw f sh Out mn local x popt om Y Sg ps chi2 (Ho1 & Ho2 & Hp & Hm) Hg Hkw Hdm Hoc Hin Hsu Hout Hf Hmn Hmin Hpk.
  pose proof (num_callable simp ord1 ord2 items user m Ho1 Hp Hm) as Hcal. fold om in Hcal.
  destruct (gchosen om (List.length items) toward0 h o mc absolute args kw f sh Hg Hkw Hf Hdm Hoc Hin) as (Hcl & Hmade & Hoi).
  destruct (gmin_made om (List.length items) toward0 h o mc absolute args kw f Hf Hsu) as (mn' & local' & Hmn' & Hcc & Hini & Hnm & Hb).
  rewrite Hmn in Hmn'. injection Hmn' as <- <-.
  apply (gbest om (List.length items) toward0 h o mc absolute args kw f sh Hcal Hg Hkw Hf Hdm Hcl Hmade mn x popt (fun theta => at_points (Out theta)) Hini Hb); [|exact Hmin|exact Hpk].
  intros theta Hth. apply (num_predicts simp ord1 ord2 items user m Ho1 Ho2 Hp Hm); [exact (proj1 Hdm)|exact (Hout theta Hth)].
Qed.
Print Assumptions C77_numerical_best_fit.

(** ** The result reports exactly the vector scipy returned and has no covariance matrix. *)
Theorem C77_numerical_result : forall inv simp ord1 ord2 items user m toward0 h o mc absolute args kw f sh out x,
  let om := om_of KCallable simp ord2 m in
  let Y := the_data om [] args kw in
  let Sg := the_sigma om [] args kw in
  let ps := m_params m in
  numerical_model_of ord1 ord2 items user m ->
  good_names om [] -> NoDup (dkeys kw) -> data_matches om sh Y Sg -> no_bare_numbers om [] args kw ->
  objective_chosen o mc OLS -> m_indep m <> [] \/ (exists v vs, m_dep m = v :: vs /\ Y v <> None) ->
  fit_init toward0 h {| fm_om := om; fm_len := List.length items |} [] o mc absolute args kw = Ok f ->
  List.length x = nfree h ps -> components_are items user m Y sh (parameter_value h ps x) out ->
  exists popt, fit_execute inv h om f x = Ok (popt, None) /\ pack_output h ps x = Ok popt /\
    forall p, In p ps -> reported ps popt p = parameter_value h ps x p.
Proof.
  intros inv simp ord1 ord2 items user m toward0 h o mc absolute args kw f sh out x om Y Sg ps (Ho1 & Ho2 & Hp & Hm) Hg Hkw Hdm Hbare Hoc Hin Hf Hl Hout.
  pose proof (num_callable simp ord1 ord2 items user m Ho1 Hp Hm) as Hcal. fold om in Hcal.
  destruct (gchosen om (List.length items) toward0 h o mc absolute args kw f sh Hg Hkw Hf Hdm Hoc Hin) as (Hcl & Hmade & Hoi).
  assert (HP : predicts om Y sh (parameter_value h ps x) (at_points out)) by (apply (num_predicts simp ord1 ord2 items user m Ho1 Ho2 Hp Hm); [exact (proj1 Hdm)|exact Hout]).
  destruct (gno_covariance om (List.length items) toward0 h o mc absolute args kw f sh Hcal Hg Hkw Hf Hdm Hcl Hmade Hbare Hoi inv x _ eq_refl eq_refl Hl HP) as (popt & Hpk & Hex).
  exists popt. split; [exact Hex|]. split; [exact Hpk|]. intros p Hpp. exact (greported_is h ps (gnodup om Hcal) x popt p (gnames om Hcal) Hl Hpk Hpp).
Qed.
Print Assumptions C77_numerical_result.

(** ** An example: {y: lambda x, a: a*x, z: y + b} with mapping {y: {x, a}} and data for z at x = 1, 2, 3. *)
Definition nex_f (kw : dict string (res nd)) : res (res nd) :=
  x <- dlook kw "x" ;; a <- dlook kw "a" ;; if Nat.eqb (List.length kw) 2 then Ok (nd2 Rmult a x) else Raise TypeError.
Definition nex_items : dict sym (comp (V:=res nd)) := [(vz, CExpr (EAdd (ESym vy) (ESym pb))); (vy, CFun 0 nex_f)].
Definition nex_vec (a b c : R) : nd := {| shp := [3%nat]; val := fun i => match i with [O] => a | [1%nat] => b | _ => c end |}.
Definition nex_kw : dict string datum := [("z", DArr (nex_vec 7 9 11)); ("x", DArr (nex_vec 1 2 3))].
Definition nex_heap : heap := fun p => {| p_value := 1; p_min := Some 0; p_max := None; p_fixed := false |}.
Definition nd_of (r : res nd) : nd := match r with Ok a => a | Raise _ => scalar 0 end.
Definition nex_y (x : nd) (a : R) : nd := nd_of (nd2 Rmult (Ok (scalar a)) (Ok x)).
Definition nex_out (Y : sym -> option nd) (theta : sym -> R) (s : sym) : nd :=
  if eq_dec s vy then nex_y (nex_vec 1 2 3) (theta pa) else if eq_dec s vz then nd_of (nd2 Rplus (Ok (nex_y (nex_vec 1 2 3) (theta pa))) (Ok (scalar (theta pb))))
  else if is_par s then scalar (theta s) else match Y s with Some a => a | None => scalar 0 end.
Lemma nex_depends k s : depends nex_items nx_user k s -> (k = vy /\ (s = vx \/ s = pa)) \/ (k = vz /\ (s = vy \/ s = pb)).
Proof.
  unfold depends, nx_user. simpl. destruct (eq_dec k vy) as [->|Hk].
  - intros [<-|[<-|[]]]; auto.
  - intros (e & [H|[H|[]]] & Hm); [|discriminate]. injection H as <- <-. right. split; [reflexivity|].
    destruct Hm as [[<-|[<-|[]]]|(y & ps & [H|[H|[]]] & _)]; auto; discriminate.
Qed.
Lemma nex_proper : proper_numerical nex_items nx_user.
Proof.
  assert (Hs : forall s, nsymbol nex_items nx_user s -> s = vx \/ s = vy \/ s = vz \/ s = pa \/ s = pb).
  { intros s [[<-|[<-|[]]]|(k & Hk)]; auto. apply nex_depends in Hk as [(_ & [->| ->])|(_ & [->| ->])]; auto. }
  split.
  - apply nodupb_iff; vm_compute; reflexivity.
  - apply nodupb_iff; vm_compute; reflexivity.
  - intros k deps [H|[]]. injection H as <- <-. apply nodupb_iff; vm_compute; reflexivity.
  - intros k [<-|[]]. right. left. reflexivity.
  - intros k i f [H|[H|[]]]; [discriminate|]. apply (f_equal fst) in H. cbn [fst] in H. subst k. left. reflexivity.
  - intros k e deps s [H|[H|[]]] [H2|[]]; [|discriminate]. injection H as <- _. discriminate.
  - intros k H. apply nex_depends in H as [(-> & [H|H])|(-> & [H|H])]; discriminate.
  - intros k [<-|[<-|[]]]; reflexivity.
  - intros s t H1 H2. apply Hs in H1, H2.
    destruct H1 as [->|[->|[->|[->| ->]]]], H2 as [->|[->|[->|[->| ->]]]]; try reflexivity; discriminate.
Qed.
Lemma nex_components Y theta m : m_dep m = [vz] -> Y vx = Some (nex_vec 1 2 3) ->
  components_are nex_items nx_user m Y (fun _ => [3%nat]) theta (nex_out Y theta).
Proof.
  intros E2 Yx. split.
  - split; [|split].
    + intros k e [H|[H|[]]]; [|discriminate]. injection H as <- <-. reflexivity.
    + intros k i f kw [H|[H|[]]] Hnd Hkw; [discriminate|]. injection H as <- <- <-.
      assert (Dx : dget kw "x" = Some (Ok (nex_vec 1 2 3))) by (apply In_dget; [exact Hnd|]; apply Hkw; exists vx; split; [left; reflexivity|split; [reflexivity|unfold nex_out; cbn [eq_dec is_par]; change (Ok (nex_vec 1 2 3) = Ok (match Y vx with Some a => a | None => scalar 0 end)); rewrite Yx; reflexivity]]).
      assert (Da : dget kw "a" = Some (Ok (scalar (theta pa)))) by (apply In_dget; [exact Hnd|]; apply Hkw; exists pa; split; [right; left; reflexivity|split; reflexivity]).
      assert (Hl : List.length kw = 2%nat).
      { assert (HP : Permutation (dkeys kw) ["x"; "a"]).
        { apply NoDup_Permutation; [exact Hnd|apply nodupb_iff; reflexivity|]. intros n. split.
          - intros Hn. apply in_map_iff in Hn as ([n' v] & <- & Hin). apply Hkw in Hin as (s & Hs & -> & _). apply nex_depends in Hs as [(_ & [->| ->])|(Hc & _)]; [left; reflexivity|right; left; reflexivity|discriminate].
          - intros [<-|[<-|[]]]; apply dget_keys; [rewrite Dx|rewrite Da]; discriminate. }
        apply Permutation_length in HP. unfold dkeys in HP. rewrite map_length in HP. exact HP. }
      unfold nex_f. unfold dlook, of_opt. rewrite Dx, Da. cbn [bind]. rewrite Hl. reflexivity.
    + intros s Hs. unfold given_values, nex_out. destruct (eq_dec s vy) as [->|H1]; [exfalso; apply Hs; right; left; reflexivity|]. destruct (eq_dec s vz) as [->|H2]; [exfalso; apply Hs; left; reflexivity|].
      reflexivity.
  - intros v Hv. rewrite E2 in Hv. destruct Hv as [<-|[]]. reflexivity.
Qed.

Example C77_example : forall toward0, exists m f mn,
  let om := om_of KCallable (fun e => e) oid m in
  let Y := the_data om [] [] nex_kw in
  numerical_model_of oid oid nex_items nx_user m /\ m_params m = [pa; pb] /\ m_dep m = [vz] /\ m_inter m = [vy] /\ m_indep m = [vx] /\
  good_names om [] /\ NoDup (dkeys nex_kw) /\ no_bare_numbers om [] [] nex_kw /\ data_matches om (fun _ => [3%nat]) Y (the_sigma om [] [] nex_kw) /\
  (forall theta, components_are nex_items nx_user m Y (fun _ => [3%nat]) theta (nex_out Y theta)) /\
  fit_init toward0 nex_heap {| fm_om := om; fm_len := List.length nex_items |} [] ODefault MDefault None [] nex_kw = Ok f /\ ft_min f = FMin mn None /\
  minimises (fun z => obj_value OLS nex_heap om (ft_obj f) z []) (execute_problem nex_heap mn DNone DNone) (nfree nex_heap (m_params m)) [2; 5] /\
  pack_output nex_heap (m_params m) [2; 5] = Ok [2; 5].
Proof.
  intros toward0. destruct (init_numerical oid nex_items nx_user) as [m|e] eqn:Hi; [|vm_compute in Hi; discriminate].
  assert (E1 : m_params m = [pa; pb]) by (vm_compute in Hi; inversion Hi; reflexivity).
  assert (E2 : m_dep m = [vz]) by (vm_compute in Hi; inversion Hi; reflexivity).
  assert (E3 : m_indep m = [vx]) by (vm_compute in Hi; inversion Hi; reflexivity).
  assert (E4 : m_inter m = [vy]) by (vm_compute in Hi; inversion Hi; reflexivity).
  assert (Hm : numerical_model_of oid oid nex_items nx_user m) by (split; [exact oid_ok|split; [exact oid_ok|split; [exact nex_proper|exact Hi]]]).
  clear Hi.
  assert (Hf : exists f mn, fit_init toward0 nex_heap {| fm_om := om_of KCallable (fun e => e) oid m; fm_len := List.length nex_items |} [] ODefault MDefault None [] nex_kw = Ok f /\ ft_min f = FMin mn None).
  { unfold om_of. rewrite E1, E2, E3. eexists _, _. split; [reflexivity|reflexivity]. }
  destruct Hf as (f & mn & Hf & Hmn). exists m, f, mn. cbv zeta.
  assert (Hdf : forall v, data_for (om_of KCallable (fun e => e) oid m) [] [] nex_kw v =
    data_for {| om_params := [pa; pb]; om_indep := [vx]; om_dep := [vz]; om_names := map sp_name (m_sig m); om_call := arr_call oid m; om_jac := None; om_hess := None |} [] [] nex_kw v).
  { intros v. unfold data_for, argument_names, om_of. cbn [om_indep om_dep]. rewrite E2, E3. reflexivity. }
  assert (Dx : data_for (om_of KCallable (fun e => e) oid m) [] [] nex_kw vx = DArr (nex_vec 1 2 3)) by (rewrite Hdf; reflexivity).
  assert (Dz : data_for (om_of KCallable (fun e => e) oid m) [] [] nex_kw vz = DArr (nex_vec 7 9 11)) by (rewrite Hdf; reflexivity).
  assert (Ds : data_for (om_of KCallable (fun e => e) oid m) [] [] nex_kw (sigma_of vz) = DataNone) by (rewrite Hdf; reflexivity).
  assert (Yx : the_data (om_of KCallable (fun e => e) oid m) [] [] nex_kw vx = Some (nex_vec 1 2 3)) by (unfold the_data; rewrite Dx; reflexivity).
  assert (Yz : the_data (om_of KCallable (fun e => e) oid m) [] [] nex_kw vz = Some (nex_vec 7 9 11)) by (unfold the_data; rewrite Dz; reflexivity).
  assert (Sz : the_sigma (om_of KCallable (fun e => e) oid m) [] [] nex_kw vz = Some {| shp := [3%nat]; val := fun _ => 1 |}) by (unfold the_sigma; rewrite Dz, Ds; reflexivity).
  clear Hdf.
  assert (Hg : good_names (om_of KCallable (fun e => e) oid m) []).
  { unfold good_names, argument_names, om_of. cbn [om_indep om_dep]. rewrite E2, E3. split; [apply nodupb_iff; vm_compute; reflexivity|]. split; [intros c []|apply nodupb_iff; vm_compute; reflexivity]. }
  assert (Hk : NoDup (dkeys nex_kw)) by (apply nodupb_iff; reflexivity).
  assert (HD : data_matches (om_of KCallable (fun e => e) oid m) (fun _ => [3%nat]) (the_data (om_of KCallable (fun e => e) oid m) [] [] nex_kw) (the_sigma (om_of KCallable (fun e => e) oid m) [] [] nex_kw)).
  { split; [|split]; cbn [om_of om_indep om_dep]; [rewrite E3|rewrite E2|rewrite E2].
    - intros v [<-|[]]. fold (om_of KCallable (fun e => e) oid m). rewrite Yx. discriminate.
    - intros v y [<-|[]] Hy. rewrite Yz in Hy. injection Hy as <-. split; [reflexivity|]. rewrite Sz. eexists. split; [reflexivity|]. split; [reflexivity|]. intros i _. unfold elem. cbn [val]. lra.
    - exists vz. split; [left; reflexivity|rewrite Yz; discriminate]. }
  assert (Hc : forall theta, components_are nex_items nx_user m (the_data (om_of KCallable (fun e => e) oid m) [] [] nex_kw) (fun _ => [3%nat]) theta (nex_out (the_data (om_of KCallable (fun e => e) oid m) [] [] nex_kw) theta)).
  { intros theta. apply nex_components; assumption. }
  split; [exact Hm|]. split; [exact E1|]. split; [exact E2|]. split; [exact E4|]. split; [exact E3|]. split; [exact Hg|]. split; [exact Hk|]. split.
  { intros v r Hv. cbn [om_indep om_dep om_of] in Hv. rewrite E2, E3 in Hv. destruct Hv as [<-|[<-|[]]]; [rewrite Dx|rewrite Dz]; discriminate. }
  split; [exact HD|]. split; [exact Hc|]. split; [exact Hf|]. split; [exact Hmn|]. split; [|rewrite E1; reflexivity].
  assert (Hoc : objective_chosen ODefault MDefault OLS) by (split; [left; reflexivity|discriminate]).
  assert (Hne : m_indep m <> [] \/ (exists v vs, m_dep m = v :: vs /\ the_data (om_of KCallable (fun e => e) oid m) [] [] nex_kw v <> None)) by (left; rewrite E3; discriminate).
  destruct (C77_numerical_fit_problem (fun e => e) oid oid nex_items nx_user m toward0 nex_heap ODefault MDefault None [] nex_kw f (fun _ => [3%nat])
    (nex_out (the_data (om_of KCallable (fun e => e) oid m) [] [] nex_kw)) Hm Hg Hk HD Hoc Hne (or_introl eq_refl) Hf) as (mn' & local & Hmn' & _ & _ & _ & Hb & Hv & _).
  rewrite Hmn in Hmn'. injection Hmn' as <- <-.
  assert (Hl : List.length [2; 5] = nfree nex_heap (m_params m)) by (rewrite E1; reflexivity).
  assert (Hpa : parameter_value nex_heap (m_params m) [2; 5] pa = 2) by (rewrite E1; reflexivity). assert (Hpb : parameter_value nex_heap (m_params m) [2; 5] pb = 5) by (rewrite E1; reflexivity).
  split; [exact Hl|]. split.
  { apply Hb; [exact Hl|]. intros p Hpp. rewrite E1 in Hpp. destruct Hpp as [<-|[<-|[]]]; change (p_fixed (nex_heap _)) with false; cbv iota; [rewrite Hpa|rewrite Hpb]; (split; cbn; [intros l Hq; injection Hq as <-; lra|discriminate]). }
  intros x' r r' Hl' _ Hr Hr'. rewrite (Hv [2; 5] Hl (Hc _)) in Hr. rewrite (Hv x' Hl' (Hc _)) in Hr'. injection Hr as <-. injection Hr' as <-. rewrite !elem_scalar.
  match goal with |- / 2 * ?A <= / 2 * ?B => assert (HA : A = 0); [|assert (HB : 0 <= B); [|rewrite HA; lra]] end.
  - unfold chi2_with. rewrite E2. cbn [map Rsum fold_right]. rewrite Yz, Sz. change (indices (shp (nex_vec 7 9 11))) with [[0%nat]; [1%nat]; [2%nat]]. cbn [map Rsum fold_right].
    assert (Hz : forall i, (i < 3)%nat -> at_points (nex_out (the_data (om_of KCallable (fun e => e) oid m) [] [] nex_kw) (parameter_value nex_heap (m_params m) [2; 5])) vz [i] = 2 * val (nex_vec 1 2 3) [i] + 5).
    { intros i Hi3. unfold at_points, nex_out. destruct (eq_dec vz vy) as [c|_]; [discriminate|]. destruct (eq_dec vz vz) as [_|c]; [|contradiction]. rewrite Hpa, Hpb.
      destruct i as [|[|[|i]]]; [| | |exfalso; lia]; reflexivity. }
    rewrite !Hz by lia. unfold elem. cbn [shp val nex_vec NumPy.bidx List.length]. field.
  - unfold chi2_with. assert (H : forall (A : Type) (g : A -> R) l, (forall x, 0 <= g x) -> 0 <= Rsum (map g l)).
    { intros A g l Hg'. induction l as [|x l IH]; cbn; [lra|]. specialize (Hg' x). lra. }
    apply H. intros v. destruct (the_data _ _ _ _ v); [|lra]. destruct (the_sigma _ _ _ _ v); [|lra]. apply H. intros i. apply pow2_ge_0.
Qed.
