(** * Property C92: the names of variables and parameters do not matter. *)
From Coq Require Import Reals Lra Lia Permutation.
From Coquelicot Require Import Coquelicot.
From Verif Require Import PyBase PyFacts Signature SignatureFacts Expr Model ModelSpec ExprR Jacobian JacAnalysis NumPy NumFacts Objective ObjSpec Minimizer MinSpec MinFacts MinLemmas Fit FitSpec FitMain FitExample Cast ArrModel ArrSpec ConModel EndSpec EndMain Decide Prop_Model Prop_Jacobian Prop_ArrModel Prop_End Prop_Chain PointsSpec PointsMain SameSpec SameMain Prop_Same RenameSpec RenameMain.
From Verif Require GenFit.
Local Open Scope R_scope.

Lemma params_used ord1 es m us : model_of ord1 es m -> (forall u p, In u us -> mentions (uc_left u) p \/ mentions (uc_right u) p -> is_par p = true -> In p (m_params m)) ->
  forall s, used es us s -> is_par s = true -> In s (m_params m).
Proof.
  intros Hm Hu s [Hs|(u & Hin & Hs)] Hp; [|exact (Hu u s Hin Hs Hp)].
  pose proof Hm as (H1 & Hd & _ & _ & (Hpl & _) & _ & H2).
  assert (D1 : is_dict (comps (V:=res nd) es)) by (unfold is_dict; rewrite ArrObj.dkeys_comps; exact Hd).
  assert (Hk : ~ In s (dkeys es)) by (intros Hk; destruct (Hpl s ltac:(rewrite ArrObj.dkeys_comps; exact Hk)) as (n & ->); discriminate Hp).
  apply (proj1 (proj2 (C03_classification _ ord1 _ m H1 D1 H2))). split.
  - destruct Hs as [Hs|(k & e & Hk1 & Hs)]; [left; rewrite (ArrObj.dkeys_comps (V:=R)) in Hs; rewrite (ArrObj.dkeys_comps (V:=res nd)); exact Hs|]. right. exists k, e. split; [|exact Hs]. apply in_comps_R in Hk1. apply in_map_iff. exists (k, e). auto.
  - split; [exact Hp|]. intros t (e & He & _). exfalso. apply Hk. rewrite <- (ArrObj.dkeys_comps (V:=res nd)). apply in_map_iff. exists (s, CExpr e). auto.
Qed.

(** ** C92.  A Fit of a model, and a Fit of the model with other names for its variables and parameters (to the same data and with the same attributes of the parameters, under the new names):
    every vector has a namesake, a vector is best for one problem if and only if its namesake is best for the other, and both start at the same values. *)
Theorem C92_same_fit : forall simp sub mulm1 ord1 ord1' ord2 fv fp es es' m m' sol sol' us us' toward0 h h' cons cons' o mc mc' absolute absolute' args kw args' kw' f f' G,
  let rho := new_name fv fp in
  let om := om_of KModel simp ord2 m in
  let om' := om_of KModel simp ord2 m' in
  let ps := m_params m in
  let ps' := m_params m' in
  simp_ok simp -> sympy_arithmetic sub mulm1 -> set_order ord2 -> objective_chosen o mc OLS -> objective_chosen o mc' OLS ->
  model_of ord1 es m -> means es sol -> ps <> [] -> has_jacobian simp ord2 m -> good_constraints es us -> init_constraints KModel simp sub mulm1 ord2 m us = Ok cons -> suitable h ps us mc ->
  model_of ord1' es' m' -> means es' sol' -> ps' <> [] -> has_jacobian simp ord2 m' -> good_constraints es' us' -> init_constraints KModel simp sub mulm1 ord2 m' us' = Ok cons' -> suitable h' ps' us' mc' ->
  good_input simp ord2 es m us cons G args kw -> good_input simp ord2 es' m' us' cons' G args' kw' ->
  fit_init toward0 h {| fm_om := om; fm_len := List.length es |} cons o mc absolute args kw = Ok f ->
  fit_init toward0 h' {| fm_om := om'; fm_len := List.length es' |} cons' o mc' absolute' args' kw' = Ok f' ->
  good_naming rho es us -> renamed_model rho es es' -> Forall2 (renamed_con rho) us us' ->
  renamed_data rho es us (the_data om cons args kw) (the_sigma om cons args kw) (the_data om' cons' args' kw') (the_sigma om' cons' args' kw') ->
  renamed_parameters rho ps h h' ->
  (forall u p, In u us -> mentions (uc_left u) p \/ mentions (uc_right u) p -> is_par p = true -> In p ps) ->
  exists mn local mn' local', ft_min f = FMin mn local /\ ft_min f' = FMin mn' local' /\ nfree h' ps' = nfree h ps /\
    (forall x, List.length x = nfree h ps -> exists x', List.length x' = nfree h' ps' /\ same_values rho h h' ps ps' x x') /\
    (forall x0 x0', pb_x0 (execute_problem h mn DNone DNone) = Some x0 -> pb_x0 (execute_problem h' mn' DNone DNone) = Some x0' -> same_values rho h h' ps ps' x0 x0') /\
    forall x x', List.length x = nfree h ps -> List.length x' = nfree h' ps' -> same_values rho h h' ps ps' x x' ->
      obj_value OLS h' om' (ft_obj f') x' [] = obj_value OLS h om (ft_obj f) x [] /\
      (minimises (fun z => obj_value OLS h' om' (ft_obj f') z []) (execute_problem h' mn' DNone DNone) (nfree h' ps') x' <->
       minimises (fun z => obj_value OLS h om (ft_obj f) z []) (execute_problem h mn DNone DNone) (nfree h ps) x).
Proof.
  intros simp sub mulm1 ord1 ord1' ord2 fv fp es es' m m' sol sol' us us' toward0 h h' cons cons' o mc mc' absolute absolute' args kw args' kw' f f' G rho om om' ps ps'
    Hsimp Har Ho2 Hoc Hoc' Hm Hsol Hps HJ Hgc Hic Hsu Hm' Hsol' Hps' HJ' Hgc' Hic' Hsu' (Hg & Hkw & HG & Hcg & Hsc) (Hg' & Hkw' & HG' & Hcg' & Hsc') Hf Hf' Hi Hr Hus HD Hh Hup.
  fold om in HG, Hcg, Hg. fold om' in HG', Hcg', Hg'.
  assert (Hpar : forall s, is_par (rho s) = is_par s) by (intros s; apply new_par).
  pose proof (params_used ord1 es m us Hm Hup) as Hup'.
  destruct (C69_fit_problem simp sub mulm1 ord1 ord2 es m sol us toward0 h cons o mc absolute args kw f G Hsimp Har Ho2 Hm Hsol Hps HJ Hgc Hic Hg Hkw HG Hcg Hsc Hoc Hsu Hf) as (mn & local & Hmn & _ & _ & Hx0 & Hfe & Hv & _).
  destruct (C69_fit_problem simp sub mulm1 ord1' ord2 es' m' sol' us' toward0 h' cons' o mc' absolute' args' kw' f' G Hsimp Har Ho2 Hm' Hsol' Hps' HJ' Hgc' Hic' Hg' Hkw' HG' Hcg' Hsc' Hoc' Hsu' Hf') as (mn' & local' & Hmn' & _ & _ & Hx0' & Hfe' & Hv' & _).
  fold om ps in Hfe, Hv, Hx0. fold om' ps' in Hfe', Hv', Hx0'.
  assert (Hnf : nfree h' ps' = nfree h ps) by exact (nfree_new ord1 ord1' es es' m m' us rho Hm Hm' Hr Hi Hpar h h' Hh).
  assert (Hns : forall x, List.length x = nfree h ps -> exists x', List.length x' = nfree h' ps' /\ same_values rho h h' ps ps' x x')
    by exact (namesake ord1 ord1' es es' m m' us rho Hm Hm' Hr Hi Hpar h h' Hh).
  exists mn, local, mn', local'. split; [exact Hmn|]. split; [exact Hmn'|]. split; [exact Hnf|]. split; [exact Hns|].
  destruct (nodup_params ord1 ord1' es es' m m' Hm Hm') as (N1 & N2). fold ps in N1. fold ps' in N2.
  split.
  { intros x0 x0' E E'. rewrite Hx0 in E. rewrite Hx0' in E'.
    assert (Ex : x0 = map (fun p => p_value (h p)) (free_of_list h ps)) by (destruct (mi_class mn); congruence).
    assert (Ex' : x0' = map (fun p => p_value (h' p)) (free_of_list h' ps')) by (destruct (mi_class mn'); congruence).
    assert (Hval : forall hh qs q, NoDup qs -> In q qs -> parameter_value hh qs (map (fun p => p_value (hh p)) (free_of_list hh qs)) q = p_value (hh q)).
    { intros hh qs q Hn Hq. destruct (p_fixed (hh q)) eqn:Ef; [unfold parameter_value; rewrite Ef; reflexivity|].
      destruct (GenFit.gpv_free hh qs Hn (map (fun p => p_value (hh p)) (free_of_list hh qs)) q Hq Ef ltac:(apply map_length)) as (i & Hni & _ & ->).
      apply nth_error_nth. apply (map_nth_error (fun p => p_value (hh p))). exact Hni. }
    intros p Hp. rewrite Ex, Ex'. rewrite (Hval h ps p N1 Hp). rewrite (Hval h' ps' (rho p) N2); [rewrite (Hh p Hp); reflexivity|].
    apply (par_new ord1 ord1' es es' m m' us rho Hm Hm' Hr Hi Hpar). eauto. }
  assert (Hfeq : forall x x', List.length x = nfree h ps -> List.length x' = nfree h' ps' -> same_values rho h h' ps ps' x x' ->
    (feasible (execute_problem h' mn' DNone DNone) x' <-> feasible (execute_problem h mn DNone DNone) x)).
  { intros x x' Hx Hx' Hs. rewrite (Hfe x Hx), (Hfe' x' Hx').
    rewrite (allowed_new ord1 ord1' es es' m m' us rho Hm Hm' Hr Hi Hpar h h' Hh _ _ Hs).
    rewrite (constraints_new ord1 es es' m sol sol' us us' rho Hm Hsol Hsol' Hr Hi Hpar G _ _ _ _ HD Hup' Hus _ _ Hs). reflexivity. }
  assert (Hveq : forall x x', List.length x = nfree h ps -> List.length x' = nfree h' ps' -> same_values rho h h' ps ps' x x' ->
    obj_value OLS h' om' (ft_obj f') x' [] = obj_value OLS h om (ft_obj f) x []).
  { intros x x' Hx Hx' Hs. rewrite (Hv x Hx), (Hv' x' Hx').
    rewrite (chi2_new ord1 ord1' es es' m m' sol sol' us rho Hm Hm' Hsol Hsol' Hr Hi Hpar _ _ _ _ HD Hup' _ _ Hs). reflexivity. }
  (* and back *)
  assert (Hns' : forall x', List.length x' = nfree h' ps' -> exists x, List.length x = nfree h ps /\ same_values rho h h' ps ps' x x').
  { intros x' Hx'. exists (map (fun p => parameter_value h' ps' x' (rho p)) (free_of_list h ps)). split; [apply map_length|]. intros p Hp.
    destruct (p_fixed (h p)) eqn:Ef; [unfold parameter_value; rewrite (Hh p Hp), Ef; reflexivity|].
    destruct (GenFit.gpv_free h ps N1 (map (fun p => parameter_value h' ps' x' (rho p)) (free_of_list h ps)) p Hp Ef ltac:(apply map_length)) as (i & Hni & _ & ->).
    symmetry. apply nth_error_nth. apply (map_nth_error (fun p => parameter_value h' ps' x' (rho p))). exact Hni. }
  intros x x' Hx Hx' Hs. split; [exact (Hveq x x' Hx Hx' Hs)|].
  unfold minimises. split; intros (_ & Hxf & Hb).
  - split; [exact Hx|]. split; [apply (Hfeq x x' Hx Hx' Hs); exact Hxf|]. intros z r r' Hz Hzf Hr1 Hr2.
    destruct (Hns z Hz) as (z' & Hz' & Hzs). apply (Hb z' r r' Hz'); [apply (Hfeq z z' Hz Hz' Hzs); exact Hzf| |]; [rewrite (Hveq x x' Hx Hx' Hs); exact Hr1|rewrite (Hveq z z' Hz Hz' Hzs); exact Hr2].
  - split; [exact Hx'|]. split; [apply (Hfeq x x' Hx Hx' Hs); exact Hxf|]. intros z' r r' Hz' Hzf Hr1 Hr2.
    destruct (Hns' z' Hz') as (z & Hz & Hzs). apply (Hb z r r' Hz); [apply (Hfeq z z' Hz Hz' Hzs); exact Hzf| |]; [rewrite <- (Hveq x x' Hx Hx' Hs); exact Hr1|rewrite <- (Hveq z z' Hz Hz' Hzs); exact Hr2].
Qed.
Print Assumptions C92_same_fit.

(** The values reported for such answers are the same for a parameter and its namesake. *)
Theorem C92_same_report : forall ord1 ord1' fv fp es es' m m' us h h' x x' popt popt',
  let rho := new_name fv fp in
  let ps := m_params m in
  let ps' := m_params m' in
  model_of ord1 es m -> model_of ord1' es' m' -> good_naming rho es us -> renamed_model rho es es' ->
  List.length x = nfree h ps -> List.length x' = nfree h' ps' -> same_values rho h h' ps ps' x x' ->
  pack_output h ps x = Ok popt -> pack_output h' ps' x' = Ok popt' ->
  forall p, In p ps -> reported ps' popt' (rho p) = reported ps popt p.
Proof.
  intros ord1 ord1' fv fp es es' m m' us h h' x x' popt popt' rho ps ps' Hm Hm' Hi Hr Hx Hx' Hs Hpk Hpk' p Hp.
  assert (Hpar : forall s, is_par (rho s) = is_par s) by (intros s; apply new_par).
  destruct (nodup_params ord1 ord1' es es' m m' Hm Hm') as (N1 & N2). fold ps in N1. fold ps' in N2.
  assert (Hn : forall o e q, model_of o e q -> NoDup (map sname (m_params q))).
  { intros o0 e0 q Hq. pose proof (ArrObj.names_nodup o0 e0 q q (ArrObj.built_self o0 e0 q Hq)) as H. rewrite map_app in H. revert H. clear. induction (map sname (m_indep q)) as [|a l IH]; cbn; intros H; [exact H|]. apply IH. inversion H; assumption. }
  rewrite (GenFit.greported_is h ps N1 x popt p (Hn _ _ _ Hm) Hx Hpk Hp).
  rewrite (GenFit.greported_is h' ps' N2 x' popt' (rho p) (Hn _ _ _ Hm') Hx' Hpk'); [exact (Hs p Hp)|].
  apply (par_new ord1 ord1' es es' m m' us rho Hm Hm' Hr Hi Hpar). eauto.
Qed.
Print Assumptions C92_same_report.

(** The same model with its symbols replaced is such a model. *)
Lemma C92_replaced : forall fv fp es, (forall k e s, In (k, e) es -> mentions e s -> is_der s = false) ->
  renamed_model (new_name fv fp) es (map (fun ke => (new_name fv fp (fst ke), with_names fv fp (snd ke))) es).
Proof.
  intros fv fp es Hd. split.
  - intros k e H. exists (with_names fv fp e). split; [apply in_map_iff; exists (k, e); auto|]. apply with_names_renamed. intros s. exact (Hd k e s H).
  - intros k' e' H. apply in_map_iff in H as ((k, e) & E & H). injection E as <- <-. exists k, e. split; [exact H|]. split; [reflexivity|]. apply with_names_renamed. intros s. exact (Hd k e s H).
Qed.

(** ** Example: [{y: a*x, z: y**2 + a*b}] with [b] fixed, and the same with [x], [y], [z], [a], [b] called [t], [r], [q], [n], [m]: now the fixed parameter comes first, and [q] before [r]. *)
Definition rn_v (s : string) : string := if string_dec s "x" then "t"%string else if string_dec s "y" then "r"%string else if string_dec s "z" then "q"%string else s.
Definition rn_p (s : string) : string := if string_dec s "a" then "n"%string else if string_dec s "b" then "m"%string else s.
Definition rn_es : dict sym expr := map (fun ke => (new_name rn_v rn_p (fst ke), with_names rn_v rn_p (snd ke))) aex_es.
Definition rn_sol (inp : sym -> R) (s : sym) : R :=
  if eq_dec s (SVar "r") then inp (SPar "n") * inp (SVar "t")
  else if eq_dec s (SVar "q") then (inp (SPar "n") * inp (SVar "t")) * ((inp (SPar "n") * inp (SVar "t")) * 1) + inp (SPar "n") * inp (SPar "m") else inp s.
Definition rn_heap : heap := fun p => {| p_value := 5; p_min := Some 0; p_max := None; p_fixed := if eq_dec p (SPar "m") then true else false |}.
Definition rn_kw : dict string datum := [("q"%string, DSeq (aex_vec 14 26 46)); ("sigma_q"%string, DNum 2)].
Lemma rn_model : exists m, model_of oid rn_es m /\ means rn_es rn_sol /\ m_params m = [SPar "m"; SPar "n"] /\ m_dep m = [SVar "q"] /\ m_indep m = [SVar "t"] /\ has_jacobian (fun e => e) oid m.
Proof.
  destruct (init_model oid (comps (V:=res nd) rn_es)) as [m|e] eqn:Hi; [|vm_compute in Hi; discriminate]. exists m.
  split. { split; [exact oid_ok|]. split; [apply nodupb_iff; vm_compute; reflexivity|]. split; [decide_model|]. split; [decide_model|].
    split. { split; [intros k [<-|[<-|[]]]; eexists; reflexivity|]. intros k s (e & [Hq|[Hq|[]]] & Hs); injection Hq as <- <-; cbn in Hs; destruct Hs as [Hs|(y & ps & Hs & _)]; repeat (destruct Hs as [<-|Hs]; try reflexivity); try contradiction; repeat (destruct Hs as [Hs|Hs]; try discriminate); contradiction. }
    split; [|exact Hi]. intros k e [Hq|[Hq|[]]]; injection Hq as <- <-; cbn; repeat split; discriminate. }
  split. { intros inp. split; [intros k e [Hq|[Hq|[]]]; injection Hq as <- <-; cbn; reflexivity|]. intros s Hs. unfold rn_sol. destruct (eq_dec s (SVar "r")) as [->|]; [exfalso; apply Hs; left; reflexivity|]. destruct (eq_dec s (SVar "q")) as [->|]; [exfalso; apply Hs; right; left; reflexivity|reflexivity]. }
  vm_compute in Hi. inversion Hi; subst m. split; [reflexivity|]. split; [reflexivity|]. split; [reflexivity|]. eexists; split; [vm_compute; reflexivity|decide_model].
Qed.
Lemma rn_used s : used aex_es [] s -> In s [pa; pb; vx; vy; vz].
Proof.
  intros [[H|(k & e & [Hq|[Hq|[]]] & Hs)]|(u & [] & _)].
  - cbn in H. cbn. intuition.
  - injection Hq as <- <-. destruct Hs as [Hs|(y & ps & Hs & _)]; cbn in Hs |- *; repeat (destruct Hs as [Hs|Hs]; [try discriminate Hs; auto 8|]); contradiction.
  - injection Hq as <- <-. destruct Hs as [Hs|(y & ps & Hs & _)]; cbn in Hs |- *; repeat (destruct Hs as [Hs|Hs]; [try discriminate Hs; auto 8|]); contradiction.
Qed.
Example C92_example : forall toward0, exists m m' f f',
  let rho := new_name rn_v rn_p in
  let om := om_of KModel (fun e => e) oid m in
  let om' := om_of KModel (fun e => e) oid m' in
  model_of oid aex_es m /\ means aex_es jex_sol /\ m_params m = [pa; pb] /\ has_jacobian (fun e => e) oid m /\
  model_of oid rn_es m' /\ means rn_es rn_sol /\ m_params m' = [SPar "m"; SPar "n"] /\ has_jacobian (fun e => e) oid m' /\
  good_input (fun e => e) oid aex_es m [] [] [3%nat] eex_args eex_kw /\ good_input (fun e => e) oid rn_es m' [] [] [3%nat] eex_args rn_kw /\
  fit_init toward0 (eex_heap true) {| fm_om := om; fm_len := List.length aex_es |} [] ODefault MDefault None eex_args eex_kw = Ok f /\
  fit_init toward0 rn_heap {| fm_om := om'; fm_len := List.length rn_es |} [] ODefault (MItem (MCls LBFGSB)) None eex_args rn_kw = Ok f' /\
  good_naming rho aex_es [] /\ renamed_model rho aex_es rn_es /\
  renamed_data rho aex_es [] (the_data om [] eex_args eex_kw) (the_sigma om [] eex_args eex_kw) (the_data om' [] eex_args rn_kw) (the_sigma om' [] eex_args rn_kw) /\
  renamed_parameters rho (m_params m) (eex_heap true) rn_heap.
Proof.
  intros toward0. destruct sm_aex as (m & Hm & Hsol & E1 & E2 & E3 & HJ & _). destruct rn_model as (m' & Hm' & Hsol' & E1' & E2' & E3' & HJ').
  destruct (sm_input aex_es m E3 E2 (or_intror E1)) as (Hin & _ & Hf). destruct (Hf toward0 true (List.length aex_es) (or_intror eq_refl)) as (f & Hf1 & _).
  set (om' := om_of KModel (fun e => e) oid m').
  assert (Hdf' : forall v, data_for om' [] eex_args rn_kw v =
    data_for {| om_params := [SPar "m"; SPar "n"]; om_indep := [SVar "t"]; om_dep := [SVar "q"]; om_names := map sp_name (m_sig m'); om_call := arr_call oid m'; om_jac := None; om_hess := None |} [] eex_args rn_kw v).
  { intros v. unfold data_for, argument_names, om', om_of. cbn [om_indep om_dep]. rewrite E2', E3'. reflexivity. }
  assert (Hdf : forall v, data_for (om_of KModel (fun e => e) oid m) [] eex_args eex_kw v =
    data_for {| om_params := [pa; pb]; om_indep := [vx]; om_dep := [vz]; om_names := map sp_name (m_sig m); om_call := arr_call oid m; om_jac := None; om_hess := None |} [] eex_args eex_kw v).
  { intros v. unfold data_for, argument_names, om_of. cbn [om_indep om_dep]. rewrite E2, E3. reflexivity. }
  assert (Dx : data_for om' [] eex_args rn_kw (SVar "t") = DArr (aex_vec 1 2 3)) by (rewrite Hdf'; reflexivity).
  assert (Dz : data_for om' [] eex_args rn_kw (SVar "q") = DSeq (aex_vec 14 26 46)) by (rewrite Hdf'; reflexivity).
  assert (Ds : data_for om' [] eex_args rn_kw (sigma_of (SVar "q")) = DNum 2) by (rewrite Hdf'; reflexivity).
  assert (Yx : the_data om' [] eex_args rn_kw (SVar "t") = Some (aex_vec 1 2 3)) by (unfold the_data; rewrite Dx; reflexivity).
  assert (Yz : the_data om' [] eex_args rn_kw (SVar "q") = Some (aex_vec 14 26 46)) by (unfold the_data; rewrite Dz; reflexivity).
  assert (Sz : the_sigma om' [] eex_args rn_kw (SVar "q") = Some {| shp := [3%nat]; val := fun _ => 2 |}) by (unfold the_sigma; rewrite Dz, Ds; reflexivity).
  assert (Hf' : exists f', fit_init toward0 rn_heap {| fm_om := om'; fm_len := List.length rn_es |} [] ODefault (MItem (MCls LBFGSB)) None eex_args rn_kw = Ok f').
  { unfold om', om_of. rewrite E1', E2', E3'. eexists. reflexivity. }
  destruct Hf' as (f' & Hf1').
  exists m, m', f, f'. cbv zeta. fold om'. do 8 (split; [assumption|]). split; [exact Hin|]. split.
  { split. { unfold good_names, argument_names. fold om'. unfold om', om_of. cbn [om_indep om_dep]. rewrite E2', E3'. split; [apply nodupb_iff; vm_compute; reflexivity|]. split; [intros c []|apply nodupb_iff; vm_compute; reflexivity]. }
    split; [apply nodupb_iff; reflexivity|]. fold om'. split; [|split; [intros u v []|split; discriminate]].
    split. { split; [discriminate|]. split; [intros [H|[]]; discriminate|]. rewrite E3'. intros v [<-|[]]. rewrite Yx. eexists. split; [reflexivity|]. split; [reflexivity|right; reflexivity]. }
    split. { rewrite E2'. intros v y [<-|[]] Hy. rewrite Yz in Hy. injection Hy as <-. split; [reflexivity|]. rewrite Sz. eexists. split; [reflexivity|]. split; [reflexivity|]. intros i _. cbn. lra. }
    exists (SVar "q"). rewrite E2', Yz. split; [left; reflexivity|discriminate]. }
  split; [exact Hf1|]. split; [exact Hf1'|].
  split. { intros s t Hs Ht. apply rn_used in Hs, Ht. repeat (destruct Hs as [<-|Hs]); try contradiction; repeat (destruct Ht as [<-|Ht]); try contradiction; cbn; intros E; try reflexivity; discriminate E. }
  split. { apply C92_replaced. intros k e s [Hq|[Hq|[]]] Hs; injection Hq as <- <-; destruct Hs as [Hs|(y & ps & Hs & _)]; cbn in Hs; repeat (destruct Hs as [<-|Hs]; [reflexivity|]) || idtac; repeat (destruct Hs as [Hs|Hs]; [discriminate Hs|]); contradiction. }
  split. { intros v Hv Hp. apply rn_used in Hv. unfold the_sigma, the_data. rewrite !Hdf, !Hdf'. repeat (destruct Hv as [<-|Hv]); try discriminate Hp; try contradiction; split; reflexivity. }
  rewrite E1. intros p [<-|[<-|[]]]; reflexivity.
Qed.
