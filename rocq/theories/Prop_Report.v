(** * Prop_Report: C82, the printed report of a fit; C83, the printed form of a model. *)
From Coq Require Import Reals Lra Lia Permutation.
From Verif Require ArrObj.
From Verif Require Import PyBase PyFacts Signature SignatureFacts Expr Model ModelSpec ModelFacts ExprR Jacobian JacAnalysis NumPy NumFacts Objective ObjSpec ObjFacts Minimizer MinSpec Fit FitSpec FitExample Cast ArrModel ArrSpec ArrFacts ConModel EndSpec EndMain EndCon EndConJac Results ResultsSpec Report ReportSpec ReportFacts ReportMain ReportModel Decide Prop_Model Prop_Jacobian Prop_ArrModel Prop_End.
Local Open Scope R_scope.
Local Open Scope string_scope.
Local Open Scope list_scope.

(** ** C82.  The report of any fit (of a symbolic model, by a single minimizer), line by line: a table with one row per parameter, which shows its
    reported value and the square root of its variance; status, iterations, objective and minimizer; the goodness of fit
    qualifiers by name; and, if the minimizer takes constraints, for every constraint the user gave
    an expression that has to be zero / not negative for it to hold, and as the answer its value at the FIRST data point.
    A minimizer that does not take constraints reports none. *)
Theorem C82_report_lines : forall kc simp sub mulm1 ord1 ord2 es m sol us toward0 h cons o mc absolute args kw f mn local N inv x fv r pr status (output : dict string nat) objective minimizer,
  let om := om_of kc simp ord2 m in
  let ps := m_params m in
  let Y := the_data om cons args kw in
  sympy_arithmetic sub mulm1 -> set_order ord2 -> model_of ord1 es m -> means es sol ->
  good_constraints es us -> init_constraints kc simp sub mulm1 ord2 m us = Ok cons -> good_names om cons -> NoDup (dkeys kw) ->
  fit_init toward0 h {| fm_om := om; fm_len := List.length es |} cons o mc absolute args kw = Ok f ->
  inputs_on_grid [N] m Y -> constraints_on_grid [N] es us Y ->
  (mc = MDefault \/ exists c, mc = MItem (MCls c)) -> ft_min f = FMin mn local ->
  List.length x = nfree h ps -> fit_report inv h om f x fv = Ok r ->
  plain_printer pr -> one_line status -> one_line objective -> one_line minimizer -> (forall p, In p ps -> one_line (sname p)) ->
  (forall c, rp_cov r = Some c -> square (List.length ps) c) -> (forall k v, In (k, v) (rp_gof r) -> one_line (pr_nd pr v)) ->
  exists rcs s rows exprs,
    result_constraints kc simp sub mulm1 ord2 h m us (objective_data (ft_data f)) pr mn = Ok rcs /\
    str_results pr status (iterations output) objective minimizer ps r rcs = Ok s /\
    lines s = report_lines rows status (match dget output "nit" with Some n => string_of_nat n | None => "None" end) objective minimizer
                (map (fun kv => pad 22 (fst kv) ++ " " ++ pr_nd pr (snd kv))%string (sort_by fst (rp_gof r)))
                (if uses_constraints (mi_class mn)
                 then map (fun ue => asked pr (is_equation (fst ue)) (snd ue) (constraint_at sol Y (fst ue) (reported ps (rp_popt r)) [0%nat])) (combine us exprs)
                 else []) /\
    (uses_constraints (mi_class mn) = true -> Forall2 (equivalent sol) us exprs) /\ List.length rows = List.length ps /\
    forall k p, nth_error ps k = Some p -> nth_error rows k = Some (row_for pr (sname p) (reported ps (rp_popt r) p) (option_map (fun c => mat c k k) (rp_cov r))).
Proof.
  intros kc simp sub mulm1 ord1 ord2 es m sol us toward0 h cons o mc absolute args kw f mn local N inv x fv r pr status output objective minimizer.
  exact (report_of_fit kc simp sub mulm1 ord1 ord2 es m sol us toward0 h cons o mc absolute args kw f mn local N inv x fv r pr status (iterations output) objective minimizer).
Qed.
Print Assumptions C82_report_lines.

(** For a least squares fit of a [Model], whatever free parameter values [x] the minimizer comes back with, the report is made and its
    goodness of fit lines show chi squared, half of it (the objective value) and R squared of the reported parameter values. *)
Theorem C82_least_squares : forall simp sub mulm1 ord1 ord2 es m sol us toward0 h cons o mc absolute args kw f mn local N inv x pr status (output : dict string nat) objective minimizer,
  let om := om_of KModel simp ord2 m in
  let ps := m_params m in
  let Y := the_data om cons args kw in
  let S := the_sigma om cons args kw in
  simp_ok simp -> sympy_arithmetic sub mulm1 -> set_order ord2 -> model_of ord1 es m -> means es sol -> ps <> [] -> ArrSpec.has_hessian simp ord2 m ->
  good_constraints es us -> init_constraints KModel simp sub mulm1 ord2 m us = Ok cons -> good_names om cons -> NoDup (dkeys kw) ->
  data_on_grid [N] m Y S -> constraints_on_grid [N] es us Y -> no_shape_clash [N] m -> no_bare_numbers om cons args kw -> objective_chosen o mc OLS ->
  fit_init toward0 h {| fm_om := om; fm_len := List.length es |} cons o mc absolute args kw = Ok f ->
  (mc = MDefault \/ exists c, mc = MItem (MCls c)) -> ft_min f = FMin mn local ->
  inverts inv -> List.length x = nfree h ps ->
  plain_printer pr -> one_line status -> one_line objective -> one_line minimizer -> (forall p, In p ps -> one_line (sname p)) ->
  exists fv r rcs s rows exprs,
    obj_value OLS h om (ft_obj f) x [] = Ok fv /\ fit_report inv h om f x fv = Ok r /\
    pack_output h ps x = Ok (rp_popt r) /\ fit_execute inv h om f x = Ok (rp_popt r, rp_cov r) /\
    result_constraints KModel simp sub mulm1 ord2 h m us (objective_data (ft_data f)) pr mn = Ok rcs /\
    str_results pr status (iterations output) objective minimizer ps r rcs = Ok s /\
    let theta := reported ps (rp_popt r) in
    lines s = report_lines rows status (match dget output "nit" with Some n => string_of_nat n | None => "None" end) objective minimizer
                ["chi_squared            " ++ pr_num pr (chi2_for sol m Y S theta);
                 "objective_value        " ++ pr_num pr (/ 2 * chi2_for sol m Y S theta);
                 "r_squared              " ++ pr_num pr (r2_for sol m Y theta)]%string
                (if uses_constraints (mi_class mn)
                 then map (fun ue => asked pr (is_equation (fst ue)) (snd ue) (constraint_at sol Y (fst ue) theta [0%nat])) (combine us exprs)
                 else []) /\
    (uses_constraints (mi_class mn) = true -> Forall2 (equivalent sol) us exprs) /\ List.length rows = List.length ps /\
    forall k p, nth_error ps k = Some p -> nth_error rows k = Some (row_for pr (sname p) (theta p) (option_map (fun c => mat c k k) (rp_cov r))).
Proof.
  intros simp sub mulm1 ord1 ord2 es m sol us toward0 h cons o mc absolute args kw f mn local N inv x pr status output objective minimizer om ps Y Sg
    Hsimp Har Ho2 Hm Hsol Hne HH Hgc Hcons Hg Hkw HG Hcg Hsc Hbare Hoc Hf Hmc Hmin Hinv Hl Hpr Hs Ho Hmi Hpn.
  destruct (ls_report inv simp ord1 ord2 es m sol toward0 h cons o mc absolute args kw f N x Hsimp Ho2 Hm Hsol Hne HH Hg Hkw HG Hsc Hbare Hoc Hf Hinv Hl)
    as (fv & r & Hv & Hr & Hp & Hex & Hsq & a & b & c & Eg & Sa & Sb & Sc & Va & Vb & Vc).
  assert (Hna : pr_nd pr a = pr_num pr (val a [])) by (unfold pr_nd; rewrite Sa; reflexivity).
  assert (Hnb : pr_nd pr b = pr_num pr (val b [])) by (unfold pr_nd; rewrite Sb; reflexivity).
  assert (Hnc : pr_nd pr c = pr_num pr (val c [])) by (unfold pr_nd; rewrite Sc; reflexivity).
  assert (Hgof : forall k v, In (k, v) (rp_gof r) -> one_line (pr_nd pr v)).
  { intros k v Hin. rewrite Eg in Hin. destruct Hin as [E|[E|[E|[]]]]; injection E as _ <-; rewrite ?Hna, ?Hnb, ?Hnc; apply (proj1 (proj2 Hpr)). }
  destruct (report_of_fit KModel simp sub mulm1 ord1 ord2 es m sol us toward0 h cons o mc absolute args kw f mn local N inv x fv r pr status (iterations output) objective minimizer
    Har Ho2 Hm Hsol Hgc Hcons Hg Hkw Hf (proj1 HG) Hcg Hmc Hmin Hl Hr Hpr Hs Ho Hmi Hpn Hsq Hgof) as (rcs & s & rows & exprs & R1 & R2 & R3 & R4 & R5 & R6).
  exists fv, r, rcs, s, rows, exprs. split; [exact Hv|]. split; [exact Hr|]. split; [exact Hp|]. split; [exact Hex|]. split; [exact R1|]. split; [exact R2|]. cbv zeta.
  split; [|split; [exact R4|]; split; [exact R5|exact R6]].
  subst Y Sg ps om. rewrite <- Vc, <- Vb. assert (Ea : pr_num pr (val a []) = pr_num pr (/ 2 * val c [])) by (rewrite Va, Vc; reflexivity). rewrite <- Ea, <- Hna, <- Hnb, <- Hnc.
  rewrite R3. f_equal. rewrite Eg. clear. reflexivity.
Qed.
Print Assumptions C82_least_squares.

(** ** The fit of z = y^2 + a b, y = a x to the points (1, 14), (2, 26), (3, 46) with sigma 2, with the constraints b = 5 and y <= 5 *)
Definition rex_us : list user_con :=
  [{| uc_name := SVar "w1"; uc_rel := REq; uc_left := ESym pb; uc_right := ENum 5 |};
   {| uc_name := SVar "w2"; uc_rel := RLe; uc_left := ESym vy; uc_right := ENum 5 |}].
Lemma rex_setup : forall toward0,
  exists m cons f mn, model_of oid aex_es m /\ means aex_es jex_sol /\ sympy_arithmetic ESub ENeg /\ ArrSpec.has_hessian (fun e => e) oid m /\ m_params m = [pa; pb] /\ m_dep m = [vz] /\
    good_constraints aex_es rex_us /\ init_constraints KModel (fun e => e) ESub ENeg oid m rex_us = Ok cons /\
    let om := om_of KModel (fun e => e) oid m in
    let Y := the_data om cons eex_args eex_kw in
    let S := the_sigma om cons eex_args eex_kw in
    Y vx = Some (aex_vec 1 2 3) /\ Y vz = Some (aex_vec 14 26 46) /\ S vz = Some {| shp := [3%nat]; val := fun _ => 2 |} /\
    good_names om cons /\ NoDup (dkeys eex_kw) /\ no_bare_numbers om cons eex_args eex_kw /\ no_shape_clash [3%nat] m /\
    data_on_grid [3%nat] m Y S /\ constraints_on_grid [3%nat] aex_es rex_us Y /\
    fit_init toward0 (eex_heap false) {| fm_om := om; fm_len := List.length aex_es |} cons ODefault MDefault None eex_args eex_kw = Ok f /\
    ft_min f = FMin mn None /\ mi_class mn = SLSQP.
Proof.
  intros toward0.
  destruct (init_model oid (comps (V:=res nd) aex_es)) as [m|e] eqn:Hi; [|vm_compute in Hi; discriminate].
  assert (E1 : m_params m = [pa; pb]) by (vm_compute in Hi; inversion Hi; reflexivity).
  assert (E2 : m_dep m = [vz]) by (vm_compute in Hi; inversion Hi; reflexivity).
  assert (E3 : m_indep m = [vx]) by (vm_compute in Hi; inversion Hi; reflexivity).
  assert (Hm : model_of oid aex_es m).
  { split; [exact oid_ok|]. split; [apply nodupb_iff; vm_compute; reflexivity|]. split; [decide_model|]. split; [decide_model|]. split; [exact jex_plain|].
    split; [|exact Hi]. intros k e [Hq|[Hq|[]]]; inv Hq; cbn; repeat split; discriminate. }
  assert (HH : ArrSpec.has_hessian (fun e => e) oid m).
  { vm_compute in Hi. inversion Hi; subst m. eexists. split; [vm_compute; reflexivity|decide_model]. }
  destruct (as_constraint ESub ENeg (SVar "w1") oid (CRel REq (ESym pb) (ENum 5)) m) as [[c1 t1]|e] eqn:A1; [|vm_compute in Hi; inversion Hi; subst m; vm_compute in A1; discriminate].
  destruct (as_constraint ESub ENeg (SVar "w2") oid (CRel RLe (ESym vy) (ENum 5)) m) as [[c2 t2]|e] eqn:A2; [|vm_compute in Hi; inversion Hi; subst m; vm_compute in A2; discriminate].
  assert (F1 : t1 = REq /\ m_params c1 = [pa; pb] /\ m_dep c1 = [SVar "w1"] /\ m_indep c1 = []) by (vm_compute in Hi; inversion Hi; subst m; vm_compute in A1; inversion A1; auto).
  assert (F2 : t2 = RGe /\ m_params c2 = [pa; pb] /\ m_dep c2 = [SVar "w2"] /\ m_indep c2 = [vx]) by (vm_compute in Hi; inversion Hi; subst m; vm_compute in A2; inversion A2; auto).
  destruct F1 as (-> & F11 & F12 & F13). destruct F2 as (-> & F21 & F22 & F23). clear Hi.
  set (cons := [{| fc_rel := REq; fc_om := om_of KModel (fun e => e) oid c1 |}; {| fc_rel := RGe; fc_om := om_of KModel (fun e => e) oid c2 |}]).
  assert (Hic : init_constraints KModel (fun e => e) ESub ENeg oid m rex_us = Ok cons).
  { unfold init_constraints, rex_us. cbn [mapM bind uc_name uc_rel uc_left uc_right]. rewrite A1. cbn [bind]. rewrite A2. reflexivity. }
  assert (Hf : exists f mn, fit_init toward0 (eex_heap false) {| fm_om := om_of KModel (fun e => e) oid m; fm_len := List.length aex_es |} cons ODefault MDefault None eex_args eex_kw = Ok f /\
    ft_min f = FMin mn None /\ mi_class mn = SLSQP).
  { unfold cons, om_of. rewrite E1, E2, E3, F11, F12, F13, F21, F22, F23. eexists _, _; (split; [reflexivity|split; reflexivity]). }
  destruct Hf as (f & mn & Hf & Hmn & Hcl). exists m, cons, f, mn.
  split; [exact Hm|]. split; [exact aex_means|]. split; [exact eex_arith|]. split; [exact HH|]. split; [exact E1|]. split; [exact E2|].
  assert (Hdf : forall v, data_for (om_of KModel (fun e => e) oid m) cons eex_args eex_kw v =
    match given ["x"; "z"; "sigma_z"; "w1"; "sigma_w1"; "w2"; "sigma_w2"]%string eex_args eex_kw (sname v) with Some x => x | None => DataNone end).
  { intros v. unfold data_for, argument_names, cons, om_of. cbn [om_indep om_dep fc_om map]. rewrite E2, E3, F12, F13, F22, F23. reflexivity. }
  assert (Dx : data_for (om_of KModel (fun e => e) oid m) cons eex_args eex_kw vx = DArr (aex_vec 1 2 3)) by (rewrite Hdf; reflexivity).
  assert (Dz : data_for (om_of KModel (fun e => e) oid m) cons eex_args eex_kw vz = DSeq (aex_vec 14 26 46)) by (rewrite Hdf; reflexivity).
  assert (Ds : data_for (om_of KModel (fun e => e) oid m) cons eex_args eex_kw (sigma_of vz) = DNum 2) by (rewrite Hdf; reflexivity).
  assert (Yx : the_data (om_of KModel (fun e => e) oid m) cons eex_args eex_kw vx = Some (aex_vec 1 2 3)) by (unfold the_data; rewrite Dx; reflexivity).
  assert (Yz : the_data (om_of KModel (fun e => e) oid m) cons eex_args eex_kw vz = Some (aex_vec 14 26 46)) by (unfold the_data; rewrite Dz; reflexivity).
  assert (Sz : the_sigma (om_of KModel (fun e => e) oid m) cons eex_args eex_kw vz = Some {| shp := [3%nat]; val := fun _ => 2 |}) by (unfold the_sigma; rewrite Dz, Ds; reflexivity).
  clear Hdf.
  assert (Hg : good_names (om_of KModel (fun e => e) oid m) cons).
  { unfold good_names, argument_names, cons, om_of. cbn [om_indep om_dep fc_om map]. rewrite E2, E3, F12, F13, F22, F23.
    split; [apply nodupb_iff; vm_compute; reflexivity|]. split; [intros c [<-|[<-|[]]]; cbn [fc_om om_indep om_dep]; rewrite ?F12, ?F13, ?F22, ?F23; apply nodupb_iff; vm_compute; reflexivity|apply nodupb_iff; vm_compute; reflexivity]. }
  assert (HG : data_on_grid [3%nat] m (the_data (om_of KModel (fun e => e) oid m) cons eex_args eex_kw) (the_sigma (om_of KModel (fun e => e) oid m) cons eex_args eex_kw)).
  { split. { split; [discriminate|]. split; [intros [H|[]]; discriminate|].
      rewrite E3. intros v [<-|[]]. rewrite Yx. eexists. split; [reflexivity|]. split; [reflexivity|right; reflexivity]. }
    split. { rewrite E2. intros v y [<-|[]] Hy. rewrite Yz in Hy. injection Hy as <-. split; [reflexivity|]. rewrite Sz. eexists. split; [reflexivity|]. split; [reflexivity|]. intros i _. cbn. lra. }
    exists vz. rewrite E2, Yz. split; [left; reflexivity|discriminate]. }
  assert (Hgc : good_constraints aex_es rex_us).
  { intros u Hu. assert (Hn : constraint_name aex_es (uc_left u) (uc_right u) (uc_name u)).
    { destruct Hu as [<-|[<-|[]]]; cbn [uc_left uc_right uc_name];
        (split; [eexists; reflexivity|]; split; [decide_model|]; split; [decide_model|]; split; [decide_model|]; split; [decide_model|];
         intros s [Hs|Hs]; apply mentionsl_ok in Hs; cbn in Hs; intuition (subst; reflexivity)). }
    split; [exact Hn|]. destruct Hu as [<-|[<-|[]]]; cbn; auto. }
  assert (Hcg : constraints_on_grid [3%nat] aex_es rex_us (the_data (om_of KModel (fun e => e) oid m) cons eex_args eex_kw)).
  { intros u v [<-|[<-|[]]] Hv Hp Hnk; cbn [uc_left uc_right] in Hv; exfalso; rewrite !mentionsl_ok in Hv; cbn in Hv; intuition (subst; try discriminate);
      apply Hnk; left; reflexivity. }
  split; [exact Hgc|]. split; [exact Hic|]. cbv zeta. split; [exact Yx|]. split; [exact Yz|]. split; [exact Sz|]. split; [exact Hg|]. split; [apply nodupb_iff; reflexivity|]. split.
  { intros v r Hv. cbn [om_indep om_dep om_of] in Hv. rewrite E2, E3 in Hv. destruct Hv as [<-|[<-|[]]]; [rewrite Dx|rewrite Dz]; discriminate. }
  split; [split; discriminate|]. split; [exact HG|]. split; [exact Hcg|]. split; [exact Hf|]. split; [exact Hmn|exact Hcl].
Qed.

(** If the minimizer comes back with a = 2, b = 5 (which fits the points exactly), this is the report, however numbers and expressions are printed.
    The answer for y <= 5, that is 5 - y >= 0, is 3, the value for the first point, though y = 6 for the last point. *)
Lemma rex_report : forall toward0 inv pr, inverts inv -> plain_printer pr ->
  exists m cons f mn fv r rcs s e1 e2 sa sb,
    let om := om_of KModel (fun e => e) oid m in
    let Y := the_data om cons eex_args eex_kw in
    init_constraints KModel (fun e => e) ESub ENeg oid m rex_us = Ok cons /\
    fit_init toward0 (eex_heap false) {| fm_om := om; fm_len := List.length aex_es |} cons ODefault MDefault None eex_args eex_kw = Ok f /\
    ft_min f = FMin mn None /\ mi_class mn = SLSQP /\
    obj_value OLS (eex_heap false) om (ft_obj f) [2; 5] [] = Ok fv /\ fit_report inv (eex_heap false) om f [2; 5] fv = Ok r /\
    result_constraints KModel (fun e => e) ESub ENeg oid (eex_heap false) m rex_us (objective_data (ft_data f)) pr mn = Ok rcs /\
    str_results pr "done" (iterations [("nfev", 9%nat); ("nit", 7%nat)]) "least squares" "SLSQP" (m_params m) r rcs = Ok s /\
    lines s =
      [""; "Parameter Value        Standard Deviation";
       "a         " ++ pr_e pr 2 ++ " " ++ sa; "b         " ++ pr_e pr 5 ++ " " ++ sb;
       "Status message         done"; "Number of iterations   7"; "Objective              least squares"; "Minimizer              SLSQP";
       ""; "Goodness of fit qualifiers:"; "chi_squared            " ++ pr_num pr 0; "objective_value        " ++ pr_num pr 0; "r_squared              " ++ pr_num pr 1;
       ""; "Constraints:"; "--------------------";
       "Question: " ++ pr_expr pr e1 ++ " == 0?"; "Answer:   " ++ pr_num pr 0; "";
       "Question: " ++ pr_expr pr e2 ++ " >= 0?"; "Answer:   " ++ pr_num pr 3; ""; ""]%string /\
    (forall inp, eval Ralg (jex_sol inp) e1 = jex_sol inp pb - 5) /\ (forall inp, eval Ralg (jex_sol inp) e2 = 5 - jex_sol inp vy) /\
    ~ constraints_hold [3%nat] jex_sol rex_us Y (reported (m_params m) (rp_popt r)).
Proof.
  intros toward0 inv pr Hinv Hpr.
  destruct (rex_setup toward0) as (m & cons & f & mn & Hm & Hsol & Har & HH & E1 & E2 & Hgc & Hic & H). cbv zeta in H.
  destruct H as (Yx & Yz & Sz & Hg & Hkw & Hbare & Hsc & HG & Hcg & Hf & Hmn & Hcl).
  assert (Hl : List.length [2; 5] = nfree (eex_heap false) (m_params m)) by (rewrite E1; reflexivity).
  destruct (C82_least_squares (fun e => e) ESub ENeg oid oid aex_es m jex_sol rex_us toward0 (eex_heap false) cons ODefault MDefault None eex_args eex_kw f mn None 3%nat inv [2; 5] pr "done" [("nfev", 9%nat); ("nit", 7%nat)] "least squares" "SLSQP"
    simp_id_ok Har oid_ok Hm Hsol) as (fv & r & rcs & s & rows & exprs & R1 & R2 & R3 & R4 & R5 & R6 & R7 & R8 & R9 & R10);
    try assumption; try reflexivity.
  { rewrite E1. discriminate. }
  { split; [left; reflexivity|discriminate]. }
  { left. reflexivity. }
  { intros p Hp. rewrite E1 in Hp. destruct Hp as [<-|[<-|[]]]; reflexivity. }
  cbv zeta in R7, R10. set (Y := the_data (om_of KModel (fun e => e) oid m) cons eex_args eex_kw) in *. set (Sg := the_sigma (om_of KModel (fun e => e) oid m) cons eex_args eex_kw) in *.
  assert (Hp : rp_popt r = [2; 5]).
  { rewrite E1 in R3. assert (Hq : pack_output (eex_heap false) [pa; pb] [2; 5] = Ok [2; 5]) by reflexivity. rewrite Hq in R3. injection R3 as <-. reflexivity. }
  set (theta := reported (m_params m) (rp_popt r)) in *.
  assert (Ta : theta pa = 2) by (unfold theta; rewrite Hp, E1; reflexivity).
  assert (Tb : theta pb = 5) by (unfold theta; rewrite Hp, E1; reflexivity).
  assert (Hchi : chi2_for jex_sol m Y Sg theta = 0) by (apply eex_zero; assumption).
  assert (Sy : forall i, jex_sol (at_data Y theta i) vy = 2 * elem (aex_vec 1 2 3) i).
  { intros i. change (jex_sol (at_data Y theta i) vy) with (at_data Y theta i pa * at_data Y theta i vx). f_equal; [exact Ta|]. unfold at_data. cbn [is_par vx]. rewrite Yx. reflexivity. }
  assert (Sz' : forall i, jex_sol (at_data Y theta i) vz = (2 * elem (aex_vec 1 2 3) i) * ((2 * elem (aex_vec 1 2 3) i) * 1) + 2 * 5).
  { intros i. change (jex_sol (at_data Y theta i) vz) with (jex_sol (at_data Y theta i) vy * (jex_sol (at_data Y theta i) vy * 1) + at_data Y theta i pa * at_data Y theta i pb).
    rewrite Sy. assert (A2 : at_data Y theta i pa = 2) by exact Ta. assert (A3 : at_data Y theta i pb = 5) by exact Tb. rewrite A2, A3. reflexivity. }
  assert (Hr2 : r2_for jex_sol m Y theta = 1).
  { unfold r2_for. rewrite E2. cbn [map Rsum fold_right]. rewrite Yz.
    match goal with |- 1 - (?a + 0) / ?b = 1 => assert (Ha : a = 0); [|rewrite Ha; unfold Rdiv; rewrite Rplus_0_l, Rmult_0_l; apply Rminus_0_r] end.
    change (indices (shp (aex_vec 14 26 46))) with [[0%nat]; [1%nat]; [2%nat]]. cbn [map Rsum fold_right]. rewrite !Sz'.
    change (elem (aex_vec 1 2 3) [0%nat]) with 1. change (elem (aex_vec 1 2 3) [1%nat]) with 2. change (elem (aex_vec 1 2 3) [2%nat]) with 3.
    change (val (aex_vec 14 26 46) [0%nat]) with 14. change (val (aex_vec 14 26 46) [1%nat]) with 26. change (val (aex_vec 14 26 46) [2%nat]) with 46. ring. }
  rewrite Hchi, Hr2, Rmult_0_r in R7. rewrite Hcl in R7, R8. cbn [uses_constraints] in R7. specialize (R8 eq_refl).
  assert (HE : exists e1 e2, exprs = [e1; e2] /\ equivalent jex_sol {| uc_name := SVar "w1"; uc_rel := REq; uc_left := ESym pb; uc_right := ENum 5 |} e1 /\
    equivalent jex_sol {| uc_name := SVar "w2"; uc_rel := RLe; uc_left := ESym vy; uc_right := ENum 5 |} e2).
  { clear -R8. inversion R8 as [|u1 e1 us1 es1 Q1 R8' EA EB]; subst. inversion R8' as [|u2 e2 us2 es2 Q2 R8'' EA EB]; subst. inversion R8''; subst. eauto. }
  destruct HE as (e1 & e2 & -> & Q1 & Q2).
  unfold rex_us in R7. cbn [combine map fst snd] in R7.
  match type of R7 with context [constraint_at jex_sol Y ?u theta [0%nat]] => match type of R7 with context [asked pr (is_equation ?u2) e2 _] =>
    assert (V1 : constraint_at jex_sol Y u theta [0%nat] = 0) by (unfold constraint_at, constraint_value; cbn [uc_rel uc_left uc_right eval a_num Ralg]; change (jex_sol (at_data Y theta [0%nat]) pb) with (theta pb); rewrite Tb; lra);
    assert (V2 : constraint_at jex_sol Y u2 theta [0%nat] = 3) by (unfold constraint_at, constraint_value; cbn [uc_rel uc_left uc_right eval a_num Ralg]; rewrite Sy; change (elem (aex_vec 1 2 3) [0%nat]) with 1; lra) end end.
  rewrite V1, V2 in R7. rewrite E1 in R9, R10. destruct rows as [|w1 [|w2 [|? ?]]]; try discriminate.
  pose proof (R10 0%nat pa eq_refl) as W1. pose proof (R10 1%nat pb eq_refl) as W2. cbn [nth_error] in W1, W2. apply (f_equal (fun o => match o with Some x => x | None => ""end)) in W1, W2. subst w1 w2.
  rewrite Ta, Tb in R7. unfold row_for in R7.
  exists m, cons, f, mn, fv, r, rcs, s, e1, e2. eexists _, _. cbv zeta.
  split; [exact Hic|]. split; [exact Hf|]. split; [exact Hmn|]. split; [exact Hcl|]. split; [exact R1|]. split; [exact R2|]. split; [exact R5|]. split; [exact R6|].
  split; [exact R7|]. split; [intros inp; exact (Q1 inp)|]. split; [intros inp; exact (Q2 inp)|].
  intros Hc. pose proof (Hc _ [2%nat] (or_intror (or_introl eq_refl)) (or_intror (or_intror (or_introl eq_refl)))) as H. cbn [uc_rel uc_left uc_right holds eval a_num Ralg] in H. rewrite Sy in H.
  change (elem (aex_vec 1 2 3) [2%nat]) with 3 in H. lra.
Qed.
Example C82_example : forall toward0 inv pr, inverts inv -> plain_printer pr ->
  exists m cons f mn fv r rcs s e1 e2 sa sb,
    let om := om_of KModel (fun e => e) oid m in
    init_constraints KModel (fun e => e) ESub ENeg oid m rex_us = Ok cons /\
    fit_init toward0 (eex_heap false) {| fm_om := om; fm_len := List.length aex_es |} cons ODefault MDefault None eex_args eex_kw = Ok f /\
    ft_min f = FMin mn None /\
    obj_value OLS (eex_heap false) om (ft_obj f) [2; 5] [] = Ok fv /\ fit_report inv (eex_heap false) om f [2; 5] fv = Ok r /\
    result_constraints KModel (fun e => e) ESub ENeg oid (eex_heap false) m rex_us (objective_data (ft_data f)) pr mn = Ok rcs /\
    str_results pr "done" (iterations [("nfev", 9%nat); ("nit", 7%nat)]) "least squares" "SLSQP" (m_params m) r rcs = Ok s /\
    lines s =
      [""; "Parameter Value        Standard Deviation";
       "a         " ++ pr_e pr 2 ++ " " ++ sa; "b         " ++ pr_e pr 5 ++ " " ++ sb;
       "Status message         done"; "Number of iterations   7"; "Objective              least squares"; "Minimizer              SLSQP";
       ""; "Goodness of fit qualifiers:"; "chi_squared            " ++ pr_num pr 0; "objective_value        " ++ pr_num pr 0; "r_squared              " ++ pr_num pr 1;
       ""; "Constraints:"; "--------------------";
       "Question: " ++ pr_expr pr e1 ++ " == 0?"; "Answer:   " ++ pr_num pr 0; "";
       "Question: " ++ pr_expr pr e2 ++ " >= 0?"; "Answer:   " ++ pr_num pr 3; ""; ""]%string.
Proof.
  intros toward0 inv pr Hinv Hpr. destruct (rex_report toward0 inv pr Hinv Hpr) as (m & cons & f & mn & fv & r & rcs & s & e1 & e2 & sa & sb & H). cbv zeta in H.
  exists m, cons, f, mn, fv, r, rcs, s, e1, e2, sa, sb. cbv zeta. tauto.
Qed.

(** The answer for a constraint does not tell whether the constraint holds, if it refers to data. *)
Theorem C82_answer_tells_constraint_holds_refuted :
  ~ (forall kc simp sub mulm1 ord1 ord2 es m sol us toward0 h cons o mc absolute args kw f mn local N inv x fv r,
       let om := om_of kc simp ord2 m in
       let Y := the_data om cons args kw in
       sympy_arithmetic sub mulm1 -> set_order ord2 -> model_of ord1 es m -> means es sol ->
       good_constraints es us -> init_constraints kc simp sub mulm1 ord2 m us = Ok cons -> good_names om cons -> NoDup (dkeys kw) ->
       fit_init toward0 h {| fm_om := om; fm_len := List.length es |} cons o mc absolute args kw = Ok f ->
       inputs_on_grid [N] m Y -> constraints_on_grid [N] es us Y -> mc = MDefault -> ft_min f = FMin mn local ->
       List.length x = nfree h (m_params m) -> fit_report inv h om f x fv = Ok r ->
       (* every printed answer is fine *)
       (forall u, In u us -> match uc_rel u with REq => constraint_at sol Y u (reported (m_params m) (rp_popt r)) [0%nat] = 0 | _ => 0 <= constraint_at sol Y u (reported (m_params m) (rp_popt r)) [0%nat] end) ->
       constraints_hold [N] sol us Y (reported (m_params m) (rp_popt r))).
Proof.
  intros Hall. destruct inverts_exists as (inv & Hinv). set (toward0 := fun r : R => r).
  set (pr := {| pr_e := fun _ => "1"; pr_num := fun _ => "1"; pr_arr := fun _ => ""; pr_expr := fun _ => ""; pr_callable := fun _ => "" |}).
  assert (Hpr : plain_printer pr) by (split; [|split]; intros; reflexivity).
  destruct (rex_setup toward0) as (m & cons & f & mn & Hm & Hsol & Har & HH & E1 & E2 & Hgc & Hic & H). cbv zeta in H.
  destruct H as (Yx & Yz & Sz & Hg & Hkw & Hbare & Hsc & HG & Hcg & Hf & Hmn & Hcl).
  assert (Hl : List.length [2; 5] = nfree (eex_heap false) (m_params m)) by (rewrite E1; reflexivity).
  assert (Hne : m_params m <> []) by (rewrite E1; discriminate).
  assert (Hoc : objective_chosen ODefault MDefault OLS) by (split; [left; reflexivity|discriminate]).
  destruct (ls_report inv (fun e => e) oid oid aex_es m jex_sol toward0 (eex_heap false) cons ODefault MDefault None eex_args eex_kw f 3%nat [2; 5]
    simp_id_ok oid_ok Hm Hsol Hne HH Hg Hkw HG Hsc Hbare Hoc Hf Hinv Hl) as (fv & r & _ & R2 & R3 & _).
  specialize (Hall KModel (fun e => e) ESub ENeg oid oid aex_es m jex_sol rex_us toward0 (eex_heap false) cons ODefault MDefault None eex_args eex_kw f mn None 3%nat inv [2; 5] fv r
    Har oid_ok Hm Hsol Hgc Hic Hg Hkw Hf (proj1 HG) Hcg eq_refl Hmn Hl R2).
  set (Y := the_data (om_of KModel (fun e => e) oid m) cons eex_args eex_kw) in *.
  assert (Hp : rp_popt r = [2; 5]).
  { rewrite E1 in R3. assert (Hq : pack_output (eex_heap false) [pa; pb] [2; 5] = Ok [2; 5]) by reflexivity. rewrite Hq in R3. injection R3 as <-. reflexivity. }
  set (theta := reported (m_params m) (rp_popt r)) in *.
  assert (Ta : theta pa = 2) by (unfold theta; rewrite Hp, E1; reflexivity).
  assert (Tb : theta pb = 5) by (unfold theta; rewrite Hp, E1; reflexivity).
  assert (Sy : forall i, jex_sol (at_data Y theta i) vy = 2 * elem (aex_vec 1 2 3) i).
  { intros i. change (jex_sol (at_data Y theta i) vy) with (at_data Y theta i pa * at_data Y theta i vx). f_equal; [exact Ta|]. unfold at_data. cbn [is_par vx]. rewrite Yx. reflexivity. }
  assert (Hc : constraints_hold [3%nat] jex_sol rex_us Y theta).
  { apply Hall. intros u [<-|[<-|[]]]; unfold constraint_at, constraint_value; cbn [uc_rel uc_left uc_right eval a_num Ralg].
    - change (jex_sol (at_data Y theta [0%nat]) pb) with (theta pb). rewrite Tb. lra.
    - rewrite Sy. change (elem (aex_vec 1 2 3) [0%nat]) with 1. lra. }
  pose proof (Hc _ [2%nat] (or_intror (or_introl eq_refl)) (or_intror (or_intror (or_introl eq_refl)))) as H. cbn [uc_rel uc_left uc_right holds eval a_num Ralg] in H. rewrite Sy in H.
  change (elem (aex_vec 1 2 3) [2%nat]) with 3 in H. lra.
Qed.
Print Assumptions C82_answer_tells_constraint_holds_refuted.

(** The pieces of the layout: a column is its text followed by blanks, at least [n] characters wide, and never cuts the text; the lines are joined by line breaks
    between, and not around, them. *)
Theorem C82_column : forall n s, exists b, pad n s = append s b /\ (forall i c, String.get i b = Some c -> c = " "%char) /\
  String.length (pad n s) = Nat.max n (String.length s).
Proof.
  intros n s. exists (blanks (n - String.length s)). split; [reflexivity|].
  assert (Hl : forall k, String.length (blanks k) = k) by (induction k as [|k IH]; cbn; [reflexivity|rewrite IH; reflexivity]).
  assert (Ha : forall a b, String.length (append a b) = (String.length a + String.length b)%nat) by (induction a as [|c a IH]; intros b; cbn; [reflexivity|rewrite IH; reflexivity]).
  split.
  - induction (n - String.length s)%nat as [|k IH]; intros [|i] c H; cbn in H; try discriminate; [congruence|exact (IH i c H)].
  - unfold pad. rewrite Ha, Hl. lia.
Qed.
Print Assumptions C82_column.
Theorem C82_joined : forall sep s l, join sep (s :: l) = append s (cat (map (fun t => append sep t) l)).
Proof.
  assert (Hn : forall s, append s "" = s) by (induction s as [|c s IH]; cbn; [reflexivity|rewrite IH; reflexivity]).
  assert (Ha : forall a b c, append a (append b c) = append (append a b) c) by (induction a as [|x a IH]; intros b c; cbn; [reflexivity|rewrite IH; reflexivity]).
  intros sep s l. revert s. induction l as [|t l IH]; intros s.
  - cbn. symmetry. apply Hn.
  - change (join sep (s :: t :: l)) with (append s (append sep (join sep (t :: l)))). rewrite IH. unfold cat. cbn [map fold_right]. rewrite (Ha sep t). reflexivity.
Qed.
Print Assumptions C82_joined.

(** ** C83.  A symbolic model is printed as the list of its components, by name, each as "name(variables; parameters) = expression" with exactly the
    variables and parameters its own expression mentions, by name. *)
Theorem C83_model_text : forall V pr ord (items : dict sym (comp (V:=V))) m,
  set_order ord -> is_dict items -> init_model ord items = Ok m ->
  exists parts, str_model pr ord m = Ok ("[" ++ join ("," ++ nl ++ " ") (map (fun q => let '(v, vs, ps, e) := q in component_text pr v vs ps e) parts) ++ "]")%string /\
    Permutation (map (fun q => let '(v, vs, ps, e) := q in (v, CExpr e)) parts) items /\
    alphabetical sname (map (fun q => let '(v, vs, ps, e) := q in v) parts) /\
    forall v vs ps e, In (v, vs, ps, e) parts ->
      listed_by_name (fun s => mentions e s /\ is_par s = false) vs /\ listed_by_name (fun s => mentions e s /\ is_par s = true) ps.
Proof. intros V pr ord items m Ho Hd Hm. destruct (model_text pr ord items m Ho Hd Hm) as (parts & H1 & _ & H). exists parts. split; [exact H1|exact H]. Qed.
Print Assumptions C83_model_text.

(** The text is the same in whatever order the components are given and sets are iterated. *)
Theorem C83_same_text : forall V pr ord ord' (items items' : dict sym (comp (V:=V))) m m',
  set_order ord -> set_order ord' -> is_dict items -> Permutation items items' -> distinct_names items ->
  init_model ord items = Ok m -> init_model ord' items' = Ok m' -> str_model pr ord m = str_model pr ord' m'.
Proof. intros V pr ord ord' items items' m m'. apply model_text_same. Qed.
Print Assumptions C83_same_text.

Example C83_example : forall pr, exists m, init_model oid (comps (V:=res nd) aex_es) = Ok m /\ is_dict (comps (V:=res nd) aex_es) /\ distinct_names (comps (V:=res nd) aex_es) /\
  str_model pr oid m = Ok ("[y(x; a) = " ++ pr_expr pr (EMul (ESym pa) (ESym vx)) ++ "," ++ nl ++ " z(y; a, b) = " ++ pr_expr pr (EAdd (EPow (ESym vy) 2) (EMul (ESym pa) (ESym pb))) ++ "]")%string.
Proof.
  intros pr. destruct (init_model oid (comps (V:=res nd) aex_es)) as [m|e] eqn:Hi; [|vm_compute in Hi; discriminate]. exists m. split; [reflexivity|].
  split; [apply nodupb_iff; vm_compute; reflexivity|]. split; [decide_model|]. vm_compute in Hi. inversion Hi; subst m. unfold str_model. cbn -[nl append]. unfold key_text. cbn -[nl]. rewrite !sapp_assoc. cbn -[nl]. reflexivity.
Qed.
