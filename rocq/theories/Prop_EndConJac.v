(** * Prop_EndConJac: C81, the Jacobian of a constraint with components of the model or data in it. *)
From Coq Require Import Reals Lra Lia Relations.
From Coquelicot Require Import Coquelicot.
From Verif Require ArrObj.
From Verif Require Import PyBase PyFacts Signature SignatureFacts Expr Model ModelSpec ExprR Jacobian JacAnalysis NumPy NumFacts Objective ObjSpec Minimizer MinSpec Fit FitSpec FitExample Cast ArrModel ArrSpec ArrFacts ConModel EndSpec EndMain EndCon EndConJac Decide Prop_Model Prop_Jacobian Prop_ArrModel Prop_End Prop_EndMore Prop_EndCon.
Local Open Scope R_scope.

(** For every constraint the user wrote, scipy's constraint at the same place in its list returns the [M] values of left minus
    right (right minus left for <=): one per data point if it refers to data with [N] points.  Its
    derivative function returns, where model and constraint are differentiable:
    - for one value, its gradient, with one entry per free parameter;
    - for several values of a model with two or more parameters, the matrix with one ROW PER FREE PARAMETER and one
      column per value ([shp] and indices list the last axis first), which is the transpose of what scipy expects;
    - for several values of a model with one parameter: no derivative, but an IndexError. *)
Theorem C81_constraint_jacobian : forall kc simp sub mulm1 ord1 ord2 es m sol us toward0 h cons o mc absolute args kw f mn local n u cm ty J N,
  let om := om_of kc simp ord2 m in
  let ps := m_params m in
  let Y := the_data om cons args kw in
  kc <> KCallable -> simp_ok simp -> sympy_arithmetic sub mulm1 -> keeps_defined sub mulm1 -> set_order ord2 -> model_of ord1 es m -> means es sol -> ps <> [] ->
  good_constraints es us -> init_constraints kc simp sub mulm1 ord2 m us = Ok cons -> good_names om cons -> NoDup (dkeys kw) ->
  fit_init toward0 h {| fm_om := om; fm_len := List.length es |} cons o mc absolute args kw = Ok f ->
  inputs_on_grid [N] m Y -> constraints_on_grid [N] es us Y ->
  (mc = MDefault \/ exists c, mc = MItem (MCls c)) -> ft_min f = FMin mn local ->
  uses_constraints (mi_class mn) = true -> uses_jacobian (mi_class mn) = true ->
  nth_error us n = Some u -> as_constraint sub mulm1 (uc_name u) ord2 (CRel (uc_rel u) (uc_left u) (uc_right u)) m = Ok (cm, ty) ->
  jacobian_items simp ord2 cm = Ok J -> names_apart J cm ->
  exists k w, nth_error (pb_cons (execute_problem h mn DNone DNone)) n = Some k /\ handed_jac k = Some w /\
    (forall v, imposes k v <-> match uc_rel u with REq => v = 0 | _ => 0 <= v end) /\
    forall x, List.length x = nfree h ps ->
      exists c M, handed_fun k x = Ok c /\ shp c = [M] /\ (M = 1%nat \/ M = N) /\ (reaches_data [N] sub es Y u -> M = N) /\
        (forall d, (d < M)%nat -> val c [d] = constraint_at sol Y u (parameter_value h ps x) [d]) /\
        (M = 1%nat -> exists g, w x = Ok g /\ shp g = [nfree h ps] /\
           (defined_for [N] es sol Y (parameter_value h ps x) -> sides_defined [N] sol Y u (parameter_value h ps x) ->
            forall i p, nth_error (free_of_list h ps) i = Some p -> derivative_in (fun theta => constraint_at sol Y u theta [0%nat]) (parameter_value h ps x) p (val g [i]))) /\
        (M <> 1%nat -> List.length ps <> 1%nat -> exists g, w x = Ok g /\ shp g = [M; nfree h ps] /\
           (defined_for [N] es sol Y (parameter_value h ps x) -> sides_defined [N] sol Y u (parameter_value h ps x) ->
            forall d i p, (d < M)%nat -> nth_error (free_of_list h ps) i = Some p -> derivative_in (fun theta => constraint_at sol Y u theta [d]) (parameter_value h ps x) p (val g [d; i]))) /\
        (M <> 1%nat -> List.length ps = 1%nat -> w x = Raise IndexError).
Proof. exact constraint_jacobian_handed. Qed.
Print Assumptions C81_constraint_jacobian.

(** ** Two data points (x, z) = (1, 14), (2, 26), the model y = a x, z = y^2 + a b, the constraint y >= 1 *)
Definition cex_vec (a b : R) : nd := {| shp := [2%nat]; val := fun i => match i with [0%nat] => a | _ => b end |}.
Definition cex_args : list datum := [DArr (cex_vec 1 2)].
Definition cex_kw : dict string datum := [("z"%string, DSeq (cex_vec 14 26))].
Definition cex_u : user_con := {| uc_name := SVar "w2"; uc_rel := RGe; uc_left := ESym vy; uc_right := ENum 1 |}.
Lemma cex_setup : forall toward0 kc, kc <> KCallable ->
  exists m cons f mn cm J, model_of oid aex_es m /\ means aex_es jex_sol /\ m_params m = [pa; pb] /\ sympy_arithmetic ESub ENeg /\ keeps_defined ESub ENeg /\
    good_constraints aex_es [cex_u] /\ init_constraints kc (fun e => e) ESub ENeg oid m [cex_u] = Ok cons /\
    as_constraint ESub ENeg (uc_name cex_u) oid (CRel (uc_rel cex_u) (uc_left cex_u) (uc_right cex_u)) m = Ok (cm, RGe) /\
    jacobian_items (fun e => e) oid cm = Ok J /\ names_apart J cm /\
    let om := om_of kc (fun e => e) oid m in
    let Y := the_data om cons cex_args cex_kw in
    Y vx = Some (cex_vec 1 2) /\
    good_names om cons /\ NoDup (dkeys cex_kw) /\ inputs_on_grid [2%nat] m Y /\ constraints_on_grid [2%nat] aex_es [cex_u] Y /\
    fit_init toward0 (eex_heap false) {| fm_om := om; fm_len := List.length aex_es |} cons ODefault MDefault None cex_args cex_kw = Ok f /\
    ft_min f = FMin mn None /\ mi_class mn = SLSQP.
Proof.
  intros toward0 kc Hkc.
  destruct (init_model oid (comps (V:=res nd) aex_es)) as [m|e] eqn:Hi; [|vm_compute in Hi; discriminate].
  assert (E1 : m_params m = [pa; pb]) by (vm_compute in Hi; inversion Hi; reflexivity).
  assert (E2 : m_dep m = [vz]) by (vm_compute in Hi; inversion Hi; reflexivity).
  assert (E3 : m_indep m = [vx]) by (vm_compute in Hi; inversion Hi; reflexivity).
  assert (Hm : model_of oid aex_es m).
  { split; [exact oid_ok|]. split; [apply nodupb_iff; vm_compute; reflexivity|]. split; [decide_model|]. split; [decide_model|]. split; [exact jex_plain|].
    split; [|exact Hi]. intros k e [Hq|[Hq|[]]]; inv Hq; cbn; repeat split; discriminate. }
  destruct (as_constraint ESub ENeg (SVar "w2") oid (CRel RGe (ESym vy) (ENum 1)) m) as [[c2 t2]|e] eqn:A2; [|vm_compute in Hi; inversion Hi; subst m; vm_compute in A2; discriminate].
  assert (F2 : t2 = RGe /\ m_params c2 = [pa; pb] /\ m_dep c2 = [SVar "w2"] /\ m_indep c2 = [vx]) by (vm_compute in Hi; inversion Hi; subst m; vm_compute in A2; inversion A2; auto).
  destruct F2 as (-> & F21 & F22 & F23).
  assert (HJ : exists J, jacobian_items (fun e => e) oid c2 = Ok J /\ names_apart J c2).
  { vm_compute in Hi. inversion Hi; subst m. vm_compute in A2. inversion A2; subst c2. eexists. split; [vm_compute; reflexivity|].
    split; [decide_model|]. intros k p Hk Hp. cbn in Hk, Hp. intuition (subst; discriminate). }
  destruct HJ as (J & HJ & Hap). clear Hi.
  set (cons := [{| fc_rel := RGe; fc_om := om_of kc (fun e => e) oid c2 |}]).
  assert (Hic : init_constraints kc (fun e => e) ESub ENeg oid m [cex_u] = Ok cons).
  { unfold init_constraints. cbn [mapM bind uc_name uc_rel uc_left uc_right cex_u]. rewrite A2. reflexivity. }
  assert (Hf : exists f mn, fit_init toward0 (eex_heap false) {| fm_om := om_of kc (fun e => e) oid m; fm_len := List.length aex_es |} cons ODefault MDefault None cex_args cex_kw = Ok f /\
    ft_min f = FMin mn None /\ mi_class mn = SLSQP).
  { unfold cons, om_of. rewrite E1, E2, E3, F21, F22, F23. destruct kc; [congruence| |]; eexists _, _; (split; [reflexivity|split; reflexivity]). }
  destruct Hf as (f & mn & Hf & Hmn & Hcl). exists m, cons, f, mn, c2, J.
  split; [exact Hm|]. split; [exact aex_means|]. split; [exact E1|]. split; [exact eex_arith|]. split; [split; intros; cbn in *; tauto|].
  assert (Hdf : forall v, data_for (om_of kc (fun e => e) oid m) cons cex_args cex_kw v =
    match given ["x"; "z"; "sigma_z"; "w2"; "sigma_w2"]%string cex_args cex_kw (sname v) with Some x => x | None => DataNone end).
  { intros v. unfold data_for, argument_names, cons, om_of. cbn [om_indep om_dep fc_om map]. rewrite E2, E3, F22, F23. reflexivity. }
  assert (Dx : data_for (om_of kc (fun e => e) oid m) cons cex_args cex_kw vx = DArr (cex_vec 1 2)) by (rewrite Hdf; reflexivity).
  assert (Yx : the_data (om_of kc (fun e => e) oid m) cons cex_args cex_kw vx = Some (cex_vec 1 2)) by (unfold the_data; rewrite Dx; reflexivity).
  clear Hdf.
  assert (Hg : good_names (om_of kc (fun e => e) oid m) cons).
  { unfold good_names, argument_names, cons, om_of. cbn [om_indep om_dep fc_om map]. rewrite E2, E3, F22, F23.
    split; [apply nodupb_iff; vm_compute; reflexivity|]. split; [intros c [<-|[]]; cbn [fc_om om_indep om_dep]; rewrite ?F22, ?F23; apply nodupb_iff; vm_compute; reflexivity|apply nodupb_iff; vm_compute; reflexivity]. }
  assert (HG : inputs_on_grid [2%nat] m (the_data (om_of kc (fun e => e) oid m) cons cex_args cex_kw)).
  { split; [discriminate|]. split; [intros [H|[]]; discriminate|].
    rewrite E3. intros v [<-|[]]. rewrite Yx. eexists. split; [reflexivity|]. split; [reflexivity|right; reflexivity]. }
  assert (Hgc : good_constraints aex_es [cex_u]).
  { intros u Hu. assert (Hn : constraint_name aex_es (uc_left u) (uc_right u) (uc_name u)).
    { destruct Hu as [<-|[]]; cbn [uc_left uc_right uc_name cex_u];
        (split; [eexists; reflexivity|]; split; [decide_model|]; split; [decide_model|]; split; [decide_model|]; split; [decide_model|];
         intros s [Hs|Hs]; apply mentionsl_ok in Hs; cbn in Hs; intuition (subst; reflexivity)). }
    split; [exact Hn|]. destruct Hu as [<-|[]]; cbn; auto. }
  assert (Hcg : constraints_on_grid [2%nat] aex_es [cex_u] (the_data (om_of kc (fun e => e) oid m) cons cex_args cex_kw)).
  { intros u v [<-|[]] Hv Hp Hnk; cbn [uc_left uc_right cex_u] in Hv; exfalso; rewrite !mentionsl_ok in Hv; cbn in Hv; intuition (subst; try discriminate);
      apply Hnk; left; reflexivity. }
  split; [exact Hgc|]. split; [exact Hic|]. split; [exact A2|]. split; [exact HJ|]. split; [exact Hap|]. cbv zeta. split; [exact Yx|]. split; [exact Hg|]. split; [apply nodupb_iff; reflexivity|].
  split; [exact HG|]. split; [exact Hcg|]. split; [exact Hf|]. split; [exact Hmn|exact Hcl].
Qed.
(** All hypotheses hold (default minimizer, SLSQP): the values are a - 1 and 2 a - 1, and the matrix that is
    handed over has the derivatives of the two values by a in its first ROW: 1, 2; and those by b in its second: 0, 0. *)
Example C81_example : forall toward0 kc, kc <> KCallable ->
  exists m cons f mn k w, model_of oid aex_es m /\ init_constraints kc (fun e => e) ESub ENeg oid m [cex_u] = Ok cons /\
    fit_init toward0 (eex_heap false) {| fm_om := om_of kc (fun e => e) oid m; fm_len := List.length aex_es |} cons ODefault MDefault None cex_args cex_kw = Ok f /\
    ft_min f = FMin mn None /\ mi_class mn = SLSQP /\
    nth_error (pb_cons (execute_problem (eex_heap false) mn DNone DNone)) 0 = Some k /\ handed_jac k = Some w /\
    forall a b, (exists c, handed_fun k [a; b] = Ok c /\ shp c = [2%nat] /\ val c [0%nat] = a * 1 - 1 /\ val c [1%nat] = a * 2 - 1) /\
                (exists g, w [a; b] = Ok g /\ shp g = [2%nat; 2%nat] /\ val g [0%nat; 0%nat] = 1 /\ val g [1%nat; 0%nat] = 2 /\ val g [0%nat; 1%nat] = 0 /\ val g [1%nat; 1%nat] = 0).
Proof.
  intros toward0 kc Hkc. destruct (cex_setup toward0 kc Hkc) as (m & cons & f & mn & cm & J & Hm & Hs & E1 & Har & Hkd & Hgc & Hic & Ha & HJ & Hap & X). cbv zeta in X.
  destruct X as (Yx & Hg & Hkw & Hgi & Hcg & Hf & Hmn & Hcl).
  assert (Hne : m_params m <> []) by (rewrite E1; discriminate).
  assert (Huse : uses_constraints (mi_class mn) = true /\ uses_jacobian (mi_class mn) = true) by (rewrite Hcl; split; reflexivity).
  destruct (C81_constraint_jacobian kc (fun e => e) ESub ENeg oid oid aex_es m jex_sol [cex_u] toward0 (eex_heap false) cons ODefault MDefault None cex_args cex_kw f mn None 0 cex_u cm RGe J 2
    Hkc simp_id_ok Har Hkd oid_ok Hm Hs Hne Hgc Hic Hg Hkw Hf Hgi Hcg (or_introl eq_refl) Hmn (proj1 Huse) (proj2 Huse) eq_refl Ha HJ Hap) as (k & w & Hk & Hw & _ & Hx).
  exists m, cons, f, mn, k, w. split; [exact Hm|]. split; [exact Hic|]. split; [exact Hf|]. split; [exact Hmn|]. split; [exact Hcl|]. split; [exact Hk|]. split; [exact Hw|].
  set (Y := the_data (om_of kc (fun e => e) oid m) cons cex_args cex_kw) in *.
  assert (Hre : reaches_data [2%nat] ESub aex_es Y cex_u).
  { exists vy, vx, (cex_vec 1 2). split; [left; cbn; auto|]. split; [right; apply t_step; exists (EMul (ESym pa) (ESym vx)); split; [left; reflexivity|left; cbn; auto]|].
    split; [intros [E|[E|[]]]; discriminate|]. split; [reflexivity|]. split; [exact Yx|reflexivity]. }
  intros a b. rewrite E1 in Hx. destruct (Hx [a; b] eq_refl) as (c & M & C1 & C2 & _ & CM & C3 & _ & G & _). specialize (CM Hre). subst M.
  assert (Ea : parameter_value (eex_heap false) [pa; pb] [a; b] pa = a) by reflexivity.
  assert (Hva : forall theta d, constraint_at jex_sol Y cex_u theta [d] = theta pa * elem (cex_vec 1 2) [d] - 1).
  { intros theta d. unfold constraint_at, constraint_value. cbn [uc_rel uc_left uc_right cex_u eval a_num Ralg].
    change (jex_sol (at_data Y theta [d]) vy) with (at_data Y theta [d] pa * at_data Y theta [d] vx). unfold at_data. cbn [is_par vx pa]. rewrite Yx. reflexivity. }
  split.
  - exists c. split; [exact C1|]. split; [exact C2|]. split; rewrite C3 by lia; rewrite Hva, Ea; reflexivity.
  - destruct G as (g & G1 & G2 & G3); [lia|discriminate|]. exists g. split; [exact G1|]. split; [exact G2|].
    assert (D : forall d i p v, (d < 2)%nat -> nth_error [pa; pb] i = Some p -> is_derive (fun t => with_value (parameter_value (eex_heap false) [pa; pb] [a; b]) p t pa * elem (cex_vec 1 2) [d] - 1) (parameter_value (eex_heap false) [pa; pb] [a; b] p) v -> val g [d; i] = v).
    { intros d i p v Hd Hi Hv.
      assert (Q : derivative_in (fun theta => constraint_at jex_sol Y cex_u theta [d]) (parameter_value (eex_heap false) [pa; pb] [a; b]) p (val g [d; i])).
      { apply G3; [| |exact Hd|exact Hi].
        - intros i' k' e' _ [Hq|[Hq|[]]]; inv Hq; cbn; tauto.
        - intros i' _. split; exact I. }
      unfold derivative_in in Q. assert (Q' := is_derive_ext _ _ _ _ (fun t => Hva (with_value (parameter_value (eex_heap false) [pa; pb] [a; b]) p t) d) Q).
      apply is_derive_unique in Q'. apply is_derive_unique in Hv. rewrite <- Q', <- Hv. reflexivity. }
    split; [|split; [|split]]; (eapply D; [lia|reflexivity|]).
    + eapply (is_derive_ext (fun t => t * 1 - 1)); [intros t; rewrite with_same; reflexivity|]. auto_derive; [exact I|ring].
    + eapply (is_derive_ext (fun t => t * 2 - 1)); [intros t; rewrite with_same; reflexivity|]. auto_derive; [exact I|ring].
    + eapply (is_derive_ext (fun t => a * 1 - 1)); [intros t; rewrite (with_other _ pb pa t) by discriminate; reflexivity|]. auto_derive; [exact I|ring].
    + eapply (is_derive_ext (fun t => a * 2 - 1)); [intros t; rewrite (with_other _ pb pa t) by discriminate; reflexivity|]. auto_derive; [exact I|ring].
Qed.

(** Refuted: "the Jacobian scipy gets has one row per value and one column per free parameter" (numpy's [g[d, i]] is
    [val g [i; d]] here).  In this fit the shapes agree, and scipy is told that the first value of the constraint grows with b at the rate 2,
    and not with a at the other point: silently wrong. *)
Theorem C81_scipy_layout_refuted :
  ~ (forall kc simp sub mulm1 ord1 ord2 es m sol us toward0 h cons o mc absolute args kw f mn local n u cm ty J N,
  let om := om_of kc simp ord2 m in
  let ps := m_params m in
  let Y := the_data om cons args kw in
  kc <> KCallable -> simp_ok simp -> sympy_arithmetic sub mulm1 -> keeps_defined sub mulm1 -> set_order ord2 -> model_of ord1 es m -> means es sol -> ps <> [] ->
  good_constraints es us -> init_constraints kc simp sub mulm1 ord2 m us = Ok cons -> good_names om cons -> NoDup (dkeys kw) ->
  fit_init toward0 h {| fm_om := om; fm_len := List.length es |} cons o mc absolute args kw = Ok f ->
  inputs_on_grid [N] m Y -> constraints_on_grid [N] es us Y ->
  (mc = MDefault \/ exists c, mc = MItem (MCls c)) -> ft_min f = FMin mn local ->
  uses_constraints (mi_class mn) = true -> uses_jacobian (mi_class mn) = true ->
  nth_error us n = Some u -> as_constraint sub mulm1 (uc_name u) ord2 (CRel (uc_rel u) (uc_left u) (uc_right u)) m = Ok (cm, ty) ->
  jacobian_items simp ord2 cm = Ok J -> names_apart J cm ->
  forall k w x g d i p, nth_error (pb_cons (execute_problem h mn DNone DNone)) n = Some k -> handed_jac k = Some w ->
    List.length x = nfree h ps -> w x = Ok g -> (d < N)%nat -> nth_error (free_of_list h ps) i = Some p ->
    defined_for [N] es sol Y (parameter_value h ps x) -> sides_defined [N] sol Y u (parameter_value h ps x) ->
    reaches_data [N] sub es Y u -> derivative_in (fun theta => constraint_at sol Y u theta [d]) (parameter_value h ps x) p (val g [i; d])).
Proof.
  intros H. destruct (C81_example (fun x => x) KModel) as (m & cons & f & mn & k & w & Hm & Hic & Hf & Hmn & Hcl & Hk & Hw & Hx); [discriminate|].
  destruct (cex_setup (fun x => x) KModel) as (m' & cons' & f' & mn' & cm & J & Hm' & Hs & E1 & Har & Hkd & Hgc & Hic' & Ha & HJ & Hap & X); [discriminate|]. cbv zeta in X.
  destruct X as (Yx & Hg & Hkw & Hgi & Hcg & Hf' & Hmn' & Hcl').
  assert (m' = m). { destruct Hm as (_ & _ & _ & _ & _ & _ & I1). destruct Hm' as (_ & _ & _ & _ & _ & _ & I2). congruence. } subst m'.
  assert (cons' = cons) by congruence. subst cons'. clear f' mn' Hf' Hmn' Hcl'.
  assert (Hne : m_params m <> []) by (rewrite E1; discriminate).
  assert (Huse : uses_constraints (mi_class mn) = true /\ uses_jacobian (mi_class mn) = true) by (rewrite Hcl; split; reflexivity).
  destruct (Hx 1 1) as (_ & g & G1 & _ & _ & G2 & _).
  set (Y := the_data (om_of KModel (fun e => e) oid m) cons cex_args cex_kw) in *.
  assert (Hre : reaches_data [2%nat] ESub aex_es Y cex_u).
  { exists vy, vx, (cex_vec 1 2). split; [left; cbn; auto|]. split; [right; apply t_step; exists (EMul (ESym pa) (ESym vx)); split; [left; reflexivity|left; cbn; auto]|].
    split; [intros [E|[E|[]]]; discriminate|]. split; [reflexivity|]. split; [exact Yx|reflexivity]. }
  assert (Hkc : KModel <> KCallable) by discriminate.
  specialize (H KModel (fun e => e) ESub ENeg oid oid aex_es m jex_sol [cex_u] (fun x => x) (eex_heap false) cons ODefault MDefault None cex_args cex_kw f mn None 0%nat cex_u cm RGe J 2%nat
    Hkc simp_id_ok Har Hkd oid_ok Hm Hs Hne Hgc Hic Hg Hkw Hf Hgi Hcg (or_introl eq_refl) Hmn (proj1 Huse) (proj2 Huse) eq_refl Ha HJ Hap k w [1; 1] g 0%nat 1%nat pb Hk Hw).
  fold Y in H. rewrite E1 in H.
  assert (Hd : derivative_in (fun theta => constraint_at jex_sol Y cex_u theta [0%nat]) (parameter_value (eex_heap false) [pa; pb] [1; 1]) pb (val g [1%nat; 0%nat])).
  { apply H; [reflexivity|exact G1|lia|reflexivity| | |exact Hre].
    - intros i' k' e' _ [Hq|[Hq|[]]]; inv Hq; cbn; tauto.
    - intros i' _. split; exact I. }
  rewrite G2 in Hd. unfold derivative_in in Hd. apply is_derive_unique in Hd.
  assert (H0 : is_derive (fun t => constraint_at jex_sol Y cex_u (with_value (parameter_value (eex_heap false) [pa; pb] [1; 1]) pb t) [0%nat]) (parameter_value (eex_heap false) [pa; pb] [1; 1] pb) 0).
  { eapply is_derive_ext; [|exact (der_const 0 (parameter_value (eex_heap false) [pa; pb] [1; 1] pb))].
    intros t. unfold constraint_at, constraint_value. cbn [uc_rel uc_left uc_right cex_u eval a_num Ralg].
    change (jex_sol (at_data Y (with_value (parameter_value (eex_heap false) [pa; pb] [1; 1]) pb t) [0%nat]) vy)
      with (with_value (parameter_value (eex_heap false) [pa; pb] [1; 1]) pb t pa * at_data Y (with_value (parameter_value (eex_heap false) [pa; pb] [1; 1]) pb t) [0%nat] vx).
    unfold at_data. cbn [is_par vx]. rewrite Yx, (with_other _ pb pa t) by discriminate. cbn. match goal with |- @eq _ ?x ?y => change (@eq R x y) end. change (parameter_value (eex_heap false) [pa; pb] [1; 1] pa) with 1. lra. }
  apply is_derive_unique in H0. rewrite H0 in Hd. lra.
Qed.
Print Assumptions C81_scipy_layout_refuted.

(** ** One parameter: y = a exp(-a x), two data points and the constraint y >= 1 *)
Definition cex1_kw : dict string datum := [("y"%string, DSeq (cex_vec 3 2))].
Example C81_single_parameter_example : forall toward0 kc, kc <> KCallable ->
  exists m cons f mn k w, model_of oid lex_es m /\ m_params m = [pa] /\ init_constraints kc (fun e => e) ESub ENeg oid m [cex_u] = Ok cons /\
    fit_init toward0 (eex_heap false) {| fm_om := om_of kc (fun e => e) oid m; fm_len := List.length lex_es |} cons ODefault MDefault None cex_args cex1_kw = Ok f /\
    ft_min f = FMin mn None /\ mi_class mn = SLSQP /\
    nth_error (pb_cons (execute_problem (eex_heap false) mn DNone DNone)) 0 = Some k /\ handed_jac k = Some w /\ forall a, w [a] = Raise IndexError.
Proof.
  intros toward0 kc Hkc.
  destruct (init_model oid (comps (V:=res nd) lex_es)) as [m|e] eqn:Hi; [|vm_compute in Hi; discriminate].
  assert (E1 : m_params m = [pa]) by (vm_compute in Hi; inversion Hi; reflexivity).
  assert (E2 : m_dep m = [vy]) by (vm_compute in Hi; inversion Hi; reflexivity).
  assert (E3 : m_indep m = [vx]) by (vm_compute in Hi; inversion Hi; reflexivity).
  assert (Hm : model_of oid lex_es m).
  { split; [exact oid_ok|]. split; [apply nodupb_iff; vm_compute; reflexivity|]. split; [decide_model|]. split; [decide_model|]. split; [exact lex_plain|].
    split; [|exact Hi]. intros k e [Hq|[]]; inv Hq; cbn; repeat split; discriminate. }
  destruct (as_constraint ESub ENeg (SVar "w2") oid (CRel RGe (ESym vy) (ENum 1)) m) as [[c2 t2]|e] eqn:A2; [|vm_compute in Hi; inversion Hi; subst m; vm_compute in A2; discriminate].
  assert (F2 : t2 = RGe /\ m_params c2 = [pa] /\ m_dep c2 = [SVar "w2"] /\ m_indep c2 = [vx]) by (vm_compute in Hi; inversion Hi; subst m; vm_compute in A2; inversion A2; auto).
  destruct F2 as (-> & F21 & F22 & F23).
  assert (HJ : exists J, jacobian_items (fun e => e) oid c2 = Ok J /\ names_apart J c2).
  { vm_compute in Hi. inversion Hi; subst m. vm_compute in A2. inversion A2; subst c2. eexists. split; [vm_compute; reflexivity|].
    split; [decide_model|]. intros k p Hk Hp. cbn in Hk, Hp. intuition (subst; discriminate). }
  destruct HJ as (J & HJ & Hap). clear Hi.
  set (cons := [{| fc_rel := RGe; fc_om := om_of kc (fun e => e) oid c2 |}]).
  assert (Hic : init_constraints kc (fun e => e) ESub ENeg oid m [cex_u] = Ok cons).
  { unfold init_constraints. cbn [mapM bind uc_name uc_rel uc_left uc_right cex_u]. rewrite A2. reflexivity. }
  assert (Hf : exists f mn, fit_init toward0 (eex_heap false) {| fm_om := om_of kc (fun e => e) oid m; fm_len := List.length lex_es |} cons ODefault MDefault None cex_args cex1_kw = Ok f /\
    ft_min f = FMin mn None /\ mi_class mn = SLSQP).
  { unfold cons, om_of. rewrite E1, E2, E3, F21, F22, F23. destruct kc; [congruence| |]; eexists _, _; (split; [reflexivity|split; reflexivity]). }
  destruct Hf as (f & mn & Hf & Hmn & Hcl).
  assert (Hdf : forall v, data_for (om_of kc (fun e => e) oid m) cons cex_args cex1_kw v =
    match given ["x"; "y"; "sigma_y"; "w2"; "sigma_w2"]%string cex_args cex1_kw (sname v) with Some x => x | None => DataNone end).
  { intros v. unfold data_for, argument_names, cons, om_of. cbn [om_indep om_dep fc_om map]. rewrite E2, E3, F22, F23. reflexivity. }
  assert (Dx : data_for (om_of kc (fun e => e) oid m) cons cex_args cex1_kw vx = DArr (cex_vec 1 2)) by (rewrite Hdf; reflexivity).
  assert (Yx : the_data (om_of kc (fun e => e) oid m) cons cex_args cex1_kw vx = Some (cex_vec 1 2)) by (unfold the_data; rewrite Dx; reflexivity).
  clear Hdf.
  assert (Hg : good_names (om_of kc (fun e => e) oid m) cons).
  { unfold good_names, argument_names, cons, om_of. cbn [om_indep om_dep fc_om map]. rewrite E2, E3, F22, F23.
    split; [apply nodupb_iff; vm_compute; reflexivity|]. split; [intros c [<-|[]]; cbn [fc_om om_indep om_dep]; rewrite ?F22, ?F23; apply nodupb_iff; vm_compute; reflexivity|apply nodupb_iff; vm_compute; reflexivity]. }
  assert (HG : inputs_on_grid [2%nat] m (the_data (om_of kc (fun e => e) oid m) cons cex_args cex1_kw)).
  { split; [discriminate|]. split; [intros [H|[]]; discriminate|].
    rewrite E3. intros v [<-|[]]. rewrite Yx. eexists. split; [reflexivity|]. split; [reflexivity|right; reflexivity]. }
  assert (Hgc : good_constraints lex_es [cex_u]).
  { intros u Hu. assert (Hn : constraint_name lex_es (uc_left u) (uc_right u) (uc_name u)).
    { destruct Hu as [<-|[]]; cbn [uc_left uc_right uc_name cex_u];
        (split; [eexists; reflexivity|]; split; [decide_model|]; split; [decide_model|]; split; [decide_model|]; split; [decide_model|];
         intros s [Hs|Hs]; apply mentionsl_ok in Hs; cbn in Hs; intuition (subst; reflexivity)). }
    split; [exact Hn|]. destruct Hu as [<-|[]]; cbn; auto. }
  assert (Hcg : constraints_on_grid [2%nat] lex_es [cex_u] (the_data (om_of kc (fun e => e) oid m) cons cex_args cex1_kw)).
  { intros u v [<-|[]] Hv Hp Hnk; cbn [uc_left uc_right cex_u] in Hv; exfalso; rewrite !mentionsl_ok in Hv; cbn in Hv; intuition (subst; try discriminate);
      apply Hnk; left; reflexivity. }
  assert (Hne : m_params m <> []) by (rewrite E1; discriminate).
  assert (Huse : uses_constraints (mi_class mn) = true /\ uses_jacobian (mi_class mn) = true) by (rewrite Hcl; split; reflexivity).
  assert (Hkd : keeps_defined ESub ENeg) by (split; intros; cbn in *; tauto).
  assert (Hnd : NoDup (dkeys cex1_kw)) by (apply nodupb_iff; reflexivity).
  destruct (C81_constraint_jacobian kc (fun e => e) ESub ENeg oid oid lex_es m lex_sol [cex_u] toward0 (eex_heap false) cons ODefault MDefault None cex_args cex1_kw f mn None 0 cex_u c2 RGe J 2
    Hkc simp_id_ok eex_arith Hkd oid_ok Hm lex_means Hne Hgc Hic Hg Hnd Hf HG Hcg (or_introl eq_refl) Hmn (proj1 Huse) (proj2 Huse) eq_refl A2 HJ Hap) as (k & w & Hk & Hw & _ & Hx).
  exists m, cons, f, mn, k, w. split; [exact Hm|]. split; [exact E1|]. split; [exact Hic|]. split; [exact Hf|]. split; [exact Hmn|]. split; [exact Hcl|]. split; [exact Hk|]. split; [exact Hw|].
  intros a. rewrite E1 in Hx. destruct (Hx [a] eq_refl) as (c & M & _ & _ & _ & CM & _ & _ & _ & G). apply G; [|reflexivity].
  rewrite CM; [discriminate|]. exists vy, vx, (cex_vec 1 2). split; [left; cbn; auto|]. split; [right; apply t_step; eexists; split; [left; reflexivity|left; cbn; auto]|].
  split; [intros [E|[]]; discriminate|]. split; [reflexivity|]. split; [exact Yx|reflexivity].
Qed.
