(** * Prop_ArrModel: symbolic models on arrays (C01, C13, C14), and the objectives of
    such models (C19 - C25), with nothing assumed about the model but how it was made.

    Arrays: shapes and indices are written last axis first, [val a i] is the entry at
    [i], [elem a i] the entry after broadcasting; a Jacobian of a component of shape
    [s] with [n] parameters has shape [s ++ [n]] and its entry for parameter number [k]
    at [i] is [val j (i ++ [k])], i.e. [j[k][i]] in numpy. *)
From Coq Require Import Reals Relations Lra Lia.
From Coquelicot Require Import Coquelicot.
From Verif Require Import PyBase PyFacts Signature SignatureFacts Expr Model ModelSpec ModelFacts CallFacts ExprR Jacobian JacFacts JacAnalysis JacSecond JacLemmas Cast NumPy NumFacts Objective ObjSpec ObjFacts ObjDiff ArrModel ArrSpec ArrFacts ArrCall ArrObj ArrMain Decide Prop_Model Prop_Jacobian.
Local Open Scope R_scope.

(** ** C01 on arrays: every component is evaluated pointwise, and is broadcast to the
    grid of the data it refers to. *)
Theorem C01_arrays : forall ord1 ord2 es m sol G inp,
  set_order ord2 -> model_of ord1 es m -> means es sol ->
  (forall s, In s (m_indep m ++ m_params m) -> on_grid G (shp (inp s))) ->
  exists o, arr_call ord2 m (named inp (m_indep m ++ m_params m)) = Ok o /\ dkeys o = sort_by sname (dkeys es) /\
    forall v, In v (dkeys es) -> exists a, dget o v = Some (atleast_1d a) /\ on_grid G (shp a) /\
      (forall x, refers (comps (V:=R) es) v x -> ~ In x (dkeys es) -> fits (shp (inp x)) (shp a) = true) /\
      forall i, elem a i = sol (at_index inp i) v.
Proof. intros ord1 ord2 es m sol G inp Ho Hm Hs. exact (arrays_call ord1 ord2 es m sol G Ho Hm Hs inp). Qed.
Print Assumptions C01_arrays.

(** ** C13 on arrays *)
Theorem C13_arrays : forall simp ord1 ord2 es m sol G inp,
  simp_ok simp -> set_order ord2 -> model_of ord1 es m -> means es sol -> m_params m <> [] -> has_jacobian simp ord2 m ->
  (forall s, In s (m_indep m ++ m_params m) -> on_grid G (shp (inp s))) ->
  exists o jac, arr_call ord2 m (named inp (m_indep m ++ m_params m)) = Ok o /\ arr_jac simp ord2 m (named inp (m_indep m ++ m_params m)) = Ok jac /\
    forall v, In v (dkeys es) -> exists c j, dget o v = Some c /\ dget jac v = Some j /\ shp j = shp c ++ [List.length (m_params m)] /\
      forall i k p, In i (indices (shp c)) -> nth_error (m_params m) k = Some p ->
        (forall u e, In (u, e) es -> defined (sol (at_index inp i)) e) ->
        is_derive (fun t => sol (set_input (at_index inp i) p t) v) (at_index inp i p) (val j (i ++ [k])).
Proof. intros simp ord1 ord2 es m sol G inp Hs Ho Hm Hsol. exact (arrays_jacobian simp ord1 ord2 es m sol G Ho Hm Hsol Hs inp). Qed.
Print Assumptions C13_arrays.

(** ** C14 on arrays: entry for [p] (number [k]) and [q] (number [l]) *)
Theorem C14_arrays : forall simp ord1 ord2 es m sol G inp,
  simp_ok simp -> set_order ord2 -> model_of ord1 es m -> means es sol -> m_params m <> [] -> has_hessian simp ord2 m ->
  (forall s, In s (m_indep m ++ m_params m) -> on_grid G (shp (inp s))) ->
  exists o hess, arr_call ord2 m (named inp (m_indep m ++ m_params m)) = Ok o /\ arr_hess simp ord2 m (named inp (m_indep m ++ m_params m)) = Ok hess /\
    forall v, In v (dkeys es) -> exists c g, dget o v = Some c /\ dget hess v = Some g /\ shp g = shp c ++ [List.length (m_params m); List.length (m_params m)] /\
      forall i k l p q eps, In i (indices (shp c)) -> nth_error (m_params m) k = Some p -> nth_error (m_params m) l = Some q -> 0 < eps ->
        (forall inp', (forall s, Rabs (inp' s - at_index inp i s) < eps) -> (forall s, is_par s = false -> inp' s = at_index inp i s) ->
           forall u e, In (u, e) es -> defined (sol inp') e) ->
        is_derive (fun u => Derive (fun t => sol (set_input (set_input (at_index inp i) q u) p t) v) (set_input (at_index inp i) q u p)) (at_index inp i q) (val g (i ++ [l; k])) /\
        val g (i ++ [l; k]) = val g (i ++ [k; l]).
Proof. intros simp ord1 ord2 es m sol G inp Hs Ho Hm Hsol. exact (arrays_hessian simp ord1 ord2 es m sol G Ho Hm Hsol Hs inp). Qed.
Print Assumptions C14_arrays.

(** ** C19: LeastSquares of a symbolic model *)
Theorem C19_symbolic_model : forall simp ord1 ord2 es m sol h data G cls ob xs,
  set_order ord2 -> model_of ord1 es m -> means es sol ->
  obj_init false (om_of cls simp ord2 m) data = Ok ob -> independent_on_grid G m data -> dependent_on_grid G m data -> full_vector h m xs ->
  ls_call true h (om_of cls simp ord2 m) ob xs [] = Ok (half_chi2_at sol h m data xs).
Proof.
  intros simp ord1 ord2 es m sol h data G cls ob xs Ho Hm Hsol Hob Hg Hdep Hl.
  exact (model_ls_value simp ord1 ord2 es m m Ho (built_self ord1 es m Hm) sol Hsol h data G cls Hg ob xs Hob Hdep Hl).
Qed.
Print Assumptions C19_symbolic_model.

(** ** C20 *)
Theorem C20_symbolic_model : forall simp ord1 ord2 es m sol h data G cls ob xs,
  simp_ok simp -> set_order ord2 -> model_of ord1 es m -> means es sol -> m_params m <> [] -> cls <> KCallable -> has_jacobian simp ord2 m ->
  obj_init false (om_of cls simp ord2 m) data = Ok ob -> independent_on_grid G m data -> dependent_on_grid G m data -> no_shape_clash G m ->
  some_data (om_of cls simp ord2 m) data -> full_vector h m xs -> defined_at G es sol h m data xs ->
  exists g, ls_jac h (om_of cls simp ord2 m) ob xs [] = Ok g /\ shp g = [List.length (m_params m)] /\
    forall p j k, free_parameter h m p j k -> partial_derivative (half_chi2_at sol h m data) xs j (val g [k]).
Proof.
  intros simp ord1 ord2 es m sol h data G cls ob xs Hs Ho Hm Hsol Hne Hc HJ Hob Hg.
  exact (arrays_ls_gradient simp ord1 ord2 es m sol G Ho Hm Hsol Hs h data cls Hg ob xs Hne Hc HJ Hob).
Qed.
Print Assumptions C20_symbolic_model.

(** ** C21 *)
Theorem C21_symbolic_model : forall simp ord1 ord2 es m sol h data G ob xs,
  simp_ok simp -> set_order ord2 -> model_of ord1 es m -> means es sol -> m_params m <> [] -> has_hessian simp ord2 m ->
  obj_init false (om_of KModel simp ord2 m) data = Ok ob -> independent_on_grid G m data -> dependent_on_grid G m data -> no_shape_clash G m ->
  some_data (om_of KModel simp ord2 m) data -> full_vector h m xs -> defined_near G es sol h m data xs ->
  exists g, ls_hess h (om_of KModel simp ord2 m) ob xs [] = Ok g /\ shp g = [List.length (m_params m); List.length (m_params m)] /\
    (forall p j k q i l, free_parameter h m p j k -> free_parameter h m q i l ->
       second_partial (half_chi2_at sol h m data) xs i j (val g [l; k])) /\
    forall k l, (k < List.length (m_params m))%nat -> (l < List.length (m_params m))%nat -> val g [l; k] = val g [k; l].
Proof.
  intros simp ord1 ord2 es m sol h data G ob xs Hs Ho Hm Hsol Hne HH Hob Hg.
  exact (arrays_ls_hessian simp ord1 ord2 es m sol G Ho Hm Hsol Hs h data KModel Hg ob xs Hne eq_refl HH Hob).
Qed.
Print Assumptions C21_symbolic_model.

(** ** C22: J^T W J *)
Theorem C22_symbolic_model : forall simp ord1 ord2 es m sol h data G cls ob xs,
  simp_ok simp -> set_order ord2 -> model_of ord1 es m -> means es sol -> m_params m <> [] -> cls <> KCallable -> has_jacobian simp ord2 m ->
  obj_init false (om_of cls simp ord2 m) data = Ok ob -> independent_on_grid G m data -> dependent_on_grid G m data -> no_shape_clash G m ->
  some_data (om_of cls simp ord2 m) data -> full_vector h m xs -> defined_at G es sol h m data xs ->
  exists g, ls_hess_approx h (om_of cls simp ord2 m) ob xs [] = Ok g /\ shp g = [List.length (m_params m); List.length (m_params m)] /\
    (forall p j k q i l, free_parameter h m p j k -> free_parameter h m q i l ->
      exists Dp Dq, (forall v n, In v (m_dep m) -> In n (indices G) ->
          partial_derivative (fun z => predicted sol h (m_params m) data z v n) xs j (Dp v n) /\
          partial_derivative (fun z => predicted sol h (m_params m) data z v n) xs i (Dq v n)) /\
        val g [l; k] = Rsum (map (fun v => match observed data v, observed data (sigma_of v) with
          | Some y, Some s => Rsum (map (fun n => Dp v n * Dq v n / elem s n ^ 2) (indices (shp y)))
          | _, _ => 0 end) (m_dep m))) /\
    (forall k l, (k < List.length (m_params m))%nat -> (l < List.length (m_params m))%nat -> val g [l; k] = val g [k; l]) /\
    forall z : nat -> R, 0 <= Rsum (map (fun k => Rsum (map (fun l => z k * val g [l; k] * z l) (seq 0 (List.length (m_params m))))) (seq 0 (List.length (m_params m)))).
Proof.
  intros simp ord1 ord2 es m sol h data G cls ob xs Hs Ho Hm Hsol Hne Hc HJ Hob Hg.
  exact (arrays_ls_approx simp ord1 ord2 es m sol G Ho Hm Hsol Hs h data cls Hg ob xs Hne Hc HJ Hob).
Qed.
Print Assumptions C22_symbolic_model.

(** ** C23: LogLikelihood *)
Theorem C23_symbolic_model_value : forall simp ord1 ord2 es m sol h data G cls ob xs,
  set_order ord2 -> model_of ord1 es m -> means es sol ->
  obj_init true (om_of cls simp ord2 m) data = Ok ob -> independent_on_grid G m data -> covers_grid G es m data -> full_vector h m xs ->
  ll_call h (om_of cls simp ord2 m) ob xs [] = Ok (minus_log_likelihood G sol h m data xs).
Proof.
  intros simp ord1 ord2 es m sol h data G cls ob xs Ho Hm Hsol Hob Hg Hc Hl.
  exact (model_ll_value simp ord1 ord2 es m m Ho (built_self ord1 es m Hm) sol Hsol h data G cls Hg ob xs Hob Hc Hl).
Qed.
Print Assumptions C23_symbolic_model_value.
Theorem C23_symbolic_model_gradient : forall simp ord1 ord2 es m sol h data G cls ob xs,
  simp_ok simp -> set_order ord2 -> model_of ord1 es m -> means es sol -> m_params m <> [] -> cls <> KCallable -> has_jacobian simp ord2 m ->
  obj_init true (om_of cls simp ord2 m) data = Ok ob -> independent_on_grid G m data -> covers_grid G es m data -> m_dep m <> [] ->
  full_vector h m xs -> positive_at G sol h m data xs -> defined_at G es sol h m data xs ->
  exists g, ll_jac h (om_of cls simp ord2 m) ob xs [] = Ok g /\ shp g = [List.length (m_params m)] /\
    forall p j k, free_parameter h m p j k -> partial_derivative (minus_log_likelihood G sol h m data) xs j (val g [k]).
Proof.
  intros simp ord1 ord2 es m sol h data G cls ob xs Hs Ho Hm Hsol Hne Hc HJ Hob Hg.
  exact (arrays_ll_gradient simp ord1 ord2 es m sol G Ho Hm Hsol Hs h data cls Hg ob xs Hne Hc HJ Hob).
Qed.
Print Assumptions C23_symbolic_model_gradient.
Theorem C23_symbolic_model_hessian : forall simp ord1 ord2 es m sol h data G ob xs,
  simp_ok simp -> set_order ord2 -> model_of ord1 es m -> means es sol -> m_params m <> [] -> has_hessian simp ord2 m ->
  obj_init true (om_of KModel simp ord2 m) data = Ok ob -> independent_on_grid G m data -> covers_grid G es m data -> m_dep m <> [] ->
  full_vector h m xs -> positive_at G sol h m data xs -> defined_near G es sol h m data xs ->
  exists g, ll_hess h (om_of KModel simp ord2 m) ob xs [] = Ok g /\ shp g = [List.length (m_params m); List.length (m_params m)] /\
    (forall p j k q i l, free_parameter h m p j k -> free_parameter h m q i l ->
       second_partial (minus_log_likelihood G sol h m data) xs i j (val g [l; k])) /\
    forall k l, (k < List.length (m_params m))%nat -> (l < List.length (m_params m))%nat -> val g [l; k] = val g [k; l].
Proof.
  intros simp ord1 ord2 es m sol h data G ob xs Hs Ho Hm Hsol Hne HH Hob Hg.
  exact (arrays_ll_hessian simp ord1 ord2 es m sol G Ho Hm Hsol Hs h data KModel Hg ob xs Hne eq_refl HH Hob).
Qed.
Print Assumptions C23_symbolic_model_hessian.

(** ** C24: VectorLeastSquares; all data on one grid is what the claim needs *)
Theorem C24_symbolic_model : forall simp ord1 ord2 es m sol h data G cls ob xs,
  simp_ok simp -> set_order ord2 -> model_of ord1 es m -> means es sol -> m_params m <> [] -> cls <> KCallable -> has_jacobian simp ord2 m ->
  obj_init false (om_of cls simp ord2 m) data = Ok ob -> independent_on_grid G m data -> dependent_on_grid G m data -> no_shape_clash G m ->
  some_data (om_of cls simp ord2 m) data -> full_vector h m xs -> defined_at G es sol h m data xs ->
  exists r D, vls_call true h (om_of cls simp ord2 m) ob xs [] = Ok r /\ vls_jac h (om_of cls simp ord2 m) ob xs [] = Ok D /\
    shp r = [List.length (indices G)] /\ shp D = [List.length (m_params m); List.length (indices G)] /\
    Rsum (map (fun n => val r [n] ^ 2) (seq 0 (List.length (indices G)))) = 2 * half_chi2_at sol h m data xs /\
    forall p j k n, free_parameter h m p j k -> (n < List.length (indices G))%nat -> val r [n] <> 0 ->
      exists F, locally (nth j xs 0) (fun t => exists rt, vls_call true h (om_of cls simp ord2 m) ob (set_nth xs j t) [] = Ok rt /\ val rt [n] = F t) /\
                is_derive F (nth j xs 0) (val D [k; n]).
Proof.
  intros simp ord1 ord2 es m sol h data G cls ob xs Hs Ho Hm Hsol Hne Hc HJ Hob Hg.
  exact (arrays_vls simp ord1 ord2 es m sol G Ho Hm Hsol Hs h data cls Hg ob xs Hne Hc HJ Hob).
Qed.
Print Assumptions C24_symbolic_model.

(** ** C25: MinimizeModel *)
Theorem C25_symbolic_model : forall simp ord1 ord2 es m sol h data G ob xs v,
  simp_ok simp -> set_order ord2 -> model_of ord1 es m -> means es sol -> m_params m <> [] -> has_hessian simp ord2 m ->
  mm_init (om_of KModel simp ord2 m) data = Ok ob -> independent_on_grid G m data -> m_dep m = [v] -> full_vector h m xs -> defined_near G es sol h m data xs ->
  exists c j g, mm_call h (om_of KModel simp ord2 m) ob xs [] = Ok c /\ mm_jac h (om_of KModel simp ord2 m) ob xs [] = Ok (Some j) /\
    mm_hess h (om_of KModel simp ord2 m) ob xs [] = Ok (Some g) /\
    shp j = shp c ++ [List.length (m_params m)] /\ shp g = shp c ++ [List.length (m_params m); List.length (m_params m)] /\
    forall n, In n (indices (shp c)) -> val c n = predicted sol h (m_params m) data xs v n /\
      (forall p i k, free_parameter h m p i k -> partial_derivative (fun z => predicted sol h (m_params m) data z v n) xs i (val j (n ++ [k]))) /\
      (forall p b k q i l, free_parameter h m p b k -> free_parameter h m q i l ->
         second_partial (fun z => predicted sol h (m_params m) data z v n) xs i b (val g (n ++ [l; k]))) /\
      forall k l, (k < List.length (m_params m))%nat -> (l < List.length (m_params m))%nat -> val g (n ++ [l; k]) = val g (n ++ [k; l]).
Proof.
  intros simp ord1 ord2 es m sol h data G ob xs v Hs Ho Hm Hsol Hne HH Hob Hg.
  exact (arrays_mm simp ord1 ord2 es m sol G Ho Hm Hsol Hs h data KModel Hg ob xs v Hne eq_refl HH Hob).
Qed.
Print Assumptions C25_symbolic_model.

(** ** Example: [{y: a*x, z: y**2 + a*b}], [x = [1,2,3]], [z = [4,5,6]], [sigma_z = 2],
    [b] fixed at 5, at the vector [[2]]. *)
Definition aex_es : dict sym expr := [(vy, EMul (ESym pa) (ESym vx)); (vz, EAdd (EPow (ESym vy) 2) (EMul (ESym pa) (ESym pb)))].
Definition aex_vec (a b c : R) : nd := {| shp := [3%nat]; val := fun i => match i with [0%nat] => a | [1%nat] => b | _ => c end |}.
Definition aex_data : dict sym (option nd) := [(vx, Some (aex_vec 1 2 3)); (vz, Some (aex_vec 4 5 6)); (sigma_of vz, Some (scalar 2))].
Definition aex_heap : heap := fun p => {| p_value := 5; p_min := None; p_max := None; p_fixed := if eq_dec p pb then true else false |}.
Lemma aex_means : means aex_es jex_sol. Proof. exact jex_solution. Qed.
Example C19_symbolic_example :
  exists m ob, model_of oid aex_es m /\ means aex_es jex_sol /\ m_params m = [pa; pb] /\ m_dep m = [vz] /\
    has_jacobian (fun e => e) oid m /\ has_hessian (fun e => e) oid m /\
    obj_init false (om_of KModel (fun e => e) oid m) aex_data = Ok ob /\
    independent_on_grid [3%nat] m aex_data /\ dependent_on_grid [3%nat] m aex_data /\ no_shape_clash [3%nat] m /\
    some_data (om_of KModel (fun e => e) oid m) aex_data /\ full_vector aex_heap m [2] /\
    defined_near [3%nat] aex_es jex_sol aex_heap m aex_data [2] /\ covers_grid [3%nat] aex_es m aex_data /\
    positive_at [3%nat] jex_sol aex_heap m aex_data [2] /\ free_parameter aex_heap m pa 0 0 /\
    half_chi2_at jex_sol aex_heap m aex_data [2] = / 2 * (((4 * 1 + 10 - 4) / 2) ^ 2 + (((4 * 4 + 10 - 5) / 2) ^ 2 + (((4 * 9 + 10 - 6) / 2) ^ 2 + 0)) + 0).
Proof.
  destruct (init_model oid (comps (V:=res nd) aex_es)) as [m|x] eqn:Hi; [|vm_compute in Hi; discriminate].
  assert (E1 : m_params m = [pa; pb]) by (vm_compute in Hi; inversion Hi; reflexivity).
  assert (E2 : m_dep m = [vz]) by (vm_compute in Hi; inversion Hi; reflexivity).
  assert (E3 : m_indep m = [vx]) by (vm_compute in Hi; inversion Hi; reflexivity).
  assert (Hm : model_of oid aex_es m).
  { split; [exact oid_ok|]. split; [apply nodupb_iff; vm_compute; reflexivity|]. split; [decide_model|]. split; [decide_model|]. split; [exact jex_plain|].
    split; [|exact Hi]. intros k e [Hq|[Hq|[]]]; inv Hq; cbn; repeat split; discriminate. }
  assert (HJ : has_jacobian (fun e => e) oid m).
  { vm_compute in Hi. inversion Hi; subst m. eexists. split; [vm_compute; reflexivity|decide_model]. }
  assert (HH : has_hessian (fun e => e) oid m).
  { vm_compute in Hi. inversion Hi; subst m. eexists. split; [vm_compute; reflexivity|decide_model]. }
  clear Hi.
  assert (Hpr : forall i, predicted jex_sol aex_heap (m_params m) aex_data [2] vz i = (2 * elem (aex_vec 1 2 3) i) * ((2 * elem (aex_vec 1 2 3) i) * 1) + 2 * 5).
  { intros i. unfold predicted, jex_sol. rewrite E1. reflexivity. }
  eexists m, _. split; [exact Hm|]. split; [exact aex_means|]. split; [exact E1|]. split; [exact E2|]. split; [exact HJ|]. split; [exact HH|].
  split. { unfold obj_init. cbn [om_dep om_indep om_of]. rewrite E2, E3. reflexivity. }
  split. { split; [intros [H|[]]; discriminate|]. rewrite E3. intros v [<-|[]]. eexists. split; [reflexivity|]. split; [reflexivity|right; reflexivity]. }
  split. { split; [discriminate|]. rewrite E2. intros v y [<-|[]] Hy. injection Hy as <-. split; [reflexivity|]. eexists. split; [reflexivity|]. split; [reflexivity|].
    intros i _. rewrite elem_scalar. lra. }
  split. { split; discriminate. }
  split. { exists vz, (aex_vec 4 5 6). split; [cbn [om_dep om_of]; rewrite E2; left; reflexivity|reflexivity]. }
  split. { unfold full_vector. rewrite E1. reflexivity. }
  split. { intros i _. exists 1. split; [lra|]. intros inp _ _ k e [Hq|[Hq|[]]]; inv Hq; cbn; auto. }
  split. { split; [discriminate|]. rewrite E2. intros v [<-|[]]. exists vx, (aex_vec 1 2 3). split; [|split; [rewrite E3; left; reflexivity|split; reflexivity]].
    apply t_trans with vy; apply t_step; eexists; (split; [apply in_comps|left]).
    - right; left; reflexivity.
    - simpl; auto.
    - left; reflexivity.
    - simpl; auto. }
  split. { intros v i Hv Hin. rewrite E2 in Hv. destruct Hv as [<-|[]]. rewrite Hpr. nra. }
  split. { split; rewrite E1; reflexivity. }
  unfold half_chi2_at. rewrite E2. cbn [map Rsum fold_right]. f_equal.
  change (observed aex_data vz) with (Some (aex_vec 4 5 6)). change (observed aex_data (sigma_of vz)) with (Some (scalar 2)). cbv beta iota.
  change (indices (shp (aex_vec 4 5 6))) with [[0%nat]; [1%nat]; [2%nat]]. cbn [map Rsum fold_right]. rewrite !Hpr, !elem_scalar.
  change (elem (aex_vec 1 2 3) [0%nat]) with 1. change (elem (aex_vec 1 2 3) [1%nat]) with 2. change (elem (aex_vec 1 2 3) [2%nat]) with 3.
  change (val (aex_vec 4 5 6) [0%nat]) with 4. change (val (aex_vec 4 5 6) [1%nat]) with 5. change (val (aex_vec 4 5 6) [2%nat]) with 6.
  field_simplify. reflexivity.
Qed.
