(** * Prop_Jacobian: properties C13 and C14. *)
From Coq Require Import Reals Lra.
From Coquelicot Require Import Coquelicot.
From Verif Require Import PyBase PyFacts Signature Expr Model ModelSpec ModelFacts CallFacts ExprR Jacobian JacFacts JacAnalysis JacSecond JacLemmas Decide Prop_Model DerModel.
Local Open Scope R_scope.

(** ** C13.  [sol inp v] is the value of component [v] at the inputs [inp]
    (independent variables and parameters): the entry for [v] and [p] is the partial
    derivative of it with respect to [p], through interdependent components.  For chains in which a
    component refers to one that itself refers to a component depending on the
    same parameter there is no Jacobian model ([jacobian_items] is not [Ok], see
    C13_deep_chain_refuted).  For array-valued data see C13_arrays. *)
Theorem C13_jacobian_is_derivative :
  forall simp ord1 ord2 (items : dict sym (comp (V:=R))) m J sol inp,
    simp_ok simp -> set_order ord1 -> set_order ord2 ->
    is_dict items -> no_self_reference items -> plain_model items ->
    init_model ord1 items = Ok m -> jacobian_items simp ord2 m = Ok J -> distinct_names J ->
    (forall inp', solution Ralg items inp' (sol inp')) ->
    (forall k e, In (k, CExpr e) items -> defined (sol inp) e) ->
    exists d : sym -> sym -> R,
      (forall v p, In v (dkeys items) -> In p (m_params m) ->
         is_derive (fun t => sol (set_input inp p t) v) (inp p) (d v p)) /\
      (forall args kw, supplies (named inp (m_indep m ++ m_params m)) args kw ->
         eval_jacobian Ralg simp ord2 m args kw = Ok (map (fun v => map (d v) (m_params m)) (dkeys (m_dict m)))).
Proof. exact jacobian_spec. Qed.
Print Assumptions C13_jacobian_is_derivative.

(** The same for a constraint, whose parameter list [ps] is that of the fitted
    model (models.py:197-204): entries of parameters that do not occur are 0. *)
Theorem C13_constraint_jacobian :
  forall simp ord1 ord2 (items : dict sym (comp (V:=R))) m0 m ps J sol inp,
    simp_ok simp -> set_order ord1 -> set_order ord2 ->
    is_dict items -> no_self_reference items -> plain_model items ->
    init_model ord1 items = Ok m0 -> set_params m0 ps = Ok m ->
    (forall p, In p ps -> is_par p = true) -> (forall p, In p (m_params m0) -> In p ps) ->
    (forall inp', solution Ralg items inp' (sol inp')) ->
    jacobian_items simp ord2 m = Ok J -> distinct_names J -> (forall k p, In k (dkeys J) -> In p ps -> sname k <> sname p) ->
    (forall k e, In (k, CExpr e) items -> defined (sol inp) e) ->
    exists d : sym -> sym -> R,
      (forall v p, In v (dkeys items) -> In p ps -> is_derive (fun t => sol (set_input inp p t) v) (inp p) (d v p)) /\
      (forall args kw, supplies (named inp (m_indep m ++ m_params m)) args kw ->
         eval_jacobian Ralg simp ord2 m args kw = Ok (map (fun v => map (d v) ps) (dkeys (m_dict m)))).
Proof.
  intros simp ord1 ord2 items m0 m ps J sol inp Hs Ho1 Ho2 Hd Hself Hpl Hi Hp Hps Hsub Hsol HJ Hn Hpn Hdef.
  exact (eval_jacobian_gen simp ord1 ord2 items m0 m ps Hs Ho1 Ho2 Hd Hself Hpl Hi Hp Hps Hsub sol Hsol J inp HJ Hn Hpn Hdef).
Qed.
Print Assumptions C13_constraint_jacobian.

(** Never a wrong number: whatever eval_jacobian returns is the matrix of derivatives, provided the names
    are letters and digits (so that no derivative is called like another symbol). *)
Theorem C13_returned_jacobian :
  forall simp ord1 ord2 (items : dict sym (comp (V:=R))) m sol inp args kw out,
    simp_ok simp -> set_order ord1 -> set_order ord2 -> is_dict items -> no_self_reference items -> plain_model items -> simple_names items ->
    init_model ord1 items = Ok m -> (forall inp', solution Ralg items inp' (sol inp')) ->
    (forall k e, In (k, CExpr e) items -> defined (sol inp) e) ->
    supplies (named inp (m_indep m ++ m_params m)) args kw -> eval_jacobian Ralg simp ord2 m args kw = Ok out ->
    exists d : sym -> sym -> R,
      (forall v p, In v (dkeys items) -> In p (m_params m) -> is_derive (fun t => sol (set_input inp p t) v) (inp p) (d v p)) /\
      out = map (fun v => map (d v) (m_params m)) (dkeys (m_dict m)).
Proof. exact returned_jacobian. Qed.
Print Assumptions C13_returned_jacobian.

(** The Jacobian and the Hessian can be formed for every model in which the
    components that others refer to are given in terms of inputs only. *)
Theorem C13_shallow_models_have_jacobian :
  forall simp ord1 ord2 (items : dict sym (comp (V:=R))) m,
    simp_ok simp -> set_order ord1 -> set_order ord2 ->
    is_dict items -> no_self_reference items -> plain_model items ->
    init_model ord1 items = Ok m ->
    (forall k z y, refers items k z -> refers items z y -> ~ In y (dkeys items)) ->
    exists J H, jacobian_items simp ord2 m = Ok J /\ hessian_items simp ord2 m = Ok H.
Proof. exact shallow_spec. Qed.
Print Assumptions C13_shallow_models_have_jacobian.

(** The solution map the theorems speak about exists. *)
Theorem C13_solution_map_exists :
  forall ord (items : dict sym (comp (V:=R))) m, set_order ord -> is_dict items -> no_self_reference items ->
    init_model ord items = Ok m ->
    exists sol : (sym -> R) -> sym -> R, forall inp, solution Ralg items inp (sol inp).
Proof. intros ord items m. exact (solution_map Ralg ord items m). Qed.
Print Assumptions C13_solution_map_exists.

(** A chain of three components in which all depend on [a]: the symbolic derivative
    contains a derivative with respect to a component and cannot be evaluated. *)
Theorem C13_deep_chain_refuted :
  exists (items : dict sym (comp (V:=R))) m, is_dict items /\ distinct_names items /\ no_self_reference items /\ plain_model items /\
    init_model oid items = Ok m /\ jacobian_items (fun e => e) oid m = Raise NameError.
Proof.
  exists [(vw, CExpr (EMul (ESym vz) (ESym pa))); (vy, CExpr (EMul (ESym pa) (ESym vx))); (vz, CExpr (EAdd (ESym vy) (ESym pb)))].
  eexists. do 3 (split; [decide_model|]). split.
  { split.
    - intros k Hk. simpl in Hk. destruct Hk as [<-|[<-|[<-|[]]]]; eexists; reflexivity.
    - intros k s Hr. apply refers_list in Hr as (c & Hin & Hs). simpl in Hin.
      destruct Hin as [Hq|[Hq|[Hq|[]]]]; inv Hq; simpl in Hs; decompose [or] Hs; subst; try reflexivity; contradiction. }
  split; vm_compute; reflexivity.
Qed.
Print Assumptions C13_deep_chain_refuted.

(** ** C14.  The entry for [v], [p], [q] is the second partial derivative. *)
Theorem C14_hessian_is_second_derivative :
  forall simp ord1 ord2 (items : dict sym (comp (V:=R))) m H sol inp eps,
    simp_ok simp -> set_order ord1 -> set_order ord2 ->
    is_dict items -> no_self_reference items -> plain_model items ->
    init_model ord1 items = Ok m -> hessian_items simp ord2 m = Ok H -> distinct_names H ->
    (forall inp', solution Ralg items inp' (sol inp')) -> 0 < eps ->
    (forall inp', (forall s, Rabs (inp' s - inp s) < eps) -> (forall s, is_par s = false -> inp' s = inp s) ->
       forall k e, In (k, CExpr e) items -> defined (sol inp') e) ->
    exists h : sym -> sym -> sym -> R,
      (forall v p q, In v (dkeys items) -> In p (m_params m) -> In q (m_params m) ->
         is_derive (fun u => Derive (fun t => sol (set_input (set_input inp q u) p t) v) (set_input inp q u p)) (inp q) (h v p q)) /\
      (forall v p q, In v (dkeys items) -> In p (m_params m) -> In q (m_params m) -> h v p q = h v q p) /\
      (forall args kw, supplies (named inp (m_indep m ++ m_params m)) args kw ->
         eval_hessian Ralg simp ord2 m args kw =
         Ok (map (fun v => map (fun p => map (h v p) (m_params m)) (m_params m)) (dkeys (m_dict m)))).
Proof. exact hessian_spec. Qed.
Print Assumptions C14_hessian_is_second_derivative.

(** ** Example: [{y: a*x, z: y**2 + a*b}] at x = 3, a = 2, b = 5. *)
Definition jex_items : dict sym (comp (V:=R)) :=
  [(vy, CExpr (EMul (ESym pa) (ESym vx))); (vz, CExpr (EAdd (EPow (ESym vy) 2) (EMul (ESym pa) (ESym pb))))].
Definition jex_sol (inp : sym -> R) (s : sym) : R :=
  if eq_dec s vy then inp pa * inp vx
  else if eq_dec s vz then (inp pa * inp vx) * ((inp pa * inp vx) * 1) + inp pa * inp pb else inp s.

Lemma jex_plain : plain_model jex_items.
Proof.
  split.
  - intros k Hk. simpl in Hk. destruct Hk as [<-|[<-|[]]]; eexists; reflexivity.
  - intros k s Hr. apply refers_list in Hr as (c & Hin & Hs). simpl in Hin.
    destruct Hin as [Hq|[Hq|[]]]; inv Hq; simpl in Hs; decompose [or] Hs; subst; try reflexivity; contradiction.
Qed.
Lemma jex_solution inp : solution Ralg jex_items inp (jex_sol inp).
Proof.
  split.
  - intros k e [Hq|[Hq|[]]]; inv Hq; cbn; reflexivity.
  - intros s Hs. unfold jex_sol. destruct (eq_dec s vy) as [->|]; [exfalso; apply Hs; left; reflexivity|].
    destruct (eq_dec s vz) as [->|]; [exfalso; apply Hs; right; left; reflexivity|reflexivity].
Qed.
Lemma simp_id_ok : simp_ok (fun e => e).
Proof. split; auto. Qed.

(** As C13_returned_jacobian. *)
Theorem C14_returned_hessian :
  forall simp ord1 ord2 (items : dict sym (comp (V:=R))) m sol inp eps args kw out,
    simp_ok simp -> set_order ord1 -> set_order ord2 -> is_dict items -> no_self_reference items -> plain_model items ->
    simple_names items -> parameters_without_d items ->
    init_model ord1 items = Ok m -> (forall inp', solution Ralg items inp' (sol inp')) -> 0 < eps ->
    (forall inp', (forall s, Rabs (inp' s - inp s) < eps) -> (forall s, is_par s = false -> inp' s = inp s) ->
       forall k e, In (k, CExpr e) items -> defined (sol inp') e) ->
    supplies (named inp (m_indep m ++ m_params m)) args kw -> eval_hessian Ralg simp ord2 m args kw = Ok out ->
    exists h : sym -> sym -> sym -> R,
      (forall v p q, In v (dkeys items) -> In p (m_params m) -> In q (m_params m) ->
         is_derive (fun u => Derive (fun t => sol (set_input (set_input inp q u) p t) v) (set_input inp q u p)) (inp q) (h v p q)) /\
      (forall v p q, In v (dkeys items) -> In p (m_params m) -> In q (m_params m) -> h v p q = h v q p) /\
      out = map (fun v => map (fun p => map (h v p) (m_params m)) (m_params m)) (dkeys (m_dict m)).
Proof. exact returned_hessian. Qed.
Print Assumptions C14_returned_hessian.

Example C13_simple_names : simple_names jex_items /\ parameters_without_d jex_items.
Proof.
  assert (Hs : forall s, symbol_of jex_items s -> In s [vx; vy; vz; pa; pb]).
  { intros s [Hk|(k & e & Hin & Hm)].
    - simpl in Hk. destruct Hk as [<-|[<-|[]]]; simpl; tauto.
    - simpl in Hin. destruct Hin as [Hin|[Hin|[]]]; inversion Hin; subst; destruct Hm as [Hm|(y & ps & Hm & ->)]; simpl in Hm; intuition (subst; simpl; try tauto; try discriminate). }
  split; [split|].
  - intros s t H1 H2. apply Hs in H1. apply Hs in H2. simpl in H1, H2. intuition (subst; try reflexivity; try discriminate).
  - intros s H. apply Hs in H. simpl in H. intuition (subst; split; reflexivity).
  - intros p H _. apply Hs in H. simpl in H. intuition (subst; reflexivity).
Qed.

Example C13_example :
  simp_ok (fun e => e) /\ set_order oid /\ is_dict jex_items /\ no_self_reference jex_items /\ plain_model jex_items /\
  (forall inp', solution Ralg jex_items inp' (jex_sol inp')) /\
  (forall inp k e, In (k, CExpr e) jex_items -> defined (jex_sol inp) e) /\
  exists m J H, init_model oid jex_items = Ok m /\
    jacobian_items (fun e => e) oid m = Ok J /\ distinct_names J /\
    hessian_items (fun e => e) oid m = Ok H /\ distinct_names H /\
    map sname (dkeys J) = ["dy_da"; "dy_db"; "dz_da"; "dz_db"; "y"; "z"]%string.
Proof.
  split; [exact simp_id_ok|]. split; [exact oid_ok|]. do 2 (split; [decide_model|]). split; [exact jex_plain|]. split; [exact jex_solution|].
  split. { intros inp k e [Hq|[Hq|[]]]; inv Hq; cbn; auto. }
  do 3 eexists. split; [vm_compute; reflexivity|]. split; [vm_compute; reflexivity|]. split; [decide_model|].
  split; [vm_compute; reflexivity|]. split; [decide_model|]. vm_compute; reflexivity.
Qed.
(** The integer version of the same model, computed: d z/d a = 2*y*x + b. *)
Example C13_example_computed :
  exists m, init_model oid ([(vy, CExpr (EMul (ESym pa) (ESym vx))); (vz, CExpr (EAdd (EPow (ESym vy) 2) (EMul (ESym pa) (ESym pb))))] : dict sym (comp (V:=Z))) = Ok m /\
    eval_jacobian Zalg (fun e => e) oid m [3%Z; 2%Z; 5%Z] [] = Ok [[3; 0]; [41; 2]]%Z /\
    eval_hessian Zalg (fun e => e) oid m [3%Z; 2%Z; 5%Z] [] = Ok [[[0; 0]; [0; 0]]; [[18; 1]; [1; 0]]]%Z.
Proof. eexists. split; [vm_compute; reflexivity|]. split; vm_compute; reflexivity. Qed.
