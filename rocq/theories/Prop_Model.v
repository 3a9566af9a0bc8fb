(** * Prop_Model: the properties C01-C12 and C17 of models. *)
From Coq Require Import Relations Reals Lra.
From Verif Require Import PyBase PyFacts Toposort ToposortFacts LayerFacts Signature SignatureFacts Expr Model ModelSpec ModelFacts CallFacts InitFacts ConstraintFacts AsConstraint ModelMisc ExprR PropLemmas Decide.
Local Open Scope nat_scope.

(** ** Examples used to show that the hypotheses can be met. *)
Definition Zalg : alg Z := {| a_num := fun z => z; a_add := Z.add; a_mul := Z.mul; a_inv := fun x => (1 / x)%Z; a_fun := fun _ x => x |}.
Definition vx := SVar "x". Definition vy := SVar "y". Definition vz := SVar "z". Definition vw := SVar "w".
Definition pa := SPar "a". Definition pb := SPar "b".
Definition oid (l : list sym) := l.
Lemma oid_ok : set_order oid. Proof. intros l; reflexivity. Qed.
(** [{z: y + b, y: a * x}] *)
Definition ex_items {V} : dict sym (comp (V:=V)) :=
  [(vz, CExpr (EAdd (ESym vy) (ESym pb))); (vy, CExpr (EMul (ESym pa) (ESym vx)))].
(** ** C01 *)
Theorem C01_call_evaluates_every_component :
  forall V (A : alg V) ord1 ord2 (items : dict sym comp) m inp,
    set_order ord1 -> set_order ord2 ->
    is_dict items -> distinct_names items -> no_self_reference items ->
    (forall k, In k (dkeys items) -> is_par k = false) ->
    init_model ord1 items = Ok m ->
    exists val, solution A items inp val /\
      (forall val', solution A items inp val' -> forall k, In k (dkeys items) -> val' k = val k) /\
      forall args kw, supplies (named inp (m_indep m ++ m_params m)) args kw ->
        exists names, Permutation names (dkeys items) /\ alphabetical sname names /\
          call A ord2 m args kw = Ok {| mo_vars := names; mo_out := map val names |}.
Proof. exact model_call_spec. Qed.
Print Assumptions C01_call_evaluates_every_component.

Theorem C01_set_order_irrelevant :
  forall V ord1 ord2 (items items' : dict sym (comp (V:=V))),
    set_order ord1 -> set_order ord2 -> is_dict items -> distinct_names items -> Permutation items items' ->
    init_model ord1 items = init_model ord2 items'.
Proof. intros V. exact init_model_ord. Qed.
Print Assumptions C01_set_order_irrelevant.

(** The hypotheses of C01 hold for [{z: y + b, y: a*x}], and the call computes. *)
Example C01_example :
  set_order oid /\ is_dict (@ex_items Z) /\ distinct_names (@ex_items Z) /\ no_self_reference (@ex_items Z) /\
  (forall k, In k (dkeys (@ex_items Z)) -> is_par k = false) /\
  exists m, init_model oid (@ex_items Z) = Ok m /\
    map sname (m_indep m ++ m_params m) = ["x"; "a"; "b"]%string /\
    call Zalg oid m [5%Z] [("b"%string, 3%Z); ("a"%string, 2%Z)] = Ok {| mo_vars := [vy; vz]; mo_out := [10%Z; 13%Z] |}.
Proof.
  split; [exact oid_ok|]. do 4 (split; [decide_model|]).
  eexists. split; [vm_compute; reflexivity|]. split; vm_compute; reflexivity.
Qed.

(** ** C02 *)
Theorem C02_toposort_orders_everything :
  forall (data : dict sym (list sym)) layers, NoDup (dkeys data) -> toposort data = Ok layers ->
    NoDup (concat layers) /\ (forall x, In x (concat layers) <-> node data x) /\
    (forall i L x y, nth_error layers i = Some L -> In x L -> proper_edge data x y ->
       exists j L', j < i /\ nth_error layers j = Some L' /\ In y L') /\
    (forall L, In L layers -> L <> []).
Proof. exact toposort_ok. Qed.
Print Assumptions C02_toposort_orders_everything.

Theorem C02_toposort_never_loops :
  forall data : dict sym (list sym),
    (exists layers, toposort data = Ok layers) \/ toposort data = Raise CircularDependencyError.
Proof. exact toposort_total. Qed.
Print Assumptions C02_toposort_never_loops.

Theorem C02_circular_iff_cycle :
  forall data : dict sym (list sym), NoDup (dkeys data) ->
    toposort data = Raise CircularDependencyError <-> exists x, clos_trans sym (proper_edge data) x x.
Proof. exact toposort_circular_iff. Qed.
Print Assumptions C02_circular_iff_cycle.

Theorem C02_model_rejected_iff_cycle :
  forall V ord (items : dict sym (comp (V:=V))), set_order ord -> is_dict items -> symbolic items ->
    init_model ord items = Raise CircularDependencyError <->
    exists s, clos_trans sym (fun x y => refers items x y /\ y <> x) s s.
Proof. intros V. exact init_model_circular. Qed.
Print Assumptions C02_model_rejected_iff_cycle.

Theorem C02_acyclic_model_accepted :
  forall V ord (items : dict sym (comp (V:=V))),
    set_order ord -> is_dict items -> symbolic items -> distinct_names items ->
    (forall k, In k (dkeys items) -> is_par k = false) ->
    (forall s, ~ clos_trans sym (fun x y => refers items x y /\ y <> x) s s) ->
    (exists k t, refers items k t /\ t <> k) ->
    exists m, init_model ord items = Ok m.
Proof. intros V. exact init_model_succeeds. Qed.
Print Assumptions C02_acyclic_model_accepted.

Example C02_example :
  toposort [(vz, [vy; pb]); (vy, [pa; vx])] = Ok [[pb; pa; vx]; [vy]; [vz]] /\
  toposort [(vz, [vy; pb]); (vy, [pa; vz])] = Raise CircularDependencyError.
Proof. split; vm_compute; reflexivity. Qed.

(** ** C03 *)
Theorem C03_classification :
  forall V ord (items : dict sym (comp (V:=V))) m,
    set_order ord -> is_dict items -> init_model ord items = Ok m ->
    (forall s, In s (m_indep m) <-> symbol_of items s /\ is_par s = false /\ ~ In s (dkeys items)) /\
    (forall s, In s (m_params m) <-> symbol_of items s /\ is_par s = true /\ (forall t, refers items s t -> t = s)) /\
    (forall s, In s (m_dep m) -> In s (dkeys items) /\ (forall k, refers items k s -> k = s)) /\
    (forall s, In s (m_inter m) -> In s (dkeys items)) /\
    alphabetical sname (m_indep m) /\ alphabetical sname (m_params m) /\
    alphabetical sname (m_dep m) /\ alphabetical sname (m_inter m) /\
    NoDup (m_indep m) /\ NoDup (m_params m) /\ NoDup (m_dep m) /\ NoDup (m_inter m) /\
    (forall s, In s (m_dep m) -> ~ In s (m_inter m)).
Proof. exact classification_spec. Qed.
Print Assumptions C03_classification.

(** A Parameter that is a component and refers to anything else is rejected. *)
Theorem C03_parameter_component_rejected :
  forall V ord (items : dict sym (comp (V:=V))) p t, set_order ord -> is_dict items ->
    is_par p = true -> refers items p t -> t <> p -> forall m, init_model ord items <> Ok m.
Proof. intros V. exact param_component_rejected. Qed.
Print Assumptions C03_parameter_component_rejected.

(** The unrestricted claim "a Parameter used as component name is rejected" is
    false: a Parameter with a constant expression is accepted, as a parameter. *)
Theorem C03_constant_parameter_component_refuted :
  exists (items : dict sym (comp (V:=Z))) m, is_dict items /\
    In pa (dkeys items) /\ init_model oid items = Ok m /\ In pa (m_params m).
Proof.
  exists [(pa, CExpr (ENum 3)); (vy, CExpr (EMul (ESym pa) (ESym vx)))].
  eexists. split; [apply nodupb_iff; vm_compute; reflexivity|].
  split; [left; reflexivity|]. split; [vm_compute; reflexivity|]. vm_compute. auto.
Qed.
Print Assumptions C03_constant_parameter_component_refuted.

Example C03_example : exists m, init_model oid (@ex_items Z) = Ok m /\
  m_indep m = [vx] /\ m_params m = [pa; pb] /\ m_dep m = [vz] /\ m_inter m = [vy].
Proof. eexists. split; [vm_compute; reflexivity|]. vm_compute. auto. Qed.

(** ** C04: false of the code in two ways. *)
Theorem C04_unused_component_not_dependent_refuted :
  exists (items : dict sym (comp (V:=Z))) m, is_dict items /\ distinct_names items /\ no_self_reference items /\
    init_model oid items = Ok m /\ In vw (dkeys items) /\ (forall k, ~ refers items k vw) /\ ~ In vw (m_dep m).
Proof.
  exists ((vw, CExpr (EMul (ESym pa) (ESym vx))) :: ex_items). eexists.
  do 3 (split; [decide_model|]).
  split; [vm_compute; reflexivity|]. split; [left; reflexivity|]. split; [decide_model|].
  vm_compute. intuition congruence.
Qed.
Print Assumptions C04_unused_component_not_dependent_refuted.

Theorem C04_constant_component_unlisted_refuted :
  exists (items : dict sym (comp (V:=Z))) m, is_dict items /\ init_model oid items = Ok m /\
    In vy (dkeys items) /\ ~ In vy (m_dep m) /\ ~ In vy (m_inter m).
Proof.
  exists [(vy, CExpr (ENum 3)); (vz, CExpr (EMul (ESym pa) (ESym vx)))]. eexists.
  split; [apply nodupb_iff; vm_compute; reflexivity|].
  split; [vm_compute; reflexivity|]. vm_compute. intuition congruence.
Qed.
Print Assumptions C04_constant_component_unlisted_refuted.

(** What holds: dependent are exactly the components of greatest depth, where the depth is the length of the
    longest chain of references below a component; interdependent all others that refer to anything. *)
Theorem C04_dependent_by_depth :
  forall V ord (items : dict sym (comp (V:=V))) m,
    set_order ord -> is_dict items -> init_model ord items = Ok m ->
    (forall s, In s (m_dep m) <-> exists n, 0 < n /\ refers_down items s n /\ forall t k, refers_down items t k -> k <= n) /\
    (forall s, In s (m_inter m) <-> (exists t, refers items s t /\ t <> s) /\ ~ In s (m_dep m)).
Proof. intros V. exact classified_by_depth. Qed.
Print Assumptions C04_dependent_by_depth.

(** In particular a component that uses some other symbol is in one of the lists, and if no component uses
    another component, every such component is dependent. *)
Theorem C04_components_listed :
  forall V ord (items : dict sym (comp (V:=V))) m,
    set_order ord -> is_dict items -> init_model ord items = Ok m ->
    (forall s t, refers items s t -> t <> s -> In s (m_dep m) \/ In s (m_inter m)) /\
    ((forall k s, refers items k s -> ~ In s (dkeys items)) -> forall s t, refers items s t -> In s (m_dep m)).
Proof. intros V. exact components_listed. Qed.
Print Assumptions C04_components_listed.

(** ** C05 *)
Theorem C05_positional_and_keyword_agree :
  forall V (A : alg V) ord1 ord2 (items : dict sym comp) m inp args kw args' kw',
    set_order ord1 -> set_order ord2 -> is_dict items -> distinct_names items -> no_self_reference items ->
    (forall k, In k (dkeys items) -> is_par k = false) ->
    init_model ord1 items = Ok m ->
    supplies (named inp (m_indep m ++ m_params m)) args kw ->
    supplies (named inp (m_indep m ++ m_params m)) args' kw' ->
    (exists out, call A ord2 m args kw = Ok out) /\ call A ord2 m args kw = call A ord2 m args' kw'.
Proof. exact call_styles_agree. Qed.
Print Assumptions C05_positional_and_keyword_agree.

Theorem C05_argument_order :
  forall V ord (items : dict sym (comp (V:=V))) m, init_model ord items = Ok m ->
    m_sig m = required (map sname (m_indep m ++ m_params m)).
Proof. intros V. exact init_signature. Qed.
Print Assumptions C05_argument_order.

Theorem C05_wrong_arguments_rejected :
  forall V (A : alg V) ord (items : dict sym comp) m ord2 args kw, init_model ord items = Ok m -> NoDup (dkeys kw) ->
    (exists b, dkeys b = map sname (m_indep m ++ m_params m) /\ supplies b args kw) \/
    call A ord2 m args kw = Raise TypeError.
Proof. intros V A. exact (call_rejects A). Qed.
Print Assumptions C05_wrong_arguments_rejected.

Example C05_example : exists m, init_model oid (@ex_items Z) = Ok m /\
  supplies (named (fun s => Z.of_nat (String.length (sname s))) (m_indep m ++ m_params m)) [1%Z] [("b", 1%Z); ("a", 1%Z)]%string /\
  call Zalg oid m [1%Z; 2%Z] [] = Raise TypeError /\
  call Zalg oid m [1%Z; 2%Z; 3%Z; 4%Z] [] = Raise TypeError /\
  call Zalg oid m [1%Z; 2%Z; 3%Z] [("a"%string, 4%Z)] = Raise TypeError.
Proof.
  eexists. split; [vm_compute; reflexivity|]. split; [exists 1; split; [reflexivity|]; simpl; apply perm_swap|].
  vm_compute. auto.
Qed.

(** ** C06 *)
Theorem C06_output_access :
  forall W (o : model_output W) i v x,
    NoDup (map sname (mo_vars o)) -> length (mo_vars o) = length (mo_out o) ->
    nth_error (mo_vars o) i = Some v -> nth_error (mo_out o) i = Some x ->
    mo_index o i = Ok x /\ mo_attr o (sname v) = Ok x /\ dget (mo_dict o) v = Some x.
Proof. intros W. exact model_output_access. Qed.
Print Assumptions C06_output_access.

(** Every successful call of a model returns such an output. *)
Theorem C06_call_output_wellformed :
  forall V (A : alg V) ord1 ord2 (items : dict sym comp) m args kw o,
    is_dict items -> distinct_names items -> init_model ord1 items = Ok m -> call A ord2 m args kw = Ok o ->
    NoDup (map sname (mo_vars o)) /\ length (mo_vars o) = length (mo_out o) /\ mo_vars o = dkeys (m_dict m).
Proof. intros V A. exact (call_output_wellformed A). Qed.
Print Assumptions C06_call_output_wellformed.

Theorem C06_unknown_name : forall W (o : model_output W) n,
  ~ In n (map sname (mo_vars o)) -> mo_attr o n = Raise AttributeError.
Proof. intros W. exact model_output_missing. Qed.
Print Assumptions C06_unknown_name.

Theorem C06_pickle : forall W (o : model_output W), mo_setstate (mo_getstate o) = o.
Proof. intros W. exact model_output_pickle. Qed.
Print Assumptions C06_pickle.

Example C06_example : let o := {| mo_vars := [vy; vz]; mo_out := [10%Z; 13%Z] |} in
  NoDup (map sname (mo_vars o)) /\ length (mo_vars o) = length (mo_out o) /\
  mo_attr o "z" = Ok 13%Z /\ mo_index o 1 = Ok 13%Z /\ mo_attr o "q" = Raise AttributeError.
Proof. simpl. repeat split; try reflexivity. apply nodupb_iff; vm_compute; reflexivity. Qed.

(** ** C07.  [mulm1] is sympy's multiplication by -1. *)
Theorem C07_negation :
  forall V (A : alg V) mulm1 ord1 ord2 ord3 (items : dict sym comp) m inp val args kw,
    set_order ord1 -> set_order ord2 -> set_order ord3 -> is_dict items -> distinct_names items -> no_self_reference items ->
    (forall k, In k (dkeys items) -> is_par k = false) ->
    (forall e s, mentions (mulm1 e) s <-> mentions e s) ->
    (forall e env, eval A env (mulm1 e) = a_mul A (eval A env e) (a_num A (-1))) ->
    init_model ord1 items = Ok m -> solution A items inp val ->
    exists m', neg_model mulm1 ord2 m = Ok m' /\
      dkeys (m_dict m') = dkeys (m_dict m) /\ m_indep m' = m_indep m /\ m_params m' = m_params m /\
      m_dep m' = m_dep m /\ m_inter m' = m_inter m /\ m_sig m' = m_sig m /\
      (supplies (named inp (m_indep m ++ m_params m)) args kw ->
       call A ord3 m args kw = Ok {| mo_vars := dkeys (m_dict m); mo_out := map val (dkeys (m_dict m)) |} /\
       call A ord3 m' args kw = Ok {| mo_vars := dkeys (m_dict m);
         mo_out := map (fun k => if inb k (m_dep m) then a_mul A (val k) (a_num A (-1)) else val k) (dkeys (m_dict m)) |}).
Proof. intros V A. exact (negation_call A). Qed.
Print Assumptions C07_negation.

Example C07_example : exists m m', init_model oid (@ex_items Z) = Ok m /\ neg_model ENeg oid m = Ok m' /\
  call Zalg oid m' [5; 2; 3]%Z [] = Ok {| mo_vars := [vy; vz]; mo_out := [10; -13]%Z |} /\
  (forall e env, eval Zalg env (ENeg e) = a_mul Zalg (eval Zalg env e) (a_num Zalg (-1))) /\
  (forall e s, mentions (ENeg e) s <-> mentions e s).
Proof.
  eexists _, _. split; [vm_compute; reflexivity|]. split; [vm_compute; reflexivity|]. split; [vm_compute; reflexivity|].
  split; [reflexivity|]. intros e s. unfold mentions, ENeg. simpl. rewrite app_nil_r. reflexivity.
Qed.

(** ** C08: negating a numerical model raises TypeError, for every numerical model; there is no wrong result. *)
Theorem C08_numerical_negation_raises : forall V ord (m : model (V:=V)), neg_numerical ord m = Raise TypeError.
Proof. intros V ord m. unfold neg_numerical. destruct (m_dict m) as [|[k [e|i f]] d]; reflexivity. Qed.
Print Assumptions C08_numerical_negation_raises.
(** So the claim that numerical models can be negated is false; a model to which it applies: *)
Theorem C08_numerical_negation_refuted :
  exists (m : model (V:=Z)), init_numerical oid [(vy, CFun 0 (fun kw => dlook kw "x"%string))] [(vy, [vx; pa])] = Ok m /\
    m_dep m = [vy] /\ forall m', neg_numerical oid m <> Ok m'.
Proof. eexists. split; [vm_compute; reflexivity|]. split; [reflexivity|]. intros m'. discriminate. Qed.
Print Assumptions C08_numerical_negation_refuted.

(** ** C09 *)
Theorem C09_equality :
  forall V expand ord1 ord2 (i1 i2 : dict sym (comp (V:=V))) m1 m2,
    is_dict i1 -> is_dict i2 -> distinct_names i1 -> distinct_names i2 ->
    init_model ord1 i1 = Ok m1 -> init_model ord2 i2 = Ok m2 ->
    exists b, model_eq expand m1 m2 = Ok b /\
      (b = true <-> (length i1 <= 256 /\ forall k, In k (dkeys i1) <-> In k (dkeys i2)) /\
                    (forall k e1 e2, In (k, CExpr e1) i1 -> In (k, CExpr e2) i2 -> expand e1 = expand e2)).
Proof. intros V. exact model_eq_any. Qed.
Print Assumptions C09_equality.

(** Symmetry and transitivity, for models of any size. *)
Theorem C09_symmetric_transitive :
  forall V expand ord1 ord2 ord3 (i1 i2 i3 : dict sym (comp (V:=V))) m1 m2 m3,
    is_dict i1 -> is_dict i2 -> is_dict i3 -> distinct_names i1 -> distinct_names i2 -> distinct_names i3 ->
    init_model ord1 i1 = Ok m1 -> init_model ord2 i2 = Ok m2 -> init_model ord3 i3 = Ok m3 ->
    model_eq expand m1 m2 = model_eq expand m2 m1 /\
    (model_eq expand m1 m2 = Ok true -> model_eq expand m2 m3 = Ok true -> model_eq expand m1 m3 = Ok true).
Proof. intros V. exact model_eq_equivalence. Qed.
Print Assumptions C09_symmetric_transitive.

(** Not reflexive: models with more than 256 components, for which
    [len(self) is not len(other)] makes [model == model] False. *)
Definition big_items : dict sym (comp (V:=Z)) :=
  map (fun i => (SVar ("y" ++ string_of_nat i)%string, CExpr (EMul (ESym pa) (ESym vx)))) (seq 0 257).
Theorem C09_reflexivity_refuted :
  exists m, init_model oid big_items = Ok m /\ model_eq (fun e => e) m m = Ok false.
Proof.
  destruct (init_model oid big_items) as [m|] eqn:Hm; [|exfalso; vm_compute in Hm; discriminate].
  exists m. split; [reflexivity|]. apply model_eq_large. destruct (init_model_inv _ _ _ Hm) as (_ & -> & _).
  rewrite <- (Permutation_length (sort_items_perm big_items)). unfold big_items. rewrite map_length, seq_length. lia.
Qed.
Print Assumptions C09_reflexivity_refuted.

(** ** C10 *)
Theorem C10_constraint_meaning :
  forall sub mulm1 ord ordd (ditems : dict sym comp) dm w r l h cm ty,
    set_order ord -> set_order ordd -> is_dict ditems -> init_model ordd ditems = Ok dm ->
    no_self_reference ditems -> (forall k, In k (dkeys ditems) -> is_par k = false) ->
    (* the constraint's own name is new *)
    distinct_names ((w, CExpr (sub l h)) :: ditems) -> is_par w = false -> ~ symbol_of ditems w -> ~ mentions (sub l h) w ->
    (* sympy's subtraction and multiplication by -1 *)
    (forall env, eval Ralg env (sub l h) = (eval Ralg env l - eval Ralg env h)%R) ->
    (forall e env, eval Ralg env (mulm1 e) = (eval Ralg env e * -1)%R) ->
    (forall e s, mentions (mulm1 e) s <-> mentions e s) ->
    as_constraint sub mulm1 w ord (CRel r l h) dm = Ok (cm, ty) ->
    forall ord2 inp valD args kw, set_order ord2 -> solution Ralg ditems inp valD ->
      supplies (named inp (m_indep cm ++ m_params cm)) args kw ->
      exists o g, call Ralg ord2 cm args kw = Ok o /\ m_dep cm = [w] /\ dget (mo_dict o) w = Some g /\
        (ty = REq \/ ty = RGe) /\
        (constraint_holds ty g <-> rel_holds r (eval Ralg valD l) (eval Ralg valD h)).
Proof. exact constraint_meaning. Qed.
Print Assumptions C10_constraint_meaning.

Theorem C10_constraints_accepted :
  forall V (A : alg V) sub mulm1 ord ordd (ditems : dict sym (comp (V:=V))) dm w r l h,
    set_order ord -> set_order ordd -> is_dict ditems -> init_model ordd ditems = Ok dm ->
    no_self_reference ditems -> (forall k, In k (dkeys ditems) -> is_par k = false) ->
    distinct_names ([(w, CExpr (sub l h))] ++ ditems) -> is_par w = false -> ~ symbol_of ditems w -> ~ mentions (sub l h) w ->
    (forall e s, mentions (mulm1 e) s <-> mentions e s) ->
    (exists s, mentions (sub l h) s) -> (r = REq \/ r = RGe \/ r = RLe) ->
    (forall p, mentions (sub l h) p -> is_par p = true -> In p (m_params dm)) ->
    exists cm ty, as_constraint sub mulm1 w ord (CRel r l h) dm = Ok (cm, ty).
Proof. intros V A. exact (as_constraint_accepts A). Qed.
Print Assumptions C10_constraints_accepted.

Theorem C10_strict_relations_rejected :
  forall V (A : alg V) sub mulm1 ord ordd (ditems : dict sym (comp (V:=V))) dm w r l h,
    set_order ord -> set_order ordd -> is_dict ditems -> init_model ordd ditems = Ok dm ->
    no_self_reference ditems -> (forall k, In k (dkeys ditems) -> is_par k = false) ->
    distinct_names ([(w, CExpr (sub l h))] ++ ditems) -> is_par w = false -> ~ symbol_of ditems w -> ~ mentions (sub l h) w ->
    (forall e s, mentions (mulm1 e) s <-> mentions e s) ->
    (exists s, mentions (sub l h) s) -> r = RGt \/ r = RLt \/ r = RNe ->
    as_constraint sub mulm1 w ord (CRel r l h) dm = Raise ModelError.
Proof. intros V A. exact (as_constraint_strict A). Qed.
Print Assumptions C10_strict_relations_rejected.

(** constraint [z <= a] on the example model *)
Example C10_example : exists dm cm, init_model oid (@ex_items Z) = Ok dm /\
  as_constraint ESub ENeg vw oid (CRel RLe (ESym vz) (ESym pa)) dm = Ok (cm, RGe) /\
  m_params cm = [pa; pb] /\ m_dep cm = [vw] /\
  call Zalg oid cm [5; 2; 3]%Z [] = Ok {| mo_vars := [vw; vy; vz]; mo_out := [-11; 10; 13]%Z |} /\
  ~ symbol_of (@ex_items Z) vw /\ ~ mentions (ESub (ESym vz) (ESym pa)) vw /\
  distinct_names ([(vw, CExpr (ESub (ESym vz) (ESym pa)))] ++ @ex_items Z).
Proof.
  eexists _, _. split; [vm_compute; reflexivity|]. split; [vm_compute; reflexivity|]. split; [vm_compute; reflexivity|].
  split; [vm_compute; reflexivity|]. split; [vm_compute; reflexivity|].
  split; [decide_model|]. split; [decide_model|]. decide_model.
Qed.

(** ** C11 *)
Theorem C11_constraint_parameters :
  forall V (A : alg V) sub mulm1 ord ordd (ditems : dict sym (comp (V:=V))) dm w r l h,
    set_order ord -> set_order ordd -> is_dict ditems -> init_model ordd ditems = Ok dm ->
    no_self_reference ditems -> (forall k, In k (dkeys ditems) -> is_par k = false) ->
    distinct_names ([(w, CExpr (sub l h))] ++ ditems) -> is_par w = false -> ~ symbol_of ditems w -> ~ mentions (sub l h) w ->
    (forall e s, mentions (mulm1 e) s <-> mentions e s) ->
    (forall cm ty, as_constraint sub mulm1 w ord (CRel r l h) dm = Ok (cm, ty) ->
       m_params cm = m_params dm /\
       forall p, mentions (sub l h) p -> is_par p = true -> In p (m_params dm)) /\
    ((exists s, mentions (sub l h) s) -> (r = REq \/ r = RGe \/ r = RLe) ->
     (exists p, mentions (sub l h) p /\ is_par p = true /\ ~ In p (m_params dm)) ->
     as_constraint sub mulm1 w ord (CRel r l h) dm = Raise ModelError).
Proof. intros V A. exact (constraint_parameters A). Qed.
Print Assumptions C11_constraint_parameters.

Example C11_example : exists dm, init_model oid (@ex_items Z) = Ok dm /\
  as_constraint ESub ENeg vw oid (CRel RLe (ESym vz) (ESym (SPar "q"))) dm = Raise ModelError.
Proof. eexists. split; vm_compute; reflexivity. Qed.

(** ** C12 *)
Theorem C12_with_dependencies :
  forall V (A : alg V) ord ordd (items ditems : dict sym comp) dm,
    set_order ord -> set_order ordd -> is_dict items -> is_dict ditems -> init_model ordd ditems = Ok dm ->
    distinct_names (items ++ ditems) -> (forall k, In k (dkeys ditems) -> is_par k = false) ->
    forall ord2 m' inp valD val args kw, set_order ord2 ->
      (forall k, In k (dkeys items) -> is_par k = false) ->
      no_self_reference items -> no_self_reference ditems ->
      (forall k s, refers ditems k s -> ~ In s (dkeys items)) ->
      with_dependencies ord items dm = Ok m' ->
      solution A ditems inp valD -> solution A items valD val ->
      supplies (named inp (m_indep m' ++ m_params m')) args kw ->
      exists keys, NoDup keys /\
        (forall k, In k (dkeys items) -> In k keys) /\
        (forall k, In k keys -> In k (dkeys items) \/ In k (dkeys ditems)) /\
        (forall s, In s (m_indep m') -> ~ In s (dkeys items) /\ ~ In s (dkeys ditems)) /\
        call A ord2 m' args kw = Ok {| mo_vars := keys; mo_out := map (fun s => if inb s (dkeys items) then val s else valD s) keys |}.
Proof. intros V A. exact (with_dependencies_call A). Qed.
Print Assumptions C12_with_dependencies.

Theorem C12_with_dependencies_never_fails :
  forall V ord ordd (items ditems : dict sym (comp (V:=V))) dm,
    set_order ord -> set_order ordd -> is_dict items -> is_dict ditems -> init_model ordd ditems = Ok dm ->
    distinct_names (items ++ ditems) -> (forall k, In k (dkeys ditems) -> is_par k = false) ->
    forall m0, init_model ord items = Ok m0 -> (forall k, In k (dkeys items) -> is_par k = false) ->
      (forall k s, refers ditems k s -> ~ In s (dkeys items)) ->
      exists m', with_dependencies ord items dm = Ok m'.
Proof. intros V. exact with_dependencies_succeeds. Qed.
Print Assumptions C12_with_dependencies_never_fails.

Example C12_example : exists dm m', init_model oid (@ex_items Z) = Ok dm /\
  with_dependencies oid [(vw, CExpr (EMul (ESym vy) (ESym vy)))] dm = Ok m' /\
  call Zalg oid m' [5; 2]%Z [] = Ok {| mo_vars := [vw; vy]; mo_out := [100; 10]%Z |}.
Proof. eexists _, _. split; [vm_compute; reflexivity|]. split; vm_compute; reflexivity. Qed.

(** ** C17 *)
Theorem C17_shared_parameters :
  forall V ord1 ord2 (items : dict sym (comp (V:=V))) m,
    set_order ord1 -> set_order ord2 -> is_dict items -> init_model ord1 items = Ok m ->
    exists b, shared_parameters ord2 m = Ok b /\
      (b = true <-> exists p k1 k2, is_par p = true /\ k1 <> k2 /\ refers items k1 p /\ refers items k2 p).
Proof. intros V. exact shared_parameters_ok. Qed.
Print Assumptions C17_shared_parameters.

Example C17_example : exists m, init_model oid (@ex_items Z) = Ok m /\ shared_parameters oid m = Ok false.
Proof. eexists. split; vm_compute; reflexivity. Qed.
