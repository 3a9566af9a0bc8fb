(** * Prop_Cached: properties C16, C18 and C54. *)
From Coq Require Import Reals Lra.
From Verif Require Import PyBase PyFacts Toposort Signature Expr Model ModelSpec ModelFacts CallFacts Jacobian Cached CachedSpec CachedFacts Pickle PickleFacts NumPy Objective Minimizer Fit PickleMain PickleMore Prop_Model.
Local Open Scope nat_scope.

(** ** C54.  [K] is any class; [s] any state of an object.  Once a read has returned,
    every later read returns the same value without computing anything, whatever
    happens in between short of deleting the property (or tampering with the
    private [_cached..] slots, see [leaves]). *)
Theorem C54_first_value_is_kept :
  forall V (K : klass (V:=V)) fuel a body s v s1 h,
    dget K a = Some body -> getattr K fuel a s = (Ok v, s1) -> Forall (leaves K a) h ->
    let s2 := history K fuel h s1 in
    (forall n, getattr K (S n) a s2 = (Ok v, s2)) /\ computed a (log s2) = computed a (log s1).
Proof. intros V K fuel a body s v s1 h. exact (read_once K fuel a body s v s1 h). Qed.
Print Assumptions C54_first_value_is_kept.

(** A read of a property that is not cached computes it exactly once, for a class
    whose properties do not refer to themselves. *)
Theorem C54_read_computes_once :
  forall V (K : klass (V:=V)) rank fuel a body s, ranked K rank ->
    dget K a = Some body -> dget (attrs s) (cache_attr a) = None ->
    computed a (log (snd (getattr K (S fuel) a s))) = S (computed a (log s)).
Proof. intros V K rank fuel a body s Hr. exact (read_computes_once K rank Hr fuel a body s). Qed.
Print Assumptions C54_read_computes_once.

(** After a deletion the next read computes again, from the current attributes:
    the result is that of an object on which nothing is cached. *)
Theorem C54_deletion_recomputes :
  forall V (K : klass (V:=V)) rank fuel a body s, ranked K rank -> dget K a = Some body ->
    let s1 := snd (delattr K a s) in
    fst (delattr K a s) = Ok tt /\
    computed a (log (snd (getattr K (S fuel) a s1))) = S (computed a (log s)) /\
    ((forall b, dget (attrs s) (cache_attr b) <> None -> b = a) ->
     (forall c body' b, dget K c = Some body' -> may_read body' b -> String.prefix base_str b = false) ->
     String.prefix base_str a = false -> rank a < S fuel ->
     fst (getattr K (S fuel) a s1) = plain K (S fuel) (attrs s) a).
Proof.
  intros V K rank fuel a body s Hr Hk s1. unfold s1, delattr. rewrite Hk. cbn [fst snd].
  split; [reflexivity|]. split.
  - rewrite (read_computes_once K rank Hr fuel a body); [reflexivity|exact Hk|].
    simpl. rewrite dget_ddel. destruct (eq_dec (cache_attr a) (cache_attr a)); [reflexivity|contradiction].
  - intros Hc Hcl Hp Hf. set (s' := {| attrs := ddel (attrs s) (cache_attr a); log := log s |}).
    assert (Hn : forall b, dget (attrs s') (cache_attr b) = None).
    { intros b. simpl. rewrite dget_ddel. destruct (eq_dec (cache_attr b) (cache_attr a)) as [_|Hn]; [reflexivity|].
      destruct (dget (attrs s) (cache_attr b)) as [w|] eqn:E; [|reflexivity]. exfalso. apply Hn. f_equal. apply Hc. congruence. }
    destruct (getattr_coherent K rank Hr Hcl (S fuel) a s' Hf Hp (no_cache_coherent K rank s' Hn)) as (-> & _).
    apply (plain_ext K rank Hr Hcl); auto. intros b [_ Hb]. simpl. rewrite dget_ddel. destruct (eq_dec b (cache_attr a)) as [->|_]; [|reflexivity].
    rewrite cache_attr_prefix in Hb. discriminate.
Qed.
Print Assumptions C54_deletion_recomputes.

Theorem C54_assignment_rejected :
  forall V (K : klass (V:=V)) a body v s, dget K a = Some body -> setattr K a v s = (Raise AttributeError, s).
Proof. intros V K a body v s H. unfold setattr. rewrite H. reflexivity. Qed.
Print Assumptions C54_assignment_rejected.

(** A counter-like property [p = self.x + 1]: reading twice, with an assignment to [x]
    in between, computes once; after deletion the new value of [x] is used. *)
Definition exK : klass (V:=nat) := [("p", PGet "x" (fun r => PRet (x <- r ;; Ok (x + 1))))]%string.
Definition exS : ostate (V:=nat) := {| attrs := [("x", 1)]%string; log := [] |}.
Example C54_example :
  let s1 := history exK 5 [ORead "p"; OSet "x" 7; OSet "p" 0; ORead "p"]%string exS in
  fst (getattr exK 5 "p" s1) = Ok 2 /\ computed "p" (log s1) = 1 /\
  fst (getattr exK 5 "p" (exec exK 5 (ODel "p") s1)) = Ok 8 /\
  Forall (leaves exK "p") [OSet "x" 7; OSet "p" 0; ORead "p"]%string.
Proof.
  split; [reflexivity|]. split; [reflexivity|]. split; [reflexivity|].
  constructor; [intros _; reflexivity|]. constructor; [intros H; discriminate H|]. constructor; [exact I|constructor].
Qed.

(** ** C16.  [m] is a created model, [h] any history of reads and deletions of its
    cached properties.  The copy has no caches, describes the same model (components,
    variables, parameters, signature: everything calls depend on), and every
    attribute and property reads the same on the copy as on the original. *)
Theorem C16_pickled_model_equivalent :
  forall W (A : alg W) simp ord items m, init_model ord items = Ok m ->
    forall fuel h, 3 <= fuel -> Forall (cache_op (model_class A simp ord)) h ->
      let K := model_class A simp ord in
      let s := history K fuel h (symbolic_object m) in
      seen_model K "connectivity_mapping" fuel s = Ok m /\
      exists s', pickle_roundtrip make_sig s = Ok s' /\ seen_model K "connectivity_mapping" fuel s' = Ok m /\
        (forall p, dget (attrs s') (cache_attr p) = None) /\
        (forall a, String.prefix base_str a = false -> fst (getattr K fuel a s') = fst (getattr K fuel a s)).
Proof. intros W A simp ord items m. exact (pickle_model A simp ord items m). Qed.
Print Assumptions C16_pickled_model_equivalent.

(** The same for constraints, whose parameters are replaced after creation, *)
Theorem C16_pickled_constraint_equivalent :
  forall W (A : alg W) simp ord items m0 ps m, init_model ord items = Ok m0 -> set_params m0 ps = Ok m ->
    forall fuel h, 3 <= fuel -> Forall (cache_op (model_class A simp ord)) h ->
      let K := model_class A simp ord in
      let s := history K fuel h (symbolic_object m) in
      seen_model K "connectivity_mapping" fuel s = Ok m /\
      exists s', pickle_roundtrip make_sig s = Ok s' /\ seen_model K "connectivity_mapping" fuel s' = Ok m /\
        (forall p, dget (attrs s') (cache_attr p) = None) /\
        (forall a, String.prefix base_str a = false -> fst (getattr K fuel a s') = fst (getattr K fuel a s)).
Proof. intros W A simp ord items m0 ps m. exact (pickle_constraint A simp ord items m0 ps m). Qed.
Print Assumptions C16_pickled_constraint_equivalent.

(** and for numerical models, whose connectivity is given by the user. *)
Theorem C16_pickled_numerical_equivalent :
  forall W (A : alg W) ord items user m, init_numerical ord items user = Ok m ->
    forall fuel h, 3 <= fuel -> Forall (cache_op (numerical_class A)) h ->
      let K := numerical_class A in
      let s := history K fuel h (numerical_object m) in
      seen_model K "_connectivity_mapping" fuel s = Ok m /\
      exists s', pickle_roundtrip make_sig s = Ok s' /\ seen_model K "_connectivity_mapping" fuel s' = Ok m /\
        (forall p, dget (attrs s') (cache_attr p) = None) /\
        (forall a, String.prefix base_str a = false -> fst (getattr K fuel a s') = fst (getattr K fuel a s)).
Proof. intros W A ord items user m. exact (pickle_numerical_model A ord items user m). Qed.
Print Assumptions C16_pickled_numerical_equivalent.

(** Whatever was read or deleted before, reading a cached property of a model (original or
    copy, see above) gives: the independent variables, the dependent variables and their
    [sigma_]-variables in the order of the dependent variables ([vars]); the
    connectivity; the numerical components, the Jacobian model and the Hessian model of
    this model. *)
Theorem C16_property_values :
  forall W (A : alg W) simp ord items m, set_order ord -> is_dict items -> init_model ord items = Ok m ->
    forall fuel h, 3 <= fuel -> Forall (cache_op (model_class A simp ord)) h ->
      let s := history (model_class A simp ord) fuel h (symbolic_object m) in
      let read a := fst (getattr (model_class A simp ord) fuel a s) in
      read "vars"%string = Ok (MSyms (m_indep m ++ m_dep m ++ map (fun v => SVar ("sigma_" ++ sname v)) (m_dep m))) /\
      read "connectivity_mapping"%string = Ok (MConn (m_conn m)) /\
      read "numerical_components"%string = Ok (MComps (map (numerical_component A m) (m_dict m))) /\
      read "jacobian_model"%string = (j <- jacobian_model simp ord m ;; Ok (MModel j)) /\
      read "hessian_model"%string = (j <- hessian_model simp ord m ;; Ok (MModel j)).
Proof. intros W A simp ord items m. exact (model_properties A simp ord items m). Qed.
Print Assumptions C16_property_values.

(** [{z: y + b, y: a * x}] with [vars] and [connectivity_mapping] cached. *)
Example C16_example : exists m, init_model oid (@ex_items Z) = Ok m /\
  let K := model_class Zalg (fun e => e) oid in
  let h := [ORead "vars"; ODel "connectivity_mapping"; ORead "numerical_components"]%string in
  Forall (cache_op K) h /\
  map fst (attrs (history K 3 h (symbolic_object m))) =
    ["model_dict"; "independent_vars"; "dependent_vars"; "interdependent_vars"; "_params"; "sigmas"; "__signature__";
     "_cached_vars"; "_cached_connectivity_mapping"; "_cached_numerical_components"]%string.
Proof.
  eexists. split; [vm_compute; reflexivity|]. split; [|reflexivity].
  constructor; [reflexivity|]. constructor; [discriminate|]. constructor; [reflexivity|constructor].
Qed.

(** ** C18.  [toward0] is [np.nextafter(v, 0)]: between 0 and [v]. *)
Theorem C18_bounds :
  forall (toward0 : R -> R) h om,
    (forall v, (0 <= v)%R -> (0 <= toward0 v <= v)%R) -> (forall v, (v < 0)%R -> (v <= toward0 v <= 0)%R) ->
    List.length (model_bounds toward0 h om) = List.length (om_params om) /\
    forall i p, nth_error (om_params om) i = Some p ->
      (p_fixed (h p) = false -> nth_error (model_bounds toward0 h om) i = Some (p_min (h p), p_max (h p))) /\
      (p_fixed (h p) = true -> exists lo hi, nth_error (model_bounds toward0 h om) i = Some (Some lo, Some hi) /\
         (lo <= p_value (h p) <= hi)%R).
Proof. exact bounds_spec. Qed.
Print Assumptions C18_bounds.

(** A function with the properties of nextafter towards 0; a negative fixed value. *)
Example C18_example :
  let toward0 := fun v : R => (v / 2)%R in
  (forall v, (0 <= v)%R -> (0 <= toward0 v <= v)%R) /\ (forall v, (v < 0)%R -> (v <= toward0 v <= 0)%R) /\
  let om := {| om_params := [pa; pb]; om_indep := []; om_dep := []; om_names := []; om_call := fun _ => Raise KeyError; om_jac := None; om_hess := None |} in
  let h := fun p => if eq_dec p pa then {| p_value := (-4)%R; p_min := None; p_max := None; p_fixed := true |}
                    else {| p_value := 1%R; p_min := Some 0%R; p_max := None; p_fixed := false |} in
  model_bounds toward0 h om = [(Some (-4)%R, Some (-4 / 2)%R); (Some 0%R, None)].
Proof.
  split; [intros; lra|]. split; [intros; lra|]. unfold model_bounds. simpl.
  destruct (Rle_dec 0 (-4)) as [H|_]; [lra|]. reflexivity.
Qed.
