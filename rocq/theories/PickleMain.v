(** * PickleMain: C16 and C18 for created models. *)
From Coq Require Import Reals Lra.
From Verif Require Import PyBase PyFacts Toposort Signature Expr Model ModelSpec ModelFacts CallFacts Jacobian Cached CachedSpec CachedFacts Pickle PickleFacts NumPy Objective Minimizer Fit.
Local Open Scope nat_scope.

Section Main.
  Context {W : Type} (A : alg W) (simp : expr -> expr).
  Lemma init_model_facts ord (items : dict sym (comp (V:=W))) m : init_model ord items = Ok m ->
    model_ok m /\ connectivity ord (m_dict m) = Ok (m_conn m).
  Proof.
    unfold init_model. intros H. apply bind_Ok in H as (conn & Hc & H). apply classify_inv in H as (l0 & mid & top & _ & -> & -> & _ & _ & _ & _ & Hs & _).
    split; [exact Hs|exact Hc].
  Qed.
  Lemma init_numerical_facts ord (items : dict sym (comp (V:=W))) user m : init_numerical ord items user = Ok m -> model_ok m.
  Proof.
    unfold init_numerical. destruct user as [|u us]; [discriminate|]. intros H. apply bind_Ok in H as (conn & Hc & H).
    apply classify_inv in H as (l0 & mid & top & _ & _ & _ & _ & _ & _ & _ & Hs & _). exact Hs.
  Qed.
  Lemma set_params_facts ord (m m' : model (V:=W)) ps : set_params m ps = Ok m' ->
    connectivity ord (m_dict m) = Ok (m_conn m) -> model_ok m' /\ connectivity ord (m_dict m') = Ok (m_conn m').
  Proof. unfold set_params. intros H Hc. apply bind_Ok in H as (s & Hs & H). inv H. split; [exact Hs|exact Hc]. Qed.

  Lemma pickle_model ord items m : init_model ord items = Ok m ->
    forall fuel h, 3 <= fuel -> Forall (cache_op (model_class A simp ord)) h ->
      let K := model_class A simp ord in
      let s := history K fuel h (symbolic_object m) in
      seen_model K "connectivity_mapping" fuel s = Ok m /\
      exists s', pickle_roundtrip make_sig s = Ok s' /\ seen_model K "connectivity_mapping" fuel s' = Ok m /\
        (forall p, dget (attrs s') (cache_attr p) = None) /\
        (forall a, String.prefix base_str a = false -> fst (getattr K fuel a s') = fst (getattr K fuel a s)).
  Proof. intros H. apply init_model_facts in H as [H1 H2]. apply pickle_symbolic; assumption. Qed.
  Lemma pickle_constraint ord items m0 ps m : init_model ord items = Ok m0 -> set_params m0 ps = Ok m ->
    forall fuel h, 3 <= fuel -> Forall (cache_op (model_class A simp ord)) h ->
      let K := model_class A simp ord in
      let s := history K fuel h (symbolic_object m) in
      seen_model K "connectivity_mapping" fuel s = Ok m /\
      exists s', pickle_roundtrip make_sig s = Ok s' /\ seen_model K "connectivity_mapping" fuel s' = Ok m /\
        (forall p, dget (attrs s') (cache_attr p) = None) /\
        (forall a, String.prefix base_str a = false -> fst (getattr K fuel a s') = fst (getattr K fuel a s)).
  Proof.
    intros H Hp. apply init_model_facts in H as [H1 H2]. apply (set_params_facts ord m0 m ps) in Hp as [H3 H4]; [|exact H2].
    apply pickle_symbolic; assumption.
  Qed.
  Lemma pickle_numerical_model ord items user m : init_numerical ord items user = Ok m ->
    forall fuel h, 3 <= fuel -> Forall (cache_op (numerical_class A)) h ->
      let K := numerical_class A in
      let s := history K fuel h (numerical_object m) in
      seen_model K "_connectivity_mapping" fuel s = Ok m /\
      exists s', pickle_roundtrip make_sig s = Ok s' /\ seen_model K "_connectivity_mapping" fuel s' = Ok m /\
        (forall p, dget (attrs s') (cache_attr p) = None) /\
        (forall a, String.prefix base_str a = false -> fst (getattr K fuel a s') = fst (getattr K fuel a s)).
  Proof. intros H. apply init_numerical_facts in H. apply pickle_numerical; assumption. Qed.
End Main.

(** ** C18 *)
Local Open Scope R_scope.
Lemma bounds_spec (toward0 : R -> R) h om :
  (forall v, 0 <= v -> 0 <= toward0 v <= v) -> (forall v, v < 0 -> v <= toward0 v <= 0) ->
  List.length (model_bounds toward0 h om) = List.length (om_params om) /\
  forall i p, nth_error (om_params om) i = Some p ->
    (p_fixed (h p) = false -> nth_error (model_bounds toward0 h om) i = Some (p_min (h p), p_max (h p))) /\
    (p_fixed (h p) = true -> exists lo hi, nth_error (model_bounds toward0 h om) i = Some (Some lo, Some hi) /\
       lo <= p_value (h p) <= hi).
Proof.
  intros H1 H2. unfold model_bounds. split; [apply map_length|]. intros i p Hp. rewrite (map_nth_error _ _ _ Hp).
  split; intros Hf; rewrite Hf; [reflexivity|]. destruct (Rle_dec 0 (p_value (h p))) as [Hv|Hv].
  - destruct (H1 _ Hv). eexists; eexists; split; [reflexivity|]. lra.
  - destruct (H2 (p_value (h p)) ltac:(lra)). eexists; eexists; split; [reflexivity|]. lra.
Qed.
