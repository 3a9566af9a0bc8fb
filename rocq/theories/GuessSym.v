(** * GuessSym: symbolic models act pointwise, so InteractiveGuess shows what they mean. *)
From Coq Require Import Reals Lra Lia Permutation Relations.
From Verif Require Import PyBase PyFacts Signature SignatureFacts Expr ExprR NumPy NumFacts Model ModelSpec ModelFacts CallFacts Objective ObjSpec ObjFacts JacFacts JacLemmas Cast Fit FitSpec ArrModel ArrSpec ArrFacts ArrCall GuessSpec.
From Verif Require ArrObj.
Local Open Scope R_scope.
Local Open Scope string_scope.
Local Open Scope list_scope.

Lemma names_nodup {V} (X : dict sym (comp (V:=V))) : distinct_names X -> forall l, NoDup l -> (forall s, In s l -> symbol_of X s) -> NoDup (map sname l).
Proof.
  intros Hn l N. induction N as [|s l Hq N IH]; intros Hs; cbn [map]; constructor.
  - intros Hin. apply in_map_iff in Hin as (t & Et & Ht). apply Hq. assert (t = s) by (apply Hn; [apply Hs; right; exact Ht|apply Hs; left; reflexivity|exact Et]). subst; exact Ht.
  - apply IH. intros t Ht. apply Hs; right; exact Ht.
Qed.
Lemma symbolic_typed cls simp ord1 ord2 es m : model_of ord1 es m -> well_typed (om_of cls simp ord2 m).
Proof.
  intros Hm. pose proof (ArrObj.built_self ord1 es m Hm) as Hb. split; [exact (ArrObj.om_interface simp ord1 ord2 es m m Hb cls)|].
  split; [exact (ArrObj.Hps ord1 es m m Hb)|exact (ArrObj.indep_nonpar ord1 es m m Hb)].
Qed.
Lemma symbolic_pointwise cls simp ord1 ord2 es m sol : set_order ord2 -> model_of ord1 es m -> means es sol ->
  (forall y, In y (m_dep m) -> exists x, In x (m_indep m) /\ clos_trans sym (refers (comps (V:=R) es)) y x) ->
  pointwise (om_of cls simp ord2 m) sol.
Proof.
  intros Ho2 Hm Hsol Hx N X theta HN HX. pose proof (ArrObj.built_self ord1 es m Hm) as Hb. change (om_indep (om_of cls simp ord2 m)) with (m_indep m) in *.
  set (h := fun p : sym => {| p_value := theta p; p_min := None; p_max := None; p_fixed := true |}).
  set (data := map (fun v => (v, Some (X v))) (m_indep m)).
  assert (Hdata : forall v, In v (m_indep m) -> dget data v = Some (Some (X v))).
  { intros v Hv. unfold data. clear -Hv. induction (m_indep m) as [|a l IH]; [destruct Hv|]. cbn [map dget]. destruct (eq_dec v a) as [->|]; [reflexivity|]. destruct Hv; [congruence|auto]. }
  assert (Hgr : independent_on_grid [N] m data).
  { split; [intros [E|[]]; lia|]. intros v Hv. exists (X v). split; [apply Hdata; exact Hv|]. rewrite (HX v Hv). split; [apply fits_refl|right; reflexivity]. }
  assert (Hinp : forall s, In s (m_indep m ++ m_params m) -> inputs h (m_params m) data [] s = feed X theta s).
  { intros s Hs. unfold inputs, feed. apply in_app_or in Hs as [Hs|Hs].
    - rewrite (ArrObj.indep_nonpar ord1 es m m Hb s Hs). unfold observed. rewrite (Hdata s Hs). reflexivity.
    - rewrite (ArrObj.Hps ord1 es m m Hb s Hs). unfold parameter_value. reflexivity. }
  pose proof (ArrObj.out_spec ord1 ord2 es m m Ho2 Hb sol Hsol h data [N] Hgr []) as Hv.
  set (r := ArrObj.out_at ord2 m h data []) in *. exists r.
  assert (Hnm : named (feed X theta) (m_indep m ++ m_params m) = named (inputs h (m_params m) data []) (m_indep m ++ m_params m)).
  { unfold named. apply map_ext_in. intros s Hs. rewrite (Hinp s Hs). reflexivity. }
  split; [|split].
  - intros d Hd. apply (proj1 Hv). intros nm. rewrite Hd. change (om_params (om_of cls simp ord2 m)) with (m_params m). rewrite Hnm. reflexivity.
  - rewrite (proj1 (proj2 Hv)). destruct Hm as (_ & H1 & H2 & _). eapply Permutation_NoDup; [apply Permutation_map; apply sort_by_perm|].
    pose proof (ArrObj.Hd ord1 es m m Hb) as Hd. pose proof (ArrObj.Hn ord1 es m m Hb) as Hn. unfold is_dict in Hd.
    apply (names_nodup _ Hn); [exact Hd|intros s Hs; left; exact Hs].
  - intros y Hy. change (om_dep (om_of cls simp ord2 m)) with (m_dep m) in Hy.
    assert (Hc : covers_grid [N] es m data).
    { split; [discriminate|]. intros v Hvd. destruct (Hx v Hvd) as (x & Hxi & Hr). exists x, (X x). split; [exact Hr|]. split; [exact Hxi|]. split; [apply Hdata; exact Hxi|apply HX; exact Hxi]. }
    pose proof (ArrObj.covered_shape ord1 ord2 es m m Ho2 Hb sol Hsol h data [N] Hgr [] y Hc Hy) as Hs. fold r in Hs.
    pose proof (ArrObj.dep_key ord1 es m m Hb y Hy) as Hk.
    destruct Hv as (V1 & V2 & w & V3 & V4). destruct (V4 y Hk) as (c & _ & Er & _). exists (atleast_1d c). split; [exact Er|].
    assert (He : entry r y = atleast_1d c) by (unfold entry; rewrite Er; reflexivity). rewrite He in Hs. split; [exact Hs|]. intros i Hi.
    assert (Hin : In [i] (indices (shp (entry r y)))) by (rewrite He, Hs; apply in_indices; repeat constructor; exact Hi).
    destruct (ArrObj.value_val ord2 es m sol h data [N] Hgr [] r y [i] (conj V1 (conj V2 (ex_intro _ w (conj V3 V4)))) Hk Hin) as [E _]. rewrite He in E. rewrite E. unfold predicted.
    apply (ArrObj.solX_ext ord1 es m m Hb _ sol _ _ (ArrObj.above_it ord1 es m m Hb) (ArrObj.Hn ord1 es m m Hb) (ArrObj.HsolN es sol Hsol)).
    + intros s Hs'. unfold at_index. rewrite (Hinp s Hs'). reflexivity.
    + left. exact Hk.
Qed.
