(** * ArrMain: the results of ArrObj with their hypotheses spelled out. *)
From Coq Require Import Reals Lra Lia.
From Coquelicot Require Import Coquelicot.
From Verif Require Import PyBase PyFacts Signature Expr Model ModelSpec ModelFacts ExprR Jacobian JacFacts JacAnalysis JacSecond JacLemmas Cast NumPy NumFacts Objective ObjSpec ObjFacts ObjDiff ArrModel ArrSpec ArrFacts ArrCall ArrObj.
Local Open Scope R_scope.

Lemma solJ_exists simp ord1 ord2 es m J : simp_ok simp -> set_order ord2 -> model_of ord1 es m -> jacobian_items simp ord2 m = Ok J -> distinct_names J ->
  exists solJ, solves_for J solJ.
Proof.
  intros Hs Ho Hm HJ Hn. pose proof (AJ simp ord1 ord2 es m m Hs Ho (built_self ord1 es m Hm) J HJ) as A. pose proof (Hself ord1 es m m (built_self ord1 es m Hm)) as Hse.
  destruct (above_init ord1 (comps es) m (proj1 Hm) (Hd ord1 es m m (built_self ord1 es m Hm)) Hse (proj1 (Hplain ord1 es m m (built_self ord1 es m Hm))) (Hi ord1 es m m (built_self ord1 es m Hm)) J A Hn ord1 (proj1 Hm)) as (xm & Hx).
  exact (solution_map Ralg ord1 (icast J) (mcast xm) (proj1 Hm) (is_dict_icast J (ab_dict _ _ A)) (noself_icast J (above_self _ Hse J A)) (init_icast ord1 J xm Hx)).
Qed.
Lemma H_gives_J simp ord1 ord2 es m H : simp_ok simp -> set_order ord2 -> model_of ord1 es m -> hessian_items simp ord2 m = Ok H -> distinct_names H ->
  exists J solJ solH, jacobian_items simp ord2 m = Ok J /\ distinct_names J /\ solves_for J solJ /\ solves_for H solH.
Proof.
  intros Hs Ho Hm HH Hn.
  assert (HJ : exists J, jacobian_items simp ord2 m = Ok J).
  { unfold hessian_items in HH. unfold jacobian_items. apply bind_Ok in HH as (v2f & Hv & HH). rewrite Hv. cbn [bind]. apply bind_Ok in HH as (J & HJ & HH). eauto. }
  destruct HJ as (J & HJ). destruct (H_parts simp ord1 ord2 es m m Hs Ho (built_self ord1 es m Hm) J HJ H HH) as (v2f & Hv & HJ' & HH' & A & _).
  assert (HnJ : distinct_names J).
  { assert (Hsb : forall s, symbol_of J s -> symbol_of H s).
    { intros s [Hk|(k & e & Hin & Hm')].
      - left. apply in_map_iff in Hk as ([k c] & Hk & Hin). simpl in Hk; subst k. eapply key_of. eapply (H_keep simp m (m_params m) v2f J H HJ' HH'); exact Hin.
      - right. exists k, e. split; [eapply (H_keep simp m (m_params m) v2f J H HJ' HH'); exact Hin|exact Hm']. }
    intros s t Hs' Ht. apply Hn; auto. }
  destruct (solJ_exists simp ord1 ord2 es m J Hs Ho Hm HJ HnJ) as (solJ & HsJ). pose proof (Hself ord1 es m m (built_self ord1 es m Hm)) as Hse.
  destruct (above_init ord1 (comps es) m (proj1 Hm) (Hd ord1 es m m (built_self ord1 es m Hm)) Hse (proj1 (Hplain ord1 es m m (built_self ord1 es m Hm))) (Hi ord1 es m m (built_self ord1 es m Hm)) H A Hn ord1 (proj1 Hm)) as (xm & Hx).
  destruct (solution_map Ralg ord1 (icast H) (mcast xm) (proj1 Hm) (is_dict_icast H (ab_dict _ _ A)) (noself_icast H (above_self _ Hse H A)) (init_icast ord1 H xm Hx)) as (solH & HsH).
  exists J, solJ, solH. auto.
Qed.

Section Main.
  Context (simp : expr -> expr) (ord1 ord2 : list sym -> list sym) (es : dict sym expr) (m : amodel).
  Context (sol : (sym -> R) -> sym -> R) (G : list nat).
  Hypothesis Ho2 : set_order ord2.
  Hypothesis Hm : model_of ord1 es m.
  Hypothesis Hsol : means es sol.

  (** *** models called with arrays *)
  Lemma arrays_call inp : (forall s, In s (m_indep m ++ m_params m) -> on_grid G (shp (inp s))) ->
    exists o, arr_call ord2 m (named inp (m_indep m ++ m_params m)) = Ok o /\ dkeys o = sort_by sname (dkeys es) /\
      forall v, In v (dkeys es) -> exists a, dget o v = Some (atleast_1d a) /\ on_grid G (shp a) /\
        (forall x, refers (comps (V:=R) es) v x -> ~ In x (dkeys es) -> fits (shp (inp x)) (shp a) = true) /\
        forall i, elem a i = sol (at_index inp i) v.
  Proof.
    intros Hin.
    destruct (arr_value ord1 ord2 (comps es) m m (m_params m) (proj1 Hm) Ho2 (Hd ord1 es m m (built_self ord1 es m Hm)) (Hself ord1 es m m (built_self ord1 es m Hm)) (Hplain ord1 es m m (built_self ord1 es m Hm)) (Hpow ord1 es m m (built_self ord1 es m Hm)) (Hi ord1 es m m (built_self ord1 es m Hm))
      (Hp ord1 es m m (built_self ord1 es m Hm)) (fun p H => H) G sol inp (HsolN es sol Hsol) (Hn ord1 es m m (built_self ord1 es m Hm)) (apart_items ord1 es m m (built_self ord1 es m Hm)) Hin) as (o & C & K & w & _ & H).
    exists o. split; [apply C; reflexivity|]. split; [rewrite K, dkeys_comps; reflexivity|]. intros v Hv.
    destruct (H v) as (a & _ & E & Hg & He & Hf); [rewrite dkeys_comps; exact Hv|]. exists a. split; [exact E|]. split; [exact Hg|]. split; [|exact He].
    intros x (e & H1 & H2) Hx. apply Hf; [exists e; split; [apply in_comps; apply in_comps in H1; exact H1|exact H2]|rewrite dkeys_comps; exact Hx].
  Qed.

  Context (Hsimp : simp_ok simp).
  Lemma arrays_jacobian inp : m_params m <> [] -> has_jacobian simp ord2 m -> (forall s, In s (m_indep m ++ m_params m) -> on_grid G (shp (inp s))) ->
    exists o jac, arr_call ord2 m (named inp (m_indep m ++ m_params m)) = Ok o /\ arr_jac simp ord2 m (named inp (m_indep m ++ m_params m)) = Ok jac /\
      forall v, In v (dkeys es) -> exists c j, dget o v = Some c /\ dget jac v = Some j /\ shp j = shp c ++ [List.length (m_params m)] /\
        forall i k p, In i (indices (shp c)) -> nth_error (m_params m) k = Some p ->
          (forall u e, In (u, e) es -> defined (sol (at_index inp i)) e) ->
          is_derive (fun t => sol (set_input (at_index inp i) p t) v) (at_index inp i p) (val j (i ++ [k])).
  Proof.
    intros Hne (J & HJ & HnJ) Hin. destruct (solJ_exists simp ord1 ord2 es m J Hsimp Ho2 Hm HJ HnJ) as (solJ & HsJ).
    destruct (arr_value ord1 ord2 (comps es) m m (m_params m) (proj1 Hm) Ho2 (Hd ord1 es m m (built_self ord1 es m Hm)) (Hself ord1 es m m (built_self ord1 es m Hm)) (Hplain ord1 es m m (built_self ord1 es m Hm)) (Hpow ord1 es m m (built_self ord1 es m Hm)) (Hi ord1 es m m (built_self ord1 es m Hm))
      (Hp ord1 es m m (built_self ord1 es m Hm)) (fun p H => H) G sol inp (HsolN es sol Hsol) (Hn ord1 es m m (built_self ord1 es m Hm)) (apart_items ord1 es m m (built_self ord1 es m Hm)) Hin) as (o & Hv).
    pose proof (AJ simp ord1 ord2 es m m Hsimp Ho2 (built_self ord1 es m Hm) J HJ) as A.
    destruct (arr_jacobian simp ord1 ord2 (comps es) m m (m_params m) Hsimp (proj1 Hm) Ho2 (Hd ord1 es m m (built_self ord1 es m Hm)) (Hself ord1 es m m (built_self ord1 es m Hm)) (Hplain ord1 es m m (built_self ord1 es m Hm)) (Hpow ord1 es m m (built_self ord1 es m Hm)) (Hi ord1 es m m (built_self ord1 es m Hm))
      (Hp ord1 es m m (built_self ord1 es m Hm)) (fun p H => H) G J solJ inp o sol Hne HJ HnJ (apart_self ord1 es m J Hm A HnJ) HsJ Hv Hin) as (jac & Cj & _ & Hj).
    exists o, jac. split; [apply (proj1 Hv); reflexivity|]. split; [apply Cj; reflexivity|]. intros v Hk.
    assert (Hk' : In v (dkeys (comps (V:=res nd) es))) by (rewrite dkeys_comps; exact Hk).
    destruct (Hj v Hk') as (c & j & E1 & E2 & E3 & E4 & _). exists c, j. split; [exact E1|]. split; [exact E2|]. split; [exact E3|].
    intros i k p Hii Hpk Hdef. rewrite (E4 i k p (indices_length _ _ Hii) Hpk). pose proof (nth_error_In _ _ Hpk) as Hpp.
    destruct (J_parts simp ord1 ord2 es m m Hsimp Ho2 (built_self ord1 es m Hm) J HJ) as (v2f & Hvf & _ & _ & HJR).
    assert (HvR : In v (dkeys (comps (V:=R) es))) by (rewrite dkeys_comps; exact Hk).
    pose proof (first_order simp ord1 ord2 (comps es) (mcast m) (mcast m) (m_params m) v2f Hsimp (proj1 Hm) Ho2 (HdR ord1 es m m (built_self ord1 es m Hm)) (HselfR ord1 es m m (built_self ord1 es m Hm)) (proj1 (HplainR ord1 es m m (built_self ord1 es m Hm))) (proj2 (HplainR ord1 es m m (built_self ord1 es m Hm)))
      (HiR ord1 es m m (built_self ord1 es m Hm)) (HpR ord1 es m m (built_self ord1 es m Hm)) (Hps ord1 es m m (built_self ord1 es m Hm)) Hvf sol Hsol (icast J) HJR p (at_index inp i) (solJ (at_index inp i)) Hpp (HsJ _)) as Hfo.
    specialize (Hfo (fun u e Hue => Hdef u e (proj1 (in_comps es u e) Hue)) v (or_introl HvR)).
    unfold dval in Hfo. rewrite (proj2 (inb_In v (dkeys (comps (V:=R) es))) HvR) in Hfo. exact Hfo.
  Qed.
  Lemma arrays_hessian inp : m_params m <> [] -> has_hessian simp ord2 m -> (forall s, In s (m_indep m ++ m_params m) -> on_grid G (shp (inp s))) ->
    exists o hess, arr_call ord2 m (named inp (m_indep m ++ m_params m)) = Ok o /\ arr_hess simp ord2 m (named inp (m_indep m ++ m_params m)) = Ok hess /\
      forall v, In v (dkeys es) -> exists c g, dget o v = Some c /\ dget hess v = Some g /\ shp g = shp c ++ [List.length (m_params m); List.length (m_params m)] /\
        forall i k l p q eps, In i (indices (shp c)) -> nth_error (m_params m) k = Some p -> nth_error (m_params m) l = Some q -> 0 < eps ->
          (forall inp', (forall s, Rabs (inp' s - at_index inp i s) < eps) -> (forall s, is_par s = false -> inp' s = at_index inp i s) ->
             forall u e, In (u, e) es -> defined (sol inp') e) ->
          is_derive (fun u => Derive (fun t => sol (set_input (set_input (at_index inp i) q u) p t) v) (set_input (at_index inp i) q u p)) (at_index inp i q) (val g (i ++ [l; k])) /\
          val g (i ++ [l; k]) = val g (i ++ [k; l]).
  Proof.
    intros Hne (H & HH & HnH) Hin. destruct (H_gives_J simp ord1 ord2 es m H Hsimp Ho2 Hm HH HnH) as (J & solJ & solH & HJ & HnJ & HsJ & HsH).
    destruct (arr_value ord1 ord2 (comps es) m m (m_params m) (proj1 Hm) Ho2 (Hd ord1 es m m (built_self ord1 es m Hm)) (Hself ord1 es m m (built_self ord1 es m Hm)) (Hplain ord1 es m m (built_self ord1 es m Hm)) (Hpow ord1 es m m (built_self ord1 es m Hm)) (Hi ord1 es m m (built_self ord1 es m Hm))
      (Hp ord1 es m m (built_self ord1 es m Hm)) (fun p H => H) G sol inp (HsolN es sol Hsol) (Hn ord1 es m m (built_self ord1 es m Hm)) (apart_items ord1 es m m (built_self ord1 es m Hm)) Hin) as (o & Hv).
    pose proof (AH simp ord1 ord2 es m m Hsimp Ho2 (built_self ord1 es m Hm) J HJ H HH) as A.
    destruct (arr_hessian simp ord1 ord2 (comps es) m m (m_params m) Hsimp (proj1 Hm) Ho2 (Hd ord1 es m m (built_self ord1 es m Hm)) (Hself ord1 es m m (built_self ord1 es m Hm)) (Hplain ord1 es m m (built_self ord1 es m Hm)) (Hpow ord1 es m m (built_self ord1 es m Hm)) (Hi ord1 es m m (built_self ord1 es m Hm))
      (Hp ord1 es m m (built_self ord1 es m Hm)) (fun p H => H) G H solH inp o sol Hne HH HnH (apart_self ord1 es m H Hm A HnH) HsH Hv Hin) as (hess & Ch & _ & Hj).
    exists o, hess. split; [apply (proj1 Hv); reflexivity|]. split; [apply Ch; reflexivity|]. intros v Hk.
    assert (Hk' : In v (dkeys (comps (V:=res nd) es))) by (rewrite dkeys_comps; exact Hk).
    destruct (Hj v Hk') as (c & g & E1 & E2 & E3 & E4). exists c, g. split; [exact E1|]. split; [exact E2|]. split; [exact E3|].
    intros i k l p q eps Hii Hpk Hql Heps Hloc. pose proof (indices_length _ _ Hii) as Hlen. rewrite (E4 i k l p q Hlen Hpk Hql), (E4 i l k q p Hlen Hql Hpk).
    pose proof (nth_error_In _ _ Hpk) as Hpp. pose proof (nth_error_In _ _ Hql) as Hqq.
    destruct (H_parts simp ord1 ord2 es m m Hsimp Ho2 (built_self ord1 es m Hm) J HJ H HH) as (v2f & Hvf & _ & _ & _ & HJR & HHR).
    assert (HvR : In v (dkeys (comps (V:=R) es))) by (rewrite dkeys_comps; exact Hk).
    assert (HnJR : distinct_names (icast (W:=R) J)) by (apply distinct_icast, HnJ).
    assert (Hloc' : forall inp', (forall s, Rabs (inp' s - at_index inp i s) < eps) -> (forall s, is_par s = false -> inp' s = at_index inp i s) -> defs (comps es) sol inp').
    { intros inp' H1 H2 u e Hue. apply (Hloc inp' H1 H2 u e). apply in_comps in Hue. exact Hue. }
    assert (Hso : forall p q, In p (m_params m) -> In q (m_params m) -> is_derive (fun u => dval (comps es) (solJ (set_input (at_index inp i) q u)) p v) (at_index inp i q)
           (dval2 (comps es) (solH (at_index inp i)) p q v)).
    { intros p' q' Hp' Hq'. exact (second_order simp ord1 ord2 (comps es) (mcast m) (mcast m) (m_params m) v2f Hsimp (proj1 Hm) Ho2 (HdR ord1 es m m (built_self ord1 es m Hm)) (HselfR ord1 es m m (built_self ord1 es m Hm)) (proj1 (HplainR ord1 es m m (built_self ord1 es m Hm))) (proj2 (HplainR ord1 es m m (built_self ord1 es m Hm)))
      (HiR ord1 es m m (built_self ord1 es m Hm)) (HpR ord1 es m m (built_self ord1 es m Hm)) (Hps ord1 es m m (built_self ord1 es m Hm)) Hvf sol Hsol (icast J) (icast H) HJR HHR HnJR (at_index inp i) (solH (at_index inp i)) solJ eps (HsH _) HsJ Heps Hloc' v (or_introl HvR) p' q' Hp' Hq'). }
    pose proof (schwarz simp ord1 ord2 (comps es) (mcast m) (mcast m) (m_params m) v2f Hsimp (proj1 Hm) Ho2 (HdR ord1 es m m (built_self ord1 es m Hm)) (HselfR ord1 es m m (built_self ord1 es m Hm)) (proj1 (HplainR ord1 es m m (built_self ord1 es m Hm))) (proj2 (HplainR ord1 es m m (built_self ord1 es m Hm)))
      (HiR ord1 es m m (built_self ord1 es m Hm)) (HpR ord1 es m m (built_self ord1 es m Hm)) (Hps ord1 es m m (built_self ord1 es m Hm)) Hvf sol Hsol (icast J) HJR (at_index inp i) (solH (at_index inp i)) solJ eps HsJ Heps Hloc' p q v Hpp Hqq (or_introl HvR) (Hso p q Hpp Hqq) (Hso q p Hqq Hpp)) as E.
    pose proof (Hso p q Hpp Hqq) as H1.
    assert (Hnear := near (comps es) (m_params m) (Hps ord1 es m m (built_self ord1 es m Hm)) sol (at_index inp i) eps Heps Hloc' q Hqq).
    assert (Hkeys := proj1 (HplainR ord1 es m m (built_self ord1 es m Hm)) v HvR).
    assert (Hd2 : is_derive (fun u => Derive (fun t => sol (set_input (set_input (at_index inp i) q u) p t) v) (set_input (at_index inp i) q u p)) (at_index inp i q) (dval2 (comps es) (solH (at_index inp i)) p q v)).
    { eapply is_derive_ext_loc; [|exact H1]. eapply filter_imp; [|exact Hnear]. intros u Hu. cbv beta. symmetry.
      exact (sym_derived simp ord1 ord2 (comps es) (mcast m) (mcast m) (m_params m) v2f Hsimp (proj1 Hm) Ho2 (HdR ord1 es m m (built_self ord1 es m Hm)) (HselfR ord1 es m m (built_self ord1 es m Hm)) (proj1 (HplainR ord1 es m m (built_self ord1 es m Hm))) (proj2 (HplainR ord1 es m m (built_self ord1 es m Hm)))
        (HiR ord1 es m m (built_self ord1 es m Hm)) (HpR ord1 es m m (built_self ord1 es m Hm)) (Hps ord1 es m m (built_self ord1 es m Hm)) Hvf sol Hsol (icast J) HJR solJ HsJ p v (set_input (at_index inp i) q u) Hpp (or_introl HvR) Hu). }
    destruct Hkeys as (y & ->). unfold dval2 in E, Hd2. rewrite (proj2 (inb_In _ (dkeys (comps (V:=R) es))) HvR) in E, Hd2. split; [exact Hd2|exact E].
  Qed.

  (** *** objectives *)
  Context (h : heap) (data : dict sym (option nd)) (cls : mclass).
  Hypothesis Hgrid : independent_on_grid G m data.
  Notation om := (om_of cls simp ord2 m).
  Notation np := (List.length (m_params m)).

  Lemma arrays_ls_gradient ob xs : m_params m <> [] -> cls <> KCallable -> has_jacobian simp ord2 m ->
    obj_init false om data = Ok ob -> dependent_on_grid G m data -> no_shape_clash G m -> some_data om data ->
    full_vector h m xs -> defined_at G es sol h m data xs ->
    exists g, ls_jac h om ob xs [] = Ok g /\ shp g = [np] /\
      forall p j k, free_parameter h m p j k -> partial_derivative (half_chi2_at sol h m data) xs j (val g [k]).
  Proof.
    intros Hne Hcls (J & HJ & HnJ) Hob Hdep Hc Hsd Hl Hdef. destruct (solJ_exists simp ord1 ord2 es m J Hsimp Ho2 Hm HJ HnJ) as (solJ & HsJ).
    destruct (model_ls_gradient simp ord1 ord2 es m m Hsimp Ho2 (built_self ord1 es m Hm) sol Hsol h data G cls Hgrid J solJ HJ (apart_J simp ord1 ord2 es m J Hsimp Ho2 Hm HJ HnJ) HsJ Hne Hcls ob xs Hob Hdep Hc Hsd Hl Hdef) as (g & H1 & H2 & H3).
    exists g. split; [exact H1|]. split; [exact H2|]. intros p j k [H4 H5]. exact (H3 p j k H4 H5).
  Qed.
  Lemma arrays_ls_hessian ob xs : m_params m <> [] -> cls = KModel -> has_hessian simp ord2 m ->
    obj_init false om data = Ok ob -> dependent_on_grid G m data -> no_shape_clash G m -> some_data om data ->
    full_vector h m xs -> defined_near G es sol h m data xs ->
    exists g, ls_hess h om ob xs [] = Ok g /\ shp g = [np; np] /\
      (forall p j k q i l, free_parameter h m p j k -> free_parameter h m q i l -> second_partial (half_chi2_at sol h m data) xs i j (val g [l; k])) /\
      forall k l, (k < np)%nat -> (l < np)%nat -> val g [l; k] = val g [k; l].
  Proof.
    intros Hne Hcls (H & HH & HnH) Hob Hdep Hc Hsd Hl Hdef. destruct (H_gives_J simp ord1 ord2 es m H Hsimp Ho2 Hm HH HnH) as (J & solJ & solH & HJ & HnJ & HsJ & HsH).
    assert (Hcls' : cls <> KCallable) by (rewrite Hcls; discriminate).
    destruct (model_ls_hessian simp ord1 ord2 es m m Hsimp Ho2 (built_self ord1 es m Hm) sol Hsol h data G cls Hgrid J solJ HJ (apart_J simp ord1 ord2 es m J Hsimp Ho2 Hm HJ HnJ) HsJ Hne Hcls' H solH HH (apart_H simp ord1 ord2 es m J H Hsimp Ho2 Hm HJ HH HnH) HsH Hcls ob xs Hob Hdep Hc Hsd Hl Hdef) as (g & H1 & H2 & H3 & H4).
    exists g. split; [exact H1|]. split; [exact H2|]. split; [|exact H4]. intros p j k q i l [F1 F2] [F3 F4]. exact (H3 p j k q i l F1 F2 F3 F4).
  Qed.
  Lemma arrays_ls_approx ob xs : m_params m <> [] -> cls <> KCallable -> has_jacobian simp ord2 m ->
    obj_init false om data = Ok ob -> dependent_on_grid G m data -> no_shape_clash G m -> some_data om data ->
    full_vector h m xs -> defined_at G es sol h m data xs ->
    exists g, ls_hess_approx h om ob xs [] = Ok g /\ shp g = [np; np] /\
      (forall p j k q i l, free_parameter h m p j k -> free_parameter h m q i l ->
        exists Dp Dq, (forall v n, In v (m_dep m) -> In n (indices G) ->
            partial_derivative (fun z => predicted sol h (m_params m) data z v n) xs j (Dp v n) /\
            partial_derivative (fun z => predicted sol h (m_params m) data z v n) xs i (Dq v n)) /\
          val g [l; k] = Rsum (map (fun v => match observed data v, observed data (sigma_of v) with
            | Some y, Some s => Rsum (map (fun n => Dp v n * Dq v n / elem s n ^ 2) (indices (shp y)))
            | _, _ => 0 end) (m_dep m))) /\
      (forall k l, (k < np)%nat -> (l < np)%nat -> val g [l; k] = val g [k; l]) /\
      forall z : nat -> R, 0 <= Rsum (map (fun k => Rsum (map (fun l => z k * val g [l; k] * z l) (seq 0 np))) (seq 0 np)).
  Proof.
    intros Hne Hcls (J & HJ & HnJ) Hob Hdep Hc Hsd Hl Hdef. destruct (solJ_exists simp ord1 ord2 es m J Hsimp Ho2 Hm HJ HnJ) as (solJ & HsJ).
    destruct (model_ls_approx simp ord1 ord2 es m m Hsimp Ho2 (built_self ord1 es m Hm) sol Hsol h data G cls Hgrid J solJ HJ (apart_J simp ord1 ord2 es m J Hsimp Ho2 Hm HJ HnJ) HsJ Hne Hcls ob xs Hob Hdep Hc Hsd Hl Hdef) as (g & H1 & H2 & H3 & H4 & H5).
    exists g. split; [exact H1|]. split; [exact H2|]. split; [|split; [exact H4|exact H5]]. intros p j k q i l [F1 F2] [F3 F4].
    destruct (H3 p j k q i l F1 F2 F3 F4) as (D & HD & E). exists (fun v n => D v p n), (fun v n => D v q n). split; [|exact E].
    intros v n Hv Hn'. split; [apply (HD v p j n Hv Hn'); auto|apply (HD v q i n Hv Hn'); auto].
  Qed.
  Lemma arrays_ll_gradient ob xs : m_params m <> [] -> cls <> KCallable -> has_jacobian simp ord2 m ->
    obj_init true om data = Ok ob -> covers_grid G es m data -> m_dep m <> [] ->
    full_vector h m xs -> positive_at G sol h m data xs -> defined_at G es sol h m data xs ->
    exists g, ll_jac h om ob xs [] = Ok g /\ shp g = [np] /\
      forall p j k, free_parameter h m p j k -> partial_derivative (minus_log_likelihood G sol h m data) xs j (val g [k]).
  Proof.
    intros Hne Hcls (J & HJ & HnJ) Hob Hc Hnd Hl Hpos Hdef. destruct (solJ_exists simp ord1 ord2 es m J Hsimp Ho2 Hm HJ HnJ) as (solJ & HsJ).
    destruct (model_ll_gradient simp ord1 ord2 es m m Hsimp Ho2 (built_self ord1 es m Hm) sol Hsol h data G cls Hgrid J solJ HJ (apart_J simp ord1 ord2 es m J Hsimp Ho2 Hm HJ HnJ) HsJ Hne Hcls ob xs Hob Hc Hnd Hl Hpos Hdef) as (g & H1 & H2 & H3).
    exists g. split; [exact H1|]. split; [exact H2|]. intros p j k [H4 H5]. exact (H3 p j k H4 H5).
  Qed.
  Lemma arrays_ll_hessian ob xs : m_params m <> [] -> cls = KModel -> has_hessian simp ord2 m ->
    obj_init true om data = Ok ob -> covers_grid G es m data -> m_dep m <> [] ->
    full_vector h m xs -> positive_at G sol h m data xs -> defined_near G es sol h m data xs ->
    exists g, ll_hess h om ob xs [] = Ok g /\ shp g = [np; np] /\
      (forall p j k q i l, free_parameter h m p j k -> free_parameter h m q i l -> second_partial (minus_log_likelihood G sol h m data) xs i j (val g [l; k])) /\
      forall k l, (k < np)%nat -> (l < np)%nat -> val g [l; k] = val g [k; l].
  Proof.
    intros Hne Hcls (H & HH & HnH) Hob Hc Hnd Hl Hpos Hdef. destruct (H_gives_J simp ord1 ord2 es m H Hsimp Ho2 Hm HH HnH) as (J & solJ & solH & HJ & HnJ & HsJ & HsH).
    assert (Hcls' : cls <> KCallable) by (rewrite Hcls; discriminate).
    destruct (model_ll_hessian simp ord1 ord2 es m m Hsimp Ho2 (built_self ord1 es m Hm) sol Hsol h data G cls Hgrid J solJ HJ (apart_J simp ord1 ord2 es m J Hsimp Ho2 Hm HJ HnJ) HsJ Hne Hcls' H solH HH (apart_H simp ord1 ord2 es m J H Hsimp Ho2 Hm HJ HH HnH) HsH Hcls ob xs Hob Hc Hnd Hl Hpos Hdef) as (g & H1 & H2 & H3 & H4).
    exists g. split; [exact H1|]. split; [exact H2|]. split; [|exact H4]. intros p j k q i l [F1 F2] [F3 F4]. exact (H3 p j k q i l F1 F2 F3 F4).
  Qed.
  Lemma arrays_mm ob xs v : m_params m <> [] -> cls = KModel -> has_hessian simp ord2 m ->
    mm_init om data = Ok ob -> m_dep m = [v] -> full_vector h m xs -> defined_near G es sol h m data xs ->
    exists c j g, mm_call h om ob xs [] = Ok c /\ mm_jac h om ob xs [] = Ok (Some j) /\ mm_hess h om ob xs [] = Ok (Some g) /\
      shp j = shp c ++ [np] /\ shp g = shp c ++ [np; np] /\
      forall n, In n (indices (shp c)) -> val c n = predicted sol h (m_params m) data xs v n /\
        (forall p i k, free_parameter h m p i k -> partial_derivative (fun z => predicted sol h (m_params m) data z v n) xs i (val j (n ++ [k]))) /\
        (forall p b k q i l, free_parameter h m p b k -> free_parameter h m q i l ->
           second_partial (fun z => predicted sol h (m_params m) data z v n) xs i b (val g (n ++ [l; k]))) /\
        forall k l, (k < np)%nat -> (l < np)%nat -> val g (n ++ [l; k]) = val g (n ++ [k; l]).
  Proof.
    intros Hne Hcls (H & HH & HnH) Hob Hv Hl Hnear. destruct (H_gives_J simp ord1 ord2 es m H Hsimp Ho2 Hm HH HnH) as (J & solJ & solH & HJ & HnJ & HsJ & HsH).
    assert (Hcls' : cls <> KCallable) by (rewrite Hcls; discriminate).
    destruct (model_mm simp ord1 ord2 es m m Hsimp Ho2 (built_self ord1 es m Hm) sol Hsol h data G cls Hgrid J solJ HJ (apart_J simp ord1 ord2 es m J Hsimp Ho2 Hm HJ HnJ) HsJ Hne Hcls' ob xs v Hob Hv Hl) as (c & j & A1 & A2 & A3 & _ & A5 & A6).
    destruct (model_mm_hessian simp ord1 ord2 es m m Hsimp Ho2 (built_self ord1 es m Hm) sol Hsol h data G cls Hgrid J solJ HJ (apart_J simp ord1 ord2 es m J Hsimp Ho2 Hm HJ HnJ) HsJ Hne Hcls' H solH HH (apart_H simp ord1 ord2 es m J H Hsimp Ho2 Hm HJ HH HnH) HsH Hcls ob xs v Hob Hv Hl) as (c' & g & B1 & B2 & B3 & B4).
    assert (c' = c) by congruence. subst c'. exists c, j, g. do 5 (split; [assumption|]). intros n Hin. split; [apply A5; exact Hin|].
    destruct (B4 Hnear) as [B5 B6]. assert (Hdef : defined_at G es sol h m data xs) by (eapply (defined_here es m sol h data G xs); exact Hnear).
    split; [intros p i k [F1 F2]; exact (A6 Hdef n p i k Hin F1 F2)|]. split; [|intros k l; apply B6; exact Hin].
    intros p b k q i l [F1 F2] [F3 F4]. exact (B5 n p b k q i l Hin F1 F2 F3 F4).
  Qed.
  Lemma arrays_vls ob xs : m_params m <> [] -> cls <> KCallable -> has_jacobian simp ord2 m ->
    obj_init false om data = Ok ob -> dependent_on_grid G m data -> no_shape_clash G m -> some_data om data ->
    full_vector h m xs -> defined_at G es sol h m data xs ->
    exists r D, vls_call true h om ob xs [] = Ok r /\ vls_jac h om ob xs [] = Ok D /\
      shp r = [List.length (indices G)] /\ shp D = [np; List.length (indices G)] /\
      Rsum (map (fun n => val r [n] ^ 2) (seq 0 (List.length (indices G)))) = 2 * half_chi2_at sol h m data xs /\
      forall p j k n, free_parameter h m p j k -> (n < List.length (indices G))%nat -> val r [n] <> 0 ->
          exists F, locally (nth j xs 0) (fun t => exists rt, vls_call true h om ob (set_nth xs j t) [] = Ok rt /\ val rt [n] = F t) /\
                    is_derive F (nth j xs 0) (val D [k; n]).
  Proof.
    intros Hne Hcls (J & HJ & HnJ) Hob Hdep Hc Hsd Hl Hdef. destruct (solJ_exists simp ord1 ord2 es m J Hsimp Ho2 Hm HJ HnJ) as (solJ & HsJ).
    destruct (model_vls simp ord1 ord2 es m m Ho2 (built_self ord1 es m Hm) sol Hsol h data G cls Hgrid ob xs Hob Hdep Hsd Hl) as (r & A1 & A2 & A3).
    destruct (model_vls_jacobian simp ord1 ord2 es m m Hsimp Ho2 (built_self ord1 es m Hm) sol Hsol h data G cls Hgrid J solJ HJ (apart_J simp ord1 ord2 es m J Hsimp Ho2 Hm HJ HnJ) HsJ Hne Hcls ob xs Hob Hdep Hc Hsd Hl Hdef) as (r' & D & B1 & B2 & B3 & B4).
    assert (r' = r) by congruence. subst r'. exists r, D. do 5 (split; [assumption|]). intros p j k n [F1 F2]. apply B4 with (p := p); assumption.
  Qed.
End Main.
