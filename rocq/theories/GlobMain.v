(** * GlobMain: what a symbolic model predicts for data of different shapes, and the derivatives. *)
From Coq Require Import Reals Relations Lra Lia.
From Coquelicot Require Import Coquelicot.
From Verif Require Import PyBase PyFacts Signature Expr Model ModelSpec ModelFacts CallFacts InitFacts ConstraintFacts AsConstraint ModelMisc ExprR Jacobian JacFacts JacAnalysis JacSecond JacLemmas Cast NumPy NumFacts Objective ObjSpec ObjFacts ArrModel ArrSpec ArrFacts ArrGen Minimizer MinSpec Fit FitSpec EndSpec GenSpec GlobSpec.
From Verif Require ArrObj ArrMain EndMain.
Local Open Scope R_scope.

Section Glob.
  Context (simp : expr -> expr) (ord1 ord2 : list sym -> list sym) (es : dict sym expr) (m : amodel) (sol : (sym -> R) -> sym -> R).
  Hypothesis Hsimp : simp_ok simp.
  Hypothesis Ho2 : set_order ord2.
  Hypothesis Hm : model_of ord1 es m.
  Hypothesis Hsol : means es sol.
  Context (Y : sym -> option nd) (sh : sym -> list nat).
  Hypothesis Hgr : on_grids es m Y sh.
  Hypothesis HY : forall v, In v (m_indep m) -> Y v <> None.
  Notation items := (comps (V:=res nd) es).
  Notation itemsR := (comps (V:=R) es).
  Notation ps := (m_params m).
  Let Ho1 : set_order ord1 := proj1 Hm.
  Let Hb := ArrObj.built_self ord1 es m Hm.
  Let Hd := ArrObj.Hd ord1 es m m Hb.
  Let Hself := ArrObj.Hself ord1 es m m Hb.
  Let Hplain := ArrObj.Hplain ord1 es m m Hb.
  Let Hpow := ArrObj.Hpow ord1 es m m Hb.
  Let Hi := ArrObj.Hi ord1 es m m Hb.
  Let Hp := ArrObj.Hp ord1 es m m Hb.

  (** a suitable shape for the symbol [k]: it lives on the grid of every component that uses [k] *)
  Definition Q (k : sym) (a : list nat) : Prop := forall v, In v (dkeys es) -> k = v \/ uses es v k -> on_grid (sh v) a.
  Lemma Q0 k : In k (dkeys items) -> Q k [].
  Proof using. intros _ v _ _. apply on_grid_nil. Qed.
  Lemma Q2 k : In k (dkeys items) -> forall s t, Q k s -> Q k t -> exists u, bshape s t = Some u /\ Q k u.
  Proof using.
    intros Hk s t Hs Ht. rewrite ArrObj.dkeys_comps in Hk.
    destruct (on_grid_lub (sh k) s t (Hs k Hk (or_introl eq_refl)) (Ht k Hk (or_introl eq_refl))) as (u & Hu & _).
    exists u. split; [exact Hu|]. intros v Hv Hvk. destruct (on_grid_lub (sh v) s t (Hs v Hv Hvk) (Ht v Hv Hvk)) as (u' & Hu' & Hg). congruence.
  Qed.
  Lemma refers_R k s : refers items k s -> refers itemsR k s.
  Proof using. intros (e & Hin & H). exists e. split; [|exact H]. apply ArrObj.in_comps. apply ArrObj.in_comps in Hin. exact Hin. Qed.
  Lemma Qr k s a : refers items k s -> Q s a -> Q k a.
  Proof using.
    intros Hr Hs v Hv [->|Hvk]; apply (Hs v Hv); right; [apply t_step, refers_R, Hr|].
    eapply t_trans; [exact Hvk|apply t_step, refers_R, Hr].
  Qed.

  Section At.
    Context (theta : sym -> R).
    Definition ginp (s : sym) : nd := if is_par s then scalar (theta s) else match Y s with Some a => a | None => scalar 0 end.
    Lemma ginp_at i s : at_index ginp i s = at_data Y theta i s.
    Proof using. unfold at_index, ginp, at_data. destruct (is_par s); [apply elem_scalar|]. destruct (Y s); [reflexivity|apply elem_scalar]. Qed.
    Lemma indep_par v : In v (m_indep m) -> is_par v = false /\ ~ In v (dkeys es).
    Proof using Hm. intros Hv. apply (in_indep_iff ord1 items m Ho1 Hd Hi) in Hv as (_ & H1 & H2). rewrite ArrObj.dkeys_comps in H2. auto. Qed.
    Lemma par_par p : In p ps -> is_par p = true.
    Proof using Hm. apply (ArrObj.Hps ord1 es m m Hb). Qed.
    Lemma ginp_ok : inputs_ok m Q ginp.
    Proof using Hm Hgr HY.
      intros s Hs. apply in_app_or in Hs as [Hs|Hs].
      - destruct (indep_par s Hs) as [H1 H2]. unfold ginp. rewrite H1. intros v Hv [->|Hvk]; [contradiction|].
        destruct (Y s) as [a|] eqn:E; [|exfalso; exact (HY s Hs E)]. exact (proj1 Hgr v s a Hv Hvk Hs E).
      - unfold ginp. rewrite (par_par s Hs). intros v _ _. apply on_grid_nil.
    Qed.
    Lemma gvalue : exists o, value_spec ord2 items m Q sol ginp o.
    Proof using Hm Hgr HY Ho2 Hsol.
      apply (arr_value ord1 ord2 items m m ps Ho1 Ho2 Hd Hself Hplain Hpow Hi Hp (fun p H => H) Q Q0 Q2 Qr sol ginp (ArrObj.HsolN es sol Hsol) (ArrObj.Hn ord1 es m m Hb)); [|exact ginp_ok].
      exact (ArrObj.apart_items ord1 es m m Hb).
    Qed.
    Lemma gcalls cls d : inputs_for (om_of cls simp ord2 m) Y theta d -> forall n, dget d n = dget (named ginp (m_indep m ++ ps)) n.
    Proof using Hm HY.
      intros [_ Hd'] n. cbn [om_indep om_params om_of] in Hd'.
      destruct (in_dec string_dec n (map sname (m_indep m ++ ps))) as [Hn|Hn].
      - apply in_map_iff in Hn as (s & <- & Hs). rewrite (ArrObj.dget_named _ _ _ (ArrObj.names_nodup ord1 es m m Hb) Hs). apply Hd'.
        apply in_app_or in Hs as [Hs|Hs]; [left|right]; exists s; (split; [exact Hs|split; [reflexivity|]]); unfold ginp.
        + rewrite (proj1 (indep_par s Hs)). destruct (Y s) eqn:E; [reflexivity|exfalso; exact (HY s Hs E)].
        + rewrite (par_par s Hs). reflexivity.
      - rewrite ArrObj.dget_named_none by exact Hn. destruct (dget d n) as [a|] eqn:E; [|reflexivity]. exfalso. apply Hn. rewrite map_app. apply in_or_app.
        apply Hd' in E as [(v & Hv & <- & _)|(v & Hv & <- & _)]; [left|right]; apply in_map; exact Hv.
    Qed.
    Lemma ggrows k x : uses es k x -> forall w, solution NDalg items (fun s => Ok (ginp s)) w ->
      forall a, w k = Ok a -> exists b, w x = Ok b /\ fits (shp b) (shp a) = true.
    Proof using Hm.
      intros Hc w Hw. induction Hc as [k x Hr|k y x _ IH1 _ IH2]; intros a Ea.
      - destruct Hr as (e & Hin & Hme). apply ArrObj.in_comps in Hin. apply (ArrObj.in_comps (V:=res nd)) in Hin.
        pose proof (proj1 Hw _ _ Hin) as E. rewrite Ea in E. symmetry in E.
        destruct Hme as [Hme|(y & qs & Hme & _)]; [exact (nd_eval_grows w e (Hpow _ _ Hin) a E x Hme)|].
        assert (Hf : is_der (SDer y qs) = false) by (apply (proj2 Hplain k); exists e; split; [exact Hin|left; exact Hme]). discriminate.
      - destruct (IH1 a Ea) as (b & Eb & F1). destruct (IH2 b Eb) as (c & Ec & F2). exists c. split; [exact Ec|]. eapply fits_trans; eassumption.
    Qed.
    Lemma dep_in v : In v (m_dep m) -> In v (dkeys items).
    Proof using Hm. exact (ArrObj.dep_key ord1 es m m Hb v). Qed.
    Lemma gentry o v : value_spec ord2 items m Q sol ginp o -> In v (m_dep m) ->
      shp (entry o v) = sh v /\ (exists a, dget o v = Some a) /\ forall i, elem (entry o v) i = sol (at_data Y theta i) v.
    Proof using Hm Hgr HY Hsol.
      intros (_ & _ & w & Hw & Hall) Hv. destruct (Hall v (dep_in v Hv)) as (a & Ea & Eo & Hg & Hel & _).
      destruct (proj2 Hgr v Hv) as (Hne & x & b & Hu & Hx & Hyx & Hsx).
      destruct (ggrows v x Hu w Hw a Ea) as (b' & Eb & Hf).
      destruct (indep_par x Hx) as [Hpx Hkx]. rewrite (proj2 Hw x) in Eb by (rewrite ArrObj.dkeys_comps; exact Hkx). injection Eb as <-.
      unfold ginp in Hf. rewrite Hpx, Hyx, Hsx in Hf.
      assert (Hvk : In v (dkeys es)) by (rewrite <- (ArrObj.dkeys_comps (V:=res nd)); exact (dep_in v Hv)).
      pose proof (fits_antisym _ _ (proj1 (Hg v Hvk (or_introl eq_refl))) Hf) as E.
      unfold entry. rewrite Eo. split; [|split; [eauto|]].
      - unfold atleast_1d. destruct (shp a) eqn:Es; [congruence|]. rewrite Es. exact E.
      - intros i. rewrite elem_atleast_1d, Hel. apply (EndMain.sol_ext ord1 es m sol Hm Hsol); [intros s _; apply ginp_at|left; exact (dep_in v Hv)].
    Qed.
  End At.

  Notation P theta := (fun v i => sol (at_data Y theta i) v).
  Lemma glob_predicts cls theta : predicts (om_of cls simp ord2 m) Y sh theta (P theta).
  Proof using Hm Hgr HY Ho2 Hsol.
    intros d Hin. destruct (gvalue theta) as (o & Hv). exists o. split; [|split].
    - apply (proj1 Hv). exact (gcalls theta cls d Hin).
    - apply (ArrObj.om_lists_value simp ord1 ord2 es m m Hb cls). exact (proj1 (proj2 Hv)).
    - intros v Hvd. cbn [om_dep om_of] in Hvd. destruct (gentry theta o v Hv Hvd) as (E1 & _ & E3). split; [exact E1|]. intros i Hii. rewrite <- (elem_val (entry o v)) by (rewrite E1; exact Hii). apply E3.
  Qed.

  Section Jac.
    Context (J : dict sym (comp (V:=res nd))) (solJ : (sym -> R) -> sym -> R).
    Hypothesis HJ : jacobian_items simp ord2 m = Ok J.
    Hypothesis HnJ : distinct_names J.
    Hypothesis HsJ : solves_for J solJ.
    Hypothesis Hne : ps <> [].
    Let AJ := ArrObj.AJ simp ord1 ord2 es m m Hsimp Ho2 Hb J HJ.
    Definition DJ (theta : sym -> R) (v : sym) (i : list nat) (p : sym) : R := solJ (at_data Y theta i) (der_of v (sname p)).
    Definition DJk (theta : sym -> R) (v : sym) (i : list nat) (k : nat) : R := match nth_error ps k with Some p => DJ theta v i p | None => 0 end.
    Lemma der_key_in v p : In v (dkeys items) -> In p ps -> In (der_of v (sname p)) (dkeys J).
    Proof using Hm HJ Hsimp Ho2.
      intros Hk Hpp. destruct (ArrObj.J_parts simp ord1 ord2 es m m Hsimp Ho2 Hb J HJ) as (v2f & _ & HJ' & _ & _).
      destruct (proj1 Hplain v Hk) as (y & ->). exact (J_der_key simp ord1 items m m ps v2f Hd Hi Hp J HJ' y p Hk Hpp).
    Qed.
    Lemma glob_predicts_jac cls theta : cls <> KCallable -> predicts_jac (om_of cls simp ord2 m) Y sh theta (DJk theta).
    Proof using Hm Hgr HY Ho2 Hsol Hsimp HJ HnJ HsJ Hne.
      intros Hcls d Hin. destruct (gvalue theta) as (o & Hv).
      destruct (arr_jacobian simp ord1 ord2 items m m ps Hsimp Ho1 Ho2 Hd Hself Hplain Hpow Hi Hp (fun p H => H) Q Q0 Q2 Qr J solJ (ginp theta) o sol Hne HJ HnJ (ArrObj.apart_self ord1 es m J Hm AJ HnJ) HsJ Hv (ginp_ok theta)) as (jac & Cj & Kj & Hj).
      exists (arr_jac simp ord2 m), jac. split; [destruct cls; [congruence|reflexivity|reflexivity]|]. split; [exact (Cj d (gcalls theta cls d Hin))|].
      split; [apply (ArrObj.om_lists_jac simp ord1 ord2 es m m Hb cls); exact Kj|].
      intros v Hvd. cbn [om_dep om_params om_of] in *. destruct (gentry theta o v Hv Hvd) as (E1 & _). destruct (Hj v (dep_in v Hvd)) as (c & j & Ec & Ej & Es & Hval & _).
      unfold entry in E1. rewrite Ec in E1. unfold entry. rewrite Ej. split; [rewrite Es, E1; reflexivity|].
      intros i k Hii Hk. unfold DJk. destruct (nth_error ps k) as [p|] eqn:Ek; [|apply nth_error_None in Ek; lia].
      rewrite (Hval i k p (eq_trans (indices_length _ _ Hii) (f_equal (@List.length nat) (eq_sym E1))) Ek). unfold DJ.
      apply (ArrObj.solX_ext ord1 es m m Hb J solJ _ _ AJ HnJ HsJ); [intros s _; apply ginp_at|].
      left. apply der_key_in; [exact (dep_in v Hvd)|eapply nth_error_In; exact Ek].
    Qed.
    Lemma at_upd theta i p t s : is_par p = true -> at_data Y (with_value theta p t) i s = set_input (at_data Y theta i) p t s.
    Proof using. intros Hpp. unfold at_data, with_value, set_input. destruct (eq_dec s p) as [->|]; [rewrite Hpp; reflexivity|reflexivity]. Qed.
    Lemma below_closed v k s : (k = v \/ uses es v k) -> refers itemsR k s -> s = v \/ uses es v s.
    Proof using. intros [->|Hk] Hr; right; [apply t_step; exact Hr|eapply t_trans; [exact Hk|apply t_step; exact Hr]]. Qed.
    Lemma glob_derive theta v i p : In v (m_dep m) -> In i (indices (sh v)) -> In p ps -> grids_defined es sol m sh Y theta ->
      derivative_in (fun th => sol (at_data Y th i) v) theta p (DJ theta v i p).
    Proof using Hm Ho2 Hsol Hsimp HJ HsJ.
      intros Hv Hii Hpp Hdef. destruct (ArrObj.J_parts simp ord1 ord2 es m m Hsimp Ho2 Hb J HJ) as (v2f & Hvf & _ & _ & HJR).
      assert (HvR : In v (dkeys itemsR)) by (rewrite ArrObj.dkeys_comps, <- (ArrObj.dkeys_comps (V:=res nd)); exact (dep_in v Hv)).
      pose proof (first_order_on simp ord1 ord2 itemsR (mcast m) (mcast m) ps v2f Hsimp Ho1 Ho2 (ArrObj.HdR ord1 es m m Hb) (ArrObj.HselfR ord1 es m m Hb) (proj1 (ArrObj.HplainR ord1 es m m Hb)) (proj2 (ArrObj.HplainR ord1 es m m Hb))
        (ArrObj.HiR ord1 es m m Hb) (ArrObj.HpR ord1 es m m Hb) (ArrObj.Hps ord1 es m m Hb) Hvf sol Hsol (icast J) HJR (fun k => k = v \/ uses es v k) p (at_data Y theta i) (solJ (at_data Y theta i))
        (fun k s Hk Hr => below_closed v k s Hk Hr) Hpp (HsJ _)) as Hfo.
      specialize (Hfo (fun k e Hk Hin => Hdef v i k e Hv Hii Hk (proj1 (ArrObj.in_comps es k e) Hin)) v (or_introl HvR) (or_introl eq_refl)).
      unfold dval in Hfo. rewrite (proj2 (inb_In v (dkeys itemsR)) HvR) in Hfo.
      assert (Epp : at_data Y theta i p = theta p) by (unfold at_data; rewrite (par_par p Hpp); reflexivity).
      unfold derivative_in, DJ. rewrite Epp in Hfo. eapply is_derive_ext; [|exact Hfo]. intros t. cbv beta. symmetry.
      apply (EndMain.sol_ext ord1 es m sol Hm Hsol); [intros s _; apply at_upd; apply par_par; exact Hpp|left; exact (dep_in v Hv)].
    Qed.
  End Jac.
End Glob.
