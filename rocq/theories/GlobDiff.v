(** * GlobDiff: the derivatives of chi squared over data of different shapes. *)
From Coq Require Import Reals Relations Lra Lia.
From Coquelicot Require Import Coquelicot.
From Verif Require Import PyBase PyFacts Signature Expr Model ModelSpec ModelFacts CallFacts InitFacts ConstraintFacts AsConstraint ModelMisc ExprR Jacobian JacFacts JacAnalysis JacSecond JacLemmas Cast NumPy NumFacts Objective ObjSpec ObjFacts ObjDiff ArrModel ArrSpec ArrFacts ArrGen Minimizer MinSpec Fit FitSpec EndSpec GenSpec GlobSpec GlobMain GlobFit.
From Verif Require ArrObj ArrMain EndMain Cast.
Local Open Scope R_scope.

Section Diff.
  Context (simp : expr -> expr) (ord1 ord2 : list sym -> list sym) (es : dict sym expr) (m : amodel) (sol : (sym -> R) -> sym -> R).
  Hypothesis Hsimp : simp_ok simp.
  Hypothesis Ho2 : set_order ord2.
  Hypothesis Hm : model_of ord1 es m.
  Hypothesis Hsol : means es sol.
  Context (Y S : sym -> option nd) (sh : sym -> list nat).
  Hypothesis Hgr : on_grids es m Y sh.
  Hypothesis HY : forall v, In v (m_indep m) -> Y v <> None.
  Hypothesis Hdat : forall v y, In v (m_dep m) -> Y v = Some y -> shp y = sh v /\ exists s, S v = Some s /\ fits (shp s) (shp y) = true /\ forall i, In i (indices (shp y)) -> elem s i <> 0.
  Notation itemsR := (comps (V:=R) es).
  Notation ps := (m_params m).
  Let Ho1 : set_order ord1 := proj1 Hm.
  Let Hb := ArrObj.built_self ord1 es m Hm.
  Notation P theta := (fun v i => sol (at_data Y theta i) v).
  Let par_par p : In p ps -> is_par p = true := par_par ord1 es m Hm p.
  Let dep_in v : In v (m_dep m) -> In v (dkeys (comps (V:=res nd) es)) := dep_in ord1 es m Hm v.
  Let at_upd := at_upd Y.

  Lemma with_same theta p q : with_value theta p (theta p) q = theta q.
  Proof using. unfold with_value. destruct (eq_dec q p) as [->|]; reflexivity. Qed.
  Lemma at_data_ext t1 t2 i s : (forall q, t1 q = t2 q) -> at_data Y t1 i s = at_data Y t2 i s.
  Proof using. intros H. unfold at_data. destruct (is_par s); [apply H|reflexivity]. Qed.
  Lemma pred_same theta p v i : In v (m_dep m) -> sol (at_data Y (with_value theta p (theta p)) i) v = sol (at_data Y theta i) v.
  Proof using Hm Hsol. intros Hv. apply (EndMain.sol_ext ord1 es m sol Hm Hsol); [intros s _; apply at_data_ext, with_same|left; exact (dep_in v Hv)]. Qed.

  Section J.
    Context (J : dict sym (comp (V:=res nd))) (solJ : (sym -> R) -> sym -> R).
    Hypothesis HJ : jacobian_items simp ord2 m = Ok J.
    Hypothesis HnJ : distinct_names J.
    Hypothesis HsJ : solves_for J solJ.
    Notation D := (DJ Y solJ).
    Let AJ := ArrObj.AJ simp ord1 ord2 es m m Hsimp Ho2 Hb J HJ.
    Let derive := glob_derive simp ord1 ord2 es m sol Hsimp Ho2 Hm Hsol Y sh J solJ HJ HsJ.
    Lemma D_ext t1 t2 v i p : (forall q, t1 q = t2 q) -> In v (m_dep m) -> In p ps -> D t1 v i p = D t2 v i p.
    Proof using HJ Hm HnJ Ho2 HsJ Hsimp.
      intros H Hv Hp. unfold DJ. apply (ArrObj.solX_ext ord1 es m m Hb J solJ _ _ AJ HnJ HsJ); [intros s _; apply at_data_ext, H|].
      left. exact (der_key_in simp ord1 ord2 es m Hsimp Ho2 Hm J HJ v p (dep_in v Hv) Hp).
    Qed.
    Lemma glob_chi2_derive theta p : In p ps -> grids_defined es sol m sh Y theta ->
      derivative_in (fun th => / 2 * chi2_for sol m Y S th) theta p (chi2_gradient (P theta) (fun v i => D theta v i p) (m_dep m) Y S).
    Proof using Hm Hsol Hsimp Ho2 Hdat HJ HsJ.
      intros Hp Hdef. unfold derivative_in, chi2_for.
      assert (H : is_derive (fun t => Rsum (map (fun v => match Y v, S v with
          | Some y, Some s => Rsum (map (fun i => ((sol (at_data Y (with_value theta p t) i) v - val y i) / elem s i) ^ 2) (indices (shp y)))
          | _, _ => 0 end) (m_dep m))) (theta p)
        (Rsum (map (fun v => match Y v, S v with
          | Some y, Some s => Rsum (map (fun i => 2 * (D theta v i p * ((sol (at_data Y theta i) v - val y i) / elem s i ^ 2))) (indices (shp y)))
          | _, _ => 0 end) (m_dep m)))).
      { apply (is_derive_Rsum (fun v t => match Y v, S v with
          | Some y, Some s => Rsum (map (fun i => ((sol (at_data Y (with_value theta p t) i) v - val y i) / elem s i) ^ 2) (indices (shp y)))
          | _, _ => 0 end)).
        intros v Hv. destruct (Y v) as [y|] eqn:Hy; [|apply der_const]. destruct (Hdat v y Hv Hy) as (Hs & s & HS & _ & Hnz). rewrite HS.
        apply (is_derive_Rsum (fun i t => ((sol (at_data Y (with_value theta p t) i) v - val y i) / elem s i) ^ 2)). intros i Hi.
        pose proof (is_derive_half_sq (fun t => sol (at_data Y (with_value theta p t) i) v) (theta p) (D theta v i p) (val y i) (elem s i)) as Q. cbv beta in Q.
        rewrite pred_same in Q by exact Hv. apply Q; [|exact (Hnz i Hi)]. rewrite Hs in Hi. exact (derive theta v i p Hv Hi Hp Hdef). }
      pose proof (der_mult (fun _ => / 2) _ (theta p) 0 _ (der_const (/2) (theta p)) H) as H'. rewrite Rmult_0_l, Rplus_0_l in H'.
      match type of H' with is_derive _ _ ?a => match goal with |- is_derive _ _ ?b => replace b with a end end; [exact H'|].
      rewrite <- Rsum_scal. unfold chi2_gradient. apply Rsum_ext. intros v _. destruct (Y v) as [y|]; [|lra]. destruct (S v) as [s|]; [|lra].
      rewrite <- Rsum_scal. apply Rsum_ext. intros i _. lra.
    Qed.

    Section H.
      Context (H : dict sym (comp (V:=res nd))) (solH : (sym -> R) -> sym -> R).
      Hypothesis HH : hessian_items simp ord2 m = Ok H.
      Hypothesis HnH : distinct_names H.
      Hypothesis HsH : solves_for H solH.
      Hypothesis Hne : ps <> [].
      Definition DH (theta : sym -> R) (v : sym) (i : list nat) (p q : sym) : R := solH (at_data Y theta i) (der_of (der_of v (sname p)) (sname q)).
      Definition DHk (theta : sym -> R) (v : sym) (i : list nat) (k l : nat) : R :=
        match nth_error ps k, nth_error ps l with Some p, Some q => DH theta v i p q | _, _ => 0 end.
      Lemma glob_predicts_hess theta : predicts_hess (om_of KModel simp ord2 m) Y sh theta (DHk theta).
      Proof using Hm Hgr HY Ho2 Hsol Hsimp HJ HH HnH HsH Hne.
        intros d Hin. destruct (gvalue ord1 ord2 es m sol Ho2 Hm Hsol Y sh Hgr HY theta) as (o & Hv).
        pose proof (ArrObj.AH simp ord1 ord2 es m m Hsimp Ho2 Hb J HJ H HH) as A.
        destruct (arr_hessian simp ord1 ord2 (comps es) m m ps Hsimp Ho1 Ho2 (ArrObj.Hd ord1 es m m Hb) (ArrObj.Hself ord1 es m m Hb) (ArrObj.Hplain ord1 es m m Hb) (ArrObj.Hpow ord1 es m m Hb) (ArrObj.Hi ord1 es m m Hb) (ArrObj.Hp ord1 es m m Hb) (fun p H => H)
          (Q es sh) (Q0 es sh) (Q2 es sh) (Qr es sh) H solH (ginp Y theta) o sol Hne HH HnH (ArrObj.apart_self ord1 es m H Hm A HnH) HsH Hv (ginp_ok ord1 es m Hm Y sh Hgr HY theta)) as (hess & Cj & Kj & Hj).
        exists (arr_hess simp ord2 m), hess. split; [reflexivity|]. split; [exact (Cj d (gcalls simp ord1 ord2 es m Hm Y HY theta KModel d Hin))|].
        split; [apply (ArrObj.om_lists_jac simp ord1 ord2 es m m Hb KModel); exact Kj|].
        intros v Hvd. cbn [om_dep om_params om_of] in *. destruct (gentry ord1 ord2 es m sol Hm Hsol Y sh Hgr HY theta o v Hv Hvd) as (E1 & _). destruct (Hj v (dep_in v Hvd)) as (c & j & Ec & Ej & Es & Hval).
        unfold entry in E1. rewrite Ec in E1. unfold entry. rewrite Ej. split; [rewrite Es, E1; reflexivity|].
        intros i k l Hii Hk Hl. unfold DHk. destruct (nth_error ps k) as [p|] eqn:Ek; [|apply nth_error_None in Ek; lia]. destruct (nth_error ps l) as [q|] eqn:El; [|apply nth_error_None in El; lia].
        rewrite (Hval i k l p q (eq_trans (indices_length _ _ Hii) (f_equal (@List.length nat) (eq_sym E1))) Ek El). unfold DH.
        apply (ArrObj.solX_ext ord1 es m m Hb H solH _ _ A HnH HsH); [intros s _; apply ginp_at|].
        left. apply (ArrObj.der_key2 simp ord1 ord2 es m m Hsimp Ho2 Hb J HJ H HH v p q (dep_in v Hvd)); eapply nth_error_In; eassumption.
      Qed.

      Section Near.
        Context (theta : sym -> R).
        Hypothesis Hdef : grids_defined_around es sol m sh Y theta.
        Lemma def_here : grids_defined es sol m sh Y theta.
        Proof using Hdef. destruct Hdef as (eps & He & Hl). apply Hl. intros p. rewrite Rminus_eq_0, Rabs_R0. exact He. Qed.
        Lemma def_near p : exists eps, 0 < eps /\ forall t, Rabs (t - theta p) < eps -> grids_defined es sol m sh Y (with_value theta p t).
        Proof using Hdef.
          destruct Hdef as (eps & He & Hl). exists eps. split; [exact He|]. intros t Ht. apply Hl. intros q. unfold with_value. destruct (eq_dec q p) as [->|]; [exact Ht|]. rewrite Rminus_eq_0, Rabs_R0. exact He.
        Qed.
        Lemma loc_on v i : In v (m_dep m) -> In i (indices (sh v)) -> exists eps, 0 < eps /\ forall inp', (forall s, Rabs (inp' s - at_data Y theta i s) < eps) -> (forall s, is_par s = false -> inp' s = at_data Y theta i s) ->
          defs_on itemsR sol (fun k => k = v \/ uses es v k) inp'.
        Proof using Hdef Hm Hsol.
          intros Hv Hi. destruct Hdef as (eps & He & Hl). exists eps. split; [exact He|]. intros inp' H1 H2 k e Hk Hin.
          pose (th := fun s => if is_par s then inp' s else theta s).
          assert (Hth : forall p, Rabs (th p - theta p) < eps).
          { intros p. unfold th. destruct (is_par p) eqn:Ep; [specialize (H1 p); unfold at_data in H1; rewrite Ep in H1; exact H1|]. rewrite Rminus_eq_0, Rabs_R0. exact He. }
          pose proof (Hl th Hth v i k e Hv Hi Hk (proj1 (ArrObj.in_comps es k e) Hin)) as Hd.
          eapply defined_ext; [|exact Hd]. intros s Hs. apply (EndMain.sol_ext ord1 es m sol Hm Hsol).
          - intros x _. unfold at_data, th. destruct (is_par x) eqn:Ex; [reflexivity|]. rewrite (H2 x Ex). unfold at_data. rewrite Ex. reflexivity.
          - right. exists k, e. split; [apply ArrObj.in_comps; apply ArrObj.in_comps in Hin; exact Hin|left; exact Hs].
        Qed.
        Let at_par p i : In p ps -> at_data Y theta i p = theta p.
        Proof using Hm. intros Hp. unfold at_data. rewrite (par_par p Hp). reflexivity. Qed.
        Lemma dval2_is v i p q : In v (m_dep m) -> dval2 itemsR (solH (at_data Y theta i)) p q v = DH theta v i p q.
        Proof using Hm.
          intros Hv. pose proof (dep_in v Hv) as Hk. destruct (proj1 (ArrObj.Hplain ord1 es m m Hb) v Hk) as (y & ->). unfold dval2, DH.
          rewrite (proj2 (inb_In (SVar y) (dkeys itemsR))); [reflexivity|]. rewrite ArrObj.dkeys_comps. rewrite ArrObj.dkeys_comps in Hk. exact Hk.
        Qed.
        Lemma second_on v i p q : In v (m_dep m) -> In i (indices (sh v)) -> In p ps -> In q ps ->
          is_derive (fun u => dval itemsR (solJ (set_input (at_data Y theta i) q u)) p v) (at_data Y theta i q) (dval2 itemsR (solH (at_data Y theta i)) p q v).
        Proof using Hm Ho2 Hsol Hsimp HJ HnJ HsJ HH HsH Hdef.
          intros Hv Hi Hp Hq. destruct (loc_on v i Hv Hi) as (eps & He & Hloc).
          destruct (ArrObj.H_parts simp ord1 ord2 es m m Hsimp Ho2 Hb J HJ H HH) as (v2f & Hvf & _ & _ & _ & HJR & HHR).
          assert (HvR : In v (dkeys itemsR)) by (rewrite ArrObj.dkeys_comps, <- (ArrObj.dkeys_comps (V:=res nd)); exact (dep_in v Hv)).
          assert (HnJR : distinct_names (icast (W:=R) J)) by (apply Cast.distinct_icast, HnJ).
          exact (second_order_on simp ord1 ord2 itemsR (mcast m) (mcast m) ps v2f Hsimp Ho1 Ho2 (ArrObj.HdR ord1 es m m Hb) (ArrObj.HselfR ord1 es m m Hb) (proj1 (ArrObj.HplainR ord1 es m m Hb)) (proj2 (ArrObj.HplainR ord1 es m m Hb))
            (ArrObj.HiR ord1 es m m Hb) (ArrObj.HpR ord1 es m m Hb) (ArrObj.Hps ord1 es m m Hb) Hvf sol Hsol (icast J) (icast H) HJR HHR HnJR
            (fun k => k = v \/ uses es v k) (fun k s Hk Hr => below_closed es v k s Hk Hr) (at_data Y theta i) (solH (at_data Y theta i)) solJ eps (HsH _) HsJ He Hloc v (or_introl HvR) (or_introl eq_refl) p q Hp Hq).
        Qed.
        Lemma glob_sym v i p q : In v (m_dep m) -> In i (indices (sh v)) -> In p ps -> In q ps -> DH theta v i p q = DH theta v i q p.
        Proof using Hm Ho2 Hsol Hsimp HJ HnJ HsJ HH HsH Hdef.
          intros Hv Hi Hp Hq. destruct (loc_on v i Hv Hi) as (eps & He & Hloc).
          destruct (ArrObj.H_parts simp ord1 ord2 es m m Hsimp Ho2 Hb J HJ H HH) as (v2f & Hvf & _ & _ & _ & HJR & HHR).
          assert (HvR : In v (dkeys itemsR)) by (rewrite ArrObj.dkeys_comps, <- (ArrObj.dkeys_comps (V:=res nd)); exact (dep_in v Hv)).
          rewrite <- (dval2_is v i p q Hv), <- (dval2_is v i q p Hv).
          exact (schwarz_on simp ord1 ord2 itemsR (mcast m) (mcast m) ps v2f Hsimp Ho1 Ho2 (ArrObj.HdR ord1 es m m Hb) (ArrObj.HselfR ord1 es m m Hb) (proj1 (ArrObj.HplainR ord1 es m m Hb)) (proj2 (ArrObj.HplainR ord1 es m m Hb))
            (ArrObj.HiR ord1 es m m Hb) (ArrObj.HpR ord1 es m m Hb) (ArrObj.Hps ord1 es m m Hb) Hvf sol Hsol (icast J) HJR
            (fun k => k = v \/ uses es v k) (fun k s Hk Hr => below_closed es v k s Hk Hr) (at_data Y theta i) (solH (at_data Y theta i)) solJ eps HsJ He Hloc p q v Hp Hq (or_introl HvR) (or_introl eq_refl)
            (second_on v i p q Hv Hi Hp Hq) (second_on v i q p Hv Hi Hq Hp)).
        Qed.
        Lemma glob_derive2 v i p q : In v (m_dep m) -> In i (indices (sh v)) -> In p ps -> In q ps ->
          derivative_in (fun th => D th v i p) theta q (DH theta v i p q).
        Proof using Hm Ho2 Hsol Hsimp HJ HnJ HsJ HH HsH Hdef.
          intros Hv Hi Hp Hq. pose proof (second_on v i p q Hv Hi Hp Hq) as Hso. rewrite (dval2_is v i p q Hv), (at_par q i Hq) in Hso.
          assert (HvR : In v (dkeys itemsR)) by (rewrite ArrObj.dkeys_comps, <- (ArrObj.dkeys_comps (V:=res nd)); exact (dep_in v Hv)).
          unfold derivative_in. eapply is_derive_ext; [|exact Hso]. intros t. cbv beta. unfold dval. rewrite (proj2 (inb_In v (dkeys itemsR)) HvR). unfold DJ.
          apply (ArrObj.solX_ext ord1 es m m Hb J solJ _ _ AJ HnJ HsJ); [intros s _; symmetry; apply at_upd, par_par; exact Hq|].
          left. exact (der_key_in simp ord1 ord2 es m Hsimp Ho2 Hm J HJ v p (dep_in v Hv) Hp).
        Qed.
        Lemma glob_chi2_second p q : In p ps -> In q ps ->
          second_derivative_in (fun th => / 2 * chi2_for sol m Y S th) theta p q
            (chi2_hessian (P theta) (fun v i => D theta v i p) (fun v i => D theta v i q) (fun v i => DH theta v i p q) (m_dep m) Y S).
        Proof using Hm Ho2 Hsol Hsimp HJ HnJ HsJ HH HsH Hdef Hdat.
          intros Hp Hq. unfold second_derivative_in. destruct (def_near p) as (eps & He & Hl).
          apply is_derive_ext_loc with (f := fun t => chi2_gradient (P (with_value theta p t)) (fun v i => D (with_value theta p t) v i q) (m_dep m) Y S).
          { exists (mkposreal eps He). intros t Ht. symmetry. apply is_derive_unique. exact (glob_chi2_derive (with_value theta p t) q Hq (Hl t Ht)). }
          unfold chi2_gradient, chi2_hessian.
          apply (is_derive_Rsum (fun v t => match Y v, S v with
            | Some y, Some s => Rsum (map (fun i => D (with_value theta p t) v i q * ((sol (at_data Y (with_value theta p t) i) v - val y i) / elem s i ^ 2)) (indices (shp y)))
            | _, _ => 0 end)).
          intros v Hv. destruct (Y v) as [y|] eqn:Hy; [|apply der_const]. destruct (Hdat v y Hv Hy) as (Hs & s & HS & _ & Hnz). rewrite HS.
          apply (is_derive_Rsum (fun i t => D (with_value theta p t) v i q * ((sol (at_data Y (with_value theta p t) i) v - val y i) / elem s i ^ 2))). intros i Hi.
          pose proof (Hnz i Hi) as Hz. rewrite Hs in Hi.
          pose proof (glob_derive2 v i q p Hv Hi Hq Hp) as H1. unfold derivative_in in H1.
          pose proof (derive theta v i p Hv Hi Hp def_here) as H2. unfold derivative_in in H2.
          assert (H3 : is_derive (fun t => (sol (at_data Y (with_value theta p t) i) v - val y i) / elem s i ^ 2) (theta p) (D theta v i p / elem s i ^ 2)).
          { set (F := fun t => sol (at_data Y (with_value theta p t) i) v) in *. change (is_derive (fun t => (F t - val y i) / elem s i ^ 2) (theta p) (D theta v i p / elem s i ^ 2)).
            auto_derive; [eexists; exact H2|]. rewrite (is_derive_unique (fun x : R => F x) _ _ H2). field. exact Hz. }
          pose proof (der_mult _ _ (theta p) _ _ H1 H3) as H4. cbv beta in H4. rewrite (pred_same theta p v i Hv), (D_ext _ theta v i q (with_same theta p) Hv Hq) in H4.
          match type of H4 with is_derive _ _ ?a => match goal with |- is_derive _ _ ?b => replace b with a end end; [exact H4|].
          rewrite (glob_sym v i q p Hv Hi Hq Hp). unfold Rdiv. ring.
        Qed.
      End Near.
    End H.
  End J.
End Diff.
