(** * EndConJac: the derivatives of constraints that mention components of the model or data. *)
From Coq Require Import Reals Lra Lia Relations.
From Coquelicot Require Import Coquelicot.
From Verif Require ObjExample ArrObj.
From Verif Require Import PyBase PyFacts Signature SignatureFacts Expr Model ModelSpec ModelFacts CallFacts InitFacts ConstraintFacts AsConstraint ExprR Jacobian JacFacts JacAnalysis JacSecond JacLemmas DerNames Cast NumPy NumFacts Objective ObjSpec ObjFacts ObjDiff Minimizer MinSpec MinFacts MinLemmas Fit FitSpec FitData FitFacts FitCov FitThm FitMain ArrModel ArrSpec ArrFacts ArrCall ArrMain ArrCon ConModel EndSpec EndMain EndCon.
Local Open Scope R_scope.

(** The value of the constraint [u] at data point [i]: what has to be zero, or not negative, there. *)
Definition constraint_at (sol : (sym -> R) -> sym -> R) (Y : sym -> option nd) (u : user_con) (theta : sym -> R) (i : list nat) : R :=
  constraint_value u (sol (at_data Y theta i)).
(** Both sides are defined for the values [theta], at every data point. *)
Definition sides_defined (G : list nat) (sol : (sym -> R) -> sym -> R) (Y : sym -> option nd) (u : user_con) (theta : sym -> R) : Prop :=
  forall i, In i (indices G) -> defined (sol (at_data Y theta i)) (uc_left u) /\ defined (sol (at_data Y theta i)) (uc_right u).

(** The constraint (left minus right, as sympy writes it) refers, directly or through components of the model, to a
    variable whose data fill the grid. *)
Definition reaches_data (G : list nat) (sub : expr -> expr -> expr) (es : dict sym expr) (Y : sym -> option nd) (u : user_con) : Prop :=
  exists s x a, mentions (sub (uc_left u) (uc_right u)) s /\ (s = x \/ clos_trans sym (refers (comps (V:=R) es)) s x) /\
    ~ In x (dkeys es) /\ is_par x = false /\ Y x = Some a /\ shp a = G.

(** the Jacobian of a constraint, as it is wrapped for scipy *)
Lemma constraint_wrapped h om cons data c ob cls mn n k0 : init_class h om cons data c ob cls = Ok mn -> is_constrained cls = true -> is_gradient cls = true ->
  nth_error cons n = Some k0 -> om_jac (fc_om k0) <> None ->
  exists k ob', nth_error (pb_cons (execute_problem h mn DNone DNone)) n = Some k /\ mm_init (fc_om k0) data = Ok ob' /\
    (forall x, handed_fun k x = mm_call h (fc_om k0) ob' x []) /\ (forall v, imposes k v <-> demands (fc_rel k0) v) /\
    handed_jac k = Some (resize_jac (filter (fun p => p_fixed (h p)) (om_params om)) (om_params om) (as_fn (fun xs => mm_jac h (fc_om k0) ob' xs []))).
Proof.
  intros H Hc Hg Hn Hj. unfold init_class in H. rewrite Hc in H. apply bind_Ok in H as (cs & Hcs & H).
  apply mapM_Ok in Hcs. destruct (Forall2_at _ _ _ Hcs n k0 Hn) as (kc & Hkc & Hco). unfold constraint_objective in Hco. apply bind_Ok in Hco as (ob' & Hob & Hco). injection Hco as Hco.
  unfold minimizer_init in H. rewrite Hc in H. apply bind_Ok in H as (l & Hl & H).
  assert (Hall : forall c, In c cs -> c_rel c = REq \/ c_rel c = RGe).
  { intros c' Hin. unfold scipy_constraints in Hl. apply mapM_Ok in Hl. apply In_nth_error in Hin as (i & Hi).
    destruct (Forall2_at _ _ _ Hl i (CMinimize c') (map_nth_error CMinimize i cs Hi)) as (s & _ & Hs). unfold scipy_con_of in Hs. cbn [bind] in Hs. destruct (c_rel c'); cbn in Hs; try discriminate; auto. }
  rewrite (constraints_ok cls _ _ cs Hall) in Hl. injection Hl as Hl. injection H as H. subst mn l.
  assert (Hrel : c_rel kc = fc_rel k0 /\ c_fun kc = (fun xs => mm_call h (fc_om k0) ob' xs []) /\ c_jac kc = Some (as_fn (fun xs => mm_jac h (fc_om k0) ob' xs []))).
  { rewrite <- Hco. cbn [c_rel c_fun c_jac]. split; [reflexivity|]. split; [reflexivity|]. destruct (om_jac (fc_om k0)); [reflexivity|congruence]. }
  destruct Hrel as (Er & Ef & Ej). pose proof (Hall kc (nth_error_In _ _ Hkc)) as Hrr.
  rewrite pb_cons_eq. cbn [mi_class mi_cons]. rewrite Hc. unfold wrapped_constraints. cbn [mi_class mi_cons].
  destruct (trust_dec cls) as [->|Ht]; [|assert (E : forall A (x y : A), match cls with TrustConstr => x | _ => y end = y) by (intros; destruct cls; congruence); rewrite E; clear E].
  - unfold trust_constraints. eexists. exists ob'. split; [rewrite !map_map; apply map_nth_error; exact Hkc|]. split; [exact Hob|]. cbn [imposes handed_fun handed_jac nc_fun nc_jac nc_upper sc_fun sc_jac sc_type].
    split; [intros x; rewrite Ef; reflexivity|]. split; [|rewrite Ej; reflexivity].
    intros v. rewrite <- Er. destruct Hrr as [E|E]; rewrite E; cbn [demands]; split; intros; lra.
  - eexists. exists ob'. split; [rewrite map_map; apply map_nth_error; exact Hkc|]. split; [exact Hob|]. cbn [imposes handed_fun handed_jac sc_fun sc_jac sc_type].
    split; [intros x; rewrite Ef; reflexivity|]. split; [|rewrite Hg, Ej; reflexivity].
    intros v. rewrite <- Er. destruct Hrr as [E|E]; rewrite E; cbn [demands]; split; intros; lra.
Qed.

Lemma resize_jac_single h p j x a M : j x = Ok a -> shp a = [M; 1%nat] -> M <> 1%nat -> resize_jac (filter (fun p => p_fixed (h p)) [p]) [p] j x = Raise IndexError.
Proof.
  intros Ha Hs HM. unfold resize_jac. rewrite Ha. cbn [bind].
  assert (Hq : shp (atleast_1d (squeeze a)) = [M]).
  { unfold squeeze. rewrite Hs. cbn [filter]. unfold is1. rewrite (proj2 (Nat.eqb_neq _ _) HM). reflexivity. }
  unfold index_first. rewrite Hq. cbn [last]. unfold free_mask. cbn [map List.length]. rewrite (proj2 (Nat.eqb_neq _ _) HM). reflexivity.
Qed.
Lemma shape_line a N : on_grid [N] (shp a) -> shp (atleast_1d a) = [1%nat] \/ shp (atleast_1d a) = [N].
Proof.
  intros Hg. destruct (ArrObj.shapes_grid [N] a Hg) as [[E _]|[E1 E2]]; [left; exact E|]. rewrite E2 in *. clear E2. destruct Hg as [Hfit _]. revert E1 Hfit. generalize (shp a). intros s E1 Hfit.
  destruct s as [|d0 [|d1 s]]; try discriminate. cbn in Hfit. rewrite andb_true_r in Hfit. apply Bool.orb_true_iff in Hfit as [E|E]; apply Nat.eqb_eq in E; subst; [right|left]; reflexivity.
Qed.

Lemma symbol_of_any {V W} es s : symbol_of (comps (V:=V) es) s -> symbol_of (comps (V:=W) es) s.
Proof.
  intros [Hk|(k & e & Hin & Hm)]; [left; rewrite <- (eq_trans (ArrObj.dkeys_comps (V:=V) es) (eq_sym (ArrObj.dkeys_comps (V:=W) es))); exact Hk|]. right. exists k, e. split; [|exact Hm].
  apply ArrObj.in_comps. apply ArrObj.in_comps in Hin. exact Hin.
Qed.
Section ConJac.
  Context (kc : ArrModel.mclass) (simp : expr -> expr) (sub : expr -> expr -> expr) (mulm1 : expr -> expr) (ord1 ord2 : list sym -> list sym) (es : dict sym expr) (m : amodel) (sol : (sym -> R) -> sym -> R) (us : list user_con).
  Context (toward0 : R -> R) (h : heap) (cons : list fcon) (o : ochoice) (mc : mchoice) (absolute : option bool) (args : list datum) (kw : dict string datum) (f : fit) (G : list nat).
  Notation om := (om_of kc simp ord2 m).
  Notation ps := (m_params m).
  Notation Y := (the_data om cons args kw).
  Notation data := (objective_data (ft_data f)).
  Hypothesis Hsimp : simp_ok simp.
  Hypothesis Har : sympy_arithmetic sub mulm1.
  Hypothesis Hkd : keeps_defined sub mulm1.
  Hypothesis Ho2 : set_order ord2.
  Hypothesis Hm : model_of ord1 es m.
  Hypothesis Hsol : means es sol.
  Hypothesis Hg : good_names om cons.
  Hypothesis Hkw : NoDup (dkeys kw).
  Hypothesis Hgi : inputs_on_grid G m Y.
  Hypothesis Hf : fit_init toward0 h {| fm_om := om; fm_len := List.length es |} cons o mc absolute args kw = Ok f.
  Hypothesis Hgc : good_constraints es us.
  Hypothesis Hcons : init_constraints kc simp sub mulm1 ord2 m us = Ok cons.
  Hypothesis Hcg : constraints_on_grid G es us Y.
  Context (u : user_con) (c : fcon) (cm : amodel).
  Hypothesis Hu : In u us.
  Hypothesis Hc : In c cons.
  Hypothesis Ha : as_constraint sub mulm1 (uc_name u) ord2 (CRel (uc_rel u) (uc_left u) (uc_right u)) m = Ok (cm, fc_rel c).
  Hypothesis Hoc : fc_om c = om_of kc simp ord2 cm.

  Lemma con_seen x i s : In s (occs (sub (uc_left u) (uc_right u))) \/ symbol_of (comps (V:=R) es) s ->
    sol (at_index (inputs h ps data x) i) s = sol (at_data Y (parameter_value h ps x) i) s.
  Proof using Hm Hsol Har Ho2 Hgc Hcons Hcg Hg Hkw Hf Hgi Hu Hc Ha Hoc.
    assert (Hold : symbol_of (comps (V:=R) es) s -> sol (at_index (inputs h ps data x) i) s = sol (at_data Y (parameter_value h ps x) i) s).
    { intros Hs. apply (sol_ext ord1 es m sol Hm Hsol); [intros t Ht; exact (at_input kc simp ord1 ord2 es m toward0 h cons o mc absolute args kw f Hm Hg Hkw Hf x i t Ht)|exact (symbol_of_any es s Hs)]. }
    intros [Hs|Hs]; [|exact (Hold Hs)]. destruct (in_dec eq_dec s (dkeys es)) as [Hk|Hk]; [apply Hold; left; rewrite ArrObj.dkeys_comps; exact Hk|].
    rewrite (proj2 (Hsol _) s), (proj2 (Hsol _) s) by (rewrite ArrObj.dkeys_comps; exact Hk).
    unfold at_index, inputs, at_data. destruct (is_par s) eqn:Ep; [apply elem_scalar|]. unfold observed.
    destruct (con_data_is kc simp sub mulm1 ord1 ord2 es m sol us toward0 h cons o mc absolute args kw f G Ho2 Hm Hsol Hg Hkw Hgi Hf Har Hcons Hgc Hcg c s Hc) as (E & a & Ea & _); [|rewrite E, Ea; reflexivity].
    rewrite Hoc. cbn [om_of om_indep]. apply (con_symbols sub mulm1 ord1 ord2 es m sol us Ho2 Hm Hsol Har Hgc u cm c s Hu Ha Hs Hk). exact Ep.
  Qed.

  Hypothesis Hkc : kc <> KCallable.
  Hypothesis Hne : ps <> [].
  Context (J : dict sym (comp (V:=res nd))).
  Hypothesis HJ : jacobian_items simp ord2 cm = Ok J.
  Hypothesis Hap : names_apart J cm.
  Lemma con_jacobian ob x : mm_init (fc_om c) data = Ok ob -> List.length x = nfree h ps ->
    exists cv j, mm_call h (fc_om c) ob x [] = Ok cv /\ mm_jac h (fc_om c) ob x [] = Ok (Some j) /\ shp j = shp cv ++ [List.length ps] /\
      (exists a, cv = atleast_1d a /\ on_grid G (shp a)) /\ (reaches_data G sub es Y u -> shp cv = G) /\
      (forall i, In i (indices (shp cv)) -> val cv i = constraint_at sol Y u (parameter_value h ps x) i) /\
      (defined_for G es sol Y (parameter_value h ps x) -> sides_defined G sol Y u (parameter_value h ps x) ->
       forall i q p k, In i (indices (shp cv)) -> nth_error ps k = Some p -> nth_error (free_of_list h ps) q = Some p ->
         derivative_in (fun theta => constraint_at sol Y u theta i) (parameter_value h ps x) p (val j (i ++ [k]))).
  Proof using All.
    intros Hob Hl. destruct (Hgc u Hu) as (Hcn & Hpl).
    destruct (con_built sub mulm1 ord1 ord2 es m sol _ _ _ _ cm (fc_rel c) Hm Hsol Har Ho2 Hcn Hpl Ha) as (ec & cm0 & solc & Hb & Hsc & Hdep & Hps & Hty & Hind & Hval & Hexp & Hoff).
    assert (HsJ : exists solJ, solves_for J solJ).
    { pose proof (ArrObj.AJ simp ord2 ord2 _ cm0 cm Hsimp Ho2 Hb J HJ) as A. pose proof (ArrObj.Hself ord2 _ cm0 cm Hb) as Hse'.
      destruct (above_init ord2 _ cm0 Ho2 (ArrObj.Hd ord2 _ cm0 cm Hb) Hse' (proj1 (ArrObj.Hplain ord2 _ cm0 cm Hb)) (ArrObj.Hi ord2 _ cm0 cm Hb) J A (proj1 Hap) ord2 Ho2) as (xm & Hx).
      exact (solution_map Ralg ord2 (icast J) (mcast xm) Ho2 (is_dict_icast J (ab_dict _ _ A)) (noself_icast J (above_self _ Hse' J A)) (init_icast ord2 J xm Hx)). }
    destruct HsJ as (solJ & HsJ).
    assert (Hgr : independent_on_grid G cm data).
    { split; [exact (proj1 (proj2 Hgi))|]. intros v Hv.
      destruct (con_data_is kc simp sub mulm1 ord1 ord2 es m sol us toward0 h cons o mc absolute args kw f G Ho2 Hm Hsol Hg Hkw Hgi Hf Har Hcons Hgc Hcg c v Hc) as (E & a & Ea & Hga); [rewrite Hoc; exact Hv|]. exists a. rewrite E, Ea. auto. }
    assert (Hne' : m_params cm <> []) by (rewrite Hps; exact Hne).
    assert (Hfv : full_vector h cm x) by (unfold full_vector; rewrite Hps; exact Hl).
    rewrite Hoc in Hob |- *.
    destruct (ArrObj.model_mm simp ord2 ord2 ec cm0 cm Hsimp Ho2 Hb solc Hsc h data G kc Hgr J solJ HJ Hap HsJ Hne' Hkc ob x (uc_name u) Hob Hdep Hfv)
      as (cv & j & A1 & A2 & A3 & A4 & A5 & A6).
    pose proof Har as (Hse & _ & Hsm & Hmm & _).
    assert (Hcv : forall th, constraint_value u th = signed (uc_rel u) (eval Ralg th (sub (uc_left u) (uc_right u)))).
    { intros th. rewrite Hse. unfold constraint_value. destruct Hty as [(E & _)|[(E & _)|(E & _)]]; rewrite E; cbn [signed]; ring. }
    assert (Hpred : forall z i, predicted solc h ps data z (uc_name u) i = constraint_at sol Y u (parameter_value h ps z) i).
    { intros z i. unfold predicted, constraint_at. rewrite Hval, Hcv, <- Hse. f_equal. apply eval_ext. intros s Hs. apply con_seen. left; exact Hs. }
    rewrite Hps in *. exists cv, j. split; [exact A1|]. split; [exact A2|]. split; [exact A3|]. split; [exact A4|].
    split.
    { intros (s & x0 & a & Hms & Hpath & Hxk & Hxp & Hxa & Hxs).
      destruct (ObjExample.mm_spec h (om_of kc simp ord2 cm) data ob [] x (ArrObj.out_at ord2 cm h data x) (uc_name u) Hob (ArrObj.om_interface simp ord2 ord2 ec cm0 cm Hb kc)
        (om_of_by_keyword _ _ _ _) (ArrObj.given simp ord2 cm data G kc Hgr) (NoDup_nil _) Hdep (ArrObj.value_ok simp ord2 ord2 ec cm0 cm Ho2 Hb solc Hsc h data G kc Hgr x Hfv)) as (H1 & _).
      rewrite A1 in H1. injection H1 as ->.
      apply (ArrObj.covered_shape ord2 ord2 ec cm0 cm Ho2 Hb solc Hsc h data G Hgr x (uc_name u)); [|rewrite Hdep; left; reflexivity].
      destruct Hcn as (Hwv & Hws & Hwl & Hwr & _ & Hpd).
      assert (Hwk : exists e, In (uc_name u, e) ec /\ (e = sub (uc_left u) (uc_right u) \/ e = mulm1 (sub (uc_left u) (uc_right u)))).
      { assert (Hk : In (uc_name u) (dkeys ec)) by (rewrite <- (ArrObj.dkeys_comps (V:=res nd)); apply (ArrObj.dep_key ord2 ec cm0 cm Hb); rewrite Hdep; left; reflexivity).
        apply in_map_iff in Hk as ([w' e] & Ew & Hwe). cbn [fst] in Ew. subst w'. exists e. split; [exact Hwe|].
        destruct (Hexp _ _ Hwe) as [Hin|(_ & He)]; [|exact He]. exfalso. apply Hws. left. rewrite ArrObj.dkeys_comps. apply in_map_iff. exists (uc_name u, e). auto. }
      destruct Hwk as (ew & Hwe & Hew).
      assert (Hstart : forall t, mentions (sub (uc_left u) (uc_right u)) t -> refers (comps (V:=R) ec) (uc_name u) t).
      { intros t Ht. exists ew. split; [apply ArrObj.in_comps; exact Hwe|]. destruct Hew as [-> | ->]; [exact Ht|]. exact (proj2 (Hmm _ _) Ht). }
      assert (Hnw : forall t, mentions (sub (uc_left u) (uc_right u)) t \/ symbol_of (comps (V:=R) es) t -> t <> uc_name u).
      { intros t [Ht|Ht] ->; [destruct (Hsm _ _ _ Ht); contradiction|contradiction]. }
      assert (Hin_cm : forall k t, refers (comps (V:=R) ec) k t -> is_par t = false -> ~ In t (dkeys ec) -> In t (m_indep cm)).
      { intros k t Hr Hp Hk. rewrite (proj1 (ArrObj.fields ord2 ec cm0 cm Hb)). apply (in_indep_iff ord2 (comps ec) cm0 Ho2 (ArrObj.Hd ord2 ec cm0 cm Hb) (ArrObj.Hi ord2 ec cm0 cm Hb)).
        split; [apply (symbol_of_any (V:=R)); right; exists k; exact Hr|]. split; [exact Hp|]. rewrite ArrObj.dkeys_comps. exact Hk. }
      assert (Hclo : forall k t, refers (comps (V:=R) ec) k t -> In t (dkeys es) -> In t (dkeys ec)).
      { intros k t Hr Ht. destruct (in_dec eq_dec t (dkeys ec)) as [H0|H0]; [exact H0|]. exfalso.
        assert (Hp : is_par t = false) by exact (keys_plain ord1 es m Hm t Ht). destruct (Hind t (Hin_cm k t Hr Hp H0)) as (_ & Hn & _). contradiction. }
      assert (Hstep : forall k t, In k (dkeys ec) -> k <> uc_name u -> refers (comps (V:=R) es) k t -> refers (comps (V:=R) ec) k t).
      { intros k t Hk Hkw' (e & Hin & Ht). apply ArrObj.in_comps in Hin. apply in_map_iff in Hk as ([k' e'] & Ek & Hke). cbn [fst] in Ek. subst k'.
        destruct (Hexp _ _ Hke) as [Hin2|(E & _)]; [|contradiction]. exists e. split; [|exact Ht]. apply ArrObj.in_comps.
        assert (e = e'); [|subst; exact Hke]. pose proof (proj1 (proj2 Hm)) as Hnd'. pose proof (In_dget es k e Hnd' Hin) as G1. pose proof (In_dget es k e' Hnd' Hin2) as G2. congruence. }
      assert (Hpath' : forall t y, clos_trans sym (refers (comps (V:=R) es)) t y -> forall k, refers (comps (V:=R) ec) k t -> t <> uc_name u ->
                clos_trans sym (refers (comps (V:=R) ec)) t y /\ y <> uc_name u /\ exists k', refers (comps (V:=R) ec) k' y).
      { intros t y Hty'. apply clos_trans_t1n in Hty'. induction Hty' as [t y Hr|t y z Hr _ IH]; intros k Hk Htw.
        - assert (Htk : In t (dkeys ec)).
          { apply (Hclo k t Hk). destruct Hr as (e & Hin & _). apply ArrObj.in_comps in Hin. change t with (fst (t, e)). apply in_map. exact Hin. }
          pose proof (Hstep t y Htk Htw Hr) as Hr'. split; [apply t_step; exact Hr'|]. split; [apply Hnw; right; right; exists t; exact Hr|eauto].
        - assert (Htk : In t (dkeys ec)).
          { apply (Hclo k t Hk). destruct Hr as (e & Hin & _). apply ArrObj.in_comps in Hin. change t with (fst (t, e)). apply in_map. exact Hin. }
          pose proof (Hstep t y Htk Htw Hr) as Hr'. destruct (IH t Hr') as (I1 & I2 & I3); [apply Hnw; right; right; exists t; exact Hr|].
          split; [eapply t_trans; [apply t_step; exact Hr'|exact I1]|]. split; [exact I2|exact I3]. }
      assert (Hres : clos_trans sym (refers (comps (V:=R) ec)) (uc_name u) x0 /\ x0 <> uc_name u /\ exists k', refers (comps (V:=R) ec) k' x0).
      { pose proof (Hstart s Hms) as Hr0. destruct Hpath as [-> |Hpath]; [split; [apply t_step; exact Hr0|]; split; [apply Hnw; left; exact Hms|eauto]|].
        destruct (Hpath' s x0 Hpath _ Hr0) as (P1 & P2 & P3); [apply Hnw; left; exact Hms|]. split; [eapply t_trans; [apply t_step; exact Hr0|exact P1]|]. split; [exact P2|exact P3]. }
      destruct Hres as (R1 & R2 & k' & R3).
      assert (Hxi : In x0 (m_indep cm)).
      { apply (Hin_cm k' x0 R3 Hxp). intros Hk. apply in_map_iff in Hk as ([k1 e1] & Ek & Hke). cbn [fst] in Ek. subst k1.
        destruct (Hexp _ _ Hke) as [Hin|(E & _)]; [|contradiction]. apply Hxk. change x0 with (fst (x0, e1)). apply in_map. exact Hin. }
      destruct (con_data_is kc simp sub mulm1 ord1 ord2 es m sol us toward0 h cons o mc absolute args kw f G Ho2 Hm Hsol Hg Hkw Hgi Hf Har Hcons Hgc Hcg c x0 Hc) as (E & _); [rewrite Hoc; exact Hxi|].
      split; [exact (proj1 Hgi)|]. rewrite Hdep. intros v [<-|[]]. exists x0, a. split; [exact R1|]. split; [exact Hxi|]. split; [rewrite E, Hxa; reflexivity|exact Hxs]. }
    split; [intros i Hi; rewrite (A5 i Hi); apply Hpred|].
    intros Hdf Hds i q p k Hi Hk Hq.
    assert (Hdef : defined_at G ec solc h cm data x).
    { intros i' k' e' Hi' Hin'. rewrite Hps.
      assert (Hd1 : forall g, (forall s, In s (occs g) -> symbol_of (comps (V:=R) ec) s /\ s <> uc_name u /\ (In s (occs (sub (uc_left u) (uc_right u))) \/ symbol_of (comps (V:=R) es) s)) ->
                defined (sol (at_data Y (parameter_value h ps x) i')) g -> defined (solc (at_index (inputs h ps data x) i')) g).
      { intros g Hgs. apply defined_ext. intros s Hs. destruct (Hgs s Hs) as (Hs1 & Hs2 & Hs3). rewrite (Hoff _ s Hs1 Hs2). symmetry. apply con_seen. exact Hs3. }
      destruct Hcn as (_ & Hws & Hwl & Hwr & _ & Hpd).
      assert (Hec : forall s, In s (occs e') -> symbol_of (comps (V:=R) ec) s) by (intros s Hs; right; exists k', e'; split; [apply ArrObj.in_comps; exact Hin'|left; exact Hs]).
      destruct (Hexp _ _ Hin') as [Hin|(Ek & He)].
      - apply Hd1; [|exact (Hdf i' k' e' Hi' Hin)]. intros s Hs.
        assert (Hss : symbol_of (comps (V:=R) es) s) by (right; exists k', e'; split; [apply ArrObj.in_comps; exact Hin|left; exact Hs]).
        split; [exact (Hec s Hs)|]. split; [|right; exact Hss]. intros ->. contradiction.
      - destruct (Hds i' Hi') as [Dl Dr]. destruct Hkd as [K1 K2]. apply Hd1.
        + intros s Hs. split; [exact (Hec s Hs)|].
          assert (Hms : mentions (sub (uc_left u) (uc_right u)) s).
          { destruct He as [-> | ->]; [left; exact Hs|]. apply (proj1 (Hmm _ _)). left; exact Hs. }
          split; [intros ->; destruct (Hsm _ _ _ Hms); contradiction|].
          destruct Hms as [Hi1|(y & pp & Hi1 & E)]; [left; exact Hi1|].
          right. exfalso. assert (Hq' : is_der (SDer y pp) = false) by (apply Hpd; exact (Hsm _ _ _ (or_introl Hi1))). discriminate.
        + destruct He as [-> | ->]; [|apply K2]; apply K1; assumption. }
    assert (Hii : (q < List.length x)%nat) by exact (ArrObj.free_len m h x p q Hl Hq).
    apply (partial_gen ord1 es m h Hm (fun theta => constraint_at sol Y u theta i) (fun z => predicted solc h ps data z (uc_name u) i) x p q); [|intros z; apply Hpred|exact Hq|exact Hii|].
    - intros t1 t2 Ht. unfold constraint_at. rewrite !Hcv. f_equal. apply eval_ext. intros s Hs.
      destruct (in_dec eq_dec s (dkeys es)) as [Hk'|Hk'].
      + apply (sol_ext ord1 es m sol Hm Hsol); [|left; rewrite ArrObj.dkeys_comps; exact Hk'].
        intros t Hit. unfold at_data. destruct (is_par t) eqn:Et; [|reflexivity]. apply in_app_or in Hit as [Hit|Hit]; [|exact (Ht t Hit)].
        rewrite (ArrObj.indep_nonpar ord1 es m m (ArrObj.built_self ord1 es m Hm) t Hit) in Et. discriminate.
      + rewrite (proj2 (Hsol _) s), (proj2 (Hsol _) s) by (rewrite ArrObj.dkeys_comps; exact Hk'). unfold at_data. destruct (is_par s) eqn:Ep; [|reflexivity].
        apply Ht. apply (con_symbols sub mulm1 ord1 ord2 es m sol us Ho2 Hm Hsol Har Hgc u cm c s Hu Ha Hs Hk'). exact Ep.
    - assert (Hfc : ArrObj.free_at cm h p q) by (unfold ArrObj.free_at; rewrite Hps; exact Hq).
      exact (A6 Hdef i p q k Hi Hk Hfc).
  Qed.
End ConJac.

(** what scipy is handed *)
Theorem constraint_jacobian_handed kc simp sub mulm1 ord1 ord2 es m sol us toward0 h cons o mc absolute args kw f mn local n u cm ty J N :
  let om := om_of kc simp ord2 m in
  let ps := m_params m in
  let Y := the_data om cons args kw in
  kc <> KCallable -> simp_ok simp -> sympy_arithmetic sub mulm1 -> keeps_defined sub mulm1 -> set_order ord2 -> model_of ord1 es m -> means es sol -> ps <> [] ->
  good_constraints es us -> init_constraints kc simp sub mulm1 ord2 m us = Ok cons -> good_names om cons -> NoDup (dkeys kw) ->
  fit_init toward0 h {| fm_om := om; fm_len := List.length es |} cons o mc absolute args kw = Ok f ->
  inputs_on_grid [N] m Y -> constraints_on_grid [N] es us Y ->
  (mc = MDefault \/ exists c, mc = MItem (MCls c)) -> ft_min f = FMin mn local ->
  uses_constraints (mi_class mn) = true -> uses_jacobian (mi_class mn) = true ->
  nth_error us n = Some u -> as_constraint sub mulm1 (uc_name u) ord2 (CRel (uc_rel u) (uc_left u) (uc_right u)) m = Ok (cm, ty) ->
  jacobian_items simp ord2 cm = Ok J -> names_apart J cm ->
  exists k w, nth_error (pb_cons (execute_problem h mn DNone DNone)) n = Some k /\ handed_jac k = Some w /\
    (forall v, imposes k v <-> match uc_rel u with REq => v = 0 | _ => 0 <= v end) /\
    forall x, List.length x = nfree h ps ->
      exists c M, handed_fun k x = Ok c /\ shp c = [M] /\ (M = 1%nat \/ M = N) /\ (reaches_data [N] sub es Y u -> M = N) /\
        (forall d, (d < M)%nat -> val c [d] = constraint_at sol Y u (parameter_value h ps x) [d]) /\
        (M = 1%nat -> exists g, w x = Ok g /\ shp g = [nfree h ps] /\
           (defined_for [N] es sol Y (parameter_value h ps x) -> sides_defined [N] sol Y u (parameter_value h ps x) ->
            forall i p, nth_error (free_of_list h ps) i = Some p -> derivative_in (fun theta => constraint_at sol Y u theta [0%nat]) (parameter_value h ps x) p (val g [i]))) /\
        (M <> 1%nat -> List.length ps <> 1%nat -> exists g, w x = Ok g /\ shp g = [M; nfree h ps] /\
           (defined_for [N] es sol Y (parameter_value h ps x) -> sides_defined [N] sol Y u (parameter_value h ps x) ->
            forall d i p, (d < M)%nat -> nth_error (free_of_list h ps) i = Some p -> derivative_in (fun theta => constraint_at sol Y u theta [d]) (parameter_value h ps x) p (val g [d; i]))) /\
        (M <> 1%nat -> List.length ps = 1%nat -> w x = Raise IndexError).
Proof.
  intros om ps Y Hkc Hsimp Har Hkd Ho2 Hm Hsol Hne Hgc Hcons Hg Hkw Hf Hgi Hcg Hmc Hmin Huc Huj Hu Ha HJ Hap.
  assert (Hmade : init_class h om cons (objective_data (ft_data f)) (ft_class f) (ft_obj f) (mi_class mn) = Ok mn).
  { destruct (fit_init_inv toward0 h _ cons o mc absolute args kw f Hf) as (t & _ & _ & _ & _ & H).
    assert (Hit : exists c, init_item toward0 h om cons (objective_data (ft_data f)) (ft_class f) (ft_obj f) (MCls c) = Ok (ft_min f)).
    { destruct Hmc as [E|(c & E)]; rewrite E in H; cbn [init_choice fm_om] in H; eauto. }
    destruct Hit as (c & Hit). destruct (item_class kc simp ord2 m toward0 h cons f c Hit) as (mn' & lc & H1 & H2 & H3). rewrite Hmin in H1. injection H1 as <- <-. rewrite H2. exact H3. }
  pose proof (cons_are kc simp sub mulm1 ord2 m us cons Hcons) as H2. destruct (Forall2_at _ _ _ H2 n u Hu) as (c & Hc & cm' & Ha' & Hoc).
  rewrite Ha in Ha'. assert (Ecm : cm' = cm /\ ty = fc_rel c) by (split; congruence). destruct Ecm as [-> ->]. clear Ha'.
  pose proof (ArrObj.NoDup_ps ord1 es m m (ArrObj.built_self ord1 es m Hm)) as Hnd.
  assert (Hjs : om_jac (fc_om c) <> None). { rewrite Hoc. destruct (om_jac_some kc simp ord2 cm Hkc) as (a & E). rewrite E. discriminate. }
  rewrite <- constrained_uses in Huc. rewrite <- gradient_uses in Huj.
  destruct (constraint_wrapped h om cons _ _ _ (mi_class mn) mn n c Hmade Huc Huj Hc Hjs) as (k & ob & Hk & Hob & Hfun & Himp & Hw).
  exists k. eexists. split; [exact Hk|]. split; [exact Hw|].
  destruct (Hgc u (nth_error_In _ _ Hu)) as (Hcn & Hpl).
  destruct (con_built sub mulm1 ord1 ord2 es m sol _ _ _ _ cm (fc_rel c) Hm Hsol Har Ho2 Hcn Hpl Ha) as (_ & _ & _ & _ & _ & _ & _ & Hty & _).
  split. { intros v. rewrite Himp. destruct Hty as [(E & E')|[(E & E')|(E & E')]]; rewrite E, E'; reflexivity. }
  intros x Hl.
  destruct (con_jacobian kc simp sub mulm1 ord1 ord2 es m sol us toward0 h cons o mc absolute args kw f [N] Hsimp Har Hkd Ho2 Hm Hsol Hg Hkw Hgi Hf Hgc Hcons Hcg u c cm
    (nth_error_In _ _ Hu) (nth_error_In _ _ Hc) Ha Hoc Hkc Hne J HJ Hap ob x Hob Hl) as (cv & j & A1 & A2 & A3 & (a & Ea & Hga) & Hrd & A5 & A6).
  assert (HM : exists M, shp cv = [M] /\ (M = 1%nat \/ M = N)) by (rewrite Ea; destruct (shape_line a N Hga) as [E|E]; eauto).
  destruct HM as (M & EM & HM). rewrite EM in A3, A5, A6. cbn [app] in A3.
  assert (Hjx : as_fn (fun xs => mm_jac h (fc_om c) ob xs []) x = Ok j) by (unfold as_fn; rewrite A2; reflexivity).
  assert (Hidx : forall d, (d < M)%nat -> In [d] (indices [M])).
  { intros d Hd. apply in_indices. constructor; [exact Hd|constructor]. }
  exists cv, M. split; [rewrite Hfun; exact A1|]. split; [exact EM|]. split; [exact HM|]. split; [intros Hre; pose proof (Hrd Hre) as E; rewrite EM in E; injection E as E; exact E|].
  split; [intros d Hd; exact (A5 [d] (Hidx d Hd))|].
  change (om_params om) with ps.
  assert (Hpk : forall i p, nth_error (free_of_list h ps) i = Some p -> exists kk, nth_error ps kk = Some p).
  { intros i p Hi. pose proof (nth_error_In _ _ Hi) as Hpf. apply filter_In in Hpf as [Hpp _]. apply In_nth_error in Hpp. exact Hpp. }
  split; [|split].
  - intros ->. destruct (resize_jac_ok h ps _ x j Hjx (ex_intro _ 1%nat A3) Hnd) as (g & Hg' & Hgs & Hgv). exists g. split; [exact Hg'|]. split; [exact Hgs|].
    intros Hdf Hds i p Hi. destruct (Hpk i p Hi) as (kk & Hkk). rewrite (Hgv p i kk (conj Hi Hkk)). unfold gradient_entry. rewrite A3. cbn [List.length Nat.sub repeat app].
    exact (A6 Hdf Hds [0%nat] i p kk (or_introl eq_refl) Hkk Hi).
  - intros HM1 Hl1. destruct (resize_jac_vector h ps _ x j M Hjx A3 HM1 Hl1 Hnd) as (g & Hg' & Hgs & Hgv). exists g. split; [exact Hg'|]. split; [exact Hgs|].
    intros Hdf Hds d i p Hd Hi. destruct (Hpk i p Hi) as (kk & Hkk). rewrite (Hgv p i kk d (conj Hi Hkk)). exact (A6 Hdf Hds [d] i p kk (Hidx d Hd) Hkk Hi).
  - intros HM1 Hl1. fold ps in A3. assert (Ep : exists p, ps = [p]) by (destruct ps as [|p [|? ?]]; try discriminate; eauto).
    destruct Ep as (p & Ep). rewrite Ep in A3 |- *. exact (resize_jac_single h p _ x j M Hjx A3 HM1).
Qed.
