(** * ReportMain: the printed report of a Fit, with the questions and answers about its constraints. *)
From Coq Require Import Reals Lra Lia Relations Permutation.
From Verif Require ObjExample ArrObj.
From Verif Require Import PyBase PyFacts Signature SignatureFacts Expr Model ModelSpec ModelFacts CallFacts InitFacts ConstraintFacts AsConstraint ExprR Jacobian JacFacts JacAnalysis JacSecond JacLemmas DerNames Cast NumPy NumFacts Objective ObjSpec ObjFacts ObjDiff Minimizer MinSpec MinFacts MinLemmas Fit FitSpec FitData FitFacts FitCov FitThm FitMain ArrModel ArrSpec ArrFacts ArrCall ArrMain ArrCon ConModel EndSpec EndMain EndCon EndConJac Results ResultsSpec ResultsFacts Report ReportSpec ReportFacts.
Local Open Scope R_scope.
Local Open Scope string_scope.
Local Open Scope list_scope.

(** The expression [e] is what has to be zero, or not negative, for the constraint [u] of the model with solution [sol]. *)
Definition equivalent (sol : (sym -> R) -> sym -> R) (u : user_con) (e : expr) : Prop :=
  forall inp, eval Ralg (sol inp) e = constraint_value u (sol inp).

Section Ask.
  Context (kc : ArrModel.mclass) (simp : expr -> expr) (sub : expr -> expr -> expr) (mulm1 : expr -> expr) (ord1 ord2 : list sym -> list sym) (es : dict sym expr) (m : amodel) (sol : (sym -> R) -> sym -> R) (us : list user_con).
  Context (toward0 : R -> R) (h : heap) (cons : list fcon) (o : ochoice) (mc : mchoice) (absolute : option bool) (args : list datum) (kw : dict string datum) (f : fit) (N : nat).
  Notation om := (om_of kc simp ord2 m).
  Notation ps := (m_params m).
  Notation Y := (the_data om cons args kw).
  Notation data := (objective_data (ft_data f)).
  Hypothesis Har : sympy_arithmetic sub mulm1.
  Hypothesis Ho2 : set_order ord2.
  Hypothesis Hm : model_of ord1 es m.
  Hypothesis Hsol : means es sol.
  Hypothesis Hg : good_names om cons.
  Hypothesis Hkw : NoDup (dkeys kw).
  Hypothesis Hgi : inputs_on_grid [N] m Y.
  Hypothesis Hf : fit_init toward0 h {| fm_om := om; fm_len := List.length es |} cons o mc absolute args kw = Ok f.
  Hypothesis Hgc : good_constraints es us.
  Hypothesis Hcons : init_constraints kc simp sub mulm1 ord2 m us = Ok cons.
  Hypothesis Hcg : constraints_on_grid [N] es us Y.
  Context (u : user_con) (c : fcon) (cm : amodel).
  Hypothesis Hu : In u us.
  Hypothesis Hc : In c cons.
  Hypothesis Ha : as_constraint sub mulm1 (uc_name u) ord2 (CRel (uc_rel u) (uc_left u) (uc_right u)) m = Ok (cm, fc_rel c).
  Hypothesis Hoc : fc_om c = om_of kc simp ord2 cm.

  Lemma con_asked pr ob x popt : mm_init (om_of kc simp ord2 cm) data = Ok ob -> List.length x = nfree h ps -> pack_output h ps x = Ok popt ->
    exists e rc, result_con kc simp ord2 h data pr (cm, fc_rel c) = Ok rc /\ equivalent sol u e /\
      let qa := asked pr (match uc_rel u with REq => true | _ => false end) e (constraint_at sol Y u (parameter_value h ps x) [0%nat]) in
      con_text pr (result_params ps popt) rc = Ok (fst qa ++ nl ++ snd qa ++ nl ++ nl)%string.
  Proof using All.
    intros Hob Hl Hp. destruct (Hgc u Hu) as (Hcn & Hpl).
    destruct (con_built sub mulm1 ord1 ord2 es m sol _ _ _ _ cm (fc_rel c) Hm Hsol Har Ho2 Hcn Hpl Ha) as (ec & cm0 & solc & Hb & Hsc & Hdep & Hps & Hty & Hind & Hval & Hexp & Hoff).
    assert (Hgr : independent_on_grid [N] cm data).
    { split; [exact (proj1 (proj2 Hgi))|]. intros v Hv.
      destruct (con_data_is kc simp sub mulm1 ord1 ord2 es m sol us toward0 h cons o mc absolute args kw f [N] Ho2 Hm Hsol Hg Hkw Hgi Hf Har Hcons Hgc Hcg c v Hc) as (E & a & Ea & Hga); [rewrite Hoc; exact Hv|]. exists a. rewrite E, Ea. auto. }
    assert (Hfv : full_vector h cm x) by (unfold full_vector; rewrite Hps; exact Hl).
    pose proof Har as (Hse & _ & Hsm & Hmm & _).
    assert (Hcv : forall th, constraint_value u th = signed (uc_rel u) (eval Ralg th (sub (uc_left u) (uc_right u)))).
    { intros th. rewrite Hse. unfold constraint_value. destruct Hty as [(E & _)|[(E & _)|(E & _)]]; rewrite E; cbn [signed]; ring. }
    assert (Hpred : forall z i, predicted solc h ps data z (uc_name u) i = constraint_at sol Y u (parameter_value h ps z) i).
    { intros z i. unfold predicted, constraint_at. rewrite Hval, Hcv, <- Hse. f_equal. apply eval_ext. intros s Hs.
      apply (con_seen kc simp sub mulm1 ord1 ord2 es m sol us toward0 h cons o mc absolute args kw f [N] Har Ho2 Hm Hsol Hg Hkw Hgi Hf Hgc Hcons Hcg u c cm Hu Hc Ha Hoc z i s). left; exact Hs. }
    (* the expression *)
    assert (Hwk : In (uc_name u) (dkeys ec)) by (rewrite <- (ArrObj.dkeys_comps (V:=res nd)); apply (ArrObj.dep_key ord2 ec cm0 cm Hb); rewrite Hdep; left; reflexivity).
    apply in_map_iff in Hwk as ([w' e] & Ew & Hwe). cbn [fst] in Ew. subst w'.
    assert (He : e = sub (uc_left u) (uc_right u) \/ e = mulm1 (sub (uc_left u) (uc_right u))).
    { destruct (Hexp _ _ Hwe) as [Hin|(_ & He)]; [|exact He]. exfalso. destruct Hcn as (_ & Hws & _). apply Hws. left. rewrite ArrObj.dkeys_comps. apply in_map_iff. exists (uc_name u, e). auto. }
    assert (Heq : equivalent sol u e).
    { intros inp. rewrite Hcv, Hse, <- Hval.
      rewrite (proj1 (Hsc inp) (uc_name u) e (proj2 (ArrObj.in_comps ec (uc_name u) e) Hwe)). apply eval_ext. intros s Hs. symmetry. apply Hoff.
      - right. exists (uc_name u), e. split; [apply ArrObj.in_comps; exact Hwe|left; exact Hs].
      - intros ->. assert (Hms : mentions (sub (uc_left u) (uc_right u)) (uc_name u)).
        { destruct He as [-> | ->]; [left; exact Hs|]. apply (proj1 (Hmm _ _)). left; exact Hs. }
        destruct Hcn as (_ & _ & Hwl & Hwr & _). destruct (Hsm _ _ _ Hms); contradiction. }
    assert (Hdc : dget (m_dict cm) (uc_name u) = Some (CExpr e)).
    { assert (Ed : m_dict cm = sort_items (comps ec)).
      { rewrite (proj1 (set_params_fields cm0 cm (m_params cm) (proj1 (proj2 Hb)))). exact (proj1 (proj2 (init_model_inv ord2 _ cm0 (ArrObj.Hi ord2 ec cm0 cm Hb)))). }
      rewrite Ed. apply In_dget.
      - assert (Hpk : Permutation (dkeys (comps (V:=res nd) ec)) (dkeys (sort_items (comps (V:=res nd) ec)))) by (apply Permutation_map; apply sort_items_perm).
        exact (Permutation_NoDup Hpk (ArrObj.Hd ord2 ec cm0 cm Hb)).
      - apply (Permutation_in _ (sort_items_perm _)). apply ArrObj.in_comps. exact Hwe. }
    (* the value *)
    destruct (ObjExample.mm_spec h (om_of kc simp ord2 cm) data ob [] x (ArrObj.out_at ord2 cm h data x) (uc_name u) Hob (ArrObj.om_interface simp ord2 ord2 ec cm0 cm Hb kc)
      (om_of_by_keyword _ _ _ _) (ArrObj.given simp ord2 cm data [N] kc Hgr) (NoDup_nil _) Hdep (ArrObj.value_ok simp ord2 ord2 ec cm0 cm Ho2 Hb solc Hsc h data [N] kc Hgr x Hfv)) as (H1 & _).
    assert (Hvk : In (uc_name u) (dkeys (comps (V:=res nd) ec))) by (apply (ArrObj.dep_key ord2 ec cm0 cm Hb); rewrite Hdep; left; reflexivity).
    pose proof (ArrObj.out_spec ord2 ord2 ec cm0 cm Ho2 Hb solc Hsc h data [N] Hgr x) as Vs.
    destruct (ArrObj.value_entry ord2 ec cm solc h data [N] x _ (uc_name u) Vs Hvk) as (a & Ea & Hga & _).
    set (cv := entry (ArrObj.out_at ord2 cm h data x) (uc_name u)) in *.
    assert (HM : exists M, shp cv = [M] /\ (0 < M)%nat).
    { rewrite Ea. destruct (shape_line a N Hga) as [E|E]; rewrite E; eexists; (split; [reflexivity|]); [lia|]. destruct Hgi as (_ & Hz & _). cbn [In] in Hz. destruct N; [exfalso; apply Hz; left; reflexivity|lia]. }
    destruct HM as (M & EM & HM0).
    assert (Hv0 : val cv [0%nat] = constraint_at sol Y u (parameter_value h ps x) [0%nat]).
    { destruct (ArrObj.value_val ord2 ec cm solc h data [N] Hgr x _ (uc_name u) [0%nat] Vs Hvk) as [E _]; [fold cv; rewrite EM; apply in_indices; constructor; [exact HM0|constructor]|]. fold cv in E. rewrite E, Hps. apply Hpred. }
    assert (Hob' : obj_init true (om_of kc simp ord2 cm) data = Ok ob).
    { unfold mm_init in Hob. match type of Hob with (if ?b then _ else _) = _ => destruct b; [discriminate|exact Hob] end. }
    assert (Hcall : mm_call h (om_of kc simp ord2 cm) ob [] (result_params ps popt) = Ok cv).
    { assert (Eps : om_params (om_of kc simp ord2 cm) = ps) by exact Hps.
      destruct (reported_reproduce h (om_of kc simp ord2 cm) data true ob x (ArrObj.om_interface simp ord2 ord2 ec cm0 cm Hb kc) (om_of_by_keyword _ _ _ _) Hob') as (popt' & Hp' & Hev); [rewrite Eps; exact Hl|].
      rewrite Eps in Hp', Hev. rewrite Hp in Hp'. injection Hp' as <-. apply (f_equal r_mm) in Hev. cbn [r_mm evaluate] in Hev. rewrite Hev. exact H1. }
    exists e. unfold result_con. cbn [fst snd]. rewrite Hob. cbn [bind]. eexists. split; [reflexivity|]. split; [exact Heq|]. cbv zeta.
    unfold con_text. cbn [rc_comp rc_rel rc_call]. rewrite Hdep. cbn [nth_error of_opt bind]. unfold dlook. rewrite Hdc. cbn [of_opt bind pr_comp]. rewrite Hcall. cbn [bind].
    unfold index0. rewrite EM. cbn [last removelast]. rewrite (proj2 (Nat.ltb_lt _ _) HM0). cbn [bind]. f_equal.
    unfold pr_nd. cbn [shp val app]. rewrite Hv0. unfold asked. cbn [fst snd]. rewrite !sapp_assoc.
    assert (Er : rel_op (fc_rel c) = if match uc_rel u with REq => true | _ => false end then "==" else ">=") by (destruct Hty as [(-> & ->)|[(-> & ->)|(-> & ->)]]; reflexivity).
    rewrite Er. destruct (match uc_rel u with REq => true | _ => false end); reflexivity.
  Qed.

  Lemma constraint_at_ext t1 t2 i : (forall p, In p ps -> t1 p = t2 p) -> constraint_at sol Y u t1 i = constraint_at sol Y u t2 i.
  Proof using All.
    intros Ht. unfold constraint_at.
    pose proof Har as (Hse & _ & Hsm & Hmm & _). destruct (Hgc u Hu) as (Hcn & Hpl).
    destruct (con_built sub mulm1 ord1 ord2 es m sol _ _ _ _ cm (fc_rel c) Hm Hsol Har Ho2 Hcn Hpl Ha) as (_ & _ & _ & _ & _ & _ & _ & Hty & _).
    assert (Hcv : forall th, constraint_value u th = signed (uc_rel u) (eval Ralg th (sub (uc_left u) (uc_right u)))).
    { intros th. rewrite Hse. unfold constraint_value. destruct Hty as [(E & _)|[(E & _)|(E & _)]]; rewrite E; cbn [signed]; ring. }
    rewrite !Hcv. f_equal. apply eval_ext. intros s Hs.
    destruct (in_dec eq_dec s (dkeys es)) as [Hk'|Hk'].
    - apply (sol_ext ord1 es m sol Hm Hsol); [|left; rewrite ArrObj.dkeys_comps; exact Hk'].
      intros t Hit. unfold at_data. destruct (is_par t) eqn:Et; [|reflexivity]. apply in_app_or in Hit as [Hit|Hit]; [|exact (Ht t Hit)].
      rewrite (ArrObj.indep_nonpar ord1 es m m (ArrObj.built_self ord1 es m Hm) t Hit) in Et. discriminate.
    - rewrite (proj2 (Hsol _) s), (proj2 (Hsol _) s) by (rewrite ArrObj.dkeys_comps; exact Hk'). unfold at_data. destruct (is_par s) eqn:Ep; [|reflexivity].
      apply Ht. apply (con_symbols sub mulm1 ord1 ord2 es m sol us Ho2 Hm Hsol Har Hgc u cm c s Hu Ha Hs Hk'). exact Ep.
  Qed.
End Ask.

Lemma gof_keys c om data params fv g k v : gof_qualifiers c om data params fv = Ok g -> In (k, v) g ->
  In k ["objective_value"; "r_squared"; "chi_squared"; "log_likelihood"; "likelihood"].
Proof.
  unfold gof_qualifiers. intros H Hin. apply bind_Ok in H as (g1 & H1 & H). assert (Hk : In k (dkeys g)) by (change k with (fst (k, v)); apply in_map; exact Hin). clear Hin.
  assert (Hk1 : forall k, In k (dkeys g1) -> k = "objective_value" \/ k = "r_squared").
  { intros k' Hk'. destruct c; try (apply bind_Ok in H1 as (r & _ & H1)); injection H1 as <-; cbn in Hk'; intuition. }
  destruct c; injection H as <-; repeat (apply in_dkeys_dset in Hk as [->|Hk]; [cbn; tauto|]); destruct (Hk1 _ Hk) as [-> | ->]; cbn; tauto.
Qed.
Lemma gof_ne c om data params fv g : gof_qualifiers c om data params fv = Ok g -> g <> [].
Proof.
  unfold gof_qualifiers. intros H E. apply bind_Ok in H as (g1 & H1 & H).
  assert (Hg : g1 <> []) by (destruct c; try (apply bind_Ok in H1 as (r & _ & H1)); injection H1 as <-; cbn; discriminate).
  assert (Hds : forall (d : dict string nd) a b, dset d a b <> []).
  { intros d a b. destruct d as [|[x y] d]; cbn [dset]; [discriminate|]. destruct (eq_dec _ _); discriminate. }
  destruct c; injection H as <-; try (exact (Hds _ _ _ E)). contradiction.
Qed.

(** was it given with [Eq]? *)
Definition is_equation (u : user_con) : bool := match uc_rel u with REq => true | _ => false end.

Theorem report_of_fit kc simp sub mulm1 ord1 ord2 es m sol us toward0 h cons o mc absolute args kw f mn local N inv x fv r pr status nit objective minimizer :
  let om := om_of kc simp ord2 m in
  let ps := m_params m in
  let Y := the_data om cons args kw in
  sympy_arithmetic sub mulm1 -> set_order ord2 -> model_of ord1 es m -> means es sol ->
  good_constraints es us -> init_constraints kc simp sub mulm1 ord2 m us = Ok cons -> good_names om cons -> NoDup (dkeys kw) ->
  fit_init toward0 h {| fm_om := om; fm_len := List.length es |} cons o mc absolute args kw = Ok f ->
  inputs_on_grid [N] m Y -> constraints_on_grid [N] es us Y ->
  (mc = MDefault \/ exists c, mc = MItem (MCls c)) -> ft_min f = FMin mn local ->
  List.length x = nfree h ps -> fit_report inv h om f x fv = Ok r ->
  plain_printer pr -> one_line status -> one_line objective -> one_line minimizer -> (forall p, In p ps -> one_line (sname p)) ->
  (forall c, rp_cov r = Some c -> square (List.length ps) c) -> (forall k v, In (k, v) (rp_gof r) -> one_line (pr_nd pr v)) ->
  exists rcs s rows exprs,
    result_constraints kc simp sub mulm1 ord2 h m us (objective_data (ft_data f)) pr mn = Ok rcs /\
    str_results pr status nit objective minimizer ps r rcs = Ok s /\
    lines s = report_lines rows status (match nit with Some n => string_of_nat n | None => "None" end) objective minimizer
                (map (fun kv => pad 22 (fst kv) ++ " " ++ pr_nd pr (snd kv))%string (sort_by fst (rp_gof r)))
                (if uses_constraints (mi_class mn)
                 then map (fun ue => asked pr (is_equation (fst ue)) (snd ue) (constraint_at sol Y (fst ue) (reported ps (rp_popt r)) [0%nat])) (combine us exprs)
                 else []) /\
    (uses_constraints (mi_class mn) = true -> Forall2 (equivalent sol) us exprs) /\ List.length rows = List.length ps /\
    forall k p, nth_error ps k = Some p -> nth_error rows k = Some (row_for pr (sname p) (reported ps (rp_popt r) p) (option_map (fun c => mat c k k) (rp_cov r))).
Proof.
  intros om ps Y Har Ho2 Hm Hsol Hgc Hcons Hg Hkw Hf Hgi Hcg Hmc Hmin Hl Hr Hpr Hs Ho Hmi Hpn Hcov Hgof.
  assert (Hmade : init_class h om cons (objective_data (ft_data f)) (ft_class f) (ft_obj f) (mi_class mn) = Ok mn).
  { destruct (fit_init_inv toward0 h _ cons o mc absolute args kw f Hf) as (t & _ & _ & _ & _ & H).
    assert (Hit : exists c, init_item toward0 h om cons (objective_data (ft_data f)) (ft_class f) (ft_obj f) (MCls c) = Ok (ft_min f)).
    { destruct Hmc as [E|(c & E)]; rewrite E in H; cbn [init_choice fm_om] in H; eauto. }
    destruct Hit as (c & Hit). destruct (item_class kc simp ord2 m toward0 h cons f c Hit) as (mn' & lc & H1 & H2 & H3). rewrite Hmin in H1. injection H1 as <- <-. rewrite H2. exact H3. }
  unfold fit_report in Hr. change (om_params om) with ps in Hr. apply bind_Ok in Hr as (popt & Hp & Hr). apply bind_Ok in Hr as (g & Hgq & Hr). apply bind_Ok in Hr as (cov & _ & Hr).
  injection Hr as <-. cbn [rp_params rp_popt rp_cov rp_gof] in *.
  pose proof (cons_are kc simp sub mulm1 ord2 m us cons Hcons) as H2.
  assert (Hnn : NoDup (map sname ps)). { destruct (ArrObj.om_interface simp ord1 ord2 es m m (ArrObj.built_self ord1 es m Hm) kc) as (_ & N' & _). cbn [om_indep om_params om_of] in N'. rewrite map_app in N'. apply NoDup_app_split in N' as (_ & N' & _). exact N'. }
  assert (Hrep : forall p, In p ps -> reported ps popt p = parameter_value h ps x p) by (intros p Hin; exact (reported_is kc simp ord1 ord2 es m h Hm x popt p Hl Hp Hin)).
  assert (Hcs : exists rcs exprs, result_constraints kc simp sub mulm1 ord2 h m us (objective_data (ft_data f)) pr mn = Ok rcs /\
    (uses_constraints (mi_class mn) = true -> Forall2 (equivalent sol) us exprs) /\
    Forall2 (fun c qa => con_text pr (result_params ps popt) c = Ok (fst qa ++ nl ++ snd qa ++ nl ++ nl)%string /\ one_line (fst qa) /\ one_line (snd qa)) rcs
      (if uses_constraints (mi_class mn)
       then map (fun ue => asked pr (is_equation (fst ue)) (snd ue) (constraint_at sol Y (fst ue) (reported ps popt) [0%nat])) (combine us exprs) else [])).
  { unfold result_constraints. rewrite constrained_uses. destruct (uses_constraints (mi_class mn)) eqn:Eu; [|exists [], []; split; [reflexivity|]; split; [discriminate|constructor]].
    unfold init_class in Hmade. rewrite constrained_uses, Eu in Hmade. apply bind_Ok in Hmade as (cs & Hcs & _). apply mapM_Ok in Hcs.
    assert (Hob : forall c, In c cons -> exists ob, mm_init (fc_om c) (objective_data (ft_data f)) = Ok ob).
    { intros c Hc. apply In_nth_error in Hc as (i & Hi). destruct (Forall2_at _ _ _ Hcs i c Hi) as (k & _ & Hk). unfold constraint_objective in Hk. apply bind_Ok in Hk as (ob & Hob & _). eauto. }
    clear Hcs. unfold constraint_models.
    assert (Hall : forall us' cons', incl us' us -> incl cons' cons ->
      Forall2 (fun (u : user_con) (c : fcon) => exists cm : amodel, as_constraint sub mulm1 (uc_name u) ord2 (CRel (uc_rel u) (uc_left u) (uc_right u)) m = Ok (cm, fc_rel c) /\ fc_om c = om_of kc simp ord2 cm) us' cons' ->
      exists crs rcs exprs, mapM (fun u => as_constraint sub mulm1 (uc_name u) ord2 (CRel (uc_rel u) (uc_left u) (uc_right u)) m) us' = Ok crs /\
        mapM (result_con kc simp ord2 h (objective_data (ft_data f)) pr) crs = Ok rcs /\ Forall2 (equivalent sol) us' exprs /\
        Forall2 (fun c qa => con_text pr (result_params ps popt) c = Ok (fst qa ++ nl ++ snd qa ++ nl ++ nl)%string /\ one_line (fst qa) /\ one_line (snd qa)) rcs
          (map (fun ue => asked pr (is_equation (fst ue)) (snd ue) (constraint_at sol Y (fst ue) (reported ps popt) [0%nat])) (combine us' exprs))).
    { intros us' cons' Hiu Hic HF. induction HF as [|u c us' cons' (cm & Ha & Hoc) HF IH]; [exists [], [], []; repeat split; constructor|].
      destruct IH as (crs & rcs & exprs & I1 & I2 & I3 & I4); [intros y Hy; apply Hiu; right; exact Hy|intros y Hy; apply Hic; right; exact Hy|].
      pose proof (Hiu u (or_introl eq_refl)) as Hu. pose proof (Hic c (or_introl eq_refl)) as Hc. destruct (Hob c Hc) as (ob & Hob'). rewrite Hoc in Hob'.
      destruct (con_asked kc simp sub mulm1 ord1 ord2 es m sol us toward0 h cons o mc absolute args kw f N Har Ho2 Hm Hsol Hg Hkw Hgi Hf Hgc Hcons Hcg u c cm Hu Hc Ha Hoc pr ob x popt Hob' Hl Hp)
        as (e & rc & R1 & R2 & R3). cbv zeta in R3.
      exists ((cm, fc_rel c) :: crs), (rc :: rcs), (e :: exprs). cbn [mapM]. rewrite Ha, I1. cbn [bind]. rewrite R1, I2. cbn [bind].
      split; [reflexivity|]. split; [reflexivity|]. split; [constructor; assumption|]. cbn [combine map fst snd]. constructor; [|exact I4].
      fold Y in R3. fold ps in R3. rewrite (constraint_at_ext kc simp sub mulm1 ord1 ord2 es m sol us toward0 h cons o mc absolute args kw f N Har Ho2 Hm Hsol Hg Hkw Hgi Hf Hgc Hcons Hcg u c cm Hu Hc Ha Hoc
        (reported ps popt) (parameter_value h ps x) [0%nat] Hrep : constraint_at sol Y u _ _ = _).
      split; [exact R3|]. destruct Hpr as (_ & Hpn1 & Hpe). unfold asked. cbn [fst snd].
      split; [|apply one_line_app; [reflexivity|apply Hpn1]]. apply one_line_app; [reflexivity|]. apply one_line_app; [apply Hpe|]. destruct (is_equation u); reflexivity. }
    destruct (Hall us cons (incl_refl _) (incl_refl _) H2) as (crs & rcs & exprs & I1 & I2 & I3 & I4). exists rcs, exprs. rewrite I1. cbn [bind]. split; [exact I2|]. split; [intros _; exact I3|exact I4]. }
  destruct Hcs as (rcs & exprs & Hrc & Hex & HF).
  destruct (pack_ok h ps x Hl) as (popt' & Hp' & Hlen & Hfix & Hfree). rewrite Hp in Hp'. injection Hp' as <-.
  assert (Hgk : forall k v, In (k, v) g -> one_line k /\ one_line (pr_nd pr v)).
  { intros k v Hin. split; [|exact (Hgof k v Hin)]. pose proof (gof_keys _ _ _ _ _ _ k v Hgq Hin) as Hk. cbn in Hk. intuition (subst; reflexivity). }
  match type of HF with Forall2 _ _ ?Q => destruct (report_printed pr status nit objective minimizer ps popt {| rp_params := result_params ps popt; rp_popt := popt; rp_cov := cov; rp_gof := g |} rcs Q
    Hpr Hs Ho Hmi Hpn Hnn Hlen eq_refl Hcov (gof_ne _ _ _ _ _ _ Hgq) Hgk HF) as (s & rows & S1 & S2 & S3 & S4) end.
  exists rcs, s, rows, exprs. split; [exact Hrc|]. split; [exact S1|]. split; [exact S2|]. split; [exact Hex|]. split; [exact S3|].
  intros k p Hk. cbn [rp_cov] in S4. destruct (nth_error popt k) as [v|] eqn:Ev; [|apply nth_error_None in Ev; assert ((k < List.length ps)%nat) by (apply nth_error_Some; congruence); lia].
  rewrite (S4 k p v Hk Ev). do 2 f_equal. unfold reported. rewrite (result_lookup ps popt k p v Hnn Hk Ev). reflexivity.
Qed.

(** the report of a least squares fit *)
Lemma ls_report inv simp ord1 ord2 es m sol toward0 h cons o mc absolute args kw f N x :
  let om := om_of KModel simp ord2 m in
  let ps := m_params m in
  let Y := the_data om cons args kw in
  let S := the_sigma om cons args kw in
  simp_ok simp -> set_order ord2 -> model_of ord1 es m -> means es sol -> ps <> [] -> ArrSpec.has_hessian simp ord2 m ->
  good_names om cons -> NoDup (dkeys kw) -> data_on_grid [N] m Y S -> no_shape_clash [N] m -> no_bare_numbers om cons args kw -> objective_chosen o mc OLS ->
  fit_init toward0 h {| fm_om := om; fm_len := List.length es |} cons o mc absolute args kw = Ok f ->
  inverts inv -> List.length x = nfree h ps ->
  exists fv r, obj_value OLS h om (ft_obj f) x [] = Ok fv /\ fit_report inv h om f x fv = Ok r /\ pack_output h ps x = Ok (rp_popt r) /\
    fit_execute inv h om f x = Ok (rp_popt r, rp_cov r) /\
    (forall c, rp_cov r = Some c -> square (List.length ps) c) /\
    exists a b c, rp_gof r = [("objective_value", a); ("r_squared", b); ("chi_squared", c)] /\ shp a = [] /\ shp b = [] /\ shp c = [] /\
      val a [] = / 2 * chi2_for sol m Y S (reported ps (rp_popt r)) /\ val b [] = r2_for sol m Y (reported ps (rp_popt r)) /\
      val c [] = chi2_for sol m Y S (reported ps (rp_popt r)).
Proof.
  intros om ps Y Sg Hsimp Ho2 Hm Hsol Hne HH Hg Hkw HG Hsc Hbare Hoc Hf Hinv Hl. pose proof (proj1 HG) as Hgi.
  destruct (fit_covariance KModel simp ord1 ord2 es m sol toward0 h cons o mc absolute args kw f [N] Ho2 Hm Hsol Hg Hkw Hgi Hf HG Hoc Hbare inv x Hsimp eq_refl Hne HH Hsc Hinv Hl)
    as (popt & cov & H & K & Hex & Hp & Hrest). fold ps in Hp. cbv zeta in Hrest. destruct Hrest as (_ & _ & Hcov & _).
  assert (Hsq : forall c, cov = Some c -> square (List.length ps) c).
  { intros c ->. destruct Hcov as [(C & E & Hs & _)|(_ & [(C & E & Hs & _)|(_ & E)])]; [injection E as ->; exact Hs|injection E as ->; exact Hs|discriminate]. }
  pose proof (fit_obj_made KModel simp ord1 ord2 es m toward0 h cons o mc absolute args kw f [N] Hm Hg Hkw Hgi Hf HG Hoc) as Hob.
  pose proof (grid_indep KModel simp ord2 es m toward0 h cons o mc absolute args kw f [N] Hg Hkw Hgi Hf) as Hgin.
  pose proof (grid_dep KModel simp ord2 es m toward0 h cons o mc absolute args kw f [N] Hg Hkw Hgi Hf HG) as Hgd.
  pose proof (fit_class KModel simp ord1 ord2 es m toward0 h cons o mc absolute args kw f [N] Hm Hg Hkw Hgi Hf HG Hoc) as Hcl.
  pose proof (ArrObj.built_self ord1 es m Hm) as Hb.
  pose proof (obj_is KModel simp ord1 ord2 es m sol toward0 h cons o mc absolute args kw f [N] Ho2 Hm Hsol Hg Hkw Hgi Hf HG Hoc x Hl) as Hov.
  set (data := objective_data (ft_data f)) in *.
  pose proof (ArrObj.value_ok simp ord1 ord2 es m m Ho2 Hb sol Hsol h data [N] KModel Hgin x Hl) as Hval.
  pose proof (ArrObj.out_spec ord1 ord2 es m m Ho2 Hb sol Hsol h data [N] Hgin x) as Vs.
  set (out := ArrObj.out_at ord2 m h data x) in *.
  pose proof (ArrObj.value_fits simp ord1 ord2 es m m Hb sol h data [N] KModel x out Hgd Vs) as Hfits.
  assert (Hcomp : comparable_shapes om data out).
  { intros v y Hv Hy. split; [exact (proj1 (Hfits v y Hv Hy))|]. right.
    destruct (ArrObj.value_entry ord2 es m sol h data [N] x out v Vs (ArrObj.dep_key ord1 es m m Hb v Hv)) as (a & -> & Hga & _).
    rewrite (proj1 (proj2 Hgd v y Hv Hy)). destruct (shape_line a N Hga) as [E|E]; rewrite E; reflexivity. }
  set (fv := scalar (/ 2 * chi2_for sol m Y Sg (parameter_value h ps x))).
  destruct (gof_least_squares h om data (ft_obj f) x popt out fv (ArrObj.om_created simp ord1 ord2 es m m Hb data [N] KModel Hgin false (ft_obj f) Hob) Hl Hp Hval Hfits Hcomp Hov)
    as (g & Hgq & _ & _ & (r2 & Hr2 & Er2)).
  assert (Hrep : forall p, In p ps -> reported ps popt p = parameter_value h ps x p) by (intros p Hin; exact (reported_is KModel simp ord1 ord2 es m h Hm x popt p Hl Hp Hin)).
  assert (Ech : chi2_for sol m Y Sg (parameter_value h ps x) = chi2_for sol m Y Sg (reported ps popt)).
  { apply (chi2_ext KModel simp ord1 ord2 es m sol cons args kw Hm Hsol). intros p Hin. symmetry. exact (Hrep p Hin). }
  exists fv, {| rp_params := result_params ps popt; rp_popt := popt; rp_cov := cov; rp_gof := g |}. cbn [rp_params rp_popt rp_cov rp_gof].
  split; [exact Hov|]. split.
  { unfold fit_report. change (om_params om) with ps. rewrite Hp. cbn [bind]. rewrite Hcl. change (om_params om) with ps in Hgq. rewrite Hgq. cbn [bind].
    unfold fit_execute in Hex. change (om_params (om_of KModel simp ord2 m)) with ps in Hex. rewrite Hp in Hex. cbn [bind] in Hex. apply bind_Ok in Hex as (cov' & Hc' & E). injection E as ->. rewrite Hcl in Hc'. fold om in Hc'. rewrite Hc'. reflexivity. }
  split; [exact Hp|]. split; [exact Hex|]. split; [exact Hsq|].
  assert (Eg : exists rr, g = [("objective_value", fv); ("r_squared", scalar rr); ("chi_squared", npmap (Rmult 2) fv)]).
  { unfold gof_qualifiers in Hgq. apply bind_Ok in Hgq as (g1 & Hg1 & Hgq). apply bind_Ok in Hg1 as (rr & _ & Hg1). injection Hg1 as <-. injection Hgq as <-. exists rr. reflexivity. }
  destruct Eg as (rr & ->). apply (f_equal (fun a => match a with Some b => val b [] | None => 0 end)) in Hr2. cbn [dget fst snd scalar val] in Hr2. cbn in Hr2. subst rr. exists fv, (scalar r2), (npmap (Rmult 2) fv). split; [reflexivity|]. split; [reflexivity|]. split; [reflexivity|]. split; [reflexivity|].
  split; [unfold fv; cbn [scalar val]; rewrite Ech; reflexivity|]. split; [|unfold fv; cbn [npmap scalar val]; rewrite Ech; field].
  cbn [scalar val]. rewrite Er2. unfold r2_for, residual_ss, total_ss. change (om_dep om) with (m_dep m).
  assert (Eo : forall v, In v (m_dep m) -> observed data v = Y v).
  { intros v Hv. apply (observed_is KModel simp ord2 es m toward0 h cons o mc absolute args kw f Hg Hkw Hf). apply in_or_app. right. exact Hv. }
  f_equal. f_equal; apply Rsum_ext; intros v Hv; pose proof (Eo v Hv) as E; rewrite E; destruct (Y v) as [y|] eqn:Ey; try reflexivity.
  apply Rsum_ext. intros i _. rewrite (ArrObj.value_at_point ord2 es m sol h data [N] x out v y i Vs (ArrObj.dep_key ord1 es m m Hb v Hv) (proj1 (proj2 Hgd v y Hv E))).
  do 2 f_equal. unfold predicted. apply (sol_ext ord1 es m sol Hm Hsol); [|left; exact (ArrObj.dep_key ord1 es m m Hb v Hv)].
  intros t Ht. etransitivity; [exact (at_input KModel simp ord1 ord2 es m toward0 h cons o mc absolute args kw f Hm Hg Hkw Hf x i t Ht)|].
  unfold at_data. destruct (is_par t) eqn:Et; [|reflexivity]. symmetry. apply Hrep. apply in_app_or in Ht as [Ht|Ht]; [|exact Ht].
  rewrite (ArrObj.indep_nonpar ord1 es m m Hb t Ht) in Et. discriminate.
Qed.
