(** * EndMain: from [Fit(model, data)] to the reported parameters. *)
From Coq Require Import Reals Lra Lia.
From Coquelicot Require Import Coquelicot.
From Verif Require ObjExample ObjLeast ObjMore.
From Verif Require Import PyBase PyFacts Signature SignatureFacts Expr Model ModelSpec ModelFacts CallFacts InitFacts ConstraintFacts AsConstraint ExprR Jacobian JacFacts JacAnalysis JacLemmas Cast NumPy NumFacts Objective ObjSpec ObjFacts ObjDiff Minimizer MinSpec MinFacts MinLemmas Fit FitSpec FitData FitFacts FitCov FitThm FitMain FitLik ArrModel ArrSpec ArrFacts ArrCall ArrObj ArrMain ArrCon ConModel EndSpec.
Local Open Scope R_scope.

Lemma datum_as_given x : datum_nd (as_given x) = datum_nd x.
Proof. destruct x; reflexivity. Qed.

Lemma nth_error_map_inv {A B} (g : A -> B) l i b : nth_error (map g l) i = Some b -> exists a, nth_error l i = Some a /\ g a = b.
Proof. revert i. induction l as [|x l IH]; intros [|i] H; try discriminate; cbn in H; [inv H; eexists; split; reflexivity|apply IH; exact H]. Qed.

(** the box scipy gets is the box of the free parameters *)
Lemma box_is_bounds h cls ps jac hess cs mn n x : minimizer_init h cls ps jac hess cs = Ok mn -> n = nfree h ps ->
  uses_bounds cls = true \/ (forall p, In p ps -> p_fixed (h p) = true \/ (p_min (h p) = None /\ p_max (h p) = None)) -> List.length x = n ->
  in_box (execute_problem h mn DNone DNone) x <-> (forall i p v, nth_error (free_of_list h ps) i = Some p -> nth_error x i = Some v -> within h p v).
Proof.
  intros Hm Hn Hb Hl. rewrite <- bounded_uses in Hb. destruct (problem_vectors h cls ps jac hess cs mn DNone DNone Hm) as (_ & Hlo & Hup). unfold in_box, within. split.
  - intros H i p v Hp Hv. destruct (H i v Hv) as [H1 H2]. destruct Hb as [Hb|Hb].
    + rewrite Hb in Hlo, Hup. split; intros r Hr.
      * apply (H1 _ r Hlo). rewrite (map_nth_error (fun q => p_min (h q)) _ _ Hp). f_equal. exact Hr.
      * apply (H2 _ r Hup). rewrite (map_nth_error (fun q => p_max (h q)) _ _ Hp). f_equal. exact Hr.
    + apply nth_error_In, filter_In in Hp as [Hp Hfx]. destruct (Hb p Hp) as [Hq|[-> ->]]; [rewrite Hq in Hfx; discriminate|]. split; intros r Hr; discriminate.
  - intros H i v Hv. split; intros l r Hll Hr.
    + destruct (is_bounded cls); [|rewrite Hlo in Hll; discriminate]. rewrite Hlo in Hll. inv Hll. apply nth_error_map_inv in Hr as (p & Hp & Hr). exact (proj1 (H i p v Hp Hv) r Hr).
    + destruct (is_bounded cls); [|rewrite Hup in Hll; discriminate]. rewrite Hup in Hll. inv Hll. apply nth_error_map_inv in Hr as (p & Hp & Hr). exact (proj2 (H i p v Hp Hv) r Hr).
Qed.

Lemma suitable_not_minpack h ps us mc : suitable h ps us mc -> mc <> MItem (MCls MINPACK).
Proof. intros [->|(c & -> & Hc & _)]; [discriminate|congruence]. Qed.

Lemma om_jac_some kc simp ord (m : amodel) : kc <> KCallable -> exists a, om_jac (om_of kc simp ord m) = Some a.
Proof. destruct kc; [congruence|eexists; reflexivity|eexists; reflexivity]. Qed.
Lemma om_jac_none kc simp ord (m : amodel) : kc = KCallable -> om_jac (om_of kc simp ord m) = None.
Proof. intros ->. reflexivity. Qed.
Lemma om_hess_none kc simp ord (m : amodel) : kc <> KModel -> om_hess (om_of kc simp ord m) = None.
Proof. destruct kc; [reflexivity|reflexivity|congruence]. Qed.

Section End.
  Context (kc : ArrModel.mclass) (simp : expr -> expr) (sub : expr -> expr -> expr) (mulm1 : expr -> expr) (ord1 ord2 : list sym -> list sym) (es : dict sym expr) (m : amodel) (sol : (sym -> R) -> sym -> R) (us : list user_con).
  Context (toward0 : R -> R) (h : heap) (cons : list fcon) (o : ochoice) (mc : mchoice) (absolute : option bool) (args : list datum) (kw : dict string datum) (f : fit) (G : list nat).
  Notation om := (om_of kc simp ord2 m).
  Notation ps := (m_params m).
  Notation items := (comps (V:=res nd) es).
  Let fm := {| fm_om := om; fm_len := List.length es |}.
  Let Y := the_data om cons args kw.
  Let Sg := the_sigma om cons args kw.
  Let data := objective_data (ft_data f).
  Hypothesis Ho2 : set_order ord2.
  Hypothesis Hm : model_of ord1 es m.
  Hypothesis Hsol : means es sol.
  Hypothesis Hg : good_names om cons.
  Hypothesis Hkw : NoDup (dkeys kw).
  Hypothesis Hgi : inputs_on_grid G m Y.
  Hypothesis Hf : fit_init toward0 h fm cons o mc absolute args kw = Ok f.

  Lemma data_is v : In v (m_indep m ++ m_dep m) -> dget data v = Some (Y v).
  Proof using Hg Hkw Hf.
    intros Hv. destruct (fit_stored toward0 h fm cons o mc absolute Hg args kw f Hkw Hf) as (_ & H & _).
    unfold data. rewrite objective_data_get, (H v Hv). cbn [option_map]. rewrite datum_as_given. reflexivity.
  Qed.
  Lemma observed_is v : In v (m_indep m ++ m_dep m) -> observed data v = Y v.
  Proof using Hg Hkw Hf. intros Hv. unfold observed. rewrite (data_is v Hv). reflexivity. Qed.
  Lemma sigma_is v : In v (m_dep m) -> observed data (sigma_of v) = Sg v.
  Proof using Hg Hkw Hf.
    intros Hv. destruct (fit_sigmas toward0 h fm cons o mc absolute Hg args kw f Hkw Hf) as (H & _).
    unfold observed, data. rewrite objective_data_get, (H v Hv). reflexivity.
  Qed.
  Lemma grid_indep : independent_on_grid G m data.
  Proof using Hg Hkw Hf Hgi.
    destruct Hgi as (_ & H0 & Hi). split; [exact H0|]. intros v Hv. destruct (Hi v Hv) as (a & Ha & Hga). exists a. split; [|exact Hga].
    rewrite data_is by (apply in_or_app; auto). rewrite Ha. reflexivity.
  Qed.
  (** *** the model in terms of parameter values *)
  Lemma sol_ext i1 i2 v : (forall s, In s (m_indep m ++ ps) -> i1 s = i2 s) -> symbol_of items v -> sol i1 v = sol i2 v.
  Proof using Hm Hsol.
    intros H Hv. exact (solX_ext ord1 es m m (built_self ord1 es m Hm) items sol i1 i2 (above_it ord1 es m m (built_self ord1 es m Hm)) (Hn ord1 es m m (built_self ord1 es m Hm)) (HsolN es sol Hsol) H v Hv).
  Qed.
  Lemma at_same theta theta' i s : (forall p, In p ps -> theta p = theta' p) -> In s (m_indep m ++ ps) -> at_data Y theta i s = at_data Y theta' i s.
  Proof using Hm.
    intros H Hs. unfold at_data. destruct (is_par s) eqn:E; [|reflexivity]. apply H. apply in_app_or in Hs as [Hs|Hs]; [|exact Hs].
    rewrite (indep_nonpar ord1 es m m (built_self ord1 es m Hm) s Hs) in E. discriminate.
  Qed.
  Lemma at_input xs i s : In s (m_indep m ++ ps) -> at_index (inputs h ps data xs) i s = at_data Y (parameter_value h ps xs) i s.
  Proof using Hm Hg Hkw Hf.
    intros Hs. unfold at_index, inputs, at_data. destruct (is_par s) eqn:E; [apply elem_scalar|].
    apply in_app_or in Hs as [Hs|Hs]; [|rewrite (Hps ord1 es m m (built_self ord1 es m Hm) s Hs) in E; discriminate].
    rewrite observed_is by (apply in_or_app; auto). destruct (Y s); [reflexivity|apply elem_scalar].
  Qed.
  Lemma defined_same i1 i2 k e : (forall s, In s (m_indep m ++ ps) -> i1 s = i2 s) -> In (k, e) es -> defined (sol i1) e -> defined (sol i2) e.
  Proof using Hm Hsol.
    intros H He. apply defined_ext. intros s Hs. apply sol_ext; [exact H|]. right. exists k, e. split; [apply in_comps; exact He|left; exact Hs].
  Qed.
  Lemma defined_is xs : defined_for G es sol Y (parameter_value h ps xs) -> defined_at G es sol h m data xs.
  Proof using Hm Hsol Hg Hkw Hf.
    intros H i k e Hi He. refine (defined_same _ _ k e _ He (H i k e Hi He)). intros s Hs. symmetry. apply at_input. exact Hs.
  Qed.
  Lemma near_is xs : defined_around G es sol Y (parameter_value h ps xs) -> defined_near G es sol h m data xs.
  Proof using Hm Hsol Hg Hkw Hf.
    intros (eps & Hpos & H) i Hi. exists eps. split; [exact Hpos|]. intros inp Hp Hv k e He.
    pose (theta' := fun p => if is_par p then inp p else parameter_value h ps xs p).
    refine (defined_same _ _ k e _ He (H theta' _ i k e Hi He)).
    - intros s Hs. unfold at_data, theta'. destruct (is_par s) eqn:E; [reflexivity|]. rewrite (Hv s E), (at_input xs i s Hs). unfold at_data. rewrite E. reflexivity.
    - intros p. unfold theta'. destruct (is_par p) eqn:E; [|rewrite Rminus_eq_0, Rabs_R0; exact Hpos].
      specialize (Hp p E). unfold at_index, inputs in Hp. rewrite E, elem_scalar in Hp. exact Hp.
  Qed.

  (** *** the constraints *)
  Hypothesis Har : sympy_arithmetic sub mulm1.
  Hypothesis Hcons : init_constraints kc simp sub mulm1 ord2 m us = Ok cons.
  Hypothesis Hgc : good_constraints es us.
  Hypothesis Hcg : constraints_on_grid G es us Y.

  Lemma cons_are : Forall2 (fun u c => exists cm, as_constraint sub mulm1 (uc_name u) ord2 (CRel (uc_rel u) (uc_left u) (uc_right u)) m = Ok (cm, fc_rel c) /\ fc_om c = om_of kc simp ord2 cm) us cons.
  Proof using Hcons.
    pose proof Hcons as HF. unfold init_constraints in HF. apply mapM_Ok in HF. clear -HF. induction HF as [|u c us' cs Hu _ IH]; [constructor|]. constructor; [|exact IH].
    apply bind_Ok in Hu as ([cm ty] & H1 & H2). inv H2. exists cm. split; [exact H1|reflexivity].
  Qed.
  Lemma none_iff : cons = [] <-> us = [].
  Proof using Hcons. pose proof cons_are as H. split; intros E; rewrite E in H; inversion H; reflexivity. Qed.
  Lemma plain_var s : symbol_of (comps (V:=R) es) s -> is_der s = false.
  Proof using Hm.
    destruct Hm as (_ & _ & _ & _ & Hpl & _). intros [Hk|(k & Hr)]; [destruct (proj1 Hpl s Hk) as (n & ->); reflexivity|exact (proj2 Hpl k s Hr)].
  Qed.
  Lemma con_user c : In c cons -> exists u cm, In u us /\ as_constraint sub mulm1 (uc_name u) ord2 (CRel (uc_rel u) (uc_left u) (uc_right u)) m = Ok (cm, fc_rel c) /\ fc_om c = om_of kc simp ord2 cm.
  Proof using Hcons.
    intros Hc. pose proof cons_are as H. clear -H Hc. induction H as [|u c0 us' cs Hu _ IH]; [destruct Hc|]. destruct Hc as [->|Hc].
    - destruct Hu as (cm & H1 & H2). exists u, cm. split; [left; reflexivity|auto].
    - destruct (IH Hc) as (u' & cm & H1 & H2). exists u', cm. split; [right; exact H1|exact H2].
  Qed.
  (** the variables of a constraint *)
  Lemma con_indep u cm c v : In u us -> as_constraint sub mulm1 (uc_name u) ord2 (CRel (uc_rel u) (uc_left u) (uc_right u)) m = Ok (cm, fc_rel c) -> fc_om c = om_of kc simp ord2 cm ->
    In v (om_indep (fc_om c)) -> (exists n, v = SVar n) /\ ~ In v (dkeys es) /\ (symbol_of (comps (V:=R) es) v \/ mentions (uc_left u) v \/ mentions (uc_right u) v).
  Proof using Hm Hsol Har Ho2 Hgc.
    intros Hu Hc Ho Hv. rewrite Ho in Hv. destruct (Hgc u Hu) as (Hw & Hpl).
    destruct (con_built sub mulm1 ord1 ord2 es m sol _ _ _ _ cm (fc_rel c) Hm Hsol Har Ho2 Hw Hpl Hc) as (ec & cm0 & solc & _ & _ & _ & _ & _ & Hind & _).
    destruct (Hind v Hv) as (H1 & H2 & H3). split; [|split; assumption].
    assert (Hd : is_der v = false) by (destruct H3 as [H3|H3]; [exact (plain_var v H3)|destruct Hw as (_ & _ & _ & _ & _ & Hpd); exact (Hpd v H3)]).
    destruct v; try discriminate. eauto.
  Qed.
  Lemma con_data_is c v : In c cons -> In v (om_indep (fc_om c)) -> dget data v = Some (Y v) /\ exists a, Y v = Some a /\ on_grid G (shp a).
  Proof using Hm Hsol Har Ho2 Hgc Hcons Hcg Hg Hkw Hf Hgi.
    intros Hc Hv. destruct (con_user c Hc) as (u & cm & Hu & Ha & Ho).
    destruct (con_indep u cm c v Hu Ha Ho Hv) as ((n & En) & Hnk & Hsy). destruct (Hgc u Hu) as (Hw & _).
    assert (Hnp : is_par v = false) by (rewrite En; reflexivity).
    assert (Hsd : symbol_of (comps (V:=R) es) v \/ ~ symbol_of (comps (V:=R) es) v).
    { destruct (in_dec eq_dec v (m_indep m)) as [Hi|Hi].
      - left. apply (in_indep_iff ord1 (comps es) (mcast m) (proj1 Hm) (HdR ord1 es m m (built_self ord1 es m Hm)) (HiR ord1 es m m (built_self ord1 es m Hm))) in Hi. apply Hi.
      - right. intros Hs. apply Hi. apply (in_indep_iff ord1 (comps es) (mcast m) (proj1 Hm) (HdR ord1 es m m (built_self ord1 es m Hm)) (HiR ord1 es m m (built_self ord1 es m Hm))). rewrite dkeys_comps. auto. }
    destruct Hsd as [Hs|Hns].
    - assert (Hi : In v (m_indep m)) by (apply (in_indep_iff ord1 (comps es) (mcast m) (proj1 Hm) (HdR ord1 es m m (built_self ord1 es m Hm)) (HiR ord1 es m m (built_self ord1 es m Hm))); rewrite dkeys_comps; auto).
      split; [apply data_is; apply in_or_app; auto|]. destruct Hgi as (_ & _ & H). exact (H v Hi).
    - destruct Hsy as [Hsy|Hsy]; [contradiction|]. split; [|exact (Hcg u v Hu Hsy Hnp Hnk)].
      destruct Hg as (_ & _ & Hnd). unfold argument_names in Hnd. apply NoDup_app_split in Hnd as (_ & _ & Hdj).
      assert (Hfirst : In (sname v) (dedup (map sname (om_indep om ++ om_dep om ++ concat (map (fun c => om_indep (fc_om c)) cons))))).
      { apply in_dedup. apply in_map. apply in_or_app; right. apply in_or_app; right. apply in_concat. exists (om_indep (fc_om c)). split; [apply in_map_iff; eauto|exact Hv]. }
      destruct (fit_stored toward0 h fm cons o mc absolute Hg args kw f Hkw Hf) as (_ & _ & H).
      unfold data. rewrite objective_data_get, (H c v Hc Hv); [cbn [option_map]; rewrite datum_as_given; reflexivity| |].
      + intros Hin. apply in_map_iff in Hin as (t & Et & Ht). unfold vars_of in Ht. rewrite app_assoc in Ht. apply in_app_or in Ht as [Ht|Ht].
        * assert (Hts : symbol_of (comps (V:=R) es) t).
          { apply in_app_or in Ht as [Ht|Ht].
            - apply (in_indep_iff ord1 (comps es) (mcast m) (proj1 Hm) (HdR ord1 es m m (built_self ord1 es m Hm)) (HiR ord1 es m m (built_self ord1 es m Hm))) in Ht. apply Ht.
            - left. rewrite dkeys_comps. rewrite <- (dkeys_comps (V:=res nd)). exact (dep_key ord1 es m m (built_self ord1 es m Hm) t Ht). }
          apply Hns. destruct Hw as (_ & _ & _ & _ & Hdn & _). replace v with t; [exact Hts|]. apply Hdn; [apply symbol_of_r; exact Hts| |exact Et].
          right. exists (uc_name u), (EAdd (uc_left u) (uc_right u)). split; [left; reflexivity|].
          destruct Hsy as [[Hi|(y & q & Hi & E)]|[Hi|(y & q & Hi & E)]]; [left|right; exists y, q; split; [|exact E]|left|right; exists y, q; split; [|exact E]]; cbn [occs]; apply in_or_app; auto.
        * apply (Hdj (sname v) Hfirst). apply in_dedup. rewrite map_app. apply in_or_app; left. rewrite <- Et. apply in_map. exact Ht.
      + intros c2 t Hc2 Ht Et. unfold vars_of in Ht. apply in_app_or in Ht as [Ht|Ht].
        * destruct (con_user c2 Hc2) as (u2 & cm2 & Hu2 & Ha2 & Ho2'). destruct (con_indep u2 cm2 c2 t Hu2 Ha2 Ho2' Ht) as ((n2 & En2) & _). subst t v. cbn [sname] in Et. congruence.
        * exfalso. apply (Hdj (sname v) Hfirst). apply in_dedup. rewrite map_app. apply in_or_app; right. rewrite <- Et. apply in_map. apply in_concat.
          exists (om_dep (fc_om c2) ++ map sigma_of (om_dep (fc_om c2))). split; [apply (in_map (fun c => om_dep (fc_om c) ++ map sigma_of (om_dep (fc_om c)))); exact Hc2|exact Ht].
  Qed.
  Lemma con_symbols u cm c s : In u us -> as_constraint sub mulm1 (uc_name u) ord2 (CRel (uc_rel u) (uc_left u) (uc_right u)) m = Ok (cm, fc_rel c) ->
    In s (occs (sub (uc_left u) (uc_right u))) -> ~ In s (dkeys es) -> (is_par s = true -> In s ps) /\ (is_par s = false -> In s (m_indep cm)).
  Proof using Hm Hsol Har Ho2 Hgc.
    intros Hu Ha Hs Hk. destruct (Hgc u Hu) as (Hw & Hpl).
    destruct (con_built sub mulm1 ord1 ord2 es m sol _ _ _ _ cm (fc_rel c) Hm Hsol Har Ho2 Hw Hpl Ha) as (ec & cm0 & solc & Hb & _ & Hdep & Hps' & _ & _ & _ & Hexp & _).
    destruct Har as (_ & _ & Hsm & Hmm & _).
    assert (Hwk : In (uc_name u) (dkeys ec)) by (rewrite <- (dkeys_comps (V:=res nd)); apply (dep_key ord2 ec cm0 cm Hb); rewrite Hdep; left; reflexivity).
    apply in_map_iff in Hwk as ([w' e] & Ew & Hwe). cbn [fst] in Ew. subst w'.
    destruct Hw as (_ & Hws & Hwl & Hwr & _).
    assert (He : mentions e s).
    { destruct (Hexp _ _ Hwe) as [Hin|(_ & [->| ->])]; [exfalso; apply Hws; left; rewrite dkeys_comps; apply in_map_iff; exists (uc_name u, e); auto|left; exact Hs|apply Hmm; left; exact Hs]. }
    assert (Hsy : symbol_of (comps (V:=res nd) ec) s) by (right; exists (uc_name u), e; split; [apply in_comps; exact Hwe|exact He]).
    assert (Hsk : ~ In s (dkeys ec)).
    { intros Hkk. apply in_map_iff in Hkk as ([k e'] & Ek & Hke). cbn [fst] in Ek. subst k.
      destruct (Hexp _ _ Hke) as [Hin|(-> & _)]; [apply Hk; apply in_map_iff; exists (s, e'); auto|].
      destruct (Hsm _ _ _ (or_introl Hs)); contradiction. }
    split; intros Ep.
    - rewrite <- Hps'. apply (Hsub ord2 ec cm0 cm Hb). apply (in_params_iff ord2 (comps ec) cm0 Ho2 (Hd ord2 ec cm0 cm Hb) (Hi ord2 ec cm0 cm Hb)).
      split; [exact Hsy|]. split; [exact Ep|]. intros t (e' & Hin & _). exfalso. apply Hsk. apply in_comps in Hin. apply in_map_iff. exists (s, e'). auto.
    - rewrite (proj1 (fields ord2 ec cm0 cm Hb)). apply (in_indep_iff ord2 (comps ec) cm0 Ho2 (Hd ord2 ec cm0 cm Hb) (Hi ord2 ec cm0 cm Hb)).
      split; [exact Hsy|]. split; [exact Ep|]. rewrite dkeys_comps. exact Hsk.
  Qed.
  (** what scipy imposes is what the user wrote *)
  Lemma con_value u c ob x : In u us -> In c cons -> (exists cm, as_constraint sub mulm1 (uc_name u) ord2 (CRel (uc_rel u) (uc_left u) (uc_right u)) m = Ok (cm, fc_rel c) /\ fc_om c = om_of kc simp ord2 cm) ->
    mm_init (fc_om c) data = Ok ob -> full_vector h m x ->
    exists v, mm_call h (fc_om c) ob x [] = Ok v /\
      ((forall i, In i (indices (shp v)) -> demands (fc_rel c) (val v i)) <->
       forall i, In i (indices G) -> holds (uc_rel u) (eval Ralg (sol (at_data Y (parameter_value h ps x) i)) (uc_left u)) (eval Ralg (sol (at_data Y (parameter_value h ps x) i)) (uc_right u))).
  Proof using Hm Hsol Har Ho2 Hgc Hcons Hcg Hg Hkw Hf Hgi.
    intros Hu Hc (cm & Ha & Ho) Hob Hl. destruct (Hgc u Hu) as (Hw & Hpl).
    destruct (con_built sub mulm1 ord1 ord2 es m sol _ _ _ _ cm (fc_rel c) Hm Hsol Har Ho2 Hw Hpl Ha) as (ec & cm0 & solc & Hb & Hsc & Hdep & Hps' & Hty & Hind & Hval & Hexp & _).
    destruct Hgi as (HGne & HG0 & _). rewrite Ho in Hob.
    assert (Hgr : independent_on_grid G cm data).
    { split; [exact HG0|]. intros v Hv. destruct (con_data_is c v Hc) as (E & a & Ea & Hga); [rewrite Ho; exact Hv|]. exists a. rewrite E, Ea. auto. }
    destruct (mm_everywhere simp ord2 ord2 ec cm0 cm Ho2 Hb solc Hsc h data G kc Hgr HGne ob x (uc_name u) Hob Hdep) as (v & Hv & HP); [unfold full_vector; rewrite Hps'; exact Hl|].
    exists v. rewrite Ho. split; [exact Hv|]. rewrite (HP (demands (fc_rel c))).
    assert (Hi : forall i, predicted solc h (m_params cm) data x (uc_name u) i =
      signed (uc_rel u) (eval Ralg (sol (at_data Y (parameter_value h ps x) i)) (uc_left u) - eval Ralg (sol (at_data Y (parameter_value h ps x) i)) (uc_right u))).
    { intros i. unfold predicted. rewrite Hval, Hps'. f_equal. destruct Har as (Hse & _ & Hsm & Hmm & _). rewrite <- !Hse. apply eval_ext. intros s Hs.
      destruct (in_dec eq_dec s (dkeys es)) as [Hk|Hk].
      - apply sol_ext; [intros t Ht; apply at_input; exact Ht|left; rewrite dkeys_comps; exact Hk].
      - rewrite (proj2 (Hsol _) s), (proj2 (Hsol _) s) by (rewrite dkeys_comps; exact Hk).
        unfold at_index, inputs, at_data. destruct (is_par s) eqn:Ep; [apply elem_scalar|]. unfold observed.
        destruct (con_data_is c s Hc) as (E & a & Ea & _); [|rewrite E, Ea; reflexivity]. rewrite Ho. cbn [om_of om_indep].
        apply (con_symbols u cm c s Hu Ha Hs Hk). exact Ep. }
    split; intros H i Hin; specialize (H i Hin); [rewrite Hi in H|rewrite Hi];
      destruct Hty as [(E & E')|[(E & E')|(E & E')]]; rewrite E, E' in *; cbn [demands holds signed] in *; lra.
  Qed.

  (** *** the minimizer *)
  Lemma made_class cls mn : init_class h om cons data (ft_class f) (ft_obj f) cls = Ok mn ->
    exists jac hess cs, minimizer_init h cls ps jac hess cs = Ok mn /\ (is_gradient cls = true -> kc <> KCallable -> jac = Some (as_fn (fun xs => obj_jacobian (ft_class f) h om (ft_obj f) xs []))) /\
      (kc = KCallable -> jac = None).
  Proof using.
    unfold init_class. intros H. apply bind_Ok in H as (cs & _ & H). eexists _, _, _. split; [exact H|]. split.
    - intros -> Hk. destruct (om_jac_some kc simp ord2 m Hk) as (a & ->). reflexivity.
    - intros Hk. rewrite (om_jac_none kc simp ord2 m Hk). destruct (is_gradient cls); reflexivity.
  Qed.
  Lemma item_class cls : init_item toward0 h om cons data (ft_class f) (ft_obj f) (MCls cls) = Ok (ft_min f) ->
    exists mn local, ft_min f = FMin mn local /\ mi_class mn = cls /\ init_class h om cons data (ft_class f) (ft_obj f) cls = Ok mn.
  Proof using.
    intros H. destruct cls; cbn [init_item] in H;
      try (apply bind_Ok in H as (mn & Hmn & H); injection H as H; exists mn, None; split; [symmetry; exact H|]; split; [exact (proj1 (init_class_cls _ _ _ _ _ _ _ _ Hmn))|exact Hmn]).
    apply bind_Ok in H as (lc & _ & H). apply bind_Ok in H as (mn & Hmn & H). injection H as H. exists mn, (Some lc). split; [symmetry; exact H|]. split; [exact (proj1 (init_class_cls _ _ _ _ _ _ _ _ Hmn))|exact Hmn].
  Qed.
  Lemma fit_min_made : suitable h ps us mc -> exists mn local cls, ft_min f = FMin mn local /\ mi_class mn = cls /\ chosen_class h om cons mc cls /\
    init_class h om cons data (ft_class f) (ft_obj f) cls = Ok mn /\ cls <> MINPACK /\
    (uses_bounds cls = true \/ forall p, In p ps -> p_fixed (h p) = true \/ (p_min (h p) = None /\ p_max (h p) = None)) /\ (uses_constraints cls = true \/ us = []).
  Proof using Hf Hcons.
    intros Hs. destruct (fit_init_inv toward0 h fm cons o mc absolute args kw f Hf) as (t & _ & _ & _ & _ & H).
    destruct Hs as [E|(c & E & Hc & Hb & Hu)]; rewrite E in H; cbn [init_choice fm fm_om] in H.
    - pose proof (minimizer_rule toward0 h om cons) as He. set (cls := determine_minimizer toward0 h om cons) in *.
      assert (Hq : cls <> MINPACK) by (destruct He as [(_ & ->)|[(_ & _ & ->)|(_ & _ & ->)]]; discriminate).
      destruct (item_class cls H) as (mn & lc & H1 & H2 & H3). exists mn, lc, cls. split; [exact H1|]. split; [exact H2|]. split; [left; auto|]. split; [exact H3|]. split; [exact Hq|].
      destruct He as [(Hne & ->)|[(Hne & _ & ->)|(Hne & Hnb & ->)]]; [split; left; reflexivity|split; [left; reflexivity|right; apply none_iff; exact Hne]|]. split; [right|right; apply none_iff; exact Hne].
      intros p Hp. right. split; [destruct (p_min (h p)) eqn:Ep|destruct (p_max (h p)) eqn:Ep]; try reflexivity; exfalso; apply Hnb; exists p; (split; [exact Hp|]); right; [left|right]; rewrite Ep; discriminate.
    - destruct (item_class c H) as (mn & lc & H1 & H2 & H3). exists mn, lc, c. split; [exact H1|]. split; [exact H2|]. split; [right; exact E|]. auto.
  Qed.
  Lemma free_params mn : NoDup ps -> mn = nfree h ps -> forall i, (i < mn)%nat -> exists p k, MinSpec.free_at h ps p i k.
  Proof using.
    intros Hn -> i Hi. unfold nfree in Hi. apply nth_error_Some in Hi. destruct (nth_error (free_of_list h ps) i) as [p|] eqn:E; [|congruence].
    pose proof (nth_error_In _ _ E) as Hin. apply filter_In in Hin as [Hin _]. apply In_nth_error in Hin as (k & Hk). exists p, k. split; assumption.
  Qed.
  Lemma box_allowed mn cls x : init_class h om cons data (ft_class f) (ft_obj f) cls = Ok mn ->
    (uses_bounds cls = true \/ forall p, In p ps -> p_fixed (h p) = true \/ (p_min (h p) = None /\ p_max (h p) = None)) ->
    List.length x = nfree h ps -> in_box (execute_problem h mn DNone DNone) x <-> allowed h m (parameter_value h ps x).
  Proof using Hm.
    intros Hini Hb Hl.
    destruct (made_class cls mn Hini) as (jac & hess & cs & Hmi & _). rewrite (box_is_bounds h cls ps jac hess cs mn (nfree h ps) x Hmi eq_refl Hb Hl). unfold allowed. split.
      - intros H p Hp. destruct (p_fixed (h p)) eqn:E; [unfold parameter_value; rewrite E; reflexivity|].
        assert (Hpf : In p (free_of_list h ps)) by (apply filter_In; rewrite E; auto). apply In_nth_error in Hpf as (i & Hi).
        assert (Hii : (i < List.length x)%nat) by (rewrite Hl; unfold nfree; apply nth_error_Some; rewrite Hi; discriminate).
        rewrite (pv_at ord1 es m m (built_self ord1 es m Hm) h x p i Hi Hii). apply (H i p _ Hi). apply nth_error_nth'. exact Hii.
      - intros H i p v Hp Hv. pose proof (free_facts m h p i Hp) as (Hin & Hfx). specialize (H p Hin). rewrite Hfx in H.
        assert (Hii : (i < List.length x)%nat) by (apply nth_error_Some; congruence). rewrite (pv_at ord1 es m m (built_self ord1 es m Hm) h x p i Hp Hii) in H. rewrite (nth_error_nth x i 0 Hv) in H. exact H.
  Qed.
  Lemma feasible_is mn local cls x : ft_min f = FMin mn local -> mi_class mn = cls -> init_class h om cons data (ft_class f) (ft_obj f) cls = Ok mn ->
    (uses_bounds cls = true \/ forall p, In p ps -> p_fixed (h p) = true \/ (p_min (h p) = None /\ p_max (h p) = None)) -> (uses_constraints cls = true \/ us = []) ->
    List.length x = nfree h ps -> feasible (execute_problem h mn DNone DNone) x <-> allowed h m (parameter_value h ps x) /\ constraints_hold G sol us Y (parameter_value h ps x).
  Proof using Ho2 Hm Hsol Hg Hkw Hf Hgi Har Hcons Hgc Hcg.
    intros Hmin Hcls Hini Hb Hu Hl. unfold feasible.
    pose proof (box_allowed mn cls x Hini Hb Hl) as Hbox.
    rewrite Hbox.
    assert (Hconds : (forall k, In k (pb_cons (execute_problem h mn DNone DNone)) -> exists c, handed_fun k x = Ok c /\ forall i, In i (indices (shp c)) -> imposes k (val c i)) <-> constraints_hold G sol us Y (parameter_value h ps x)).
    2:{ rewrite Hconds. reflexivity. }
    destruct (class_equipped toward0 h fm cons o mc absolute args kw f cls mn Hf Hini (NoDup_ps ord1 es m m (built_self ord1 es m Hm))) as (_ & _ & _ & Hhc).
    unfold has_constraints in Hhc. rewrite Hcls in Hhc. destruct (uses_constraints cls) eqn:Euc.
    - destruct (Hhc eq_refl) as (Hlen & Hall). pose proof cons_are as H2.
      assert (Hlu : List.length us = List.length cons) by (clear -H2; induction H2; simpl; congruence).
      split.
      + intros H u i Hu' Hi. apply In_nth_error in Hu' as (n & Hn).
        assert (Hc : exists c, nth_error cons n = Some c). { destruct (nth_error cons n) as [c|] eqn:E; [eauto|]. apply nth_error_None in E. assert (n < List.length us)%nat by (apply nth_error_Some; congruence). lia. }
        destruct Hc as (c & Hc). destruct (Forall2_at _ _ _ H2 n u Hn) as (c' & Hc' & Hcm). rewrite Hc in Hc'. injection Hc' as <-.
        destruct (Hall n c Hc) as (k & ob & Hk & Hob & Himp & Hfun & _).
        destruct (con_value u c ob x (nth_error_In _ _ Hn) (nth_error_In _ _ Hc) Hcm Hob Hl) as (v & Hv & Hiff).
        destruct (H k (nth_error_In _ _ Hk)) as (v' & Hv' & Hv''). rewrite Hfun in Hv'. rewrite Hv in Hv'. injection Hv' as <-.
        apply Hiff; [|exact Hi]. intros j Hj. apply Himp. apply Hv''. exact Hj.
      + intros H k Hk. apply In_nth_error in Hk as (n & Hn).
        assert (Hlt : (n < List.length cons)%nat) by (rewrite <- Hlen; apply nth_error_Some; congruence).
        destruct (nth_error cons n) as [c|] eqn:Hc; [|apply nth_error_None in Hc; lia]. destruct (nth_error us n) as [u|] eqn:Hu'; [|apply nth_error_None in Hu'; lia].
        destruct (Forall2_at _ _ _ H2 n u Hu') as (c' & Hc' & Hcm). rewrite Hc in Hc'. injection Hc' as <-.
        destruct (Hall n c Hc) as (k' & ob & Hk' & Hob & Himp & Hfun & _). rewrite Hn in Hk'. injection Hk' as <-.
        destruct (con_value u c ob x (nth_error_In _ _ Hu') (nth_error_In _ _ Hc) Hcm Hob Hl) as (v & Hv & Hiff).
        exists v. rewrite Hfun. split; [exact Hv|]. intros i Hi. apply Himp. revert i Hi. apply Hiff. intros i Hi. exact (H u i (nth_error_In _ _ Hu') Hi).
    - assert (Eu : us = []) by (destruct Hu as [Hu|Hu]; [discriminate|exact Hu]).
      assert (Ec : pb_cons (execute_problem h mn DNone DNone) = []).
      { unfold execute_problem. rewrite Hcls, (constrained_uses cls), Euc. destruct cls; try reflexivity. destruct (trust_strategy _ _); reflexivity. }
      rewrite Ec, Eu. split; [intros _ u i []|intros _ k []].
  Qed.

  (** *** the result *)
  Lemma reported_is x popt p : List.length x = nfree h ps -> pack_output h ps x = Ok popt -> In p ps -> reported ps popt p = parameter_value h ps x p.
  Proof using Hm kc simp ord2.
    intros Hl Hp Hin. destruct (pack_ok h ps x Hl) as (popt' & Hp' & Hlen & Hfix & Hfree). rewrite Hp in Hp'. injection Hp' as <-.
    assert (Hnn : NoDup (map sname ps)). { destruct (om_interface simp ord1 ord2 es m m (built_self ord1 es m Hm) kc) as (_ & N & _). cbn [om_indep om_params om_of] in N. rewrite map_app in N. apply NoDup_app_split in N as (_ & N & _). exact N. }
    apply In_nth_error in Hin as (k & Hk). unfold reported. destruct (p_fixed (h p)) eqn:E.
    - rewrite (result_lookup ps popt k p _ Hnn Hk (Hfix k p Hk E)). unfold parameter_value. rewrite E. reflexivity.
    - assert (Hpf : In p (free_of_list h ps)) by (apply filter_In; rewrite E; split; [eapply nth_error_In; exact Hk|reflexivity]). apply In_nth_error in Hpf as (i & Hi).
      assert (Hii : (i < List.length x)%nat) by (rewrite Hl; unfold nfree; apply nth_error_Some; rewrite Hi; discriminate).
      rewrite (result_lookup ps popt k p (nth i x 0) Hnn Hk).
      + symmetry. apply (pv_at ord1 es m m (built_self ord1 es m Hm) h x p i Hi Hii).
      + rewrite (Hfree p i k (NoDup_ps ord1 es m m (built_self ord1 es m Hm)) (conj Hi Hk)). apply nth_error_nth'. exact Hii.
  Qed.
  (** allowed values are those of a vector *)
  Lemma vector_of theta : allowed h m theta -> forall p, In p ps -> parameter_value h ps (map theta (free_of_list h ps)) p = theta p.
  Proof using Hm kc simp ord2.
    intros Ha p Hp. specialize (Ha p Hp). destruct (p_fixed (h p)) eqn:E; [unfold parameter_value; rewrite E; symmetry; exact Ha|].
    assert (Hpf : In p (free_of_list h ps)) by (apply filter_In; rewrite E; auto). apply In_nth_error in Hpf as (i & Hi).
    assert (Hii : (i < List.length (map theta (free_of_list h ps)))%nat) by (rewrite map_length; apply nth_error_Some; rewrite Hi; discriminate).
    rewrite (pv_at ord1 es m m (built_self ord1 es m Hm) h _ p i Hi Hii). apply nth_error_nth. apply map_nth_error. exact Hi.
  Qed.
  Lemma allowed_ext t1 t2 : (forall p, In p ps -> t1 p = t2 p) -> allowed h m t1 -> allowed h m t2.
  Proof using. intros H Ha p Hp. rewrite <- (H p Hp). exact (Ha p Hp). Qed.

  Lemma hold_ext t1 t2 : (forall p, In p ps -> t1 p = t2 p) -> constraints_hold G sol us Y t1 -> constraints_hold G sol us Y t2.
  Proof using Hm Hsol Har Hcons Hgc Ho2.
    intros H Hh u i Hu Hi. specialize (Hh u i Hu Hi).
    assert (Hc : exists cm c, as_constraint sub mulm1 (uc_name u) ord2 (CRel (uc_rel u) (uc_left u) (uc_right u)) m = Ok (cm, fc_rel c)).
    { apply In_nth_error in Hu as (n & Hn). destruct (Forall2_at _ _ _ cons_are n u Hn) as (c & _ & cm & Ha & _). eauto. }
    destruct Hc as (cm & c & Ha).
    assert (E : eval Ralg (sol (at_data Y t1 i)) (sub (uc_left u) (uc_right u)) = eval Ralg (sol (at_data Y t2 i)) (sub (uc_left u) (uc_right u))).
    { apply eval_ext. intros s Hs. destruct (in_dec eq_dec s (dkeys es)) as [Hk|Hk].
      - apply sol_ext; [intros t Ht; apply at_same; assumption|left; rewrite dkeys_comps; exact Hk].
      - rewrite (proj2 (Hsol _) s), (proj2 (Hsol _) s) by (rewrite dkeys_comps; exact Hk). unfold at_data. destruct (is_par s) eqn:Ep; [|reflexivity].
        apply H. exact (proj1 (con_symbols u cm c s Hu Ha Hs Hk) Ep). }
    destruct Har as (Hse & _). rewrite !Hse in E. destruct (uc_rel u); cbn [holds] in *; lra.
  Qed.

  (** *** any objective *)
  Lemma start_is mn local : ft_min f = FMin mn local -> init_class h om cons data (ft_class f) (ft_obj f) (mi_class mn) = Ok mn ->
    pb_x0 (execute_problem h mn DNone DNone) = (match mi_class mn with DifferentialEvolution => None | _ => Some (map (fun p => p_value (h p)) (free_of_list h ps)) end).
  Proof using.
    intros Hmin Hini. destruct (made_class _ mn Hini) as (jac & hess & cs & Hmi & _).
    destruct (problem_vectors h (mi_class mn) ps jac hess cs mn DNone DNone Hmi) as (Hx0 & _). exact Hx0.
  Qed.
  Lemma gradient_handed mn local F : ft_min f = FMin mn local -> init_class h om cons data (ft_class f) (ft_obj f) (mi_class mn) = Ok mn -> mi_class mn <> MINPACK ->
    kc <> KCallable -> uses_jacobian (mi_class mn) = true -> exists w, pb_jac (execute_problem h mn DNone DNone) = DFun w /\
      forall x a, List.length x = nfree h ps -> obj_jacobian (ft_class f) h om (ft_obj f) x [] = Ok (Some a) -> gradient_shaped (List.length ps) a ->
        (forall p i k, free_parameter h m p i k -> derivative_in F (parameter_value h ps x) p (gradient_entry a k)) ->
        exists g, w x = Ok g /\ shp g = [nfree h ps] /\ forall i p, nth_error (free_of_list h ps) i = Some p -> derivative_in F (parameter_value h ps x) p (val g [i]).
  Proof using Hm.
    intros Hmin Hini Hnm Hkc Hgr. rewrite <- gradient_uses in Hgr. destruct (made_class _ mn Hini) as (jac & hess & cs & Hmi & Hjac & _). specialize (Hjac Hgr Hkc). subst jac.
    assert (Hnd : NoDup ps) by exact (NoDup_ps ord1 es m m (built_self ord1 es m Hm)).
    destruct (jac_reaches h (mi_class mn) ps _ hess cs mn Hmi Hgr Hnm Hnd) as (w & Hw & Hr). exists w. split; [exact Hw|]. intros x a Hl Ha Hsa Hda.
    destruct (Hr x a) as (g & Hwg & Hsg & Hvg); [unfold as_fn; rewrite Ha; reflexivity|exact Hsa|].
    exists g. split; [exact Hwg|]. split; [exact Hsg|]. intros i p Hi.
    pose proof (free_facts m h p i Hi) as (Hin & _). apply In_nth_error in Hin as (k & Hk). rewrite (Hvg p i k (conj Hi Hk)). apply (Hda p i k). split; [exact Hk|exact Hi].
  Qed.
  Lemma no_gradient_handed mn : kc = KCallable -> init_class h om cons data (ft_class f) (ft_obj f) (mi_class mn) = Ok mn ->
    forall w, pb_jac (execute_problem h mn DNone DNone) <> DFun w.
  Proof using.
    intros Hk Hini w E. destruct (made_class _ mn Hini) as (jac & hess & cs & Hmi & _ & Hjac). rewrite (Hjac Hk) in Hmi.
    destruct (init_fields _ _ _ _ _ _ _ Hmi) as (_ & _ & _ & _ & _ & Hmj & _).
    assert (Hn : mi_jacobian mn = None) by (rewrite Hmj; destruct (is_gradient (mi_class mn)); reflexivity).
    revert E. unfold execute_problem, wrapped_jacobian. rewrite Hn. destruct (mi_class mn); cbn; try discriminate. destruct (mi_hessian mn); discriminate.
  Qed.
  (** a best vector of the problem gives a best point *)
  Lemma best_generic (cand : (sym -> R) -> Prop) (val_of : nd -> R) (Q : (sym -> R) -> R) pb x popt :
    (forall x, List.length x = nfree h ps -> feasible pb x <-> allowed h m (parameter_value h ps x) /\ constraints_hold G sol us Y (parameter_value h ps x)) ->
    (forall x, List.length x = nfree h ps -> cand (parameter_value h ps x) -> exists r, obj_value (ft_class f) h om (ft_obj f) x [] = Ok r /\ val_of r = Q (parameter_value h ps x)) ->
    (forall a b, (forall p, In p ps -> a p = b p) -> Q a = Q b) -> (forall a b, (forall p, In p ps -> a p = b p) -> cand a -> cand b) ->
    List.length x = nfree h ps -> feasible pb x -> cand (parameter_value h ps x) ->
    (forall x' r r', List.length x' = nfree h ps -> feasible pb x' -> cand (parameter_value h ps x') ->
       obj_value (ft_class f) h om (ft_obj f) x [] = Ok r -> obj_value (ft_class f) h om (ft_obj f) x' [] = Ok r' -> val_of r <= val_of r') ->
    pack_output h ps x = Ok popt ->
    allowed h m (reported ps popt) /\ constraints_hold G sol us Y (reported ps popt) /\ cand (reported ps popt) /\
    forall theta, allowed h m theta -> constraints_hold G sol us Y theta -> cand theta -> Q (reported ps popt) <= Q theta.
  Proof using Ho2 Hm Hsol Har Hcons Hgc.
    intros Hb Hv HQ Hce Hl Hbox Hcx Hbest Hp. pose proof (reported_is x popt) as Hrep.
    destruct (proj1 (Hb x Hl) Hbox) as [Hal Hho]. split; [|split; [|split]].
    - apply (allowed_ext (parameter_value h ps x)); [intros p Hin; symmetry; apply Hrep; assumption|exact Hal].
    - apply (hold_ext (parameter_value h ps x)); [intros p Hin; symmetry; apply Hrep; assumption|exact Hho].
    - apply (Hce (parameter_value h ps x)); [intros p Hin; symmetry; apply Hrep; assumption|exact Hcx].
    - intros theta Ha Hc Hct. pose (x' := map theta (free_of_list h ps)). assert (Hl' : List.length x' = nfree h ps) by apply map_length.
      pose proof (vector_of theta Ha) as Hvec. fold x' in Hvec.
      assert (Hbox' : feasible pb x').
      { apply Hb; [exact Hl'|]. split; [apply (allowed_ext theta)|apply (hold_ext theta)]; try assumption; intros p Hin; symmetry; apply Hvec; exact Hin. }
      assert (Hcx' : cand (parameter_value h ps x')) by (apply (Hce theta); [intros p Hin; symmetry; apply Hvec; exact Hin|exact Hct]).
      destruct (Hv x Hl Hcx) as (r & Er & Qr). destruct (Hv x' Hl' Hcx') as (r' & Er' & Qr').
      pose proof (Hbest x' r r' Hl' Hbox' Hcx' Er Er') as Hle. rewrite Qr, Qr' in Hle.
      rewrite (HQ (reported ps popt) (parameter_value h ps x)) by (intros p Hin; apply Hrep; assumption).
      rewrite <- (HQ (parameter_value h ps x') theta Hvec). exact Hle.
  Qed.
  Lemma answers_at fn x popt oo : List.length x = nfree h ps -> pack_output h ps x = Ok popt ->
    answers fn h om data x [] oo -> answers fn h om data [] (named_values om popt) oo.
  Proof using Hm.
    intros Hl Hp (d & [Hd1 Hd2] & Hc & Hli). exists d. split; [|split; [exact Hc|exact Hli]]. split; [exact Hd1|]. intros n. rewrite Hd2.
    exact (seen_result h om data x popt (om_interface simp ord1 ord2 es m m (built_self ord1 es m Hm) kc) Hl Hp n).
  Qed.
  Lemma dedup_const {A} `{EqDec A} (l : list A) a : l <> [] -> (forall b, In b l -> b = a) -> dedup l = [a].
  Proof using.
    induction l as [|b l IH]; intros Hne Hall; [congruence|]. cbn [dedup]. rewrite (Hall b (or_introl eq_refl)). f_equal.
    destruct l as [|c l]; [reflexivity|]. rewrite IH; [|discriminate|intros d Hd; apply Hall; right; exact Hd]. cbn [filter]. rewrite eqb_refl. reflexivity.
  Qed.
  Lemma predicted_partial xs p i v n d : ArrObj.free_at m h p i -> (i < List.length xs)%nat -> In v (m_dep m) ->
    partial_derivative (fun z => predicted sol h ps data z v n) xs i d ->
    derivative_in (fun th => sol (at_data Y th n) v) (parameter_value h ps xs) p d.
  Proof using Hm Hsol Hg Hkw Hf.
    intros Hfr Hi Hv Hd. unfold derivative_in, partial_derivative in *. rewrite (pv_at ord1 es m m (built_self ord1 es m Hm) h xs p i Hfr Hi). eapply is_derive_ext; [|exact Hd]. intros t. cbv beta. unfold predicted.
    apply sol_ext; [|left; exact (dep_key ord1 es m m (built_self ord1 es m Hm) v Hv)]. intros s Hs. rewrite at_input by exact Hs. apply at_same; [|exact Hs].
    intros q _. unfold with_value. apply (pv_set ord1 es m m (built_self ord1 es m Hm) h xs p i t q Hfr Hi).
  Qed.

  (** the values of [theta] outside the parameters do not matter *)
  Lemma derivative_ext F t1 t2 p d : In p ps -> (forall a b, (forall q, In q ps -> a q = b q) -> F a = F b) -> (forall q, In q ps -> t1 q = t2 q) ->
    derivative_in F t1 p d -> derivative_in F t2 p d.
  Proof using.
    intros Hp HF Ht Hd. unfold derivative_in in *. rewrite <- (Ht p Hp). eapply is_derive_ext; [|exact Hd]. intros t. cbv beta. apply HF.
    intros q Hq. unfold with_value. destruct (eq_dec q p); [reflexivity|apply Ht; exact Hq].
  Qed.
  Lemma second_ext F t1 t2 p r d : In p ps -> In r ps -> (forall a b, (forall q, In q ps -> a q = b q) -> F a = F b) -> (forall q, In q ps -> t1 q = t2 q) ->
    second_derivative_in F t1 p r d -> second_derivative_in F t2 p r d.
  Proof using.
    intros Hp Hr HF Ht Hd. unfold second_derivative_in in *. rewrite <- (Ht p Hp). eapply is_derive_ext; [|exact Hd]. intros t. cbv beta.
    assert (E : forall q, In q ps -> with_value t1 p t q = with_value t2 p t q) by (intros q Hq; unfold with_value; destruct (eq_dec q p); [reflexivity|apply Ht; exact Hq]).
    rewrite (E r Hr). apply Derive_ext. intros u. apply HF. intros q Hq. unfold with_value at 1 3. destruct (eq_dec q r); [reflexivity|apply E; exact Hq].
  Qed.

  (** from entries of a vector to values of parameters *)
  Lemma partial_gen Q F xs p i d : (forall a b, (forall q, In q ps -> a q = b q) -> Q a = Q b) -> (forall z, F z = Q (parameter_value h ps z)) ->
    ArrObj.free_at m h p i -> (i < List.length xs)%nat -> partial_derivative F xs i d -> derivative_in Q (parameter_value h ps xs) p d.
  Proof using Hm.
    intros HQ HF Hfr Hi Hd. unfold derivative_in, partial_derivative in *. rewrite (pv_at ord1 es m m (built_self ord1 es m Hm) h xs p i Hfr Hi). eapply is_derive_ext; [|exact Hd]. intros t. cbv beta. rewrite HF.
    apply HQ. intros q _. unfold with_value. apply (pv_set ord1 es m m (built_self ord1 es m Hm) h xs p i t q Hfr Hi).
  Qed.
  Lemma second_gen Q F xs p i q j d : (forall a b, (forall q, In q ps -> a q = b q) -> Q a = Q b) -> (forall z, F z = Q (parameter_value h ps z)) ->
    ArrObj.free_at m h p i -> ArrObj.free_at m h q j -> (i < List.length xs)%nat -> (j < List.length xs)%nat ->
    second_partial F xs i j d -> second_derivative_in Q (parameter_value h ps xs) p q d.
  Proof using Hm.
    intros HQ HF Hp Hq Hi Hj Hd. unfold second_derivative_in, second_partial in *. rewrite (pv_at ord1 es m m (built_self ord1 es m Hm) h xs p i Hp Hi). eapply is_derive_ext; [|exact Hd]. intros t. cbv beta.
    assert (Hj' : (j < List.length (set_nth xs i t))%nat) by (rewrite set_nth_length; exact Hj).
    rewrite <- (pv_at ord1 es m m (built_self ord1 es m Hm) h (set_nth xs i t) q j Hq Hj').
    assert (E : with_value (parameter_value h ps xs) p t q = parameter_value h ps (set_nth xs i t) q).
    { unfold with_value. symmetry. apply (pv_set ord1 es m m (built_self ord1 es m Hm) h xs p i t q Hp Hi). }
    rewrite E. apply Derive_ext. intros u. rewrite HF. apply HQ. intros r _.
    rewrite (pv_set ord1 es m m (built_self ord1 es m Hm) h (set_nth xs i t) q j u r Hq Hj'). unfold with_value at 1. destruct (eq_dec r q); [reflexivity|].
    rewrite (pv_set ord1 es m m (built_self ord1 es m Hm) h xs p i t r Hp Hi). reflexivity.
  Qed.
  Section LS.
  Hypothesis HG : data_on_grid G m Y Sg.
  Hypothesis Hoc : objective_chosen o mc OLS.
  Lemma grid_dep : dependent_on_grid G m data.
  Proof using Hg Hkw Hf HG Hgi.
    destruct HG as ((Hne & _) & Hd & _). split; [exact Hne|]. intros v y Hv Hy. rewrite observed_is in Hy by (apply in_or_app; auto). rewrite sigma_is by exact Hv. exact (Hd v y Hv Hy).
  Qed.
  Lemma some_is : some_data om data.
  Proof using Hg Hkw Hf HG Hgi.
    destruct HG as (_ & _ & v & Hv & Hy). destruct (Y v) as [y|] eqn:E; [|congruence]. exists v, y. split; [exact Hv|]. rewrite observed_is by (apply in_or_app; auto). exact E.
  Qed.

  Lemma chi2_ext theta theta' : (forall p, In p ps -> theta p = theta' p) -> chi2_for sol m Y Sg theta = chi2_for sol m Y Sg theta'.
  Proof using Hm Hsol.
    intros H. unfold chi2_for. apply Rsum_ext. intros v Hv. destruct (Y v) as [y|]; [|reflexivity]. destruct (Sg v) as [s|]; [|reflexivity].
    apply Rsum_ext. intros i _. do 3 f_equal. apply sol_ext; [intros t Ht; apply at_same; assumption|left; exact (dep_key ord1 es m m (built_self ord1 es m Hm) v Hv)].
  Qed.
  Lemma half_is xs : half_chi2_at sol h m data xs = / 2 * chi2_for sol m Y Sg (parameter_value h ps xs).
  Proof using Hm Hsol Hg Hkw Hf.
    unfold half_chi2_at, chi2_for. f_equal. apply Rsum_ext. intros v Hv. rewrite observed_is by (apply in_or_app; auto). rewrite sigma_is by exact Hv.
    destruct (Y v) as [y|]; [|reflexivity]. destruct (Sg v) as [s|]; [|reflexivity]. apply Rsum_ext. intros i _. do 3 f_equal. unfold predicted.
    apply sol_ext; [intros t Ht; apply at_input; exact Ht|left; exact (dep_key ord1 es m m (built_self ord1 es m Hm) v Hv)].
  Qed.
  (** *** the problem *)
  Lemma fit_class : ft_class f = OLS.
  Proof using Hm Hg Hkw Hf HG Hoc Hgi.
    destruct HG as (_ & _ & v & Hv & Hy). destruct Hoc as [[Eo|Eo] Hmc].
    2:{ exact (proj1 (explicit_objective toward0 h fm cons mc absolute args kw Hg Hkw o OLS f Hf (or_introl Eo))). }
    pose proof Hf as Hf'. rewrite Eo in Hf'.
    destruct (m_dep m) as [|w ws] eqn:Ed; [destruct Hv|].
    pose proof (default_objective_rule toward0 h fm cons mc absolute args kw Hg Hkw f w ws Hf' Ed) as [(H & _)|[(_ & Hl & Hi & Hno & _)|(_ & _ & H)]]; [contradiction| |exact H].
    exfalso. assert (Hone : ws = []).
    { assert (Hnd : NoDup (m_dep m)) by (apply (om_interface simp ord1 ord2 es m m (built_self ord1 es m Hm) kc)).
      assert (Hin : incl (m_dep m) (dkeys es)) by (intros u Hu; rewrite <- (dkeys_comps (V:=res nd)); exact (dep_key ord1 es m m (built_self ord1 es m Hm) u Hu)).
      pose proof (NoDup_incl_length Hnd Hin) as Hle. unfold dkeys in Hle. rewrite map_length in Hle. cbn [fm fm_len] in Hl. rewrite Hl, Ed in Hle. destruct ws; [reflexivity|simpl in Hle; lia]. }
    subst ws. destruct Hv as [->|[]]. apply Hy. unfold Y, the_data, data_for. change (fm_om fm) with om in Hno. destruct (FitSpec.given _ _ _ _); [discriminate|reflexivity].
  Qed.
  Lemma fit_obj_made : obj_init false om data = Ok (ft_obj f).
  Proof using Hm Hg Hkw Hf HG Hoc Hgi.
    destruct (fit_init_inv toward0 h fm cons o mc absolute args kw f Hf) as (t & _ & _ & _ & H & _). rewrite fit_class in H. destruct Hoc as [[-> | ->] _]; exact H.
  Qed.
  Lemma obj_is xs : full_vector h m xs -> obj_value OLS h om (ft_obj f) xs [] = Ok (scalar (/ 2 * chi2_for sol m Y Sg (parameter_value h ps xs))).
  Proof using Ho2 Hm Hsol Hg Hkw Hf HG Hoc Hgi.
    intros Hl. cbn [obj_value]. rewrite (model_ls_value simp ord1 ord2 es m m Ho2 (built_self ord1 es m Hm) sol Hsol h data G kc grid_indep (ft_obj f) xs fit_obj_made grid_dep Hl). cbn [bind]. rewrite half_is. reflexivity.
  Qed.
  Lemma partial_is xs p i d : ArrObj.free_at m h p i -> (i < List.length xs)%nat -> partial_derivative (half_chi2_at sol h m data) xs i d ->
    derivative_in (fun th => / 2 * chi2_for sol m Y Sg th) (parameter_value h ps xs) p d.
  Proof using Hm Hsol Hg Hkw Hf. apply partial_gen; [intros a b H; f_equal; apply chi2_ext; exact H|exact half_is]. Qed.
  Lemma second_is xs p i q j d : ArrObj.free_at m h p i -> ArrObj.free_at m h q j -> (i < List.length xs)%nat -> (j < List.length xs)%nat ->
    second_partial (half_chi2_at sol h m data) xs i j d ->
    second_derivative_in (fun th => / 2 * chi2_for sol m Y Sg th) (parameter_value h ps xs) p q d.
  Proof using Hm Hsol Hg Hkw Hf. apply second_gen; [intros a b H; f_equal; apply chi2_ext; exact H|exact half_is]. Qed.
  Lemma fit_problem : suitable h ps us mc ->
    exists mn local, ft_min f = FMin mn local /\ chosen_class h om cons mc (mi_class mn) /\ ft_class f = OLS /\
      let pb := execute_problem h mn DNone DNone in
      pb_x0 pb = (match mi_class mn with DifferentialEvolution => None | _ => Some (map (fun p => p_value (h p)) (free_of_list h ps)) end) /\
      (forall x, List.length x = nfree h ps -> feasible pb x <-> allowed h m (parameter_value h ps x) /\ constraints_hold G sol us Y (parameter_value h ps x)) /\
      (forall x, List.length x = nfree h ps -> obj_value OLS h om (ft_obj f) x [] = Ok (scalar (/ 2 * chi2_for sol m Y Sg (parameter_value h ps x)))) /\
      (kc = KCallable -> forall w, pb_jac pb <> DFun w) /\
      (kc <> KCallable -> ps <> [] -> has_jacobian simp ord2 m -> no_shape_clash G m -> simp_ok simp -> uses_jacobian (mi_class mn) = true -> exists w, pb_jac pb = DFun w /\ forall x, List.length x = nfree h ps -> defined_for G es sol Y (parameter_value h ps x) ->
        exists g, w x = Ok g /\ shp g = [nfree h ps] /\ forall i p, nth_error (free_of_list h ps) i = Some p ->
          derivative_in (fun th => / 2 * chi2_for sol m Y Sg th) (parameter_value h ps x) p (val g [i])).
  Proof using Ho2 Hm Hsol Hg Hkw Hf HG Hoc Har Hcons Hgc Hcg Hgi.
    intros Hsu. destruct (fit_min_made Hsu) as (mn & lc & cls & Hmin & Hcls & Hcc & Hini & Hnm & Hb & Hu). subst cls. exists mn, lc. split; [exact Hmin|]. split; [exact Hcc|]. split; [exact fit_class|].
    cbv zeta. split; [exact (start_is mn lc Hmin Hini)|].
    split; [intros x Hl; exact (feasible_is mn lc (mi_class mn) x Hmin eq_refl Hini Hb Hu Hl)|].
    split; [exact obj_is|]. split; [intros Hk; exact (no_gradient_handed mn Hk Hini)|]. intros Hkc Hne HJ Hsc Hsimp Hgr. destruct (gradient_handed mn lc (fun th => / 2 * chi2_for sol m Y Sg th) Hmin Hini Hnm Hkc Hgr) as (w & Hw & Hr). exists w. split; [exact Hw|]. intros x Hl Hdef.
    destruct (arrays_ls_gradient simp ord1 ord2 es m sol G Ho2 Hm Hsol Hsimp h data kc grid_indep (ft_obj f) x Hne Hkc HJ fit_obj_made grid_dep Hsc some_is Hl (defined_is x Hdef)) as (a & Ha & Hsa & Hda).
    apply (Hr x a Hl); [rewrite fit_class; cbn [obj_jacobian]; rewrite Ha; reflexivity|exists 0%nat; exact Hsa|].
    intros p i k [Hk Hi]. assert (Hii : (i < List.length x)%nat) by (rewrite Hl; unfold nfree; apply nth_error_Some; intros E; unfold free_of_list in E; rewrite Hi in E; discriminate).
    unfold gradient_entry. rewrite Hsa. cbn [List.length Nat.sub repeat app].
    apply (partial_is x p i _ Hi Hii). apply (Hda p i k (conj Hk Hi)).
  Qed.

  Lemma best_fit mn local x popt : suitable h ps us mc -> ft_min f = FMin mn local ->
    minimises (fun z => obj_value OLS h om (ft_obj f) z []) (execute_problem h mn DNone DNone) (nfree h ps) x ->
    pack_output h ps x = Ok popt ->
    allowed h m (reported ps popt) /\ constraints_hold G sol us Y (reported ps popt) /\
    forall theta, allowed h m theta -> constraints_hold G sol us Y theta -> chi2_for sol m Y Sg (reported ps popt) <= chi2_for sol m Y Sg theta.
  Proof using Ho2 Hm Hsol Hg Hkw Hf HG Hoc Har Hcons Hgc Hcg Hgi.
    intros Hsu Hmin (Hl & Hbox & Hbest) Hp. destruct (fit_problem Hsu) as (mn' & lc & Hmin' & _ & _ & Hpb). rewrite Hmin in Hmin'. injection Hmin' as <- <-.
    destruct Hpb as (_ & Hb & Hv & _).
    destruct (best_generic (fun _ => True) (fun r => elem r []) (fun th => / 2 * chi2_for sol m Y Sg th) (execute_problem h mn DNone DNone) x popt) as (H1 & H2 & _ & H3); auto.
    - intros z Hz _. eexists. split; [rewrite fit_class; apply Hv; exact Hz|reflexivity].
    - intros a b Hab. f_equal. apply chi2_ext. exact Hab.
    - intros x' r r' Hl' Hf' _. rewrite fit_class. apply Hbest; assumption.
    - split; [exact H1|]. split; [exact H2|]. intros theta Ha Hc. specialize (H3 theta Ha Hc I). lra.
  Qed.

  (** *** the covariance matrix *)
  Hypothesis Hbare : no_bare_numbers om cons args kw.
  Lemma points_counted : counted_points om (ft_data f) = List.length (indices G).
  Proof using Hg Hkw Hf HG Hbare Hgi.
    destruct HG as (_ & Hd & v0 & Hv0 & Hy0).
    assert (Hst : forall v, In v (m_dep m) -> stored (ft_data f) v = Some (as_given (data_for om cons args kw v))).
    { intros v Hv. destruct (fit_stored toward0 h fm cons o mc absolute Hg args kw f Hkw Hf) as (_ & H & _). apply H. apply in_or_app; auto. }
    assert (Hsh : forall v s, In v (m_dep m) -> In s (match stored (ft_data f) v with Some (DArr a) => [shp a] | _ => [] end) -> s = G).
    { intros v s Hv Hs. rewrite (Hst v Hv) in Hs. destruct (data_for om cons args kw v) as [|r|a|a] eqn:E; cbn [as_given] in Hs; try contradiction;
        (destruct Hs as [<-|[]]; apply (Hd v a Hv); unfold Y, the_data; rewrite E; reflexivity). }
    unfold counted_points, dependent_shapes. change (om_dep om) with (m_dep m). rewrite (dedup_const _ G).
    - cbn [map fold_right]. lia.
    - intros Hn. assert (Hin : In G (concat (map (fun v => match stored (ft_data f) v with Some (DArr a) => [shp a] | _ => [] end) (m_dep m)))); [|rewrite Hn in Hin; exact Hin].
      apply in_concat. exists (match stored (ft_data f) v0 with Some (DArr a) => [shp a] | _ => [] end). split; [apply in_map_iff; exists v0; auto|].
      pose proof (Hsh v0) as Hs0. rewrite (Hst v0 Hv0) in Hs0 |- *. pose proof (fun r => Hbare v0 r (in_or_app _ _ _ (or_intror Hv0))) as Hb.
      unfold Y, the_data in Hy0. destruct (data_for om cons args kw v0) as [|r|a|a] eqn:E; cbn [as_given datum_nd] in *;
        [congruence|exfalso; exact (Hb r eq_refl)|left; apply Hs0; [exact Hv0|left; reflexivity]|left; apply Hs0; [exact Hv0|left; reflexivity]].
    - intros s Hs. apply in_concat in Hs as (l & Hl & Hs). apply in_map_iff in Hl as (v & <- & Hv). exact (Hsh v s Hv Hs).
  Qed.
  Lemma data_proper : proper_data om cons args kw.
  Proof using HG Hbare Hgi.
    split; [|exact Hbare]. intros v Hv Hq. destruct HG as ((_ & _ & Hi) & _). destruct (Hi v Hv) as (a & Ha & _). unfold Y, the_data in Ha. rewrite Hq in Ha. discriminate.
  Qed.

  Lemma fit_covariance inv x : simp_ok simp -> kc = KModel -> ps <> [] -> has_hessian simp ord2 m -> no_shape_clash G m -> inverts inv -> List.length x = nfree h ps ->
    exists popt cov H K, fit_execute inv h om f x = Ok (popt, cov) /\ pack_output h ps x = Ok popt /\
      let n := List.length ps in
      let s2 := variance_scale (ft_absolute f) (chi2_for sol m Y Sg (reported ps popt)) (INR (List.length (indices G)) - INR n) in
      square n H /\ square n K /\
      ((exists C, cov = Some C /\ scaled_inverse n s2 H C) \/ (singular n H /\ inverse_or_none n s2 K cov)) /\
      ((forall p, In p ps -> p_fixed (h p) = false) ->
       (defined_around G es sol Y (reported ps popt) -> symmetric n H /\ forall p q k l, nth_error ps k = Some p -> nth_error ps l = Some q ->
          second_derivative_in (fun th => / 2 * chi2_for sol m Y Sg th) (reported ps popt) p q (mat H k l)) /\
       (defined_for G es sol Y (reported ps popt) -> symmetric n K /\ forall p q k l, nth_error ps k = Some p -> nth_error ps l = Some q ->
          exists Dp Dq, (forall v i, In v (m_dep m) -> In i (indices G) ->
             derivative_in (fun th => sol (at_data Y th i) v) (reported ps popt) p (Dp v i) /\
             derivative_in (fun th => sol (at_data Y th i) v) (reported ps popt) q (Dq v i)) /\
           mat K k l = Rsum (map (fun v => match Y v, Sg v with
             | Some y, Some s => Rsum (map (fun i => Dp v i * Dq v i / elem s i ^ 2) (indices (shp y)))
             | _, _ => 0 end) (m_dep m)))).
  Proof using Ho2 Hm Hsol Hg Hkw Hf HG Hoc Hbare Hgi.
    intros Hsimp Hkm Hne HH Hsc Hinv Hl. assert (Hcls : kc <> KCallable) by (rewrite Hkm; discriminate). destruct HH as (HI & HHI & HnH).
    destruct (H_gives_J simp ord1 ord2 es m HI Hsimp Ho2 Hm HHI HnH) as (J & solJ & solH & HJ & HnJ & HsJ & HsH).
    destruct (reported_reproduce h om data false (ft_obj f) x (om_interface simp ord1 ord2 es m m (built_self ord1 es m Hm) kc) (om_of_by_keyword _ _ _ _) fit_obj_made Hl) as (popt & Hp & Hev).
    assert (Hlv : full_vector h m x) by exact Hl. change (om_params om) with ps in Hp, Hev.
    pose proof (value_ok simp ord1 ord2 es m m Ho2 (built_self ord1 es m Hm) sol Hsol h data G kc grid_indep x Hlv) as V.
    pose proof (jacobian_ok simp ord1 ord2 es m m Hsimp Ho2 (built_self ord1 es m Hm) sol Hsol h data G kc grid_indep J solJ HJ (apart_J simp ord1 ord2 es m J Hsimp Ho2 Hm HJ HnJ) HsJ Hne Hcls x grid_dep Hsc Hlv) as [(fj & Hfj & Aj) Sj].
    pose proof (hessian_ok simp ord1 ord2 es m m Hsimp Ho2 (built_self ord1 es m Hm) sol Hsol h data G kc grid_indep J HJ Hne HI solH HHI (apart_H simp ord1 ord2 es m J HI Hsimp Ho2 Hm HJ HHI HnH) HsH Hkm x grid_dep Hsc Hlv) as [(fh & Hfh & Ah) Sh].
    set (out := out_at ord2 m h data x) in *. set (jac := jac_at simp ord2 m h data x) in *. set (hess := hess_at simp ord2 m h data x) in *.
    pose proof (out_spec ord1 ord2 es m m Ho2 (built_self ord1 es m Hm) sol Hsol h data G grid_indep x) as Vs. fold out in Vs.
    assert (Hevd : evaluated h om data popt out jac).
    { split; [apply (answers_at _ x popt _ Hl Hp V)|]. split; [exact (value_fits simp ord1 ord2 es m m (built_self ord1 es m Hm) sol h data G kc x out grid_dep Vs)|]. split; [|exact some_is].
      split; [exists fj; split; [exact Hfj|exact (answers_at _ x popt _ Hl Hp Aj)]|exact Sj]. }
    assert (Hhd : with_hessian h om data popt out hess) by (split; [exists fh; split; [exact Hfh|exact (answers_at _ x popt _ Hl Hp Ah)]|exact Sh]).
    assert (Hcal : callable om) by (split; [exact (om_interface simp ord1 ord2 es m m (built_self ord1 es m Hm) kc)|apply om_of_by_keyword]).
    assert (Hls : least_squares o (ft_class f)) by (split; [intros c ob E; destruct Hoc as [[Eo|Eo] _]; rewrite Eo in E; discriminate|left; exact fit_class]).
    destruct (fit_covariance_exact inv toward0 h fm cons o mc absolute args kw f Hg Hkw Hf data_proper x popt out jac Hinv Hcal Hls Hp Hevd hess fit_class Hhd)
      as (H & K & cov & EH & SH & EK & SK & Ex & Hc).
    change (om_params (fm_om fm)) with ps in *. change (fm_om fm) with om in *.
    exists popt, cov, H, K. split; [exact Ex|]. split; [exact Hp|]. cbv zeta. split; [exact SH|]. split; [exact SK|].
    assert (Hrep : forall p, In p ps -> parameter_value h ps x p = reported ps popt p) by (intros p Hin; symmetry; apply reported_is; assumption).
    split.
    { assert (Es : s_squared (ft_absolute f) om data out (counted_points om (ft_data f)) =
        variance_scale (ft_absolute f) (chi2_for sol m Y Sg (reported ps popt)) (INR (List.length (indices G)) - INR (List.length ps))); [|rewrite <- Es; exact Hc].
      unfold s_squared. rewrite points_counted. f_equal. pose proof (half_chi2_predicted simp ord1 ord2 es m m (built_self ord1 es m Hm) sol h data G kc x out grid_dep Vs) as E. rewrite half_is in E. unfold half_chi2 in E.
      rewrite (chi2_ext _ _ Hrep) in E. lra. }
    intros Hfree. change (fm_om fm) with om in EH, EK.
    pose proof (f_equal r_lsh Hev) as E1. cbn [r_lsh evaluate] in E1. change (ls_hess h om (ft_obj f) [] (named_values om popt) = ls_hess h om (ft_obj f) x []) in E1. rewrite EH in E1.
    pose proof (f_equal r_lsa Hev) as E2. cbn [r_lsa evaluate] in E2. change (ls_hess_approx h om (ft_obj f) [] (named_values om popt) = ls_hess_approx h om (ft_obj f) x []) in E2. rewrite EK in E2.
    assert (Hall : free_of_list h ps = ps).
    { unfold free_of_list. clear -Hfree. induction ps as [|p l IH]; [reflexivity|]. cbn [filter]. rewrite (Hfree p (or_introl eq_refl)). cbn [negb]. f_equal. apply IH. intros q Hq. apply Hfree. right; exact Hq. }
    assert (Hfr : forall p k, nth_error ps k = Some p -> ArrObj.free_at m h p k /\ (k < List.length x)%nat /\ free_parameter h m p k k).
    { intros p k Hk. assert (Hf1 : ArrObj.free_at m h p k) by (unfold ArrObj.free_at; change (filter (fun q => negb (p_fixed (h q))) ps) with (free_of_list h ps); rewrite Hall; exact Hk).
      split; [exact Hf1|]. split; [rewrite Hl; unfold nfree; rewrite Hall; apply nth_error_Some; rewrite Hk; discriminate|split; [exact Hk|exact Hf1]]. }
    split.
    - intros Hdef.
      assert (Hdn : defined_near G es sol h m data x).
      { apply near_is. destruct Hdef as (eps & Hpos & Hdef). exists eps. split; [exact Hpos|]. intros th Hth i k e Hi He.
        pose (th' := fun p => if in_dec eq_dec p ps then th p else reported ps popt p).
        refine (defined_same _ _ k e _ He (Hdef th' _ i k e Hi He)).
        - intros s Hs. apply at_same; [|exact Hs]. intros p Hpp. unfold th'. destruct (in_dec eq_dec p ps); [reflexivity|contradiction].
        - intros p. unfold th'. destruct (in_dec eq_dec p ps) as [Hpp|_]; [rewrite <- Hrep by exact Hpp; apply Hth|rewrite Rminus_eq_0, Rabs_R0; exact Hpos]. }
      destruct (arrays_ls_hessian simp ord1 ord2 es m sol G Ho2 Hm Hsol Hsimp h data kc grid_indep (ft_obj f) x Hne Hkm (ex_intro _ HI (conj HHI HnH)) fit_obj_made grid_dep Hsc some_is Hlv Hdn) as (g & Eg & _ & Dg & Sg').
      rewrite Eg in E1. injection E1 as ->. split; [intros k l Hk Hl'; unfold mat; apply Sg'; assumption|]. intros p q k l Hk Hl'.
      destruct (Hfr p k Hk) as (F1 & F2 & F3). destruct (Hfr q l Hl') as (F4 & F5 & F6).
      assert (Emat : mat g k l = mat g l k) by (unfold mat; apply Sg'; apply nth_error_Some; [rewrite Hk|rewrite Hl']; discriminate). rewrite Emat. unfold mat.
      apply (second_ext _ (parameter_value h ps x)); [eapply nth_error_In; exact Hk|eapply nth_error_In; exact Hl'|intros a b Hab; f_equal; apply chi2_ext; exact Hab|exact Hrep|].
      apply (second_is x p k q l _ F1 F4 F2 F5). exact (Dg q l l p k k F6 F3).
    - intros Hdef.
      assert (Hdn : defined_at G es sol h m data x).
      { apply defined_is. intros i k e Hi He. refine (defined_same _ _ k e _ He (Hdef i k e Hi He)). intros s Hs. apply at_same; [|exact Hs]. intros p Hpp. symmetry. apply Hrep. exact Hpp. }
      destruct (arrays_ls_approx simp ord1 ord2 es m sol G Ho2 Hm Hsol Hsimp h data kc grid_indep (ft_obj f) x Hne Hcls (ex_intro _ J (conj HJ HnJ)) fit_obj_made grid_dep Hsc some_is Hlv Hdn) as (g & Eg & _ & Dg & Sg' & _).
      rewrite Eg in E2. injection E2 as ->. split; [intros k l Hk Hl'; unfold mat; apply Sg'; assumption|]. intros p q k l Hk Hl'.
      destruct (Hfr p k Hk) as (F1 & F2 & F3). destruct (Hfr q l Hl') as (F4 & F5 & F6). destruct (Dg p k k q l l F3 F6) as (Dp & Dq & HD & Eg').
      exists Dp, Dq. split.
      + intros v i Hv Hi. destruct (HD v i Hv Hi) as [D1 D2].
        assert (Hloc : forall a b, (forall r, In r ps -> a r = b r) -> sol (at_data Y a i) v = sol (at_data Y b i) v).
        { intros a b Hab. apply sol_ext; [intros s Hs; apply at_same; assumption|left; exact (dep_key ord1 es m m (built_self ord1 es m Hm) v Hv)]. }
        split; [apply (derivative_ext _ (parameter_value h ps x)); [eapply nth_error_In; exact Hk|exact Hloc|exact Hrep|exact (predicted_partial x p k v i _ F1 F2 Hv D1)]
               |apply (derivative_ext _ (parameter_value h ps x)); [eapply nth_error_In; exact Hl'|exact Hloc|exact Hrep|exact (predicted_partial x q l v i _ F4 F5 Hv D2)]].
      + unfold mat. rewrite Eg'. apply Rsum_ext. intros v Hv. rewrite observed_is by (apply in_or_app; auto). rewrite sigma_is by exact Hv. reflexivity.
  Qed.
  End LS.

  (** *** without the second derivatives of the model *)
  Section Approx.
  Hypothesis HG : data_on_grid G m Y Sg.
  Hypothesis Hbare : no_bare_numbers om cons args kw.
  Hypothesis Hob : obj_init false om data = Ok (ft_obj f).
  Hypothesis Hls : least_squares o (ft_class f).
  Definition approx_result (inv : nd -> res nd) (x : list R) : Prop :=
    exists popt cov K, fit_execute inv h om f x = Ok (popt, cov) /\ pack_output h ps x = Ok popt /\
      let n := List.length ps in
      let s2 := variance_scale (ft_absolute f) (chi2_for sol m Y Sg (reported ps popt)) (INR (List.length (indices G)) - INR n) in
      square n K /\ inverse_or_none n s2 K cov /\
      ((forall p, In p ps -> p_fixed (h p) = false) ->
       (defined_for G es sol Y (reported ps popt) -> symmetric n K /\ forall p q k l, nth_error ps k = Some p -> nth_error ps l = Some q ->
          exists Dp Dq, (forall v i, In v (m_dep m) -> In i (indices G) ->
             derivative_in (fun th => sol (at_data Y th i) v) (reported ps popt) p (Dp v i) /\
             derivative_in (fun th => sol (at_data Y th i) v) (reported ps popt) q (Dq v i)) /\
           mat K k l = Rsum (map (fun v => match Y v, Sg v with
             | Some y, Some s => Rsum (map (fun i => Dp v i * Dq v i / elem s i ^ 2) (indices (shp y)))
             | _, _ => 0 end) (m_dep m)))).
  Section Jac.
  Hypothesis Hcase : ft_class f = OVLS \/ om_hess om = None.
  Lemma approx_covariance inv x : simp_ok simp -> kc <> KCallable -> ps <> [] -> has_jacobian simp ord2 m -> no_shape_clash G m -> inverts inv -> List.length x = nfree h ps ->
    approx_result inv x.
  Proof using Ho2 Hm Hsol Hg Hkw Hf HG Hbare Hgi Hob Hls Hcase.
    intros Hsimp Hcls Hne (J & HJ & HnJ) Hsc Hinv Hl.
    destruct (solJ_exists simp ord1 ord2 es m J Hsimp Ho2 Hm HJ HnJ) as (solJ & HsJ).
    destruct (reported_reproduce h om data false (ft_obj f) x (om_interface simp ord1 ord2 es m m (built_self ord1 es m Hm) kc) (om_of_by_keyword _ _ _ _) Hob Hl) as (popt & Hp & Hev).
    assert (Hlv : full_vector h m x) by exact Hl. change (om_params om) with ps in Hp, Hev.
    pose proof (value_ok simp ord1 ord2 es m m Ho2 (built_self ord1 es m Hm) sol Hsol h data G kc grid_indep x Hlv) as V.
    pose proof (jacobian_ok simp ord1 ord2 es m m Hsimp Ho2 (built_self ord1 es m Hm) sol Hsol h data G kc grid_indep J solJ HJ (apart_J simp ord1 ord2 es m J Hsimp Ho2 Hm HJ HnJ) HsJ Hne Hcls x (grid_dep HG) Hsc Hlv) as [(fj & Hfj & Aj) Sj].
    set (out := out_at ord2 m h data x) in *. set (jac := jac_at simp ord2 m h data x) in *.
    pose proof (out_spec ord1 ord2 es m m Ho2 (built_self ord1 es m Hm) sol Hsol h data G grid_indep x) as Vs. fold out in Vs.
    assert (Hevd : evaluated h om data popt out jac).
    { split; [apply (answers_at _ x popt _ Hl Hp V)|]. split; [exact (value_fits simp ord1 ord2 es m m (built_self ord1 es m Hm) sol h data G kc x out (grid_dep HG) Vs)|]. split; [|exact (some_is HG)].
      split; [exists fj; split; [exact Hfj|exact (answers_at _ x popt _ Hl Hp Aj)]|exact Sj]. }
    assert (Hcal : callable om) by (split; [exact (om_interface simp ord1 ord2 es m m (built_self ord1 es m Hm) kc)|apply om_of_by_keyword]).
    destruct (fit_covariance_approx inv toward0 h fm cons o mc absolute args kw f Hg Hkw Hf (data_proper HG Hbare) x popt out jac Hinv Hcal Hls Hp Hevd Hcase)
      as (K & cov & EK & SK & Ex & Hc).
    change (om_params (fm_om fm)) with ps in *. change (fm_om fm) with om in *.
    exists popt, cov, K. split; [exact Ex|]. split; [exact Hp|]. cbv zeta. split; [exact SK|].
    assert (Hrep : forall p, In p ps -> parameter_value h ps x p = reported ps popt p) by (intros p Hin; symmetry; apply reported_is; assumption).
    split.
    { assert (Es : s_squared (ft_absolute f) om data out (counted_points om (ft_data f)) =
        variance_scale (ft_absolute f) (chi2_for sol m Y Sg (reported ps popt)) (INR (List.length (indices G)) - INR (List.length ps))); [|rewrite <- Es; exact Hc].
      unfold s_squared. rewrite (points_counted HG Hbare). f_equal. pose proof (half_chi2_predicted simp ord1 ord2 es m m (built_self ord1 es m Hm) sol h data G kc x out (grid_dep HG) Vs) as E. rewrite half_is in E. unfold half_chi2 in E.
      rewrite (chi2_ext _ _ Hrep) in E. lra. }
    intros Hfree. change (fm_om fm) with om in EK.
    pose proof (f_equal r_lsa Hev) as E2. cbn [r_lsa evaluate] in E2. change (ls_hess_approx h om (ft_obj f) [] (named_values om popt) = ls_hess_approx h om (ft_obj f) x []) in E2. rewrite EK in E2.
    assert (Hall : free_of_list h ps = ps).
    { unfold free_of_list. clear -Hfree. induction ps as [|p l IH]; [reflexivity|]. cbn [filter]. rewrite (Hfree p (or_introl eq_refl)). cbn [negb]. f_equal. apply IH. intros q Hq. apply Hfree. right; exact Hq. }
    assert (Hfr : forall p k, nth_error ps k = Some p -> ArrObj.free_at m h p k /\ (k < List.length x)%nat /\ free_parameter h m p k k).
    { intros p k Hk. assert (Hf1 : ArrObj.free_at m h p k) by (unfold ArrObj.free_at; change (filter (fun q => negb (p_fixed (h q))) ps) with (free_of_list h ps); rewrite Hall; exact Hk).
      split; [exact Hf1|]. split; [rewrite Hl; unfold nfree; rewrite Hall; apply nth_error_Some; rewrite Hk; discriminate|split; [exact Hk|exact Hf1]]. }
    intros Hdef.
      assert (Hdn : defined_at G es sol h m data x).
      { apply defined_is. intros i k e Hi He. refine (defined_same _ _ k e _ He (Hdef i k e Hi He)). intros s Hs. apply at_same; [|exact Hs]. intros p Hpp. symmetry. apply Hrep. exact Hpp. }
      destruct (arrays_ls_approx simp ord1 ord2 es m sol G Ho2 Hm Hsol Hsimp h data kc grid_indep (ft_obj f) x Hne Hcls (ex_intro _ J (conj HJ HnJ)) Hob (grid_dep HG) Hsc (some_is HG) Hlv Hdn) as (g & Eg & _ & Dg & Sg' & _).
      rewrite Eg in E2. injection E2 as ->. split; [intros k l Hk Hl'; unfold mat; apply Sg'; assumption|]. intros p q k l Hk Hl'.
      destruct (Hfr p k Hk) as (F1 & F2 & F3). destruct (Hfr q l Hl') as (F4 & F5 & F6). destruct (Dg p k k q l l F3 F6) as (Dp & Dq & HD & Eg').
      exists Dp, Dq. split.
      + intros v i Hv Hi. destruct (HD v i Hv Hi) as [D1 D2].
        assert (Hloc : forall a b, (forall r, In r ps -> a r = b r) -> sol (at_data Y a i) v = sol (at_data Y b i) v).
        { intros a b Hab. apply sol_ext; [intros s Hs; apply at_same; assumption|left; exact (dep_key ord1 es m m (built_self ord1 es m Hm) v Hv)]. }
        split; [apply (derivative_ext _ (parameter_value h ps x)); [eapply nth_error_In; exact Hk|exact Hloc|exact Hrep|exact (predicted_partial x p k v i _ F1 F2 Hv D1)]
               |apply (derivative_ext _ (parameter_value h ps x)); [eapply nth_error_In; exact Hl'|exact Hloc|exact Hrep|exact (predicted_partial x q l v i _ F4 F5 Hv D2)]].
      + unfold mat. rewrite Eg'. apply Rsum_ext. intros v Hv. rewrite observed_is by (apply in_or_app; auto). rewrite sigma_is by exact Hv. reflexivity.
  Qed.
  End Jac.
  Lemma no_covariance inv x : kc = KCallable -> List.length x = nfree h ps -> exists popt, pack_output h ps x = Ok popt /\ fit_execute inv h om f x = Ok (popt, None).
  Proof using Ho2 Hm Hsol Hg Hkw Hf HG Hbare Hgi Hob Hls.
    intros Hk Hl. destruct (reported_reproduce h om data false (ft_obj f) x (om_interface simp ord1 ord2 es m m (built_self ord1 es m Hm) kc) (om_of_by_keyword _ _ _ _) Hob Hl) as (popt & Hp & _).
    assert (Hlv : full_vector h m x) by exact Hl. change (om_params om) with ps in Hp. exists popt. split; [exact Hp|].
    pose proof (value_ok simp ord1 ord2 es m m Ho2 (built_self ord1 es m Hm) sol Hsol h data G kc grid_indep x Hlv) as V.
    set (out := out_at ord2 m h data x) in *.
    pose proof (out_spec ord1 ord2 es m m Ho2 (built_self ord1 es m Hm) sol Hsol h data G grid_indep x) as Vs. fold out in Vs.
    assert (Hcal : callable om) by (split; [exact (om_interface simp ord1 ord2 es m m (built_self ord1 es m Hm) kc)|apply om_of_by_keyword]).
    pose proof (fit_created toward0 h fm cons o mc absolute args kw f Hg Hkw Hf (data_proper HG Hbare) popt Hcal Hls) as Hcr. fold data in Hcr. change (fm_om fm) with om in Hcr.
    assert (Hb : base_call h om (ft_obj f) [] (named_values om popt) = Ok (map (ObjLeast.at_level om (ft_obj f) 0 out) (om_dep om))).
    { apply (ObjLeast.base_value h om data (ft_obj f) (named_values om popt) Hcr [] out); [exact (answers_at _ x popt out Hl Hp V)|exact (value_fits simp ord1 ord2 es m m (built_self ord1 es m Hm) sol h data G kc x out (grid_dep HG) Vs)]. }
    pose proof (om_jac_none kc simp ord2 m Hk) as Hj.
    assert (Hr : forall hs, ls_hess_with hs h om (ft_obj f) [] (named_values om popt) = Raise AttributeError).
    { intros hs. unfold ls_hess_with. rewrite Hb. cbn [bind]. unfold base_jac. rewrite Hj. reflexivity. }
    assert (Hd : ob_data (ft_obj f) = data) by (apply (obj_init_inv _ _ _ _ Hob)).
    unfold fit_execute. change (om_params om) with ps. rewrite Hp. cbn [bind]. unfold covariance.
    assert (H2 : cov_second inv h om (ft_data f) (ft_absolute f) OLS (ft_obj f) popt = Ok None).
    { unfold cov_second. rewrite Hd, Hob. cbn [bind]. unfold ls_hess_approx. rewrite Hr. reflexivity. }
    destruct (proj2 Hls) as [E|E]; rewrite E.
    - unfold cov_first. cbn [obj_hessian]. unfold ls_hess. rewrite Hr. cbn [bind cov_of]. rewrite H2. reflexivity.
    - unfold cov_first. cbn [obj_hessian bind cov_of]. change (cov_second inv h om (ft_data f) (ft_absolute f) OVLS (ft_obj f) popt) with (cov_second inv h om (ft_data f) (ft_absolute f) OLS (ft_obj f) popt). rewrite H2. reflexivity.
  Qed.
  End Approx.
  Lemma grad_covariance inv x : data_on_grid G m Y Sg -> objective_chosen o mc OLS -> no_bare_numbers om cons args kw ->
    simp_ok simp -> kc = KGradient -> ps <> [] -> has_jacobian simp ord2 m -> no_shape_clash G m -> inverts inv -> List.length x = nfree h ps ->
    approx_result inv x.
  Proof using Ho2 Hm Hsol Hg Hkw Hf Hgi.
    intros HG Hoc Hbare Hsimp Hk. assert (Hcls : kc <> KCallable) by (rewrite Hk; discriminate). assert (Hkm : kc <> KModel) by (rewrite Hk; discriminate).
    refine (approx_covariance HG Hbare (fit_obj_made HG Hoc) _ (or_intror (om_hess_none kc simp ord2 m Hkm)) inv x Hsimp Hcls).
    split; [intros c ob E; destruct Hoc as [[Eo|Eo] _]; rewrite Eo in E; discriminate|left; exact (fit_class HG Hoc)].
  Qed.
  Lemma call_covariance inv x : data_on_grid G m Y Sg -> objective_chosen o mc OLS -> no_bare_numbers om cons args kw ->
    kc = KCallable -> List.length x = nfree h ps -> exists popt, pack_output h ps x = Ok popt /\ fit_execute inv h om f x = Ok (popt, None).
  Proof using Ho2 Hm Hsol Hg Hkw Hf Hgi.
    intros HG Hoc Hbare Hk Hl. apply (no_covariance HG Hbare (fit_obj_made HG Hoc)); [|exact Hk|exact Hl].
    split; [intros c ob E; destruct Hoc as [[Eo|Eo] _]; rewrite Eo in E; discriminate|left; exact (fit_class HG Hoc)].
  Qed.

  (** *** LogLikelihood *)
  Section LL.
  Hypothesis Hoc : o = OClass OLL.
  Hypothesis Hcov : covers_data G es m Y.
  Lemma ll_class : ft_class f = OLL.
  Proof using Hg Hkw Hf Hoc. exact (proj1 (explicit_objective toward0 h fm cons mc absolute args kw Hg Hkw o OLL f Hf (or_introl Hoc))). Qed.
  Lemma ll_made : obj_init true om data = Ok (ft_obj f).
  Proof using Hg Hkw Hf Hoc. destruct (fit_init_inv toward0 h fm cons o mc absolute args kw f Hf) as (t & _ & _ & _ & H & _). rewrite ll_class in H. rewrite Hoc in H. exact H. Qed.
  Lemma covers_is : covers_grid G es m data.
  Proof using Hg Hkw Hf Hgi Hcov.
    split; [apply Hgi|]. intros v Hv. destruct Hcov as [_ H]. destruct (H v Hv) as (x & a & H1 & H2 & H3 & H4). exists x, a. split; [exact H1|]. split; [exact H2|]. split; [|exact H4].
    rewrite data_is by (apply in_or_app; auto). rewrite H3. reflexivity.
  Qed.
  Lemma point_ext a b i v : In v (m_dep m) -> (forall p, In p ps -> a p = b p) -> sol (at_data Y a i) v = sol (at_data Y b i) v.
  Proof using Hm Hsol. intros Hv H. apply sol_ext; [intros t Ht; apply at_same; assumption|left; exact (dep_key ord1 es m m (built_self ord1 es m Hm) v Hv)]. Qed.
  Lemma predicted_is x v i : In v (m_dep m) -> predicted sol h ps data x v i = sol (at_data Y (parameter_value h ps x) i) v.
  Proof using Hm Hsol Hg Hkw Hf. intros Hv. unfold predicted. apply sol_ext; [intros t Ht; apply at_input; exact Ht|left; exact (dep_key ord1 es m m (built_self ord1 es m Hm) v Hv)]. Qed.
  Lemma logl_ext a b : (forall p, In p ps -> a p = b p) -> log_likelihood G sol m Y a = log_likelihood G sol m Y b.
  Proof using Hm Hsol. intros H. unfold log_likelihood. apply Rsum_ext. intros v Hv. apply Rsum_ext. intros i _. f_equal. apply point_ext; assumption. Qed.
  Lemma pos_ext a b : (forall p, In p ps -> a p = b p) -> positive_for G sol m Y a -> positive_for G sol m Y b.
  Proof using Hm Hsol. intros H Hp v i Hv Hi. rewrite <- (point_ext a b i v Hv H). apply Hp; assumption. Qed.
  Lemma logl_is x : minus_log_likelihood G sol h m data x = - log_likelihood G sol m Y (parameter_value h ps x).
  Proof using Hm Hsol Hg Hkw Hf. unfold minus_log_likelihood, log_likelihood. f_equal. apply Rsum_ext. intros v Hv. apply Rsum_ext. intros i _. f_equal. apply predicted_is. exact Hv. Qed.
  Lemma pos_is x : positive_for G sol m Y (parameter_value h ps x) -> positive_at G sol h m data x.
  Proof using Hm Hsol Hg Hkw Hf. intros H v i Hv Hi. rewrite predicted_is by exact Hv. apply H; assumption. Qed.
  Lemma ll_value_is x : full_vector h m x -> obj_value OLL h om (ft_obj f) x [] = Ok (scalar (- log_likelihood G sol m Y (parameter_value h ps x))).
  Proof using Ho2 Hm Hsol Hg Hkw Hf Hgi Hoc Hcov.
    intros Hl. cbn [obj_value]. rewrite (model_ll_value simp ord1 ord2 es m m Ho2 (built_self ord1 es m Hm) sol Hsol h data G kc grid_indep (ft_obj f) x ll_made covers_is Hl). cbn [bind]. rewrite logl_is. reflexivity.
  Qed.
  Lemma Rprod_pos l : (forall x, In x l -> 0 < x) -> 0 < Rprod l /\ ln (Rprod l) = Rsum (map ln l).
  Proof using.
    induction l as [|x l IH]; intros H; cbn; [split; [lra|apply ln_1]|]. destruct IH as [H1 H2]; [intros y Hy; apply H; right; exact Hy|].
    assert (Hx : 0 < x) by (apply H; left; reflexivity). split; [apply Rmult_lt_0_compat; assumption|]. unfold Rprod in *. rewrite ln_mult by assumption. rewrite H2. reflexivity.
  Qed.
  Lemma likelihood_log th : positive_for G sol m Y th -> 0 < likelihood G sol m Y th /\ ln (likelihood G sol m Y th) = log_likelihood G sol m Y th.
  Proof using.
    intros Hp. unfold likelihood, log_likelihood.
    assert (Hin : forall v, In v (m_dep m) -> 0 < Rprod (map (fun i => sol (at_data Y th i) v) (indices G)) /\
      ln (Rprod (map (fun i => sol (at_data Y th i) v) (indices G))) = Rsum (map (fun i => ln (sol (at_data Y th i) v)) (indices G))).
    { intros v Hv. destruct (Rprod_pos (map (fun i => sol (at_data Y th i) v) (indices G))) as [H1 H2]; [intros x Hx; apply in_map_iff in Hx as (i & <- & Hi); apply Hp; assumption|].
      split; [exact H1|]. rewrite H2, map_map. reflexivity. }
    destruct (Rprod_pos (map (fun v => Rprod (map (fun i => sol (at_data Y th i) v) (indices G))) (m_dep m))) as [H1 H2].
    { intros x Hx. apply in_map_iff in Hx as (v & <- & Hv). apply Hin. exact Hv. }
    split; [exact H1|]. rewrite H2, map_map. apply Rsum_ext. intros v Hv. apply Hin. exact Hv.
  Qed.
  Lemma ll_problem : suitable h ps us mc ->
    exists mn local, ft_min f = FMin mn local /\ chosen_class h om cons mc (mi_class mn) /\ ft_class f = OLL /\
      let pb := execute_problem h mn DNone DNone in
      pb_x0 pb = (match mi_class mn with DifferentialEvolution => None | _ => Some (map (fun p => p_value (h p)) (free_of_list h ps)) end) /\
      (forall x, List.length x = nfree h ps -> feasible pb x <-> allowed h m (parameter_value h ps x) /\ constraints_hold G sol us Y (parameter_value h ps x)) /\
      (forall x, List.length x = nfree h ps -> positive_for G sol m Y (parameter_value h ps x) ->
         obj_value OLL h om (ft_obj f) x [] = Ok (scalar (- log_likelihood G sol m Y (parameter_value h ps x)))) /\
      (kc = KCallable -> forall w, pb_jac pb <> DFun w) /\
      (kc <> KCallable -> ps <> [] -> has_jacobian simp ord2 m -> simp_ok simp -> uses_jacobian (mi_class mn) = true -> exists w, pb_jac pb = DFun w /\ forall x, List.length x = nfree h ps ->
        positive_for G sol m Y (parameter_value h ps x) -> defined_for G es sol Y (parameter_value h ps x) ->
        exists g, w x = Ok g /\ shp g = [nfree h ps] /\ forall i p, nth_error (free_of_list h ps) i = Some p ->
          derivative_in (fun th => - log_likelihood G sol m Y th) (parameter_value h ps x) p (val g [i])).
  Proof using Ho2 Hm Hsol Hg Hkw Hf Hgi Hoc Hcov Har Hcons Hgc Hcg.
    intros Hsu. destruct (fit_min_made Hsu) as (mn & lc & cls & Hmin & Hcls & Hcc & Hini & Hnm & Hb & Hu). subst cls. exists mn, lc. split; [exact Hmin|]. split; [exact Hcc|]. split; [exact ll_class|].
    cbv zeta. split; [exact (start_is mn lc Hmin Hini)|].
    split; [intros x Hl; exact (feasible_is mn lc (mi_class mn) x Hmin eq_refl Hini Hb Hu Hl)|].
    split; [intros x Hl _; exact (ll_value_is x Hl)|]. split; [intros Hk; exact (no_gradient_handed mn Hk Hini)|]. intros Hkc Hne HJ Hsimp Hgr. destruct (gradient_handed mn lc (fun th => - log_likelihood G sol m Y th) Hmin Hini Hnm Hkc Hgr) as (w & Hw & Hr). exists w. split; [exact Hw|]. intros x Hl Hpos Hdef.
    destruct (arrays_ll_gradient simp ord1 ord2 es m sol G Ho2 Hm Hsol Hsimp h data kc grid_indep (ft_obj f) x Hne Hkc HJ ll_made covers_is (proj1 Hcov) Hl (pos_is x Hpos) (defined_is x Hdef)) as (a & Ha & Hsa & Hda).
    apply (Hr x a Hl); [rewrite ll_class; cbn [obj_jacobian]; rewrite Ha; reflexivity|exists 0%nat; exact Hsa|].
    intros p i k [Hk Hi]. assert (Hii : (i < List.length x)%nat) by (rewrite Hl; unfold nfree; apply nth_error_Some; intros E; unfold free_of_list in E; rewrite Hi in E; discriminate).
    unfold gradient_entry. rewrite Hsa. cbn [List.length Nat.sub repeat app].
    apply (partial_gen (fun th => - log_likelihood G sol m Y th) (minus_log_likelihood G sol h m data) x p i); [intros a0 b H; f_equal; apply logl_ext; exact H|exact logl_is|exact Hi|exact Hii|]. apply (Hda p i k (conj Hk Hi)).
  Qed.
  Lemma ll_best mn local x popt : suitable h ps us mc -> ft_min f = FMin mn local ->
    minimises_among (fun z => positive_for G sol m Y (parameter_value h ps z)) (fun z => obj_value OLL h om (ft_obj f) z []) (execute_problem h mn DNone DNone) (nfree h ps) x ->
    pack_output h ps x = Ok popt ->
    allowed h m (reported ps popt) /\ constraints_hold G sol us Y (reported ps popt) /\ positive_for G sol m Y (reported ps popt) /\
    forall theta, allowed h m theta -> constraints_hold G sol us Y theta -> positive_for G sol m Y theta -> likelihood G sol m Y theta <= likelihood G sol m Y (reported ps popt).
  Proof using Ho2 Hm Hsol Hg Hkw Hf Hgi Hoc Hcov Har Hcons Hgc Hcg.
    intros Hsu Hmin (Hl & Hbox & Hcx & Hbest) Hp. destruct (ll_problem Hsu) as (mn' & lc & Hmin' & _ & _ & Hpb). rewrite Hmin in Hmin'. injection Hmin' as <- <-.
    destruct Hpb as (_ & Hb & Hv & _).
    destruct (best_generic (positive_for G sol m Y) (fun r => elem r []) (fun th => - log_likelihood G sol m Y th) (execute_problem h mn DNone DNone) x popt) as (H1 & H2 & H3 & H4); auto.
    - intros z Hz Hpz. eexists. split; [rewrite ll_class; apply Hv; assumption|reflexivity].
    - intros a b Hab. f_equal. apply logl_ext. exact Hab.
    - exact pos_ext.
    - intros x' r r' Hl' Hf' Hc'. rewrite ll_class. apply Hbest; assumption.
    - split; [exact H1|]. split; [exact H2|]. split; [exact H3|]. intros theta Ha Hc Hpt. specialize (H4 theta Ha Hc Hpt).
      destruct (likelihood_log _ H3) as [L1 L2]. destruct (likelihood_log _ Hpt) as [L3 L4]. rewrite <- L2, <- L4 in H4.
      destruct (Rle_lt_dec (likelihood G sol m Y theta) (likelihood G sol m Y (reported ps popt))) as [Hle|Hlt]; [exact Hle|]. pose proof (ln_increasing _ _ L1 Hlt). lra.
  Qed.
  Lemma ll_given v : In v (om_indep om) -> data_for om cons args kw v <> DataNone.
  Proof using Hgi. intros Hv E. destruct Hgi as (_ & _ & H). destruct (H v Hv) as (a & Ea & _). unfold Y, the_data in Ea. rewrite E in Ea. discriminate. Qed.
  Lemma ll_covariance inv x : simp_ok simp -> kc = KModel -> ps <> [] -> has_hessian simp ord2 m -> inverts inv -> List.length x = nfree h ps ->
    positive_for G sol m Y (parameter_value h ps x) -> defined_around G es sol Y (parameter_value h ps x) ->
    exists popt H K cov, pack_output h ps x = Ok popt /\ square (List.length ps) H /\ symmetric (List.length ps) H /\ square (List.length ps) K /\
      fit_execute inv h om f x = Ok (popt, cov) /\
      ((exists C, cov = Some C /\ inverse_of (List.length ps) H C) \/ (singular (List.length ps) H /\ inverse_or_none (List.length ps) 1 K cov)) /\
      ((forall p, In p ps -> p_fixed (h p) = false) -> forall p q k l, nth_error ps k = Some p -> nth_error ps l = Some q ->
         second_derivative_in (fun th => - log_likelihood G sol m Y th) (reported ps popt) p q (mat H k l) /\
         exists Dp Dq, (forall v i, In v (m_dep m) -> In i (indices G) ->
             derivative_in (fun th => sol (at_data Y th i) v) (reported ps popt) p (Dp v i) /\
             derivative_in (fun th => sol (at_data Y th i) v) (reported ps popt) q (Dq v i)) /\
           mat K k l = Rsum (map (fun v => Rsum (map (fun i => Dp v i * Dq v i / sol (at_data Y (reported ps popt) i) v ^ 2) (indices G))) (m_dep m))).
  Proof using Ho2 Hm Hsol Hg Hkw Hf Hgi Hoc Hcov.
    intros Hsimp Hkm Hne HH Hinv Hl Hpos Hdef. assert (Hcls : kc <> KCallable) by (rewrite Hkm; discriminate).
    destruct (reported_reproduce h om data true (ft_obj f) x (om_interface simp ord1 ord2 es m m (built_self ord1 es m Hm) kc) (om_of_by_keyword _ _ _ _) ll_made Hl) as (popt & Hp & Hev).
    change (om_params om) with ps in Hp, Hev.
    destruct (arrays_ll_hessian simp ord1 ord2 es m sol G Ho2 Hm Hsol Hsimp h data kc grid_indep (ft_obj f) x Hne Hkm HH ll_made covers_is (proj1 Hcov) Hl (pos_is x Hpos) (near_is x Hdef)) as (g & Eg & Sg' & Dg & Yg).
    pose proof (f_equal r_llh Hev) as E1. cbn [r_llh evaluate] in E1. change (ll_hess h om (ft_obj f) [] (named_values om popt) = ll_hess h om (ft_obj f) x []) in E1. rewrite Eg in E1.
    assert (Hlv : full_vector h m x) by exact Hl. destruct HH as (H & HH & HnH).
    destruct (H_gives_J simp ord1 ord2 es m H Hsimp Ho2 Hm HH HnH) as (J & solJ & solH & HJ & HnJ & HsJ & HsH).
    pose proof (value_ok simp ord1 ord2 es m m Ho2 (built_self ord1 es m Hm) sol Hsol h data G kc grid_indep x Hlv) as V.
    
    destruct (plain_jac_ok simp ord1 ord2 es m m Hsimp Ho2 (built_self ord1 es m Hm) sol Hsol h data G kc grid_indep J solJ HJ (apart_J simp ord1 ord2 es m J Hsimp Ho2 Hm HJ HnJ) HsJ Hne Hcls x Hlv) as [(fj & Hfj & Aj) Sj].
    destruct (plain_hess_ok simp ord1 ord2 es m m Hsimp Ho2 (built_self ord1 es m Hm) sol Hsol h data G kc grid_indep J HJ Hne H solH HH (apart_H simp ord1 ord2 es m J H Hsimp Ho2 Hm HJ HH HnH) HsH Hkm x Hlv) as [(fh & Hfh & Ah) Sh].
    set (out := out_at ord2 m h data x) in *. set (jac := jac_at simp ord2 m h data x) in *. set (hess := hess_at simp ord2 m h data x) in *.
    assert (Hcal : callable om) by (split; [exact (om_interface simp ord1 ord2 es m m (built_self ord1 es m Hm) kc)|apply om_of_by_keyword]).
    assert (Hnoi : forall c ob, o <> OInst c ob) by (intros c ob E; rewrite Hoc in E; discriminate).
    destruct (ll_covariance_exact inv toward0 h fm cons o mc absolute args kw f Hg Hkw Hf ll_given x popt out Hinv Hcal Hnoi Hp (answers_at _ x popt _ Hl Hp V) jac hess ll_class)
      as (g' & K & cov & Eg' & Sg2 & SK & EK & Hex & Hcase); [split; [exists fj; split; [exact Hfj|exact (answers_at _ x popt _ Hl Hp Aj)]|exact Sj]|exact (proj1 Hcov)|split; [exists fh; split; [exact Hfh|exact (answers_at _ x popt _ Hl Hp Ah)]|exact Sh]|].
    change (fm_om fm) with om in *. rewrite E1 in Eg'. injection Eg' as <-.
    exists popt, g, K, cov. split; [exact Hp|]. split; [exact Sg'|]. split; [intros k l Hk Hl'; unfold mat; apply Yg; assumption|]. split; [exact SK|]. split; [exact Hex|]. split; [exact Hcase|].
    intros Hfree p q k l Hk Hl'.
      assert (Hall : free_of_list h ps = ps).
      { unfold free_of_list. clear -Hfree. induction ps as [|r lst IH]; [reflexivity|]. cbn [filter]. rewrite (Hfree r (or_introl eq_refl)). cbn [negb]. f_equal. apply IH. intros s Hs. apply Hfree. right; exact Hs. }
      assert (Hfr : forall r n, nth_error ps n = Some r -> ArrObj.free_at m h r n /\ (n < List.length x)%nat /\ free_parameter h m r n n).
      { intros r n Hn. assert (Hf1 : ArrObj.free_at m h r n) by (unfold ArrObj.free_at; change (filter (fun q => negb (p_fixed (h q))) ps) with (free_of_list h ps); rewrite Hall; exact Hn).
        split; [exact Hf1|]. split; [rewrite Hl; unfold nfree; rewrite Hall; apply nth_error_Some; rewrite Hn; discriminate|split; [exact Hn|exact Hf1]]. }
      destruct (Hfr p k Hk) as (F1 & F2 & F3). destruct (Hfr q l Hl') as (F4 & F5 & F6).
      split.
      { assert (Emat : mat g k l = mat g l k) by (unfold mat; apply Yg; apply nth_error_Some; [rewrite Hk|rewrite Hl']; discriminate). rewrite Emat. unfold mat.
      apply (second_ext _ (parameter_value h ps x)); [eapply nth_error_In; exact Hk|eapply nth_error_In; exact Hl'|intros a b Hab; f_equal; apply logl_ext; exact Hab|intros r Hr; symmetry; apply reported_is; assumption|].
      apply (second_gen (fun th => - log_likelihood G sol m Y th) (minus_log_likelihood G sol h m data) x p k q l); [intros a b Hab; f_equal; apply logl_ext; exact Hab|exact logl_is|exact F1|exact F4|exact F2|exact F5|]. exact (Dg q l l p k k F6 F3). }
      exists (fun v i => solJ (at_index (inputs h ps data x) i) (der_of v (sname p))), (fun v i => solJ (at_index (inputs h ps data x) i) (der_of v (sname q))).
      assert (Hrep : forall r, In r ps -> parameter_value h ps x r = reported ps popt r) by (intros r Hr; symmetry; apply reported_is; assumption).
      split.
      - intros v i Hv Hi. 
        assert (Hone : forall r n, nth_error ps n = Some r -> derivative_in (fun th => sol (at_data Y th i) v) (reported ps popt) r (solJ (at_index (inputs h ps data x) i) (der_of v (sname r)))).
        { intros r n Hn. destruct (Hfr r n Hn) as (Q1 & Q2 & _).
          apply (derivative_ext _ (parameter_value h ps x)); [eapply nth_error_In; exact Hn|intros a b Hab; apply point_ext; [exact Hv|exact Hab]|exact Hrep|].
          apply (partial_gen (fun th => sol (at_data Y th i) v) (fun z => predicted sol h ps data z v i) x r n); [intros a b Hab; apply point_ext; [exact Hv|exact Hab]|intros z; apply predicted_is; exact Hv|exact Q1|exact Q2|].
          exact (predicted_derive simp ord1 ord2 es m m Hsimp Ho2 (built_self ord1 es m Hm) sol Hsol h data G J solJ HJ HsJ x i v r n (dep_key ord1 es m m (built_self ord1 es m Hm) v Hv) Q1 Q2 Hi (defined_here es m sol h data G x (near_is x Hdef))). }
        split; [exact (Hone p k Hk)|exact (Hone q l Hl')].
      - rewrite EK by (apply nth_error_Some; change (om_params om) with ps; congruence). unfold information. change (om_dep om) with (m_dep m). apply Rsum_ext. intros v Hv. cbv beta.
        pose proof (covered_shape ord1 ord2 es m m Ho2 (built_self ord1 es m Hm) sol Hsol h data G grid_indep x v covers_is Hv) as Ecs. fold out in Ecs. rewrite Ecs. apply Rsum_ext. intros i Hi.
        pose proof (dep_key ord1 es m m (built_self ord1 es m Hm) v Hv) as Hvk.
        assert (Hi' : In i (indices (shp (entry out v)))) by (rewrite Ecs; exact Hi).
        pose proof (fun n r Hn => jac_val simp ord1 ord2 es m m Hsimp Ho2 (built_self ord1 es m Hm) sol Hsol h data G grid_indep J solJ HJ (apart_J simp ord1 ord2 es m J Hsimp Ho2 Hm HJ HnJ) HsJ Hne x v i n r Hvk Hi' Hn) as Hjv. fold jac in Hjv.
        rewrite (Hjv k p Hk), (Hjv l q Hl'). rewrite (bidx_id G i Hi).
        destruct (value_val ord2 es m sol h data G grid_indep x out v i (out_spec ord1 ord2 es m m Ho2 (built_self ord1 es m Hm) sol Hsol h data G grid_indep x) Hvk Hi') as [Ev _].
        rewrite Ev. fold ps. rewrite (predicted_is x v i Hv). rewrite (point_ext _ _ i v Hv Hrep). reflexivity.
  Qed.

  (** with the first derivatives only: the products of the derivatives *)
  Lemma ll_grad_covariance inv x : simp_ok simp -> kc = KGradient -> ps <> [] -> has_jacobian simp ord2 m -> inverts inv -> List.length x = nfree h ps ->
    defined_for G es sol Y (parameter_value h ps x) ->
    exists popt K cov, pack_output h ps x = Ok popt /\ square (List.length ps) K /\
      fit_execute inv h om f x = Ok (popt, cov) /\ inverse_or_none (List.length ps) 1 K cov /\
      ((forall p, In p ps -> p_fixed (h p) = false) -> forall p q k l, nth_error ps k = Some p -> nth_error ps l = Some q ->
         exists Dp Dq, (forall v i, In v (m_dep m) -> In i (indices G) ->
             derivative_in (fun th => sol (at_data Y th i) v) (reported ps popt) p (Dp v i) /\
             derivative_in (fun th => sol (at_data Y th i) v) (reported ps popt) q (Dq v i)) /\
           mat K k l = Rsum (map (fun v => Rsum (map (fun i => Dp v i * Dq v i / sol (at_data Y (reported ps popt) i) v ^ 2) (indices G))) (m_dep m))).
  Proof using Ho2 Hm Hsol Hg Hkw Hf Hgi Hoc Hcov.
    intros Hsimp Hk0 Hne (J & HJ & HnJ) Hinv Hl Hdef. assert (Hcls : kc <> KCallable) by (rewrite Hk0; discriminate). assert (Hkm : kc <> KModel) by (rewrite Hk0; discriminate).
    destruct (reported_reproduce h om data true (ft_obj f) x (om_interface simp ord1 ord2 es m m (built_self ord1 es m Hm) kc) (om_of_by_keyword _ _ _ _) ll_made Hl) as (popt & Hp & _).
    change (om_params om) with ps in Hp. assert (Hlv : full_vector h m x) by exact Hl.
    destruct (solJ_exists simp ord1 ord2 es m J Hsimp Ho2 Hm HJ HnJ) as (solJ & HsJ).
    pose proof (value_ok simp ord1 ord2 es m m Ho2 (built_self ord1 es m Hm) sol Hsol h data G kc grid_indep x Hlv) as V.
    destruct (plain_jac_ok simp ord1 ord2 es m m Hsimp Ho2 (built_self ord1 es m Hm) sol Hsol h data G kc grid_indep J solJ HJ (apart_J simp ord1 ord2 es m J Hsimp Ho2 Hm HJ HnJ) HsJ Hne Hcls x Hlv) as [(fj & Hfj & Aj) Sj].
    set (out := out_at ord2 m h data x) in *. set (jac := jac_at simp ord2 m h data x) in *.
    assert (Hcal : callable om) by (split; [exact (om_interface simp ord1 ord2 es m m (built_self ord1 es m Hm) kc)|apply om_of_by_keyword]).
    assert (Hnoi : forall c ob, o <> OInst c ob) by (intros c ob E; rewrite Hoc in E; discriminate).
    destruct (ll_covariance_approx inv toward0 h fm cons o mc absolute args kw f Hg Hkw Hf ll_given x popt out Hinv Hcal Hnoi Hp (answers_at _ x popt _ Hl Hp V) jac ll_class)
      as (K & cov & SK & EK & Hex & Hcase); [split; [exists fj; split; [exact Hfj|exact (answers_at _ x popt _ Hl Hp Aj)]|exact Sj]|exact (proj1 Hcov)|exact (om_hess_none kc simp ord2 m Hkm)|].
    change (fm_om fm) with om in *. exists popt, K, cov. split; [exact Hp|]. split; [exact SK|]. split; [exact Hex|]. split; [exact Hcase|].
    intros Hfree p q k l Hk Hl'.
    assert (Hall : free_of_list h ps = ps).
    { unfold free_of_list. clear -Hfree. induction ps as [|r lst IH]; [reflexivity|]. cbn [filter]. rewrite (Hfree r (or_introl eq_refl)). cbn [negb]. f_equal. apply IH. intros s Hs. apply Hfree. right; exact Hs. }
    assert (Hfr : forall r n, nth_error ps n = Some r -> ArrObj.free_at m h r n /\ (n < List.length x)%nat).
    { intros r n Hn. assert (Hf1 : ArrObj.free_at m h r n) by (unfold ArrObj.free_at; change (filter (fun q => negb (p_fixed (h q))) ps) with (free_of_list h ps); rewrite Hall; exact Hn).
      split; [exact Hf1|]. rewrite Hl; unfold nfree; rewrite Hall; apply nth_error_Some; rewrite Hn; discriminate. }
    exists (fun v i => solJ (at_index (inputs h ps data x) i) (der_of v (sname p))), (fun v i => solJ (at_index (inputs h ps data x) i) (der_of v (sname q))).
    assert (Hrep : forall r, In r ps -> parameter_value h ps x r = reported ps popt r) by (intros r Hr; symmetry; apply reported_is; assumption).
    split.
    - intros v i Hv Hi.
      assert (Hone : forall r n, nth_error ps n = Some r -> derivative_in (fun th => sol (at_data Y th i) v) (reported ps popt) r (solJ (at_index (inputs h ps data x) i) (der_of v (sname r)))).
      { intros r n Hn. destruct (Hfr r n Hn) as (Q1 & Q2).
        apply (derivative_ext _ (parameter_value h ps x)); [eapply nth_error_In; exact Hn|intros a b Hab; apply point_ext; [exact Hv|exact Hab]|exact Hrep|].
        apply (partial_gen (fun th => sol (at_data Y th i) v) (fun z => predicted sol h ps data z v i) x r n); [intros a b Hab; apply point_ext; [exact Hv|exact Hab]|intros z; apply predicted_is; exact Hv|exact Q1|exact Q2|].
        exact (predicted_derive simp ord1 ord2 es m m Hsimp Ho2 (built_self ord1 es m Hm) sol Hsol h data G J solJ HJ HsJ x i v r n (dep_key ord1 es m m (built_self ord1 es m Hm) v Hv) Q1 Q2 Hi (defined_is x Hdef)). }
      split; [exact (Hone p k Hk)|exact (Hone q l Hl')].
    - rewrite EK by (apply nth_error_Some; change (om_params om) with ps; congruence). unfold information. change (om_dep om) with (m_dep m). apply Rsum_ext. intros v Hv. cbv beta.
      pose proof (covered_shape ord1 ord2 es m m Ho2 (built_self ord1 es m Hm) sol Hsol h data G grid_indep x v covers_is Hv) as Ecs. fold out in Ecs. rewrite Ecs. apply Rsum_ext. intros i Hi.
      pose proof (dep_key ord1 es m m (built_self ord1 es m Hm) v Hv) as Hvk.
      assert (Hi' : In i (indices (shp (entry out v)))) by (rewrite Ecs; exact Hi).
      pose proof (fun n r Hn => jac_val simp ord1 ord2 es m m Hsimp Ho2 (built_self ord1 es m Hm) sol Hsol h data G grid_indep J solJ HJ (apart_J simp ord1 ord2 es m J Hsimp Ho2 Hm HJ HnJ) HsJ Hne x v i n r Hvk Hi' Hn) as Hjv. fold jac in Hjv.
      rewrite (Hjv k p Hk), (Hjv l q Hl'). rewrite (bidx_id G i Hi).
      destruct (value_val ord2 es m sol h data G grid_indep x out v i (out_spec ord1 ord2 es m m Ho2 (built_self ord1 es m Hm) sol Hsol h data G grid_indep x) Hvk Hi') as [Ev _].
      rewrite Ev. fold ps. rewrite (predicted_is x v i Hv). rewrite (point_ext _ _ i v Hv Hrep). reflexivity.
  Qed.
  (** .. or without any *)
  Lemma ll_call_covariance inv x : kc = KCallable -> List.length x = nfree h ps -> exists popt, pack_output h ps x = Ok popt /\ fit_execute inv h om f x = Ok (popt, None).
  Proof using Ho2 Hm Hsol Hg Hkw Hf Hgi Hoc Hcov.
    intros Hk Hl.
    destruct (reported_reproduce h om data true (ft_obj f) x (om_interface simp ord1 ord2 es m m (built_self ord1 es m Hm) kc) (om_of_by_keyword _ _ _ _) ll_made Hl) as (popt & Hp & Hev).
    change (om_params om) with ps in Hp, Hev. assert (Hlv : full_vector h m x) by exact Hl. exists popt. split; [exact Hp|].
    pose proof (value_ok simp ord1 ord2 es m m Ho2 (built_self ord1 es m Hm) sol Hsol h data G kc grid_indep x Hlv) as V.
    set (out := out_at ord2 m h data x) in *.
    assert (Hcal : callable om) by (split; [exact (om_interface simp ord1 ord2 es m m (built_self ord1 es m Hm) kc)|apply om_of_by_keyword]).
    pose proof (lik_created toward0 h fm cons o mc absolute args kw f Hg Hkw Hf ll_given popt Hcal ll_made) as Hcr. fold data in Hcr. change (fm_om fm) with om in Hcr.
    assert (Hb : exists r, base_call h om (ft_obj f) [] (named_values om popt) = Ok r).
    { eexists. exact (ObjMore.base_call_i h om data (ft_obj f) (named_values om popt) Hcr [] out (answers_at _ x popt out Hl Hp V)). }
    destruct Hb as (r & Hb). pose proof (om_jac_none kc simp ord2 m Hk) as Hj.
    assert (Hr : forall hs, ll_hess_with hs h om (ft_obj f) [] (named_values om popt) = Raise AttributeError).
    { intros hs. unfold ll_hess_with. rewrite Hb. cbn [bind]. unfold base_jac. rewrite Hj. reflexivity. }
    assert (Hd : ob_data (ft_obj f) = data) by (apply (obj_init_inv _ _ _ _ ll_made)).
    unfold fit_execute. change (om_params om) with ps. rewrite Hp. cbn [bind]. unfold covariance. rewrite ll_class.
    unfold cov_first. cbn [obj_hessian]. unfold ll_hess. rewrite Hr. cbn [bind cov_of]. unfold cov_second. rewrite Hd, ll_made. cbn [bind]. rewrite Hr. reflexivity.
  Qed.
  End LL.

  (** *** MinimizeModel: no data, the model itself is minimised *)
  Section MM.
  Context (v : sym).
  Hypothesis Hind : m_indep m = [].
  Hypothesis Hdep : m_dep m = [v].
  Hypothesis Hoc : model_chosen om cons args kw es o mc v.
  Lemma mm_class : ft_class f = OMM.
  Proof using Hg Hkw Hf Hoc Hind Hdep.
    destruct Hoc as [E|(E & Hmc & Hl & Hno)]; [exact (proj1 (explicit_objective toward0 h fm cons mc absolute args kw Hg Hkw o OMM f Hf (or_introl E)))|].
    pose proof Hf as Hf'. rewrite E in Hf'.
    destruct (default_objective_rule toward0 h fm cons mc absolute args kw Hg Hkw f v [] Hf' Hdep) as [(H & _)|[(_ & _ & _ & _ & H)|(_ & H & _)]]; [contradiction|exact H|].
    exfalso. apply H. split; [exact Hl|]. split; [exact Hind|]. change (fm_om fm) with om. rewrite Hno. reflexivity.
  Qed.
  Lemma mm_no_instance : forall c ob, o <> OInst c ob.
  Proof using Hoc. intros c ob E. destruct Hoc as [E'|(E' & _)]; rewrite E' in E; discriminate. Qed.
  Lemma mm_made : mm_init om data = Ok (ft_obj f).
  Proof using Hg Hkw Hf Hoc Hind Hdep.
    destruct (fit_init_inv toward0 h fm cons o mc absolute args kw f Hf) as (t & _ & _ & _ & H & _). rewrite mm_class in H. destruct Hoc as [E|(E & _)]; rewrite E in H; exact H.
  Qed.
  Lemma grid1 : independent_on_grid [1%nat] m data.
  Proof using Hind. split; [intros [H|[]]; discriminate|]. rewrite Hind. intros w []. Qed.
  Lemma input1 x i s : In s (m_indep m ++ ps) -> at_index (inputs h ps data x) i s = parameter_value h ps x s.
  Proof using Hind Hm.
    rewrite Hind. intros Hs. unfold at_index, inputs. rewrite (Hps ord1 es m m (built_self ord1 es m Hm) s Hs). apply elem_scalar.
  Qed.
  Lemma key1 : In v (dkeys items).
  Proof using Hm Hdep. apply (dep_key ord1 es m m (built_self ord1 es m Hm)). rewrite Hdep. left; reflexivity. Qed.
  Lemma predicted1 x i : predicted sol h ps data x v i = sol (parameter_value h ps x) v.
  Proof using Hm Hsol Hind Hdep. unfold predicted. apply sol_ext; [intros s Hs; apply input1; exact Hs|left; exact key1]. Qed.
  Lemma value1_ext a b : (forall p, In p ps -> a p = b p) -> sol a v = sol b v.
  Proof using Hm Hsol Hind Hdep. intros H. apply sol_ext; [intros s Hs; rewrite Hind in Hs; apply H; exact Hs|left; exact key1]. Qed.
  Lemma shape1 a : on_grid [1%nat] (shp a) -> shp (atleast_1d a) = [1%nat].
  Proof using.
    intros Hg1. destruct (shapes_grid [1%nat] a Hg1) as [[E _]|[E1 E2]]; [exact E|]. rewrite E2 in *. clear E2. destruct Hg1 as [Hfit _]. revert E1 Hfit. generalize (shp a). intros s E1 Hfit.
    destruct s as [|d0 [|d1 s]]; try discriminate. cbn in Hfit. rewrite orb_diag, andb_true_r in Hfit. apply Nat.eqb_eq in Hfit. subst d0. reflexivity.
  Qed.
  Lemma mm_value_is x : full_vector h m x -> exists r, obj_value OMM h om (ft_obj f) x [] = Ok r /\ shp r = [1%nat] /\ elem r [] = sol (parameter_value h ps x) v.
  Proof using Ho2 Hm Hsol Hg Hkw Hf Hoc Hind Hdep.
    intros Hl.
    destruct (ObjExample.mm_spec h om data (ft_obj f) [] x (out_at ord2 m h data x) v mm_made (om_interface simp ord1 ord2 es m m (built_self ord1 es m Hm) kc) (om_of_by_keyword _ _ _ _)
      (ArrObj.given simp ord2 m data [1%nat] kc grid1) (NoDup_nil _) Hdep (value_ok simp ord1 ord2 es m m Ho2 (built_self ord1 es m Hm) sol Hsol h data [1%nat] kc grid1 x Hl)) as (H1 & _).
    pose proof (out_spec ord1 ord2 es m m Ho2 (built_self ord1 es m Hm) sol Hsol h data [1%nat] grid1 x) as Vs.
    exists (entry (out_at ord2 m h data x) v). split; [exact H1|].
    destruct (value_entry ord2 es m sol h data [1%nat] x _ v Vs key1) as (a & Ea & Hga & He & _). rewrite Ea. split; [apply shape1; exact Hga|].
    rewrite elem_atleast_1d, He. apply predicted1.
  Qed.
  Lemma defined1 x : model_defined es sol (parameter_value h ps x) -> defined_at [1%nat] es sol h m data x.
  Proof using Hm Hsol Hind.
    intros H i k e Hi He. refine (defined_same _ _ k e _ He (H k e He)). intros s Hs. symmetry. apply input1. exact Hs.
  Qed.
  Lemma near1 x : model_defined_around es sol (parameter_value h ps x) -> defined_near [1%nat] es sol h m data x.
  Proof using Hm Hsol Hind.
    intros (eps & Hpos & H) i Hi. exists eps. split; [exact Hpos|]. intros inp Hp Hv k e He.
    pose (theta' := fun p => if is_par p then inp p else parameter_value h ps x p).
    refine (defined_same _ _ k e _ He (H theta' _ k e He)).
    - intros s Hs. unfold theta'. rewrite (Hps ord1 es m m (built_self ord1 es m Hm) s); [reflexivity|]. rewrite Hind in Hs. exact Hs.
    - intros p. unfold theta'. destruct (is_par p) eqn:E; [|rewrite Rminus_eq_0, Rabs_R0; exact Hpos].
      specialize (Hp p E). unfold at_index, inputs in Hp. rewrite E, elem_scalar in Hp. exact Hp.
  Qed.
  Lemma mm_gradient x : simp_ok simp -> kc <> KCallable -> ps <> [] -> has_jacobian simp ord2 m -> full_vector h m x -> model_defined es sol (parameter_value h ps x) ->
    exists j, obj_jacobian OMM h om (ft_obj f) x [] = Ok (Some j) /\ shp j = [1%nat; List.length ps] /\
      forall p i k, free_parameter h m p i k -> derivative_in (fun th => sol th v) (parameter_value h ps x) p (val j [0%nat; k]).
  Proof using Ho2 Hm Hsol Hg Hkw Hf Hoc Hind Hdep.
    intros Hsimp Hcls Hne (J & HJ & HnJ) Hl Hdef. destruct (solJ_exists simp ord1 ord2 es m J Hsimp Ho2 Hm HJ HnJ) as (solJ & HsJ).
    
    destruct (model_mm simp ord1 ord2 es m m Hsimp Ho2 (built_self ord1 es m Hm) sol Hsol h data [1%nat] kc grid1 J solJ HJ (apart_J simp ord1 ord2 es m J Hsimp Ho2 Hm HJ HnJ) HsJ Hne Hcls (ft_obj f) x v mm_made Hdep Hl) as (c & j & A1 & A2 & A3 & (a & -> & Hga) & _ & A6).
    rewrite (shape1 a Hga) in A3, A6. exists j. split; [exact A2|]. split; [exact A3|]. intros p i k [F1 F2].
    assert (Hii : (i < List.length x)%nat) by exact (free_len m h x p i Hl F2).
    apply (partial_gen (fun th => sol th v) (fun z => predicted sol h ps data z v [0%nat]) x p i); [exact value1_ext|intros z; apply predicted1|exact F2|exact Hii|].
    apply (A6 (defined1 x Hdef) [0%nat] p i k); [left; reflexivity|exact F1|exact F2].
  Qed.
  Lemma mm_problem : suitable h ps us mc ->
    exists mn local, ft_min f = FMin mn local /\ chosen_class h om cons mc (mi_class mn) /\ ft_class f = OMM /\
      let pb := execute_problem h mn DNone DNone in
      pb_x0 pb = (match mi_class mn with DifferentialEvolution => None | _ => Some (map (fun p => p_value (h p)) (free_of_list h ps)) end) /\
      (forall x, List.length x = nfree h ps -> feasible pb x <-> allowed h m (parameter_value h ps x) /\ constraints_hold G sol us Y (parameter_value h ps x)) /\
      (forall x, List.length x = nfree h ps -> exists r, obj_value OMM h om (ft_obj f) x [] = Ok r /\ shp r = [1%nat] /\ elem r [] = sol (parameter_value h ps x) v) /\
      (kc = KCallable -> forall w, pb_jac pb <> DFun w) /\
      (kc <> KCallable -> ps <> [] -> has_jacobian simp ord2 m -> simp_ok simp -> uses_jacobian (mi_class mn) = true -> exists w, pb_jac pb = DFun w /\ forall x, List.length x = nfree h ps ->
        model_defined es sol (parameter_value h ps x) ->
        exists g, w x = Ok g /\ shp g = [nfree h ps] /\ forall i p, nth_error (free_of_list h ps) i = Some p ->
          derivative_in (fun th => sol th v) (parameter_value h ps x) p (val g [i])).
  Proof using Ho2 Hm Hsol Hg Hkw Hf Hgi Hoc Hind Hdep Har Hcons Hgc Hcg.
    intros Hsu. destruct (fit_min_made Hsu) as (mn & lc & cls & Hmin & Hcls & Hcc & Hini & Hnm & Hb & Hu). subst cls. exists mn, lc. split; [exact Hmin|]. split; [exact Hcc|]. split; [exact mm_class|].
    cbv zeta. split; [exact (start_is mn lc Hmin Hini)|].
    split; [intros x Hl; exact (feasible_is mn lc (mi_class mn) x Hmin eq_refl Hini Hb Hu Hl)|].
    split; [intros x Hl; exact (mm_value_is x Hl)|]. split; [intros Hk; exact (no_gradient_handed mn Hk Hini)|]. intros Hkc Hne HJ Hsimp Hgr. destruct (gradient_handed mn lc (fun th => sol th v) Hmin Hini Hnm Hkc Hgr) as (w & Hw & Hr). exists w. split; [exact Hw|]. intros x Hl Hdef.
    destruct (mm_gradient x Hsimp Hkc Hne HJ Hl Hdef) as (a & Ha & Hsa & Hda).
    apply (Hr x a Hl); [rewrite mm_class; exact Ha|exists 1%nat; exact Hsa|].
    intros p i k Hfp. unfold gradient_entry. rewrite Hsa. cbn [List.length Nat.sub repeat app]. exact (Hda p i k Hfp).
  Qed.
  Lemma mm_best mn local x popt : suitable h ps us mc -> ft_min f = FMin mn local ->
    minimises (fun z => obj_value OMM h om (ft_obj f) z []) (execute_problem h mn DNone DNone) (nfree h ps) x ->
    pack_output h ps x = Ok popt ->
    allowed h m (reported ps popt) /\ constraints_hold G sol us Y (reported ps popt) /\
    forall theta, allowed h m theta -> constraints_hold G sol us Y theta -> sol (reported ps popt) v <= sol theta v.
  Proof using Ho2 Hm Hsol Hg Hkw Hf Hgi Hoc Hind Hdep Har Hcons Hgc Hcg.
    intros Hsu Hmin (Hl & Hbox & Hbest) Hp. destruct (mm_problem Hsu) as (mn' & lc & Hmin' & _ & _ & Hpb). rewrite Hmin in Hmin'. injection Hmin' as <- <-.
    destruct Hpb as (_ & Hb & Hv & _).
    destruct (best_generic (fun _ => True) (fun r => elem r []) (fun th => sol th v) (execute_problem h mn DNone DNone) x popt) as (H1 & H2 & _ & H4); auto.
    - intros z Hz _. destruct (Hv z Hz) as (r & E & _ & E'). exists r. rewrite mm_class. auto.
    - exact value1_ext.
    - intros x' r r' Hl' Hf' _. rewrite mm_class. apply Hbest; assumption.
  Qed.
  Lemma mm_covariance inv x : simp_ok simp -> kc = KModel -> ps <> [] -> has_hessian simp ord2 m -> inverts inv -> List.length x = nfree h ps ->
    model_defined_around es sol (parameter_value h ps x) ->
    exists popt H, pack_output h ps x = Ok popt /\ square (List.length ps) H /\ symmetric (List.length ps) H /\
      (exists cov, fit_execute inv h om f x = Ok (popt, cov) /\ inverse_or_none (List.length ps) 1 H cov) /\
      ((forall p, In p ps -> p_fixed (h p) = false) -> forall p q k l, nth_error ps k = Some p -> nth_error ps l = Some q ->
         second_derivative_in (fun th => sol th v) (reported ps popt) p q (mat H k l)).
  Proof using Ho2 Hm Hsol Hg Hkw Hf Hoc Hind Hdep.
    intros Hsimp Hkm Hne (H & HH & HnH) Hinv Hl Hdef. assert (Hcls : kc <> KCallable) by (rewrite Hkm; discriminate).
    assert (Hmade : exists b, obj_init b om data = Ok (ft_obj f)) by (pose proof mm_made as Hq; unfold mm_init in Hq; destruct (Nat.ltb _ _) in Hq; [discriminate|eauto]).
    destruct Hmade as (b & Hob).
    destruct (reported_reproduce h om data b (ft_obj f) x (om_interface simp ord1 ord2 es m m (built_self ord1 es m Hm) kc) (om_of_by_keyword _ _ _ _) Hob Hl) as (popt & Hp & Hev).
    change (om_params om) with ps in Hp, Hev.
    destruct (H_gives_J simp ord1 ord2 es m H Hsimp Ho2 Hm HH HnH) as (J & solJ & solH & HJ & HnJ & HsJ & HsH).
    
    destruct (mm_value_is x Hl) as (c0 & Hc0 & Hs0 & _). cbn [obj_value] in Hc0.
    destruct (model_mm_hessian simp ord1 ord2 es m m Hsimp Ho2 (built_self ord1 es m Hm) sol Hsol h data [1%nat] kc grid1 J solJ HJ (apart_J simp ord1 ord2 es m J Hsimp Ho2 Hm HJ HnJ) HsJ Hne Hcls H solH HH (apart_H simp ord1 ord2 es m J H Hsimp Ho2 Hm HJ HH HnH) HsH Hkm (ft_obj f) x v mm_made Hdep Hl) as (c & g & B1 & B2 & B3 & B4).
    destruct (B4 (near1 x Hdef)) as [Dg Yg]. assert (Ec : c = c0) by congruence. subst c0. rewrite Hs0 in B3, Dg, Yg. cbn [app] in B3.
    pose proof (f_equal r_mmh Hev) as E1. cbn [r_mmh evaluate] in E1. change (mm_hess h om (ft_obj f) [] (named_values om popt) = mm_hess h om (ft_obj f) x []) in E1. rewrite B2 in E1.
    set (M := {| shp := [List.length ps; List.length ps]; val := fun i => val g (repeat 0%nat 1 ++ i) |}).
    exists popt, M. split; [exact Hp|]. split; [reflexivity|].
    assert (H0 : In [0%nat] (indices [1%nat])) by (left; reflexivity).
    assert (Hsym : symmetric (List.length ps) M) by (intros k l Hk Hl'; unfold mat, M; cbn [val repeat app]; apply (Yg [0%nat] k l H0 Hk Hl')).
    split; [exact Hsym|]. split.
    - assert (Hlv : full_vector h m x) by exact Hl.
      pose proof (value_ok simp ord1 ord2 es m m Ho2 (built_self ord1 es m Hm) sol Hsol h data [1%nat] kc grid1 x Hlv) as V.
      destruct (plain_hess_ok simp ord1 ord2 es m m Hsimp Ho2 (built_self ord1 es m Hm) sol Hsol h data [1%nat] kc grid1 J HJ Hne H solH HH (apart_H simp ord1 ord2 es m J H Hsimp Ho2 Hm HJ HH HnH) HsH Hkm x Hlv) as [(fh & Hfh & Ah) Sh].
      assert (Hcal : callable om) by (split; [exact (om_interface simp ord1 ord2 es m m (built_self ord1 es m Hm) kc)|apply om_of_by_keyword]).
      assert (Hgiven : forall w, In w (om_indep om) -> data_for om cons args kw w <> DataNone) by (intros w Hw; change (om_indep om) with (m_indep m) in Hw; rewrite Hind in Hw; destruct Hw).
      assert (Hindg : independent_data_given om data) by (intros w Hw; change (om_indep om) with (m_indep m) in Hw; rewrite Hind in Hw; destruct Hw).
      assert (Eg : entry (hess_at simp ord2 m h data x) v = g).
      { destruct (ObjExample.mm_spec h om data (ft_obj f) [] x _ v mm_made (proj1 Hcal) (proj2 Hcal) Hindg (NoDup_nil _) Hdep V) as (_ & _ & Q & _).
        specialize (Q fh _ Hfh Ah). rewrite B2 in Q. injection Q as ->. reflexivity. }
      apply (mm_covariance_all inv toward0 h fm cons o mc absolute args kw f Hg Hkw Hf Hgiven x popt (out_at ord2 m h data x) Hinv Hcal mm_no_instance Hp (answers_at _ x popt _ Hl Hp V) v (hess_at simp ord2 m h data x) M mm_class Hdep).
      + split; [exists fh; split; [exact Hfh|exact (answers_at _ x popt _ Hl Hp Ah)]|exact Sh].
      + change (om_params (fm_om fm)) with ps. destruct ps; [congruence|cbn; lia].
      + split; [reflexivity|]. exists 1%nat. rewrite Eg. split; [exact B3|]. intros k l. reflexivity.
    - intros Hfree p q k l Hk Hl'.
      assert (Hall : free_of_list h ps = ps).
      { unfold free_of_list. clear -Hfree. induction ps as [|r lst IH]; [reflexivity|]. cbn [filter]. rewrite (Hfree r (or_introl eq_refl)). cbn [negb]. f_equal. apply IH. intros s Hs. apply Hfree. right; exact Hs. }
      assert (Hfr : forall r n, nth_error ps n = Some r -> ArrObj.free_at m h r n /\ (n < List.length x)%nat).
      { intros r n Hn. assert (Hf1 : ArrObj.free_at m h r n) by (unfold ArrObj.free_at; change (filter (fun q => negb (p_fixed (h q))) ps) with (free_of_list h ps); rewrite Hall; exact Hn).
        split; [exact Hf1|]. rewrite Hl; unfold nfree; rewrite Hall; apply nth_error_Some; rewrite Hn; discriminate. }
      destruct (Hfr p k Hk) as (F1 & F2). destruct (Hfr q l Hl') as (F4 & F5).
      assert (Emat : mat M k l = mat M l k) by (apply Hsym; apply nth_error_Some; [rewrite Hk|rewrite Hl']; discriminate). rewrite Emat. change (mat M l k) with (val g [0%nat; k; l]).
      apply (second_ext _ (parameter_value h ps x)); [eapply nth_error_In; exact Hk|eapply nth_error_In; exact Hl'|exact value1_ext|intros r Hr; symmetry; apply reported_is; assumption|].
      apply (second_gen (fun th => sol th v) (fun z => predicted sol h ps data z v [0%nat]) x p k q l); [exact value1_ext|intros z; apply predicted1|exact F1|exact F4|exact F2|exact F5|].
      exact (Dg [0%nat] q l l p k k H0 Hl' F4 Hk F1).
  Qed.
  Lemma mm_no_covariance inv x : kc <> KModel -> List.length x = nfree h ps -> exists popt, pack_output h ps x = Ok popt /\ fit_execute inv h om f x = Ok (popt, None).
  Proof using Hg Hkw Hf Hoc Hind Hdep.
    intros Hk Hl. destruct (pack_ok h ps x Hl) as (popt & Hp & _). exists popt. split; [exact Hp|].
    exact (mm_covariance_none inv toward0 h fm cons o mc absolute args kw f Hf x popt mm_no_instance Hp v mm_class Hdep (om_hess_none kc simp ord2 m Hk)).
  Qed.
  End MM.

  (** *** MINPACK: the vector of residuals, whose squares are summed by scipy *)
  Section VLS.
  Hypothesis HG : data_on_grid G m Y Sg.
  Hypothesis Hoc : minpack_chosen o mc.
  Lemma vls_class : ft_class f = OVLS.
  Proof using Hg Hkw Hf HG Hoc.
    destruct Hoc as [[E|E] Emc]; [|exact (proj1 (explicit_objective toward0 h fm cons mc absolute args kw Hg Hkw o OVLS f Hf (or_introl E)))].
    destruct HG as (_ & _ & v0 & Hv0 & _). pose proof Hf as Hf'. rewrite E in Hf'.
    destruct (m_dep m) as [|w ws] eqn:Ed; [destruct Hv0|].
    destruct (default_objective_rule toward0 h fm cons mc absolute args kw Hg Hkw f w ws Hf' Ed) as [(_ & H)|[(H & _)|(H & _)]]; [exact H|contradiction|contradiction].
  Qed.
  Lemma vls_made : obj_init false om data = Ok (ft_obj f).
  Proof using Hg Hkw Hf HG Hoc.
    destruct (fit_init_inv toward0 h fm cons o mc absolute args kw f Hf) as (t & _ & _ & _ & H & _). rewrite vls_class in H. destruct Hoc as [[-> | ->] _]; exact H.
  Qed.
  Lemma vls_min : exists mn local, ft_min f = FMin mn local /\ mi_class mn = MINPACK /\ init_class h om cons data (ft_class f) (ft_obj f) MINPACK = Ok mn.
  Proof using Hf Hoc.
    destruct (fit_init_inv toward0 h fm cons o mc absolute args kw f Hf) as (t & _ & _ & _ & _ & H). destruct Hoc as [_ E]. rewrite E in H. cbn [init_choice fm fm_om] in H. exact (item_class MINPACK H).
  Qed.
  Lemma squares_vec r n : shp r = [n] -> squares r = Rsum (map (fun k => val r [k] ^ 2) (seq 0 n)).
  Proof using. intros E. unfold squares. rewrite E. cbn [indices]. f_equal. rewrite flat_map_concat_map, concat_map, !map_map. cbn [map]. induction (seq 0 n) as [|a l IH]; [reflexivity|]. cbn. f_equal. exact IH. Qed.
  Lemma vls_value_is x : full_vector h m x -> exists r, obj_value OVLS h om (ft_obj f) x [] = Ok r /\ shp r = [List.length (indices G)] /\ squares r = chi2_for sol m Y Sg (parameter_value h ps x).
  Proof using Ho2 Hm Hsol Hg Hkw Hf HG Hoc Hgi.
    intros Hl. destruct (model_vls simp ord1 ord2 es m m Ho2 (built_self ord1 es m Hm) sol Hsol h data G kc grid_indep (ft_obj f) x vls_made (grid_dep HG) (some_is HG) Hl) as (r & A1 & A2 & A3).
    exists r. split; [exact A1|]. split; [exact A2|]. rewrite (squares_vec r _ A2), A3, half_is. lra.
  Qed.
  Lemma vls_problem :
    exists mn local, ft_min f = FMin mn local /\ mi_class mn = MINPACK /\ ft_class f = OVLS /\
      let pb := execute_problem h mn DNone DNone in
      pb_x0 pb = Some (map (fun p => p_value (h p)) (free_of_list h ps)) /\
      (forall x, List.length x = nfree h ps -> feasible pb x <-> allowed h m (parameter_value h ps x)) /\
      (forall x, List.length x = nfree h ps -> exists r, obj_value OVLS h om (ft_obj f) x [] = Ok r /\
         shp r = [List.length (indices G)] /\ squares r = chi2_for sol m Y Sg (parameter_value h ps x)) /\
      (kc = KCallable -> forall w, pb_jac pb <> DFun w) /\
      (kc <> KCallable -> ps <> [] -> has_jacobian simp ord2 m -> no_shape_clash G m -> simp_ok simp ->
       exists w, pb_jac pb = DFun w /\ forall x, List.length x = nfree h ps -> defined_for G es sol Y (parameter_value h ps x) ->
        exists r D, obj_value OVLS h om (ft_obj f) x [] = Ok r /\ w x = Ok D /\ shp D = [nfree h ps; List.length (indices G)] /\
          forall i n, (i < nfree h ps)%nat -> (n < List.length (indices G))%nat -> val r [n] <> 0 ->
            exists F, locally (nth i x 0) (fun t => exists rt, obj_value OVLS h om (ft_obj f) (set_nth x i t) [] = Ok rt /\ val rt [n] = F t) /\
                      is_derive F (nth i x 0) (val D [i; n])).
  Proof using Ho2 Hm Hsol Hg Hkw Hf HG Hoc Hgi.
    destruct vls_min as (mn & lc & Hmin & Hcls & Hini). exists mn, lc. split; [exact Hmin|]. split; [exact Hcls|]. split; [exact vls_class|]. cbv zeta.
    assert (Hini' : init_class h om cons data (ft_class f) (ft_obj f) (mi_class mn) = Ok mn) by (rewrite Hcls; exact Hini).
    split; [rewrite (start_is mn lc Hmin Hini'), Hcls; reflexivity|].
    assert (Hcon : pb_cons (execute_problem h mn DNone DNone) = []) by (unfold execute_problem; rewrite Hcls; reflexivity).
    split; [intros x Hl; unfold feasible; rewrite Hcon, (box_allowed mn MINPACK x Hini (or_introl eq_refl) Hl); split; [intros [H _]; exact H|intros H; split; [exact H|intros k []]]|].
    split; [intros x Hl; exact (vls_value_is x Hl)|]. split; [intros Hk; exact (no_gradient_handed mn Hk Hini')|]. intros Hcls' Hne HJ Hsc Hsimp.
    destruct (made_class _ mn Hini) as (jac & hess & cs & Hmi & Hjac & _). specialize (Hjac eq_refl Hcls'). subst jac.
    assert (Hnd : NoDup ps) by exact (NoDup_ps ord1 es m m (built_self ord1 es m Hm)).
    destruct (minpack_jac_reaches h ps _ hess cs mn Hmi Hnd) as (w & Hw & Hr). exists w. split; [exact Hw|]. intros x Hl Hdef.
    
    destruct (arrays_vls simp ord1 ord2 es m sol G Ho2 Hm Hsol Hsimp h data kc grid_indep (ft_obj f) x Hne Hcls' HJ vls_made (grid_dep HG) Hsc (some_is HG) Hl (defined_is x Hdef)) as (r & D & E1 & E2 & E3 & E4 & _ & E6).
    destruct (Hr x D (List.length (indices G))) as (g & Hwg & Hsg & Hvg); [unfold as_fn; rewrite vls_class; cbn [obj_jacobian]; rewrite E2; reflexivity|exact E4|].
    exists r, g. split; [exact E1|]. split; [exact Hwg|]. split; [exact Hsg|]. intros i n Hi Hn Hnz.
    destruct (free_params (nfree h ps) Hnd eq_refl i Hi) as (p & k & Hp & Hk). rewrite (Hvg p i k n (conj Hp Hk)). exact (E6 p i k n (conj Hk Hp) Hn Hnz).
  Qed.
  Lemma vls_best mn local x popt : ft_min f = FMin mn local ->
    minimises_squares (fun z => obj_value OVLS h om (ft_obj f) z []) (execute_problem h mn DNone DNone) (nfree h ps) x ->
    pack_output h ps x = Ok popt ->
    allowed h m (reported ps popt) /\ forall theta, allowed h m theta -> chi2_for sol m Y Sg (reported ps popt) <= chi2_for sol m Y Sg theta.
  Proof using Ho2 Hm Hsol Hg Hkw Hf HG Hoc Hgi.
    intros Hmin (Hl & Hbox & Hbest) Hp. destruct vls_problem as (mn' & lc & Hmin' & _ & _ & Hpb). rewrite Hmin in Hmin'. injection Hmin' as <- <-.
    destruct Hpb as (_ & Hb & Hv & _). assert (Hrep : forall p, In p ps -> reported ps popt p = parameter_value h ps x p) by (intros p Hin; apply reported_is; assumption).
    split; [apply (allowed_ext (parameter_value h ps x)); [intros p Hin; symmetry; apply Hrep; exact Hin|apply Hb; assumption]|].
    intros theta Ha. set (x' := map theta (free_of_list h ps)).
    assert (Hl' : List.length x' = nfree h ps) by (unfold x'; rewrite map_length; reflexivity).
    assert (Hth : forall p, In p ps -> parameter_value h ps x' p = theta p) by (exact (vector_of theta Ha)).
    destruct (Hv x Hl) as (r & E & _ & Er). destruct (Hv x' Hl') as (r' & E' & _ & Er').
    rewrite (chi2_ext (reported ps popt) (parameter_value h ps x) Hrep), <- (chi2_ext _ _ Hth), <- Er, <- Er'.
    apply (Hbest x' r r' Hl'); [apply (Hb x' Hl'); apply (allowed_ext theta); [intros p Hin; symmetry; apply Hth; exact Hin|exact Ha]|exact E|exact E'].
  Qed.
  Hypothesis Hbare : no_bare_numbers om cons args kw.
  Lemma vls_covariance inv x : simp_ok simp -> kc <> KCallable -> ps <> [] -> has_jacobian simp ord2 m -> no_shape_clash G m -> inverts inv -> List.length x = nfree h ps ->
    approx_result inv x.
  Proof using Ho2 Hm Hsol Hg Hkw Hf HG Hoc Hbare Hgi.
    apply (approx_covariance HG Hbare vls_made); [|left; exact vls_class].
    split; [intros c ob E; destruct Hoc as [[Eo|Eo] _]; rewrite Eo in E; discriminate|right; exact vls_class].
  Qed.
  Lemma vls_no_covariance inv x : kc = KCallable -> List.length x = nfree h ps -> exists popt, pack_output h ps x = Ok popt /\ fit_execute inv h om f x = Ok (popt, None).
  Proof using Ho2 Hm Hsol Hg Hkw Hf HG Hoc Hbare Hgi.
    intros Hk Hl. apply (no_covariance HG Hbare vls_made); [|exact Hk|exact Hl].
    split; [intros c ob E; destruct Hoc as [[Eo|Eo] _]; rewrite Eo in E; discriminate|right; exact vls_class].
  Qed.
  End VLS.
End End.
