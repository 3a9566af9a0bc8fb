(** * GenFit: from [Fit(model, data)] to the reported parameters, for any model whose predictions are known. *)
From Coq Require Import Reals Lra Lia.
From Verif Require Import PyBase PyFacts Signature SignatureFacts Expr Model ModelSpec NumPy NumFacts Objective ObjSpec ObjFacts ObjLS ObjLeast ObjDiff Minimizer MinSpec MinFacts MinLemmas Fit FitSpec FitData FitFacts FitCov FitThm FitMain ArrSpec EndSpec EndMain GenSpec.
Local Open Scope R_scope.

Lemma NoDup_map_inj {A B} (g : A -> B) l a b : NoDup (map g l) -> In a l -> In b l -> g a = g b -> a = b.
Proof.
  induction l as [|x l IH]; intros Hn Ha Hb E; [destruct Ha|]. cbn [map] in Hn. apply NoDup_cons_iff in Hn as [Hx Hn].
  destruct Ha as [->|Ha], Hb as [->|Hb]; [reflexivity| | |apply IH; assumption]; exfalso; apply Hx; [rewrite E|rewrite <- E]; apply in_map; assumption.
Qed.

Section Vec.
  Context (h : heap) (ps : list sym) (Hnd : NoDup ps).
  Lemma gpv_at xs p i : nth_error (free_of_list h ps) i = Some p -> (i < List.length xs)%nat -> parameter_value h ps xs p = nth i xs 0.
  Proof using Hnd.
    intros Hi Hl. unfold parameter_value. pose proof (nth_error_In _ _ Hi) as Hin. apply filter_In in Hin as [_ Hf]. apply negb_true_iff in Hf. rewrite Hf.
    rewrite (PyFacts.dget_combine_nth _ _ i p (nth i xs 0)); [reflexivity|apply NoDup_filter; exact Hnd|exact Hi|apply nth_error_nth'; exact Hl].
  Qed.
  Lemma gpv_free xs p : In p ps -> p_fixed (h p) = false -> List.length xs = nfree h ps -> exists i, nth_error (free_of_list h ps) i = Some p /\ (i < List.length xs)%nat /\ parameter_value h ps xs p = nth i xs 0.
  Proof using Hnd.
    intros Hp Hf Hl. assert (Hpf : In p (free_of_list h ps)) by (apply filter_In; rewrite Hf; auto). apply In_nth_error in Hpf as (i & Hi). exists i.
    assert (Hii : (i < List.length xs)%nat) by (rewrite Hl; unfold nfree; apply nth_error_Some; rewrite Hi; discriminate).
    split; [exact Hi|]. split; [exact Hii|apply gpv_at; assumption].
  Qed.
  Lemma gvector_of theta : allowed_for h ps theta -> forall p, In p ps -> parameter_value h ps (map theta (free_of_list h ps)) p = theta p.
  Proof using Hnd.
    intros Ha p Hp. specialize (Ha p Hp). destruct (p_fixed (h p)) eqn:E; [unfold parameter_value; rewrite E; symmetry; exact Ha|].
    destruct (gpv_free (map theta (free_of_list h ps)) p Hp E ltac:(apply map_length)) as (i & Hi & Hl & ->). apply nth_error_nth. apply map_nth_error. exact Hi.
  Qed.
  Lemma gallowed_ext t1 t2 : (forall p, In p ps -> t1 p = t2 p) -> allowed_for h ps t1 -> allowed_for h ps t2.
  Proof using. intros H Ha p Hp. rewrite <- (H p Hp). exact (Ha p Hp). Qed.
  Lemma greported_is x popt p : NoDup (map sname ps) -> List.length x = nfree h ps -> pack_output h ps x = Ok popt -> In p ps -> reported ps popt p = parameter_value h ps x p.
  Proof using Hnd.
    intros Hnn Hl Hp Hin. destruct (pack_ok h ps x Hl) as (popt' & Hp' & Hlen & Hfix & Hfree). rewrite Hp in Hp'. injection Hp' as <-.
    pose proof Hin as Hin'. apply In_nth_error in Hin' as (k & Hk). unfold reported. destruct (p_fixed (h p)) eqn:E.
    - rewrite (result_lookup ps popt k p _ Hnn Hk (Hfix k p Hk E)). unfold parameter_value. rewrite E. reflexivity.
    - destruct (gpv_free x p Hin E Hl) as (i & Hi & Hii & ->).
      rewrite (result_lookup ps popt k p (nth i x 0) Hnn Hk); [reflexivity|].
      rewrite (Hfree p i k Hnd (conj Hi Hk)). apply nth_error_nth'. exact Hii.
  Qed.
End Vec.

Section Gen.
  Context (om : omodel) (len : nat) (toward0 : R -> R) (h : heap) (o : ochoice) (mc : mchoice) (absolute : option bool) (args : list datum) (kw : dict string datum) (f : fit) (sh : sym -> list nat).
  Let fm := {| fm_om := om; fm_len := len |}.
  Notation ps := (om_params om).
  Let Y := the_data om [] args kw.
  Let Sg := the_sigma om [] args kw.
  Let data := objective_data (ft_data f).
  Hypothesis Hcal : callable om.
  Hypothesis Hg : good_names om [].
  Hypothesis Hkw : NoDup (dkeys kw).
  Hypothesis Hf : fit_init toward0 h fm [] o mc absolute args kw = Ok f.
  Hypothesis Hdm : data_matches om sh Y Sg.

  Lemma gnames : NoDup (map sname ps).
  Proof using Hcal. destruct Hcal as (Hi & _). exact (params_names om Hi). Qed.
  Lemma gnodup : NoDup ps.
  Proof using Hcal. exact (NoDup_map_of _ _ gnames). Qed.
  Lemma gdata_is v : In v (om_indep om ++ om_dep om) -> dget data v = Some (Y v).
  Proof using Hg Hkw Hf.
    intros Hv. destruct (fit_stored toward0 h fm [] o mc absolute Hg args kw f Hkw Hf) as (_ & H & _).
    unfold data. rewrite objective_data_get, (H v Hv). cbn [option_map]. rewrite datum_as_given. reflexivity.
  Qed.
  Lemma gobserved v : In v (om_indep om ++ om_dep om) -> observed data v = Y v.
  Proof using Hg Hkw Hf. intros Hv. unfold observed. rewrite (gdata_is v Hv). reflexivity. Qed.
  Lemma gsigma v : In v (om_dep om) -> observed data (sigma_of v) = Sg v.
  Proof using Hg Hkw Hf.
    intros Hv. destruct (fit_sigmas toward0 h fm [] o mc absolute Hg args kw f Hkw Hf) as (H & _).
    unfold observed, data. rewrite objective_data_get, (H v Hv). reflexivity.
  Qed.
  Lemma gdep_names : NoDup (map sname (om_dep om)).
  Proof using Hg. destruct Hg as (Hn & _). rewrite !map_app in Hn. apply NoDup_app_split in Hn as (_ & Hn & _). apply NoDup_app_split in Hn as (Hn & _). exact Hn. Qed.
  Lemma gindep_given : independent_data_given om data.
  Proof using Hg Hkw Hf Hdm.
    intros v Hv. destruct Hdm as (Hi & _). specialize (Hi v Hv). rewrite gdata_is by (apply in_or_app; auto). destruct (Y v) as [a|]; [eauto|congruence].
  Qed.
  Lemma gsome : some_data om data.
  Proof using Hg Hkw Hf Hdm.
    destruct Hdm as (_ & _ & v & Hv & Hy). destruct (Y v) as [y|] eqn:E; [|congruence]. exists v, y. split; [exact Hv|]. rewrite gobserved by (apply in_or_app; auto). exact E.
  Qed.

  (** *** what the objective makes the model see *)
  Lemma gseen_inputs xs d : List.length xs = nfree h ps -> arguments_are d (seen h om data xs []) -> inputs_for om Y (parameter_value h ps xs) d.
  Proof using Hcal Hg Hkw Hf Hdm.
    intros Hl [Hn Hd]. split; [exact Hn|]. intros n a. rewrite Hd. pose proof Hcal as ((_ & Hnn & _) & _). rewrite map_app in Hnn. apply NoDup_app_split in Hnn as (Hni & Hnp & Hdj). unfold seen.
    destruct (find (fun v => eqb (sname v) n) (om_indep om)) as [v|] eqn:E.
    - apply find_some in E as [Hv Hen]. apply (proj1 (eqb_true _ _)) in Hen. rewrite gdata_is by (apply in_or_app; auto). split.
      + intros Ha. left. exists v. auto.
      + intros [(w & Hw & Hs & Ha)|(p & Hp & Hs & _)].
        * replace v with w; [exact Ha|]. apply (NoDup_map_inj sname (om_indep om)); try assumption. congruence.
        * exfalso. apply (Hdj n); [rewrite <- Hen; apply in_map; exact Hv|rewrite <- Hs; apply in_map; exact Hp].
    - assert (Hno : forall v, In v (om_indep om) -> sname v <> n).
      { intros v Hv He. pose proof (find_none _ _ E v Hv) as H. cbv beta in H. rewrite <- He, eqb_refl in H. discriminate. }
      destruct (find (fun p => eqb (sname p) n && p_fixed (h p)) ps) as [p|] eqn:E2.
      + apply find_some in E2 as [Hp Hc]. apply andb_true_iff in Hc as [Hen Hfx]. apply (proj1 (eqb_true _ _)) in Hen. split.
        * intros Ha. injection Ha as <-. right. exists p. split; [exact Hp|]. split; [exact Hen|]. unfold parameter_value. rewrite Hfx. reflexivity.
        * intros [(w & Hw & Hs & _)|(q & Hq & Hs & ->)]; [exfalso; exact (Hno w Hw Hs)|].
          assert (q = p) by (apply (NoDup_map_inj sname ps); try assumption; congruence). subst q. unfold parameter_value. rewrite Hfx. reflexivity.
      + set (free := filter (fun p => negb (p_fixed (h p))) ps).
        assert (Hfree : NoDup (map sname free)) by (apply NoDup_map_filter; exact Hnp).
        assert (Hkey : forall q i, nth_error free i = Some q -> exists x, nth_error xs i = Some x /\ dget (combine (map sname free) xs) (sname q) = Some x /\ parameter_value h ps xs q = x).
        { intros q i Hi. assert (Hii : (i < List.length xs)%nat) by (rewrite Hl; unfold nfree; apply nth_error_Some; unfold free_of_list; fold free; rewrite Hi; discriminate).
          exists (nth i xs 0). split; [apply nth_error_nth'; exact Hii|]. split; [|apply gpv_at; [exact gnodup|exact Hi|exact Hii]].
          apply (PyFacts.dget_combine_nth _ _ i); [exact Hfree|apply map_nth_error; exact Hi|apply nth_error_nth'; exact Hii]. }
        destruct (dget (combine (map sname free) xs) n) as [x|] eqn:E3.
        * assert (Hq : exists q, In q free /\ sname q = n).
          { apply dget_In in E3. apply in_combine_l in E3. apply in_map_iff in E3 as (q & Hs & Hq). eauto. }
          destruct Hq as (q & Hq & Hs). pose proof Hq as Hq'. apply In_nth_error in Hq' as (i & Hi). destruct (Hkey q i Hi) as (x' & _ & Hx & Hpv). rewrite Hs, E3 in Hx. injection Hx as <-.
          apply filter_In in Hq as [Hq _]. split.
          -- intros Ha. injection Ha as <-. right. exists q. split; [exact Hq|]. split; [exact Hs|]. rewrite Hpv. reflexivity.
          -- intros [(w & Hw & Hs' & _)|(r & Hr & Hs' & ->)]; [exfalso; exact (Hno w Hw Hs')|].
             assert (r = q) by (apply (NoDup_map_inj sname ps); try assumption; congruence). subst r. rewrite Hpv. reflexivity.
        * cbn [dget option_map]. split; [discriminate|]. intros [(w & Hw & Hs' & _)|(r & Hr & Hs' & ->)]; [exfalso; exact (Hno w Hw Hs')|]. exfalso.
          destruct (p_fixed (h r)) eqn:Hfx.
          -- pose proof (find_none _ _ E2 r Hr) as H. cbv beta in H. rewrite <- Hs', eqb_refl, Hfx in H. discriminate.
          -- assert (Hrf : In r free) by (apply filter_In; rewrite Hfx; auto). apply In_nth_error in Hrf as (i & Hi). destruct (Hkey r i Hi) as (x' & _ & Hx & _). rewrite Hs', E3 in Hx. discriminate.
  Qed.
  Lemma gargs ob b xs : obj_init b om data = Ok ob -> exists d, arguments_are d (seen h om data xs []).
  Proof using Hcal Hg Hkw Hf Hdm.
    intros Hob. pose proof Hcal as (Hi & _). destruct (inv_ok h om data ob b Hi Hob gindep_given) as (inv & Hinv). exists (prepare h om inv xs []). apply (prepare_seen h om data b ob Hi Hob inv xs [] Hinv). constructor.
  Qed.

  Lemma gchosen : objective_chosen o mc OLS -> om_indep om <> [] \/ (exists v vs, om_dep om = v :: vs /\ Y v <> None) ->
    ft_class f = OLS /\ obj_init false om data = Ok (ft_obj f) /\ forall c ob, o <> OInst c ob.
  Proof using Hg Hkw Hf Hdm.
    intros [Ho Hmc] Hi. assert (Hcl : ft_class f = OLS).
    { destruct Ho as [E|E].
      - destruct Hdm as (_ & _ & v0 & Hv0 & _). destruct (om_dep om) as [|v vs] eqn:Ed; [destruct Hv0|]. pose proof Hf as Hf'. rewrite E in Hf'.
        destruct (default_objective_rule toward0 h fm [] mc absolute args kw Hg Hkw f v vs Hf' Ed) as [(H & _)|[(_ & _ & H2 & H3 & _)|(_ & _ & H)]]; [contradiction| |exact H].
        exfalso. destruct Hi as [Hi|(w & ws & Hw & Hy)]; [exact (Hi H2)|]. injection Hw as <- <-. apply Hy. unfold Y, the_data, data_for. change (fm_om fm) with om in H3.
        destruct (given (argument_names om []) args kw (sname v)); [discriminate|reflexivity].
      - exact (proj1 (explicit_objective toward0 h fm [] mc absolute args kw Hg Hkw o OLS f Hf (or_introl E))). }
    split; [exact Hcl|]. destruct (fit_init_inv toward0 h fm [] o mc absolute args kw f Hf) as (t & _ & _ & _ & H & _).
    split; [|intros c ob E; destruct Ho as [E'|E']; rewrite E' in E; discriminate].
    destruct o as [|c|c ob]; [| |destruct Ho; discriminate]; rewrite Hcl in H; exact H.
  Qed.

  (** *** least squares *)
  Hypothesis Hcls : ft_class f = OLS.
  Hypothesis Hmade : obj_init false om data = Ok (ft_obj f).
  Lemma gcreated : created false om data (ft_obj f) [].
  Proof using Hcal Hg Hkw Hf Hdm Hmade.
    destruct Hcal as (Hi & Hb). split; [exact Hi|]. split; [exact Hb|]. split; [exact gdep_names|]. split; [exact Hmade|]. split; [constructor|exact gindep_given].
  Qed.
  Lemma gvalue_at xs P : List.length xs = nfree h ps -> predicts om Y sh (parameter_value h ps xs) P -> exists out,
    value_at h om data xs [] out /\ fits_data om data out /\
    forall v, In v (om_dep om) -> shp (entry out v) = sh v /\ forall i, In i (indices (sh v)) -> val (entry out v) i = P v i.
  Proof using Hcal Hg Hkw Hf Hdm Hmade.
    intros Hl HP. destruct (gargs (ft_obj f) false xs Hmade) as (d & Hd). destruct (HP d (gseen_inputs xs d Hl Hd)) as (out & Ho & Hli & Hout).
    exists out. split; [exists d; auto|]. split; [|exact Hout]. intros v y Hv Hy. rewrite gobserved in Hy by (apply in_or_app; auto).
    destruct Hdm as (_ & Hdd & _). destruct (Hdd v y Hv Hy) as (Hs & s & Hsg & Hfs & Hnz). split; [|exists s; rewrite gsigma by exact Hv; auto].
    unfold stretches. rewrite (proj1 (Hout v Hv)), Hs, Nat.sub_diag. apply fits_refl.
  Qed.
  Lemma gat_point out v y i P : In v (om_dep om) -> Y v = Some y -> In i (indices (shp y)) -> shp (entry out v) = sh v -> (forall i, In i (indices (sh v)) -> val (entry out v) i = P v i) ->
    at_point (entry out v) y i = P v i.
  Proof using Hdm.
    intros Hv Hy Hi Hs HP. destruct Hdm as (_ & Hdd & _). destruct (Hdd v y Hv Hy) as (Hsy & _). unfold at_point. rewrite Hs, Hsy, Nat.sub_diag. cbn [skipn].
    rewrite Hsy in Hi. rewrite elem_val by (rewrite Hs; exact Hi). apply HP. exact Hi.
  Qed.
  Lemma ghalf out P : (forall v, In v (om_dep om) -> shp (entry out v) = sh v /\ forall i, In i (indices (sh v)) -> val (entry out v) i = P v i) ->
    half_chi2 data out (om_dep om) = / 2 * chi2_with P (om_dep om) Y Sg.
  Proof using Hg Hkw Hf Hdm.
    intros Hout. unfold half_chi2, chi2_with. f_equal. apply Rsum_ext. intros v Hv. unfold chi2_of. rewrite gobserved by (apply in_or_app; auto). rewrite gsigma by exact Hv.
    destruct (Y v) as [y|] eqn:Hy; [|reflexivity]. destruct (Sg v) as [s|]; [|reflexivity]. apply Rsum_ext. intros i Hi. do 3 f_equal.
    destruct (Hout v Hv) as (H1 & H2). exact (gat_point out v y i P Hv Hy Hi H1 H2).
  Qed.
  Lemma gobj xs P : List.length xs = nfree h ps -> predicts om Y sh (parameter_value h ps xs) P ->
    obj_value OLS h om (ft_obj f) xs [] = Ok (scalar (/ 2 * chi2_with P (om_dep om) Y Sg)).
  Proof using Hcal Hg Hkw Hf Hdm Hmade.
    intros Hl HP. destruct (gvalue_at xs P Hl HP) as (out & Hv & Hfi & Hout). cbn [obj_value].
    rewrite (ls_value h om data (ft_obj f) [] gcreated xs out Hv Hfi). cbn [bind]. rewrite (ghalf out P Hout). reflexivity.
  Qed.
  Lemma gjac_at xs P J : List.length xs = nfree h ps -> predicts om Y sh (parameter_value h ps xs) P -> predicts_jac om Y sh (parameter_value h ps xs) J -> exists out jac,
    value_at h om data xs [] out /\ fits_data om data out /\ jacobian_at h om data xs [] out jac /\
    (forall v, In v (om_dep om) -> shp (entry out v) = sh v /\ forall i, In i (indices (sh v)) -> val (entry out v) i = P v i) /\
    forall v i k, In v (om_dep om) -> In i (indices (sh v)) -> (k < List.length ps)%nat -> val (entry jac v) (i ++ [k]) = J v i k.
  Proof using Hcal Hg Hkw Hf Hdm Hmade.
    intros Hl HP HJ. destruct (gvalue_at xs P Hl HP) as (out & Hv & Hfi & Hout). destruct (gargs (ft_obj f) false xs Hmade) as (d & Hd).
    destruct (HJ d (gseen_inputs xs d Hl Hd)) as (fn & jac & Hfn & Hj & Hli & Hjac). exists out, jac. split; [exact Hv|]. split; [exact Hfi|]. split; [|split; [exact Hout|]].
    - split; [exists fn; split; [exact Hfn|]; exists d; auto|]. intros v Hvd. rewrite (proj1 (Hjac v Hvd)), (proj1 (Hout v Hvd)). split; [reflexivity|].
      intros y Hy He. rewrite gobserved in Hy by (apply in_or_app; auto). destruct Hdm as (_ & Hdd & _). destruct (Hdd v y Hvd Hy) as (Hs & _).
      rewrite Hs in He. apply (f_equal (@List.length nat)) in He. rewrite app_length in He. cbn [List.length] in He. clear -He. lia.
    - intros v i k Hvd Hi Hk. exact (proj2 (Hjac v Hvd) i k Hi Hk).
  Qed.
  Lemma gpt out v y i : In v (om_dep om) -> Y v = Some y -> In i (indices (shp y)) -> shp (entry out v) = sh v -> pt out v y i = i /\ In i (indices (sh v)).
  Proof using Hdm.
    intros Hv Hy Hi Hs. destruct Hdm as (_ & Hdd & _). destruct (Hdd v y Hv Hy) as (Hsy & _). unfold pt. rewrite Hs, <- Hsy, Nat.sub_diag. cbn [skipn].
    split; [apply bidx_id; exact Hi|exact Hi].
  Qed.
  Lemma ggrad xs P J : List.length xs = nfree h ps -> predicts om Y sh (parameter_value h ps xs) P -> predicts_jac om Y sh (parameter_value h ps xs) J ->
    exists g, obj_jacobian OLS h om (ft_obj f) xs [] = Ok (Some g) /\ shp g = [List.length ps] /\
      forall k, (k < List.length ps)%nat -> val g [k] = chi2_gradient P (fun v i => J v i k) (om_dep om) Y Sg.
  Proof using Hcal Hg Hkw Hf Hdm Hmade.
    intros Hl HP HJ. destruct (gjac_at xs P J Hl HP HJ) as (out & jac & Hv & Hfi & Hj & Hout & Hjac).
    destruct (ls_gradient h om data (ft_obj f) [] gcreated xs out jac Hv Hfi Hj gsome) as (g & Hgr & Hsg & Hvg). exists g. split; [cbn [obj_jacobian]; rewrite Hgr; reflexivity|]. split; [exact Hsg|].
    intros k Hk. rewrite (Hvg k Hk). unfold chi2_gradient. apply Rsum_ext. intros v Hvd. unfold grad_of. rewrite gobserved by (apply in_or_app; auto). rewrite gsigma by exact Hvd.
    destruct (Y v) as [y|] eqn:Hy; [|reflexivity]. destruct (Sg v) as [s|]; [|reflexivity]. apply Rsum_ext. intros i Hi. destruct (Hout v Hvd) as (H1 & H2).
    destruct (gpt out v y i Hvd Hy Hi H1) as (-> & Hi'). rewrite (Hjac v i k Hvd Hi' Hk), (gat_point out v y i P Hvd Hy Hi H1 H2). reflexivity.
  Qed.

  (** *** the minimizer *)
  Lemma gmade_class cls mn : init_class h om [] data (ft_class f) (ft_obj f) cls = Ok mn ->
    exists jac hess cs, minimizer_init h cls ps jac hess cs = Ok mn /\ (is_gradient cls = true -> om_jac om <> None -> jac = Some (as_fn (fun xs => obj_jacobian (ft_class f) h om (ft_obj f) xs []))).
  Proof using.
    unfold init_class. intros H. apply bind_Ok in H as (cs & _ & H). eexists _, _, _. split; [exact H|]. intros -> Hj. destruct (om_jac om); [reflexivity|congruence].
  Qed.
  Lemma gitem_class cls : init_item toward0 h om [] data (ft_class f) (ft_obj f) (MCls cls) = Ok (ft_min f) ->
    exists mn local, ft_min f = FMin mn local /\ mi_class mn = cls /\ init_class h om [] data (ft_class f) (ft_obj f) cls = Ok mn.
  Proof using.
    intros H. destruct cls; cbn [init_item] in H;
      try (apply bind_Ok in H as (mn & Hmn & H); injection H as H; exists mn, None; split; [symmetry; exact H|]; split; [exact (proj1 (init_class_cls _ _ _ _ _ _ _ _ Hmn))|exact Hmn]).
    apply bind_Ok in H as (lc & _ & H). apply bind_Ok in H as (mn & Hmn & H). injection H as H. exists mn, (Some lc). split; [symmetry; exact H|]. split; [exact (proj1 (init_class_cls _ _ _ _ _ _ _ _ Hmn))|exact Hmn].
  Qed.
  Lemma gmin_made : suitable_class h ps mc -> exists mn local, ft_min f = FMin mn local /\ chosen_class h om [] mc (mi_class mn) /\
    init_class h om [] data (ft_class f) (ft_obj f) (mi_class mn) = Ok mn /\ mi_class mn <> MINPACK /\
    (uses_bounds (mi_class mn) = true \/ forall p, In p ps -> p_fixed (h p) = true \/ (p_min (h p) = None /\ p_max (h p) = None)).
  Proof using Hf.
    intros Hs. destruct (fit_init_inv toward0 h fm [] o mc absolute args kw f Hf) as (t & _ & _ & _ & _ & H).
    destruct Hs as [E|(c & E & Hc & Hb & Hu)]; rewrite E in H; cbn [init_choice fm fm_om] in H.
    - pose proof (minimizer_rule toward0 h om []) as He. set (cls := determine_minimizer toward0 h om []) in *.
      assert (Hq : cls <> MINPACK) by (destruct He as [(_ & ->)|[(_ & _ & ->)|(_ & _ & ->)]]; discriminate).
      destruct (gitem_class cls H) as (mn & lc & H1 & H2 & H3). exists mn, lc. rewrite H2. split; [exact H1|]. split; [left; auto|]. split; [exact H3|]. split; [exact Hq|].
      destruct He as [(Hne & ->)|[(Hne & _ & ->)|(Hne & Hnb & ->)]]; [left; reflexivity|left; reflexivity|]. right.
      intros p Hp. right. split; [destruct (p_min (h p)) eqn:Ep|destruct (p_max (h p)) eqn:Ep]; try reflexivity; exfalso; apply Hnb; exists p; (split; [exact Hp|]); right; [left|right]; rewrite Ep; discriminate.
    - destruct (gitem_class c H) as (mn & lc & H1 & H2 & H3). exists mn, lc. rewrite H2. split; [exact H1|]. split; [right; exact E|]. auto.
  Qed.
  Lemma gno_constraints mn : init_class h om [] data (ft_class f) (ft_obj f) (mi_class mn) = Ok mn -> pb_cons (execute_problem h mn DNone DNone) = [].
  Proof using Hcal.
    unfold init_class. intros H. apply bind_Ok in H as (cs & Hcs & H). rewrite pb_cons_eq. destruct (is_constrained (mi_class mn)) eqn:E; [|reflexivity].
    assert (Ecs : cs = []) by (cbn in Hcs; congruence). subst cs.
    destruct (constraints_handed h (mi_class mn) ps _ _ [] mn DNone DNone H E gnodup) as (Hl & _). rewrite pb_cons_eq, E in Hl. destruct (wrapped_constraints mn); [reflexivity|discriminate].
  Qed.
  Lemma gfeasible mn x : init_class h om [] data (ft_class f) (ft_obj f) (mi_class mn) = Ok mn ->
    (uses_bounds (mi_class mn) = true \/ forall p, In p ps -> p_fixed (h p) = true \/ (p_min (h p) = None /\ p_max (h p) = None)) ->
    List.length x = nfree h ps -> feasible (execute_problem h mn DNone DNone) x <-> allowed_for h ps (parameter_value h ps x).
  Proof using Hcal.
    intros Hini Hb Hl. destruct (gmade_class _ mn Hini) as (jac & hess & cs & Hmi & _). unfold feasible. rewrite (gno_constraints mn Hini).
    rewrite (box_is_bounds h (mi_class mn) ps jac hess cs mn (nfree h ps) x Hmi eq_refl Hb Hl). unfold allowed_for. split.
    - intros (H & _) p Hp. destruct (p_fixed (h p)) eqn:E; [unfold parameter_value; rewrite E; reflexivity|].
      destruct (gpv_free h ps gnodup x p Hp E Hl) as (i & Hi & Hii & ->). apply (H i p _ Hi). apply nth_error_nth'. exact Hii.
    - intros H. split; [|intros k []]. intros i p v Hp Hv. pose proof (nth_error_In _ _ Hp) as Hin. apply filter_In in Hin as [Hin Hfx]. apply negb_true_iff in Hfx. specialize (H p Hin). rewrite Hfx in H.
      assert (Hii : (i < List.length x)%nat) by (apply nth_error_Some; congruence). rewrite (gpv_at h ps gnodup x p i Hp Hii) in H. rewrite (nth_error_nth x i 0 Hv) in H. exact H.
  Qed.
  Lemma gstart mn : init_class h om [] data (ft_class f) (ft_obj f) (mi_class mn) = Ok mn ->
    pb_x0 (execute_problem h mn DNone DNone) = (match mi_class mn with DifferentialEvolution => None | _ => Some (map (fun p => p_value (h p)) (free_of_list h ps)) end).
  Proof using.
    intros Hini. destruct (gmade_class _ mn Hini) as (jac & hess & cs & Hmi & _).
    destruct (problem_vectors h (mi_class mn) ps jac hess cs mn DNone DNone Hmi) as (Hx0 & _). exact Hx0.
  Qed.
  Lemma ggradient mn : init_class h om [] data (ft_class f) (ft_obj f) (mi_class mn) = Ok mn -> mi_class mn <> MINPACK -> om_jac om <> None -> uses_jacobian (mi_class mn) = true ->
    exists w, pb_jac (execute_problem h mn DNone DNone) = DFun w /\
      forall x P J, List.length x = nfree h ps -> predicts om Y sh (parameter_value h ps x) P -> predicts_jac om Y sh (parameter_value h ps x) J ->
        exists g, w x = Ok g /\ shp g = [nfree h ps] /\ forall i k p, nth_error (free_of_list h ps) i = Some p -> nth_error ps k = Some p ->
          val g [i] = chi2_gradient P (fun v n => J v n k) (om_dep om) Y Sg.
  Proof using Hcal Hg Hkw Hf Hdm Hmade Hcls.
    intros Hini Hnm Hj Hgr. rewrite <- gradient_uses in Hgr. destruct (gmade_class _ mn Hini) as (jac & hess & cs & Hmi & Hjac). specialize (Hjac Hgr Hj). subst jac.
    destruct (jac_reaches h (mi_class mn) ps _ hess cs mn Hmi Hgr Hnm gnodup) as (w & Hw & Hr). exists w. split; [exact Hw|]. intros x P J Hl HP HJ.
    destruct (ggrad x P J Hl HP HJ) as (a & Ha & Hsa & Hva).
    destruct (Hr x a) as (g & Hwg & Hsg & Hvg); [unfold as_fn; rewrite Hcls, Ha; reflexivity|exists 0%nat; exact Hsa|].
    exists g. split; [exact Hwg|]. split; [exact Hsg|]. intros i k p Hi Hk. rewrite (Hvg p i k (conj Hi Hk)). unfold gradient_entry. rewrite Hsa. cbn [List.length Nat.sub repeat app].
    apply Hva. apply nth_error_Some. congruence.
  Qed.
  (** predictions depend on the parameters of the model only *)
  (** without a Jacobian no function for the gradient reaches scipy *)
  Lemma gno_gradient mn : init_class h om [] data (ft_class f) (ft_obj f) (mi_class mn) = Ok mn -> om_jac om = None -> forall w, pb_jac (execute_problem h mn DNone DNone) <> DFun w.
  Proof using.
    unfold init_class. intros H Hj w. apply bind_Ok in H as (cs & _ & H). rewrite Hj in H.
    destruct (init_fields _ _ _ _ _ _ _ H) as (_ & _ & _ & _ & _ & Hmj & _).
    assert (Hn : mi_jacobian mn = None) by (rewrite Hmj; destruct (is_gradient (mi_class mn)); reflexivity).
    unfold execute_problem, wrapped_jacobian. rewrite Hn. destruct (mi_class mn); cbn; try discriminate. destruct (mi_hessian mn); discriminate.
  Qed.
  Lemma gpredicts_same t1 t2 P1 P2 : (forall p, In p ps -> t1 p = t2 p) -> (exists d, inputs_for om Y t1 d) -> predicts om Y sh t1 P1 -> predicts om Y sh t2 P2 ->
    chi2_with P1 (om_dep om) Y Sg = chi2_with P2 (om_dep om) Y Sg.
  Proof using Hdm.
    intros He (d & Hd) H1 H2. assert (Hd2 : inputs_for om Y t2 d).
    { destruct Hd as [Hn Hd]. split; [exact Hn|]. intros n a. rewrite Hd. split; intros [H|(p & Hp & Hs & Ha)]; auto; right; exists p; rewrite He in * by exact Hp; auto. }
    destruct (H1 d Hd) as (out & Ho & _ & Hv1). destruct (H2 d Hd2) as (out2 & Ho2 & _ & Hv2). rewrite Ho in Ho2. injection Ho2 as <-.
    unfold chi2_with. apply Rsum_ext. intros v Hv. destruct (Y v) as [y|] eqn:Hy; [|reflexivity]. destruct (Sg v); [|reflexivity]. apply Rsum_ext. intros i Hi.
    destruct Hdm as (_ & Hdd & _). destruct (Hdd v y Hv Hy) as (Hs & _). rewrite Hs in Hi. rewrite <- (proj2 (Hv1 v Hv) i Hi), <- (proj2 (Hv2 v Hv) i Hi). reflexivity.
  Qed.
  Lemma gbest mn x popt (P : (sym -> R) -> sym -> list nat -> R) : init_class h om [] data (ft_class f) (ft_obj f) (mi_class mn) = Ok mn ->
    (uses_bounds (mi_class mn) = true \/ forall p, In p ps -> p_fixed (h p) = true \/ (p_min (h p) = None /\ p_max (h p) = None)) ->
    (forall theta, allowed_for h ps theta -> predicts om Y sh theta (P theta)) ->
    minimises (fun z => obj_value OLS h om (ft_obj f) z []) (execute_problem h mn DNone DNone) (nfree h ps) x -> pack_output h ps x = Ok popt ->
    allowed_for h ps (reported ps popt) /\
    forall theta, allowed_for h ps theta -> chi2_with (P (reported ps popt)) (om_dep om) Y Sg <= chi2_with (P theta) (om_dep om) Y Sg.
  Proof using Hcal Hg Hkw Hf Hdm Hmade Hcls.
    intros Hini Hb HP (Hl & Hfx & Hbest) Hp. pose proof (greported_is h ps gnodup x popt) as Hrep.
    assert (Hax : allowed_for h ps (parameter_value h ps x)) by (apply (gfeasible mn x Hini Hb Hl); exact Hfx).
    assert (Har : allowed_for h ps (reported ps popt)) by (apply (gallowed_ext h ps (parameter_value h ps x)); [intros p Hin; symmetry; apply Hrep; try assumption; exact gnames|exact Hax]).
    split; [exact Har|]. intros theta Ha. pose (x' := map theta (free_of_list h ps)). assert (Hl' : List.length x' = nfree h ps) by apply map_length.
    pose proof (gvector_of h ps gnodup theta Ha) as Hvec. fold x' in Hvec.
    assert (Hax' : allowed_for h ps (parameter_value h ps x')) by (apply (gallowed_ext h ps theta); [intros p Hin; symmetry; apply Hvec; exact Hin|exact Ha]).
    assert (Hfx' : feasible (execute_problem h mn DNone DNone) x') by (apply (gfeasible mn x' Hini Hb Hl'); exact Hax').
    pose proof (Hbest x' _ _ Hl' Hfx' (gobj x _ Hl (HP _ Hax)) (gobj x' _ Hl' (HP _ Hax'))) as Hle. rewrite !elem_scalar in Hle.
    assert (E1 : chi2_with (P (parameter_value h ps x)) (om_dep om) Y Sg = chi2_with (P (reported ps popt)) (om_dep om) Y Sg).
    { destruct (gargs (ft_obj f) false x Hmade) as (d & Hd).
      apply (gpredicts_same (parameter_value h ps x) (reported ps popt)); [intros p Hin; symmetry; apply Hrep; try assumption; exact gnames|exists d; exact (gseen_inputs x d Hl Hd)|exact (HP _ Hax)|exact (HP _ Har)]. }
    assert (E2 : chi2_with (P (parameter_value h ps x')) (om_dep om) Y Sg = chi2_with (P theta) (om_dep om) Y Sg).
    { destruct (gargs (ft_obj f) false x' Hmade) as (d & Hd).
      apply (gpredicts_same (parameter_value h ps x') theta); [intros p Hin; apply Hvec; assumption|exists d; exact (gseen_inputs x' d Hl' Hd)|exact (HP _ Hax')|exact (HP _ Ha)]. }
    rewrite <- E1, <- E2. lra.
  Qed.

  (** *** the covariance matrix *)
  Hypothesis Hbare : no_bare_numbers om [] args kw.
  Lemma gproper : proper_data om [] args kw.
  Proof using Hdm Hbare.
    split; [|exact Hbare]. intros v Hv Hq. destruct Hdm as (Hi & _). apply (Hi v Hv). unfold Y, the_data. rewrite Hq. reflexivity.
  Qed.
  Lemma gpoints G : (forall v, In v (om_dep om) -> sh v = G) -> counted_points om (ft_data f) = List.length (indices G).
  Proof using Hg Hkw Hf Hdm Hbare.
    intros HG. destruct Hdm as (_ & Hd & v0 & Hv0 & Hy0).
    assert (Hst : forall v, In v (om_dep om) -> stored (ft_data f) v = Some (as_given (data_for om [] args kw v))).
    { intros v Hv. destruct (fit_stored toward0 h fm [] o mc absolute Hg args kw f Hkw Hf) as (_ & H & _). apply H. apply in_or_app; auto. }
    assert (Hsh : forall v s, In v (om_dep om) -> In s (match stored (ft_data f) v with Some (DArr a) => [shp a] | _ => [] end) -> s = G).
    { intros v s Hv Hs. rewrite (Hst v Hv) in Hs. rewrite <- (HG v Hv). destruct (data_for om [] args kw v) as [|r|a|a] eqn:E; cbn [as_given] in Hs; try contradiction;
        (destruct Hs as [<-|[]]; apply (Hd v a Hv); unfold Y, the_data; rewrite E; reflexivity). }
    unfold counted_points, dependent_shapes. rewrite (dedup_const _ G).
    - cbn [map fold_right]. rewrite Nat.add_0_r. reflexivity.
    - intros Hn. assert (Hin : In G (concat (map (fun v => match stored (ft_data f) v with Some (DArr a) => [shp a] | _ => [] end) (om_dep om)))); [|rewrite Hn in Hin; exact Hin].
      apply in_concat. exists (match stored (ft_data f) v0 with Some (DArr a) => [shp a] | _ => [] end). split; [apply in_map_iff; exists v0; auto|].
      pose proof (Hsh v0) as Hs0. rewrite (Hst v0 Hv0) in Hs0 |- *. pose proof (fun r => Hbare v0 r (in_or_app _ _ _ (or_intror Hv0))) as Hb.
      unfold Y, the_data in Hy0. destruct (data_for om [] args kw v0) as [|r|a|a] eqn:E; cbn [as_given datum_nd] in *;
        [congruence|exfalso; exact (Hb r eq_refl)|left; apply Hs0; [exact Hv0|left; reflexivity]|left; apply Hs0; [exact Hv0|left; reflexivity]].
    - intros s Hs. apply in_concat in Hs as (l & Hl & Hs). apply in_map_iff in Hl as (v & <- & Hv). exact (Hsh v s Hv Hs).
  Qed.
  Hypothesis Hoc : forall c ob, o <> OInst c ob.
  Lemma ganswers fn x popt oo : List.length x = nfree h ps -> pack_output h ps x = Ok popt ->
    answers fn h om data x [] oo -> answers fn h om data [] (named_values om popt) oo.
  Proof using Hcal.
    intros Hl Hp (d & [Hd1 Hd2] & Hc & Hli). exists d. split; [|split; [exact Hc|exact Hli]]. split; [exact Hd1|]. intros n. rewrite Hd2.
    exact (seen_result h om data x popt (proj1 Hcal) Hl Hp n).
  Qed.
  Lemma gls : least_squares o (ft_class f).
  Proof using Hcls Hoc. split; [exact Hoc|left; exact Hcls]. Qed.
  Lemma gcovariance inv x P J G : inverts inv -> om_hess om = None -> (forall v, In v (om_dep om) -> sh v = G) -> List.length x = nfree h ps ->
    predicts om Y sh (parameter_value h ps x) P -> predicts_jac om Y sh (parameter_value h ps x) J ->
    exists popt cov K, fit_execute inv h om f x = Ok (popt, cov) /\ pack_output h ps x = Ok popt /\
      let n := List.length ps in
      let s2 := variance_scale (ft_absolute f) (chi2_with P (om_dep om) Y Sg) (INR (List.length (indices G)) - INR n) in
      square n K /\ inverse_or_none n s2 K cov /\
      forall k l, (k < n)%nat -> (l < n)%nat -> mat K k l = weighted_products (fun v i => J v i k) (fun v i => J v i l) (om_dep om) Y Sg.
  Proof using Hcal Hg Hkw Hf Hdm Hmade Hcls Hbare Hoc.
    intros Hinv Hh HG Hl HP HJ. destruct (pack_ok h ps x Hl) as (popt & Hp & _). destruct (gjac_at x P J Hl HP HJ) as (out & jac & Hv & Hfi & Hj & Hout & Hjac).
    assert (Hev : evaluated h om data popt out jac).
    { split; [exact (ganswers _ x popt out Hl Hp Hv)|]. split; [exact Hfi|]. split; [|exact gsome]. destruct Hj as [(fn & Hfn & Ha) Hs]. split; [exists fn; split; [exact Hfn|exact (ganswers _ x popt jac Hl Hp Ha)]|exact Hs]. }
    destruct (fit_covariance_approx inv toward0 h fm [] o mc absolute args kw f Hg Hkw Hf gproper x popt out jac Hinv Hcal gls Hp Hev (or_intror Hh)) as (K & cov & HK & Hsq & Hex & Hio).
    exists popt, cov, K. split; [exact Hex|]. split; [exact Hp|]. cbv zeta. split; [exact Hsq|]. split.
    - assert (E : chi2_with P (om_dep om) Y Sg = Rsum (map (chi2_of data out) (om_dep om))). { pose proof (ghalf out P Hout) as H. unfold half_chi2 in H. lra. }
      rewrite E, <- (gpoints G HG). exact Hio.
    - intros k l Hk Hl'. pose proof (fit_created toward0 h fm [] o mc absolute args kw f Hg Hkw Hf gproper popt Hcal gls) as Hcr. destruct Hev as (Hv' & _ & Hj' & _).
      destruct (ls_approx h om data (ft_obj f) (named_values om popt) Hcr [] out jac Hv' Hfi Hj' gsome) as (K' & HK' & _ & HvK).
      change (fm_om fm) with om in HK. rewrite HK in HK'. injection HK' as <-. unfold mat. rewrite (HvK k l Hk Hl'). unfold weighted_products. apply Rsum_ext. intros v Hvd.
      unfold jtwj_of. rewrite gobserved by (apply in_or_app; auto). rewrite gsigma by exact Hvd.
      destruct (Y v) as [y|] eqn:Hy; [|reflexivity]. destruct (Sg v) as [s|]; [|reflexivity]. apply Rsum_ext. intros i Hi. destruct (Hout v Hvd) as (H1 & _).
      destruct (gpt out v y i Hvd Hy Hi H1) as (-> & Hi'). rewrite !(Hjac v i) by assumption. reflexivity.
  Qed.
  (** without a Jacobian there is no covariance matrix *)
  Lemma gno_covariance inv x P : om_hess om = None -> om_jac om = None -> List.length x = nfree h ps -> predicts om Y sh (parameter_value h ps x) P ->
    exists popt, pack_output h ps x = Ok popt /\ fit_execute inv h om f x = Ok (popt, None).
  Proof using Hcal Hg Hkw Hf Hdm Hmade Hcls Hbare Hoc.
    intros Hh Hj Hl HP. destruct (pack_ok h ps x Hl) as (popt & Hp & _). exists popt. split; [exact Hp|]. unfold fit_execute. rewrite Hp. cbn [bind].
    destruct (gvalue_at x P Hl HP) as (out & Hv & Hfi & _).
    pose proof (fit_created toward0 h fm [] o mc absolute args kw f Hg Hkw Hf gproper popt Hcal gls) as Hcr. fold data in Hcr. change (fm_om fm) with om in Hcr.
    assert (Hd : ob_data (ft_obj f) = data) by (apply (obj_init_inv _ _ _ _ Hmade)).
    assert (Hb : base_call h om (ft_obj f) [] (named_values om popt) = Ok (map (at_level om (ft_obj f) 0 out) (om_dep om))).
    { apply (base_value h om data (ft_obj f) (named_values om popt) Hcr [] out); [exact (ganswers _ x popt out Hl Hp Hv)|exact Hfi]. }
    assert (Hr : forall hs, ls_hess_with hs h om (ft_obj f) [] (named_values om popt) = Raise AttributeError).
    { intros hs. unfold ls_hess_with. rewrite Hb. cbn [bind]. unfold base_jac. rewrite Hj. reflexivity. }
    unfold covariance. rewrite Hcls. unfold cov_first. cbn [obj_hessian]. unfold ls_hess. rewrite Hr. cbn [bind cov_of].
    unfold cov_second. rewrite Hd, Hmade. cbn [bind]. unfold ls_hess_approx. rewrite Hr. reflexivity.
  Qed.
End Gen.
