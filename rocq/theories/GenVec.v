(** * GenVec: fits with MINPACK of any model whose predictions are known. *)
From Coq Require Import Reals Lra Lia.
From Coquelicot Require Import Coquelicot.
From Verif Require Import PyBase PyFacts Signature SignatureFacts Expr Model ModelSpec NumPy NumFacts Objective ObjSpec ObjFacts ObjCommon ObjLS ObjLeast ObjDiff ObjVec Minimizer MinSpec MinFacts MinLemmas Fit FitSpec FitData FitFacts FitCov FitThm FitMain ArrSpec EndSpec EndMain GenSpec GenFit GlobSpec GlobFit VecSpec.
Local Open Scope R_scope.

(** a sum of vectors whose sizes differ does not exist *)
Lemma bshape_fits : forall s t u, bshape s t = Some u -> fits s u = true /\ fits t u = true.
Proof.
  induction s as [|d s IH]; intros t u H.
  - cbn in H. injection H as <-. split; [destruct t; reflexivity|apply fits_refl].
  - destruct t as [|e t]; cbn in H.
    + injection H as <-. split; [exact (fits_refl (d :: s))|reflexivity].
    + destruct (bshape s t) as [u'|] eqn:E; [|discriminate]. destruct (IH _ _ E) as [H1 H2]. cbn [fits].
      destruct (Nat.eqb_spec d e) as [->|Hde]; [injection H as <-; cbn [fits]; rewrite Nat.eqb_refl, H1, H2; auto|].
      destruct (Nat.eqb_spec d 1) as [->|Hd]; [injection H as <-; cbn [fits]; rewrite Nat.eqb_refl, H1, H2; cbn; rewrite ?orb_true_r; auto|].
      destruct (Nat.eqb_spec e 1) as [->|He]; [injection H as <-; cbn [fits]; rewrite Nat.eqb_refl, H1, H2; cbn; rewrite ?orb_true_r; auto|discriminate].
Qed.
Lemma fold_nadd_fits : forall ts acc r, foldM nadd acc ts = Ok r -> fits (shp acc) (shp r) = true /\ forall t, In t ts -> fits (shp t) (shp r) = true.
Proof.
  induction ts as [|t ts IH]; intros acc r H.
  - cbn [foldM] in H. injection H as <-. split; [apply fits_refl|intros t []].
  - cbn [foldM] in H. apply bind_Ok in H as (a & Ha & H). destruct (IH _ _ H) as [H1 H2].
    unfold nadd, nbin in Ha. destruct (bshape (shp acc) (shp t)) as [u|] eqn:E; [|discriminate]. injection Ha as <-. cbn [shp] in H1.
    destruct (bshape_fits _ _ _ E) as [F1 F2]. split; [exact (fits_trans _ _ _ F1 H1)|]. intros t' [<-|Ht]; [exact (fits_trans _ _ _ F2 H1)|exact (H2 t' Ht)].
Qed.
Lemma fold_nadd_error : forall ts acc e, foldM nadd acc ts = Raise e -> e = ValueError.
Proof.
  induction ts as [|t ts IH]; intros acc e H; [discriminate|]. cbn [foldM] in H.
  destruct (nadd acc t) as [a|e'] eqn:E; cbn [bind] in H; [exact (IH _ _ H)|]. unfold nadd, nbin in E.
  destruct (bshape (shp acc) (shp t)); [discriminate|]. congruence.
Qed.
Lemma sizes_clash ts acc a b n k : In a ts -> In b ts -> shp a = [n] -> shp b = [k] -> n <> 1%nat -> k <> 1%nat -> n <> k -> foldM nadd acc ts = Raise ValueError.
Proof.
  intros Ha Hb Sa Sb Hn Hk Hnk. destruct (foldM nadd acc ts) as [r|e] eqn:E; [|apply fold_nadd_error in E; congruence]. exfalso.
  destruct (fold_nadd_fits _ _ _ E) as [_ H]. pose proof (H a Ha) as H1. pose proof (H b Hb) as H2. rewrite Sa in H1. rewrite Sb in H2.
  destruct (shp r) as [|d u]; [discriminate|]. cbn [fits] in H1, H2. apply andb_prop in H1 as [H1 _]. apply andb_prop in H2 as [H2 _].
  apply orb_prop in H1 as [H1|H1], H2 as [H2|H2]; apply Nat.eqb_eq in H1, H2; congruence.
Qed.

Lemma Rsum_neg {A} (g : A -> R) (l : list A) : Rsum (map (fun a => - g a) l) = - Rsum (map g l).
Proof. induction l as [|a l IH]; cbn; [unfold Rsum; cbn; ring|]. unfold Rsum in *. cbn in *. rewrite IH. ring. Qed.
Lemma nonempty_length {A} (l : list A) : l <> [] -> (0 < List.length l)%nat.
Proof. destruct l; [congruence|cbn; lia]. Qed.

Section Vec.
  Context (om : omodel) (len : nat) (toward0 : R -> R) (h : heap) (o : ochoice) (mc : mchoice) (absolute : option bool) (args : list datum) (kw : dict string datum) (f : fit) (sh : sym -> list nat).
  Let fm := {| fm_om := om; fm_len := len |}.
  Notation ps := (om_params om).
  Let Y := the_data om [] args kw.
  Let Sg := the_sigma om [] args kw.
  Let data := objective_data (ft_data f).
  Hypothesis Hcal : callable om.
  Hypothesis Hg : good_names om [].
  Hypothesis Hkw : NoDup (dkeys kw).
  Hypothesis Hf : fit_init toward0 h fm [] o mc absolute args kw = Ok f.
  Hypothesis Hdm : data_matches om sh Y Sg.
  Hypothesis Hoc : minpack_chosen o mc.
  Lemma gv_class : ft_class f = OVLS.
  Proof using Hg Hkw Hf Hdm Hoc.
    destruct Hoc as [[E|E] Emc]; [|exact (proj1 (explicit_objective toward0 h fm [] mc absolute args kw Hg Hkw o OVLS f Hf (or_introl E)))].
    destruct Hdm as (_ & _ & v0 & Hv0 & _). pose proof Hf as Hf'. rewrite E in Hf'.
    destruct (om_dep om) as [|w ws] eqn:Ed; [destruct Hv0|].
    destruct (default_objective_rule toward0 h fm [] mc absolute args kw Hg Hkw f w ws Hf' Ed) as [(_ & H)|[(H & _)|(H & _)]]; [exact H|contradiction|contradiction].
  Qed.
  Lemma gv_made : obj_init false om data = Ok (ft_obj f).
  Proof using Hg Hkw Hf Hdm Hoc.
    destruct (fit_init_inv toward0 h fm [] o mc absolute args kw f Hf) as (t & _ & _ & _ & H & _). rewrite gv_class in H. destruct Hoc as [[-> | ->] _]; exact H.
  Qed.
  Lemma gv_min : exists mn local, ft_min f = FMin mn local /\ mi_class mn = MINPACK /\ init_class h om [] data (ft_class f) (ft_obj f) (mi_class mn) = Ok mn.
  Proof using Hf Hoc.
    destruct (fit_init_inv toward0 h fm [] o mc absolute args kw f Hf) as (t & _ & _ & _ & _ & H). destruct Hoc as [_ E]. rewrite E in H. cbn [init_choice fm fm_om] in H.
    destruct (gitem_class om toward0 h f MINPACK H) as (mn & lc & H1 & H2 & H3). exists mn, lc. rewrite H2. auto.
  Qed.
  Lemma gv_not_instance : forall c ob, o <> OInst c ob.
  Proof using Hoc. intros c ob E. destruct Hoc as [[Eo|Eo] _]; rewrite Eo in E; discriminate. Qed.
  Lemma gv_ls : least_squares o (ft_class f).
  Proof using Hg Hkw Hf Hdm Hoc. split; [exact gv_not_instance|right; exact gv_class]. Qed.
  Let gcr : created false om data (ft_obj f) [] := gcreated om len toward0 h o mc absolute args kw f sh Hcal Hg Hkw Hf Hdm gv_made.
  Let gval xs P := gvalue_at om len toward0 h o mc absolute args kw f sh Hcal Hg Hkw Hf Hdm gv_made xs P.
  Let gobs : forall v, In v (om_indep om ++ om_dep om) -> observed data v = Y v := gobserved om len toward0 h o mc absolute args kw f Hg Hkw Hf.
  Let gsig : forall v, In v (om_dep om) -> observed data (sigma_of v) = Sg v := gsigma om len toward0 h o mc absolute args kw f Hg Hkw Hf.

  (** *** data sets of different sizes *)
  Lemma gv_term out v y : In v (om_dep om) -> Y v = Some y -> fits_data om data out ->
    exists q, vls_terms true (ft_obj f) (v, at_level om (ft_obj f) 0 out v) = Ok [q] /\ shp q = [List.length (indices (shp y))].
  Proof using Hcal Hg Hkw Hf Hdm Hoc.
    intros Hv Hy Hfi. rewrite <- (gobs v (in_or_app _ _ _ (or_intror Hv))) in Hy. destruct (Hfi v y Hv Hy) as (Hst & s & Hs & Hsf & _).
    unfold vls_terms. cbn [fst snd]. rewrite (dep_observed om data (ft_obj f) [] gcr v Hv), Hy, (sig_observed om data (ft_obj f) [] gcr v s Hv Hs). cbn [bind].
    destruct (shaped_value om data (ft_obj f) [] gcr out v y Hv Hy Hst) as [H1 _].
    destruct (nbin_fits Rminus y (at_level om (ft_obj f) 0 out v) (shp y)) as (d & Hd & Hd1 & Hd2 & Hd3 & _); [apply fits_refl|rewrite H1; apply fits_refl|].
    unfold nsub. rewrite Hd. cbn [bind]. destruct (nbin_fits Rdiv d s (shp y)) as (w & Hw & Hw1 & Hw2 & Hw3 & _); [exact Hd1|exact Hsf|].
    unfold ndiv. rewrite Hw. cbn [bind]. specialize (Hw3 (Hd3 eq_refl)). eexists. split; [reflexivity|]. cbn. rewrite Hw3. reflexivity.
  Qed.
  Lemma gv_unequal xs P : List.length xs = nfree h ps -> predicts om Y sh (parameter_value h ps xs) P -> sizes_differ (om_dep om) Y ->
    obj_value OVLS h om (ft_obj f) xs [] = Raise ValueError.
  Proof using Hcal Hg Hkw Hf Hdm Hoc.
    intros Hl HP (v & w & a & b & Hv & Hw & Ha & Hb & Na & Nb & Nab). destruct (gval xs P Hl HP) as (out & Hval & Hfi & _). cbn [obj_value]. unfold vls_call.
    rewrite (base_value h om data (ft_obj f) [] gcr xs out Hval Hfi). cbn [bind]. rewrite combine_self.
    assert (HT : forall u, In u (om_dep om) -> exists q, vls_terms true (ft_obj f) (u, at_level om (ft_obj f) 0 out u) = Ok q /\ forall y, Y u = Some y -> exists t, q = [t] /\ shp t = [List.length (indices (shp y))]).
    { intros u Hu. destruct (Y u) as [y|] eqn:Hy.
      - destruct (gv_term out u y Hu Hy Hfi) as (t & Ht & St). exists [t]. split; [exact Ht|]. intros y' E. injection E as <-. eauto.
      - exists []. split; [|discriminate]. unfold vls_terms. cbn [fst snd]. rewrite (dep_observed om data (ft_obj f) [] gcr u Hu), (gobs u (in_or_app _ _ _ (or_intror Hu))), Hy. reflexivity. }
    pose (Q := fun vf : sym * nd => match vls_terms true (ft_obj f) vf with Ok q => q | Raise _ => [] end).
    rewrite (mapM_map (vls_terms true (ft_obj f)) Q).
    2:{ intros [u c] Hin. apply in_map_iff in Hin as (u' & E & Hu). injection E as -> <-. unfold Q. destruct (HT u Hu) as (q & Hq & _). rewrite Hq. reflexivity. }
    cbn [bind]. destruct (HT v Hv) as (qv & Eqv & Hqv). destruct (Hqv a Ha) as (tv & -> & Stv). destruct (HT w Hw) as (qw & Eqw & Hqw). destruct (Hqw b Hb) as (tw & -> & Stw).
    rewrite (sizes_clash _ (scalar 0) tv tw (List.length (indices (shp a))) (List.length (indices (shp b)))); [reflexivity| | |exact Stv|exact Stw|exact Na|exact Nb|exact Nab].
    - apply in_concat. exists [tv]. split; [|left; reflexivity]. apply in_map_iff. exists (v, at_level om (ft_obj f) 0 out v). split; [unfold Q; rewrite Eqv; reflexivity|]. apply in_map_iff. exists v. auto.
    - apply in_concat. exists [tw]. split; [|left; reflexivity]. apply in_map_iff. exists (w, at_level om (ft_obj f) 0 out w). split; [unfold Q; rewrite Eqw; reflexivity|]. apply in_map_iff. exists w. auto.
  Qed.

  (** *** data sets of one shape *)
  Context (G : list nat).
  Hypothesis Hsame : forall v y, In v (om_dep om) -> Y v = Some y -> shp y = G.
  Lemma gv_same v y : In v (om_dep om) -> observed data v = Some y -> shp y = G.
  Proof using Hg Hkw Hf Hsame. intros Hv Hy. rewrite gobs in Hy by (apply in_or_app; auto). exact (Hsame v y Hv Hy). Qed.
  Let gsd : some_data om data := gsome om len toward0 h o mc absolute args kw f sh Hg Hkw Hf Hdm.
  Lemma gv_sq out P i : In i (indices G) -> (forall v, In v (om_dep om) -> shp (entry out v) = sh v /\ forall i, In i (indices (sh v)) -> val (entry out v) i = P v i) ->
    sqrt (Rsum (map (fun v => sq_res data out v i) (om_dep om))) = residual_at P (om_dep om) Y Sg i.
  Proof using Hg Hkw Hf Hdm Hsame.
    intros Hi Hout. unfold residual_at. f_equal. apply Rsum_ext. intros v Hv. unfold sq_res. rewrite gobs by (apply in_or_app; auto). rewrite gsig by exact Hv.
    destruct (Y v) as [y|] eqn:Hy; [|reflexivity]. destruct (Sg v) as [s|]; [|reflexivity]. rewrite <- (Hsame v y Hv Hy) in Hi. destruct (Hout v Hv) as (H1 & H2).
    rewrite (gat_point om args kw sh Hdm out v y i P Hv Hy Hi H1 H2). unfold Rdiv. ring.
  Qed.
  Lemma gv_value xs P : List.length xs = nfree h ps -> predicts om Y sh (parameter_value h ps xs) P ->
    exists r, obj_value OVLS h om (ft_obj f) xs [] = Ok r /\ is_residuals P (om_dep om) Y Sg (indices G) r /\ squares r = chi2_with P (om_dep om) Y Sg.
  Proof using Hcal Hg Hkw Hf Hdm Hoc Hsame.
    intros Hl HP. destruct (gval xs P Hl HP) as (out & Hv & Hfi & Hout).
    destruct (vls_sum h om data (ft_obj f) [] gcr G gv_same gsd true out xs _ Hv Hfi eq_refl) as (r & Hr & Hrs & Hrv).
    destruct (vls_squares h om data (ft_obj f) [] gcr G gv_same gsd xs out Hv Hfi) as (r' & Hr' & _ & Hsq). rewrite Hr in Hr'. injection Hr' as <-.
    exists r. split; [exact Hr|]. split; [split; [exact Hrs|]|].
    - intros n i Hn. rewrite (Hrv n i Hn). apply gv_sq; [eapply nth_error_In; exact Hn|exact Hout].
    - pose proof (ghalf om len toward0 h o mc absolute args kw f sh Hg Hkw Hf Hdm out P Hout) as E. change (half_chi2 data out (om_dep om) = / 2 * chi2_with P (om_dep om) Y Sg) in E. rewrite (squares_vec r _ Hrs), Hsq, E. lra.
  Qed.
  Lemma gv_jacobian mn : init_class h om [] data (ft_class f) (ft_obj f) (mi_class mn) = Ok mn -> mi_class mn = MINPACK -> om_jac om <> None -> ps <> [] ->
    exists w, pb_jac (execute_problem h mn DNone DNone) = DFun w /\
      forall x P J, List.length x = nfree h ps -> predicts om Y sh (parameter_value h ps x) P -> predicts_jac om Y sh (parameter_value h ps x) J ->
        exists g, w x = Ok g /\ shp g = [nfree h ps; List.length (indices G)] /\
          forall i k p n j, nth_error (free_of_list h ps) i = Some p -> nth_error ps k = Some p -> nth_error (indices G) n = Some j ->
            val g [i; n] = residual_slope P (fun v n => J v n k) (om_dep om) Y Sg j.
  Proof using Hcal Hg Hkw Hf Hdm Hoc Hsame.
    intros Hini Hmp Hj Hne. destruct (gmade_class om h f _ mn Hini) as (jac & hess & cs & Hmi & Hjac). rewrite Hmp in Hmi, Hjac. specialize (Hjac eq_refl Hj). subst jac.
    destruct (minpack_jac_reaches h ps _ hess cs mn Hmi (gnodup om Hcal)) as (w & Hw & Hr). exists w. split; [exact Hw|]. intros x P J Hl HP HJ.
    destruct (gjac_at om len toward0 h o mc absolute args kw f sh Hcal Hg Hkw Hf Hdm gv_made x P J Hl HP HJ) as (out & jac & Hv & Hfi & Hja & Hout & Hjac).
    assert (Hnp : (0 < List.length (om_params om))%nat) by exact (nonempty_length _ Hne).
    destruct (vls_jacobian h om data (ft_obj f) [] gcr G gv_same gsd x out jac Hv Hfi Hja Hnp) as (D & HD & HDs & HDv).
    destruct (Hr x D (List.length (indices G))) as (g & Hwg & Hsg & Hvg); [unfold as_fn; rewrite gv_class; cbn [obj_jacobian]; rewrite HD; reflexivity|exact HDs|].
    exists g. split; [exact Hwg|]. split; [exact Hsg|]. intros i k p n j Hi Hk Hn. rewrite (Hvg p i k n (conj Hi Hk)).
    assert (Hkp : (k < List.length (om_params om))%nat) by (apply nth_error_Some; congruence).
    rewrite (HDv k n j Hkp Hn). rewrite (gv_sq out P j (nth_error_In _ _ Hn) Hout). unfold residual_slope. unfold Rdiv. rewrite Rmult_1_l, Ropp_mult_distr_l. f_equal.
    rewrite <- Rsum_neg. apply Rsum_ext. intros v Hvd. unfold vec_term. rewrite gobs by (apply in_or_app; auto). rewrite gsig by exact Hvd.
    destruct (Y v) as [y|] eqn:Hy; [|ring]. destruct (Sg v) as [s|]; [|ring]. pose proof (nth_error_In _ _ Hn) as Hjn. rewrite <- (Hsame v y Hvd Hy) in Hjn. destruct (Hout v Hvd) as (H1 & H2).
    destruct (gpt om args kw sh Hdm out v y j Hvd Hy Hjn H1) as (-> & Hi'). rewrite (Hjac v j k Hvd Hi' Hkp), (gat_point om args kw sh Hdm out v y j P Hvd Hy Hjn H1 H2). unfold Rdiv. ring.
  Qed.
  Lemma gv_best mn x popt (P : (sym -> R) -> sym -> list nat -> R) : init_class h om [] data (ft_class f) (ft_obj f) (mi_class mn) = Ok mn -> mi_class mn = MINPACK ->
    (forall theta, allowed_for h ps theta -> predicts om Y sh theta (P theta)) ->
    minimises_squares (fun z => obj_value OVLS h om (ft_obj f) z []) (execute_problem h mn DNone DNone) (nfree h ps) x -> pack_output h ps x = Ok popt ->
    allowed_for h ps (reported ps popt) /\
    forall theta, allowed_for h ps theta -> chi2_with (P (reported ps popt)) (om_dep om) Y Sg <= chi2_with (P theta) (om_dep om) Y Sg.
  Proof using Hcal Hg Hkw Hf Hdm Hoc Hsame.
    intros Hini Hmp HP (Hl & Hfx & Hbest) Hp. pose proof (greported_is h ps (gnodup om Hcal) x popt) as Hrep.
    assert (Hb : uses_bounds (mi_class mn) = true \/ forall p, In p ps -> p_fixed (h p) = true \/ (p_min (h p) = None /\ p_max (h p) = None)) by (left; rewrite Hmp; reflexivity).
    assert (Hax : allowed_for h ps (parameter_value h ps x)) by (apply (gfeasible om h f Hcal mn x Hini Hb Hl); exact Hfx).
    assert (Har : allowed_for h ps (reported ps popt)) by (apply (gallowed_ext h ps (parameter_value h ps x)); [intros p Hin; symmetry; apply Hrep; try assumption; exact (gnames om Hcal)|exact Hax]).
    split; [exact Har|]. intros theta Ha. pose (x' := map theta (free_of_list h ps)). assert (Hl' : List.length x' = nfree h ps) by apply map_length.
    pose proof (gvector_of h ps (gnodup om Hcal) theta Ha) as Hvec. fold x' in Hvec.
    assert (Hax' : allowed_for h ps (parameter_value h ps x')) by (apply (gallowed_ext h ps theta); [intros p Hin; symmetry; apply Hvec; exact Hin|exact Ha]).
    assert (Hfx' : feasible (execute_problem h mn DNone DNone) x') by (apply (gfeasible om h f Hcal mn x' Hini Hb Hl'); exact Hax').
    destruct (gv_value x _ Hl (HP _ Hax)) as (r & Er & _ & Sr). destruct (gv_value x' _ Hl' (HP _ Hax')) as (r' & Er' & _ & Sr').
    pose proof (Hbest x' r r' Hl' Hfx' Er Er') as Hle. rewrite Sr, Sr' in Hle.
    destruct (gargs om len toward0 h o mc absolute args kw f sh Hcal Hg Hkw Hf Hdm (ft_obj f) false x gv_made) as (d & Hd).
    destruct (gargs om len toward0 h o mc absolute args kw f sh Hcal Hg Hkw Hf Hdm (ft_obj f) false x' gv_made) as (d' & Hd').
    assert (E1 : chi2_with (P (parameter_value h ps x)) (om_dep om) Y Sg = chi2_with (P (reported ps popt)) (om_dep om) Y Sg).
    { apply (gpredicts_same om args kw sh Hdm (parameter_value h ps x) (reported ps popt));
      [intros p Hin; symmetry; apply Hrep; try assumption; exact (gnames om Hcal)|exists d; exact (gseen_inputs om len toward0 h o mc absolute args kw f sh Hcal Hg Hkw Hf Hdm x d Hl Hd)|exact (HP _ Hax)|exact (HP _ Har)]. }
    assert (E2 : chi2_with (P (parameter_value h ps x')) (om_dep om) Y Sg = chi2_with (P theta) (om_dep om) Y Sg).
    { apply (gpredicts_same om args kw sh Hdm (parameter_value h ps x') theta);
      [intros p Hin; apply Hvec; assumption|exists d'; exact (gseen_inputs om len toward0 h o mc absolute args kw f sh Hcal Hg Hkw Hf Hdm x' d' Hl' Hd')|exact (HP _ Hax')|exact (HP _ Ha)]. }
    rewrite <- E1, <- E2. exact Hle.
  Qed.

  (** *** the covariance matrix *)
  Hypothesis Hbare : no_bare_numbers om [] args kw.
  Lemma gv_covariance inv x P J : inverts inv -> List.length x = nfree h ps ->
    predicts om Y sh (parameter_value h ps x) P -> predicts_jac om Y sh (parameter_value h ps x) J ->
    exists popt cov K, fit_execute inv h om f x = Ok (popt, cov) /\ pack_output h ps x = Ok popt /\
      let n := List.length ps in
      let s2 := variance_scale (ft_absolute f) (chi2_with P (om_dep om) Y Sg) (INR (List.length (indices G)) - INR n) in
      square n K /\ inverse_or_none n s2 K cov /\
      forall k l, (k < n)%nat -> (l < n)%nat -> mat K k l = weighted_products (fun v i => J v i k) (fun v i => J v i l) (om_dep om) Y Sg.
  Proof using Hcal Hg Hkw Hf Hdm Hoc Hsame Hbare.
    intros Hinv Hl HP HJ. destruct (pack_ok h ps x Hl) as (popt & Hp & _).
    destruct (gjac_at om len toward0 h o mc absolute args kw f sh Hcal Hg Hkw Hf Hdm gv_made x P J Hl HP HJ) as (out & jac & Hv & Hfi & Hj & Hout & Hjac).
    pose proof (ganswers om h f Hcal) as Hans. assert (Hev : evaluated h om data popt out jac).
    { split; [exact (Hans _ x popt out Hl Hp Hv)|]. split; [exact Hfi|]. split; [|exact gsd]. destruct Hj as [(fn & Hfn & Ha) Hs]. split; [exists fn; split; [exact Hfn|exact (Hans _ x popt jac Hl Hp Ha)]|exact Hs]. }
    pose proof (gproper om args kw sh Hdm Hbare) as Hpr.
    destruct (fit_covariance_approx inv toward0 h fm [] o mc absolute args kw f Hg Hkw Hf Hpr x popt out jac Hinv Hcal gv_ls Hp Hev (or_introl gv_class)) as (K & cov & HK & Hsq & Hex & Hio).
    exists popt, cov, K. split; [exact Hex|]. split; [exact Hp|]. cbv zeta. split; [exact Hsq|]. split.
    - assert (E : chi2_with P (om_dep om) Y Sg = Rsum (map (chi2_of data out) (om_dep om))).
      { pose proof (ghalf om len toward0 h o mc absolute args kw f sh Hg Hkw Hf Hdm out P Hout) as H. change (half_chi2 data out (om_dep om) = / 2 * chi2_with P (om_dep om) Y Sg) in H. unfold half_chi2 in H. lra. }
      assert (Ec : counted_points om (ft_data f) = List.length (indices G)).
      { rewrite (gcount om len toward0 h o mc absolute args kw f sh Hg Hkw Hf Hdm Hbare). rewrite (dedup_const _ G).
        - unfold list_sum. cbn [map fold_right]. rewrite Nat.add_0_r. reflexivity.
        - pose proof Hdm as (_ & _ & v0 & Hv0 & Hy0). fold Y in Hy0 |- *. intros Hn. destruct (Y v0) as [y|] eqn:Hy; [|congruence].
          assert (Hin : In (shp y) (concat (map (fun v => match Y v with Some a => [shp a] | None => [] end) (om_dep om)))); [|rewrite Hn in Hin; exact Hin].
          apply in_concat. exists [shp y]. split; [apply in_map_iff; exists v0; rewrite Hy; auto|left; reflexivity].
        - intros s Hs. apply in_concat in Hs as (l & Hlin & Hs). apply in_map_iff in Hlin as (v & <- & Hvd). fold Y in Hs. destruct (Y v) as [y|] eqn:Hy; [|destruct Hs]. destruct Hs as [<-|[]]. exact (Hsame v y Hvd Hy). }
      rewrite E, <- Ec. exact Hio.
    - intros k l Hk Hl'. pose proof (fit_created toward0 h fm [] o mc absolute args kw f Hg Hkw Hf Hpr popt Hcal gv_ls) as Hcr. destruct Hev as (Hv' & _ & Hj' & _).
      destruct (ls_approx h om data (ft_obj f) (named_values om popt) Hcr [] out jac Hv' Hfi Hj' gsd) as (K' & HK' & _ & HvK).
      change (fm_om fm) with om in HK. rewrite HK in HK'. injection HK' as <-. unfold mat. rewrite (HvK k l Hk Hl'). unfold weighted_products. apply Rsum_ext. intros v Hvd.
      unfold jtwj_of. rewrite gobs by (apply in_or_app; auto). rewrite gsig by exact Hvd.
      destruct (Y v) as [y|] eqn:Hy; [|reflexivity]. destruct (Sg v) as [s|]; [|reflexivity]. apply Rsum_ext. intros i Hi. destruct (Hout v Hvd) as (H1 & _).
      destruct (gpt om args kw sh Hdm out v y i Hvd Hy Hi H1) as (-> & Hi'). rewrite !(Hjac v i) by assumption. reflexivity.
  Qed.
  (** without a Jacobian there is no covariance matrix *)
  Lemma gv_no_covariance inv x P : om_jac om = None -> List.length x = nfree h ps -> predicts om Y sh (parameter_value h ps x) P ->
    exists popt, pack_output h ps x = Ok popt /\ fit_execute inv h om f x = Ok (popt, None).
  Proof using Hcal Hg Hkw Hf Hdm Hoc Hbare.
    intros Hj Hl HP. destruct (pack_ok h ps x Hl) as (popt & Hp & _). exists popt. split; [exact Hp|]. unfold fit_execute. rewrite Hp. cbn [bind].
    destruct (gval x P Hl HP) as (out & Hv & Hfi & _). pose proof (ganswers om h f Hcal) as Hans.
    pose proof (fit_created toward0 h fm [] o mc absolute args kw f Hg Hkw Hf (gproper om args kw sh Hdm Hbare) popt Hcal gv_ls) as Hcr. fold data in Hcr. change (fm_om fm) with om in Hcr.
    assert (Hd : ob_data (ft_obj f) = data) by (apply (obj_init_inv _ _ _ _ gv_made)).
    assert (Hb : base_call h om (ft_obj f) [] (named_values om popt) = Ok (map (at_level om (ft_obj f) 0 out) (om_dep om))).
    { apply (base_value h om data (ft_obj f) (named_values om popt) Hcr [] out); [exact (Hans _ x popt out Hl Hp Hv)|exact Hfi]. }
    assert (Hr : forall hs, ls_hess_with hs h om (ft_obj f) [] (named_values om popt) = Raise AttributeError).
    { intros hs. unfold ls_hess_with. rewrite Hb. cbn [bind]. unfold base_jac. rewrite Hj. reflexivity. }
    unfold covariance. rewrite gv_class. unfold cov_first. cbn [obj_hessian bind cov_of].
    unfold cov_second. rewrite Hd, gv_made. cbn [bind]. unfold ls_hess_approx. rewrite Hr. reflexivity.
  Qed.
End Vec.
