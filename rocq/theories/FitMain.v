(** * FitMain: the statements about Fit as a whole. *)
From Coq Require Import Reals Lra.
From Coquelicot Require Import Coquelicot.
From Verif Require Import PyBase PyFacts Signature SignatureFacts Expr NumPy NumFacts Objective ObjSpec ObjFacts ObjLS ObjLeast ObjDiff ObjMore ObjExample Model Minimizer MinSpec MinFacts MinLemmas Fit FitSpec FitFacts FitData FitCov FitThm.
Local Open Scope R_scope.
Local Open Scope string_scope.
Local Open Scope list_scope.

Lemma argument_names_model om : good_names om [] -> argument_names om [] = map sname (om_indep om ++ om_dep om ++ map sigma_of (om_dep om)).
Proof.
  intros (H & _). unfold argument_names. cbn [map concat]. rewrite !app_nil_r. rewrite !dedup_id.
  - rewrite <- map_app, <- app_assoc. reflexivity.
  - rewrite !map_app in H. rewrite app_assoc in H. apply NoDup_app_split in H as (_ & H & _). exact H.
  - rewrite app_assoc, map_app in H. apply NoDup_app_split in H as (H & _). exact H.
Qed.

Section Main.
  Context (toward0 : R -> R) (h : heap) (fm : fmodel) (cons : list fcon) (o : ochoice) (m : mchoice) (absolute : option bool).
  Let om := fm_om fm.
  Lemma fit_init_inv args kw f : fit_init toward0 h fm cons o m absolute args kw = Ok f ->
    exists t, fit_data fm cons o m absolute args kw = Ok (ft_class f, t) /\ ft_data f = td_data t /\ ft_absolute f = td_absolute t /\
      match o with OInst _ ob => ft_obj f = ob | _ => make_objective (ft_class f) om (objective_data (ft_data f)) = Ok (ft_obj f) end /\
      init_choice toward0 h om cons (objective_data (ft_data f)) (ft_class f) (ft_obj f) m = Ok (ft_min f).
  Proof using.
    unfold fit_init. intros H. apply bind_Ok in H as ([c t] & Hd & H). apply bind_Ok in H as (ob & Ho & H). apply bind_Ok in H as (mn & Hm & H). inv H.
    cbn [ft_data ft_absolute ft_class ft_obj ft_min]. exists t. split; [exact Hd|]. split; [reflexivity|]. split; [reflexivity|]. split; [|exact Hm].
    destruct o; [exact Ho|exact Ho|]. inv Ho. reflexivity.
  Qed.
  Hypothesis Hg : good_names om cons.
  Section Ok.
    Context (args : list datum) (kw : dict string datum) (f : fit).
    Hypothesis Hkw : NoDup (dkeys kw).
    Hypothesis Hf : fit_init toward0 h fm cons o m absolute args kw = Ok f.
    Let G := data_for om cons args kw.
    Lemma fit_spec : exists t, ft_data f = td_data t /\ ft_absolute f = td_absolute t /\ fit_spec_ok fm cons o m absolute args kw (ft_class f) t.
    Proof using Hg Hkw Hf.
      destruct (fit_init_inv args kw f Hf) as (t & Hd & H1 & H2 & _). exists t. split; [exact H1|]. split; [exact H2|].
      pose proof (fit_data_spec fm cons o m absolute args kw Hg Hkw) as Hs. rewrite Hd in Hs. exact Hs.
    Qed.
    Lemma fit_stored : well_formed (argument_names om cons) args kw /\
      (forall v, In v (om_indep om ++ om_dep om) -> stored (ft_data f) v = Some (as_given (G v))) /\
      (forall c v, In c cons -> In v (om_indep (fc_om c)) -> ~ In (sname v) (map sname (vars_of om)) ->
        (forall c2 w, In c2 cons -> In w (vars_of (fc_om c2)) -> sname w = sname v -> w = v) ->
        stored (ft_data f) v = Some (as_given (G v))).
    Proof using Hg Hkw Hf.
      destruct fit_spec as (t & -> & _ & Hs). destruct Hs as (S1 & _ & _ & _ & S5 & _ & S7 & _). split; [exact S1|]. split; [exact S5|]. exact S7.
    Qed.
    Lemma fit_sigmas : (forall v, In v (om_dep om) -> stored (ft_data f) (sigma_of v) = Some (expected_sigma (G v) (G (sigma_of v)))) /\
      (ft_absolute f = true <-> absolute = Some true \/ (absolute = None /\ exists v, In v (om_dep om) /\ G (sigma_of v) <> DataNone)).
    Proof using Hg Hkw Hf.
      destruct fit_spec as (t & -> & -> & Hs). destruct Hs as (_ & _ & _ & _ & _ & S6 & _ & S8). split; [intros v Hv; exact (proj2 (S6 v Hv))|].
      rewrite S8. destruct absolute as [[]|].
      - split; auto.
      - split; [discriminate|]. intros [H|[H _]]; discriminate.
      - rewrite existsb_exists. split.
        + intros (v & Hv & Hn). right. split; [reflexivity|]. exists v. split; [exact Hv|]. unfold G, data_for. destruct (given _ _ _ _) as [[]|]; cbn in Hn; discriminate || (intros Hq; discriminate Hq).
        + intros [Hq|(_ & v & Hv & Hn)]; [discriminate|]. exists v. split; [exact Hv|]. unfold G, data_for in Hn.
          destruct (given _ _ _ _) as [[]|]; try reflexivity; congruence.
    Qed.
    Lemma fit_no_dependent_data : no_data_objective (ft_class f) = true -> forall v, In v (om_dep om) ->
      given (argument_names om cons) args kw (sname v) = None /\ given (argument_names om cons) args kw (sname (sigma_of v)) = None.
    Proof using Hg Hkw Hf.
      destruct fit_spec as (t & _ & _ & Hs). destruct Hs as (_ & _ & S3 & _). intros Hn v Hv. rewrite Hn in S3.
      split; apply S3; unfold ds_names; apply in_map; apply in_or_app; [left; exact Hv|right; apply in_map; exact Hv].
    Qed.
  End Ok.

  Lemma fit_split args1 kw1 args2 kw2 : well_formed (argument_names om cons) args1 kw1 -> well_formed (argument_names om cons) args2 kw2 ->
    (forall n, given (argument_names om cons) args1 kw1 n = given (argument_names om cons) args2 kw2 n) ->
    fit_init toward0 h fm cons o m absolute args1 kw1 = fit_init toward0 h fm cons o m absolute args2 kw2.
  Proof using Hg. intros H1 H2 He. unfold fit_init. rewrite (fit_data_split fm cons o m absolute args1 kw1 args2 kw2 Hg H1 H2 He). reflexivity. Qed.
  Lemma fit_ill_formed args kw : NoDup (dkeys kw) -> ~ well_formed (argument_names om cons) args kw ->
    fit_init toward0 h fm cons o m absolute args kw = Raise TypeError.
  Proof using Hg.
    intros Hkw Hn. unfold fit_init, fit_data. fold om. rewrite (fit_signature_ok om cons Hg). cbn [bind].
    pose proof (bind_spec true (sig_of om cons) args kw (sig_positional om cons)) as Hb. rewrite (sig_names om cons Hg) in Hb.
    assert (Hgn : NoDup (argument_names om cons)) by apply Hg. specialize (Hb Hgn Hkw). unfold sig_bind_partial.
    destruct (sig_bind_gen true (sig_of om cons) args kw) as [b|e]; [destruct Hb; contradiction|]. destruct Hb as (-> & _). reflexivity.
  Qed.
  (** everything required is given: sigmas may be missing *)
  Lemma fit_data_succeeds args kw c : well_formed (argument_names om cons) args kw -> o = OClass c \/ (exists ob, o = OInst c ob) \/ (o = ODefault /\ om_dep om <> []) ->
    (forall v, In v (om_indep om ++ om_dep om ++ concat (map (fun c => om_indep (fc_om c)) cons)) -> given (argument_names om cons) args kw (sname v) <> None) ->
    (forall v, In v (om_dep om) -> spreadable (data_for om cons args kw v) (data_for om cons args kw (sigma_of v))) ->
    no_data_objective c = false ->
    exists c' t, fit_data fm cons o m absolute args kw = Ok (c', t).
  Proof using Hg.
    intros Hwf Ho Hreq Hsp Hno. assert (Hkw : NoDup (dkeys kw)) by apply Hwf.
    pose proof (fit_data_spec fm cons o m absolute args kw Hg Hkw) as Hs. destruct (fit_data fm cons o m absolute args kw) as [[c' t]|e]; [eauto|]. exfalso.
    set (b := in_order (argument_names om cons) (given (argument_names om cons) args kw)) in *.
    assert (Hcl : exists c1, class_of_choice fm o m b = Ok c1 /\ no_data_objective c1 = false).
    { destruct Ho as [->|[(ob & ->)|(-> & Hd)]]; [exists c; auto|exists c; auto|]. cbn [class_of_choice]. unfold default_objective.
      destruct m as [|[[]|]|]; try (exists OVLS; split; reflexivity);
        (destruct (Nat.eqb (fm_len fm) 1 && Nat.eqb (List.length (om_indep (fm_om fm))) 0); [|exists OLS; split; reflexivity]; fold om;
         destruct (om_dep om) as [|v lv] eqn:Ed; [congruence|]; cbn [nth_error of_opt bind];
         assert (Hv : dmem b (sname v) = true);
         [unfold dmem, b; rewrite in_order_get, (proj2 (inb_In _ _));
          [destruct (given _ _ _ _) eqn:Eg; [reflexivity|]; exfalso; apply (Hreq v); [rewrite !in_app_iff; right; left; try rewrite Ed; left; reflexivity|exact Eg]
          |apply name_in_sig; unfold vars_of; rewrite Ed, !in_app_iff; right; left; left; reflexivity]
         |rewrite Hv; exists OLS; split; reflexivity]). }
    destruct Hcl as (c1 & Hc1 & Hn1). destruct Hs as [(Hs & _)|[Hs|(c2 & Hc2 & Hs)]]; [contradiction| |].
    - unfold b, om in Hc1. rewrite Hc1 in Hs. discriminate.
    - unfold b, om in Hc1. rewrite Hc1 in Hc2. inv Hc2. destruct Hs as [(Hs & _)|[((n & Hin & Hgn & _) & _)|((v & Hv & Hns) & _)]]; [congruence| |].
      + apply in_map_iff in Hin as (v & <- & Hv). exact (Hreq v Hv Hgn).
      + exact (Hns (Hsp v Hv)).
  Qed.
End Main.

(** ** choices *)
Lemma bounds_exist toward0 h om : existsb (fun p => is_some (fst p) || is_some (snd p)) (model_bounds toward0 h om) = true <-> bounded_or_fixed h (om_params om).
Proof.
  unfold model_bounds, bounded_or_fixed. induction (om_params om) as [|p ps IH]; cbn [map existsb].
  - split; [discriminate|]. intros (p & [] & _).
  - rewrite orb_true_iff, IH. split.
    + intros [Hp|(q & Hq & Hb)]; [|exists q; split; [right; exact Hq|exact Hb]]. exists p. split; [left; reflexivity|].
      destruct (p_fixed (h p)); [left; reflexivity|]. right. cbn [fst snd] in Hp. destruct (p_min (h p)); [left; discriminate|]. destruct (p_max (h p)); [right; discriminate|discriminate].
    + intros (q & [->|Hq] & Hb); [left|right; exists q; auto]. destruct (p_fixed (h q)) eqn:E.
      * destruct (Rle_dec 0 (p_value (h q))); reflexivity.
      * destruct Hb as [Hb|[Hb|Hb]]; [congruence| |]; cbn [fst snd]; [destruct (p_min (h q)); [reflexivity|congruence]|destruct (p_max (h q)); [apply orb_true_r|congruence]].
Qed.
Lemma minimizer_rule toward0 h om cons : expected_minimizer h om cons (determine_minimizer toward0 h om cons).
Proof.
  unfold expected_minimizer, determine_minimizer. destruct cons as [|c cs]; [|left; split; [discriminate|reflexivity]]. right.
  pose proof (bounds_exist toward0 h om) as Hb. destruct (existsb _ _); [left|right].
  - split; [reflexivity|]. split; [apply Hb; reflexivity|reflexivity].
  - split; [reflexivity|]. split; [|reflexivity]. intros Hq. apply Hb in Hq. discriminate.
Qed.
(** the class of a made minimizer *)
Definition class_of_fmin (x : fmin) : option mclass := match x with FMin m _ => Some (mi_class m) | FChain _ _ => None end.
Lemma init_class_cls h om cons data c ob cls mn : init_class h om cons data c ob cls = Ok mn ->
  mi_class mn = cls /\ mi_parameters mn = om_params om /\
  mi_jacobian mn = (if is_gradient cls then match om_jac om with Some _ => Some (as_fn (fun xs => obj_jacobian c h om ob xs [])) | None => None end else None) /\
  mi_hessian mn = (if is_hessian cls then match om_hess om with Some _ => if has_hessian c then Some (as_fn (fun xs => obj_hessian c h om ob xs [])) else None | None => None end else None).
Proof.
  unfold init_class. intros H. apply bind_Ok in H as (cs & _ & H). unfold minimizer_init in H. apply bind_Ok in H as (sc & _ & H). inv H.
  cbn [mi_class mi_parameters mi_jacobian mi_hessian]. split; [reflexivity|]. split; [reflexivity|].
  split; [destruct (is_gradient cls)|destruct (is_hessian cls)]; reflexivity.
Qed.
Lemma init_item_cls toward0 h om cons data c ob cls x : init_item toward0 h om cons data c ob (MCls cls) = Ok x ->
  exists mn local, x = FMin mn local /\ mi_class mn = cls /\ mi_parameters mn = om_params om /\
  mi_jacobian mn = (if is_gradient cls then match om_jac om with Some _ => Some (as_fn (fun xs => obj_jacobian c h om ob xs [])) | None => None end else None) /\
  mi_hessian mn = (if is_hessian cls then match om_hess om with Some _ => if has_hessian c then Some (as_fn (fun xs => obj_hessian c h om ob xs [])) else None | None => None end else None).
Proof.
  intros H. destruct cls; cbn [init_item] in H;
    try (apply bind_Ok in H as (mn & Hm & H); inv H; exists mn, None; split; [reflexivity|]; exact (init_class_cls _ _ _ _ _ _ _ _ Hm)).
  apply bind_Ok in H as (lc & _ & H). apply bind_Ok in H as (mn & Hm & H). inv H. exists mn, (Some lc). split; [reflexivity|]. exact (init_class_cls _ _ _ _ _ _ _ _ Hm).
Qed.

Section Choice.
  Context (toward0 : R -> R) (h : heap) (fm : fmodel) (cons : list fcon) (m : mchoice) (absolute : option bool) (args : list datum) (kw : dict string datum).
  Let om := fm_om fm.
  Hypothesis Hg : good_names om cons.
  Hypothesis Hkw : NoDup (dkeys kw).
  Lemma default_objective_rule f v vs : fit_init toward0 h fm cons ODefault m absolute args kw = Ok f -> om_dep om = v :: vs ->
    expected_objective fm m (is_some (given (argument_names om cons) args kw (sname v))) (ft_class f).
  Proof using Hg Hkw.
    intros Hf Hd. destruct (fit_spec toward0 h fm cons ODefault m absolute Hg args kw f Hkw Hf) as (t & _ & _ & Hs). destruct Hs as (_ & S2 & _). fold om in S2.
    set (b := in_order (argument_names om cons) (given (argument_names om cons) args kw)) in *.
    assert (Hb : dmem b (sname v) = is_some (given (argument_names om cons) args kw (sname v))).
    { unfold dmem, b. rewrite in_order_get, (proj2 (inb_In _ _)); [reflexivity|]. apply name_in_sig. unfold vars_of. rewrite Hd, !in_app_iff. right; left; left; reflexivity. }
    unfold expected_objective. cbn [class_of_choice] in S2. unfold default_objective in S2. fold om in S2. fold om.
    assert (Hmain : m <> MItem (MCls MINPACK) -> (if Nat.eqb (fm_len fm) 1 && Nat.eqb (List.length (om_indep om)) 0
      then w <- of_opt IndexError (nth_error (om_dep om) 0) ;; Ok (if dmem b (sname w) then OLS else OMM) else Ok OLS) = Ok (ft_class f) ->
      (m <> MItem (MCls MINPACK) /\ fm_len fm = 1%nat /\ om_indep om = [] /\ is_some (given (argument_names om cons) args kw (sname v)) = false /\ ft_class f = OMM) \/
      (m <> MItem (MCls MINPACK) /\ ~ (fm_len fm = 1%nat /\ om_indep om = [] /\ is_some (given (argument_names om cons) args kw (sname v)) = false) /\ ft_class f = OLS)).
    { intros Hm Hc. rewrite Hd in Hc. cbn [nth_error of_opt bind] in Hc. rewrite Hb in Hc.
      destruct (Nat.eqb_spec (fm_len fm) 1) as [E1|E1]; cbn [andb] in Hc; [|right; inv Hc; split; [exact Hm|]; split; [intros (Hq & _); contradiction|reflexivity]].
      destruct (om_indep om) as [|w ws] eqn:Ei; cbn [List.length Nat.eqb] in Hc; [|right; inv Hc; split; [exact Hm|]; split; [intros (_ & Hq & _); discriminate|reflexivity]].
      destruct (is_some _) eqn:Es; inv Hc; [right|left; auto]. split; [exact Hm|]. split; [intros (_ & _ & Hq); discriminate|reflexivity]. }
    destruct m as [|[[]|]|]; try (right; apply Hmain; [discriminate|exact S2]). left. inv S2. auto.
  Qed.
  Lemma explicit_objective o c f : fit_init toward0 h fm cons o m absolute args kw = Ok f -> o = OClass c \/ (exists ob, o = OInst c ob) ->
    ft_class f = c /\ (forall ob, o = OInst c ob -> ft_obj f = ob).
  Proof using Hg Hkw.
    intros Hf Ho. destruct (fit_spec toward0 h fm cons o m absolute Hg args kw f Hkw Hf) as (t & _ & _ & Hs). destruct Hs as (_ & S2 & _).
    split; [destruct Ho as [->|(ob & ->)]; inv S2; reflexivity|]. intros ob ->. destruct (fit_init_inv toward0 h fm cons (OInst c ob) m absolute args kw f Hf) as (t' & _ & _ & _ & H & _). exact H.
  Qed.
  Lemma data_rejected o c v : o = OClass c \/ (exists ob, o = OInst c ob) -> no_data_objective c = true ->
    In v (om_dep om ++ map sigma_of (om_dep om)) -> given (argument_names om cons) args kw (sname v) <> None ->
    fit_init toward0 h fm cons o m absolute args kw = Raise TypeError.
  Proof using Hg Hkw.
    intros Ho Hno Hv Hgv. unfold fit_init, fit_data. fold om. rewrite (fit_signature_ok om cons Hg). cbn [bind].
    pose proof (bind_spec true (sig_of om cons) args kw (sig_positional om cons)) as Hb. rewrite (sig_names om cons Hg) in Hb.
    assert (Hgn : NoDup (argument_names om cons)) by apply Hg. specialize (Hb Hgn Hkw). unfold sig_bind_partial.
    destruct (sig_bind_gen true (sig_of om cons) args kw) as [b|e]; [|destruct Hb as (-> & _); reflexivity]. cbn [bind]. destruct Hb as (_ & _ & ->).
    unfold determine_objective. replace (class_of_choice fm o m _) with (Ok c) by (destruct Ho as [->|(ob & ->)]; reflexivity). cbn [bind]. rewrite Hno. fold om.
    set (b := in_order _ _). pose proof (none_loop (om_dep om ++ map sigma_of (om_dep om)) b (ds_nodup fm cons Hg) (b_nodup fm cons args kw Hg)) as Hl.
    destruct (foldM _ b _) as [b'|e]; [|destruct Hl as (-> & _); reflexivity]. exfalso. destruct Hl as (L1 & _). specialize (L1 v Hv). apply Hgv. unfold b in L1.
    rewrite in_order_get, (proj2 (inb_In _ _)) in L1; [exact L1|]. apply name_in_sig. unfold vars_of. apply in_or_app; right; exact Hv.
  Qed.
  Lemma missing_rejected o c v : o = OClass c \/ (exists ob, o = OInst c ob) -> c = OLS \/ c = OVLS -> well_formed (argument_names om cons) args kw ->
    In v (om_indep om ++ om_dep om ++ concat (map (fun c => om_indep (fc_om c)) cons)) -> given (argument_names om cons) args kw (sname v) = None ->
    fit_init toward0 h fm cons o m absolute args kw = Raise (bind_error (vars_of om)).
  Proof using Hg Hkw.
    intros Ho Hc Hwf Hv Hgv. unfold fit_init, fit_data. fold om. rewrite (fit_signature_ok om cons Hg). cbn [bind].
    pose proof (bind_spec true (sig_of om cons) args kw (sig_positional om cons)) as Hb. rewrite (sig_names om cons Hg) in Hb.
    assert (Hgn : NoDup (argument_names om cons)) by apply Hg. specialize (Hb Hgn Hkw). unfold sig_bind_partial.
    destruct (sig_bind_gen true (sig_of om cons) args kw) as [b|e]; [|exfalso; apply (proj2 Hb); split; [exact Hwf|discriminate]]. cbn [bind]. destruct Hb as (_ & _ & ->).
    unfold determine_objective. replace (class_of_choice fm o m _) with (Ok c) by (destruct Ho as [->|(ob & ->)]; reflexivity). cbn [bind].
    replace (no_data_objective c) with false by (destruct Hc as [-> | ->]; reflexivity). cbn [bind]. unfold takes_data, takes_data_args, sig_bind.
    set (b := in_order _ _). pose proof (bind_spec false (sig_of om cons) [] b (sig_positional om cons)) as Hb. rewrite (sig_names om cons Hg) in Hb.
    specialize (Hb Hgn (b_nodup fm cons args kw Hg)). destruct (sig_bind_gen false (sig_of om cons) [] b) as [b'|e]; [|reflexivity]. exfalso.
    destruct Hb as (_ & Hb & _). destruct (sig_required om cons (sname v) Hg (in_map _ _ _ Hv)) as (p & Hp & Hd & Hpn). apply (Hb eq_refl p Hp Hd). rewrite Hpn.
    unfold given at 1. rewrite combine_nil. cbn [app]. unfold b. rewrite in_order_get. destruct (inb _ _); [exact Hgv|reflexivity].
  Qed.
End Choice.

(** ** covariance of a Fit *)
Section FitCovariance.
  Context (inv : nd -> res nd) (toward0 : R -> R) (h : heap) (fm : fmodel) (cons : list fcon) (o : ochoice) (m : mchoice) (absolute : option bool) (args : list datum) (kw : dict string datum) (f : fit).
  Let om := fm_om fm.
  Hypothesis Hg : good_names om cons.
  Hypothesis Hkw : NoDup (dkeys kw).
  Hypothesis Hf : fit_init toward0 h fm cons o m absolute args kw = Ok f.
  Hypothesis Hpd : proper_data om cons args kw.
  Let data := objective_data (ft_data f).
  Lemma fit_arrays : arrays_only om (ft_data f).
  Proof using Hg Hkw Hf Hpd.
    intros v Hv. destruct (fit_stored toward0 h fm cons o m absolute Hg args kw f Hkw Hf) as (_ & Hs & _). rewrite (Hs v Hv).
    pose proof (fun r => proj2 Hpd v r Hv) as Hn. destruct (data_for (fm_om fm) cons args kw v) as [|r|a|a] eqn:E; cbn [as_given]; [left; reflexivity| |right; eauto|right; eauto].
    exfalso. exact (Hn r E).
  Qed.
  Lemma fit_independent : independent_data_given om data.
  Proof using Hg Hkw Hf Hpd.
    intros v Hv. destruct (fit_stored toward0 h fm cons o m absolute Hg args kw f Hkw Hf) as (_ & Hs & _). unfold data. rewrite objective_data_get, Hs by (apply in_or_app; auto).
    pose proof (proj1 Hpd v Hv) as Hn. unfold om in Hn. destruct (data_for (fm_om fm) cons args kw v) as [|r|a|a]; [congruence| | |]; cbn [as_given option_map datum_nd]; eauto.
  Qed.
  Lemma named_nodup popt : NoDup (dkeys (named_values om popt)).
  Proof using. apply NoDup_dupdate. constructor. Qed.
  Lemma fit_created popt : callable om -> least_squares o (ft_class f) -> created false om data (ft_obj f) (named_values om popt).
  Proof using Hg Hkw Hf Hpd.
    intros [Hi Hb] [Hno Hc]. destruct (fit_init_inv toward0 h fm cons o m absolute args kw f Hf) as (t & _ & _ & _ & Ho & _).
    split; [exact Hi|]. split; [exact Hb|]. split.
    { destruct Hg as (Hn & _). rewrite !map_app in Hn. apply NoDup_app_split in Hn as (_ & Hn & _). apply NoDup_app_split in Hn as (Hn & _). exact Hn. }
    split; [|split; [apply named_nodup|exact fit_independent]]. fold om in Ho. fold data in Ho.
    destruct o as [|c0|c0 ob0]; [| |exfalso; exact (Hno _ _ eq_refl)]; destruct Hc as [Hc|Hc]; rewrite Hc in Ho; exact Ho.
  Qed.

  Context (x popt : list R) (out jac : dict sym nd).
  Hypothesis Hinv : inverts inv.
  Hypothesis Hcall : callable om.
  Hypothesis Hls : least_squares o (ft_class f).
  Hypothesis Hpack : pack_output h (om_params om) x = Ok popt.
  Hypothesis Hev : evaluated h om data popt out jac.
  Let n := List.length (om_params om).
  Let s2 := s_squared (ft_absolute f) om data out (counted_points om (ft_data f)).
  Let kwp := named_values om popt.
  Lemma fit_covariance_approx : ft_class f = OVLS \/ om_hess om = None -> exists K cov, ls_hess_approx h om (ft_obj f) [] kwp = Ok K /\ square n K /\
    fit_execute inv h om f x = Ok (popt, cov) /\ inverse_or_none n s2 K cov.
  Proof using Hg Hkw Hf Hpd Hinv Hcall Hls Hpack Hev.
    intros Hc. destruct Hev as (Hv & Hfi & Hj & Hs).
    destruct (covariance_approx inv h om (ft_data f) (ft_absolute f) (ft_obj f) popt Hinv (fit_created popt Hcall Hls) fit_arrays out jac Hv Hfi Hj Hs (ft_class f)) as (K & HK & Hsq & Hr).
    { destruct Hc as [Hc|Hc]; [auto|]. destruct Hls as [_ [He|He]]; auto. }
    exists K. destruct Hr as [(C & Hi & He)|(Hsg & He)]; eexists; (split; [exact HK|]; split; [exact Hsq|]; split;
      [unfold fit_execute; rewrite Hpack; cbn [bind]; rewrite He; reflexivity|]); [left; exists C; split; [reflexivity|exact Hi]|right; split; [exact Hsg|reflexivity]].
  Qed.
  Lemma fit_covariance_exact hess : ft_class f = OLS -> with_hessian h om data popt out hess -> exists H K cov,
    ls_hess h om (ft_obj f) [] kwp = Ok H /\ square n H /\ ls_hess_approx h om (ft_obj f) [] kwp = Ok K /\ square n K /\
    fit_execute inv h om f x = Ok (popt, cov) /\
    ((exists C, cov = Some C /\ scaled_inverse n s2 H C) \/ (singular n H /\ inverse_or_none n s2 K cov)).
  Proof using Hg Hkw Hf Hpd Hinv Hcall Hls Hpack Hev.
    intros Hc Hh. destruct Hev as (Hv & Hfi & Hj & Hs).
    destruct (covariance_exact inv h om (ft_data f) (ft_absolute f) (ft_obj f) popt Hinv (fit_created popt Hcall Hls) fit_arrays out jac Hv Hfi Hj Hs hess Hh) as (H & K & HH & Hsq & HK & HsqK & Hr).
    exists H, K. assert (He : forall r, covariance inv h om (ft_data f) (ft_absolute f) OLS (ft_obj f) popt = Ok r -> fit_execute inv h om f x = Ok (popt, r)).
    { intros r Hr0. unfold fit_execute. rewrite Hpack. cbn [bind]. rewrite Hc, Hr0. reflexivity. }
    destruct Hr as [(C & Hi & Hr)|(Hsg & [(C & Hi & Hr)|(Hsk & Hr)])]; eexists; (split; [exact HH|]; split; [exact Hsq|]; split; [exact HK|]; split; [exact HsqK|]; split; [apply He; exact Hr|]).
    - left. exists C. auto.
    - right. split; [exact Hsg|]. left. exists C. auto.
    - right. split; [exact Hsg|]. right. auto.
  Qed.
  Lemma fit_covariance_symmetric C : ft_class f = OVLS \/ om_hess om = None \/ (exists hess, with_hessian h om data popt out hess /\ symmetric_hessian om out hess) ->
    fit_execute inv h om f x = Ok (popt, Some C) -> symmetric n C.
  Proof using Hg Hkw Hf Hpd Hinv Hcall Hls Hpack Hev.
    intros Hc He. destruct Hev as (Hv & Hfi & Hj & Hs). unfold fit_execute in He. rewrite Hpack in He. cbn [bind] in He.
    apply bind_Ok in He as (r & Hr & He). inv He.
    apply (covariance_symmetric inv h om (ft_data f) (ft_absolute f) (ft_obj f) popt Hinv (fit_created popt Hcall Hls) fit_arrays out jac Hv Hfi Hj Hs (ft_class f) C); [|exact Hr].
    destruct Hls as [_ [Hq|Hq]]; [right; split; [exact Hq|]|left; exact Hq]. destruct Hc as [Hc|[Hc|Hc]]; [congruence|left; exact Hc|right; exact Hc].
  Qed.
End FitCovariance.

(** ** two Fits that differ by a factor on all sigmas *)
Lemma scale_as_given c x : as_given (scale_datum c x) = scale_datum c (as_given x).
Proof. destruct x; reflexivity. Qed.
Lemma scale_expected c y s : s <> DataNone -> expected_sigma y (scale_datum c s) = scale_datum c (expected_sigma y s).
Proof. intros Hs. unfold expected_sigma. rewrite scale_as_given. destruct (as_given y), (as_given s) eqn:E; try reflexivity; destruct s; discriminate || congruence. Qed.

Section TwoFits.
  Context (inv : nd -> res nd) (toward0 : R -> R) (h : heap) (fm : fmodel) (cons : list fcon) (o : ochoice) (m : mchoice) (absolute : option bool)
          (args args' : list datum) (kw kw' : dict string datum) (f f' : fit) (c : R).
  Let om := fm_om fm.
  Hypothesis Hg : good_names om cons.
  Hypothesis Hkw : NoDup (dkeys kw).
  Hypothesis Hkw' : NoDup (dkeys kw').
  Hypothesis Hf : fit_init toward0 h fm cons o m absolute args kw = Ok f.
  Hypothesis Hf' : fit_init toward0 h fm cons o m absolute args' kw' = Ok f'.
  Hypothesis Hother : forall v, In v (om_indep om ++ om_dep om) ->
    given (argument_names om cons) args' kw' (sname v) = given (argument_names om cons) args kw (sname v).
  Hypothesis Hsig : forall v, In v (om_dep om) -> data_for om cons args kw (sigma_of v) <> DataNone /\
    data_for om cons args' kw' (sigma_of v) = scale_datum c (data_for om cons args kw (sigma_of v)).
  Lemma two_for v : In v (om_indep om ++ om_dep om) -> data_for om cons args' kw' v = data_for om cons args kw v.
  Proof using Hother. intros Hv. unfold data_for. rewrite (Hother v Hv). reflexivity. Qed.
  Lemma two_scaled : fit_sigmas_scaled c om (ft_data f) (ft_data f').
  Proof using Hg Hkw Hkw' Hf Hf' Hother Hsig.
    destruct (fit_stored toward0 h fm cons o m absolute Hg args kw f Hkw Hf) as (_ & S & _). destruct (fit_stored toward0 h fm cons o m absolute Hg args' kw' f' Hkw' Hf') as (_ & S' & _).
    destruct (fit_sigmas toward0 h fm cons o m absolute Hg args kw f Hkw Hf) as (T & _). destruct (fit_sigmas toward0 h fm cons o m absolute Hg args' kw' f' Hkw' Hf') as (T' & _).
    split; intros v Hv.
    - rewrite S, S' by exact Hv. fold om. rewrite two_for by exact Hv. reflexivity.
    - rewrite T, T' by exact Hv. fold om. destruct (Hsig v Hv) as [Hn ->]. rewrite (two_for v) by (apply in_or_app; auto). cbn [option_map]. rewrite scale_expected by exact Hn. reflexivity.
  Qed.
  Lemma two_absolute : ft_absolute f' = ft_absolute f.
  Proof using Hg Hkw Hkw' Hf Hf' Hsig.
    destruct (fit_sigmas toward0 h fm cons o m absolute Hg args kw f Hkw Hf) as (_ & A). destruct (fit_sigmas toward0 h fm cons o m absolute Hg args' kw' f' Hkw' Hf') as (_ & A').
    assert (He : ft_absolute f' = true <-> ft_absolute f = true); [|destruct (ft_absolute f), (ft_absolute f'); intuition congruence].
    rewrite A, A'. fold om. split; intros [H|(Hn & v & Hv & Hq)]; auto; right; (split; [exact Hn|]; exists v; split; [exact Hv|]); destruct (Hsig v Hv) as [H1 H2]; [exact H1|].
    rewrite H2. destruct (data_for om cons args kw (sigma_of v)); [congruence| | |]; discriminate.
  Qed.
  Lemma two_class : ft_class f' = ft_class f.
  Proof using Hg Hkw Hkw' Hf Hf' Hother.
    clear Hsig. destruct (fit_spec toward0 h fm cons o m absolute Hg args kw f Hkw Hf) as (t & _ & _ & _ & S & _). destruct (fit_spec toward0 h fm cons o m absolute Hg args' kw' f' Hkw' Hf') as (t' & _ & _ & _ & S' & _).
    destruct o as [|c0|c0 ob0]; [|inv S; inv S'; congruence|inv S; inv S'; congruence]. cbn [class_of_choice] in S, S'.
    assert (He : default_objective fm m (in_order (argument_names (fm_om fm) cons) (given (argument_names (fm_om fm) cons) args' kw')) =
                 default_objective fm m (in_order (argument_names (fm_om fm) cons) (given (argument_names (fm_om fm) cons) args kw))); [|congruence].
    unfold default_objective. fold om. destruct (om_dep om) as [|v vs] eqn:Ed; [reflexivity|]. cbn [nth_error of_opt bind]. unfold dmem. rewrite !in_order_get. rewrite Hother; [reflexivity|].
    apply in_or_app; right; left; reflexivity.
  Qed.
  Context (x popt : list R) (out jac : dict sym nd).
  Hypothesis Hinv : inverts inv.
  Hypothesis Hc : c <> 0.
  Hypothesis Hpd : proper_data om cons args kw.
  Hypothesis Hcall : callable om.
  Hypothesis Hls : least_squares o (ft_class f).
  Hypothesis Hpack : pack_output h (om_params om) x = Ok popt.
  Hypothesis Hev : evaluated h om (objective_data (ft_data f)) popt out jac.
  Lemma two_proper : proper_data om cons args' kw'.
  Proof using Hpd Hother. destruct Hpd as [H1 H2]. split; intros v; [intros Hv; rewrite two_for by (apply in_or_app; auto); apply H1; exact Hv|intros r Hv; rewrite two_for by exact Hv; apply H2; exact Hv]. Qed.
  Lemma two_covariances : ft_class f = OVLS \/ om_hess om = None \/ (exists hess, with_hessian h om (objective_data (ft_data f)) popt out hess) ->
    exists cov cov', fit_execute inv h om f x = Ok (popt, cov) /\ fit_execute inv h om f' x = Ok (popt, cov') /\
      scaled_matrix (List.length (om_params om)) (if ft_absolute f then c ^ 2 else 1) cov cov'.
  Proof using Hg Hkw Hkw' Hf Hf' Hother Hsig Hinv Hc Hpd Hcall Hls Hpack Hev.
    intros Hcl. destruct Hev as (Hv & Hfi & Hj & Hs).
    assert (Hls' : least_squares o (ft_class f')) by (rewrite two_class; exact Hls).
    destruct (covariance_pair inv h om (ft_data f) (ft_data f') (ft_absolute f) (ft_obj f) (ft_obj f') popt c Hinv Hc two_scaled
      (fit_created toward0 h fm cons o m absolute args kw f Hg Hkw Hf Hpd popt Hcall Hls)
      (fit_created toward0 h fm cons o m absolute args' kw' f' Hg Hkw' Hf' two_proper popt Hcall Hls')
      (fit_arrays toward0 h fm cons o m absolute args kw f Hg Hkw Hf Hpd) out jac Hv Hfi Hj Hs (ft_class f)) as (cv & cv' & E & E' & Hm).
    { destruct Hls as [_ [Hq|Hq]]; [right; split; [exact Hq|]|left; exact Hq]. destruct Hcl as [Hcl|Hcl]; [congruence|exact Hcl]. }
    exists cv, cv'. unfold fit_execute. rewrite Hpack. cbn [bind]. rewrite two_absolute, two_class, E, E'. cbn [bind]. auto.
  Qed.
End TwoFits.

(** ** degrees of freedom *)
Section Total.
  Context {A} `{EqDec A} (g : A -> nat).
  Definition tot (l : list A) : nat := fold_right Nat.add 0%nat (map g l).
  Lemma tot_app l k : tot (l ++ k) = (tot l + tot k)%nat.
  Proof. unfold tot. rewrite map_app. induction (map g l) as [|x m IH]; cbn [app fold_right]; [reflexivity|]. rewrite IH. lia. Qed.
  Lemma tot_filter p l : (tot (filter p l) <= tot l)%nat.
  Proof. induction l as [|x l IH]; [reflexivity|]. cbn [filter]. destruct (p x); unfold tot in *; cbn [map fold_right]; lia. Qed.
  Lemma tot_dedup l : (tot (dedup l) <= tot l)%nat.
  Proof. induction l as [|x l IH]; [reflexivity|]. cbn [dedup]. pose proof (tot_filter (fun y => negb (eqb x y)) (dedup l)) as Hf. unfold tot in *. cbn [map fold_right]. lia. Qed.
  Lemma tot_remove s l : In s l -> (tot (filter (fun y => negb (eqb s y)) l) + g s <= tot l)%nat.
  Proof.
    induction l as [|x l IH]; intros Hin; [contradiction|]. cbn [filter]. unfold eqb at 1. destruct (eq_dec s x) as [->|Hne]; cbn [negb].
    - pose proof (tot_filter (fun y => negb (eqb x y)) l) as Hf. unfold tot in *. cbn [map fold_right]. lia.
    - destruct Hin as [->|Hin]; [congruence|]. specialize (IH Hin). unfold tot in *. cbn [map fold_right]. lia.
  Qed.
  Lemma tot_strict l1 s l2 : In s l2 -> (0 < g s)%nat -> (tot (dedup (l1 ++ s :: l2)) < tot (l1 ++ s :: l2))%nat.
  Proof.
    intros Hin Hp. induction l1 as [|x l1 IH].
    - cbn [app dedup]. pose proof (tot_remove s (dedup l2) (proj2 (in_dedup s l2) Hin)). pose proof (tot_dedup l2). unfold tot in *. cbn [map fold_right]. lia.
    - cbn [app dedup]. pose proof (tot_filter (fun y => negb (eqb x y)) (dedup (l1 ++ s :: l2))). unfold tot in *. cbn [map fold_right]. lia.
  Qed.
End Total.
Lemma points_total om d : arrays_only om d -> data_points om d = tot (fun s => List.length (indices s)) (dependent_shapes om d).
Proof.
  intros Ha. unfold data_points, dependent_shapes.
  assert (Hl : forall l, (forall v, In v l -> In v (om_dep om)) ->
    fold_right Nat.add 0%nat (map (fun v => match stored d v with Some x => points x | None => 0%nat end) l) =
    tot (fun s => List.length (indices s)) (concat (map (fun v => match stored d v with Some (DArr a) => [shp a] | _ => [] end) l))); [|apply Hl; auto].
  induction l as [|v l IH]; intros Hin; [reflexivity|]. cbn [map concat fold_right]. rewrite tot_app, (IH (fun w Hw => Hin w (or_intror Hw))).
  destruct (Ha v) as [->|(a & ->)]; [apply in_or_app; right; apply Hin; left; reflexivity| |]; cbn [points]; unfold tot at 2; cbn [map fold_right]; lia.
Qed.
Lemma counted_all om d : NoDup (dependent_shapes om d) -> arrays_only om d -> counted_points om d = data_points om d.
Proof. intros Hn Ha. rewrite (points_total om d Ha). unfold counted_points. rewrite dedup_id by exact Hn. reflexivity. Qed.
(** shared shapes: fewer points are counted *)
Lemma counted_less om d v w vs ws us a b : om_dep om = vs ++ v :: ws ++ w :: us -> stored d v = Some (DArr a) -> stored d w = Some (DArr b) -> shp a = shp b ->
  (0 < List.length (indices (shp a)))%nat -> arrays_only om d -> (counted_points om d < data_points om d)%nat.
Proof.
  intros Hd Hv Hw Hab Hpos Ha. rewrite (points_total om d Ha).
  change (counted_points om d) with (tot (fun s : list nat => List.length (indices s)) (dedup (dependent_shapes om d))).
  unfold dependent_shapes. rewrite Hd, map_app, concat_app. cbn [map concat]. rewrite Hv. cbn [app]. apply tot_strict; [|exact Hpos].
  rewrite map_app, concat_app. apply in_or_app; right. cbn [map concat]. rewrite Hw, Hab. left; reflexivity.
Qed.
Lemma dof_too_small : forall om d v w vs ws us a b,
  om_dep om = vs ++ v :: ws ++ w :: us -> stored d v = Some (DArr a) -> stored d w = Some (DArr b) -> shp a = shp b ->
  (0 < List.length (indices (shp a)))%nat -> arrays_only om d ->
  exists k, raw_dof om d = Ok k /\ (k < data_points om d)%nat.
Proof. intros om d v w vs ws us a b H1 H2 H3 H4 H5 H6. exists (counted_points om d). split; [apply raw_dof_ok; exact H6|]. exact (counted_less om d v w vs ws us a b H1 H2 H3 H4 H5 H6). Qed.
Lemma dof_counted : forall toward0 h fm cons o m absolute args kw f,
  good_names (fm_om fm) cons -> NoDup (dkeys kw) -> fit_init toward0 h fm cons o m absolute args kw = Ok f ->
  proper_data (fm_om fm) cons args kw -> raw_dof (fm_om fm) (ft_data f) = Ok (counted_points (fm_om fm) (ft_data f)).
Proof.
  intros toward0 h fm cons o m absolute args kw f Hg Hk Hf Hp. exact (raw_dof_ok _ _ (fit_arrays toward0 h fm cons o m absolute args kw f Hg Hk Hf Hp)).
Qed.
Lemma fit_dof : forall toward0 h fm cons o m absolute args kw f,
  good_names (fm_om fm) cons -> NoDup (dkeys kw) -> fit_init toward0 h fm cons o m absolute args kw = Ok f ->
  proper_data (fm_om fm) cons args kw -> NoDup (dependent_shapes (fm_om fm) (ft_data f)) ->
  raw_dof (fm_om fm) (ft_data f) = Ok (data_points (fm_om fm) (ft_data f)).
Proof.
  intros toward0 h fm cons o m absolute args kw f Hg Hk Hf Hp Hn. pose proof (fit_arrays toward0 h fm cons o m absolute args kw f Hg Hk Hf Hp) as Ha.
  rewrite (raw_dof_ok _ _ Ha), (counted_all _ _ Hn Ha). reflexivity.
Qed.
Lemma class_equipped toward0 h fm cons o m absolute args kw f cls mn :
  fit_init toward0 h fm cons o m absolute args kw = Ok f ->
  init_class h (fm_om fm) cons (objective_data (ft_data f)) (ft_class f) (ft_obj f) cls = Ok mn -> NoDup (om_params (fm_om fm)) ->
  mi_class mn = cls /\ equipped h (fm_om fm) cons f mn.
Proof.
  intros Hf Hm Hn. destruct (init_class_cls _ _ _ _ _ _ _ _ Hm) as (Hc & Hp & Hj & Hh). split; [exact Hc|]. split; [exact Hp|]. split.
  - unfold has_objective_derivatives. rewrite Hc, <- gradient_uses, <- hessian_uses. split; [intros Hg Hn'|split; [intros Hg Hn' Hhs|intros Hhs]].
    + rewrite Hj, Hg. destruct (om_jac (fm_om fm)); [|congruence]. eexists. split; reflexivity.
    + rewrite Hh, Hg. destruct (om_hess (fm_om fm)); [|congruence]. destruct (ft_class f); [congruence| | |]; eexists; split; reflexivity.
    + rewrite Hh, Hhs. destruct (is_hessian cls); [|reflexivity]. destruct (om_hess (fm_om fm)); reflexivity.
  - unfold has_constraints. rewrite Hc, <- constrained_uses, <- gradient_uses. intros Hcon. unfold init_class in Hm. rewrite Hcon in Hm. apply bind_Ok in Hm as (cs & Hcs & Hm).
    destruct (constraints_handed h cls (om_params (fm_om fm)) _ _ cs mn DNone DNone Hm Hcon Hn) as (Hlen & Hall). apply mapM_Ok in Hcs.
    split. { rewrite Hlen. clear -Hcs. induction Hcs; simpl; congruence. }
    intros i c Hi. destruct (Forall2_at _ _ _ Hcs i c Hi) as (k & Hk & Hco). unfold constraint_objective in Hco. apply bind_Ok in Hco as (ob & Hob & Hco). inv Hco.
    destruct (Hall i _ Hk) as (s & Hs & Himp & Hfun & Hjac & Hjac0). cbn [c_rel c_fun c_jac] in *. exists s, ob. split; [exact Hs|]. split; [exact Hob|]. split; [exact Himp|].
    split; [intros xs; rewrite Hfun; reflexivity|]. intros Hg Hoj _. destruct (om_jac (fc_om c)) as [j|]; [|congruence].
    destruct (Hjac Hg _ eq_refl) as (w & Hw & Hval). exists w. split; [exact Hw|]. intros xs a Ha Hsh. apply Hval; [|exact Hsh]. unfold as_fn. rewrite Ha. reflexivity.
Qed.
Lemma bind_error_spec vs : missing_data_error vs (bind_error vs).
Proof.
  split. { destruct (bind_error_cases vs) as [H|(H & _)]; auto. }
  induction vs as [|v vs IH]; cbn [bind_error].
  - split; [discriminate|]. intros (pre & y & ps & post & H & _). destruct pre; discriminate.
  - destruct (unnamed v) eqn:Eu.
    + split; [discriminate|]. intros (pre & y & ps & post & H & Hn). exfalso. unfold unnamed in Eu.
      destruct pre as [|w pre]; injection H as -> ->; rewrite Hn in Eu; [discriminate|left; reflexivity|discriminate|left; reflexivity].
    + destruct (is_der v) eqn:Ed.
      * split; [intros _|reflexivity]. destruct v as [| |y ps]; try discriminate. exists [], y, ps, vs. split; [reflexivity|]. intros w [<-|[]]. exact Eu.
      * rewrite IH. split; intros (pre & y & ps & post & H & Hn).
        -- exists (v :: pre), y, ps, post. split; [rewrite H; reflexivity|]. intros w [<-|Hw]; [exact Eu|exact (Hn w Hw)].
        -- destruct pre as [|w pre]; [injection H as -> ->; discriminate|]. injection H as -> ->. exists pre, y, ps, post. split; [reflexivity|]. intros u Hu. apply Hn. right; exact Hu.
Qed.
Lemma default_minimizer : forall toward0 h fm cons o absolute args kw f, NoDup (om_params (fm_om fm)) ->
  fit_init toward0 h fm cons o MDefault absolute args kw = Ok f ->
  exists mn, ft_min f = FMin mn None /\ expected_minimizer h (fm_om fm) cons (mi_class mn) /\ equipped h (fm_om fm) cons f mn.
Proof.
  intros toward0 h fm cons o absolute args kw f Hn Hf. destruct (fit_init_inv toward0 h fm cons o MDefault absolute args kw f Hf) as (t & _ & Hd & _ & _ & Hm).
  pose proof (minimizer_rule toward0 h (fm_om fm) cons) as Hr. cbn [init_choice] in Hm. set (cls := determine_minimizer toward0 h (fm_om fm) cons) in *.
  assert (Hcls : init_item toward0 h (fm_om fm) cons (objective_data (ft_data f)) (ft_class f) (ft_obj f) (MCls cls) =
    (mn <- init_class h (fm_om fm) cons (objective_data (ft_data f)) (ft_class f) (ft_obj f) cls ;; Ok (FMin mn None))).
  { destruct Hr as [(_ & ->)|[(_ & _ & ->)|(_ & _ & ->)]]; reflexivity. }
  rewrite Hcls in Hm. apply bind_Ok in Hm as (mn & Hmn & Hm). injection Hm as Hm.
  destruct (class_equipped toward0 h fm cons o MDefault absolute args kw f cls mn Hf Hmn Hn) as (Hc & He). exists mn. split; [congruence|]. split; [rewrite Hc; exact Hr|exact He].
Qed.
Lemma item_equipped toward0 h fm cons o m absolute args kw f cls x :
  fit_init toward0 h fm cons o m absolute args kw = Ok f -> NoDup (om_params (fm_om fm)) ->
  init_item toward0 h (fm_om fm) cons (objective_data (ft_data f)) (ft_class f) (ft_obj f) (MCls cls) = Ok x ->
  exists mn local, x = FMin mn local /\ mi_class mn = cls /\ equipped h (fm_om fm) cons f mn /\
    match local with
    | None => cls <> BasinHopping
    | Some l => cls = BasinHopping /\ expected_minimizer h (fm_om fm) cons (mi_class l) /\ equipped h (fm_om fm) cons f l
    end.
Proof.
  intros Hf Hn H. destruct cls; cbn [init_item] in H;
    try (apply bind_Ok in H as (mn & Hm & H); inv H; exists mn, None; split; [reflexivity|];
         destruct (class_equipped _ _ _ _ _ _ _ _ _ _ _ _ Hf Hm Hn) as (Hc & He); split; [exact Hc|]; split; [exact He|discriminate]).
  apply bind_Ok in H as (lc & Hl & H). apply bind_Ok in H as (mn & Hm & H). inv H. exists mn, (Some lc). split; [reflexivity|].
  destruct (class_equipped _ _ _ _ _ _ _ _ _ _ _ _ Hf Hm Hn) as (Hc & He). destruct (class_equipped _ _ _ _ _ _ _ _ _ _ _ _ Hf Hl Hn) as (Hlc & Hle).
  split; [exact Hc|]. split; [exact He|]. split; [reflexivity|]. split; [rewrite Hlc; apply minimizer_rule|exact Hle].
Qed.
Lemma chosen_minimizer : forall toward0 h fm cons o cls absolute args kw f, NoDup (om_params (fm_om fm)) ->
  fit_init toward0 h fm cons o (MItem (MCls cls)) absolute args kw = Ok f ->
  exists mn local, ft_min f = FMin mn local /\ mi_class mn = cls /\ equipped h (fm_om fm) cons f mn /\
    match local with
    | None => cls <> BasinHopping
    | Some l => cls = BasinHopping /\ expected_minimizer h (fm_om fm) cons (mi_class l) /\ equipped h (fm_om fm) cons f l
    end.
Proof.
  intros toward0 h fm cons o cls absolute args kw f Hn Hf. destruct (fit_init_inv toward0 h fm cons o _ absolute args kw f Hf) as (t & _ & Hd & _ & _ & Hm).
  cbn [init_choice] in Hm. exact (item_equipped toward0 h fm cons o _ absolute args kw f cls (ft_min f) Hf Hn Hm).
Qed.
Lemma chosen_chain : forall toward0 h fm cons o l absolute args kw f, NoDup (om_params (fm_om fm)) ->
  fit_init toward0 h fm cons o (MSeq (map MCls l)) absolute args kw = Ok f ->
  exists ms, ft_min f = FChain (om_params (fm_om fm)) ms /\
    Forall2 (fun cls x => exists mn local, x = FMin mn local /\ mi_class mn = cls /\ equipped h (fm_om fm) cons f mn /\
      match local with
      | None => cls <> BasinHopping
      | Some l => cls = BasinHopping /\ expected_minimizer h (fm_om fm) cons (mi_class l) /\ equipped h (fm_om fm) cons f l
      end) l ms.
Proof.
  intros toward0 h fm cons o l absolute args kw f Hn Hf. destruct (fit_init_inv toward0 h fm cons o _ absolute args kw f Hf) as (t & _ & Hd & _ & _ & Hm).
  cbn [init_choice] in Hm. apply bind_Ok in Hm as (ms & Hms & Hm). exists ms. split; [congruence|]. clear Hm.
  pose proof (fun cls x => item_equipped toward0 h fm cons o (MSeq (map MCls l)) absolute args kw f cls x Hf Hn) as Hit. clear Hf Hd. revert ms Hms.
  induction l as [|c l IH]; intros ms Hms; [inv Hms; constructor|]. cbn [map mapM] in Hms. apply bind_Ok in Hms as (x & Hx & Hms). apply bind_Ok in Hms as (xs & Hxs & Hms). inv Hms.
  constructor; [exact (Hit c x Hx)|apply IH; exact Hxs].
Qed.
Lemma likelihood_covariance : forall inv h om f x popt H,
  inverts inv -> ft_class f = OLL \/ ft_class f = OMM -> pack_output h (om_params om) x = Ok popt ->
  obj_hessian (ft_class f) h om (ft_obj f) [] (named_values om popt) = Ok (Some H) ->
  square (List.length (om_params om)) H -> ~ singular (List.length (om_params om)) H ->
  exists C, fit_execute inv h om f x = Ok (popt, Some C) /\ inverse_of (List.length (om_params om)) H C.
Proof.
  intros inv h om f x popt H Hinv Hc Hp Hh Hs Hn. unfold fit_execute. rewrite Hp. cbn [bind]. unfold covariance, cov_first.
  replace (match ft_class f with OLS => true | _ => false end) with false by (destruct Hc as [->| ->]; reflexivity). rewrite Hh.
  destruct (cov_of_other inv om (ft_data f) (ft_absolute f) (List.length (om_params om)) Hinv H (ls_call true h om (ft_obj f) [] (named_values om popt)) Hs) as [(b & Hb & E)|(Hsg & _)]; [|contradiction].
  rewrite E. cbn [bind]. exists b. auto.
Qed.
