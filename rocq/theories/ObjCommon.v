(** * ObjCommon: what every objective does: arguments, caching, equality, shapes. *)
From Coq Require Import Reals Lra.
From Coquelicot Require Import Coquelicot.
From Verif Require Import PyBase PyFacts Expr NumPy NumFacts Objective ObjSpec ObjFacts ObjLS ObjLeast.
Local Open Scope R_scope.

(** ** two models that answer alike for the arguments the objective passes *)
Section Same.
  Context (h : heap) (om1 om2 : omodel) (data : dict sym (option nd)) (b : bool) (ob : obj) (xs : list R) (kw : dict string R).
  Hypothesis Hint : interface om1.
  Hypothesis Hsame : same_interface om1 om2.
  Hypothesis Hob : obj_init b om1 data = Ok ob.
  Hypothesis Hkw : NoDup (dkeys kw).
  Hypothesis Hag : forall d, arguments_are d (seen h om1 data xs kw) -> agree_at om1 om2 d.

  Lemma same_free : free_params h om1 = free_params h om2.
  Proof using Hsame. destruct Hsame as (H & _). unfold free_params. rewrite H. reflexivity. Qed.
  Lemma same_inv : invariant_kwargs h om1 ob = invariant_kwargs h om2 ob.
  Proof using Hsame. destruct Hsame as (H1 & H2 & H3 & H4). unfold invariant_kwargs, compute_inv. rewrite same_free, H1, H4. reflexivity. Qed.
  Lemma same_base f1 f2 level : (forall d, arguments_are d (seen h om1 data xs kw) -> f1 d = f2 d) ->
    base_eval f1 level h om1 ob xs kw = base_eval f2 level h om2 ob xs kw.
  Proof using Hint Hsame Hob Hkw.
    intros Hf. unfold base_eval. rewrite <- same_inv. destruct (obj_init_inv _ _ _ _ Hob) as (_ & Hn & _).
    unfold invariant_kwargs. rewrite Hn. destruct (compute_inv h om1 ob) as [inv|e] eqn:Hc; [|reflexivity]. cbn [bind fst].
    assert (Hp : prepare h om2 inv xs kw = prepare h om1 inv xs kw) by (unfold prepare; rewrite same_free; reflexivity).
    rewrite Hp, (Hf (prepare h om1 inv xs kw)) by (apply (prepare_seen h om1 data b ob Hint Hob inv xs kw Hc Hkw)).
    destruct Hsame as (H1 & H2 & H3 & H4). destruct (f2 (prepare h om1 inv xs kw)) as [r|e]; [|reflexivity]. cbn [bind].
    unfold shape_of_dependent_data, keep_dep. rewrite H3, H1. reflexivity.
  Qed.
  Lemma same_call : base_call h om1 ob xs kw = base_call h om2 ob xs kw.
  Proof using Hint Hsame Hob Hkw Hag. apply same_base. intros d Hd. destruct (Hag d Hd) as [H _]. exact H. Qed.
  Lemma same_jac_opt : (exists d, arguments_are d (seen h om1 data xs kw)) ->
    (om_jac om1 = None <-> om_jac om2 = None) /\ (om_hess om1 = None <-> om_hess om2 = None).
  Proof using Hag. intros (d & Hd). destruct (Hag d Hd) as (_ & H1 & H2). destruct (om_jac om1), (om_jac om2), (om_hess om1), (om_hess om2); try contradiction; split; split; congruence. Qed.
  Lemma same_jac : (om_jac om1 = None <-> om_jac om2 = None) -> base_jac h om1 ob xs kw = base_jac h om2 ob xs kw.
  Proof using Hint Hsame Hob Hkw Hag.
    intros Hn. unfold base_jac. destruct (om_jac om1) as [f|] eqn:E1, (om_jac om2) as [g|] eqn:E2; try reflexivity; [|destruct Hn as [_ Hn]; discriminate (Hn eq_refl)|destruct Hn as [Hn _]; discriminate (Hn eq_refl)].
    apply same_base. intros d Hd. destruct (Hag d Hd) as (_ & H & _). rewrite E1, E2 in H. exact H.
  Qed.
  Lemma same_hess : (om_hess om1 = None <-> om_hess om2 = None) -> base_hess h om1 ob xs kw = base_hess h om2 ob xs kw.
  Proof using Hint Hsame Hob Hkw Hag.
    intros Hn. unfold base_hess. destruct (om_hess om1) as [f|] eqn:E1, (om_hess om2) as [g|] eqn:E2; try reflexivity; [|destruct Hn as [_ Hn]; discriminate (Hn eq_refl)|destruct Hn as [Hn _]; discriminate (Hn eq_refl)].
    apply same_base. intros d Hd. destruct (Hag d Hd) as (_ & _ & H). rewrite E1, E2 in H. exact H.
  Qed.
  Lemma same_all : (om_jac om1 = None <-> om_jac om2 = None) -> (om_hess om1 = None <-> om_hess om2 = None) -> same_objectives h om1 om2 ob xs kw.
  Proof using Hint Hsame Hob Hkw Hag.
    intros Hj Hh. pose proof same_call as Hc. pose proof (same_jac Hj) as HJ. pose proof (same_hess Hh) as HH. destruct Hsame as (H1 & H2 & H3 & H4).
    unfold same_objectives, ls_call, ls_chi2, ls_jac, ls_hess, ls_hess_approx, ls_hess_with, zero_hess, vls_jac, vls_call, ll_call, ll_jac, ll_hess, ll_hess_with, mm_call, mm_jac, mm_hess.
    rewrite Hc, HJ, HH, H1, H3. repeat split; try reflexivity.
    - destruct (om_jac om1), (om_jac om2); try reflexivity; [destruct Hj as [_ Hj]; discriminate (Hj eq_refl)|destruct Hj as [Hj _]; discriminate (Hj eq_refl)].
    - destruct (om_hess om1), (om_hess om2); try reflexivity; [destruct Hh as [_ Hh]; discriminate (Hh eq_refl)|destruct Hh as [Hh _]; discriminate (Hh eq_refl)].
  Qed.
End Same.

Lemma seen_fixed h om data xs kw p : interface om -> In p (om_params om) -> p_fixed (h p) = true ->
  seen h om data xs kw (sname p) = Some (scalar (p_value (h p))).
Proof.
  intros Hi Hp Hf. unfold seen.
  destruct (find (fun v => eqb (sname v) (sname p)) (om_indep om)) as [v|] eqn:Ev.
  { apply find_some in Ev as [Hv He]. apply (proj1 (eqb_true _ _)) in He. exfalso. exact (names_disjoint om Hi v p Hv Hp He). }
  pose proof (params_names om Hi) as Hnd.
  destruct (find _ (om_params om)) as [q|] eqn:Eq.
  - apply find_some in Eq as [Hq He]. apply andb_prop in He as [He _]. apply (proj1 (eqb_true _ _)) in He.
    assert (q = p); [|congruence]. clear -Hnd Hq Hp He. induction (om_params om) as [|a l IH]; [contradiction|]. simpl in Hnd. inv Hnd.
    destruct Hq as [->|Hq], Hp as [->|Hp]; auto.
    + exfalso. apply H1. rewrite He. apply in_map; exact Hp.
    + exfalso. apply H1. rewrite <- He. apply in_map; exact Hq.
  - exfalso. apply (find_none _ _ Eq) in Hp. rewrite eqb_refl, Hf in Hp. discriminate.
Qed.

(** ** histories: the cache *)
Section Cache.
  Context (om : omodel).
  Lemma base_touched f level h h0 ob inv xs kw : compute_inv h0 om ob = Ok inv -> ob_inv ob = None ->
    (forall p, In p (om_params om) -> p_fixed (h p) = p_fixed (h0 p)) ->
    base_eval f level h om (touched h0 om ob) xs kw = base_eval f level h0 om ob xs kw.
  Proof using.
    intros Hc Hn Hfx. unfold base_eval, touched, invariant_kwargs. rewrite Hn, Hc. simpl.
    assert (Hfree : free_params h om = free_params h0 om) by (unfold free_params; apply filter_ext_in; intros p Hp; rewrite (Hfx p Hp); reflexivity).
    unfold prepare. rewrite Hfree. reflexivity.
  Qed.
  Lemma touched_fixed h h0 ob inv : compute_inv h0 om ob = Ok inv -> ob_inv ob = None -> touched h om (touched h0 om ob) = touched h0 om ob.
  Proof using. intros Hc Hn. unfold touched, invariant_kwargs. rewrite Hn, Hc. reflexivity. Qed.
  Lemma touched_fields h ob : ob_dep (touched h om ob) = ob_dep ob /\ ob_sig (touched h om ob) = ob_sig ob.
  Proof using. unfold touched, invariant_kwargs. destruct (ob_inv ob); [auto|]. destruct (compute_inv h om ob); simpl; auto. Qed.
  Lemma evaluate_touched h h0 ob inv xs kw : compute_inv h0 om ob = Ok inv -> ob_inv ob = None ->
    (forall p, In p (om_params om) -> p_fixed (h p) = p_fixed (h0 p)) ->
    evaluate h om (touched h0 om ob) xs kw = evaluate h0 om ob xs kw.
  Proof using.
    intros Hc Hn Hfx. assert (H0 : forall f level, base_eval f level h om (touched h0 om ob) xs kw = base_eval f level h0 om ob xs kw) by (intros; eapply base_touched; eassumption).
    destruct (touched_fields h0 ob) as [Hd Hs].
    assert (Hl1 : forall x, ls_component (touched h0 om ob) x = ls_component ob x) by (intros; unfold ls_component, dep_data, sigma_data; rewrite Hd, Hs; reflexivity).
    assert (Hl2 : forall a x, ls_jac_step (touched h0 om ob) a x = ls_jac_step ob a x) by (intros a [[? ?] ?]; unfold ls_jac_step, dep_data, sigma_data; rewrite Hd, Hs; reflexivity).
    assert (Hl3 : forall a x, ls_hess_step (touched h0 om ob) a x = ls_hess_step ob a x) by (intros a [[[? ?] ?] ?]; unfold ls_hess_step, dep_data, sigma_data; rewrite Hd, Hs; reflexivity).
    assert (Hl4 : forall b x, vls_terms b (touched h0 om ob) x = vls_terms b ob x) by (intros; unfold vls_terms, dep_data, sigma_data; rewrite Hd, Hs; reflexivity).
    assert (Hl5 : forall a x, vls_jac_step (touched h0 om ob) a x = vls_jac_step ob a x) by (intros a [[? ?] ?]; unfold vls_jac_step, dep_data, sigma_data; rewrite Hd, Hs; reflexivity).
    assert (E1 : forall l, mapM (ls_component (touched h0 om ob)) l = mapM (ls_component ob) l) by (induction l as [|x l IH]; simpl; [reflexivity|rewrite Hl1, IH; reflexivity]).
    assert (E4 : forall b l, mapM (vls_terms b (touched h0 om ob)) l = mapM (vls_terms b ob) l) by (induction l as [|x l IH]; simpl; [reflexivity|rewrite Hl4, IH; reflexivity]).
    assert (E2 : forall a l, foldM (ls_jac_step (touched h0 om ob)) a l = foldM (ls_jac_step ob) a l) by (intros; apply foldM_ext; intros; apply Hl2).
    assert (E3 : forall a l, foldM (ls_hess_step (touched h0 om ob)) a l = foldM (ls_hess_step ob) a l) by (intros; apply foldM_ext; intros; apply Hl3).
    assert (E5 : forall a l, foldM (vls_jac_step (touched h0 om ob)) a l = foldM (vls_jac_step ob) a l) by (intros; apply foldM_ext; intros; apply Hl5).
    assert (Hvc : forall b, vls_call b h om (touched h0 om ob) xs kw = vls_call b h0 om ob xs kw).
    { intros b. unfold vls_call, base_call. rewrite H0. destruct (base_eval (om_call om) 0 h0 om ob xs kw); simpl; [rewrite E4|]; reflexivity. }
    assert (HJ : base_jac h om (touched h0 om ob) xs kw = base_jac h0 om ob xs kw) by (unfold base_jac; destruct (om_jac om); [apply H0|reflexivity]).
    assert (HH : base_hess h om (touched h0 om ob) xs kw = base_hess h0 om ob xs kw) by (unfold base_hess; destruct (om_hess om); [apply H0|reflexivity]).
    assert (HC : base_call h om (touched h0 om ob) xs kw = base_call h0 om ob xs kw) by apply H0.
    assert (HW : forall hs, ls_hess_with hs h om (touched h0 om ob) xs kw = ls_hess_with hs h0 om ob xs kw).
    { intros hs. unfold ls_hess_with. rewrite HC, HJ. destruct (base_call h0 om ob xs kw); simpl; [|reflexivity]. destruct (base_jac h0 om ob xs kw); simpl; [|reflexivity].
      destruct hs; simpl; [|reflexivity]. rewrite E3. reflexivity. }
    unfold evaluate. f_equal.
    - unfold ls_call, ls_chi2. rewrite HC. destruct (base_call h0 om ob xs kw); simpl; [rewrite E1|]; reflexivity.
    - unfold ls_jac. rewrite HC, HJ. destruct (base_call h0 om ob xs kw); simpl; [|reflexivity]. destruct (base_jac h0 om ob xs kw); simpl; [rewrite E2|]; reflexivity.
    - unfold ls_hess. rewrite HW, HH. reflexivity.
    - unfold ls_hess_approx, zero_hess. rewrite HW, HC. reflexivity.
    - apply Hvc.
    - unfold vls_jac. rewrite Hvc, HC, HJ. destruct (vls_call false h0 om ob xs kw); simpl; [|reflexivity]. destruct (base_call h0 om ob xs kw); simpl; [|reflexivity].
      destruct (base_jac h0 om ob xs kw); simpl; [rewrite E5|]; reflexivity.
    - unfold ll_call. rewrite HC. reflexivity.
    - unfold ll_jac. rewrite HC, HJ. reflexivity.
    - unfold ll_hess, ll_hess_with. rewrite HC, HJ, HH. reflexivity.
    - unfold mm_call. rewrite HC. reflexivity.
    - unfold mm_jac. rewrite HJ. reflexivity.
    - unfold mm_hess. rewrite HH. reflexivity.
  Qed.
  Lemma run_stale h0 ob inv : compute_inv h0 om ob = Ok inv -> ob_inv ob = None -> forall hist,
    (forall h xs kw p, In (h, xs, kw) hist -> In p (om_params om) -> p_fixed (h p) = p_fixed (h0 p)) ->
    fst (run om (touched h0 om ob) hist) = map (fun e => evaluate h0 om ob (snd (fst e)) (snd e)) hist.
  Proof using.
    intros Hc Hn. induction hist as [|[[h xs] kw] hist IH]; intros Hfx; [reflexivity|]. simpl. rewrite (touched_fixed _ _ _ _ Hc Hn).
    specialize (IH (fun h' xs' kw' p Hin Hp => Hfx h' xs' kw' p (or_intror Hin) Hp)).
    destruct (run om (touched h0 om ob) hist) as [rs ob'] eqn:E. simpl in *. rewrite IH. f_equal.
    apply (evaluate_touched h h0 ob inv xs kw Hc Hn). intros p Hp. apply (Hfx h xs kw p (or_introl eq_refl) Hp).
  Qed.
End Cache.

(** ** equality *)
Lemma close_refl x : close x x = true.
Proof.
  unfold close. destruct (Rle_dec _ _) as [|H]; [reflexivity|]. exfalso. apply H. unfold Rminus. rewrite Rplus_opp_r, Rabs_R0.
  pose proof (Rabs_pos x). unfold atol, rtol. assert (0 <= / 100000 * Rabs x) by (apply Rmult_le_pos; lra). lra.
Qed.
Lemma bshape_refl s : bshape s s = Some s.
Proof. apply fits_bshape_r. apply fits_refl. Qed.
Lemma same_datum_refl v : same_datum v v = Ok true.
Proof.
  destruct v as [a|]; [|reflexivity]. simpl. unfold allclose. rewrite bshape_refl. f_equal. apply forallb_forall. intros i _. apply close_refl.
Qed.
Lemma eq_loop_refl d items : NoDup (dkeys d) -> (forall kv, In kv items -> In kv d) -> forall bd, eq_loop bd items d = Ok true.
Proof.
  intros Hnd. induction items as [|[k v] items IH]; intros Hin bd; [reflexivity|]. simpl. unfold dlook.
  rewrite (In_dget d k v Hnd) by (apply Hin; left; reflexivity). simpl. rewrite same_datum_refl. apply IH. intros kv Hkv. apply Hin; right; exact Hkv.
Qed.
Lemma forallb_ext_in {A} (f g : A -> bool) l : (forall a, In a l -> f a = g a) -> forallb f l = forallb g l.
Proof. induction l; simpl; intros H; [reflexivity|]. rewrite H, IHl by auto. reflexivity. Qed.
Lemma same_datum_sym o v : comparable o v -> exists r, same_datum o v = Ok r /\ same_datum v o = Ok r.
Proof.
  destruct o as [a|], v as [c|]; simpl; try contradiction; [|eauto]. intros [Hs Hc]. unfold allclose. rewrite Hs, bshape_refl.
  eexists. split; [reflexivity|]. f_equal. apply forallb_ext_in. intros i _. symmetry. apply Hc.
Qed.
Lemma eq_loop_spec items other : (forall k v, In (k, v) items -> exists o, dget other k = Some o /\ comparable o v) -> forall bd,
  eq_loop bd items other = Ok (forallb (fun kv => match dget other (fst kv) with Some o => match same_datum o (snd kv) with Ok r => r | Raise _ => false end | None => false end) items).
Proof.
  induction items as [|[k v] items IH]; intros H bd; [reflexivity|]. simpl. destruct (H k v (or_introl eq_refl)) as (o & Ho & Hc). unfold dlook. rewrite Ho. simpl.
  destruct (same_datum_sym o v Hc) as (r & Hr & _). rewrite Hr. destruct r; simpl; [|reflexivity]. apply IH. intros k' v' Hin. apply H. right; exact Hin.
Qed.
Lemma eq_sym_comparable d1 d2 : NoDup (dkeys d1) -> NoDup (dkeys d2) -> (forall k, In k (dkeys d1) <-> In k (dkeys d2)) ->
  (forall k o v, dget d1 k = Some v -> dget d2 k = Some o -> comparable o v) ->
  eq_loop false d1 d2 = eq_loop false d2 d1.
Proof.
  intros Hn1 Hn2 Hk Hc.
  assert (Hc' : forall k o v, dget d1 k = Some o -> dget d2 k = Some v -> comparable o v).
  { intros k o v H1 H2. specialize (Hc k v o H1 H2). destruct o, v; simpl in *; try contradiction; auto. destruct Hc as [Ha Hb]. split; [congruence|]. intros i. symmetry. apply Hb. }
  rewrite (eq_loop_spec d1 d2), (eq_loop_spec d2 d1).
  - f_equal. apply eq_true_iff_eq. rewrite !forallb_forall. split; intros H [k v] Hin; simpl.
    + pose proof (In_dget _ _ _ Hn2 Hin) as H2. assert (Hk1 : In k (dkeys d1)) by (apply Hk; eapply dget_Some_key; exact H2).
      destruct (dget d1 k) as [o|] eqn:H1; [|exfalso; apply dget_None in H1; contradiction].
      specialize (H (k, o) (dget_In _ _ _ H1)). simpl in H. rewrite H2 in H. destruct (same_datum_sym o v (Hc' k o v H1 H2)) as (r & Hr1 & Hr2). rewrite Hr1. rewrite Hr2 in H. exact H.
    + pose proof (In_dget _ _ _ Hn1 Hin) as H1. assert (Hk2 : In k (dkeys d2)) by (apply Hk; eapply dget_Some_key; exact H1).
      destruct (dget d2 k) as [o|] eqn:H2; [|exfalso; apply dget_None in H2; contradiction].
      specialize (H (k, o) (dget_In _ _ _ H2)). simpl in H. rewrite H1 in H. destruct (same_datum_sym o v (Hc k o v H1 H2)) as (r & Hr1 & Hr2). rewrite Hr1. rewrite Hr2 in H. exact H.
  - intros k v Hin. pose proof (In_dget _ _ _ Hn2 Hin) as H2. assert (Hk1 : In k (dkeys d1)) by (apply Hk; eapply dget_Some_key; exact H2).
    destruct (dget d1 k) as [o|] eqn:H1; [|exfalso; apply dget_None in H1; contradiction]. exists o. split; [reflexivity|]. eapply Hc'; eassumption.
  - intros k v Hin. pose proof (In_dget _ _ _ Hn1 Hin) as H1. assert (Hk2 : In k (dkeys d2)) by (apply Hk; eapply dget_Some_key; exact H1).
    destruct (dget d2 k) as [o|] eqn:H2; [|exfalso; apply dget_None in H2; contradiction]. exists o. split; [reflexivity|]. eapply Hc; eassumption.
Qed.

(** ** shaping *)
Lemma shape_one_value np y c : stretches c y -> exists c', shape_one np 0 y c = Ok c' /\ shp c' = shp y /\
  forall i, In i (indices (shp y)) -> val c' i = at_point c y i.
Proof.
  intros Hst. destruct (shaped_ok np 0 y c (stretches_0 _ _ _ Hst)) as (H1 & H2 & H3). exists (shaped np 0 y c). split; [exact H1|].
  simpl in H2, H3. rewrite app_nil_r in H2, H3. split; [exact H2|]. intros i Hi. rewrite H3 by exact Hi. rewrite dim_diff_0. reflexivity.
Qed.
Lemma shape_one_fails np y c : ~ stretches c y -> shp y <> shp c -> shape_one np 0 y c = Raise ValueError.
Proof.
  intros Hn Hne. unfold shape_one. destruct (list_eq_dec Nat.eq_dec (shp y) (shp c)); [contradiction|]. unfold broadcast_to. rewrite shp_expand_n. simpl repeat.
  rewrite Nat.sub_0_r, app_nil_r. destruct (fits _ (shp y)) eqn:E; [|reflexivity]. exfalso. apply Hn. exact E.
Qed.
Lemma shape_one_level np level y c j : stretches c y -> shp j = shp c ++ repeat np level -> shp j <> shp y ->
  exists j', shape_one np level y j = Ok j' /\ shp j' = shp y ++ repeat np level /\
    forall i k, In i (indices (shp y)) -> In k (indices (repeat np level)) -> val j' (i ++ k) = at_point {| shp := shp c; val := fun a => val j (a ++ k) |} y i.
Proof.
  intros Hst Hj Hne. destruct (stretches_jac np y c j level Hst Hj Hne) as [Ht _]. destruct (shaped_ok _ _ _ _ Ht) as (H1 & H2 & _).
  exists (shaped np level y j). split; [exact H1|]. split; [exact H2|]. intros i k Hi Hk. apply (at_point_jac np y c j level i k Hst Hj Hne Hi Hk).
Qed.
