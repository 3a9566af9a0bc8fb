(** * ResultsFacts: lemmas behind Prop_Results.v. *)
From Coq Require Import Reals Lra.
From Verif Require Import PyBase PyFacts Signature SignatureFacts Expr NumPy NumFacts Objective ObjSpec ObjFacts ObjLS ObjLeast ObjMore ObjExample Minimizer MinSpec MinFacts MinLemmas Fit FitSpec Results ResultsSpec.
Local Open Scope R_scope.
Local Open Scope string_scope.
Local Open Scope list_scope.

(** ** lookups *)
Lemma param_index_nth ps p k : NoDup ps -> nth_error ps k = Some p -> param_index ps p = Ok k.
Proof.
  revert k; induction ps as [|q ps IH]; intros [|k] Hn Hk; simpl in *; try discriminate.
  - inv Hk. destruct (eq_dec p p); congruence.
  - inv Hn. destruct (eq_dec q p) as [->|_]; [exfalso; apply H1; eapply nth_error_In; exact Hk|]. rewrite (IH k H2 Hk). reflexivity.
Qed.
Lemma param_index_absent ps p : ~ In p ps -> param_index ps p = Raise ValueError.
Proof.
  induction ps as [|q ps IH]; simpl; intros H; [reflexivity|]. destruct (eq_dec q p) as [->|]; [tauto|]. rewrite IH by tauto. reflexivity.
Qed.
Lemma index2_square n a k l : square n a -> (k < n)%nat -> (l < n)%nat -> index2 a k l = Ok (mat a k l).
Proof.
  unfold square, index2, mat. intros -> Hk Hl. apply Nat.ltb_lt in Hk, Hl. rewrite Hk, Hl. reflexivity.
Qed.

(** ** r_squared *)
Lemma dlook_entry out om v : lists_dependent om out -> In v (om_dep om) -> dlook out v = Ok (entry out v).
Proof.
  intros Hl Hv. unfold lists_dependent in Hl. rewrite <- Hl in Hv. apply filter_In in Hv as [Hv _]. unfold dlook, entry.
  destruct (dget out v) eqn:E; [reflexivity|]. apply dget_None in E. contradiction.
Qed.
Lemma present_given (data : dict sym (option nd)) vs : (forall v, In v vs -> In v (dkeys data)) ->
  present data vs = map (observed data) vs.
Proof.
  unfold present, observed. induction vs as [|v vs IH]; simpl; intros H; [reflexivity|]. rewrite IH by auto.
  destruct (dget data v) eqn:E; [reflexivity|]. apply dget_None in E. exfalso; apply E; apply H; auto.
Qed.
Lemma dget_find_combine {V} (ss : list sym) (f : sym -> V) n :
  dget (combine (map sname ss) (map f ss)) n = option_map f (find (fun v => eqb (sname v) n) ss).
Proof.
  induction ss as [|s ss IH]; simpl; [reflexivity|]. unfold eqb at 1. destruct (eq_dec n (sname s)) as [->|Hn].
  - destruct (eq_dec (sname s) (sname s)); [reflexivity|congruence].
  - destruct (eq_dec (sname s) n); [congruence|]. exact IH.
Qed.
Lemma dget_combine_map {V W} (f : V -> W) ks : forall vs (n : string), dget (combine ks (map f vs)) n = option_map f (dget (combine ks vs) n).
Proof. induction ks as [|k ks IH]; intros [|v vs] n; simpl; try reflexivity. destruct (eq_dec n k); [reflexivity|apply IH]. Qed.

Section RSquared.
  Context (h : heap) (om : omodel) (data : dict sym (option nd)) (ob : obj) (x popt : list R) (out : dict sym nd).
  Hypothesis Hint : interface om.
  Hypothesis Hby : by_keyword om.
  Hypothesis Hgiven : independent_data_given om data.
  Hypothesis Hlen : List.length x = nfree h (om_params om).
  Hypothesis Hpack : pack_output h (om_params om) x = Ok popt.
  Hypothesis Hval : value_at h om data x [] out.

  Let xs_of v := match observed data v with Some a => a | None => scalar 0 end.
  Lemma independent_positional : mapM (of_opt TypeError) (present data (om_indep om)) = Ok (map xs_of (om_indep om)).
  Proof using Hgiven.
    rewrite present_given.
    - set (l := om_indep om) in *. assert (H : forall v, In v l -> exists a, observed data v = Some a).
      { intros v Hv. destruct (Hgiven v Hv) as (a & Ha). exists a. unfold observed. rewrite Ha. reflexivity. }
      clearbody l. induction l as [|v l IH]; [reflexivity|]. cbn [map mapM]. rewrite IH by (intros w Hw; apply H; right; exact Hw).
      destruct (H v (or_introl eq_refl)) as (a & Ha). unfold xs_of. rewrite Ha. reflexivity.
    - intros v Hv. destruct (Hgiven v Hv) as (a & Ha). eapply dget_Some_key. exact Ha.
  Qed.
  Lemma result_dict : result_params (om_params om) popt = combine (map sname (om_params om)) popt.
  Proof using Hint.
    unfold result_params. apply dict_of_nodup. apply NoDup_combine_keys. exact (params_names om Hint).
  Qed.
  Lemma call_reported : call_with om (map xs_of (om_indep om)) (map (fun kv => (fst kv, scalar (snd kv))) (result_params (om_params om) popt)) = Ok out.
  Proof using Hint Hby Hgiven Hlen Hpack Hval.
    destruct (pack_ok h (om_params om) x Hlen) as (popt' & Hp' & Hl & _). rewrite Hpack in Hp'. injection Hp' as <-.
    pose proof Hint as (Hnames & Hnd & Hdep). unfold call_with. change (map pos_param (om_names om)) with (required (om_names om)).
    set (vs := map xs_of (om_indep om) ++ map scalar popt).
    assert (Hkw : map (fun kv => (fst kv, scalar (snd kv))) (result_params (om_params om) popt) = combine (map sname (om_params om)) (map scalar popt)).
    { rewrite result_dict. generalize (map sname (om_params om)) as ks. intros ks. clear. revert ks. induction popt as [|v p IH]; intros [|k ks]; simpl; try reflexivity. rewrite IH. reflexivity. }
    assert (Hb : combine (om_names om) vs = combine (map sname (om_indep om)) (map xs_of (om_indep om)) ++ combine (map sname (om_params om)) (map scalar popt)).
    { rewrite Hnames, map_app. unfold vs. apply combine_app. rewrite !map_length. reflexivity. }
    assert (Hbind : sig_bind (required (om_names om)) (map xs_of (om_indep om)) (map (fun kv => (fst kv, scalar (snd kv))) (result_params (om_params om) popt)) = Ok (combine (om_names om) vs)).
    { apply sig_bind_iff.
      - rewrite Hnames. exact Hnd.
      - rewrite Hkw. apply NoDup_combine_keys. exact (params_names om Hint).
      - exists vs. split; [unfold vs; rewrite Hnames, app_length, !map_length, app_length, Hl; reflexivity|]. split; [reflexivity|]. split.
        + unfold vs. rewrite firstn_app, firstn_all, Nat.sub_diag, firstn_O, app_nil_r. reflexivity.
        + rewrite Hkw, Hb. rewrite skipn_app. rewrite skipn_all2 by (rewrite combine_length, !map_length; lia). rewrite combine_length, !map_length, Nat.min_id, Nat.sub_diag. reflexivity. }
    rewrite Hbind. cbn [bind]. destruct Hval as (d & Hd & Hout & _). rewrite <- Hout. destruct Hd as [Hdn Hdd].
    refine (proj1 (Hby _ _ _ Hdn _)).
    - apply NoDup_combine_keys. rewrite Hnames. exact Hnd.
    - intros n. rewrite Hdd, (seen_result h om data x popt Hint Hlen Hpack n), Hb, dget_app, dget_find_combine. unfold seen.
      destruct (find (fun v => eqb (sname v) n) (om_indep om)) as [v|] eqn:Ev.
      + simpl. apply find_some in Ev as [Hv _]. destruct (Hgiven v Hv) as (a & Ha). unfold xs_of, observed. rewrite Ha. reflexivity.
      + simpl. assert (Hcn : forall m, combine m (@nil R) = (@nil (string * R))) by (intros []; reflexivity). rewrite Hcn. simpl dget.
        rewrite dget_combine_map, result_dict.
        destruct (find (fun p => eqb (sname p) n && p_fixed (h p)) (om_params om)) as [p|] eqn:Ep; [|reflexivity].
        apply find_some in Ep as [Hp He]. apply andb_prop in He as [He Hf]. apply (proj1 (eqb_true _ _)) in He. subst n.
        apply In_nth_error in Hp as (k & Hk). destruct (pack_ok h (om_params om) x Hlen) as (popt' & Hp' & _ & Hfix & _). rewrite Hpack in Hp'. injection Hp' as <-.
        rewrite (PyFacts.dget_combine_nth _ _ k (sname p) (p_value (h p))); [reflexivity|exact (params_names om Hint)|apply map_nth_error; exact Hk|]. apply Hfix; assumption.
  Qed.

  Hypothesis Hdata : forall v, In v (om_dep om) -> In v (dkeys data).
  Hypothesis Hshape : comparable_shapes om data out.
  Lemma residual_term v y : In v (om_dep om) -> observed data v = Some y ->
    ss_res_term (Some y, entry out v) = Ok [Rsum (map (fun i => (val y i - at_point (entry out v) y i) ^ 2) (indices (shp y)))].
  Proof using Hshape.
    intros Hv Hy. destruct (Hshape v y Hv Hy) as [Hst Hrank]. unfold ss_res_term. simpl.
    assert (Hf : fits (shp (entry out v)) (shp y) = true).
    { destruct Hrank as [H|H]; [rewrite H; reflexivity|]. unfold stretches in Hst. rewrite H, Nat.sub_diag in Hst. exact Hst. }
    destruct (nbin_fits Rminus y (entry out v) (shp y) (fits_refl _) Hf) as (c & Hc & _ & He & Hs & _). unfold nsub. rewrite Hc. cbn [bind]. f_equal. f_equal.
    unfold np_sum, nsq, npmap. cbn [shp val]. rewrite (Hs eq_refl). apply Rsum_ext. intros i Hi.
    rewrite <- (elem_val c i) by (rewrite (Hs eq_refl); exact Hi). rewrite He. rewrite elem_val by exact Hi. f_equal. f_equal. unfold at_point.
    destruct Hrank as [H|H]; [|rewrite H, Nat.sub_diag; reflexivity].
    unfold elem. rewrite H. reflexivity.
  Qed.
  Lemma total_term y : ss_tot_term (Some y) = Ok [Rsum (map (fun i => (val y i - average y) ^ 2) (indices (shp y)))].
  Proof using.
    unfold ss_tot_term, nsub. destruct (nbin_fits Rminus y (scalar (mean y)) (shp y) (fits_refl _) eq_refl) as (c & Hc & _ & He & Hs & _). rewrite Hc. cbn [bind]. f_equal. f_equal.
    unfold np_sum, nsq, npmap. cbn [shp val]. rewrite (Hs eq_refl). apply Rsum_ext. intros i Hi.
    rewrite <- (elem_val c i) by (rewrite (Hs eq_refl); exact Hi). rewrite He, elem_val by exact Hi. reflexivity.
  Qed.
  Lemma r_squared_value : r_squared om (result_params (om_params om) popt) data = Ok (1 - residual_ss data out (om_dep om) / total_ss data (om_dep om)).
  Proof using Hint Hby Hgiven Hlen Hpack Hval Hdata Hshape.
    unfold r_squared. rewrite independent_positional. cbn [bind]. rewrite call_reported. cbn [bind].
    destruct Hval as (d & _ & _ & Hl). rewrite (present_given data (om_dep om) Hdata).
    assert (H1 : forall l, (forall v, In v l -> In v (om_dep om)) -> mapM (dlook out) l = Ok (map (entry out) l)).
    { induction l as [|v l IH]; intros Hin; [reflexivity|]. cbn [mapM map]. rewrite (dlook_entry out om v Hl) by (apply Hin; left; reflexivity). cbn [bind]. rewrite IH by (intros w Hw; apply Hin; right; exact Hw). reflexivity. }
    rewrite (H1 (om_dep om)) by auto. cbn [bind].
    assert (H2 : forall l, (forall v, In v l -> In v (om_dep om)) -> exists r, mapM ss_res_term (combine (map (observed data) l) (map (entry out) l)) = Ok r /\ Rsum (concat r) = residual_ss data out l).
    { induction l as [|v l IH]; intros Hin; [exists []; split; reflexivity|]. destruct IH as (r & Hr & Hs); [intros w Hw; apply Hin; right; exact Hw|].
      cbn [map combine mapM]. unfold residual_ss. cbn [map Rsum]. fold (residual_ss data out l). destruct (observed data v) as [y|] eqn:Ey.
      - rewrite (residual_term v y (Hin v (or_introl eq_refl)) Ey). cbn [bind]. rewrite Hr. eexists. split; [reflexivity|]. simpl. rewrite Hs. reflexivity.
      - cbn [ss_res_term fst bind]. rewrite Hr. eexists. split; [reflexivity|]. simpl. rewrite Hs. lra. }
    assert (H3 : forall l, exists r, mapM ss_tot_term (map (observed data) l) = Ok r /\ Rsum (concat r) = total_ss data l).
    { induction l as [|v l IH]; [exists []; split; reflexivity|]. destruct IH as (r & Hr & Hs).
      cbn [map mapM]. unfold total_ss. cbn [map Rsum]. fold (total_ss data l). destruct (observed data v) as [y|] eqn:Ey.
      - rewrite (total_term y). cbn [bind]. rewrite Hr. eexists. split; [reflexivity|]. simpl. rewrite Hs. reflexivity.
      - cbn [ss_tot_term bind]. rewrite Hr. eexists. split; [reflexivity|]. simpl. rewrite Hs. lra. }
    destruct (H2 (om_dep om) (fun v H => H)) as (r & Hr & Hrs). destruct (H3 (om_dep om)) as (t & Ht & Hts). rewrite Hr. cbn [bind]. rewrite Ht. cbn [bind]. rewrite Hrs, Hts. reflexivity.
  Qed.
End RSquared.

Lemma ss_nonneg (data : dict sym (option nd)) (g : sym -> nd -> list nat -> R) dep :
  0 <= Rsum (map (fun v => match observed data v with Some y => Rsum (map (fun i => g v y i ^ 2) (indices (shp y))) | None => 0 end) dep).
Proof. apply Rsum_nonneg. intros v _. destruct (observed data v); [|lra]. apply Rsum_nonneg. intros i _. apply pow2_ge_0. Qed.
Lemma residual_nonneg data out dep : 0 <= residual_ss data out dep.
Proof. exact (ss_nonneg data (fun v y i => val y i - at_point (entry out v) y i) dep). Qed.
Lemma residual_zero om data out : residual_ss data out (om_dep om) = 0 <-> perfect om data out.
Proof.
  split.
  - intros H v y i Hv Hy Hi.
    assert (H1 := Rsum_zero _ _ (fun v (_ : In v (om_dep om)) => match observed data v as o return 0 <= match o with Some y => Rsum (map (fun i => (val y i - at_point (entry out v) y i) ^ 2) (indices (shp y))) | None => 0 end with
      | Some y => Rsum_nonneg _ _ (fun i _ => pow2_ge_0 _) | None => Rle_refl 0 end) H v Hv).
    simpl in H1. rewrite Hy in H1. assert (H2 := Rsum_zero _ _ (fun i _ => pow2_ge_0 _) H1 i Hi). simpl in H2. rewrite Rmult_1_r in H2. apply Rmult_integral in H2. lra.
  - intros H. unfold residual_ss. rewrite (Rsum_ext _ (fun _ => 0)); [apply Rsum_const0|]. intros v Hv. destruct (observed data v) as [y|] eqn:Ey; [|reflexivity].
    rewrite (Rsum_ext _ (fun _ => 0)); [apply Rsum_const0|]. intros i Hi. rewrite (H v y i Hv Ey Hi). simpl. ring.
Qed.
Lemma total_positive om data : varied om data -> 0 < total_ss data (om_dep om).
Proof.
  intros (v & y & i & j & Hv & Hy & Hi & Hj & Hne).
  assert (Hge := ss_nonneg data (fun v y i => val y i - average y) (om_dep om)). fold (total_ss data (om_dep om)) in Hge.
  destruct Hge as [H|H]; [exact H|]. exfalso. symmetry in H. unfold total_ss in H.
  assert (H1 := Rsum_zero _ _ (fun v (_ : In v (om_dep om)) => match observed data v as o return 0 <= match o with Some y => Rsum (map (fun i => (val y i - average y) ^ 2) (indices (shp y))) | None => 0 end with
      | Some y => Rsum_nonneg _ _ (fun i _ => pow2_ge_0 _) | None => Rle_refl 0 end) H v Hv).
  simpl in H1. rewrite Hy in H1.
  assert (Hz : forall k, In k (indices (shp y)) -> val y k = average y).
  { intros k Hk. assert (H2 := Rsum_zero _ _ (fun i _ => pow2_ge_0 _) H1 k Hk). simpl in H2. rewrite Rmult_1_r in H2. apply Rmult_integral in H2. lra. }
  apply Hne. rewrite (Hz i Hi), (Hz j Hj). reflexivity.
Qed.

(** ** the qualifiers *)
Lemma created_parts b om data ob kw : created b om data ob kw ->
  interface om /\ by_keyword om /\ independent_data_given om data /\ ob_data ob = data /\ (b = false -> forall v, In v (om_dep om) -> In v (dkeys data)).
Proof.
  intros (H1 & H2 & _ & H3 & _ & H4). split; [exact H1|]. split; [exact H2|]. split; [exact H4|]. destruct (obj_init_inv b om data ob H3) as (H5 & _ & _ & _ & H6).
  split; [exact H5|]. intros -> v Hv. destruct H6 as (_ & _ & H6). apply H6. exact Hv.
Qed.
Lemma gof_least_squares h om data ob x popt out f : created false om data ob [] -> List.length x = nfree h (om_params om) -> pack_output h (om_params om) x = Ok popt ->
  value_at h om data x [] out -> fits_data om data out -> comparable_shapes om data out ->
  obj_value OLS h om ob x [] = Ok f ->
  exists g, gof_qualifiers OLS om (ob_data ob) (result_params (om_params om) popt) f = Ok g /\
    (exists o, dget g "objective_value" = Some o /\ shp o = [] /\ val o [] = / 2 * Rsum (map (chi2_of data out) (om_dep om))) /\
    (exists c, dget g "chi_squared" = Some c /\ shp c = [] /\ val c [] = Rsum (map (chi2_of data out) (om_dep om))) /\
    (exists r, dget g "r_squared" = Some (scalar r) /\ r = 1 - residual_ss data out (om_dep om) / total_ss data (om_dep om)).
Proof.
  intros Hc Hl Hp Hv Hf Hs Ho. destruct (created_parts _ _ _ _ _ Hc) as (H1 & H2 & H3 & H4 & H5). unfold gof_qualifiers. rewrite H4.
  rewrite (r_squared_value h om data x popt out H1 H2 H3 Hl Hp Hv (H5 eq_refl) Hs). cbn [bind].
  cbn [obj_value] in Ho. rewrite (ls_value h om data ob [] Hc x out Hv Hf) in Ho. cbn [bind] in Ho. injection Ho as <-.
  eexists. split; [reflexivity|]. split; [eexists; split; [reflexivity|]; split; reflexivity|]. split; [|eexists; split; reflexivity].
  eexists. split; [reflexivity|]. split; [reflexivity|]. simpl. unfold half_chi2. field.
Qed.
Lemma gof_vector h om data ob S x popt out f : created false om data ob [] -> (forall v y, In v (om_dep om) -> observed data v = Some y -> shp y = S) -> some_data om data ->
  List.length x = nfree h (om_params om) -> pack_output h (om_params om) x = Ok popt ->
  value_at h om data x [] out -> fits_data om data out -> comparable_shapes om data out ->
  obj_value OVLS h om ob x [] = Ok f ->
  exists g, gof_qualifiers OVLS om (ob_data ob) (result_params (om_params om) popt) f = Ok g /\ dget g "objective_value" = Some f /\
    (exists c, dget g "chi_squared" = Some (scalar c) /\ c = Rsum (map (chi2_of data out) (om_dep om))) /\
    (exists r, dget g "r_squared" = Some (scalar r) /\ r = 1 - residual_ss data out (om_dep om) / total_ss data (om_dep om)).
Proof.
  intros Hc HS Hsome Hl Hp Hv Hf Hs Ho. destruct (created_parts _ _ _ _ _ Hc) as (H1 & H2 & H3 & H4 & H5). unfold gof_qualifiers. rewrite H4.
  rewrite (r_squared_value h om data x popt out H1 H2 H3 Hl Hp Hv (H5 eq_refl) Hs). cbn [bind].
  destruct (vls_value_spec h om data ob [] S x out Hc HS Hsome Hv Hf) as (r & c & Hr & Hsh & Hcl & Hsum). cbn [obj_value] in Ho. rewrite Hr in Ho. injection Ho as <-.
  rewrite (ls_value h om data ob [] Hc x out Hv Hf) in Hcl. injection Hcl as <-.
  eexists. split; [reflexivity|]. split; [reflexivity|]. split; [|eexists; split; reflexivity].
  eexists. split; [reflexivity|]. transitivity (2 * half_chi2 data out (om_dep om)); [|unfold half_chi2; field]. rewrite <- Hsum.
  unfold np_sum, nsq, npmap. cbn [shp val]. rewrite Hsh. simpl indices. rewrite app_nil_r, map_map. reflexivity.
Qed.
Lemma Rprod_exp l : (forall x, In x l -> 0 < x) -> exp (Rsum (map ln l)) = Rprod l.
Proof.
  induction l as [|x l IH]; simpl; intros H; [apply exp_0|]. rewrite exp_plus, IH by auto. rewrite exp_ln by auto. reflexivity.
Qed.
Lemma log_sum_values out dep : - minus_log_sum out dep = Rsum (map ln (all_values out dep)).
Proof.
  unfold minus_log_sum, all_values. rewrite Ropp_involutive. induction dep as [|v dep IH]; [reflexivity|]. simpl. rewrite map_app, Rsum_app, IH, map_map. reflexivity.
Qed.
Lemma gof_likelihood h om data ob x popt out f : created true om data ob [] -> List.length x = nfree h (om_params om) -> pack_output h (om_params om) x = Ok popt ->
  value_at h om data x [] out -> obj_value OLL h om ob x [] = Ok f ->
  exists g, gof_qualifiers OLL om (ob_data ob) (result_params (om_params om) popt) f = Ok g /\
    dget g "objective_value" = Some f /\ dget g "r_squared" = None /\ dget g "chi_squared" = None /\
    (exists l, dget g "log_likelihood" = Some l /\ shp l = [] /\ val l [] = Rsum (map ln (all_values out (om_dep om)))) /\
    (exists l, dget g "likelihood" = Some l /\ shp l = [] /\ (all_positive (om_dep om) out -> val l [] = Rprod (all_values out (om_dep om)))).
Proof.
  intros Hc Hl Hp Hv Ho. cbn [obj_value] in Ho. rewrite (ll_value h om data ob [] Hc x out Hv) in Ho. cbn [bind] in Ho. injection Ho as <-.
  eexists. split; [reflexivity|]. split; [reflexivity|]. split; [reflexivity|]. split; [reflexivity|]. split.
  - eexists. split; [reflexivity|]. split; [reflexivity|]. simpl. apply log_sum_values.
  - eexists. split; [reflexivity|]. split; [reflexivity|]. intros Hpos. simpl. rewrite log_sum_values. apply Rprod_exp.
    intros r Hr. unfold all_values in Hr. apply in_concat in Hr as (l & Hl' & Hr). apply in_map_iff in Hl' as (v & <- & Hv'). apply in_map_iff in Hr as (i & <- & Hi). apply Hpos; assumption.
Qed.
