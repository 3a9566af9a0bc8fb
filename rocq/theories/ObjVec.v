(** * ObjVec: VectorLeastSquares. *)
From Coq Require Import Reals Lra.
From Coquelicot Require Import Coquelicot.
From Verif Require Import PyBase PyFacts Expr NumPy NumFacts JacAnalysis Objective ObjSpec ObjFacts ObjLS ObjLeast ObjDiff ObjMore.
Local Open Scope R_scope.

Lemma flatten_ok a S : shp a = S -> shp (flatten a) = [List.length (indices S)] /\
  forall m i, nth_error (indices S) m = Some i -> val (flatten a) [m] = val a i.
Proof. intros <-. split; [reflexivity|]. intros m i Hm. simpl. f_equal. apply nth_error_nth. exact Hm. Qed.

Lemma foldM_app {A S} (f : S -> A -> res S) l m : forall s, foldM f s (l ++ m) = bind (foldM f s l) (fun s' => foldM f s' m).
Proof. induction l as [|a l IH]; simpl; intros s; [reflexivity|]. destruct (f s a); simpl; auto. Qed.

Section Vec.
  Context (h : heap) (om : omodel) (data : dict sym (option nd)) (ob : obj) (kw : dict string R).
  Hypothesis Hcr : created false om data ob kw.
  Let np := List.length (om_params om).
  Context (S : list nat).
  Hypothesis Hsame : forall v y, In v (om_dep om) -> observed data v = Some y -> shp y = S.
  Hypothesis Hsd : some_data om data.
  Let N := List.length (indices S).

  (** the square of the weighted residual of [v] at index [i] *)
  Definition sq_res (out : dict sym nd) (v : sym) (i : list nat) : R :=
    match observed data v, observed data (sigma_of v) with
    | Some y, Some s => ((val y i - at_point (entry out v) y i) / elem s i) ^ 2
    | _, _ => 0
    end.
  Lemma vls_terms_ok b out v : In v (om_dep om) -> fits_data om data out ->
    exists q, vls_terms b ob (v, at_level om ob 0 out v) = Ok (match observed data v with Some _ => [q] | None => [] end) /\
      (observed data v <> None -> if b then shp q = [N] /\ (forall m i, nth_error (indices S) m = Some i -> val q [m] = sq_res out v i)
       else shp q = S /\ forall i, In i (indices S) -> val q i = sq_res out v i).
  Proof using Hcr Hsame.
    intros Hv Hf. unfold vls_terms, sq_res. cbn [fst snd]. rewrite (dep_observed om data ob kw Hcr v Hv).
    destruct (observed data v) as [y|] eqn:Hy; [|exists (scalar 0); split; [reflexivity|congruence]].
    destruct (Hf v y Hv Hy) as (Hst & s & Hs & Hsf & Hnz). rewrite Hs, (sig_observed om data ob kw Hcr v s Hv Hs). cbn [bind].
    pose proof (Hsame v y Hv Hy) as HS. destruct (shaped_value om data ob kw Hcr out v y Hv Hy Hst) as [H1 H2].
    destruct (nbin_fits Rminus y (at_level om ob 0 out v) (shp y)) as (d & Hd & Hd1 & Hd2 & Hd3 & _); [apply fits_refl|rewrite H1; apply fits_refl|].
    unfold nsub. rewrite Hd. cbn [bind].
    destruct (nbin_fits Rdiv d s (shp y)) as (w & Hw & Hw1 & Hw2 & Hw3 & _); [exact Hd1|exact Hsf|].
    unfold ndiv. rewrite Hw. cbn [bind]. specialize (Hw3 (Hd3 eq_refl)). rewrite HS in *.
    assert (Hval : forall i, In i (indices S) -> val (nsq w) i = ((val y i - at_point (entry out v) y i) / elem s i) ^ 2).
    { intros i Hi. simpl val. rewrite <- elem_val by (rewrite Hw3; exact Hi). rewrite Hw2, Hd2. rewrite (elem_val y) by (rewrite HS; exact Hi).
      rewrite elem_val by (rewrite H1; exact Hi). rewrite H2 by exact Hi. reflexivity. }
    eexists. split; [reflexivity|]. intros _. destruct b.
    - destruct (flatten_ok (nsq w) S Hw3) as [Hfl Hfv]. split; [exact Hfl|]. intros m i Hm. rewrite (Hfv m i Hm). apply Hval. eapply nth_error_In; exact Hm.
    - split; [exact Hw3|exact Hval].
  Qed.

  Lemma foldM_concat {A} (F : sym -> list A) (step : nd -> A -> res nd) acc (l : list sym) : foldM step acc (concat (map F l)) = foldM (fun a v => foldM step a (F v)) acc l.
  Proof using.
    revert acc. induction l as [|v l IH]; intros acc; simpl; [reflexivity|]. rewrite foldM_app. destruct (foldM step acc (F v)); simpl; auto.
  Qed.
  Lemma vls_sum (b : bool) (out : dict sym nd) xs T : value_at h om data xs kw out -> fits_data om data out ->
    T = (if b then [N] else S) ->
    exists r, vls_call b h om ob xs kw = Ok r /\ shp r = T /\
      (if b then forall m i, nth_error (indices S) m = Some i -> val r [m] = sqrt (Rsum (map (fun v => sq_res out v i) (om_dep om)))
       else forall i, In i (indices S) -> val r i = sqrt (Rsum (map (fun v => sq_res out v i) (om_dep om)))).
  Proof using Hcr Hsame Hsd.
    intros Hv Hf HT. unfold vls_call. rewrite (base_value h om data ob kw Hcr xs out Hv Hf). cbn [bind]. rewrite combine_self.
    assert (HQ : exists Q : sym -> nd, forall v, In v (om_dep om) -> vls_terms b ob (v, at_level om ob 0 out v) = Ok (match observed data v with Some _ => [Q v] | None => [] end) /\
       (observed data v <> None -> shp (Q v) = T /\ forall k, In k (indices T) -> val (Q v) k = if b then sq_res out v (nth (hd 0%nat k) (indices S) []) else sq_res out v k)).
    { exists (fun v => match vls_terms b ob (v, at_level om ob 0 out v) with Ok [q] => q | _ => scalar 0 end). intros v Hvd.
      destruct (vls_terms_ok b out v Hvd Hf) as (q & Hq & Hq2). rewrite Hq. destruct (observed data v) as [y|] eqn:Hy; [|split; [reflexivity|congruence]].
      split; [reflexivity|]. intros Hne. specialize (Hq2 Hne). subst T. destruct b.
      - destruct Hq2 as [Hq2 Hq3]. split; [exact Hq2|]. intros k Hk. pose proof (proj1 (in_indices _ _) Hk) as Hkk. inv Hkk. inv H3. simpl hd.
        apply Hq3. apply nth_error_nth'. match goal with H : (_ < N)%nat |- _ => exact H end.
      - exact Hq2. }
    destruct HQ as (Q & HQ).
    rewrite mapM_map with (g := fun vf => match observed data (fst vf) with Some _ => [Q (fst vf)] | None => [] end).
    2:{ intros [v c] Hin. apply in_map_iff in Hin as (w & Hq & Hw). inv Hq. cbn [fst]. apply HQ. exact Hw. }
    cbn [bind]. rewrite map_map. cbn [fst]. rewrite foldM_concat.
    destruct (fold_steps (fun a v => foldM nadd a (match observed data v with Some _ => [Q v] | None => [] end)) (has_data data) T (fun v k => if b then sq_res out v (nth (hd 0%nat k) (indices S) []) else sq_res out v k) (om_dep om)) with (acc := scalar 0) as (r & Hr & _ & Hrv & Hrs).
    - intros acc v Hvd Ha. unfold has_data. destruct (HQ v Hvd) as [_ HQ2]. destruct (observed data v) as [y|] eqn:Hy; [|reflexivity].
      destruct HQ2 as [Hs Hval]; [congruence|]. destruct (nbin_fits Rplus acc (Q v) T) as (c & Hc & _ & Hcv & _ & Hcs & _); [exact Ha|rewrite Hs; apply fits_refl|].
      simpl. unfold nadd. rewrite Hc. simpl. exists c. split; [reflexivity|]. split; [apply Hcs; exact Hs|]. intros k Hk. rewrite Hcv. f_equal. rewrite elem_val by (rewrite Hs; exact Hk). apply Hval; exact Hk.
    - reflexivity.
    - rewrite Hr. cbn [bind]. eexists. split; [reflexivity|].
      assert (HrT : shp r = T).
      { apply Hrs. left. destruct Hsd as (v0 & y0 & Hv0 & Hy0). apply existsb_exists. exists v0. split; [exact Hv0|]. unfold has_data. rewrite Hy0. reflexivity. }
      split; [exact HrT|].
      assert (Hrest : forall k, In k (indices T) -> val r k = Rsum (map (fun v => if b then sq_res out v (nth (hd 0%nat k) (indices S) []) else sq_res out v k) (om_dep om))).
      { intros k Hk. rewrite <- elem_val by (rewrite HrT; exact Hk). rewrite Hrv by exact Hk. rewrite elem_scalar, Rplus_0_l. apply Rsum_ext. intros v Hvd.
        unfold has_data. destruct (observed data v) eqn:E; [reflexivity|]. unfold sq_res. rewrite E. destruct b; reflexivity. }
      subst T. destruct b.
      + intros m i Hm. simpl val. f_equal. rewrite Hrest.
        * simpl hd. rewrite (nth_error_nth _ _ _ Hm). reflexivity.
        * apply in_indices1. unfold N. apply nth_error_Some. rewrite Hm. discriminate.
      + intros i Hi. simpl val. f_equal. apply Hrest. exact Hi.
  Qed.

  Lemma sq_res_nonneg out v i : 0 <= sq_res out v i.
  Proof using. unfold sq_res. destruct (observed data v); [|lra]. destruct (observed data (sigma_of v)); [|lra]. apply pow2_ge_0. Qed.
  Lemma sum_sq_res out : fits_data om data out -> Rsum (map (fun i => Rsum (map (fun v => sq_res out v i) (om_dep om))) (indices S)) = 2 * half_chi2 data out (om_dep om).
  Proof using Hsame.
    intros Hf. rewrite Rsum_swap. unfold half_chi2. rewrite <- Rmult_assoc, Rinv_r, Rmult_1_l by lra. apply Rsum_ext. intros v Hv. unfold sq_res, chi2_of.
    destruct (observed data v) as [y|] eqn:Hy; [|apply Rsum_const0]. destruct (observed data (sigma_of v)) as [s|]; [|apply Rsum_const0].
    rewrite (Hsame v y Hv Hy). apply Rsum_ext. intros i _. unfold Rdiv. ring.
  Qed.
  Lemma Rsum_nth_indices (g : list nat -> R) : Rsum (map (fun m => g (nth m (indices S) [])) (seq 0 N)) = Rsum (map g (indices S)).
  Proof using. rewrite <- (map_map (fun m => nth m (indices S) []) g). unfold N. rewrite map_nth_seq. reflexivity. Qed.

  Lemma vls_squares xs out : value_at h om data xs kw out -> fits_data om data out ->
    exists r, vls_call true h om ob xs kw = Ok r /\ shp r = [N] /\
      Rsum (map (fun m => val r [m] ^ 2) (seq 0 N)) = 2 * half_chi2 data out (om_dep om).
  Proof using Hcr Hsame Hsd.
    intros Hv Hf. destruct (vls_sum true out xs [N] Hv Hf eq_refl) as (r & Hr & Hrs & Hrv). exists r. split; [exact Hr|]. split; [exact Hrs|].
    rewrite <- (sum_sq_res out Hf). rewrite <- (Rsum_nth_indices (fun i => Rsum (map (fun v => sq_res out v i) (om_dep om)))). apply Rsum_ext. intros m Hm. apply in_seq in Hm.
    rewrite (Hrv m (nth m (indices S) [])) by (apply nth_error_nth'; unfold N in Hm; lia). apply pow2_sqrt. apply Rsum_nonneg. intros; apply sq_res_nonneg.
  Qed.

  (** *** Jacobian *)
  Definition vec_term (out jac : dict sym nd) (v : sym) (k : nat) (i : list nat) : R :=
    match observed data v, observed data (sigma_of v) with
    | Some y, Some s => val (entry jac v) (pt out v y i ++ [k]) * ((val y i - at_point (entry out v) y i) / elem s i ^ 2)
    | _, _ => 0
    end.
  Lemma add_rows_ok (w : nd) : fits (shp w) S = true -> forall rs acc, List.length rs = List.length acc ->
    (forall r, In r rs -> shp r = S) -> (forall a, In a acc -> fits (shp a) S = true) ->
    exists acc', add_rows acc rs w = Ok acc' /\ List.length acc' = List.length acc /\ (forall a, In a acc' -> shp a = S) /\
      forall k i, (k < List.length acc)%nat -> In i (indices S) ->
        elem (nth k acc' (scalar 0)) i = elem (nth k acc (scalar 0)) i + val (nth k rs (scalar 0)) i * elem w i.
  Proof.
    intros Hw. induction rs as [|r rs IH]; intros [|a acc] Hl Hr Ha; try discriminate.
    - exists []. split; [reflexivity|]. split; [reflexivity|]. split; [intros ? []|]. simpl; intros; lia.
    - destruct (nbin_fits Rmult r w S) as (t & Ht & Ht1 & Htv & Hts & _); [rewrite (Hr r) by (left; reflexivity); apply fits_refl|exact Hw|].
      specialize (Hts (Hr r (or_introl eq_refl))).
      destruct (nbin_fits Rplus a t S) as (a' & Ha' & _ & Hav & _ & Has & _); [apply Ha; left; reflexivity|exact Ht1|].
      destruct (IH acc) as (acc' & He & Hl' & Hs' & Hv'); [simpl in Hl; lia|intros; apply Hr; right; assumption|intros; apply Ha; right; assumption|].
      exists (a' :: acc'). simpl. unfold nmul, nadd. rewrite Ht. simpl. rewrite Ha'. simpl. rewrite He. simpl. split; [reflexivity|]. split; [simpl; lia|].
      split; [intros b [<-|Hb]; [apply Has; exact Hts|apply Hs'; exact Hb]|].
      intros [|k] i Hk Hi; simpl.
      + rewrite Hav, Htv. rewrite (elem_val r) by (rewrite (Hr r (or_introl eq_refl)); exact Hi). reflexivity.
      + apply Hv'; [simpl in Hk; lia|exact Hi].
  Qed.
  Lemma nth_rows j n k : shp j = S ++ [n] -> (k < n)%nat -> List.length (rows j) = n /\ shp (nth k (rows j) (scalar 0)) = S /\ forall i, val (nth k (rows j) (scalar 0)) i = val j (i ++ [k]).
  Proof.
    intros Hj Hk. rewrite (rows_ok j S n Hj). rewrite map_length, seq_length. split; [reflexivity|].
    rewrite (nth_error_nth _ k (scalar 0) (x := {| shp := S; val := fun i => val j (i ++ [k]) |})); [split; reflexivity|].
    rewrite nth_error_map, nth_error_seq by exact Hk. reflexivity.
  Qed.
  Lemma vls_jac_fold out jac : fits_data om data out -> (forall v, In v (om_dep om) -> shp (entry jac v) = shp (entry out v) ++ [np] /\ forall y, observed data v = Some y -> shp (entry jac v) <> shp y) ->
    forall l, (forall v, In v l -> In v (om_dep om)) -> forall acc, List.length acc = np -> (forall a, In a acc -> fits (shp a) S = true) ->
    exists r, foldM (vls_jac_step ob) acc (map (fun v => (v, at_level om ob 0 out v, at_level om ob 1 jac v)) l) = Ok r /\ List.length r = np /\
      (forall a, In a r -> fits (shp a) S = true) /\
      (forall k i, (k < np)%nat -> In i (indices S) -> elem (nth k r (scalar 0)) i = elem (nth k acc (scalar 0)) i + Rsum (map (fun v => vec_term out jac v k i) l)) /\
      (existsb (has_data data) l = true \/ (forall a, In a acc -> shp a = S) -> forall a, In a r -> shp a = S).
  Proof using Hcr Hsame.
    intros Hf Hj. induction l as [|v l IH]; intros Hl acc Ha Hfa.
    - exists acc. split; [reflexivity|]. split; [exact Ha|]. split; [exact Hfa|]. split; [intros; simpl; lra|]. intros [H|H]; [discriminate|exact H].
    - assert (Hvd : In v (om_dep om)) by (apply Hl; left; reflexivity). cbn [map foldM vls_jac_step]. rewrite (dep_observed om data ob kw Hcr v Hvd).
      destruct (observed data v) as [y|] eqn:Hy.
      + destruct (Hf v y Hvd Hy) as (Hst & s & Hs & Hsf & Hnz). rewrite (sig_observed om data ob kw Hcr v s Hvd Hs). cbn [bind].
        pose proof (Hsame v y Hvd Hy) as HS. destruct (Hj v Hvd) as [Hj1 Hj2].
        destruct (shaped_value om data ob kw Hcr out v y Hvd Hy Hst) as [Hf1 Hf2]. destruct (shaped_jac om data ob kw Hcr out jac v y Hvd Hy Hst Hj1 (Hj2 y Hy)) as [Hg1 Hg2].
        destruct (weight_ok y (at_level om ob 0 out v) s Hf1 Hsf) as (d & w & Hd & Hw & Hws & Hwv). rewrite Hd. cbn [bind]. rewrite Hw. cbn [bind].
        rewrite HS in *. fold np in Hg1, Hg2.
        assert (Hlr : List.length (rows (at_level om ob 1 jac v)) = np) by (rewrite (rows_ok _ _ _ Hg1), map_length, seq_length; reflexivity).
        destruct (add_rows_ok w) with (rs := rows (at_level om ob 1 jac v)) (acc := acc) as (acc' & He & Hl' & Hs' & Hv').
        { rewrite Hws. apply fits_refl. } { rewrite Hlr; congruence. } { intros r Hr. rewrite (rows_ok _ _ _ Hg1) in Hr. apply in_map_iff in Hr as (k & <- & _). reflexivity. } { exact Hfa. }
        rewrite He. cbn [bind]. destruct (IH (fun w Hw => Hl w (or_intror Hw)) acc') as (r & Hr & Hrl & Hrf & Hrv & Hrs); [congruence|intros a Hin; rewrite (Hs' a Hin); apply fits_refl|].
        exists r. split; [exact Hr|]. split; [exact Hrl|]. split; [exact Hrf|]. split; [|intros _; apply Hrs; right; exact Hs'].
        intros k i Hk Hi. rewrite Hrv by assumption. rewrite Hv' by (auto; lia). cbn [map Rsum].
        destruct (nth_rows _ _ _ Hg1 Hk) as (_ & _ & Hnr). rewrite Hnr, Hg2 by assumption.
        unfold vec_term at 2. rewrite Hy, Hs. rewrite <- (app_nil_r i) at 3. rewrite Hwv by exact Hi. rewrite Hf2 by exact Hi. lra.
      + cbn [bind]. destruct (IH (fun w Hw => Hl w (or_intror Hw)) acc Ha Hfa) as (r & Hr & Hrl & Hrf & Hrv & Hrs).
        exists r. split; [exact Hr|]. split; [exact Hrl|]. split; [exact Hrf|]. split.
        * intros k i Hk Hi. rewrite Hrv by assumption. cbn [map Rsum]. unfold vec_term at 2. rewrite Hy. lra.
        * cbn [existsb]. unfold has_data at 1. rewrite Hy. exact Hrs.
  Qed.

  Lemma np_stack_ok (l : list nd) T : l <> [] -> (forall a, In a l -> shp a = T) ->
    exists st, np_stack l = Ok st /\ shp st = T ++ [List.length l] /\ forall k i, (k < List.length l)%nat -> List.length i = List.length T -> val st (i ++ [k]) = val (nth k l (scalar 0)) i.
  Proof.
    intros Hne Hl. destruct l as [|a l]; [congruence|]. pose proof (Hl a (or_introl eq_refl)) as Ha.
    assert (Hall : forallb (fun b => if list_eq_dec Nat.eq_dec (shp b) (shp a) then true else false) (a :: l) = true).
    { apply forallb_forall. intros b Hb. rewrite (Hl b Hb), Ha. destruct (list_eq_dec Nat.eq_dec T T); congruence. }
    unfold np_stack. rewrite Hall. eexists. split; [reflexivity|]. cbn [shp val]. rewrite Ha. split; [reflexivity|].
    intros k i Hk Hi. rewrite <- Hi. rewrite app_nth2, Nat.sub_diag by lia. rewrite firstn_app, firstn_all, Nat.sub_diag, firstn_O, app_nil_r.
    change (nth 0 [k] 0%nat) with k. rewrite (nth_indep _ _ (scalar 0)) by exact Hk. reflexivity.
  Qed.

  Lemma vls_jacobian xs out jac : value_at h om data xs kw out -> fits_data om data out -> jacobian_at h om data xs kw out jac -> (0 < np)%nat ->
    exists G, vls_jac h om ob xs kw = Ok G /\ shp G = [np; N] /\
      forall k m i, (k < np)%nat -> nth_error (indices S) m = Some i ->
        val G [k; m] = - (Rsum (map (fun v => vec_term out jac v k i) (om_dep om)) * (1 / sqrt (Rsum (map (fun v => sq_res out v i) (om_dep om))))).
  Proof using Hcr Hsame Hsd.
    intros Hv Hf Hj Hnp. unfold vls_jac.
    destruct (vls_sum false out xs S Hv Hf eq_refl) as (chi & Hchi & Hchis & Hchiv). rewrite Hchi. cbn [bind].
    rewrite (base_value h om data ob kw Hcr xs out Hv Hf). cbn [bind]. rewrite (base_jacobian h om data ob kw Hcr xs out jac Hj Hf). cbn [bind].
    rewrite combine_self, combine_map2 with (f := fun v => (v, at_level om ob 0 out v)).
    destruct (vls_jac_fold out jac Hf (proj2 Hj) (om_dep om) (fun v Hvd => Hvd) (repeat (scalar 0) np)) as (acc & Hacc & Haccl & _ & Haccv & Haccs).
    { apply repeat_length. } { intros a Ha. apply repeat_spec in Ha. subst. reflexivity. }
    fold np. rewrite Hacc. cbn [bind].
    assert (HS : forall a, In a acc -> shp a = S).
    { apply Haccs. left. destruct Hsd as (v0 & y0 & Hv0 & Hy0). apply existsb_exists. exists v0. split; [exact Hv0|]. unfold has_data. rewrite Hy0. reflexivity. }
    destruct (np_stack_ok acc S) as (st & Hst & Hsts & Hstv); [intros ->; simpl in Haccl; lia|exact HS|]. rewrite Hst. cbn [bind].
    destruct (nbin_fits Rmult st (npmap (fun x => 1 / x) chi) (S ++ [np])) as (q & Hq & _ & Hqv & Hqs & _).
    { rewrite Hsts, Haccl. apply fits_refl. } { simpl. rewrite Hchis. clear. induction S; simpl; [reflexivity|]. rewrite Nat.eqb_refl. exact IHl. }
    unfold nmul. rewrite Hq. cbn [bind]. rewrite Hsts, Haccl in Hqs. specialize (Hqs eq_refl).
    destruct (np_stack_ok (map flatten (rows q)) [N]) as (m & Hm & Hms & Hmv).
    { rewrite (rows_ok q S np Hqs). destruct np; [lia|discriminate]. }
    { intros a Ha. apply in_map_iff in Ha as (r & <- & Hr). rewrite (rows_ok q S np Hqs) in Hr. apply in_map_iff in Hr as (k & <- & _). reflexivity. }
    rewrite Hm. cbn [bind]. eexists. split; [reflexivity|].
    assert (Hlr : List.length (map flatten (rows q)) = np) by (rewrite map_length, (rows_ok q S np Hqs), map_length, seq_length; reflexivity).
    cbn [shp val]. rewrite Hms, Hlr. split; [reflexivity|]. intros k mm i Hk Hi. assert (Hii : In i (indices S)) by (eapply nth_error_In; exact Hi).
    change (rev [k; mm]) with ([mm] ++ [k]). f_equal. rewrite Hmv by (rewrite ?Hlr; auto).
    rewrite (nth_error_nth _ k (scalar 0) (x := flatten {| shp := S; val := fun i => val q (i ++ [k]) |})).
    2:{ rewrite nth_error_map, (rows_ok q S np Hqs), nth_error_map, nth_error_seq by exact Hk. reflexivity. }
    destruct (flatten_ok {| shp := S; val := fun i => val q (i ++ [k]) |} S eq_refl) as [_ Hfv]. rewrite (Hfv mm i Hi). cbn [val].
    rewrite <- elem_val by (rewrite Hqs; apply index_app; [exact Hii|apply in_indices1; exact Hk]). rewrite Hqv.
    rewrite elem_npmap. rewrite (elem_full chi) by (rewrite Hchis; exact Hii). rewrite Hchiv by exact Hii. f_equal.
    rewrite elem_val by (rewrite Hsts, Haccl; apply index_app; [exact Hii|apply in_indices1; exact Hk]). rewrite Hstv; [|lia|apply indices_length; exact Hii].
    assert (Hn : In (nth k acc (scalar 0)) acc) by (apply nth_In; lia). rewrite <- elem_val by (rewrite (HS _ Hn); exact Hii).
    rewrite Haccv by assumption. rewrite (nth_error_nth (repeat (scalar 0) np) k (scalar 0) (x := scalar 0)); [rewrite elem_scalar; lra|].
    apply nth_error_repeat. exact Hk.
  Qed.

  (** derivative of one entry *)
  Lemma sq_sum_derive (out : R -> dict sym nd) t0 jac k i : In i (indices S) -> fits_data om data (out t0) ->
    locally t0 (fun t => same_shapes (om_dep om) (out t0) (out t)) -> derivative_of (om_dep om) out t0 jac k ->
    0 < Rsum (map (fun v => sq_res (out t0) v i) (om_dep om)) ->
    is_derive (fun t => sqrt (Rsum (map (fun v => sq_res (out t) v i) (om_dep om)))) t0
      (- (Rsum (map (fun v => vec_term (out t0) jac v k i) (om_dep om)) * (1 / sqrt (Rsum (map (fun v => sq_res (out t0) v i) (om_dep om)))))).
  Proof using Hsame.
    intros Hi Hf Hsh Hd Hpos.
    assert (H : is_derive (fun t => Rsum (map (fun v => sq_res (out t) v i) (om_dep om))) t0 (Rsum (map (fun v => -2 * vec_term (out t0) jac v k i) (om_dep om)))).
    { apply is_derive_Rsum. intros v Hv. unfold sq_res, vec_term. destruct (observed data v) as [y|] eqn:Hy.
      2:{ rewrite Rmult_0_r. apply der_const. }
      destruct (Hf v y Hv Hy) as (Hst & s & Hs & Hsf & Hnz). rewrite Hs. assert (Hi' : In i (indices (shp y))) by (rewrite (Hsame v y Hv Hy); exact Hi).
      apply is_derive_ext_loc with (f := fun t => ((val (entry (out t) v) (pt (out t0) v y i) - val y i) / elem s i) ^ 2).
      - apply (filter_imp (fun t => same_shapes (om_dep om) (out t0) (out t))); [|exact Hsh].
        intros t Ht. rewrite (at_point_shape (out t0) (out t)) by (apply Ht; exact Hv). unfold Rdiv. match goal with |- @eq _ ?x ?y => change (@eq R x y) end. ring.
      - pose proof (is_derive_half_sq (fun t => val (entry (out t) v) (pt (out t0) v y i)) t0 _ (val y i) (elem s i) (Hd v (pt (out t0) v y i) Hv (point_index _ _ _ Hst Hi')) (Hnz i Hi')) as H.
        cbv beta in H. rewrite (at_point_shape (out t0) (out t0)) by reflexivity.
        match type of H with is_derive _ _ ?a => match goal with |- is_derive _ _ ?b => replace b with a by (unfold Rdiv; match goal with |- @eq _ ?x ?y => change (@eq R x y) end; ring) end end. exact H. }
    rewrite Rsum_scal in H. pose proof (is_derive_sqrt _ t0 _ H Hpos) as H'. cbv beta in H'.
    match type of H' with is_derive _ _ ?a => match goal with |- is_derive _ _ ?b => replace b with a end end; [exact H'|].
    assert (sqrt (Rsum (map (fun v => sq_res (out t0) v i) (om_dep om))) <> 0) by (apply Rgt_not_eq, sqrt_lt_R0; exact Hpos). field. assumption.
  Qed.

  Lemma vls_jac_is_derivative xs out jac : value_at h om data xs kw out -> fits_data om data out -> jacobian_at h om data xs kw out jac -> (0 < np)%nat ->
    exists r G, vls_call true h om ob xs kw = Ok r /\ vls_jac h om ob xs kw = Ok G /\ shp r = [N] /\ shp G = [np; N] /\
      forall p j k m, free_number h om p j k -> (j < List.length xs)%nat -> partial_in h om data xs kw p (nth j xs 0) jac k -> (m < N)%nat -> val r [m] <> 0 ->
        exists F, locally (nth j xs 0) (fun t => exists rt, vls_call true h om ob (set_nth xs j t) kw = Ok rt /\ val rt [m] = F t) /\ is_derive F (nth j xs 0) (val G [k; m]).
  Proof using Hcr Hsame Hsd.
    intros Hv Hf Hj Hnp. destruct (vls_sum true out xs [N] Hv Hf eq_refl) as (r & Hr & Hrs & Hrv).
    destruct (vls_jacobian xs out jac Hv Hf Hj Hnp) as (G & HG & HGs & HGv).
    exists r, G. split; [exact Hr|]. split; [exact HG|]. split; [exact Hrs|]. split; [exact HGs|]. intros p j k m Hfn Hjl (o & Hloc & Hd) Hm Hnz.
    pose proof Hcr as (Hi & _). pose proof Hv as (d & Hd1 & Hd2 & Hd3).
    assert (Ho : o (nth j xs 0) = out).
    { apply locally_at in Hloc as (d' & Hw & Hc & _). apply (with_param_seen _ _ _ _ _ p j k _ _ Hi Hfn Hjl) in Hw.
      rewrite set_nth_same in Hw by auto. destruct (args_unique h om data ob kw Hcr xs d d' Hd1 Hw) as [He _]. rewrite <- He in Hc. congruence. }
    assert (Hk : (k < np)%nat).
    { destruct Hfn as [Hk _]. apply nth_error_Some. rewrite Hk. discriminate. }
    assert (Hmi : exists i, nth_error (indices S) m = Some i).
    { destruct (nth_error (indices S) m) eqn:E; [eauto|]. apply nth_error_None in E. unfold N in Hm. lia. }
    destruct Hmi as (i & Hmi).
    exists (fun t => sqrt (Rsum (map (fun v => sq_res (o t) v i) (om_dep om)))). split.
    - eapply filter_imp; [|exact Hloc]. intros t (d' & Hw & Hc & Hl & Hsh). apply (with_param_seen _ _ _ _ _ p j k _ _ Hi Hfn Hjl) in Hw.
      destruct (vls_sum true (o t) (set_nth xs j t) [N]) as (rt & Hrt & _ & Hrtv).
      + exists d'. auto.
      + apply (fits_same om data (o (nth j xs 0))); [exact Hsh|rewrite Ho; exact Hf].
      + reflexivity.
      + exists rt. split; [exact Hrt|]. apply Hrtv. exact Hmi.
    - rewrite (HGv k m i Hk Hmi). pose proof (sq_sum_derive o (nth j xs 0) jac k i) as H. rewrite Ho in H. apply H.
      + eapply nth_error_In; exact Hmi.
      + exact Hf.
      + eapply filter_imp; [|exact Hloc]. intros t (d' & _ & _ & _ & Hsh). rewrite Ho in Hsh. exact Hsh.
      + exact Hd.
      + pose proof (Rsum_nonneg (fun v => sq_res out v i) (om_dep om) (fun v _ => sq_res_nonneg out v i)) as Hge.
        destruct (Rle_lt_or_eq_dec _ _ Hge) as [Hlt|He]; [exact Hlt|]. exfalso. apply Hnz. rewrite (Hrv m i Hmi), <- He. apply sqrt_0.
  Qed.
End Vec.
