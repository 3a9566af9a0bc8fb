(** * ObjMore: LogLikelihood, MinimizeModel and VectorLeastSquares. *)
From Coq Require Import Reals Lra.
From Coquelicot Require Import Coquelicot.
From Verif Require Import PyBase PyFacts Expr NumPy NumFacts JacAnalysis Objective ObjSpec ObjFacts ObjLS ObjLeast ObjDiff.
Local Open Scope R_scope.

Lemma foldM_map {A B S} (f : S -> B -> res S) (g : A -> B) l : forall s, foldM f s (map g l) = foldM (fun s a => f s (g a)) s l.
Proof. induction l as [|a l IH]; simpl; intros s; [reflexivity|]. destruct (f s (g a)); simpl; auto. Qed.
Lemma nth_error_seq n k a : (k < n)%nat -> nth_error (seq a n) k = Some (a + k)%nat.
Proof. revert k a; induction n as [|n IH]; intros k a H; [lia|]. destruct k as [|k]; simpl; [f_equal; lia|]. rewrite IH by lia. f_equal; lia. Qed.
Lemma map_nth_seq {A} (l : list A) d : map (fun m => nth m l d) (seq 0 (List.length l)) = l.
Proof. induction l as [|a l IH]; simpl; [reflexivity|]. f_equal. rewrite <- seq_shift, map_map. exact IH. Qed.

Section Indep.
  Context (h : heap) (om : omodel) (data : dict sym (option nd)) (ob : obj) (kw : dict string R).
  Hypothesis Hcr : created true om data ob kw.
  Let np := List.length (om_params om).

  Lemma none_data v : dep_data ob v = None.
  Proof using Hcr. destruct Hcr as (Hi & _ & _ & Ho & _). exact (dep_data_none om data ob true Ho v eq_refl). Qed.
  Lemma base_indep f level xs out : (forall d1 d2, NoDup (dkeys d1) -> NoDup (dkeys d2) -> (forall n, dget d1 n = dget d2 n) -> f d1 = f d2) ->
    answers f h om data xs kw out -> base_eval f level h om ob xs kw = Ok (map (entry out) (om_dep om)).
  Proof using Hcr.
    intros Hfk (d & Hd & Ho & Hl). destruct Hcr as (Hi & Hk & _ & Hob & Hkw & Hin).
    rewrite (base_eval_ok h om data ob xs kw true Hi Hob Hkw Hin f level out d Hfk Hd Ho Hl).
    - f_equal. apply map_ext_in. intros v Hv. unfold shaped_for. rewrite none_data. reflexivity.
    - intros v y Hv Hy. rewrite none_data in Hy. discriminate.
  Qed.
  Lemma base_call_i xs out : value_at h om data xs kw out -> base_call h om ob xs kw = Ok (map (entry out) (om_dep om)).
  Proof using Hcr. intros Hv. apply base_indep; [|exact Hv]. destruct Hcr as (_ & Hk & _). intros d1 d2 H1 H2 H3. destruct (Hk d1 d2 H1 H2 H3) as [H _]. exact H. Qed.
  Lemma base_jac_i xs f jac : om_jac om = Some f -> answers f h om data xs kw jac -> base_jac h om ob xs kw = Ok (map (entry jac) (om_dep om)).
  Proof using Hcr. intros Hf Hv. unfold base_jac. rewrite Hf. apply base_indep; [|exact Hv]. destruct Hcr as (_ & Hk & _). intros d1 d2 H1 H2 H3. destruct (Hk d1 d2 H1 H2 H3) as (_ & H & _). exact (H f Hf). Qed.
  Lemma base_hess_i xs f hess : om_hess om = Some f -> answers f h om data xs kw hess -> base_hess h om ob xs kw = Ok (map (entry hess) (om_dep om)).
  Proof using Hcr. intros Hf Hv. unfold base_hess. rewrite Hf. apply base_indep; [|exact Hv]. destruct Hcr as (_ & Hk & _). intros d1 d2 H1 H2 H3. destruct (Hk d1 d2 H1 H2 H3) as (_ & _ & H). exact (H f Hf). Qed.

  (** *** LogLikelihood *)
  Lemma ll_value xs out : value_at h om data xs kw out -> ll_call h om ob xs kw = Ok (minus_log_sum out (om_dep om)).
  Proof using Hcr. intros Hv. unfold ll_call. rewrite (base_call_i _ _ Hv). simpl. f_equal. unfold minus_log_sum. f_equal. rewrite map_map. reflexivity. Qed.

  Definition ll_grad_of (out jac : dict sym nd) (v : sym) (k : nat) : R :=
    - Rsum (map (fun i => val (entry jac v) (i ++ [k]) / val (entry out v) i) (indices (shp (entry out v)))).
  Lemma rows_ok j S n : shp j = S ++ [n] -> rows j = map (fun k => {| shp := S; val := fun i => val j (i ++ [k]) |}) (seq 0 n).
  Proof using. intros H. unfold rows. rewrite H, removelast_last, last_last. reflexivity. Qed.
  Lemma stack_lists (l : list (list R)) n : l <> [] -> (forall x, In x l -> List.length x = n) ->
    exists st, np_stack (map (fun x => {| shp := [List.length x]; val := fun i => nth (hd 0%nat i) x 0 |}) l) = Ok st /\
      shp st = [n; List.length l] /\ forall k m, (m < List.length l)%nat -> val st [k; m] = nth k (nth m l []) 0.
  Proof using.
    intros Hne Hl. destruct l as [|x l]; [congruence|]. pose proof (Hl x (or_introl eq_refl)) as Hx. subst n.
    set (F := fun x0 : list R => {| shp := [List.length x0]; val := fun i : list nat => nth (hd 0%nat i) x0 0 |}).
    assert (Hall : forallb (fun b => if list_eq_dec Nat.eq_dec (shp b) (shp (F x)) then true else false) (map F (x :: l)) = true).
    { apply forallb_forall. intros b Hb. apply in_map_iff in Hb as (w & <- & Hw). unfold F. cbn [shp]. rewrite (Hl w Hw).
      destruct (list_eq_dec Nat.eq_dec [List.length x] [List.length x]); congruence. }
    match goal with |- exists st, np_stack ?L = _ /\ _ => change L with (F x :: map F l) end. change (map F (x :: l)) with (F x :: map F l) in Hall.
    unfold np_stack. cbv iota. rewrite Hall. eexists. split; [reflexivity|].
    change (F x :: map F l) with (map F (x :: l)). cbn [shp val]. rewrite map_length. split; [reflexivity|].
    intros k m Hm. change (nth (List.length (shp (F x))) [k; m] 0%nat) with m. change (firstn (List.length (shp (F x))) [k; m]) with [k].
    rewrite (nth_indep _ _ (F [])) by (rewrite map_length; exact Hm). rewrite map_nth. reflexivity.
  Qed.
  Lemma Rsum_seq_nth (l : list R) : Rsum (map (fun m => nth m l 0) (seq 0 (List.length l))) = Rsum l.
  Proof using. rewrite map_nth_seq. reflexivity. Qed.

  Lemma ll_gradient xs out jac : value_at h om data xs kw out -> plain_jacobian h om data xs kw out jac -> om_dep om <> [] ->
    exists g, ll_jac h om ob xs kw = Ok g /\ shp g = [np] /\
      forall k, (k < np)%nat -> val g [k] = Rsum (map (fun v => ll_grad_of out jac v k) (om_dep om)).
  Proof using Hcr.
    intros Hv [(f & Hf & Hj) Hs] Hne. unfold ll_jac. rewrite (base_call_i _ _ Hv). simpl. rewrite (base_jac_i _ _ _ Hf Hj). simpl. rewrite combine_map2.
    rewrite mapM_map with (g := fun fj => map (fun k => - Rsum (map (fun i => val (snd fj) (i ++ [k]) / val (fst fj) i) (indices (shp (fst fj))))) (seq 0 np)).
    2:{ intros [c j] Hin. apply in_map_iff in Hin as (v & Hq & Hvd). inv Hq. cbn [fst snd]. rewrite (rows_ok _ _ _ (Hs v Hvd)). fold np.
        transitivity (mapM (fun k => q <- ndiv {| shp := shp (entry out v); val := fun i => val (entry jac v) (i ++ [k]) |} (entry out v) ;; Ok (- np_sum q)) (seq 0 np)).
        { generalize (seq 0 np). intros l. induction l as [|k l IH]; simpl; [reflexivity|]. rewrite IH. reflexivity. }
        apply mapM_map. intros k _.
        destruct (nbin_fits Rdiv {| shp := shp (entry out v); val := fun i => val (entry jac v) (i ++ [k]) |} (entry out v) (shp (entry out v))) as (q & Hq & _ & Hqv & Hqs & _); [apply fits_refl|apply fits_refl|].
        unfold ndiv. rewrite Hq. simpl. f_equal. f_equal. specialize (Hqs eq_refl). unfold np_sum. rewrite Hqs. apply Rsum_ext. intros i Hi.
        rewrite <- elem_val by (rewrite Hqs; exact Hi). rewrite Hqv. rewrite !elem_val by exact Hi. reflexivity. }
    simpl. rewrite map_map. simpl.
    set (L := map (fun v => map (fun k => ll_grad_of out jac v k) (seq 0 np)) (om_dep om)).
    match goal with |- context [np_stack (map _ ?l)] => change l with L end.
    assert (HL : L <> []) by (unfold L; destruct (om_dep om); [congruence|discriminate]).
    destruct (stack_lists L np HL) as (st & Hst & Hss & Hsv).
    { intros x Hx. apply in_map_iff in Hx as (v & <- & _). rewrite map_length, seq_length. reflexivity. }
    assert (Hm : forall X (a b : res X), match L with [] => a | _ :: _ => b end = b) by (intros; destruct L; [congruence|reflexivity]).
    rewrite Hm. rewrite Hst. simpl.
    match goal with |- context [squeeze ?a] => set (tot := a) end.
    assert (Ht : shp tot = [np]) by (unfold tot; cbn [shp]; rewrite Hss; reflexivity).
    destruct (atleast_1d_squeeze tot np Ht) as [H1 H2]. eexists. split; [reflexivity|]. split; [exact H1|]. intros k Hk. rewrite H2 by exact Hk.
    unfold tot. cbn [val]. rewrite Hss. cbn [last].
    rewrite (Rsum_ext _ (fun m => nth m (map (fun v => ll_grad_of out jac v k) (om_dep om)) 0)).
    - replace (List.length L) with (List.length (map (fun v => ll_grad_of out jac v k) (om_dep om))) by (unfold L; rewrite !map_length; reflexivity). apply Rsum_seq_nth.
    - intros m Hm'. apply in_seq in Hm'. simpl app. rewrite Hsv by lia. unfold L.
      destruct (nth_error (om_dep om) m) as [v|] eqn:E.
      + rewrite (nth_error_nth (map (fun v => ll_grad_of out jac v k) (om_dep om)) m 0 (x := ll_grad_of out jac v k)) by (rewrite nth_error_map, E; reflexivity).
        rewrite (nth_error_nth (map (fun v => map (fun k => ll_grad_of out jac v k) (seq 0 np)) (om_dep om)) m [] (x := map (fun k => ll_grad_of out jac v k) (seq 0 np))) by (rewrite nth_error_map, E; reflexivity).
        apply nth_error_nth. rewrite nth_error_map, nth_error_seq by exact Hk. reflexivity.
      + exfalso. apply nth_error_None in E. unfold L in Hm'. rewrite map_length in Hm'. lia.
  Qed.

  Definition ll_hess_of (out jac hess : dict sym nd) (v : sym) (k l : nat) : R :=
    Rsum (map (fun i => - val (entry hess v) (i ++ [l; k]) / val (entry out v) i
                        + 1 / val (entry out v) i ^ 2 * (val (entry jac v) (i ++ [k]) * val (entry jac v) (i ++ [l]))) (indices (shp (entry out v)))).
  Definition ll_hess_fun (out jac : dict sym nd) (H : sym -> nd) (v : sym) (k l : nat) : R :=
    Rsum (map (fun i => - val (H v) (i ++ [l; k]) / val (entry out v) i
                        + 1 / val (entry out v) i ^ 2 * (val (entry jac v) (i ++ [k]) * val (entry jac v) (i ++ [l]))) (indices (shp (entry out v)))).
  Lemma ll_hess_gen xs out jac Z (H : sym -> nd) : value_at h om data xs kw out -> plain_jacobian h om data xs kw out jac ->
    Z = Ok (map H (om_dep om)) -> (forall v, In v (om_dep om) -> shp (H v) = shp (entry out v) ++ [np; np]) -> om_dep om <> [] ->
    exists g, ll_hess_with Z h om ob xs kw = Ok g /\ shp g = [np; np] /\
      forall k l, (k < np)%nat -> (l < np)%nat -> val g [l; k] = Rsum (map (fun v => ll_hess_fun out jac H v k l) (om_dep om)).
  Proof using Hcr.
    intros Hv [(f & Hf & Hj) Hs] HZ Hs2 Hne. unfold ll_hess_with. rewrite (base_call_i _ _ Hv). simpl. rewrite (base_jac_i _ _ _ Hf Hj). simpl.
    rewrite HZ. simpl. rewrite combine_map2, combine_map2 with (f := fun v => (entry out v, entry jac v)).
    assert (Hfold : forall acc, fits (shp acc) [np; np] = true -> exists r, foldM (fun acc v => ll_hess_step acc (entry out v, entry jac v, H v)) acc (om_dep om) = Ok r /\
      fits (shp r) [np; np] = true /\ (forall k, In k (indices [np; np]) -> elem r k = elem acc k + Rsum (map (fun v => if (fun _ => true) v then ll_hess_fun out jac H v (nth 1 k 0%nat) (nth 0 k 0%nat) else 0) (om_dep om))) /\
      (existsb (fun _ : sym => true) (om_dep om) = true \/ shp acc = [np; np] -> shp r = [np; np])).
    { apply (fold_steps (fun acc v => ll_hess_step acc (entry out v, entry jac v, H v)) (fun _ => true) [np; np] (fun v k => ll_hess_fun out jac H v (nth 1 k 0%nat) (nth 0 k 0%nat))).
      intros acc v Hvd Ha. unfold ll_hess_step. pose proof (Hs v Hvd) as Hj1. pose proof (Hs2 v Hvd) as Hh1. fold np in Hj1, Hh1.
      set (F := entry out v) in *. set (J := entry jac v) in *. set (HV := H v) in *.
      destruct (outer_ok J _ _ Hj1) as [Hos Hov].
      destruct (nbin_fits Rdiv (nneg HV) (newaxis (newaxis F)) (shp F ++ [np; np])) as (t1 & Ht1 & Hf1 & Hv1 & Hs1 & _).
      { simpl. rewrite Hh1. apply fits_refl. } { apply newaxis2_fits. apply fits_refl. }
      unfold ndiv. rewrite Ht1. cbn [bind].
      destruct (nbin_fits Rmult (newaxis (newaxis (npmap (fun x => 1 / x ^ 2) F))) (outer J) (shp F ++ [np; np])) as (t2 & Ht2 & Hft2 & Hv2 & _).
      { apply (newaxis2_fits F). apply fits_refl. } { rewrite Hos. apply fits_refl. }
      unfold nmul. rewrite Ht2. cbn [bind].
      destruct (nbin_fits Rplus t1 t2 (shp F ++ [np; np])) as (dd & Hdd & _ & Hv3 & Hs3 & _); [exact Hf1|exact Hft2|].
      unfold nadd. rewrite Hdd. cbn [bind]. specialize (Hs3 (Hs1 Hh1)). destruct (np_sum_keep_app dd (shp F) [np; np] Hs3) as [Hk1 Hk2]. simpl List.length in Hk1, Hk2.
      destruct (nbin_fits Rplus acc (np_sum_keep 2 dd) [np; np]) as (r & Hr & _ & Hrv & _ & Hrs & _); [exact Ha|rewrite Hk1; apply fits_refl|].
      exists r. split; [exact Hr|]. split; [apply Hrs; exact Hk1|]. intros k Hk. rewrite Hrv. f_equal.
      rewrite elem_val by (rewrite Hk1; exact Hk). rewrite Hk2. unfold ll_hess_fun. fold F J HV. apply Rsum_ext. intros i Hi.
      assert (Hik : In (i ++ k) (indices (shp F ++ [np; np]))) by (apply index_app; assumption).
      rewrite <- elem_val by (rewrite Hs3; exact Hik). rewrite Hv3, Hv1, Hv2. rewrite !elem_newaxis, elem_npmap. unfold nneg. rewrite elem_npmap.
      rewrite (elem_val HV) by (rewrite Hh1; exact Hik). rewrite (elem_val (outer J)) by (rewrite Hos; exact Hik). rewrite !(elem_full F) by exact Hi.
      pose proof (proj1 (in_indices _ _) Hk) as Hkk. inv Hkk. inv H4. inv H6. simpl nth. rewrite Hov by (apply indices_length; exact Hi). reflexivity. }
    destruct (Hfold (scalar 0) eq_refl) as (r & Hr & _ & Hrv & Hrs).
    rewrite foldM_map. rewrite Hr. simpl.
    assert (Hsr : shp r = [np; np]) by (apply Hrs; left; destruct (om_dep om); [congruence|reflexivity]).
    destruct (atleast_2d_squeeze r np Hsr) as [H1 H2]. eexists. split; [reflexivity|]. split; [exact H1|]. intros k l Hk Hl. rewrite H2 by assumption.
    assert (Hik : In [l; k] (indices [np; np])) by (apply in_indices2; auto).
    rewrite <- elem_val by (rewrite Hsr; exact Hik). rewrite Hrv by exact Hik. rewrite elem_scalar, Rplus_0_l. reflexivity.
  Qed.
  Lemma ll_hessian xs out jac hess : value_at h om data xs kw out -> plain_jacobian h om data xs kw out jac -> plain_hessian h om data xs kw out hess -> om_dep om <> [] ->
    exists g, ll_hess h om ob xs kw = Ok g /\ shp g = [np; np] /\
      forall k l, (k < np)%nat -> (l < np)%nat -> val g [l; k] = Rsum (map (fun v => ll_hess_of out jac hess v k l) (om_dep om)).
  Proof using Hcr.
    intros Hv Hj [(f2 & Hf2 & Hh) Hs2] Hne.
    exact (ll_hess_gen xs out jac (base_hess h om ob xs kw) (entry hess) Hv Hj (base_hess_i _ _ _ Hf2 Hh) Hs2 Hne).
  Qed.
  (** the approximation of fit.py:291-300 *)
  Definition information_of (out jac : dict sym nd) (v : sym) (k l : nat) : R :=
    Rsum (map (fun i => val (entry jac v) (i ++ [k]) * val (entry jac v) (i ++ [l]) / val (entry out v) i ^ 2) (indices (shp (entry out v)))).
  Lemma zero_hess_i xs out : value_at h om data xs kw out ->
    zero_hess h om ob xs kw = Ok (map (fun v => {| shp := shp (entry out v) ++ [np; np]; val := elem (np_zeros_like (entry out v)) |}) (om_dep om)).
  Proof using Hcr.
    intros Hv. unfold zero_hess. rewrite (base_call_i _ _ Hv). cbn [bind]. rewrite <- (map_map (entry out) (fun c => {| shp := shp c ++ [np; np]; val := elem (np_zeros_like c) |})).
    apply mapM_map. intros c _. unfold broadcast_to, np_zeros_like at 1. cbn [shp]. fold np.
    replace (fits (shp c) (shp c ++ [np; np])) with true; [reflexivity|]. symmetry.
    generalize (shp c). intros s; induction s; simpl; [reflexivity|]. rewrite Nat.eqb_refl, IHs; reflexivity.
  Qed.
  Lemma ll_approx xs out jac : value_at h om data xs kw out -> plain_jacobian h om data xs kw out jac -> om_dep om <> [] ->
    exists g, ll_hess_with (zero_hess h om ob xs kw) h om ob xs kw = Ok g /\ shp g = [np; np] /\
      forall k l, (k < np)%nat -> (l < np)%nat -> val g [l; k] = Rsum (map (fun v => information_of out jac v k l) (om_dep om)).
  Proof using Hcr.
    intros Hv Hj Hne. destruct (ll_hess_gen xs out jac _ _ Hv Hj (zero_hess_i xs out Hv) (fun v _ => eq_refl) Hne) as (g & H1 & H2 & H3).
    exists g. split; [exact H1|]. split; [exact H2|]. intros k l Hk Hl. rewrite H3 by assumption. apply Rsum_ext. intros v _. unfold ll_hess_fun, information_of.
    apply Rsum_ext. intros i _. cbn [val]. unfold elem, np_zeros_like. cbn [val]. unfold Rdiv. ring.
  Qed.
End Indep.
