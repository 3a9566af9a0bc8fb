(** * Prop_Objective: properties C19 - C31. *)
From Coq Require Import Reals Lra.
From Coquelicot Require Import Coquelicot.
From Verif Require Import PyBase PyFacts Expr NumPy NumFacts JacAnalysis Objective ObjSpec ObjFacts ObjLS ObjLeast ObjDiff ObjMore ObjLL ObjVec ObjCommon ObjExample.
Local Open Scope R_scope.
Local Open Scope string_scope.
Local Open Scope list_scope.

(** ** C19 *)
Theorem C19_least_squares_value : forall h om data ob kw xs out,
  created false om data ob kw -> value_at h om data xs kw out -> fits_data om data out ->
  ls_call true h om ob xs kw = Ok (half_chi2 data out (om_dep om)) /\
  0 <= half_chi2 data out (om_dep om) /\
  (half_chi2 data out (om_dep om) = 0 <->
   forall v y i, In v (om_dep om) -> observed data v = Some y -> In i (indices (shp y)) ->
     at_point (entry out v) y i = val y i).
Proof. exact ls_value_spec. Qed.
Print Assumptions C19_least_squares_value.

(** a dependent variable whose data is None contributes nothing *)
Theorem C19_missing_data : forall data out v, observed data v = None -> chi2_of data out v = 0.
Proof. exact chi2_missing. Qed.
Print Assumptions C19_missing_data.

(** ** C20.  If row [k] of the model's Jacobian is the partial derivative in the
    [k]-th parameter, entry [k] of the gradient is the derivative of the objective in
    the entry of the parameter vector that belongs to that parameter. *)
Theorem C20_least_squares_gradient : forall h om data ob kw xs out jac,
  created false om data ob kw -> value_at h om data xs kw out -> fits_data om data out ->
  jacobian_at h om data xs kw out jac -> some_data om data ->
  exists g, ls_jac h om ob xs kw = Ok g /\ shp g = [List.length (om_params om)] /\
    forall p j k, free_number h om p j k -> (j < List.length xs)%nat ->
      partial_in h om data xs kw p (nth j xs 0) jac k ->
      exists F, locally (nth j xs 0) (fun t => ls_call true h om ob (set_nth xs j t) kw = Ok (F t)) /\
                is_derive F (nth j xs 0) (val g [k]).
Proof. intros h om data ob kw xs out jac Hc. apply (ls_gradient_is_derivative h om data ob kw Hc xs out jac). Qed.
Print Assumptions C20_least_squares_gradient.

(** Without any dependent data the objective is constant and the result is the single number 0, whatever the
    number of parameters. *)
Theorem C20_no_data : forall h om data ob kw, created false om data ob kw -> forall xs out jac,
  value_at h om data xs kw out -> fits_data om data out -> jacobian_at h om data xs kw out jac ->
  (forall v, In v (om_dep om) -> observed data v = None) ->
  exists g, ls_jac h om ob xs kw = Ok g /\ shp g = [1%nat] /\ val g [0%nat] = 0.
Proof. exact ls_gradient_none. Qed.
Print Assumptions C20_no_data.
(** So the gradient then has the wrong length. *)
Theorem C20_no_data_refuted : exists om data ob, created false om data ob [] /\ List.length (om_params om) = 2%nat /\
  exists g, ls_jac (fun _ => ex_free) om ob [2; 1] [] = Ok g /\ shp g = [1%nat].
Proof. exact no_data_gradient. Qed.
Print Assumptions C20_no_data_refuted.

(** ** C21 *)
Theorem C21_least_squares_hessian : forall h om data ob kw xs out jac hess,
  created false om data ob kw -> value_at h om data xs kw out -> fits_data om data out ->
  jacobian_at h om data xs kw out jac -> hessian_at h om data xs kw out hess -> some_data om data ->
  exists g, ls_hess h om ob xs kw = Ok g /\ shp g = [List.length (om_params om); List.length (om_params om)] /\
    (forall p j k l, free_number h om p j l -> (j < List.length xs)%nat -> (k < List.length (om_params om))%nat ->
       partial2_in h om data xs kw p (nth j xs 0) jac hess k l ->
       exists G, locally (nth j xs 0) (fun t => ls_jac h om ob (set_nth xs j t) kw = Ok (G t) /\ shp (G t) = [List.length (om_params om)]) /\
                 is_derive (fun t => val (G t) [k]) (nth j xs 0) (val g [l; k])) /\
    ((forall v i k l, In v (om_dep om) -> In i (indices (shp (entry out v))) ->
        (k < List.length (om_params om))%nat -> (l < List.length (om_params om))%nat ->
        val (entry hess v) (i ++ [l; k]) = val (entry hess v) (i ++ [k; l])) ->
     forall k l, (k < List.length (om_params om))%nat -> (l < List.length (om_params om))%nat -> val g [l; k] = val g [k; l]).
Proof. intros h om data ob kw xs out jac hess Hc. apply (ls_hessian_is_derivative h om data ob kw Hc xs out jac hess). Qed.
Print Assumptions C21_least_squares_hessian.

(** ** C22 *)
Theorem C22_jacobian_approximation : forall h om data ob kw xs out jac,
  created false om data ob kw -> value_at h om data xs kw out -> fits_data om data out ->
  jacobian_at h om data xs kw out jac -> some_data om data ->
  exists g, ls_hess_approx h om ob xs kw = Ok g /\ shp g = [List.length (om_params om); List.length (om_params om)] /\
    (forall k l, (k < List.length (om_params om))%nat -> (l < List.length (om_params om))%nat ->
       val g [l; k] = jtwj data jac (om_dep om) k l) /\
    (forall k l, (k < List.length (om_params om))%nat -> (l < List.length (om_params om))%nat -> val g [l; k] = val g [k; l]) /\
    forall z : nat -> R,
      0 <= Rsum (map (fun k => Rsum (map (fun l => z k * val g [l; k] * z l) (seq 0 (List.length (om_params om))))) (seq 0 (List.length (om_params om)))).
Proof. exact ls_approx_spec. Qed.
Print Assumptions C22_jacobian_approximation.

(** ** C23 *)
Theorem C23_log_likelihood_value : forall h om data ob kw xs out,
  created true om data ob kw -> value_at h om data xs kw out ->
  ll_call h om ob xs kw = Ok (minus_log_sum out (om_dep om)).
Proof. intros h om data ob kw xs out Hc. exact (ll_value h om data ob kw Hc xs out). Qed.
Print Assumptions C23_log_likelihood_value.

Theorem C23_log_likelihood_gradient : forall h om data ob kw xs out jac,
  created true om data ob kw -> value_at h om data xs kw out -> all_positive (om_dep om) out ->
  plain_jacobian h om data xs kw out jac -> om_dep om <> [] ->
  exists g, ll_jac h om ob xs kw = Ok g /\ shp g = [List.length (om_params om)] /\
    forall p j k, free_number h om p j k -> (j < List.length xs)%nat ->
      partial_in h om data xs kw p (nth j xs 0) jac k ->
      exists F, locally (nth j xs 0) (fun t => ll_call h om ob (set_nth xs j t) kw = Ok (F t)) /\
                is_derive F (nth j xs 0) (val g [k]).
Proof. intros h om data ob kw xs out jac Hc. apply (ll_gradient_is_derivative h om data ob kw Hc xs out jac). Qed.
Print Assumptions C23_log_likelihood_gradient.

Theorem C23_log_likelihood_hessian : forall h om data ob kw xs out jac hess,
  created true om data ob kw -> value_at h om data xs kw out -> all_positive (om_dep om) out ->
  plain_jacobian h om data xs kw out jac -> plain_hessian h om data xs kw out hess -> om_dep om <> [] ->
  exists g, ll_hess h om ob xs kw = Ok g /\ shp g = [List.length (om_params om); List.length (om_params om)] /\
    (forall p j k l, free_number h om p j l -> (j < List.length xs)%nat -> (k < List.length (om_params om))%nat ->
       partial2_in h om data xs kw p (nth j xs 0) jac hess k l ->
       exists G, locally (nth j xs 0) (fun t => ll_jac h om ob (set_nth xs j t) kw = Ok (G t) /\ shp (G t) = [List.length (om_params om)]) /\
                 is_derive (fun t => val (G t) [k]) (nth j xs 0) (val g [l; k])) /\
    ((forall v i k l, In v (om_dep om) -> In i (indices (shp (entry out v))) ->
        (k < List.length (om_params om))%nat -> (l < List.length (om_params om))%nat ->
        val (entry hess v) (i ++ [l; k]) = val (entry hess v) (i ++ [k; l])) ->
     forall k l, (k < List.length (om_params om))%nat -> (l < List.length (om_params om))%nat -> val g [l; k] = val g [k; l]).
Proof. intros h om data ob kw xs out jac hess Hc. apply (ll_hessian_is_derivative h om data ob kw Hc xs out jac hess). Qed.
Print Assumptions C23_log_likelihood_hessian.

(** ** C24.  [S] is the common shape of all dependent data; missing: components whose
    data have different shapes, for which the claim is false, see below. *)
Theorem C24_vector_least_squares : forall h om data ob kw S xs out,
  created false om data ob kw -> (forall v y, In v (om_dep om) -> observed data v = Some y -> shp y = S) ->
  some_data om data -> value_at h om data xs kw out -> fits_data om data out ->
  exists r c, vls_call true h om ob xs kw = Ok r /\ shp r = [List.length (indices S)] /\
    ls_call true h om ob xs kw = Ok c /\
    Rsum (map (fun m => val r [m] ^ 2) (seq 0 (List.length (indices S)))) = 2 * c.
Proof. exact vls_value_spec. Qed.
Print Assumptions C24_vector_least_squares.

Theorem C24_vector_jacobian : forall h om data ob kw S xs out jac,
  created false om data ob kw -> (forall v y, In v (om_dep om) -> observed data v = Some y -> shp y = S) ->
  some_data om data -> value_at h om data xs kw out -> fits_data om data out ->
  jacobian_at h om data xs kw out jac -> (0 < List.length (om_params om))%nat ->
  exists r G, vls_call true h om ob xs kw = Ok r /\ vls_jac h om ob xs kw = Ok G /\
    shp r = [List.length (indices S)] /\ shp G = [List.length (om_params om); List.length (indices S)] /\
    forall p j k m, free_number h om p j k -> (j < List.length xs)%nat ->
      partial_in h om data xs kw p (nth j xs 0) jac k -> (m < List.length (indices S))%nat -> val r [m] <> 0 ->
      exists F, locally (nth j xs 0) (fun t => exists rt, vls_call true h om ob (set_nth xs j t) kw = Ok rt /\ val rt [m] = F t) /\
                is_derive F (nth j xs 0) (val G [k; m]).
Proof. intros h om data ob kw S xs out jac Hc HS Hsd. apply (vls_jac_is_derivative h om data ob kw Hc S HS Hsd xs out jac). Qed.
Print Assumptions C24_vector_jacobian.

(** With one component of three points and one of a single point the vector counts
    the single residual three times: its squares sum to 3, twice LeastSquares is 1. *)
Theorem C24_unequal_shapes_refuted : exists om data ob, created false om data ob [] /\
  exists r c, vls_call true (fun _ => ex_free) om ob [0; 0] [] = Ok r /\ ls_call true (fun _ => ex_free) om ob [0; 0] [] = Ok c /\
    Rsum (map (fun i => val r i ^ 2) (indices (shp r))) = 3 /\ 2 * c = 1.
Proof. exact vls_unequal. Qed.
Print Assumptions C24_unequal_shapes_refuted.

(** ** C25 *)
Theorem C25_minimize_model : forall h om data ob kw xs out v,
  mm_init om data = Ok ob -> interface om -> by_keyword om -> independent_data_given om data -> NoDup (dkeys kw) ->
  om_dep om = [v] -> value_at h om data xs kw out ->
  mm_call h om ob xs kw = Ok (entry out v) /\
  (forall f jac, om_jac om = Some f -> answers f h om data xs kw jac -> mm_jac h om ob xs kw = Ok (Some (entry jac v))) /\
  (forall f hess, om_hess om = Some f -> answers f h om data xs kw hess -> mm_hess h om ob xs kw = Ok (Some (entry hess v))) /\
  (om_jac om = None -> mm_jac h om ob xs kw = Ok None) /\ (om_hess om = None -> mm_hess h om ob xs kw = Ok None).
Proof. exact mm_spec. Qed.
Print Assumptions C25_minimize_model.

Theorem C25_scalar_only : forall om data, (1 < List.length (om_dep om))%nat -> mm_init om data = Raise TypeError.
Proof. exact mm_init_scalar. Qed.
Print Assumptions C25_scalar_only.

(** ** C26.  Two models that give the same answer whenever the fixed parameters have
    their values cannot be told apart by an objective, whatever it is called with. *)
Theorem C26_fixed_parameters : forall h om1 om2 data b ob xs kw,
  interface om1 -> same_interface om1 om2 -> have_same_derivatives om1 om2 ->
  obj_init b om1 data = Ok ob -> NoDup (dkeys kw) ->
  (forall d, NoDup (dkeys d) ->
     (forall p, In p (om_params om1) -> p_fixed (h p) = true -> dget d (sname p) = Some (scalar (p_value (h p)))) ->
     agree_at om1 om2 d) ->
  same_objectives h om1 om2 ob xs kw.
Proof. exact fixed_spec. Qed.
Print Assumptions C26_fixed_parameters.

(** ** C27.  The model is called with exactly the arguments [seen]: an objective cannot
    tell models apart that agree there. *)
Theorem C27_arguments : forall h om1 om2 data b ob xs kw,
  interface om1 -> same_interface om1 om2 -> have_same_derivatives om1 om2 ->
  obj_init b om1 data = Ok ob -> NoDup (dkeys kw) ->
  (forall d, arguments_are d (seen h om1 data xs kw) -> agree_at om1 om2 d) ->
  same_objectives h om1 om2 ob xs kw.
Proof. intros h om1 om2 data b ob xs kw H1 H2 [H3 H4] H5 H6 H7. exact (same_all h om1 om2 data b ob xs kw H1 H2 H5 H6 H7 H3 H4). Qed.
Print Assumptions C27_arguments.

(** What [seen] means: the i-th entry of the vector for the i-th free parameter, the
    stored data for an independent variable. *)
Theorem C27_vector_positions : forall h om data xs kw,
  interface om ->
  (forall i p x, nth_error (filter (fun q => negb (p_fixed (h q))) (om_params om)) i = Some p -> nth_error xs i = Some x ->
     seen h om data xs kw (sname p) = Some (scalar x)) /\
  (forall v, In v (om_indep om) -> seen h om data xs kw (sname v) = observed data v).
Proof. exact seen_spec. Qed.
Print Assumptions C27_vector_positions.

(** ** C28.  After a first evaluation under the attributes [h0], every later
    evaluation returns what it would have returned then, however the values and bounds of
    the parameters have been changed in between, as long as the [fixed] flags are the same. *)
Theorem C28_cached_invariants : forall om data b ob h0 kw0 xs0 hist,
  interface om -> obj_init b om data = Ok ob -> independent_data_given om data ->
  (forall h xs kw p, In (h, xs, kw) hist -> In p (om_params om) -> p_fixed (h p) = p_fixed (h0 p)) ->
  fst (run om ob ((h0, xs0, kw0) :: hist)) = map (fun e => evaluate h0 om ob (snd (fst e)) (snd e)) ((h0, xs0, kw0) :: hist).
Proof. exact cache_spec. Qed.
Print Assumptions C28_cached_invariants.

(** Consequently a new value of a fixed parameter is ignored by an objective that has
    been evaluated before, though a new objective uses it. *)
Theorem C28_new_fixed_value_ignored : exists om data ob h0 h1,
  created false om data ob [] /\
  fst (run om ob [(h0, [0], []); (h1, [0], [])]) = [evaluate h0 om ob [0] []; evaluate h0 om ob [0] []] /\
  ls_call true h0 om ob [0] [] <> ls_call true h1 om ob [0] [].
Proof. exact stale_example. Qed.
Print Assumptions C28_new_fixed_value_ignored.

(** ** C29 *)
Theorem C29_equality : forall cls1 cls2 me d1 d2,
  NoDup (dkeys d1) -> NoDup (dkeys d2) -> (forall k, In k (dkeys d1) <-> In k (dkeys d2)) ->
  (forall k o v, dget d1 k = Some v -> dget d2 k = Some o -> comparable o v) ->
  obj_eq cls1 cls2 me d1 d2 = obj_eq cls2 cls1 me d2 d1.
Proof. exact obj_eq_sym. Qed.
Print Assumptions C29_equality.
Theorem C29_reflexive : forall cls d, NoDup (dkeys d) -> obj_eq cls cls true d d = Ok true.
Proof. exact obj_eq_refl. Qed.
Print Assumptions C29_reflexive.
(** Data count as equal: both missing, or arrays of compatible shapes whose numbers differ by at most 1e-8 + 1e-5 |b|, [b] being those of
    the left operand of [==]. *)
Definition same_data (other mine : option nd) : Prop :=
  match other, mine with
  | None, None => True
  | Some a, Some b => exists s, bshape (shp a) (shp b) = Some s /\ forall i, In i (indices s) -> Rabs (elem a i - elem b i) <= / 100000000 + / 100000 * Rabs (elem b i)
  | _, _ => False
  end.
Lemma same_datum_true o v : same_datum o v = Ok true <-> same_data o v.
Proof.
  destruct o as [a|], v as [b|]; cbn [same_datum same_data].
  - unfold allclose. destruct (bshape (shp a) (shp b)) as [s|]; [|split; [discriminate|intros (s & H & _); discriminate]]. split.
    + intros H. exists s. split; [reflexivity|]. intros i Hi. injection H as H. rewrite forallb_forall in H. specialize (H i Hi). unfold close, atol, rtol in H. destruct (Rle_dec _ _) as [Hr|]; [exact Hr|discriminate].
    + intros (s' & E & H). injection E as <-. f_equal. apply forallb_forall. intros i Hi. unfold close, atol, rtol. destruct (Rle_dec _ _) as [|Hr]; [reflexivity|]. exfalso. apply Hr. exact (H i Hi).
  - split; [unfold compare_none; destruct (Nat.leb _ _); discriminate|contradiction].
  - split; [unfold compare_none; destruct (Nat.leb _ _); discriminate|contradiction].
  - split; auto.
Qed.
Lemma eq_loop_agree pre rest d2 : (forall k v, In (k, v) pre -> exists o, dget d2 k = Some o /\ same_data o v) ->
  forall bd, eq_loop bd (pre ++ rest) d2 = eq_loop (match pre with [] => bd | _ => true end) rest d2.
Proof.
  induction pre as [|[k v] pre IH]; intros H bd; [reflexivity|]. destruct (H k v (or_introl eq_refl)) as (o & Ho & Hs). cbn [app eq_loop]. unfold dlook. rewrite Ho. cbn [of_opt bind].
  rewrite (proj2 (same_datum_true o v) Hs). rewrite IH by (intros k' v' Hin; apply H; right; exact Hin). destruct pre; reflexivity.
Qed.
(** Exactly when comparing gives True: same class, equal models, and equal data for all keys of the left one. *)
Theorem C29_true : forall cls1 cls2 me d1 d2,
  obj_eq cls1 cls2 me d1 d2 = Ok true <-> cls1 = cls2 /\ me = true /\ forall k v, In (k, v) d1 -> exists o, dget d2 k = Some o /\ same_data o v.
Proof.
  intros cls1 cls2 me d1 d2. unfold obj_eq. destruct (Nat.eqb_spec cls1 cls2) as [E|E]; cbn [andb]; [|split; [discriminate|intros (H & _); contradiction]].
  destruct me; [|split; [discriminate|intros (_ & H & _); discriminate]]. split.
  - intros H. split; [exact E|]. split; [reflexivity|]. clear E. revert H. generalize false. induction d1 as [|[k v] d1 IH]; intros bd H k' v' Hin; [destruct Hin|]. cbn [eq_loop] in H. unfold dlook in H.
    destruct (dget d2 k) as [o|] eqn:Eo; cbn [of_opt bind] in H; [|discriminate]. destruct (same_datum o v) as [[]|] eqn:Es; try discriminate.
    destruct Hin as [Eq|Hin]; [injection Eq as <- <-; exists o; split; [exact Eo|apply same_datum_true; exact Es]|exact (IH true H k' v' Hin)].
  - intros (_ & _ & H). rewrite <- (app_nil_r d1). rewrite eq_loop_agree by exact H. reflexivity.
Qed.
Print Assumptions C29_true.
(** Otherwise the first key that makes a difference decides: False for data that differ by more, and for an array of at most one number against missing data.  For incompatible
    shapes and for a missing key there is no answer but a ValueError or KeyError, which for the very first key turns into an
    UnboundLocalError; a bigger array against missing data is always a ValueError. *)
Theorem C29_first_difference : forall cls d1 k v rest d2,
  (forall k v, In (k, v) d1 -> exists o, dget d2 k = Some o /\ same_data o v) ->
  let raised e := Raise (match d1 with [] => UnboundLocalError | _ => e end) in
  let r := obj_eq cls cls true (d1 ++ (k, v) :: rest) d2 in
  (dget d2 k = None -> r = raised KeyError) /\
  (forall a b, dget d2 k = Some (Some a) -> v = Some b -> bshape (shp a) (shp b) = None -> r = raised ValueError) /\
  (forall a b, dget d2 k = Some (Some a) -> v = Some b -> bshape (shp a) (shp b) <> None -> ~ same_data (Some a) v -> r = Ok false) /\
  (forall a, (dget d2 k = Some (Some a) /\ v = None) \/ (dget d2 k = Some None /\ v = Some a) ->
     ((List.length (indices (shp a)) <= 1)%nat -> r = Ok false) /\ ((2 <= List.length (indices (shp a)))%nat -> r = Raise ValueError)).
Proof.
  intros cls d1 k v rest d2 H raised r. assert (Hr : r = eq_loop (match d1 with [] => false | _ => true end) ((k, v) :: rest) d2).
  { unfold r, obj_eq. rewrite Nat.eqb_refl. cbn [andb]. rewrite eq_loop_agree by exact H. reflexivity. }
  rewrite Hr. clear r Hr. cbn [eq_loop]. unfold dlook. split; [intros ->; destruct d1; reflexivity|]. split; [|split].
  - intros a b -> -> Hb. cbn [of_opt bind same_datum]. unfold allclose. rewrite Hb. destruct d1; reflexivity.
  - intros a b -> -> Hb Hn. cbn [of_opt bind]. destruct (same_datum (Some a) (Some b)) as [[]|] eqn:E; [exfalso; apply Hn; apply same_datum_true; exact E|reflexivity|].
    cbn [same_datum] in E. unfold allclose in E. destruct (bshape (shp a) (shp b)); [discriminate|contradiction].
  - intros a [(-> & ->)|(-> & ->)]; cbn [of_opt same_datum]; unfold compare_none; destruct (Nat.leb_spec (List.length (indices (shp a))) 1) as [Hs|Hs];
      (split; [try reflexivity; intros Hq; exfalso; apply (Nat.lt_irrefl 1); exact (Nat.lt_le_trans _ _ _ Hs Hq)|try reflexivity; intros Hq; exfalso; apply (Nat.lt_irrefl 1); exact (Nat.lt_le_trans _ _ _ Hq Hs)]).
Qed.
Print Assumptions C29_first_difference.

(** Without these conditions equality is not symmetric: more keys on one side, and the
    relative tolerance of allclose; and it may raise. *)
Theorem C29_equality_not_symmetric_refuted :
  (exists d1 d2, NoDup (dkeys d1) /\ NoDup (dkeys d2) /\ obj_eq 0 0 true d1 d2 = Ok true /\ obj_eq 0 0 true d2 d1 = Raise KeyError) /\
  (exists d1 d2, NoDup (dkeys d1) /\ NoDup (dkeys d2) /\ obj_eq 0 0 true d1 d2 = Ok true /\ obj_eq 0 0 true d2 d1 = Ok false) /\
  (exists d1 d2, NoDup (dkeys d1) /\ NoDup (dkeys d2) /\ obj_eq 0 0 true d1 d2 = Raise UnboundLocalError).
Proof. exact obj_eq_not_sym. Qed.
Print Assumptions C29_equality_not_symmetric_refuted.

(** ** C30.  Missing: a Jacobian or Hessian that happens to have the shape of the data,
    see below. *)
Theorem C30_values_shaped : forall np y c, stretches c y ->
  exists c', shape_one np 0 y c = Ok c' /\ shp c' = shp y /\ forall i, In i (indices (shp y)) -> val c' i = at_point c y i.
Proof. exact shape_one_value. Qed.
Print Assumptions C30_values_shaped.
Theorem C30_unshapeable_rejected : forall np y c, ~ stretches c y -> shp y <> shp c -> shape_one np 0 y c = Raise ValueError.
Proof. exact shape_one_fails. Qed.
Print Assumptions C30_unshapeable_rejected.
Theorem C30_derivatives_shaped : forall np level y c j, stretches c y ->
  shp j = shp c ++ repeat np level -> shp j <> shp y ->
  exists j', shape_one np level y j = Ok j' /\ shp j' = shp y ++ repeat np level /\
    forall i k, In i (indices (shp y)) -> In k (indices (repeat np level)) ->
      val j' (i ++ k) = at_point {| shp := shp c; val := fun a => val j (a ++ k) |} y i.
Proof. exact shape_one_level. Qed.
Print Assumptions C30_derivatives_shaped.
Theorem C30_jacobian_shape_refuted : exists np y c j, stretches c y /\ shp j = (shp c ++ [np])%list /\
  exists j', shape_one np 1 y j = Ok j' /\ shp j' <> (shp y ++ [np])%list.
Proof. exact shape_clash. Qed.
Print Assumptions C30_jacobian_shape_refuted.

(** ** C31 *)
Theorem C31_split_components_refuted : forall h om data ob kw xs out,
  created false om data ob kw -> value_at h om data xs kw out -> fits_data om data out ->
  ls_call false h om ob xs kw = Raise TypeError.
Proof. exact split_raises. Qed.
Print Assumptions C31_split_components_refuted.

(** ** A case that meets all hypotheses: y = a*x + b with three data points, [b] fixed
    or not (ObjExample.v). *)
Example C19_C24_example : created false ex_om ex_data ex_ob [] /\
  value_at (fun _ => ex_free) ex_om ex_data [2; 1] [] (ex_out 2 1) /\ fits_data ex_om ex_data (ex_out 2 1) /\
  jacobian_at (fun _ => ex_free) ex_om ex_data [2; 1] [] (ex_out 2 1) ex_jac /\
  hessian_at (fun _ => ex_free) ex_om ex_data [2; 1] [] (ex_out 2 1) ex_hess /\ some_data ex_om ex_data /\
  free_number (fun _ => ex_free) ex_om (SPar "a") 0 0 /\
  partial_in (fun _ => ex_free) ex_om ex_data [2; 1] [] (SPar "a") 2 ex_jac 0 /\
  partial2_in (fun _ => ex_free) ex_om ex_data [2; 1] [] (SPar "a") 2 ex_jac ex_hess 1 0.
Proof. exact ex_hypotheses. Qed.
Example C23_C25_example : exists ob, created true ex_om ex_data ob [] /\ mm_init ex_om ex_data = Ok ob /\
  all_positive (om_dep ex_om) (ex_out 2 1) /\ plain_jacobian (fun _ => ex_free) ex_om ex_data [2; 1] [] (ex_out 2 1) ex_jac /\
  plain_hessian (fun _ => ex_free) ex_om ex_data [2; 1] [] (ex_out 2 1) ex_hess.
Proof. exact ex_hypotheses_ll. Qed.
