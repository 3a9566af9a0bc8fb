(** * ObjExample: the remaining lemmas behind Prop_Objective.v and a worked example. *)
From Coq Require Import Reals Lra.
From Coquelicot Require Import Coquelicot.
From Verif Require Import PyBase PyFacts Expr NumPy NumFacts JacAnalysis Objective ObjSpec ObjFacts ObjLS ObjLeast ObjDiff ObjMore ObjLL ObjVec ObjCommon Decide SignatureFacts.
Local Open Scope R_scope.
Local Open Scope string_scope.

Lemma ls_value_spec : forall h om data ob kw xs out,
  created false om data ob kw -> value_at h om data xs kw out -> fits_data om data out ->
  ls_call true h om ob xs kw = Ok (half_chi2 data out (om_dep om)) /\
  0 <= half_chi2 data out (om_dep om) /\
  (half_chi2 data out (om_dep om) = 0 <->
   forall v y i, In v (om_dep om) -> observed data v = Some y -> In i (indices (shp y)) ->
     at_point (entry out v) y i = val y i).
Proof.
  intros h om data ob kw xs out Hc Hv Hf. split; [|split].
  - exact (ls_value h om data ob kw Hc xs out Hv Hf).
  - apply half_chi2_nonneg.
  - apply half_chi2_zero. exact Hf.
Qed.
Lemma chi2_missing : forall data out v, observed data v = None -> chi2_of data out v = 0.
Proof. intros data out v H. unfold chi2_of. rewrite H. reflexivity. Qed.

Lemma ls_approx_spec : forall h om data ob kw xs out jac,
  created false om data ob kw -> value_at h om data xs kw out -> fits_data om data out ->
  jacobian_at h om data xs kw out jac -> some_data om data ->
  exists g, ls_hess_approx h om ob xs kw = Ok g /\ shp g = [List.length (om_params om); List.length (om_params om)] /\
    (forall k l, (k < List.length (om_params om))%nat -> (l < List.length (om_params om))%nat ->
       val g [l; k] = jtwj data jac (om_dep om) k l) /\
    (forall k l, (k < List.length (om_params om))%nat -> (l < List.length (om_params om))%nat -> val g [l; k] = val g [k; l]) /\
    forall z : nat -> R,
      0 <= Rsum (map (fun k => Rsum (map (fun l => z k * val g [l; k] * z l) (seq 0 (List.length (om_params om))))) (seq 0 (List.length (om_params om)))).
Proof.
  intros h om data ob kw xs out jac Hc Hv Hf Hj Hs.
  destruct (ls_approx h om data ob kw Hc xs out jac Hv Hf Hj Hs) as (g & Hg & Hsh & Hval).
  destruct (ls_approx_psd h om data ob kw Hc xs out jac Hv Hf Hj Hs) as (g' & Hg' & _ & _ & Hsym & Hpsd).
  rewrite Hg in Hg'. inv Hg'. rename g' into g. exists g. split; [exact Hg|]. split; [exact Hsh|]. split; [|split; [exact Hsym|exact Hpsd]].
  intros k l Hk Hl. rewrite (Hval k l Hk Hl). unfold jtwj. apply Rsum_ext. intros v Hin. unfold jtwj_of.
  destruct (observed data v) as [y|] eqn:Ey; [|reflexivity]. destruct (observed data (sigma_of v)) as [s|]; [|reflexivity].
  apply Rsum_ext. intros i Hi. unfold at_point, row, elem, pt. destruct Hj as [_ Hj]. destruct (Hj v Hin) as [Hjs _]. simpl shp. simpl val.
  rewrite Hjs, removelast_last. reflexivity.
Qed.

Lemma vls_value_spec : forall h om data ob kw S xs out,
  created false om data ob kw -> (forall v y, In v (om_dep om) -> observed data v = Some y -> shp y = S) ->
  some_data om data -> value_at h om data xs kw out -> fits_data om data out ->
  exists r c, vls_call true h om ob xs kw = Ok r /\ shp r = [List.length (indices S)] /\
    ls_call true h om ob xs kw = Ok c /\
    Rsum (map (fun m => val r [m] ^ 2) (seq 0 (List.length (indices S)))) = 2 * c.
Proof.
  intros h om data ob kw S xs out Hc HS Hsd Hv Hf.
  destruct (vls_squares h om data ob kw Hc S HS Hsd xs out Hv Hf) as (r & Hr & Hsh & Hsum).
  exists r, (half_chi2 data out (om_dep om)). split; [exact Hr|]. split; [exact Hsh|]. split; [|exact Hsum].
  exact (ls_value h om data ob kw Hc xs out Hv Hf).
Qed.

Lemma mm_spec : forall h om data ob kw xs out v,
  mm_init om data = Ok ob -> interface om -> by_keyword om -> independent_data_given om data -> NoDup (dkeys kw) ->
  om_dep om = [v] -> value_at h om data xs kw out ->
  mm_call h om ob xs kw = Ok (entry out v) /\
  (forall f jac, om_jac om = Some f -> answers f h om data xs kw jac -> mm_jac h om ob xs kw = Ok (Some (entry jac v))) /\
  (forall f hess, om_hess om = Some f -> answers f h om data xs kw hess -> mm_hess h om ob xs kw = Ok (Some (entry hess v))) /\
  (om_jac om = None -> mm_jac h om ob xs kw = Ok None) /\ (om_hess om = None -> mm_hess h om ob xs kw = Ok None).
Proof.
  intros h om data ob kw xs out v Hm Hi Hb Hd Hk Hv Ho.
  rewrite mm_init_ok in Hm by (rewrite Hv; simpl; lia).
  assert (Hc : created true om data ob kw).
  { split; [exact Hi|]. split; [exact Hb|]. split; [rewrite Hv; repeat constructor; simpl; tauto|]. split; [exact Hm|]. split; [exact Hk|exact Hd]. }
  split; [exact (mm_value h om data ob kw Hc v [] xs out Hv Ho)|].
  split; [intros f jac Hf Ha; exact (mm_jacobian h om data ob kw Hc v [] xs f jac Hv Hf Ha)|].
  split; [intros f jac Hf Ha; exact (mm_hessian h om data ob kw Hc v [] xs f jac Hv Hf Ha)|].
  split; intros Hn; unfold mm_jac, mm_hess; rewrite Hn; reflexivity.
Qed.

Lemma fixed_spec : forall h om1 om2 data b ob xs kw,
  interface om1 -> same_interface om1 om2 -> have_same_derivatives om1 om2 ->
  obj_init b om1 data = Ok ob -> NoDup (dkeys kw) ->
  (forall d, NoDup (dkeys d) ->
     (forall p, In p (om_params om1) -> p_fixed (h p) = true -> dget d (sname p) = Some (scalar (p_value (h p)))) ->
     agree_at om1 om2 d) ->
  same_objectives h om1 om2 ob xs kw.
Proof.
  intros h om1 om2 data b ob xs kw H1 H2 [H3 H4] H5 H6 H7. apply (same_all h om1 om2 data b ob xs kw H1 H2 H5 H6); [|exact H3|exact H4].
  intros d [Hd1 Hd2]. apply H7; [exact Hd1|]. intros p Hp Hf. rewrite Hd2. apply seen_fixed; assumption.
Qed.
Lemma find_none_iff {A} (f : A -> bool) l : (forall a, In a l -> f a = false) -> find f l = None.
Proof. induction l as [|a l IH]; simpl; intros H; [reflexivity|]. rewrite H by auto. apply IH. auto. Qed.
Lemma dget_combine_nth {V} (ks : list string) : forall (vs : list V) i k v, NoDup ks -> nth_error ks i = Some k -> nth_error vs i = Some v ->
  dget (combine ks vs) k = Some v.
Proof.
  induction ks as [|a ks IH]; intros [|w vs] [|i] k v Hn Hk Hv; simpl in *; try discriminate; inv Hn.
  - inv Hk. inv Hv. destruct (eq_dec k k); congruence.
  - destruct (eq_dec k a) as [->|]; [exfalso; apply H1; eapply nth_error_In; exact Hk|]. eapply IH; eassumption.
Qed.
Lemma find_named (ss : list sym) v : NoDup (map sname ss) -> In v ss -> find (fun w => eqb (sname w) (sname v)) ss = Some v.
Proof.
  induction ss as [|s ss IH]; simpl; intros Hn Hi; [contradiction|]. inv Hn. unfold eqb at 1. destruct (eq_dec (sname s) (sname v)) as [He|Hne].
  - destruct Hi as [->|Hi]; [reflexivity|]. exfalso. apply H1. rewrite He. apply in_map; exact Hi.
  - destruct Hi as [->|Hi]; [congruence|]. apply IH; assumption.
Qed.
Lemma seen_spec : forall h om data xs kw,
  interface om ->
  (forall i p x, nth_error (filter (fun q => negb (p_fixed (h q))) (om_params om)) i = Some p -> nth_error xs i = Some x ->
     seen h om data xs kw (sname p) = Some (scalar x)) /\
  (forall v, In v (om_indep om) -> seen h om data xs kw (sname v) = observed data v).
Proof.
  intros h om data xs kw Hi. split.
  - intros i p x Hp Hx. pose proof (nth_error_In _ _ Hp) as Hin. apply filter_In in Hin as [Hin Hfr]. apply negb_true_iff in Hfr. unfold seen.
    rewrite find_none_iff.
    2:{ intros v Hv. unfold eqb. destruct (eq_dec (sname v) (sname p)) as [He|]; [|reflexivity]. exfalso. exact (names_disjoint om Hi v p Hv Hin He). }
    rewrite find_none_iff.
    2:{ intros q Hq. unfold eqb. destruct (eq_dec (sname q) (sname p)) as [He|]; [|reflexivity]. simpl.
        assert (q = p); [|congruence]. pose proof (params_names om Hi) as Hn. pose proof (find_named _ _ Hn Hq) as F1. pose proof (find_named _ _ Hn Hin) as F2. rewrite He in F1. congruence. }
    erewrite dget_combine_nth; [reflexivity| | |exact Hx].
    + apply NoDup_map_filter. apply params_names; exact Hi.
    + apply map_nth_error. exact Hp.
  - intros v Hv. unfold seen. rewrite (find_named _ _ (indep_names om Hi) Hv). reflexivity.
Qed.

Lemma cache_spec : forall om data b ob h0 kw0 xs0 hist,
  interface om -> obj_init b om data = Ok ob -> independent_data_given om data ->
  (forall h xs kw p, In (h, xs, kw) hist -> In p (om_params om) -> p_fixed (h p) = p_fixed (h0 p)) ->
  fst (run om ob ((h0, xs0, kw0) :: hist)) = map (fun e => evaluate h0 om ob (snd (fst e)) (snd e)) ((h0, xs0, kw0) :: hist).
Proof.
  intros om data b ob h0 kw0 xs0 hist Hi Hob Hd Hfx.
  destruct (inv_ok h0 om data ob b Hi Hob Hd) as (inv & Hinv).
  destruct (obj_init_inv _ _ _ _ Hob) as (_ & Hn & _).
  pose proof (run_stale om h0 ob inv Hinv Hn hist Hfx) as H. simpl.
  destruct (run om (touched h0 om ob) hist) as [rs ob'] eqn:E. simpl in *. rewrite H. reflexivity.
Qed.

Lemma obj_eq_sym : forall cls1 cls2 me d1 d2,
  NoDup (dkeys d1) -> NoDup (dkeys d2) -> (forall k, In k (dkeys d1) <-> In k (dkeys d2)) ->
  (forall k o v, dget d1 k = Some v -> dget d2 k = Some o -> comparable o v) ->
  obj_eq cls1 cls2 me d1 d2 = obj_eq cls2 cls1 me d2 d1.
Proof.
  intros cls1 cls2 me d1 d2 H1 H2 H3 H4. unfold obj_eq. rewrite Nat.eqb_sym. destruct (_ && _); [|reflexivity].
  apply eq_sym_comparable; assumption.
Qed.
Lemma obj_eq_refl : forall cls d, NoDup (dkeys d) -> obj_eq cls cls true d d = Ok true.
Proof. intros cls d H. unfold obj_eq. rewrite Nat.eqb_refl. simpl. apply eq_loop_refl; auto. Qed.

Lemma split_raises : forall h om data ob kw xs out,
  created false om data ob kw -> value_at h om data xs kw out -> fits_data om data out ->
  ls_call false h om ob xs kw = Raise TypeError.
Proof.
  intros h om data ob kw xs out Hc Hv Hf. pose proof (ls_value h om data ob kw Hc xs out Hv Hf) as H.
  unfold ls_call in *. destruct (ls_chi2 h om ob xs kw); [reflexivity|discriminate].
Qed.

(** ** y = a*x + b *)
Definition ex_free : pattr := {| p_value := 0; p_min := None; p_max := None; p_fixed := false |}.
Definition ex_x : nd := {| shp := [3%nat]; val := fun i => INR (hd 0%nat i) |}.
Definition ex_y : nd := {| shp := [3%nat]; val := fun i => 1 |}.
Definition line (f : nd -> nd -> nd -> nd) (d : dict string nd) : res (dict sym nd) :=
  match dget d "x", dget d "a", dget d "b" with
  | Some x, Some a, Some b => Ok [(SVar "y", f x a b)]
  | _, _, _ => Raise KeyError
  end.
Definition ex_om : omodel :=
  {| om_params := [SPar "a"; SPar "b"]; om_indep := [SVar "x"]; om_dep := [SVar "y"]; om_names := ["x"; "a"; "b"];
     om_call := line (fun x a b => {| shp := shp x; val := fun i => val a [] * val x i + val b [] |});
     om_jac := Some (line (fun x a b => {| shp := shp x ++ [2%nat];
       val := fun i => if Nat.eqb (nth (List.length (shp x)) i 0%nat) 0 then val x (firstn (List.length (shp x)) i) else 1 |}));
     om_hess := Some (line (fun x a b => {| shp := shp x ++ [2%nat; 2%nat]; val := fun _ => 0 |})) |}.
Definition ex_data : dict sym (option nd) :=
  [(SVar "x", Some ex_x); (SVar "y", Some ex_y); (SVar "sigma_y", Some (scalar 1))].
Definition ex_ob : obj :=
  {| ob_data := ex_data; ob_dep := [(SVar "y", Some ex_y)]; ob_ind := [(SVar "x", Some ex_x)];
     ob_sig := [(SVar "sigma_y", Some (scalar 1))]; ob_inv := None |}.
Definition ex_out (a b : R) : dict sym nd := [(SVar "y", {| shp := [3%nat]; val := fun i => a * INR (hd 0%nat i) + b |})].
Definition ex_jac : dict sym nd :=
  [(SVar "y", {| shp := [3%nat; 2%nat]; val := fun i => if Nat.eqb (nth 1 i 0%nat) 0 then INR (hd 0%nat (firstn 1 i)) else 1 |})].
Definition ex_hess : dict sym nd := [(SVar "y", {| shp := [3%nat; 2%nat; 2%nat]; val := fun _ => 0 |})].

Lemma line_by_keyword f d1 d2 : (forall n, dget d1 n = dget d2 n) -> line f d1 = line f d2.
Proof. intros H. unfold line. rewrite !H. reflexivity. Qed.
Lemma ex_by_keyword : by_keyword ex_om.
Proof.
  intros d1 d2 _ _ H. split; [apply line_by_keyword; exact H|]. split; intros f Hf; simpl in Hf; inv Hf; apply line_by_keyword; exact H.
Qed.
Lemma ex_interface : interface ex_om.
Proof.
  split; [reflexivity|]. split; [apply nodupb_iff; vm_compute; reflexivity|]. apply nodupb_iff; vm_compute; reflexivity.
Qed.
Lemma ex_indep : independent_data_given ex_om ex_data.
Proof. intros v [<-|[]]. exists ex_x. reflexivity. Qed.
Lemma ex_created : created false ex_om ex_data ex_ob [].
Proof.
  split; [exact ex_interface|]. split; [exact ex_by_keyword|]. split; [apply nodupb_iff; vm_compute; reflexivity|].
  split; [reflexivity|]. split; [constructor|exact ex_indep].
Qed.
Definition ex_args (a b : R) : dict string nd := [("x", ex_x); ("a", scalar a); ("b", scalar b)].
Lemma ex_arguments a b : arguments_are (ex_args a b) (seen (fun _ => ex_free) ex_om ex_data [a; b] []).
Proof.
  split; [apply nodupb_iff; vm_compute; reflexivity|]. intros n. unfold seen, ex_args, eqb. simpl.
  destruct (eq_dec n "x") as [->|H1]; [reflexivity|]. destruct (eq_dec "x" n) as [<-|_]; [congruence|]. rewrite !Bool.andb_false_r.
  destruct (eq_dec n "a"); [reflexivity|]. destruct (eq_dec n "b"); reflexivity.
Qed.
Lemma ex_lists a b : lists_dependent ex_om (ex_out a b).
Proof. reflexivity. Qed.
Lemma ex_value a b : value_at (fun _ => ex_free) ex_om ex_data [a; b] [] (ex_out a b).
Proof. exists (ex_args a b). split; [apply ex_arguments|]. split; reflexivity. Qed.
Lemma ex_observed v y : In v (om_dep ex_om) -> observed ex_data v = Some y -> v = SVar "y" /\ y = ex_y.
Proof. intros [<-|[]] H. split; [reflexivity|]. vm_compute in H. inv H. reflexivity. Qed.
Lemma ex_fits a b : fits_data ex_om ex_data (ex_out a b).
Proof.
  intros v y Hv Hy. destruct (ex_observed v y Hv Hy) as [-> ->]. split; [reflexivity|]. exists (scalar 1). split; [reflexivity|]. split; [reflexivity|].
  intros i _. rewrite elem_scalar. lra.
Qed.
Lemma ex_answers_jac : answers (line (fun x a b => {| shp := shp x ++ [2%nat];
       val := fun i => if Nat.eqb (nth (List.length (shp x)) i 0%nat) 0 then val x (firstn (List.length (shp x)) i) else 1 |})) (fun _ => ex_free) ex_om ex_data [2; 1] [] ex_jac.
Proof. exists (ex_args 2 1). split; [apply ex_arguments|]. split; reflexivity. Qed.
Lemma ex_answers_hess : answers (line (fun x a b => {| shp := shp x ++ [2%nat; 2%nat]; val := fun _ => 0 |})) (fun _ => ex_free) ex_om ex_data [2; 1] [] ex_hess.
Proof. exists (ex_args 2 1). split; [apply ex_arguments|]. split; reflexivity. Qed.
Lemma ex_with t : with_param (fun _ => ex_free) ex_om ex_data [2; 1] [] (SPar "a") t (ex_args t 1).
Proof. exists (ex_args 2 1). split; [apply ex_arguments|reflexivity]. Qed.

Lemma ex_hypotheses : created false ex_om ex_data ex_ob [] /\
  value_at (fun _ => ex_free) ex_om ex_data [2; 1] [] (ex_out 2 1) /\ fits_data ex_om ex_data (ex_out 2 1) /\
  jacobian_at (fun _ => ex_free) ex_om ex_data [2; 1] [] (ex_out 2 1) ex_jac /\
  hessian_at (fun _ => ex_free) ex_om ex_data [2; 1] [] (ex_out 2 1) ex_hess /\ some_data ex_om ex_data /\
  free_number (fun _ => ex_free) ex_om (SPar "a") 0 0 /\
  partial_in (fun _ => ex_free) ex_om ex_data [2; 1] [] (SPar "a") 2 ex_jac 0 /\
  partial2_in (fun _ => ex_free) ex_om ex_data [2; 1] [] (SPar "a") 2 ex_jac ex_hess 1 0.
Proof.
  split; [exact ex_created|]. split; [apply ex_value|]. split; [apply ex_fits|].
  split. { split; [eexists; split; [reflexivity|exact ex_answers_jac]|]. intros v [<-|[]]. split; [reflexivity|]. intros y Hy. destruct (ex_observed (SVar "y") y (or_introl eq_refl) Hy) as [_ ->]. vm_compute. discriminate. }
  split. { split; [eexists; split; [reflexivity|exact ex_answers_hess]|]. intros v [<-|[]]. split; [reflexivity|]. intros y Hy. destruct (ex_observed (SVar "y") y (or_introl eq_refl) Hy) as [_ ->]. vm_compute. discriminate. }
  split; [exists (SVar "y"), ex_y; split; [left; reflexivity|reflexivity]|].
  split; [split; reflexivity|].
  assert (Hder : derivative_of (om_dep ex_om) (fun t => ex_out t 1) 2 ex_jac 0).
  { intros v i [<-|[]] Hi. unfold entry, ex_out, ex_jac. simpl dget. cbn [val]. apply in_indices in Hi. simpl in Hi. inv Hi. inv H3. simpl.
    auto_derive; [exact I|]. ring. }
  split.
  - exists (fun t => ex_out t 1). split; [|exact Hder]. apply filter_forall. intros t. exists (ex_args t 1).
    split; [apply ex_with|]. split; [reflexivity|]. split; [reflexivity|]. intros v [<-|[]]. reflexivity.
  - exists (fun t => ex_out t 1), (fun t => ex_jac). split.
    { apply filter_forall. intros t. eexists (ex_args t 1), _. split; [apply ex_with|]. split; [reflexivity|]. split; [reflexivity|].
      split; [intros v [<-|[]]; reflexivity|]. split; [reflexivity|]. split; [reflexivity|]. split; [reflexivity|]. intros v [<-|[]]; reflexivity. }
    split; [reflexivity|]. split; [exact Hder|]. intros v i [<-|[]] Hi. unfold entry at 2, ex_hess. simpl dget. cbn [val]. apply der_const.
Qed.

Lemma ex_hypotheses_ll : exists ob, created true ex_om ex_data ob [] /\ mm_init ex_om ex_data = Ok ob /\
  all_positive (om_dep ex_om) (ex_out 2 1) /\ plain_jacobian (fun _ => ex_free) ex_om ex_data [2; 1] [] (ex_out 2 1) ex_jac /\
  plain_hessian (fun _ => ex_free) ex_om ex_data [2; 1] [] (ex_out 2 1) ex_hess.
Proof.
  eexists. split.
  { split; [exact ex_interface|]. split; [exact ex_by_keyword|]. split; [apply nodupb_iff; vm_compute; reflexivity|].
    split; [reflexivity|]. split; [constructor|exact ex_indep]. }
  split; [reflexivity|]. split. { intros v i [<-|[]] _. unfold entry, ex_out. simpl. pose proof (pos_INR (hd 0%nat i)). lra. }
  split; (split; [|intros v [<-|[]]; reflexivity]).
  - eexists. split; [reflexivity|exact ex_answers_jac].
  - eexists. split; [reflexivity|exact ex_answers_hess].
Qed.

(** ** counterexamples *)
Lemma no_data_gradient : exists om data ob, created false om data ob [] /\ List.length (om_params om) = 2%nat /\
  exists g, ls_jac (fun _ => ex_free) om ob [2; 1] [] = Ok g /\ shp g = [1%nat].
Proof.
  exists ex_om, [(SVar "x", Some ex_x); (SVar "y", None); (SVar "sigma_y", None)]. eexists. split.
  { split; [exact ex_interface|]. split; [exact ex_by_keyword|]. split; [apply nodupb_iff; vm_compute; reflexivity|].
    split; [reflexivity|]. split; [constructor|]. intros v [<-|[]]. exists ex_x. reflexivity. }
  split; [reflexivity|]. eexists. split; [vm_compute; reflexivity|]. reflexivity.
Qed.

Definition two_om : omodel :=
  {| om_params := [SPar "a"; SPar "b"]; om_indep := []; om_dep := [SVar "y"; SVar "z"]; om_names := ["a"; "b"];
     om_call := fun _ => Ok [(SVar "y", {| shp := [3%nat]; val := fun _ => 0 |}); (SVar "z", {| shp := [1%nat]; val := fun _ => 0 |})];
     om_jac := None; om_hess := None |}.
Definition two_data : dict sym (option nd) :=
  [(SVar "y", Some {| shp := [3%nat]; val := fun _ => 0 |}); (SVar "z", Some {| shp := [1%nat]; val := fun _ => 1 |});
   (SVar "sigma_y", Some (scalar 1)); (SVar "sigma_z", Some (scalar 1))].
Lemma vls_unequal : exists om data ob, created false om data ob [] /\
  exists r c, vls_call true (fun _ => ex_free) om ob [0; 0] [] = Ok r /\ ls_call true (fun _ => ex_free) om ob [0; 0] [] = Ok c /\
    Rsum (map (fun i => val r i ^ 2) (indices (shp r))) = 3 /\ 2 * c = 1.
Proof.
  exists two_om, two_data. eexists. split.
  { split; [split; [reflexivity|split; apply nodupb_iff; vm_compute; reflexivity]|].
    split; [intros d1 d2 _ _ _; split; [reflexivity|split; intros f Hf; discriminate]|]. split; [apply nodupb_iff; vm_compute; reflexivity|].
    split; [reflexivity|]. split; [constructor|]. intros v []. }
  eexists. eexists. split; [reflexivity|]. split; [reflexivity|].
  split.
  - cbn -[Rplus Rmult Rdiv Rminus pow sqrt IZR]. rewrite !pow2_sqrt; unfold Rdiv; nra.
  - cbn -[Rplus Rmult Rdiv Rminus pow sqrt IZR]. field.
Qed.

Definition fix_b (v : R) : heap := fun p => if eqb p (SPar "b") then {| p_value := v; p_min := None; p_max := None; p_fixed := true |} else ex_free.
Lemma fix_arguments a v : arguments_are (ex_args a v) (seen (fix_b v) ex_om ex_data [a] []).
Proof.
  split; [apply nodupb_iff; vm_compute; reflexivity|]. intros n. unfold seen, ex_args, eqb. simpl.
  destruct (eq_dec n "x") as [->|H1]; [reflexivity|]. destruct (eq_dec "x" n) as [<-|_]; [congruence|]. rewrite !Bool.andb_false_r.
  destruct (eq_dec n "a") as [->|]; [reflexivity|]. destruct (eq_dec n "b") as [->|]; [reflexivity|]. destruct (eq_dec "b" n) as [<-|_]; [congruence|reflexivity].
Qed.
Lemma fix_ls v : ls_call true (fix_b v) ex_om ex_ob [0] [] = Ok (3 / 2 * (v - 1) ^ 2).
Proof.
  rewrite (ls_value (fix_b v) ex_om ex_data ex_ob [] ex_created [0] (ex_out 0 v)).
  - f_equal. unfold half_chi2, chi2_of. simpl map. cbn -[Rplus Rmult Rdiv Rminus pow IZR INR]. unfold Rdiv. simpl INR. lra.
  - exists (ex_args 0 v). split; [apply fix_arguments|]. split; reflexivity.
  - apply ex_fits.
Qed.
Lemma stale_example : exists om data ob h0 h1,
  created false om data ob [] /\
  fst (run om ob [(h0, [0], []); (h1, [0], [])]) = [evaluate h0 om ob [0] []; evaluate h0 om ob [0] []] /\
  ls_call true h0 om ob [0] [] <> ls_call true h1 om ob [0] [].
Proof.
  exists ex_om, ex_data, ex_ob, (fix_b 1), (fix_b 2). split; [exact ex_created|]. split.
  - apply (cache_spec ex_om ex_data false ex_ob (fix_b 1) [] [0] [(fix_b 2, [0], [])] ex_interface eq_refl ex_indep).
    intros h xs kw p [He|[]] _. inv He. unfold fix_b. destruct (eqb p (SPar "b")); reflexivity.
  - rewrite !fix_ls. intros H. injection H as H. lra.
Qed.

Lemma close_yes a b : Rabs (a - b) <= atol + rtol * Rabs b -> close a b = true.
Proof. unfold close. destruct (Rle_dec _ _); [reflexivity|contradiction]. Qed.
Lemma close_no a b : ~ Rabs (a - b) <= atol + rtol * Rabs b -> close a b = false.
Proof. unfold close. destruct (Rle_dec _ _); [contradiction|reflexivity]. Qed.
Definition nearly : R := 1 + (/ 100000 + / 100000000 + / 100000000000).
Lemma obj_eq_not_sym :
  (exists d1 d2, NoDup (dkeys d1) /\ NoDup (dkeys d2) /\ obj_eq 0 0 true d1 d2 = Ok true /\ obj_eq 0 0 true d2 d1 = Raise KeyError) /\
  (exists d1 d2, NoDup (dkeys d1) /\ NoDup (dkeys d2) /\ obj_eq 0 0 true d1 d2 = Ok true /\ obj_eq 0 0 true d2 d1 = Ok false) /\
  (exists d1 d2, NoDup (dkeys d1) /\ NoDup (dkeys d2) /\ obj_eq 0 0 true d1 d2 = Raise UnboundLocalError).
Proof.
  split; [|split].
  - exists [(SVar "x", None)], [(SVar "x", None); (SVar "y", None)]. split; [|split]; [apply nodupb_iff; vm_compute; reflexivity|apply nodupb_iff; vm_compute; reflexivity|].
    split; reflexivity.
  - exists [(SVar "x", Some (scalar nearly))], [(SVar "x", Some (scalar 1))].
    split; [|split]; [apply nodupb_iff; vm_compute; reflexivity|apply nodupb_iff; vm_compute; reflexivity|].
    assert (H1 : close 1 nearly = true).
    { apply close_yes. unfold nearly, atol, rtol. rewrite Rabs_left1 by lra. rewrite Rabs_right by lra. lra. }
    assert (H2 : close nearly 1 = false).
    { apply close_no. unfold nearly, atol, rtol. rewrite Rabs_right by lra. rewrite Rabs_right by lra. lra. }
    unfold obj_eq, eq_loop, dlook, same_datum, allclose. simpl. unfold elem. simpl. rewrite H1, H2. split; reflexivity.
  - exists [(SVar "x", None)], []. split; [|split]; [apply nodupb_iff; vm_compute; reflexivity|apply nodupb_iff; vm_compute; reflexivity|]. reflexivity.
Qed.

Lemma shape_clash : exists np y c j, stretches c y /\ shp j = (shp c ++ [np])%list /\
  exists j', shape_one np 1 y j = Ok j' /\ shp j' <> (shp y ++ [np])%list.
Proof.
  exists 2%nat, {| shp := [1%nat; 2%nat]; val := fun _ => 0 |}, {| shp := [1%nat]; val := fun _ => 0 |}, {| shp := [1%nat; 2%nat]; val := fun _ => 0 |}.
  split; [reflexivity|]. split; [reflexivity|]. eexists. split; [reflexivity|]. simpl. discriminate.
Qed.
