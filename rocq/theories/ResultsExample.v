(** * ResultsExample: worked examples and counterexamples for Prop_Results.v. *)
From Coq Require Import Reals Lra.
From Verif Require Import PyBase PyFacts Signature SignatureFacts Expr NumPy NumFacts Model Objective ObjSpec ObjFacts ObjLeast ObjExample Minimizer MinSpec MinFacts Fit FitSpec FitExample Results ResultsSpec ResultsFacts ResultsMore.
Local Open Scope R_scope.
Local Open Scope string_scope.
Local Open Scope list_scope.

(** ** y = a*x + b with x of shape (n,) and y of shape (n, m): the same curve measured m times *)
Definition xn (n : nat) : nd := {| shp := [n]; val := fun i => INR (hd 0%nat i) |}.
Definition ynm (n m : nat) : nd := {| shp := [m; n]; val := fun i => INR (nth 1 i 0%nat) |}.
Definition rep_data (n m : nat) : dict sym (option nd) :=
  [(SVar "x", Some (xn n)); (SVar "y", Some (ynm n m)); (SVar "sigma_y", Some (scalar 1))].
Definition rep_ob (n m : nat) : obj :=
  {| ob_data := rep_data n m; ob_dep := [(SVar "y", Some (ynm n m))]; ob_ind := [(SVar "x", Some (xn n))];
     ob_sig := [(SVar "sigma_y", Some (scalar 1))]; ob_inv := None |}.
Definition rep_out (n : nat) : dict sym nd := [(SVar "y", {| shp := [n]; val := fun i => 1 * INR (hd 0%nat i) + 0 |})].
Lemma rep_created n m : created false ex_om (rep_data n m) (rep_ob n m) [].
Proof.
  split; [exact ex_interface|]. split; [exact ex_by_keyword|]. split; [apply nodupb_iff; vm_compute; reflexivity|].
  split; [reflexivity|]. split; [constructor|]. intros v [<-|[]]. exists (xn n). reflexivity.
Qed.
Lemma rep_value n m : value_at (fun _ => ex_free) ex_om (rep_data n m) [1; 0] [] (rep_out n).
Proof.
  exists [("x", xn n); ("a", scalar 1); ("b", scalar 0)]. split; [|split; reflexivity].
  split; [apply nodupb_iff; vm_compute; reflexivity|]. intros k. unfold seen, eqb. simpl.
  destruct (eq_dec k "x") as [->|H1]; [reflexivity|]. destruct (eq_dec "x" k) as [<-|_]; [congruence|]. rewrite !Bool.andb_false_r.
  destruct (eq_dec k "a"); [reflexivity|]. destruct (eq_dec k "b"); reflexivity.
Qed.
Lemma rep_observed n m v y : In v (om_dep ex_om) -> observed (rep_data n m) v = Some y -> v = SVar "y" /\ y = ynm n m.
Proof. intros [<-|[]] H. split; [reflexivity|]. unfold observed, rep_data in H. simpl in H. inv H. reflexivity. Qed.
Lemma rep_fits n m : fits_data ex_om (rep_data n m) (rep_out n).
Proof.
  intros v y Hv Hy. destruct (rep_observed n m v y Hv Hy) as [-> ->]. split.
  - unfold stretches, entry. simpl. rewrite Nat.eqb_refl, Bool.orb_true_r. reflexivity.
  - exists (scalar 1). split; [reflexivity|]. split; [reflexivity|]. intros i _. unfold elem, scalar. simpl. lra.
Qed.
Lemma rep_perfect n m : perfect ex_om (rep_data n m) (rep_out n).
Proof.
  intros v y i Hv Hy Hi. destruct (rep_observed n m v y Hv Hy) as [-> ->]. apply in_indices in Hi. simpl in Hi. inv Hi. inv H3. inv H5.
  unfold at_point, entry, elem. simpl. destruct (Nat.eqb_spec n 1) as [->|]; [replace x0 with 0%nat by lia; simpl; lra|]. simpl. lra.
Qed.
Lemma rep_ls n m : ls_call true (fun _ => ex_free) ex_om (rep_ob n m) [1; 0] [] = Ok 0.
Proof.
  destruct (ls_value_spec (fun _ => ex_free) ex_om (rep_data n m) (rep_ob n m) [] [1; 0] (rep_out n) (rep_created n m) (rep_value n m) (rep_fits n m)) as (H1 & _ & H2).
  rewrite H1. f_equal. apply H2. exact (rep_perfect n m).
Qed.
Lemma rep_fails : r_squared ex_om (result_params (om_params ex_om) [1; 0]) (rep_data 3 2) = Raise ValueError.
Proof. reflexivity. Qed.
Lemma rep_wrong : r_squared ex_om (result_params (om_params ex_om) [1; 0]) (rep_data 2 2) = Ok (-1).
Proof.
  cbv -[Rplus Rmult Rdiv Rminus Ropp Rinv pow IZR INR]. f_equal. simpl INR. field_simplify; lra.
Qed.

(** ** a Fit with a constraint, for pickling: a - b >= 0 *)
Definition con_call (f : nd -> nd -> nd) (d : dict string nd) : res (dict sym nd) :=
  match dget d "a", dget d "b" with Some a, Some b => Ok [(SVar "c", f a b)] | _, _ => Raise KeyError end.
Definition con_om : omodel :=
  {| om_params := [SPar "a"; SPar "b"]; om_indep := []; om_dep := [SVar "c"]; om_names := ["a"; "b"];
     om_call := con_call (fun a b => {| shp := []; val := fun _ => val a [] - val b [] |});
     om_jac := None; om_hess := None |}.
Definition ex_con : fcon := {| fc_rel := RGe; fc_om := con_om |}.
Definition slsqp_fit : res fit := fit_init (fun r => r) ex_heap ex_fm [ex_con] ODefault MDefault None [DArr ex_x; DArr ex_y] [].
Lemma slsqp_lost : exists f m, slsqp_fit = Ok f /\ ft_min f = FMin m None /\ mi_class m = SLSQP /\
  List.length (mi_cons m) = 1%nat /\ (exists j, mi_jacobian m = Some j) /\
  exists m', setstate ex_heap (getstate (ft_min f)) = Ok (FMin m' None) /\ mi_class m' = SLSQP /\ mi_cons m' = [] /\ mi_jacobian m' = None /\
    (exists g, pb_jac (execute_problem ex_heap m DNone DNone) = DFun g) /\ pb_jac (execute_problem ex_heap m' DNone DNone) = DNone.
Proof.
  do 2 eexists. split; [reflexivity|]. split; [reflexivity|]. split; [reflexivity|]. split; [reflexivity|]. split; [eexists; reflexivity|].
  eexists. split; [reflexivity|]. split; [reflexivity|]. split; [reflexivity|]. split; [reflexivity|]. split; [eexists; reflexivity|reflexivity].
Qed.
(** BasinHopping with bounds: the local minimizer LBFGSB becomes BFGS *)
Definition bounded_heap : heap := fun _ => {| p_value := 0; p_min := Some 0; p_max := Some 5; p_fixed := false |}.
Lemma basin_lost : exists f m l m' l', fit_init (fun r => r) bounded_heap ex_fm [] ODefault (MItem (MCls BasinHopping)) None [DArr ex_x; DArr ex_y] [] = Ok f /\
  ft_min f = FMin m (Some l) /\ mi_class l = LBFGSB /\
  setstate bounded_heap (getstate (ft_min f)) = Ok (FMin m' (Some l')) /\ mi_class l' = BFGS.
Proof. do 5 eexists. split; [reflexivity|]. split; [reflexivity|]. split; [reflexivity|]. split; reflexivity. Qed.

(** ** result dicts *)
Definition cov2 (r : R) : nd := {| shp := [2%nat; 2%nat]; val := fun _ => r |}.
Definition res_dict (status : string) (r : R) : list (string * pyval) :=
  [("minimizer", VObj 0 1); ("status_message", VStr status); ("params", VDict true [("a", VNum 1); ("b", VNum 2)]); ("covariance_matrix", VArr (cov2 r))].
Lemma cov_differ r s : r <> s -> Rabs (r - s) > 1 -> Rabs s <= 1 -> ~ all_close (cov2 r) (cov2 s).
Proof. intros _ H1 H2 H. specialize (H [0%nat; 0%nat] (or_introl eq_refl)). simpl in H. lra. Qed.
