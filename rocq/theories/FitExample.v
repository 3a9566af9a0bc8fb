(** * FitExample: worked examples and counterexamples for Prop_Fit.v. *)
From Coq Require Import Reals Lra ClassicalEpsilon.
From Verif Require Import PyBase PyFacts SignatureFacts Expr NumPy NumFacts Objective ObjSpec ObjFacts ObjExample Minimizer Fit FitSpec FitFacts FitData FitMain.
Local Open Scope R_scope.
Local Open Scope string_scope.
Local Open Scope list_scope.

(** numpy's [inv] exists as a function *)
Lemma inverts_exists : exists inv, inverts inv.
Proof.
  set (P := fun (a : nd) (r : res nd) => forall n, square n a ->
    (exists b, r = Ok b /\ inverse_of n a b) \/ (r = Raise LinAlgError /\ forall b, ~ inverse_of n a b)).
  assert (Hex : forall a, exists r, P a r).
  { intros a. destruct (excluded_middle_informative (exists n b, square n a /\ inverse_of n a b)) as [(n & b & Hs & Hb)|Hno].
    - exists (Ok b). intros k Hk. left. exists b. split; [reflexivity|]. unfold square in *. rewrite Hs in Hk. inv Hk. exact Hb.
    - exists (Raise LinAlgError). intros n Hn. right. split; [reflexivity|]. intros b Hb. apply Hno. exists n, b. auto. }
  exists (fun a => epsilon (inhabits (Raise LinAlgError)) (P a)). intros n a Hn. exact (epsilon_spec (inhabits (Raise LinAlgError)) (P a) (Hex a) n Hn).
Qed.

(** y = a*x + b with sigma_y = 2 *)
Definition ex_fm : fmodel := {| fm_om := ex_om; fm_len := 1%nat |}.
Definition ex_heap : heap := fun _ => ex_free.
Definition ex_kw (s : datum) : dict string datum := [("y", DArr ex_y); ("sigma_y", s)].
Definition ex_fit (s : R) : fit :=
  {| ft_data := [(KSym (SVar "x"), DArr ex_x); (KSym (SVar "y"), DArr ex_y); (KSym (SVar "sigma_y"), DArr {| shp := [3%nat]; val := fun _ => s |})];
     ft_absolute := true; ft_class := OLS;
     ft_obj := {| ob_data := [(SVar "x", Some ex_x); (SVar "y", Some ex_y); (SVar "sigma_y", Some {| shp := [3%nat]; val := fun _ => s |})];
                  ob_dep := [(SVar "y", Some ex_y)]; ob_ind := [(SVar "x", Some ex_x)];
                  ob_sig := [(SVar "sigma_y", Some {| shp := [3%nat]; val := fun _ => s |})]; ob_inv := None |};
     ft_min := FMin {| mi_class := BFGS; mi_parameters := om_params ex_om; mi_fixed := []; mi_params := om_params ex_om; mi_guess := None;
                       mi_jacobian := Some (as_fn (fun xs => obj_jacobian OLS ex_heap ex_om
                         {| ob_data := [(SVar "x", Some ex_x); (SVar "y", Some ex_y); (SVar "sigma_y", Some {| shp := [3%nat]; val := fun _ => s |})];
                            ob_dep := [(SVar "y", Some ex_y)]; ob_ind := [(SVar "x", Some ex_x)];
                            ob_sig := [(SVar "sigma_y", Some {| shp := [3%nat]; val := fun _ => s |})]; ob_inv := None |} xs []));
                       mi_hessian := None; mi_cons := [] |} None |}.
Lemma ex_good : good_names ex_om [].
Proof. split; [apply nodupb_iff; vm_compute; reflexivity|]. split; [intros c []|]. apply nodupb_iff; vm_compute; reflexivity. Qed.
Lemma ex_fit_ok toward0 s : fit_init toward0 ex_heap ex_fm [] ODefault MDefault None [DArr ex_x] (ex_kw (DNum s)) = Ok (ex_fit s).
Proof. reflexivity. Qed.
Section Ex.
  Context (s : R).
  Hypothesis Hs : s <> 0.
  Let data := objective_data (ft_data (ex_fit s)).
  Lemma exf_arguments : arguments_are (ex_args 2 1) (seen ex_heap ex_om data [] (named_values ex_om [2; 1])).
  Proof using.
    split; [apply nodupb_iff; vm_compute; reflexivity|]. intros n. unfold seen, ex_args, eqb. change (named_values ex_om [2; 1]) with [("a", 2); ("b", 1)]. simpl.
    destruct (eq_dec n "x") as [->|H1]; [reflexivity|]. destruct (eq_dec "x" n) as [<-|_]; [congruence|]. rewrite !Bool.andb_false_r.
    destruct (eq_dec n "a"); [reflexivity|]. destruct (eq_dec n "b"); reflexivity.
  Qed.
  Lemma exf_observed v y : In v (om_dep ex_om) -> observed data v = Some y -> v = SVar "y" /\ y = ex_y.
  Proof using. intros [<-|[]] H. split; [reflexivity|]. vm_compute in H. inv H. reflexivity. Qed.
  Lemma exf_evaluated : evaluated ex_heap ex_om data [2; 1] (ex_out 2 1) ex_jac.
  Proof using Hs.
    split; [exists (ex_args 2 1); split; [apply exf_arguments|split; reflexivity]|]. split.
    { intros v y Hv Hy. destruct (exf_observed v y Hv Hy) as [-> ->]. split; [reflexivity|]. eexists. split; [reflexivity|]. split; [reflexivity|]. intros i _. exact Hs. }
    split; [|exists (SVar "y"), ex_y; split; [left; reflexivity|reflexivity]].
    split; [eexists; split; [reflexivity|]; exists (ex_args 2 1); split; [apply exf_arguments|split; reflexivity]|].
    intros v [<-|[]]. split; [reflexivity|]. intros y Hy. destruct (exf_observed (SVar "y") y (or_introl eq_refl) Hy) as [_ ->]. vm_compute. discriminate.
  Qed.
  Lemma exf_hessian : with_hessian ex_heap ex_om data [2; 1] (ex_out 2 1) ex_hess.
  Proof using.
    split; [eexists; split; [reflexivity|]; exists (ex_args 2 1); split; [apply exf_arguments|split; reflexivity]|].
    intros v [<-|[]]. split; [reflexivity|]. intros y Hy. destruct (exf_observed (SVar "y") y (or_introl eq_refl) Hy) as [_ ->]. vm_compute. discriminate.
  Qed.
  Lemma exf_proper : proper_data ex_om [] [DArr ex_x] (ex_kw (DNum s)).
  Proof using. split; [intros v [<-|[]]; discriminate|]. intros v r [<-|[<-|[]]]; discriminate. Qed.
  Lemma exf_symmetric : symmetric_hessian ex_om (ex_out 2 1) ex_hess.
  Proof using. intros v i k l [<-|[]] _ _ _. reflexivity. Qed.
End Ex.
Lemma ex_callable : callable ex_om.
Proof. split; [exact ex_interface|exact ex_by_keyword]. Qed.
Lemma ex_ls s : least_squares ODefault (ft_class (ex_fit s)).
Proof. split; [intros; discriminate|left; reflexivity]. Qed.
Lemma ex_pack : pack_output ex_heap (om_params ex_om) [2; 1] = Ok [2; 1].
Proof. reflexivity. Qed.

(** ** two components with data of the same shape: y = a*x + b, z = a*x + b *)
Definition two (f : nd -> nd -> nd -> nd) (d : dict string nd) : res (dict sym nd) :=
  match dget d "x", dget d "a", dget d "b" with
  | Some x, Some a, Some b => Ok [(SVar "y", f x a b); (SVar "z", f x a b)]
  | _, _, _ => Raise KeyError
  end.
Definition ex2_om : omodel :=
  {| om_params := [SPar "a"; SPar "b"]; om_indep := [SVar "x"]; om_dep := [SVar "y"; SVar "z"]; om_names := ["x"; "a"; "b"];
     om_call := two (fun x a b => {| shp := shp x; val := fun i => val a [] * val x i + val b [] |});
     om_jac := Some (two (fun x a b => {| shp := shp x ++ [2%nat];
       val := fun i => if Nat.eqb (nth (List.length (shp x)) i 0%nat) 0 then val x (firstn (List.length (shp x)) i) else 1 |}));
     om_hess := None |}.
Lemma ex2_fit toward0 : exists f, fit_init toward0 ex_heap {| fm_om := ex2_om; fm_len := 2 |} [] ODefault MDefault (Some false) [DArr ex_x; DArr ex_y; DArr ex_y] [] = Ok f /\
  counted_points ex2_om (ft_data f) = 3%nat /\ data_points ex2_om (ft_data f) = 6%nat.
Proof. eexists. split; [reflexivity|]. split; reflexivity. Qed.

(** ** data given as bare Python numbers *)
Lemma bare_dependent toward0 : fit_init toward0 ex_heap ex_fm [] ODefault MDefault None [DArr ex_x; DNum 3] [] = Raise AttributeError.
Proof. reflexivity. Qed.
(** y = a*x where x is the bare number 2: execute() fails *)
Definition ex3_call (f : nd -> nd -> nd) (d : dict string nd) : res (dict sym nd) :=
  match dget d "x", dget d "a" with Some x, Some a => Ok [(SVar "y", f x a)] | _, _ => Raise KeyError end.
Definition ex3_om : omodel :=
  {| om_params := [SPar "a"]; om_indep := [SVar "x"]; om_dep := [SVar "y"]; om_names := ["x"; "a"];
     om_call := ex3_call (fun x a => {| shp := shp x; val := fun i => val a [] * val x i |});
     om_jac := Some (ex3_call (fun x a => {| shp := shp x ++ [1%nat]; val := fun i => val x (firstn (List.length (shp x)) i) |}));
     om_hess := None |}.
Definition ex3_fm : fmodel := {| fm_om := ex3_om; fm_len := 1%nat |}.
Definition ones3 : nd := {| shp := [3%nat]; val := fun _ => 1 |}.
Definition ex3_data : dict sym (option nd) := [(SVar "x", Some (scalar 2)); (SVar "y", Some ex_y); (SVar "sigma_y", Some ones3)].
Definition ex3_ob : obj := {| ob_data := ex3_data; ob_dep := [(SVar "y", Some ex_y)]; ob_ind := [(SVar "x", Some (scalar 2))]; ob_sig := [(SVar "sigma_y", Some ones3)]; ob_inv := None |}.
Definition ex3_d : dict kwkey datum := [(KSym (SVar "x"), DNum 2); (KSym (SVar "y"), DArr ex_y); (KSym (SVar "sigma_y"), DArr ones3)].
Definition ex3_out : dict sym nd := [(SVar "y", {| shp := []; val := fun i => 5 * 2 |})].
Definition ex3_jac : dict sym nd := [(SVar "y", {| shp := [1%nat]; val := fun i => 2 |})].
Lemma ex3_created : created false ex3_om ex3_data ex3_ob [("a", 5)].
Proof.
  split; [split; [reflexivity|split; apply nodupb_iff; vm_compute; reflexivity]|]. split.
  { intros d1 d2 _ _ H. split; [cbn; unfold ex3_call; rewrite !H; reflexivity|]. split; intros f Hf; cbn in Hf; inv Hf. unfold ex3_call. rewrite !H. reflexivity. }
  split; [apply nodupb_iff; vm_compute; reflexivity|]. split; [reflexivity|]. split; [apply nodupb_iff; vm_compute; reflexivity|]. intros v [<-|[]]. exists (scalar 2). reflexivity.
Qed.
Lemma ex3_arguments : arguments_are [("x", scalar 2); ("a", scalar 5)] (seen ex_heap ex3_om ex3_data [] [("a", 5)]).
Proof.
  split; [apply nodupb_iff; vm_compute; reflexivity|]. intros n. unfold seen, eqb. simpl.
  destruct (eq_dec n "x") as [->|H1]; [reflexivity|]. destruct (eq_dec "x" n) as [<-|_]; [congruence|]. rewrite !Bool.andb_false_r.
  destruct (eq_dec n "a"); reflexivity.
Qed.
Lemma ex3_observed v y : In v (om_dep ex3_om) -> observed ex3_data v = Some y -> v = SVar "y" /\ y = ex_y.
Proof. intros [<-|[]] H. split; [reflexivity|]. vm_compute in H. inv H. reflexivity. Qed.
Lemma ex3_K : exists K, ls_hess_approx ex_heap ex3_om ex3_ob [] [("a", 5)] = Ok K /\ square 1 K /\ mat K 0 0 = 12.
Proof.
  destruct (ls_approx_spec ex_heap ex3_om ex3_data ex3_ob [("a", 5)] [] ex3_out ex3_jac ex3_created) as (K & HK & Hs & Hv & _).
  - eexists. split; [exact ex3_arguments|]. split; reflexivity.
  - intros v y Hv Hy. destruct (ex3_observed v y Hv Hy) as [-> ->]. split; [reflexivity|]. exists ones3. split; [reflexivity|]. split; [reflexivity|]. intros i _. unfold ones3, elem. cbn. lra.
  - split; [eexists; split; [reflexivity|]; eexists; split; [exact ex3_arguments|split; reflexivity]|].
    intros v [<-|[]]. split; [reflexivity|]. intros y Hy. destruct (ex3_observed (SVar "y") y (or_introl eq_refl) Hy) as [_ ->]. vm_compute. discriminate.
  - exists (SVar "y"), ex_y. split; [left; reflexivity|reflexivity].
  - exists K. split; [exact HK|]. split; [exact Hs|]. unfold mat. rewrite Hv by (cbn; lia). cbn. lra.
Qed.
Lemma ex3_covariance (inv : nd -> res nd) absolute : inverts inv ->
  covariance inv ex_heap ex3_om ex3_d absolute OLS ex3_ob [5] = Raise AttributeError.
Proof.
  intros Hinv. destruct ex3_K as (K & HK & Hsq & Hk). unfold covariance.
  assert (H1 : cov_first inv ex_heap ex3_om ex3_d absolute OLS ex3_ob [5] = Ok None).
  { unfold cov_first. cbn [obj_hessian]. change (named_values ex3_om [5]) with [("a", 5)]. unfold ls_hess, ls_hess_approx, ls_hess_with in *.
    apply bind_Ok in HK as (fs & Hfs & HK). apply bind_Ok in HK as (js & Hjs & _). rewrite Hfs. cbn [bind]. rewrite Hjs. reflexivity. }
  rewrite H1. cbn [bind cov_second]. change (named_values ex3_om [5]) with [("a", 5)]. change (obj_init false ex3_om (ob_data ex3_ob)) with (Ok ex3_ob). cbn [bind]. rewrite HK. cbn [bind].
  unfold cov_of. destruct (atleast_2d_squeeze K 1 Hsq) as [Hq1 Hq2].
  destruct (Hinv 1%nat _ Hq1) as [(b & -> & _)|(-> & Hno)].
  - reflexivity || (destruct (ls_call true ex_heap ex3_om ex3_ob [] [("a", 5)]) eqn:E; [reflexivity|vm_compute in E; discriminate]).
  - exfalso. apply (Hno {| shp := [1; 1]%nat; val := fun _ => / 12 |}). split; [reflexivity|]. unfold mat in Hk.
    split; intros k l Hk0 Hl0; assert (k = 0%nat) by lia; assert (l = 0%nat) by lia; subst; cbn; unfold mat; rewrite Hq2 by lia; rewrite Hk; unfold delta; cbn; lra.
Qed.
Lemma bare_independent toward0 (inv : nd -> res nd) : inverts inv ->
  exists f, fit_init toward0 ex_heap ex3_fm [] ODefault MDefault None [DNum 2; DArr ex_y] [] = Ok f /\
  fit_execute inv ex_heap ex3_om f [5] = Raise AttributeError.
Proof.
  intros Hinv. assert (Hf : exists f, fit_init toward0 ex_heap ex3_fm [] ODefault MDefault None [DNum 2; DArr ex_y] [] = Ok f /\
    ft_data f = ex3_d /\ ft_obj f = ex3_ob /\ ft_class f = OLS) by (eexists; split; [reflexivity|split; [reflexivity|split; reflexivity]]).
  destruct Hf as (f & Hf & H1 & H2 & H3). exists f. split; [exact Hf|]. unfold fit_execute.
  change (pack_output ex_heap (om_params ex3_om) [5]) with (Ok [5]). cbn [bind]. rewrite H1, H2, H3, (ex3_covariance inv _ Hinv). reflexivity.
Qed.
(** a 0-dimensional numpy sigma *)
Lemma zero_dim_sigma toward0 : fit_init toward0 ex_heap ex_fm [] ODefault MDefault None [DArr ex_x; DArr ex_y; DArr (scalar 1)] [] = Raise ValueError.
Proof. reflexivity. Qed.

(** ** LogLikelihood with y = a*x + b, MinimizeModel with y = a^2 *)
Lemma exl_fit toward0 : exists f,
  fit_init toward0 ex_heap ex_fm [] (OClass OLL) MDefault None [DArr ex_x] [] = Ok f /\ ft_class f = OLL /\
  (forall v, In v (om_indep ex_om) -> data_for ex_om [] [DArr ex_x] [] v <> DataNone) /\
  let data := objective_data (ft_data f) in
  let kw := named_values ex_om [2; 1] in
  value_at ex_heap ex_om data [] kw (ex_out 2 1) /\ plain_jacobian ex_heap ex_om data [] kw (ex_out 2 1) ex_jac /\ plain_hessian ex_heap ex_om data [] kw (ex_out 2 1) ex_hess.
Proof.
  eexists. split; [reflexivity|]. split; [reflexivity|]. split; [intros v [<-|[]]; discriminate|]. cbv zeta.
  match goal with |- value_at _ _ ?d _ _ _ /\ _ => set (data := d) end.
  assert (Ha : arguments_are (ex_args 2 1) (seen ex_heap ex_om data [] (named_values ex_om [2; 1]))).
  { split; [apply nodupb_iff; vm_compute; reflexivity|]. intros n. unfold seen, ex_args, eqb. change (named_values ex_om [2; 1]) with [("a", 2); ("b", 1)]. simpl.
    destruct (eq_dec n "x") as [->|H1]; [reflexivity|]. destruct (eq_dec "x" n) as [<-|_]; [congruence|]. rewrite !Bool.andb_false_r.
    destruct (eq_dec n "a"); [reflexivity|]. destruct (eq_dec n "b"); reflexivity. }
  split; [exists (ex_args 2 1); split; [exact Ha|split; reflexivity]|].
  split; (split; [eexists; split; [reflexivity|]; exists (ex_args 2 1); split; [exact Ha|split; reflexivity]|intros v [<-|[]]; reflexivity]).
Qed.
Definition exm_call (f : nd -> nd) (d : dict string nd) : res (dict sym nd) := match dget d "a" with Some a => Ok [(SVar "y", f a)] | None => Raise KeyError end.
Definition exm_om : omodel :=
  {| om_params := [SPar "a"]; om_indep := []; om_dep := [SVar "y"]; om_names := ["a"];
     om_call := exm_call (fun a => {| shp := [1%nat]; val := fun _ => val a [] ^ 2 |});
     om_jac := Some (exm_call (fun a => {| shp := [1; 1]%nat; val := fun _ => 2 * val a [] |}));
     om_hess := Some (exm_call (fun a => {| shp := [1; 1; 1]%nat; val := fun _ => 2 |})) |}.
Definition exm_fm : fmodel := {| fm_om := exm_om; fm_len := 1%nat |}.
Definition exm_out : dict sym nd := [(SVar "y", {| shp := [1%nat]; val := fun _ => 0 ^ 2 |})].
Definition exm_hess : dict sym nd := [(SVar "y", {| shp := [1; 1; 1]%nat; val := fun _ => 2 |})].
Lemma exm_fit toward0 : exists f,
  fit_init toward0 ex_heap exm_fm [] (OClass OMM) MDefault None [] [] = Ok f /\ ft_class f = OMM /\ good_names exm_om [] /\ callable exm_om /\
  let data := objective_data (ft_data f) in
  let kw := named_values exm_om [0] in
  value_at ex_heap exm_om data [] kw exm_out /\ plain_hessian ex_heap exm_om data [] kw exm_out exm_hess /\
  matrix_in 1 (entry exm_hess (SVar "y")) {| shp := [1; 1]%nat; val := fun _ => 2 |}.
Proof.
  eexists. split; [reflexivity|]. split; [reflexivity|]. split.
  { split; [apply nodupb_iff; vm_compute; reflexivity|]. split; [intros c []|]. apply nodupb_iff; vm_compute; reflexivity. }
  split.
  { split; [split; [reflexivity|split; apply nodupb_iff; vm_compute; reflexivity]|].
    intros d1 d2 _ _ H. split; [cbn; unfold exm_call; rewrite !H; reflexivity|]. split; intros f Hf; cbn in Hf; inv Hf; unfold exm_call; rewrite !H; reflexivity. }
  cbv zeta. match goal with |- value_at _ _ ?d _ _ _ /\ _ => set (data := d) end.
  assert (Ha : arguments_are [("a", scalar 0)] (seen ex_heap exm_om data [] (named_values exm_om [0]))).
  { split; [apply nodupb_iff; vm_compute; reflexivity|]. intros n. unfold seen, eqb. change (named_values exm_om [0]) with [("a", 0)]. simpl.
    destruct (eq_dec n "a") as [->|Hn]; [reflexivity|]. try (destruct (eq_dec "a" n); [congruence|]). reflexivity. }
  split; [eexists; split; [exact Ha|split; reflexivity]|].
  split; [split; [eexists; split; [reflexivity|]; eexists; split; [exact Ha|split; reflexivity]|intros v [<-|[]]; reflexivity]|].
  split; [reflexivity|]. exists 1%nat. split; reflexivity.
Qed.
