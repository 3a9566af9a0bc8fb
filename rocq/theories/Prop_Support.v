(** * Prop_Support: properties C58-C61 and C66. *)
From Coq Require Import Reals Lra.
From Coquelicot Require Import Coquelicot.
From Verif Require Import PyBase PyFacts Signature SignatureFacts Expr Model ModelSpec ModelFacts CallFacts ExprCall ExprCallFacts
  DerNames Printing PrintingFacts Distributions DistSpec DistFacts Prop_Model.
Local Open Scope string_scope.
Local Open Scope list_scope.

(** ** C58.  Derivatives of first and second order (all that a Jacobian or Hessian model has)
    by parameters without 'd' in their name, of variables without "_d" in their name, are
    the same when their names are. *)
Theorem C58_derivative_names_unambiguous :
  forall y1 y2 ps1 ps2, var_name_ok y1 -> var_name_ok y2 -> order_12 ps1 -> order_12 ps2 ->
    (forall p, In p ps1 \/ In p ps2 -> has_d p = false) ->
    sname (SDer y1 ps1) = sname (SDer y2 ps2) -> SDer y1 ps1 = SDer y2 ps2.
Proof. exact derivative_names. Qed.
Print Assumptions C58_derivative_names_unambiguous.

(** For first derivatives the names of the parameters do not matter. *)
Theorem C58_first_derivative_names_unambiguous :
  forall y1 y2 a1 a2, has_ud y1 = false -> has_ud y2 = false ->
    sname (SDer y1 [a1]) = sname (SDer y2 [a2]) -> y1 = y2 /\ a1 = a2.
Proof. exact first_order_names. Qed.
Print Assumptions C58_first_derivative_names_unambiguous.

(** No derivative has the name of a Variable or Parameter without an underscore. *)
Theorem C58_derivative_is_not_an_argument_name :
  forall y ps n, has_us n = false -> sname (SDer y ps) <> n.
Proof. exact derivative_not_plain. Qed.
Print Assumptions C58_derivative_is_not_an_argument_name.

(** Without the restriction on variables: D(y_da, b) and D(y, a_db). *)
Theorem C58_first_order_collision_refuted :
  sname (SDer "y_da" ["b"]) = sname (SDer "y" ["a_db"]) /\ SDer "y_da" ["b"] <> SDer "y" ["a_db"].
Proof. split; [reflexivity|discriminate]. Qed.
Print Assumptions C58_first_order_collision_refuted.

(** Without the restriction on parameters: D(y, adb, adb) and D(y, a, b2). *)
Theorem C58_second_order_collision_refuted :
  sname (SDer "y" ["adb"; "adb"]) = sname (SDer "y" ["a"; "b2"]) /\ SDer "y" ["adb"; "adb"] <> SDer "y" ["a"; "b2"].
Proof. split; [reflexivity|discriminate]. Qed.
Print Assumptions C58_second_order_collision_refuted.

Example C58_nontrivial : var_name_ok "y_1" /\ var_name_ok "data" /\ order_12 ["a"; "b"] /\ has_d "sig" = false /\
  sname (SDer "y_1" ["a"; "b"]) = "d2y_1_dadb" /\ sname (SDer "y_1" ["a"; "a"]) = "d2y_1_da2".
Proof. repeat split; right; reflexivity. Qed.

(** ** C59.  Calling an expression: the arguments are its Variables and then its Parameters,
    each in alphabetical order; given by position and then by name they are substituted, and
    keywords that are not arguments of the expression are ignored. *)
Theorem C59_expression_call :
  forall V (A : alg V) ord e vars params inp args kw, set_order ord -> arguments_of e vars params ->
    NoDup (map sname (vars ++ params)) ->
    supplies (named inp (vars ++ params)) args (filter (fun nv => inb (fst nv) (map sname (vars ++ params))) kw) ->
    expr_call A ord e args kw = Ok (eval A inp e).
Proof. intros V A. exact (expr_call_value A). Qed.
Print Assumptions C59_expression_call.

(** A call whose arguments do not supply each of them once is a TypeError. *)
Theorem C59_wrong_arguments_rejected :
  forall V (A : alg V) ord e vars params args kw, set_order ord -> arguments_of e vars params ->
    NoDup (map sname (vars ++ params)) -> NoDup (dkeys kw) ->
    (forall b, dkeys b = map sname (vars ++ params) -> ~ supplies b args (filter (fun nv => inb (fst nv) (map sname (vars ++ params))) kw)) ->
    expr_call A ord e args kw = Raise TypeError.
Proof. intros V A. exact (expr_call_rejects A). Qed.
Print Assumptions C59_wrong_arguments_rejected.

(** The arguments are described completely: there is exactly one such pair of lists. *)
Theorem C59_arguments_determined :
  forall e v1 p1 v2 p2, arguments_of e v1 p1 -> arguments_of e v2 p2 -> NoDup (map sname (v1 ++ p1)) -> v1 = v2 /\ p1 = p2.
Proof. exact arguments_unique. Qed.
Print Assumptions C59_arguments_determined.

(** A Variable and a Parameter of the same name: no call works. *)
Theorem C59_same_names :
  forall V (A : alg V) ord e vars params args kw, set_order ord -> arguments_of e vars params ->
    ~ NoDup (map sname (vars ++ params)) -> expr_call A ord e args kw = Raise SyntaxError.
Proof. intros V A. exact (expr_call_same_names A). Qed.
Print Assumptions C59_same_names.

(** (a * x + b)(3, a=2, b=1, y=100) with an unused keyword. *)
Example C59_nontrivial :
  let e := EAdd (EMul (ESym (SPar "a")) (ESym (SVar "x"))) (ESym (SPar "b")) in
  let inp := fun s => if eq_dec s (SVar "x") then 3%Z else if eq_dec s (SPar "a") then 2%Z else 1%Z in
  arguments_of e [SVar "x"] [SPar "a"; SPar "b"] /\
  NoDup (map sname ([SVar "x"] ++ [SPar "a"; SPar "b"])) /\
  supplies (named inp ([SVar "x"] ++ [SPar "a"; SPar "b"])) [3%Z]
    (filter (fun nv => inb (fst nv) (map sname ([SVar "x"] ++ [SPar "a"; SPar "b"]))) [("b", 1%Z); ("y", 100%Z); ("a", 2%Z)]) /\
  expr_call Zalg oid e [3%Z] [("b", 1%Z); ("y", 100%Z); ("a", 2%Z)] = Ok 7%Z.
Proof.
  cbv zeta. set (e := EAdd _ _). set (inp := fun s => _).
  assert (Ha : arguments_of e [SVar "x"] [SPar "a"; SPar "b"]) by (exact (seperate_spec oid e oid_ok)).
  assert (Hn : NoDup (map sname ([SVar "x"] ++ [SPar "a"; SPar "b"]))) by (apply nodupb_iff; vm_compute; reflexivity).
  assert (Hs : supplies (named inp ([SVar "x"] ++ [SPar "a"; SPar "b"])) [3%Z]
    (filter (fun nv => inb (fst nv) (map sname ([SVar "x"] ++ [SPar "a"; SPar "b"]))) [("b", 1%Z); ("y", 100%Z); ("a", 2%Z)])).
  { exists 1%nat. split; [reflexivity|]. vm_compute. apply perm_swap. }
  split; [exact Ha|]. split; [exact Hn|]. split; [exact Hs|]. vm_compute. reflexivity.
Qed.

(** ** C66.  The function sympy_to_py returns has the names of the symbols as its
    parameters and can be called with them, also when lambdify renamed some ([dn]). *)
Theorem C66_functions_keep_symbol_names :
  forall V (A : alg V) e args dn inp pos kw, List.length dn = List.length args -> NoDup dn -> NoDup (map sname args) ->
    (forall s, In s (occs e) -> In s args) ->
    f_names (sympy_to_pyfun A e args dn) = map sname args /\
    (supplies (named inp args) pos kw -> f_call (sympy_to_pyfun A e args dn) pos kw = Ok (eval A inp e)).
Proof. intros V A. exact (pyfun_ok A). Qed.
Print Assumptions C66_functions_keep_symbol_names.

(** Two symbols, the first renamed; called by keyword. *)
Example C66_nontrivial :
  let e := EAdd (EMul (ESym (SPar "a")) (ESym (SVar "x"))) (ESym (SPar "a")) in
  let f := sympy_to_pyfun Zalg e [SVar "x"; SPar "a"] ["_Dummy_23"; "a"] in
  f_names f = ["x"; "a"] /\ f_call f [] [("a", 5%Z); ("x", 2%Z)] = Ok 15%Z /\ f_call f [2%Z] [("a", 5%Z)] = Ok 15%Z /\
  lambdified Zalg e [SVar "x"; SPar "a"] ["_Dummy_23"; "a"] [] [("a", 5%Z); ("x", 2%Z)] = Raise TypeError.
Proof. cbv zeta. repeat split; vm_compute; reflexivity. Qed.

(** ** C60.  The code printed for an expression whose element-wise products have two
    arguments that are not sums, and whose element-wise powers have a base and an exponent
    that need no parentheses, evaluates to the expression; for all operations that satisfy
    the associative laws of + and element-wise *. *)
Theorem C60_printed_code_evaluates_to_expression :
  forall V (add mul pow dot : V -> V -> V) (inv : V -> V) (env : string -> V),
    (forall a b c, add (add a b) c = add a (add b c)) -> (forall a b c, mul (mul a b) c = mul a (mul b c)) ->
    forall e, printable e ->
      value add mul pow dot inv env (print e) = Some (denote add mul pow dot inv env e).
Proof. intros V add mul pow dot inv env Ha Hm e He. apply (print_correct add mul pow dot inv env Ha Hm e He). Qed.
Print Assumptions C60_printed_code_evaluates_to_expression.

(** HadamardPower(a + b, c) is printed a + b ** c. *)
Theorem C60_power_of_sum_refuted :
  exists env, value Z.add Z.mul Z.pow Z.mul Z.opp env (print (MHPow (MAdd (MSym "a") (MSym "b")) (MSym "c")))
           <> Some (denote Z.add Z.mul Z.pow Z.mul Z.opp env (MHPow (MAdd (MSym "a") (MSym "b")) (MSym "c"))).
Proof. exists (fun n => if eq_dec n "c" then 2%Z else 1%Z). vm_compute. discriminate. Qed.
Print Assumptions C60_power_of_sum_refuted.

(** HadamardProduct(a + b, c) is printed a + b * c. *)
Theorem C60_product_of_sum_refuted :
  exists env, value Z.add Z.mul Z.pow Z.mul Z.opp env (print (MHad (MAdd (MSym "a") (MSym "b")) (MSym "c") []))
           <> Some (denote Z.add Z.mul Z.pow Z.mul Z.opp env (MHad (MAdd (MSym "a") (MSym "b")) (MSym "c") [])).
Proof. exists (fun n => if eq_dec n "c" then 2%Z else 1%Z). vm_compute. discriminate. Qed.
Print Assumptions C60_product_of_sum_refuted.

(** The third factor of HadamardProduct(a, b, c) is dropped. *)
Theorem C60_third_factor_refuted :
  exists env, value Z.add Z.mul Z.pow Z.mul Z.opp env (print (MHad (MSym "a") (MSym "b") [MSym "c"]))
           <> Some (denote Z.add Z.mul Z.pow Z.mul Z.opp env (MHad (MSym "a") (MSym "b") [MSym "c"])).
Proof. exists (fun n => 2%Z). vm_compute. discriminate. Qed.
Print Assumptions C60_third_factor_refuted.

(** HadamardPower(HadamardPower(a, b), c) is printed a ** b ** c, which is a ** (b ** c). *)
Theorem C60_power_of_power_refuted :
  exists env, value Z.add Z.mul Z.pow Z.mul Z.opp env (print (MHPow (MHPow (MSym "a") (MSym "b")) (MSym "c")))
           <> Some (denote Z.add Z.mul Z.pow Z.mul Z.opp env (MHPow (MHPow (MSym "a") (MSym "b")) (MSym "c"))).
Proof. exists (fun n => if eq_dec n "c" then 3%Z else 2%Z). vm_compute. discriminate. Qed.
Print Assumptions C60_power_of_power_refuted.

Example C60_nontrivial :
  let e := MAdd (MHad (MInv (MAdd (MSym "a") (MSym "b"))) (MHPow (MDot (MSym "a") (MSym "c")) (MSym "b")) []) (MSym "a") in
  printable e /\ value Z.add Z.mul Z.pow Z.mul Z.opp (fun n => if eq_dec n "a" then 2%Z else 3%Z) (print e) = Some (-1078)%Z.
Proof.
  cbv zeta. split; [|vm_compute; reflexivity].
  repeat constructor; try (intros H; inversion H).
Qed.

Local Open Scope R_scope.
(** ** C61.  Gaussian and BivariateGaussian integrate to one, Exp does from 0 on; they are
    positive; the Gaussian is symmetric around mu and falls off away from it; the marginals
    of the BivariateGaussian are the Gaussians. *)
Theorem C61_gaussian_normalised : forall mu sig, sig <> 0 -> integrates_to (fun x => Gaussian x mu sig) 1.
Proof. exact Gaussian_normalised. Qed.
Print Assumptions C61_gaussian_normalised.

Theorem C61_gaussian_shape : forall mu sig, sig <> 0 ->
  (forall x, 0 < Gaussian x mu sig) /\ (forall d, Gaussian (mu + d) mu sig = Gaussian (mu - d) mu sig) /\
  (forall x y, Rabs (x - mu) < Rabs (y - mu) -> Gaussian y mu sig < Gaussian x mu sig).
Proof.
  intros mu sig H. split; [intros x; apply Gaussian_positive; exact H|]. split; [intros d; apply Gaussian_symmetric|].
  intros x y. apply Gaussian_decreasing. exact H.
Qed.
Print Assumptions C61_gaussian_shape.

Theorem C61_bivariate_marginals : forall mx my sx sy rho, 0 < sx -> 0 < sy -> Rabs rho < 1 ->
  (forall y, integrates_to (fun x => BivariateGaussian x y mx my sx sy rho) (Gaussian y my sy)) /\
  (forall x, integrates_to (fun y => BivariateGaussian x y mx my sx sy rho) (Gaussian x mx sx)) /\
  (forall x y, 0 < BivariateGaussian x y mx my sx sy rho).
Proof.
  intros mx my sx sy rho H1 H2 H3. split; [intros y; apply Bivariate_marginal_x; assumption|].
  split; [intros x; apply Bivariate_marginal_y; assumption|]. intros x y. apply Bivariate_positive; assumption.
Qed.
Print Assumptions C61_bivariate_marginals.

Theorem C61_bivariate_independent : forall x y mx my sx sy, 0 < sx -> 0 < sy ->
  BivariateGaussian x y mx my sx sy 0 = Gaussian x mx sx * Gaussian y my sy.
Proof. exact Bivariate_independent. Qed.
Print Assumptions C61_bivariate_independent.

Theorem C61_exp_normalised : forall l, 0 < l ->
  integrates_from (fun x => Exp x l) 0 1 /\ (forall x, 0 <= Exp x l).
Proof. intros l H. split; [apply Exp_normalised; exact H|]. intros x. apply Exp_nonneg. lra. Qed.
Print Assumptions C61_exp_normalised.

(** Exp is not cut off: it is positive for negative x, where the density of the exponential
    distribution is zero. *)
Theorem C61_exp_support_refuted : exists x l, 0 < l /\ x < 0 /\ 0 < Exp x l.
Proof. exists (-1), 1. split; [lra|]. split; [lra|]. unfold Exp. rewrite Rmult_1_l. apply exp_pos. Qed.
Print Assumptions C61_exp_support_refuted.

Example C61_nontrivial : (2 <> 0)%R /\ Rabs (/ 2) < 1 /\ 0 < 3.
Proof. split; [lra|]. split; [rewrite Rabs_right; lra|lra]. Qed.
