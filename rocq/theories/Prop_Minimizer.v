(** * Prop_Minimizer: properties C32 - C39 and C45. *)
From Coq Require Import Reals Lra.
From Verif Require Import PyBase PyFacts Signature SignatureFacts Expr NumPy Model ModelSpec Objective ObjSpec ObjExample Minimizer MinSpec MinFacts MinLemmas.
Local Open Scope R_scope.
Local Open Scope string_scope.
Local Open Scope list_scope.

(** ** C32.  [execute_problem h m uj uh]: the call scipy receives when [m] is executed,
    with user-given derivative options [uj] and [uh] (DNone: not given). *)
Theorem C32_guesses_and_bounds : forall h cls ps jac hess cons m uj uh,
  minimizer_init h cls ps jac hess cons = Ok m ->
  let pb := execute_problem h m uj uh in
  pb_x0 pb = (match cls with DifferentialEvolution => None | _ => Some (map (fun p => p_value (h p)) (free_of_list h ps)) end) /\
  pb_lower pb = (if uses_bounds cls then Some (map (fun p => p_min (h p)) (free_of_list h ps)) else None) /\
  pb_upper pb = (if uses_bounds cls then Some (map (fun p => p_max (h p)) (free_of_list h ps)) else None).
Proof. intros h cls. rewrite <- (bounded_uses cls). exact (problem_vectors h cls). Qed.
Print Assumptions C32_guesses_and_bounds.

Theorem C32_jacobian : forall h cls ps j hess cons m,
  minimizer_init h cls ps (Some j) hess cons = Ok m -> uses_jacobian cls = true -> cls <> MINPACK -> NoDup ps ->
  exists w, pb_jac (execute_problem h m DNone DNone) = DFun w /\
    forall x a, j x = Ok a -> gradient_shaped (List.length ps) a ->
      exists g, w x = Ok g /\ shp g = [nfree h ps] /\ forall p i k, free_at h ps p i k -> val g [i] = gradient_entry a k.
Proof. intros h cls. rewrite <- (gradient_uses cls). exact (jac_reaches h cls). Qed.
Print Assumptions C32_jacobian.

(** MINPACK: the Jacobian has one row per data point and one column per free parameter
    (shapes and indices are last axis first). *)
Theorem C32_minpack_jacobian : forall h ps j hess cons m,
  minimizer_init h MINPACK ps (Some j) hess cons = Ok m -> NoDup ps ->
  exists w, pb_jac (execute_problem h m DNone DNone) = DFun w /\
    forall x a M, j x = Ok a -> shp a = [List.length ps; M] ->
      exists g, w x = Ok g /\ shp g = [nfree h ps; M] /\ forall p i k d, free_at h ps p i k -> val g [i; d] = val a [k; d].
Proof. exact minpack_jac_reaches. Qed.
Print Assumptions C32_minpack_jacobian.

Definition ex3 : list sym := [SPar "a"; SPar "b"; SPar "c"].
Definition ex3_heap : heap := fun p =>
  if eqb p (SPar "b") then {| p_value := 5; p_min := Some 0; p_max := None; p_fixed := true |}
  else if eqb p (SPar "a") then {| p_value := 1; p_min := Some 0; p_max := Some 4; p_fixed := false |}
  else {| p_value := 3; p_min := None; p_max := Some 9; p_fixed := false |}.
Definition ex3_jac : fn := fun x => Ok {| shp := [3%nat]; val := fun i => INR (hd 0%nat i) + 10 |}.
Example C32_example : exists m, minimizer_init ex3_heap LBFGSB ex3 (Some ex3_jac) None [] = Ok m /\ NoDup ex3 /\
  pb_x0 (execute_problem ex3_heap m DNone DNone) = Some [1; 3] /\ pb_lower (execute_problem ex3_heap m DNone DNone) = Some [Some 0; None] /\
  nfree ex3_heap ex3 = 2%nat /\ free_at ex3_heap ex3 (SPar "c") 1 2 /\
  (exists a, ex3_jac [1; 3] = Ok a /\ gradient_shaped (List.length ex3) a /\ gradient_entry a 2 = 12).
Proof.
  eexists. split; [reflexivity|]. split; [apply nodupb_iff; reflexivity|]. split; [reflexivity|]. split; [reflexivity|]. split; [reflexivity|]. split; [split; reflexivity|].
  eexists. split; [reflexivity|]. split; [exists 0%nat; reflexivity|]. unfold gradient_entry. simpl. lra.
Qed.

(** ** C33 *)
Theorem C33_pack_output : forall h ps x, List.length x = nfree h ps -> NoDup ps ->
  exists popt, pack_output h ps x = Ok popt /\ List.length popt = List.length ps /\
    (forall k p, nth_error ps k = Some p -> p_fixed (h p) = true -> nth_error popt k = Some (p_value (h p))) /\
    (forall p i k, free_at h ps p i k -> nth_error popt k = nth_error x i).
Proof.
  intros h ps x Hx Hn. destruct (pack_ok h ps x Hx) as (popt & H1 & H2 & H3 & H4). exists popt.
  split; [exact H1|]. split; [exact H2|]. split; [exact H3|]. intros p i k. exact (H4 p i k Hn).
Qed.
Print Assumptions C33_pack_output.
(** by name, as in [fit_result.params] *)
Theorem C33_params_by_name : forall ps popt k p v, NoDup (map sname ps) -> nth_error ps k = Some p -> nth_error popt k = Some v ->
  dget (result_params ps popt) (sname p) = Some v.
Proof. exact result_lookup. Qed.
Print Assumptions C33_params_by_name.
(** an answer with too few entries is never reported *)
Theorem C33_short_answer : forall h ps x, (List.length x < nfree h ps)%nat -> pack_output h ps x = Raise StopIteration.
Proof. exact pack_short. Qed.
Print Assumptions C33_short_answer.

Example C33_example : pack_output ex3_heap ex3 [7; 8] = Ok [7; 5; 8] /\ dget (result_params ex3 [7; 5; 8]) "c" = Some 8 /\
  List.length [7; 8] = nfree ex3_heap ex3 /\ pack_output ex3_heap ex3 [7] = Raise StopIteration.
Proof. split; [reflexivity|]. split; reflexivity || (split; reflexivity). Qed.

(** ** C34: true with one free parameter only. *)
Theorem C34_one_free_parameter : forall h ps f x a,
  f x = Ok a -> hessian_shaped (List.length ps) a -> NoDup ps -> nfree h ps = 1%nat ->
  exists g, resize_hess (filter (fun p => p_fixed (h p)) ps) ps f x = Ok g /\ shp g = [1%nat; 1%nat] /\
    forall p k, free_at h ps p 0 k -> val g [0%nat; 0%nat] = hessian_entry a k k.
Proof.
  intros h ps f x a Ha Hs Hn H1. destruct (resize_hess_diag h ps f x a Ha Hs Hn) as (g & Hg & Hsh & Hv). exists g.
  split; [exact Hg|]. split; [rewrite Hsh, H1; reflexivity|]. intros p k Hp. exact (Hv p 0%nat k Hp).
Qed.
Print Assumptions C34_one_free_parameter.
(** With two or more, scipy gets the diagonal as a single row, for every Hessian. *)
Theorem C34_square_matrix_refuted : forall h ps f x a,
  f x = Ok a -> hessian_shaped (List.length ps) a -> NoDup ps -> (2 <= nfree h ps)%nat ->
  exists g, resize_hess (filter (fun p => p_fixed (h p)) ps) ps f x = Ok g /\
    shp g <> [nfree h ps; nfree h ps] /\ shp g = [nfree h ps; 1%nat] /\
    forall p i k, free_at h ps p i k -> val g [i; 0%nat] = hessian_entry a k k.
Proof.
  intros h ps f x a Ha Hs Hn H2. destruct (resize_hess_diag h ps f x a Ha Hs Hn) as (g & Hg & Hsh & Hv). exists g.
  split; [exact Hg|]. split; [rewrite Hsh; intros E; injection E as E; lia|]. split; [exact Hsh|exact Hv].
Qed.
Print Assumptions C34_square_matrix_refuted.
Definition ex3_hess : fn := fun x => Ok {| shp := [3%nat; 3%nat]; val := fun i => match i with [c; r] => INR r * 10 + INR c | _ => 0 end |}.
Example C34_example : (exists a, ex3_hess [1; 3] = Ok a /\ hessian_shaped (List.length ex3) a) /\ NoDup ex3 /\ nfree ex3_heap ex3 = 2%nat.
Proof. split; [eexists; split; [reflexivity|exists 0%nat; reflexivity]|]. split; [apply nodupb_iff; reflexivity|reflexivity]. Qed.

(** ** C35.  [classes]: the class names of the chained minimizers. *)
Theorem C35_option_names : forall classes i n, nth_error classes i = Some n ->
  List.length (chain_names classes) = List.length classes /\
  nth_error (chain_names classes) i =
    Some (if Nat.eqb (occurrence classes i) 1 then n else (n ++ "_" ++ string_of_nat (occurrence classes i))%string).
Proof. intros classes i n H. split; [apply chain_names_length|]. exact (chain_names_nth classes i n H). Qed.
Print Assumptions C35_option_names.
Theorem C35_option_names_distinct : forall classes, no_indexed_names classes -> NoDup (chain_names classes).
Proof. exact chain_names_nodup. Qed.
Print Assumptions C35_option_names_distinct.
(** names that coincide are refused when the chain is created *)
Theorem C35_equal_names_rejected : forall classes, ~ NoDup (chain_names classes) -> chain_signature classes = Raise ValueError.
Proof. intros classes. exact (proj2 (chain_signature_spec classes)). Qed.
Print Assumptions C35_equal_names_rejected.
Theorem C35_unknown_option_rejected : forall O (no_options : O) classes s (kw : dict string O) n,
  chain_signature classes = Ok s -> In n (dkeys kw) -> ~ In n (chain_names classes) -> chain_options no_options s kw = Raise TypeError.
Proof. intros O. exact chain_options_unknown. Qed.
Print Assumptions C35_unknown_option_rejected.
(** Every minimizer is run once, in order, with its own options; the answer is the last
    one and the iterations add up. *)
Theorem C35_options_reach_their_minimizer : forall O (no_options : O) h ps classes (ms : list (O -> list R -> res answer)) guess (kw : dict string O),
  no_indexed_names classes -> List.length ms = List.length classes -> (forall n, In n (dkeys kw) -> In n (chain_names classes)) ->
  exists s, chain_signature classes = Ok s /\
    forall runs final nit, chain_execute no_options h ps s ms guess kw = Ok (runs, final, nit) ->
      List.length runs = List.length ms /\
      (forall i n ex, nth_error classes i = Some n -> nth_error ms i = Some ex ->
         exists g a, nth_error runs i = Some (g, a) /\
           ex (match dget kw (if Nat.eqb (occurrence classes i) 1 then n else (n ++ "_" ++ string_of_nat (occurrence classes i))%string) with
               | Some o => o | None => no_options end) g = Ok a) /\
      (exists g, nth_error runs (List.length runs - 1) = Some (g, final)) /\
      exists ks, map (fun r => an_nit (snd r)) runs = map Some ks /\ nit = list_sum ks.
Proof. intros O. exact chain_runs. Qed.
Print Assumptions C35_options_reach_their_minimizer.

Definition ex_classes : list string := ["BFGS"; "DifferentialEvolution"; "BFGS"; "BFGS"].
Lemma ex_no_indexed : no_indexed_names ex_classes.
Proof.
  intros n m k Hn Hm Hk He. simpl in Hn, Hm.
  repeat (destruct Hn as [<-|Hn]; [repeat (destruct Hm as [<-|Hm]; [simpl in He; discriminate|]); contradiction|]). contradiction.
Qed.
Example C35_example : chain_names ex_classes = ["BFGS"; "DifferentialEvolution"; "BFGS_2"; "BFGS_3"] /\ no_indexed_names ex_classes /\
  (exists s, chain_signature ex_classes = Ok s) /\ chain_signature ["BFGS_2"; "BFGS"; "BFGS"] = Raise ValueError.
Proof. split; [reflexivity|]. split; [exact ex_no_indexed|]. split; [eexists; reflexivity|reflexivity]. Qed.

(** ** C36.  The next minimizer starts from the reported values of all parameters: entry [k] belongs to parameter
    number [k], fixed or not. *)
Theorem C36_restart : forall O h ps (todo : list ((O -> list R -> res answer) * O)) guess l,
  NoDup (map sname ps) -> chain_loop h ps todo guess = Ok l ->
  (forall g a, In (g, a) l -> List.length (an_x a) = nfree h ps) ->
  (forall g a, nth_error l 0 = Some (g, a) -> g = guess) /\
  forall n g a g' a', nth_error l n = Some (g, a) -> nth_error l (S n) = Some (g', a') ->
    List.length g' = List.length ps /\
    (forall k p, nth_error ps k = Some p -> p_fixed (h p) = true -> nth_error g' k = Some (p_value (h p))) /\
    (forall p i k, free_at h ps p i k -> nth_error g' k = nth_error (an_x a) i).
Proof. intros O. exact chain_restart. Qed.
Print Assumptions C36_restart.

(** Without fixed parameters that is where the previous one stopped. *)
Theorem C36_chain_handover : forall O h ps (todo : list ((O -> list R -> res answer) * O)) guess l,
  (forall p, In p ps -> p_fixed (h p) = false) -> NoDup (map sname ps) -> chain_loop h ps todo guess = Ok l ->
  (forall g a, In (g, a) l -> List.length (an_x a) = List.length ps) ->
  (forall g a, nth_error l 0 = Some (g, a) -> g = guess) /\
  forall k g a g' a', nth_error l k = Some (g, a) -> nth_error l (S k) = Some (g', a') -> g' = an_x a.
Proof. intros O. exact chain_handover. Qed.
Print Assumptions C36_chain_handover.
(** With a fixed parameter the next guess has its value too: here one free parameter
    is left, found at 5, and the next minimizer starts from [7; 5]. *)
Theorem C36_fixed_parameter_refuted : exists h ps (todo : list ((unit -> list R -> res answer) * unit)) l,
  nfree h ps = 1%nat /\ chain_loop h ps todo [2] = Ok l /\
  exists g1 a1 g2 a2, nth_error l 0 = Some (g1, a1) /\ nth_error l 1 = Some (g2, a2) /\
    an_x a1 = [5] /\ g2 = [7; 5] /\ List.length g2 <> nfree h ps.
Proof. exact chain_fixed_length. Qed.
Print Assumptions C36_fixed_parameter_refuted.
Example C36_example : exists l, chain_loop (O:=unit) (fun _ => ex_free) [SPar "a"; SPar "b"]
    [((fun _ _ => Ok {| an_x := [5; 6]; an_nit := Some 1%nat |}), tt); ((fun _ _ => Ok {| an_x := [3; 4]; an_nit := Some 2%nat |}), tt)] [0; 0] = Ok l /\
  map fst l = [[0; 0]; [5; 6]] /\ forall g a, In (g, a) l -> List.length (an_x a) = 2%nat.
Proof. eexists. split; [reflexivity|]. split; [reflexivity|]. intros g a [H|[H|[]]]; injection H as <- <-; reflexivity. Qed.

(** ** C37.  [cs]: constraints as Fit passes them.  scipy receives one constraint for each, in order,
    with the same function and condition, and the Jacobian without the columns of fixed parameters. *)
Theorem C37_constraints : forall h cls ps jac hess cs m uj uh,
  minimizer_init h cls ps jac hess (map CMinimize cs) = Ok m -> uses_constraints cls = true -> NoDup ps ->
  let l := pb_cons (execute_problem h m uj uh) in
  List.length l = List.length cs /\
  forall i c, nth_error cs i = Some c -> exists s, nth_error l i = Some s /\ (forall v, imposes s v <-> demands (c_rel c) v) /\ handed_fun s = c_fun c /\
    (uses_jacobian cls = true -> forall j, c_jac c = Some j -> exists w, handed_jac s = Some w /\
       forall x a, j x = Ok a -> gradient_shaped (List.length ps) a ->
         exists g, w x = Ok g /\ shp g = [nfree h ps] /\ forall p n k, free_at h ps p n k -> val g [n] = gradient_entry a k) /\
    (c_jac c = None -> handed_jac s = None).
Proof. intros h cls. rewrite <- (constrained_uses cls), <- (gradient_uses cls). exact (constraints_handed h cls). Qed.
Print Assumptions C37_constraints.
(** Equalities and >= are always accepted. *)
Theorem C37_constraints_accepted : forall h cls ps jac hess cs,
  (forall c, In c cs -> c_rel c = REq \/ c_rel c = RGe) -> exists m, minimizer_init h cls ps jac hess (map CMinimize cs) = Ok m.
Proof.
  intros h cls ps jac hess cs Hcs. unfold minimizer_init. destruct (is_constrained cls); [|eexists; reflexivity].
  rewrite (constraints_ok cls _ ps cs Hcs). eexists. reflexivity.
Qed.
Print Assumptions C37_constraints_accepted.
(** Constraint models given to a minimizer directly: with the minimizer's parameters they are treated the
    same, with others, or when they are no constraints at all, they are refused. *)
Theorem C37_direct_constraints : forall h cls ps jac hess qs c, uses_constraints cls = true ->
  (qs = ps -> minimizer_init h cls ps jac hess [CConModel qs c] = minimizer_init h cls ps jac hess [CMinimize c]) /\
  (qs <> ps -> minimizer_init h cls ps jac hess [CConModel qs c] = Raise AssertionError) /\
  minimizer_init h cls ps jac hess [COther] = Raise TypeError.
Proof.
  intros h cls ps jac hess qs c Hu. rewrite <- (constrained_uses cls) in Hu. unfold minimizer_init, scipy_constraints. rewrite Hu. cbn [mapM]. unfold scipy_con_of.
  split; [|split].
  - intros ->. rewrite (proj2 (eqb_true ps ps) eq_refl). reflexivity.
  - intros Hn. destruct (eqb ps qs) eqn:E; [apply (proj1 (eqb_true _ _)) in E; congruence|reflexivity].
  - reflexivity.
Qed.
Print Assumptions C37_direct_constraints.
(** TrustConstr also passes a Hessian.  When there is just one constraint it is its own .. *)
Theorem C37_single_hessian : forall c f x v, sc_hess c = Some f ->
  exists n g, trust_constraints [c] = [n] /\ nc_hess n = Some g /\ g x v = (a <- f x ;; nmul a (scalar v)).
Proof. exact trust_single. Qed.
Print Assumptions C37_single_hessian.
(** .. but in general every constraint gets the Hessian of the last one. *)
Theorem C37_late_binding_refuted : forall cons last i c f x v, nth_error (cons ++ [last]) i = Some c -> sc_hess c = Some f ->
  exists n g, nth_error (trust_constraints (cons ++ [last])) i = Some n /\ nc_hess n = Some g /\ g x v = call_hess (Some last) x v.
Proof. exact trust_last. Qed.
Print Assumptions C37_late_binding_refuted.
(** The Jacobian of a constraint with more than one value, such as one that is imposed at every data point,
    reaches scipy transposed: scipy wants one row per value and one column per free parameter
    ([nfree h ps; M], as in C32_minpack_jacobian), it gets one row per free parameter. *)
Theorem C37_vector_constraint_refuted : forall cls h ps c cs, uses_jacobian cls = true -> NoDup ps -> List.length ps <> 1%nat ->
  (forall c', In c' (c :: cs) -> c_rel c' = REq \/ c_rel c' = RGe) ->
  forall j x a M, c_jac c = Some j -> j x = Ok a -> shp a = [M; List.length ps] -> M <> 1%nat ->
  exists l s w g, scipy_constraints cls (filter (fun p => p_fixed (h p)) ps) ps (map CMinimize (c :: cs)) = Ok l /\ nth_error l 0 = Some s /\ sc_jac s = Some w /\
    w x = Ok g /\ shp g = [M; nfree h ps] /\ forall p i k d, free_at h ps p i k -> val g [d; i] = val a [d; k].
Proof. intros cls h ps c cs. rewrite <- (gradient_uses cls). exact (vector_constraint cls h ps c cs). Qed.
Print Assumptions C37_vector_constraint_refuted.
(** A sympy Le given directly to a minimizer is a KeyError. *)
Theorem C37_less_equal_refuted : forall cls fixed ps c cs, c_rel c = RLe ->
  scipy_constraints cls fixed ps (CRelational RLe (Ok c) :: cs) = Raise KeyError /\ scipy_constraints cls fixed ps (CMinimize c :: cs) = Raise KeyError.
Proof. exact constraint_le. Qed.
Print Assumptions C37_less_equal_refuted.

Definition ex_con (r : rel) (v : R) : con :=
  {| c_rel := r; c_fun := fun _ => Ok (scalar v); c_jac := Some ex3_jac; c_hess := Some (fun _ => Ok {| shp := [3%nat; 3%nat]; val := fun _ => v |}) |}.
Example C37_example : exists l, scipy_constraints TrustConstr [SPar "b"] ex3 (map CMinimize [ex_con REq 1; ex_con RGe 2]) = Ok l /\
  map sc_type l = [CTeq; CTineq] /\ map nc_upper (trust_constraints l) = [Some 0; None] /\
  (exists n g a, nth_error (trust_constraints l) 0 = Some n /\ nc_hess n = Some g /\ g [1; 3] 1 = Ok a /\ val a [0%nat; 0%nat] = 2).
Proof.
  eexists. split; [reflexivity|]. split; [reflexivity|]. split; [reflexivity|]. eexists _, _, _. split; [reflexivity|]. split; [reflexivity|].
  split; [reflexivity|]. cbv -[IZR Rmult]. lra.
Qed.

(** ** C38: [BFGS(f, ps)] with a plain function [f].  [f] is called by name, with all parameters.  Scipy's
    vector [x] is read as the free parameters in alphabetical order when [f] is called, and reported as the free
    parameters in the order given. *)
Theorem C38_any_order : forall h f ps x, NoDup (map sname ps) -> List.length x = nfree h ps ->
  exists ob popt d, mm_init (direct_om f ps) [] = Ok ob /\ pack_output h ps x = Ok popt /\
    mm_call h (direct_om f ps) ob x [] = f d /\ NoDup (dkeys d) /\ (forall n, In n (dkeys d) <-> In n (map sname ps)) /\
    (forall p, In p ps -> p_fixed (h p) = true -> dget d (sname p) = Some (scalar (p_value (h p))) /\ dget (result_params ps popt) (sname p) = Some (p_value (h p))) /\
    (forall p i k, free_at h (sort_by sname ps) p i k -> dget d (sname p) = option_map scalar (nth_error x i)) /\
    (forall p i k, free_at h ps p i k -> dget (result_params ps popt) (sname p) = nth_error x i).
Proof. exact direct_order. Qed.
Print Assumptions C38_any_order.

(** So for an alphabetical list the reported values are those [f] was called with. *)
Theorem C38_alphabetical : forall h f ps x, NoDup (map sname ps) -> alphabetical sname ps -> List.length x = nfree h ps ->
  exists ob popt d, mm_init (direct_om f ps) [] = Ok ob /\ pack_output h ps x = Ok popt /\
    mm_call h (direct_om f ps) ob x [] = f d /\ NoDup (dkeys d) /\
    forall n, dget d n = option_map scalar (dget (result_params ps popt) n).
Proof. exact direct_call. Qed.
Print Assumptions C38_alphabetical.
(** The interface [direct_om] of the wrapped function is that of the numerical model the
    code makes: its parameters are sorted, whatever the order given. *)
Theorem C38_parameters_are_sorted : forall V ord (y : sym) (f : dict string V -> res V) ps, set_order ord -> NoDup (map sname ps) -> ps <> [] -> ~ In y ps ->
  (forall p, In p ps -> is_par p = true) -> is_par y = false ->
  exists m : model (V:=V), init_numerical ord [(y, CFun 0 f)] [(y, ps)] = Ok m /\ m_params m = sort_by sname ps /\ m_indep m = [] /\ m_dep m = [y].
Proof. intros V. exact direct_model. Qed.
Print Assumptions C38_parameters_are_sorted.
(** With the list [b; a] scipy's answer [1; 2] is evaluated as a = 1, b = 2 and
    reported as b = 1, a = 2. *)
Theorem C38_other_order_refuted : exists (f : dict string nd -> res nd) ps x ob popt,
  NoDup (map sname ps) /\ List.length x = nfree (fun _ => ex_free) ps /\
  mm_init (direct_om f ps) [] = Ok ob /\ pack_output (fun _ => ex_free) ps x = Ok popt /\
  (forall a b, f [("a", scalar a); ("b", scalar b)] = Ok (scalar a)) /\
  (exists v, mm_call (fun _ => ex_free) (direct_om f ps) ob x [] = Ok v /\ val v [] = 1) /\
  dget (result_params ps popt) "b" = Some 1 /\ dget (result_params ps popt) "a" = Some 2.
Proof. exact direct_swapped. Qed.
Print Assumptions C38_other_order_refuted.
Example C38_example : NoDup (map sname ex3) /\ sort_by sname ex3 = ex3 /\ List.length [7; 8] = nfree ex3_heap ex3.
Proof. split; [apply nodupb_iff; reflexivity|]. split; reflexivity. Qed.

(** ** C39 *)
Theorem C39_basin_hopping_options : forall W local (method jac cons bnds : W) user n,
  dget (basin_kwargs local method jac cons bnds user) n =
  match dget (match user with Some d => d | None => [] end) n with
  | Some w => Some w
  | None => if eqb n "method" then Some method
            else if eqb n "jac" && uses_jacobian local then Some jac
            else if eqb n "constraints" && uses_constraints local then Some cons
            else if eqb n "bounds" && uses_bounds local then Some bnds else None
  end.
Proof. intros W local. rewrite <- (gradient_uses local), <- (constrained_uses local), <- (bounded_uses local). exact (basin_spec local). Qed.
Print Assumptions C39_basin_hopping_options.
Example C39_example : basin_kwargs LBFGSB 1%nat 2%nat 3%nat 4%nat (Some [("jac", 9%nat); ("tol", 8%nat)]) =
  [("jac", 9%nat); ("tol", 8%nat); ("method", 1%nat); ("bounds", 4%nat)].
Proof. reflexivity. Qed.

(** ** C45.  [evaluate .. [] result] evaluates objectives of every class by keyword. *)
Theorem C45_reported_parameters_reproduce : forall h om data b ob x,
  interface om -> by_keyword om -> obj_init b om data = Ok ob -> List.length x = nfree h (om_params om) ->
  exists popt, pack_output h (om_params om) x = Ok popt /\
    evaluate h om ob [] (result_params (om_params om) popt) = evaluate h om ob x [].
Proof. exact reported_reproduce. Qed.
Print Assumptions C45_reported_parameters_reproduce.
(** A constraint model with the same parameters has the value it had at scipy's answer. *)
Theorem C45_constraint_values : forall h omc data ob x popt ps,
  om_params omc = ps -> interface omc -> by_keyword omc -> mm_init omc data = Ok ob -> List.length x = nfree h ps ->
  pack_output h ps x = Ok popt -> mm_call h omc ob [] (result_params ps popt) = mm_call h omc ob x [].
Proof.
  intros h omc data ob x popt ps <- Hi Hb Hob Hl Hp. unfold mm_init in Hob. destruct (Nat.ltb 1 (List.length (om_dep omc))); [discriminate|].
  destruct (reported_reproduce h omc data true ob x Hi Hb Hob Hl) as (popt' & Hp' & He). rewrite Hp in Hp'. injection Hp' as <-.
  exact (f_equal r_mm He).
Qed.
Print Assumptions C45_constraint_values.
Theorem C45_bounds_respected : forall h ps x popt, NoDup (map sname ps) -> List.length x = nfree h ps -> pack_output h ps x = Ok popt ->
  (forall i p v, nth_error (free_of_list h ps) i = Some p -> nth_error x i = Some v -> within h p v) ->
  forall p, In p ps -> p_fixed (h p) = false -> exists v, dget (result_params ps popt) (sname p) = Some v /\ within h p v.
Proof. exact within_reported. Qed.
Print Assumptions C45_bounds_respected.
Example C45_example : interface ex_om /\ by_keyword ex_om /\ obj_init false ex_om ex_data = Ok ex_ob /\
  List.length [2; 1] = nfree (fun _ => ex_free) (om_params ex_om) /\ within ex3_heap (SPar "a") 2.
Proof.
  destruct ex_created as (H1 & H2 & _ & H3 & _). split; [exact H1|]. split; [exact H2|]. split; [exact H3|]. split; [reflexivity|].
  split; intros v Hv; simpl in Hv; injection Hv as <-; lra.
Qed.

(** ** C70.  The scipy function every class calls .. *)
Theorem C70_algorithms : forall h cls ps jac hess cons m uj uh, minimizer_init h cls ps jac hess cons = Ok m ->
  pb_routine (execute_problem h m uj uh) =
  match cls with
  | BFGS => RMinimize "BFGS" | SLSQP => RMinimize "SLSQP" | COBYLA => RMinimize "COBYLA" | LBFGSB => RMinimize "L-BFGS-B"
  | NelderMead => RMinimize "Nelder-Mead" | Powell => RMinimize "Powell" | TrustConstr => RMinimize "trust-constr"
  | DifferentialEvolution => RDifferentialEvolution | BasinHopping => RBasinHopping | MINPACK => RLeastSquares
  end.
Proof. intros h cls ps jac hess cons m uj uh H. rewrite pb_routine_eq, (proj1 (init_fields _ _ _ _ _ _ _ H)). destruct cls; reflexivity. Qed.
Print Assumptions C70_algorithms.
(** .. gets nothing that it cannot use .. *)
Theorem C70_nothing_unsupported : forall h cls ps jac hess cons m uj uh, minimizer_init h cls ps jac hess cons = Ok m ->
  let pb := execute_problem h m uj uh in
  (uses_jacobian cls = false -> pb_jac pb = DNone) /\ (uses_hessian cls = false -> pb_hess pb = DNone) /\
  (uses_bounds cls = false -> pb_lower pb = None /\ pb_upper pb = None) /\ (uses_constraints cls = false -> pb_cons pb = []).
Proof.
  intros h cls ps jac hess cons m uj uh H pb. subst pb. rewrite pb_cons_eq. destruct (init_fields _ _ _ _ _ _ _ H) as (Hc & _). unfold execute_problem. rewrite Hc.
  destruct cls; cbn; (split; [discriminate || reflexivity|]); (split; [discriminate || reflexivity|]); (split; [discriminate || (split; reflexivity)|]); discriminate || reflexivity.
Qed.
Print Assumptions C70_nothing_unsupported.
(** .. and a Jacobian given to [execute] replaces the one of the objective, a Hessian that of TrustConstr. *)
Theorem C70_user_derivatives : forall h cls ps jac hess cons m uj uh, minimizer_init h cls ps jac hess cons = Ok m ->
  (uses_jacobian cls = true -> uj <> DNone -> pb_jac (execute_problem h m uj uh) = uj) /\
  (uses_hessian cls = true -> uh <> DNone -> pb_hess (execute_problem h m uj uh) = uh).
Proof.
  intros h cls ps jac hess cons m uj uh H. destruct (init_fields _ _ _ _ _ _ _ H) as (Hc & _). unfold execute_problem. rewrite Hc.
  split; intros Hu Hn; [destruct cls; try discriminate|destruct cls; try discriminate]; cbn; try (destruct (trust_strategy (mi_jacobian m) (mi_hessian m)); cbn);
    first [destruct uj; try contradiction; reflexivity | destruct uh; try contradiction; reflexivity].
Qed.
Print Assumptions C70_user_derivatives.
(** Without a Jacobian from the objective or the user: MINPACK and TrustConstr ask scipy for complex step derivatives,
    TrustConstr takes BFGS updates as Hessian, or with a Jacobian only complex step derivatives of it. *)
Theorem C70_numerical_derivatives : forall h cls ps hess cons m, minimizer_init h cls ps None hess cons = Ok m ->
  let pb := execute_problem h m DNone DNone in
  pb_jac pb = (match cls, hess with MINPACK, _ => DCs | TrustConstr, None => DCs | _, _ => DNone end) /\
  (cls = TrustConstr -> hess = None -> pb_hess pb = DQuasi).
Proof.
  intros h cls ps hess cons m H. destruct (init_fields _ _ _ _ _ _ _ H) as (Hc & _ & _ & _ & _ & Hj & Hh). cbv zeta. unfold execute_problem, wrapped_jacobian. rewrite Hc, Hj, Hh.
  split; [destruct cls; cbn; try reflexivity; destruct hess; reflexivity|]. intros -> ->. reflexivity.
Qed.
Print Assumptions C70_numerical_derivatives.
Theorem C70_trust_constr_hessian : forall h ps j hess cons m, minimizer_init h TrustConstr ps (Some j) hess cons = Ok m ->
  pb_hess (execute_problem h m DNone DNone) =
  match hess with Some f => DFun (resize_hess (filter (fun p => p_fixed (h p)) ps) ps f) | None => DCs end.
Proof.
  intros h ps j [f|] cons m H; [exact (problem_hess h ps j f cons m H)|]. destruct (init_fields _ _ _ _ _ _ _ H) as (Hc & _ & _ & _ & _ & Hj & Hh).
  unfold execute_problem. rewrite Hc, Hj, Hh. reflexivity.
Qed.
Print Assumptions C70_trust_constr_hessian.
Example C70_example : exists m, minimizer_init ex3_heap SLSQP ex3 (Some ex3_jac) None [CMinimize (ex_con REq 1)] = Ok m /\
  List.length (pb_cons (execute_problem ex3_heap m DNone DNone)) = 1%nat /\ pb_routine (execute_problem ex3_heap m DNone DNone) = RMinimize "SLSQP".
Proof. eexists. split; [reflexivity|]. split; reflexivity. Qed.
