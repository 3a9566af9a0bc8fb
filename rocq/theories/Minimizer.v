(** * Minimizer: symfit/core/minimizers.py.

    scipy is not modelled: what is handed to it is a [problem], what comes back is
    an arbitrary vector.  Parameter attributes are read from the heap [h] at the time
    the code reads them; [mi_fixed] and [mi_params] are frozen on creation, as in
    the code. *)
From Coq Require Import Reals.
From Verif Require Import PyBase Signature Expr NumPy Model Objective.
Local Open Scope R_scope.
Local Open Scope string_scope.
Local Open Scope list_scope.

(** The concrete classes, minimizers.py:506-814. *)
Inductive mclass := BFGS | SLSQP | COBYLA | LBFGSB | NelderMead | Powell | TrustConstr
                  | DifferentialEvolution | BasinHopping | MINPACK.
(** The class statements, minimizers.py:26, 104, 112, 124, 159, 194, 202, 315, 390, 414, 423, 447 and
    506-752 ([object] left out). *)
Inductive pyclass := BaseMinimizer | BoundedMinimizer | ConstrainedMinimizer | GradientMinimizer | HessianMinimizer | GlobalMinimizer | ChainedMinimizer
                   | ScipyMinimize | ScipyGradientMinimize | ScipyBoundedMinimizer | ScipyHessianMinimize | ScipyConstrainedMinimize
                   | Concrete (c : mclass).
Definition bases (c : pyclass) : list pyclass :=
  match c with
  | BaseMinimizer | ScipyMinimize => []
  | BoundedMinimizer | ConstrainedMinimizer | GradientMinimizer | GlobalMinimizer | ChainedMinimizer => [BaseMinimizer]
  | HessianMinimizer => [GradientMinimizer]
  | ScipyGradientMinimize => [ScipyMinimize; GradientMinimizer]
  | ScipyBoundedMinimizer => [ScipyMinimize; BoundedMinimizer]
  | ScipyHessianMinimize => [ScipyGradientMinimize; HessianMinimizer]
  | ScipyConstrainedMinimize => [ScipyMinimize; ConstrainedMinimizer]
  | Concrete BFGS => [ScipyGradientMinimize]
  | Concrete SLSQP => [ScipyGradientMinimize; ScipyConstrainedMinimize; ScipyBoundedMinimizer]
  | Concrete COBYLA => [ScipyConstrainedMinimize; BaseMinimizer]
  | Concrete LBFGSB => [ScipyGradientMinimize; ScipyBoundedMinimizer]
  | Concrete NelderMead => [ScipyMinimize; BaseMinimizer]
  | Concrete Powell => [ScipyMinimize; BaseMinimizer]
  | Concrete TrustConstr => [ScipyHessianMinimize; ScipyConstrainedMinimize; ScipyBoundedMinimizer]
  | Concrete DifferentialEvolution => [ScipyBoundedMinimizer; GlobalMinimizer]
  | Concrete BasinHopping => [ScipyMinimize; GlobalMinimizer]
  | Concrete MINPACK => [ScipyBoundedMinimizer; GradientMinimizer]
  end.
(** [issubclass(c, k)] for the abstract classes [k] asked for.  [fuel]: more than the height of the
    hierarchy (4). *)
Definition same_base (k c : pyclass) : bool :=
  match k, c with
  | GradientMinimizer, GradientMinimizer | HessianMinimizer, HessianMinimizer | BoundedMinimizer, BoundedMinimizer
  | ConstrainedMinimizer, ConstrainedMinimizer => true
  | _, _ => false
  end.
Fixpoint issubclass (fuel : nat) (c k : pyclass) : bool :=
  match fuel with
  | O => false
  | S n => same_base k c || existsb (fun b => issubclass n b k) (bases c)
  end.
Definition is_gradient (c : mclass) : bool := issubclass 8 (Concrete c) GradientMinimizer.
Definition is_hessian (c : mclass) : bool := issubclass 8 (Concrete c) HessianMinimizer.
Definition is_bounded (c : mclass) : bool := issubclass 8 (Concrete c) BoundedMinimizer.
Definition is_constrained (c : mclass) : bool := issubclass 8 (Concrete c) ConstrainedMinimizer.

(** A function of the vector scipy works on (an objective, its Jacobian, ..). *)
Definition fn := list R -> res nd.

(** ** Masks *)
(** [p not in self._fixed_params for p in self.parameters], minimizers.py:155, 190, 775 *)
Definition free_mask (fixed parameters : list sym) : list bool := map (fun p => negb (inb p fixed)) parameters.
(** numpy boolean indexing: the selected positions *)
Definition positions (mask : list bool) : list nat := filter (fun k => nth k mask false) (seq 0 (List.length mask)).
(** [out[mask]]: along the leading axis; IndexError when the lengths differ. *)
Definition index_first (mask : list bool) (a : nd) : res nd :=
  match shp a with
  | [] => Raise IndexError
  | _ => if Nat.eqb (last (shp a) 0%nat) (List.length mask)
         then Ok {| shp := removelast (shp a) ++ [List.length (positions mask)];
                    val := fun i => val a (removelast i ++ [nth (last i 0%nat) (positions mask) 0%nat]) |}
         else Raise IndexError
  end.
(** [out[mask, mask]] on a matrix: two boolean masks are combined elementwise, as
    two integer index arrays of the same length: out[p_j, p_j].  Only matrices. *)
Definition index_both (mask : list bool) (a : nd) : res nd :=
  match shp a with
  | [n1; n0] => if Nat.eqb n0 (List.length mask) && Nat.eqb n1 (List.length mask)
                then Ok {| shp := [List.length (positions mask)];
                           val := fun i => let p := nth (hd 0%nat i) (positions mask) 0%nat in val a [p; p] |}
                else Raise IndexError
  | _ => Raise IndexError
  end.
(** [out[:, mask]] on a matrix *)
Definition index_second (mask : list bool) (a : nd) : res nd :=
  match shp a with
  | [n1; n0] => if Nat.eqb n1 (List.length mask)
                then Ok {| shp := [List.length (positions mask); n0];
                           val := fun i => val a [nth (hd 0%nat i) (positions mask) 0%nat; nth 1 i 0%nat] |}
                else Raise IndexError
  | _ => Raise IndexError
  end.

(** minimizers.py:138-157 [GradientMinimizer.resize_jac] *)
Definition resize_jac (fixed parameters : list sym) (f : fn) : fn := fun x =>
  out <- f x ;; index_first (free_mask fixed parameters) (atleast_1d (squeeze out)).
(** minimizers.py:173-191 [HessianMinimizer.resize_hess] *)
Definition resize_hess (fixed parameters : list sym) (f : fn) : fn := fun x =>
  out <- f x ;; r <- index_both (free_mask fixed parameters) (atleast_2d (squeeze out)) ;; Ok (atleast_2d r).
(** minimizers.py:757-777 [MINPACK.resize_jac] *)
Definition resize_jac_minpack (fixed parameters : list sym) (f : fn) : fn := fun x =>
  out <- f x ;; index_second (free_mask fixed parameters) (atleast_2d out).

(** ** Constraints *)
(** A MinimizeModel objective of a constraint model: its relation and functions;
    [None]: the constraint model has no such method. *)
Record con := { c_rel : rel; c_fun : fn; c_jac : option fn; c_hess : option fn }.
(** minimizers.py:473-493: the accepted forms.  [CRelational r c]: a sympy Relational
    of class [r], for which [as_constraint] gives [c]. *)
Inductive con_in :=
| CMinimize (c : con)
| CConModel (params : list sym) (c : con)
| CRelational (r : rel) (c : res con)
| COther.
Inductive ctype := CTeq | CTineq.
Record scipy_con := { sc_type : ctype; sc_fun : fn; sc_jac : option fn; sc_hess : option fn }.

(** minimizers.py:469-471 [types[..]] *)
Definition con_type (r : rel) : res ctype :=
  match r with REq => Ok CTeq | RGe => Ok CTineq | _ => Raise KeyError end.
(** minimizers.py:458-498, 402-411, 435-444 [scipy_constraints] of the class *)
Definition scipy_con_of (cls : mclass) (fixed parameters : list sym) (ci : con_in) : res scipy_con :=
  '(r, c) <- match ci with
             | CMinimize c => Ok (c_rel c, c)
             | CConModel ps c => if eqb parameters ps then Ok (c_rel c, c) else Raise AssertionError
             | CRelational r rc => c <- rc ;; Ok (r, c)
             | COther => Raise TypeError
             end ;;
  t <- con_type r ;;
  Ok {| sc_type := t; sc_fun := c_fun c;
        sc_jac := if is_gradient cls then option_map (resize_jac fixed parameters) (c_jac c) else None;
        sc_hess := if is_hessian cls then option_map (resize_hess fixed parameters) (c_hess c) else None |}.
Definition scipy_constraints (cls : mclass) (fixed parameters : list sym) (cs : list con_in) : res (list scipy_con) :=
  mapM (scipy_con_of cls fixed parameters) cs.

(** minimizers.py:577-596 [TrustConstr.scipy_constraints].  The closure in line 592
    refers to the loop variable [con]: when scipy calls it, that is the last one. *)
Record nonlinear_con := { nc_fun : fn; nc_upper : option R (* None: infinity; lower is 0 *);
                          nc_jac : option fn; nc_hess : option (list R -> R -> res nd) }.
Definition call_hess (c : option scipy_con) (x : list R) (v : R) : res nd :=
  match c with
  | Some c => match sc_hess c with
              | Some f => a <- f x ;; nmul a (scalar v)
              | None => Raise TypeError
              end
  | None => Raise UnboundLocalError
  end.
Definition trust_constraints (cons : list scipy_con) : list nonlinear_con :=
  let loop_variable := nth_error (rev cons) 0 in
  map (fun c => {| nc_fun := sc_fun c; nc_upper := match sc_type c with CTeq => Some 0 | CTineq => None end;
                   nc_jac := sc_jac c;
                   nc_hess := match sc_hess c with Some _ => Some (call_hess loop_variable) | None => None end |}) cons.

(** ** Minimizer objects *)
Record minimizer := {
  mi_class : mclass;
  mi_parameters : list sym;
  mi_fixed : list sym;             (* _fixed_params *)
  mi_params : list sym;
  mi_guess : option (list R);      (* _initial_guesses *)
  mi_jacobian : option fn;
  mi_hessian : option fn;
  mi_cons : list scipy_con         (* wrapped_constraints *)
}.
(** minimizers.py:30-41, 116-122, 128-136, 163-171, 451-453 [__init__] *)
Definition minimizer_init (h : heap) (cls : mclass) (ps : list sym) (jac hess : option fn) (cons : list con_in) : res minimizer :=
  let fixed := filter (fun p => p_fixed (h p)) ps in
  cs <- (if is_constrained cls then scipy_constraints cls fixed ps cons else Ok []) ;;
  Ok {| mi_class := cls; mi_parameters := ps; mi_fixed := fixed; mi_params := filter (fun p => negb (p_fixed (h p))) ps;
        mi_guess := None; mi_jacobian := if is_gradient cls then jac else None;
        mi_hessian := if is_hessian cls then hess else None; mi_cons := cs |}.

(** minimizers.py:85-94 [initial_guesses] *)
Definition initial_guesses (h : heap) (m : minimizer) : list R :=
  match mi_guess m with Some g => g | None => map (fun p => p_value (h p)) (mi_params m) end.
(** minimizers.py:108-110 [BoundedMinimizer.bounds] *)
Definition bounds (h : heap) (m : minimizer) : list (option R * option R) :=
  map (fun p => (p_min (h p), p_max (h p))) (mi_params m).
(** minimizers.py:779-790 [MINPACK.bounds]; None is -inf in the first list, +inf in the second *)
Definition minpack_bounds (h : heap) (m : minimizer) : list (option R) * list (option R) :=
  (map fst (bounds h m), map snd (bounds h m)).
Definition wrapped_jacobian (m : minimizer) : option fn :=
  match mi_class m with
  | MINPACK => option_map (resize_jac_minpack (mi_fixed m) (mi_parameters m)) (mi_jacobian m)
  | _ => option_map (resize_jac (mi_fixed m) (mi_parameters m)) (mi_jacobian m)
  end.
Definition wrapped_hessian (m : minimizer) : option fn :=
  option_map (resize_hess (mi_fixed m) (mi_parameters m)) (mi_hessian m).

(** How scipy is told to get a derivative: nothing, a function, 'cs', quasi-Newton. *)
Inductive dspec := DNone | DFun (f : fn) | DCs | DQuasi.
Definition of_option (o : option fn) : dspec := match o with Some f => DFun f | None => DNone end.
(** minimizers.py:557-575 [TrustConstr._get_jacobian_hessian_strategy] *)
Definition trust_strategy (jac hess : option fn) : dspec * dspec :=
  match jac, hess with
  | Some _, None => (DNone, DCs)
  | None, None => (DCs, DQuasi)
  | _, _ => (DNone, DNone)
  end.
(** [if x is None: x = y] *)
Definition or_else (a b : dspec) : dspec := match a with DNone => b | _ => a end.

(** The scipy functions called: minimize (with its method), differential_evolution, basinhopping,
    least_squares. *)
Inductive routine := RMinimize (method : string) | RDifferentialEvolution | RBasinHopping | RLeastSquares.
(** minimizers.py:380-387 [method_name] ([cls.__name__]) and its overrides 532-534, 540-542, 553-555 *)
Definition class_name (c : mclass) : string :=
  match c with
  | BFGS => "BFGS" | SLSQP => "SLSQP" | COBYLA => "COBYLA" | LBFGSB => "LBFGSB" | NelderMead => "NelderMead" | Powell => "Powell"
  | TrustConstr => "TrustConstr" | DifferentialEvolution => "DifferentialEvolution" | BasinHopping => "BasinHopping" | MINPACK => "MINPACK"
  end.
Definition method_name (c : mclass) : string :=
  match c with
  | LBFGSB => "L-BFGS-B" | NelderMead => "Nelder-Mead" | TrustConstr => "trust-constr"
  | _ => class_name c
  end.
Definition routine_of (c : mclass) : routine :=
  match c with
  | DifferentialEvolution => RDifferentialEvolution | BasinHopping => RBasinHopping | MINPACK => RLeastSquares
  | _ => RMinimize (method_name c)
  end.
(** Constraints are passed as dicts, by TrustConstr as NonlinearConstraint objects. *)
Inductive handed_con := HDict (c : scipy_con) | HNonlinear (c : nonlinear_con).
(** minimizers.py:453 and 577-596 [wrapped_constraints] *)
Definition wrapped_constraints (m : minimizer) : list handed_con :=
  match mi_class m with
  | TrustConstr => map HNonlinear (trust_constraints (mi_cons m))
  | _ => map HDict (mi_cons m)
  end.

(** The call scipy receives, minimizers.py:325-349 and its overrides: 394-400,
    418-420, 427-433, 455-456, 598-628 (TrustConstr), 635-645 (DifferentialEvolution), 706-740
    (BasinHopping, without minimizer_kwargs, see [basin_kwargs]), 792-814
    (MINPACK).  [pb_x0 = None]: not passed.  Tolerances and other options are not modelled. *)
Record problem := { pb_routine : routine; pb_x0 : option (list R); pb_lower : option (list (option R)); pb_upper : option (list (option R));
                    pb_jac : dspec; pb_hess : dspec; pb_cons : list handed_con }.
Definition execute_problem (h : heap) (m : minimizer) (user_jac user_hess : dspec) : problem :=
  let bnd := if is_bounded (mi_class m) then Some (bounds h m) else None in
  let lower := option_map (map fst) bnd in
  let upper := option_map (map snd) bnd in
  let cons := if is_constrained (mi_class m) then wrapped_constraints m else [] in
  let routine := routine_of (mi_class m) in
  match mi_class m with
  | DifferentialEvolution =>
      {| pb_routine := routine; pb_x0 := None; pb_lower := lower; pb_upper := upper; pb_jac := DNone; pb_hess := DNone; pb_cons := cons |}
  | MINPACK =>
      {| pb_routine := routine; pb_x0 := Some (initial_guesses h m); pb_lower := Some (fst (minpack_bounds h m)); pb_upper := Some (snd (minpack_bounds h m));
         pb_jac := or_else (or_else user_jac (of_option (wrapped_jacobian m))) DCs; pb_hess := DNone; pb_cons := cons |}
  | TrustConstr =>
      let '(aj, ah) := trust_strategy (mi_jacobian m) (mi_hessian m) in
      {| pb_routine := routine; pb_x0 := Some (initial_guesses h m); pb_lower := lower; pb_upper := upper;
         pb_jac := or_else (or_else user_jac aj) (of_option (wrapped_jacobian m));
         pb_hess := or_else (or_else user_hess ah) (of_option (wrapped_hessian m)); pb_cons := cons |}
  | _ =>
      {| pb_routine := routine; pb_x0 := Some (initial_guesses h m); pb_lower := lower; pb_upper := upper;
         pb_jac := if is_gradient (mi_class m) then or_else user_jac (of_option (wrapped_jacobian m)) else DNone;
         pb_hess := DNone; pb_cons := cons |}
  end.

(** minimizers.py:351-366 [_pack_output]: the best values, one per parameter; [next] on
    an exhausted iterator raises StopIteration. *)
Fixpoint pack_output (h : heap) (ps : list sym) (x : list R) : res (list R) :=
  match ps with
  | [] => Ok []
  | p :: ps' =>
      if p_fixed (h p) then r <- pack_output h ps' x ;; Ok (p_value (h p) :: r)
      else match x with
           | [] => Raise StopIteration
           | v :: x' => r <- pack_output h ps' x' ;; Ok (v :: r)
           end
  end.
(** fit_results.py:45-48: [params] of the result *)
Definition result_params (ps : list sym) (popt : list R) : dict string R :=
  dict_of (combine (map sname ps) popt).

(** ** ChainedMinimizer *)
(** minimizers.py:273-300 [_make_signature]: the keyword names.  [count] is the Counter. *)
Definition count_of (l : list string) (n : string) : nat := List.length (filter (eqb n) l).
Definition chain_name (n : string) (k : nat) : string :=
  if Nat.eqb k 1 then n else (n ++ "_" ++ string_of_nat k)%string.
Fixpoint name_loop (count : string -> nat) (reversed : list string) : list string :=
  match reversed with
  | [] => []
  | n :: rest =>
      chain_name n (count n) :: name_loop (fun s => if eqb s n then (count s - 1)%nat else count s) rest
  end.
Definition chain_names (classes : list string) : list string := rev (name_loop (count_of classes) (rev classes)).
Definition chain_signature (classes : list string) : res signature :=
  mk_signature (map (fun n => {| sp_name := n; sp_kwonly := true; sp_default := true |}) (chain_names classes)).

(** An answer of a minimizer: the vector found and the number of iterations. *)
Record answer := { an_x : list R; an_nit : option nat }.
Section Chain.
  Context {O : Type} (no_options : O).
  (** minimizers.py:248-257: options for each minimizer in order *)
  Definition chain_options (s : signature) (kw : dict string O) : res (list O) :=
    bound <- sig_bind s [] kw ;;
    Ok (map (fun p => match dget bound (sp_name p) with Some o => o | None => no_options end) s).
  (** minimizers.py:259-271.  A minimizer is its [execute]: given options and an
      initial guess.  The result lists guess and answer of every minimizer. *)
  Fixpoint chain_loop (h : heap) (ps : list sym) (todo : list ((O -> list R -> res answer) * O)) (guess : list R)
    : res (list (list R * answer)) :=
    match todo with
    | [] => Ok []
    | (execute, o) :: todo' =>
        ans <- execute o guess ;;
        popt <- pack_output h ps (an_x ans) ;;
        rest <- chain_loop h ps todo' (map snd (result_params ps popt)) ;;
        Ok ((guess, ans) :: rest)
    end.
  (** [sum(ans.iterations for ans in answers)]: None is a TypeError *)
  Definition total_nit (l : list (list R * answer)) : res nat :=
    foldM (fun s a => n <- of_opt TypeError (an_nit (snd a)) ;; Ok (s + n)%nat) 0%nat l.
  Definition chain_execute (h : heap) (ps : list sym) (s : signature) (ms : list (O -> list R -> res answer))
             (guess : list R) (kw : dict string O) : res (list (list R * answer) * answer * nat) :=
    opts <- chain_options s kw ;;
    l <- chain_loop h ps (combine ms opts) guess ;;
    final <- of_opt IndexError (nth_error (rev l) 0) ;;
    nit <- total_nit l ;;
    Ok (l, snd final, nit).
End Chain.

(** ** BasinHopping.execute, minimizers.py:712-733: the completed minimizer_kwargs *)
Section Basin.
  Context {W : Type}.
  Definition set_missing (d : dict string W) (cond : bool) (k : string) (v : W) : dict string W :=
    if negb (dmem d k) && cond then dset d k v else d.
  (** [method], [jac], [cons], [bnds]: attributes of the local minimizer *)
  Definition basin_kwargs (local : mclass) (method jac cons bnds : W) (user : option (dict string W)) : dict string W :=
    let d0 := match user with Some d => d | None => [] end in
    let d1 := set_missing d0 true "method" method in
    let d2 := set_missing d1 (is_gradient local) "jac" jac in
    let d3 := set_missing d2 (is_constrained local) "constraints" cons in
    set_missing d3 (is_bounded local) "bounds" bnds.
End Basin.

(** ** A callable that is not an objective, minimizers.py:43-72: it is wrapped in a
    MinimizeModel of a CallableNumericalModel with one component that depends on
    the parameters.  The interface of that model (models.py:540-595, see
    [direct_model_params] for the link to Model.v): its parameters are sorted. *)
Definition direct_om (f : dict string nd -> res nd) (ps : list sym) : omodel :=
  let params := sort_by sname ps in
  {| om_params := params; om_indep := []; om_dep := [SVar "y"]; om_names := map sname params;
     om_call := fun d => v <- f d ;; Ok [(SVar "y", v)]; om_jac := None; om_hess := None |}.
