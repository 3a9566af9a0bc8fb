(** * MinExec: [execute] with its options, symfit/core/minimizers.py.

    The [execute] methods (202-271, 325-349, 394-400, 418-420, 427-433, 455-456, 598-628, 635-645, 706-740,
    792-814) run along the method resolution order of MinObj.v, up to the call of scipy.

    Options are keywords (Fit.execute, fit.py:565-573, passes nothing else).  Values of options are opaque,
    except those the code looks at or makes itself; dictionaries have an address, because
    the code changes some of them in place.  An opaque value is taken to be truthy and no container (792-814). *)
From Coq Require Import Reals.
From Verif Require Import PyBase Signature Expr NumPy Model Objective Minimizer MinObj.
Local Open Scope string_scope.
Local Open Scope list_scope.

Section Exec.
  Context {raw : Type} {U : Type}.

  Inductive opt :=
  | ONone
  | OUser (u : U)
  | OText (s : string)
  | ONumber (r : R)
  | OPair (a b : R)
  | OFalse
  | OFn (f : fn)
  | OQuasi                                            (* an instance of scipy's BFGS, 570 *)
  | OBounds (l : list (option R * option R))
  | OBounds2 (lower upper : list (option R))          (* None: -inf, inf *)
  | OCons (l : list handed_con)
  | ODict (a : nat).                                  (* the dictionary at this address *)
  Definition options := dict string opt.
  Definition store := list options.

  (** What is called.  [ca_x0 = None]: not passed.  Arguments that scipy names are listed with the keywords. *)
  Inductive scipy_function := SMinimize | SDifferentialEvolution | SBasinHopping | SLeastSquares.
  Record scall := { ca_function : scipy_function; ca_objective : aval raw; ca_x0 : option (list R); ca_kw : options }.

  (** a keyword-only parameter with a default, in front of [**options] *)
  Definition take (kw : options) (n : string) (default : opt) : opt * options :=
    (match dget kw n with Some v => v | None => default end, ddel kw n).
  (** [f(n=v, **kw)] *)
  Definition also (kw : options) (n : string) (v : opt) : res options :=
    if dmem kw n then Raise TypeError else Ok ((n, v) :: kw).
  (** arguments of scipy's function that are already given by position *)
  Definition not_again (kw : options) (names : list string) : res unit :=
    if existsb (dmem kw) names then Raise TypeError else Ok tt.
  (** [x is None] *)
  Definition is_none (o : opt) : bool := match o with ONone => true | _ => false end.
  Definition if_none (o d : opt) : opt := if is_none o then d else o.
  (** [x or d] *)
  Definition falsy (o : opt) : bool := match o with ONone | OFalse => true | OText s => eqb s "" | _ => false end.
  Definition or_default (o d : opt) : opt := if falsy o then d else o.

  Definition derivative_opt (self : attrs raw) (n : string) : res opt :=
    w <- getattr self n ;;
    match w with VNone => Ok ONone | VWrapped f => Ok (OFn f) | _ => Raise TypeError end.
  (** 108-110 *)
  Definition bounds_of (h : heap) (self : attrs raw) : res (list (option R * option R)) :=
    ps <- params_attr self "params" ;; Ok (map (fun p => (p_min (h p), p_max (h p))) ps).
  (** the attribute [bounds] of an instance of [c]: 108-110, 779-790 *)
  Definition bounds_opt (h : heap) (c : pyclass) (self : attrs raw) : res opt :=
    b <- bounds_of h self ;;
    Ok (match c with Concrete MINPACK => OBounds2 (map fst b) (map snd b) | _ => OBounds b end).
  (** 557-575 *)
  Definition strategy_opt (self : attrs raw) : res (opt * opt) :=
    j <- getattr self "jacobian" ;; s <- getattr self "hessian" ;;
    Ok (match j, s with
        | VNone, VNone => (OText "cs", OQuasi)
        | VNone, _ => (ONone, ONone)
        | _, VNone => (ONone, OText "cs")
        | _, _ => (ONone, ONone)
        end).
  (** the dictionary at an address; what is not a dictionary does not support [in], item assignment and [**] *)
  Definition read (st : store) (o : opt) : res (nat * options) :=
    match o with ODict a => d <- of_opt TypeError (nth_error st a) ;; Ok (a, d) | _ => Raise TypeError end.
  Fixpoint write (st : store) (a : nat) (d : options) : store :=
    match st, a with
    | [], _ => []
    | _ :: st, O => d :: st
    | e :: st, S a => e :: write st a d
    end.

  (** 718-733, the parts of [minimizer_kwargs] the user left out *)
  Definition complete (h : heap) (local : object raw) (d : options) : res options :=
    match local with
    | Obj (Concrete c) self =>
        let d := if dmem d "method" then d else dset d "method" (OText (method_name c)) in
        d <- (if negb (dmem d "jac") && is_gradient c then j <- derivative_opt self "wrapped_jacobian" ;; Ok (dset d "jac" j) else Ok d) ;;
        d <- (if negb (dmem d "constraints") && is_constrained c then w <- handed_attr self ;; Ok (dset d "constraints" (OCons w)) else Ok d) ;;
        if negb (dmem d "bounds") && is_bounded c then b <- bounds_opt h (Concrete c) self ;; Ok (dset d "bounds" b) else Ok d
    | _ => Raise AttributeError
    end.

  (** The [execute] found first in the rest of the method resolution order. *)
  Fixpoint exec_chain (h : heap) (cls : pyclass) (self : attrs raw) (rest : list pyclass) (st : store) (kw : options) : res (store * scall) :=
    match rest with
    | [] => Raise AttributeError
    | ScipyMinimize :: _ =>                                               (* 325-349 *)
        let '(bounds, kw) := take kw "bounds" ONone in
        let '(jacobian, kw) := take kw "jacobian" ONone in
        let '(hessian, kw) := take kw "hessian" ONone in
        let '(constraints, kw) := take kw "constraints" ONone in
        let '(tol, kw) := take kw "tol" (ONumber (/ 1000000000)) in
        let kw := dset kw "tol" tol in
        f <- getattr self "objective" ;; x0 <- guesses h self ;;
        _ <- not_again kw ["fun"; "x0"] ;;
        kw <- also kw "method" (OText (match cls with Concrete c => method_name c | _ => "" end)) ;;
        kw <- also kw "bounds" bounds ;; kw <- also kw "constraints" constraints ;; kw <- also kw "jac" jacobian ;; kw <- also kw "hess" hessian ;;
        Ok (st, {| ca_function := SMinimize; ca_objective := f; ca_x0 := Some x0; ca_kw := kw |})
    | ScipyGradientMinimize :: rest' =>                                   (* 394-400 *)
        let '(jacobian, kw) := take kw "jacobian" ONone in
        w <- derivative_opt self "wrapped_jacobian" ;;
        kw <- also kw "jacobian" (if_none jacobian w) ;;
        exec_chain h cls self rest' st kw
    | ScipyBoundedMinimizer :: rest' =>                                   (* 418-420 *)
        b <- bounds_opt h cls self ;; kw <- also kw "bounds" b ;; exec_chain h cls self rest' st kw
    | ScipyHessianMinimize :: rest' =>                                    (* 427-433 *)
        let '(hessian, kw) := take kw "hessian" ONone in
        w <- derivative_opt self "wrapped_hessian" ;;
        kw <- also kw "hessian" (if_none hessian w) ;;
        exec_chain h cls self rest' st kw
    | ScipyConstrainedMinimize :: rest' =>                                (* 455-456 *)
        w <- handed_attr self ;; kw <- also kw "constraints" (OCons w) ;; exec_chain h cls self rest' st kw
    | Concrete TrustConstr :: rest' =>                                    (* 598-624 *)
        let '(jacobian, kw) := take kw "jacobian" ONone in
        let '(hessian, kw) := take kw "hessian" ONone in
        let '(options, kw) := take kw "options" ONone in
        let '(options, st) := if is_none options then (ODict (List.length st), st ++ [[]]) else (options, st) in
        '(a, d) <- read st options ;;
        let st := write st a (dset d "sparse_jacobian" OFalse) in
        '(aj, ah) <- strategy_opt self ;;
        let jacobian := if_none jacobian aj in
        let hessian := if_none hessian ah in
        wj <- derivative_opt self "wrapped_jacobian" ;; ws <- derivative_opt self "wrapped_hessian" ;;
        kw <- also kw "options" options ;; kw <- also kw "jacobian" (if_none jacobian wj) ;; kw <- also kw "hessian" (if_none hessian ws) ;;
        exec_chain h cls self rest' st kw
    | Concrete DifferentialEvolution :: _ =>                              (* 635-645 *)
        let '(strategy, kw) := take kw "strategy" (OText "rand1bin") in
        let '(popsize, kw) := take kw "popsize" (ONumber 40) in
        let '(mutation, kw) := take kw "mutation" (OPair (423 / 1000) (1053 / 1000)) in
        let '(recombination, kw) := take kw "recombination" (ONumber (95 / 100)) in
        let '(polish, kw) := take kw "polish" OFalse in
        let '(init, kw) := take kw "init" (OText "latinhypercube") in
        let kw := dupdate kw [("strategy", strategy); ("popsize", popsize); ("mutation", mutation); ("recombination", recombination); ("polish", polish); ("init", init)] in
        f <- getattr self "objective" ;; b <- bounds_opt h cls self ;;
        _ <- not_again kw ["func"] ;; kw <- also kw "bounds" b ;;
        Ok (st, {| ca_function := SDifferentialEvolution; ca_objective := f; ca_x0 := None; ca_kw := kw |})
    | Concrete BasinHopping :: _ =>                                       (* 706-740 *)
        let '(kw, st) := if dmem kw "minimizer_kwargs" then (kw, st) else (dset kw "minimizer_kwargs" (ODict (List.length st)), st ++ [[]]) in
        r <- dlook kw "minimizer_kwargs" ;;
        '(a, d) <- read st r ;;
        local <- getattr self "local_minimizer" ;;
        match local with
        | VMin local =>
            d <- complete h local d ;;
            f <- getattr self "objective" ;; x0 <- guesses h self ;;
            _ <- not_again kw ["func"; "x0"] ;;
            Ok (write st a d, {| ca_function := SBasinHopping; ca_objective := f; ca_x0 := Some x0; ca_kw := kw |})
        | _ => Raise AttributeError
        end
    | Concrete MINPACK :: _ =>                                            (* 792-814 *)
        let '(jacobian, kw) := take kw "jacobian" ONone in
        let '(method, kw) := take kw "method" (OText "trf") in
        wj <- derivative_opt self "wrapped_jacobian" ;;
        let jacobian := or_default (if_none jacobian wj) (OText "cs") in
        b <- bounds_opt h cls self ;;                                     (* a pair of lists: truthy *)
        let method := or_default method (OText "trf") in
        f <- getattr self "objective" ;; x0 <- guesses h self ;;
        _ <- not_again kw ["fun"; "x0"] ;;
        kw <- also kw "jac" jacobian ;; kw <- also kw "bounds" b ;; kw <- also kw "method" method ;;
        Ok (st, {| ca_function := SLeastSquares; ca_objective := f; ca_x0 := Some x0; ca_kw := kw |})
    | _ :: rest' => exec_chain h cls self rest' st kw                     (* no execute *)
    end.
  Definition one_call (h : heap) (o : object raw) (st : store) (kw : options) : res (store * scall) :=
    match o with Obj c self => exec_chain h c self (mro c) st kw end.

  (** ** Execution *)
  (** a call with the dictionaries among its keywords, as they are then *)
  Inductive seen_opt := SValue (o : opt) | SDict (d : option options).
  Record seen_call := { se_function : scipy_function; se_objective : aval raw; se_x0 : option (list R); se_kw : dict string seen_opt }.
  Definition see (st : store) (c : scall) : seen_call :=
    {| se_function := ca_function c; se_objective := ca_objective c; se_x0 := ca_x0 c;
       se_kw := map (fun kv => (fst kv, match snd kv with ODict a => SDict (nth_error st a) | v => SValue v end)) (ca_kw c) |}.
  (** [scipy]: what scipy's function returns (or raises) *)
  Context (scipy : seen_call -> res answer).
  Record outcome := { oc_store : store; oc_object : object raw; oc_calls : list seen_call; oc_answer : answer }.
  (** 259-265: the minimizers of a chain, one after the other.  The options of each are unpacked into a new dictionary. *)
  Fixpoint chain_run (run : object raw -> store -> options -> res outcome) (h : heap) (bound : options) (l : list (object raw)) (names : signature) (st : store) (guess : list R)
    : res (store * list (object raw) * list seen_call * list answer) :=
    match l, names with
    | m :: l, p :: names =>
        d <- (match dget bound (sp_name p) with Some v => '(_, d) <- read st v ;; Ok d | None => Ok [] end) ;;
        r <- run (set_guesses m guess) st d ;;
        ps <- params_attr (attrs_of m) "parameters" ;;
        popt <- pack_output h ps (an_x (oc_answer r)) ;;
        '(st', l', calls, answers) <- chain_run run h bound l names (oc_store r) (map snd (result_params ps popt)) ;;
        Ok (st', oc_object r :: l', oc_calls r ++ calls, oc_answer r :: answers)
    | l, _ => Ok (st, l, [], [])
    end.
  (** [fuel]: more than how deep chains are nested.  240-271 *)
  Fixpoint run (fuel : nat) (h : heap) (o : object raw) (st : store) (kw : options) : res outcome :=
    match fuel with
    | O => Raise OutOfFuel
    | S fuel =>
        match o with
        | Obj ChainedMinimizer self =>
            sv <- getattr self "__signature__" ;; mv <- getattr self "minimizers" ;; kv <- getattr self "_pickle_kwargs" ;;
            match mv, sv, kv with
            | VMins l, VSignature s, VKwargs k =>
                bound <- sig_bind s [] kw ;;
                guess <- guesses h self ;;
                '(st', l', calls, answers) <- chain_run (run fuel h) h bound l s st guess ;;
                final <- of_opt IndexError (nth_error (rev answers) 0) ;;
                nit <- foldM (fun n a => k <- of_opt TypeError (an_nit a) ;; Ok (n + k)%nat) 0%nat answers ;;
                Ok {| oc_store := st';
                      oc_object := Obj ChainedMinimizer (dset (dset self "minimizers" (VMins l')) "_pickle_kwargs" (VKwargs (dset k "minimizers" (VMins l'))));
                      oc_calls := calls; oc_answer := {| an_x := an_x final; an_nit := Some nit |} |}
            | _, _, _ => Raise TypeError
            end
        | _ => '(st, c) <- one_call h o st kw ;; a <- scipy (see st c) ;; Ok {| oc_store := st; oc_object := o; oc_calls := [see st c]; oc_answer := a |}
        end
    end.
End Exec.
Arguments opt U : clear implicits.
Arguments scall raw U : clear implicits.
Arguments options U : clear implicits.
Arguments store U : clear implicits.
Arguments seen_call raw U : clear implicits.
Arguments outcome raw U : clear implicits.
