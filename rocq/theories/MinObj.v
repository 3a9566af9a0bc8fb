(** * MinObj: minimizer objects as Python objects, symfit/core/minimizers.py.

    The classes of Minimizer.v with their attributes: the cooperative [__init__] methods
    (26-136, 163-171, 198-199, 212-223, 319-323, 451-453, 677-704) run along the method
    resolution order, and pickling (96-102, 307-310).

    A custom callable is an element of [raw]; [wrap parameters f] is what
    [_baseobjective_from_callable] (43-72) makes of it (see [direct_om] in Minimizer.v for the objective), an
    arbitrary function here.
    Simplification: pickling callables, objectives, constraints and parameters gives them back
    unchanged (for parameters: C65; for models: C16, C54).  Objects have no identity: a list of minimizers that is
    referred to twice is stored twice. *)
From Coq Require Import Reals.
From Verif Require Import PyBase Signature Expr NumPy Model Objective Minimizer.
Local Open Scope string_scope.
Local Open Scope list_scope.

#[export] Instance eqdec_mclass : EqDec mclass.
Proof. intros a b. unfold EqDec. decide equality. Defined.
#[export] Instance eqdec_pyclass : EqDec pyclass.
Proof. intros a b. unfold EqDec. decide equality. apply eqdec_mclass. Defined.

(** ** The method resolution order (Python's C3 linearisation) of the class statements [bases] *)
(** the first head that is in no tail *)
Fixpoint next_class (todo all : list (list pyclass)) : option pyclass :=
  match todo with
  | [] => None
  | [] :: todo' => next_class todo' all
  | (c :: _) :: todo' => if existsb (fun l => inb c (tl l)) all then next_class todo' all else Some c
  end.
Definition drop_class (c : pyclass) (l : list pyclass) : list pyclass :=
  match l with d :: l' => if eqb c d then l' else l | [] => [] end.
(** [fuel]: more than the number of classes *)
Fixpoint merge (fuel : nat) (ls : list (list pyclass)) : list pyclass :=
  match fuel with
  | O => []
  | S n => match next_class ls ls with Some c => c :: merge n (map (drop_class c) ls) | None => [] end
  end.
Fixpoint mro_of (fuel : nat) (c : pyclass) : list pyclass :=
  match fuel with
  | O => []
  | S n => c :: merge 16 (map (mro_of n) (bases c) ++ [bases c])
  end.
Definition mro (c : pyclass) : list pyclass := mro_of 8 c.

(** ** Objects *)
Section Objects.
  Context {raw : Type} (wrap : list sym -> raw -> res fn).

  (** What attributes and arguments can be. *)
  Inductive aval :=
  | VNone
  | VFun (f : raw)                          (* a callable that is not an objective *)
  | VObjective (f : fn)                     (* a BaseObjective, or a method of one *)
  | VParams (l : list sym)
  | VVector (l : list R)
  | VCons (l : list con_in)
  | VWrapped (f : fn)                       (* the closure made by resize_jac, resize_hess *)
  | VScipyCons (l : list handed_con)        (* what scipy_constraints returns: contains such closures *)
  | VSignature (s : signature)
  | VClass (c : mclass)
  | VMin (o : object)
  | VMins (l : list object)
  | VKwargs (d : list (string * aval))
  with object := Obj (c : pyclass) (d : list (string * aval)).

  Definition attrs := dict string aval.
  Definition class_of (o : object) : pyclass := match o with Obj c _ => c end.
  Definition attrs_of (o : object) : attrs := match o with Obj _ d => d end.
  Definition getattr (self : attrs) (n : string) : res aval := of_opt AttributeError (dget self n).
  (** a keyword-only parameter with a default, in front of [**kwargs] *)
  Definition pop (kw : attrs) (n : string) (default : aval) : aval * attrs :=
    (match dget kw n with Some v => v | None => default end, ddel kw n).

  (** minimizers.py:43-72 *)
  Definition from_callable (ps : list sym) (v : aval) : res aval :=
    match v with
    | VObjective f => Ok (VObjective f)
    | VFun r => f <- wrap ps r ;; Ok (VObjective f)
    | _ => Raise TypeError
    end.
  (** [self._pickle_kwargs[n] = v] *)
  Definition remember (self : attrs) (n : string) (v : aval) : res attrs :=
    k <- getattr self "_pickle_kwargs" ;;
    match k with VKwargs d => Ok (dset self "_pickle_kwargs" (VKwargs (dset d n v))) | _ => Raise TypeError end.
  Definition params_attr (self : attrs) (n : string) : res (list sym) :=
    p <- getattr self n ;; match p with VParams ps => Ok ps | _ => Raise TypeError end.

  (** minimizers.py:30-41 [BaseMinimizer.__init__] *)
  Definition base_init (h : heap) (self : attrs) (args : list aval) (kw : attrs) : res attrs :=
    b <- sig_bind [pos_param "objective"; pos_param "parameters"] args kw ;;
    o <- dlook b "objective" ;;
    p <- dlook b "parameters" ;;
    match p with
    | VParams ps =>
        let self := dset self "parameters" p in
        let self := dset self "_fixed_params" (VParams (filter (fun p => p_fixed (h p)) ps)) in
        f <- from_callable ps o ;;
        let self := dset self "objective" f in
        let self := dset self "_pickle_kwargs" (VKwargs [("parameters", p); ("objective", o)]) in
        Ok (dset self "params" (VParams (filter (fun p => negb (p_fixed (h p))) ps)))
    | _ => Raise TypeError
    end.
  (** [self.resize_jac], overridden in MINPACK (757-777) *)
  Definition self_resize_jac (c : pyclass) : list sym -> list sym -> fn -> fn :=
    match c with Concrete MINPACK => resize_jac_minpack | _ => resize_jac end.
  (** 131-136, 166-171: the part after [super().__init__] *)
  Definition after_derivative (self : attrs) (n wrapped : string) (resize : list sym -> list sym -> fn -> fn) : res attrs :=
    j <- getattr self n ;;
    self <- remember self n j ;;
    match j with
    | VNone => Ok (dset self wrapped VNone)
    | _ => ps <- params_attr self "parameters" ;; fixed <- params_attr self "_fixed_params" ;;
           f <- from_callable ps j ;;
           match f with
           | VObjective f => Ok (dset (dset self n (VObjective f)) wrapped (VWrapped (resize fixed ps f)))
           | _ => Raise TypeError
           end
    end.
  (** [self.scipy_constraints(..)], 402-411, 435-444, 458-498, 577-596 *)
  Definition self_scipy_constraints (c : pyclass) (fixed ps : list sym) (cs : list con_in) : res (list handed_con) :=
    match c with
    | Concrete cls => l <- scipy_constraints cls fixed ps cs ;;
        Ok (match cls with TrustConstr => map HNonlinear (trust_constraints l) | _ => map HDict l end)
    | _ => Raise TypeError
    end.
  (** 302-305, [x.__class__.__name__] *)
  Definition py_name (c : pyclass) : string := match c with Concrete c => class_name c | ChainedMinimizer => "ChainedMinimizer" | _ => "" end.

  (** The [__init__] found first in the rest of the method resolution order; [super().__init__] is the one found
      after it.  [make]: how an instance of a class is created (BasinHopping, 704). *)
  Fixpoint init_chain (make : mclass -> list aval -> attrs -> res object) (h : heap) (cls : pyclass) (rest : list pyclass) (self : attrs) (args : list aval) (kw : attrs) : res attrs :=
    match rest with
    | [] => match args, kw with [], [] => Ok self | _, _ => Raise TypeError end
    | BaseMinimizer :: _ => base_init h self args kw
    | ConstrainedMinimizer :: rest' =>                                    (* 116-122 *)
        let '(constraints, kw) := pop kw "constraints" VNone in
        self <- init_chain make h cls rest' self args kw ;;
        self <- remember self "constraints" constraints ;;
        Ok (dset self "constraints" (match constraints with VNone => VCons [] | v => v end))
    | GradientMinimizer :: rest' =>                                       (* 128-136 *)
        let '(jacobian, kw) := pop kw "jacobian" VNone in
        self <- init_chain make h cls rest' (dset self "jacobian" jacobian) args kw ;;
        after_derivative self "jacobian" "wrapped_jacobian" (self_resize_jac cls)
    | HessianMinimizer :: rest' =>                                        (* 163-171 *)
        let '(hessian, kw) := pop kw "hessian" VNone in
        self <- init_chain make h cls rest' (dset self "hessian" hessian) args kw ;;
        after_derivative self "hessian" "wrapped_hessian" resize_hess
    | GlobalMinimizer :: rest' => init_chain make h cls rest' self args kw (* 198-199 *)
    | ChainedMinimizer :: rest' =>                                        (* 212-223 *)
        let '(minimizers, kw) := pop kw "minimizers" VNone in
        self <- init_chain make h cls rest' self args kw ;;
        let self := dset self "minimizers" minimizers in
        self <- remember self "minimizers" minimizers ;;
        match minimizers with
        | VMins l => s <- chain_signature (map (fun o => py_name (class_of o)) l) ;; Ok (dset self "__signature__" (VSignature s))
        | _ => Raise TypeError
        end
    | ScipyMinimize :: rest' =>                                           (* 319-323 *)
        init_chain make h cls rest' (dset (dset (dset self "constraints" (VCons [])) "jacobian" VNone) "wrapped_jacobian" VNone) args kw
    | ScipyConstrainedMinimize :: rest' =>                                (* 451-453 *)
        self <- init_chain make h cls rest' self args kw ;;
        cs <- getattr self "constraints" ;;
        ps <- params_attr self "parameters" ;; fixed <- params_attr self "_fixed_params" ;;
        match cs with
        | VCons l => l <- self_scipy_constraints cls fixed ps l ;; Ok (dset self "wrapped_constraints" (VScipyCons l))
        | _ => Raise TypeError
        end
    | Concrete BasinHopping :: rest' =>                                   (* 677-704 *)
        let '(local, kw) := pop kw "local_minimizer" (VClass BFGS) in
        self <- init_chain make h cls rest' (dset self "local_minimizer" local) args kw ;;
        self <- remember self "local_minimizer" local ;;
        match local with
        | VClass c => if inb ScipyMinimize (mro (Concrete c))
                      then o <- getattr self "objective" ;; p <- getattr self "parameters" ;;
                           m <- make c [o; p] [] ;; Ok (dset self "local_minimizer" (VMin m))
                      else Raise TypeError
        | VMin m => if inb ScipyMinimize (mro (class_of m)) then Ok self else Raise TypeError
        | _ => Raise TypeError
        end
    | _ :: rest' => init_chain make h cls rest' self args kw              (* no __init__ *)
    end.
  (** [cls( *args, **kw )].  [fuel]: BasinHopping creates a local minimizer, which may be a BasinHopping, whose
      local minimizer is then a BFGS. *)
  Fixpoint make_object (fuel : nat) (h : heap) (c : pyclass) (args : list aval) (kw : attrs) : res object :=
    match fuel with
    | O => Raise OutOfFuel
    | S n => d <- init_chain (fun c => make_object n h (Concrete c)) h c (mro c) [] args kw ;; Ok (Obj c d)
    end.
  Definition new (h : heap) (c : pyclass) (args : list aval) (kw : attrs) : res object := make_object 3 h c args kw.

  (** 92-94 [initial_guesses.setter] *)
  Definition set_guesses (o : object) (g : list R) : object :=
    match o with Obj c d => Obj c (dset d "_initial_guesses" (VVector g)) end.

  (** ** Pickling *)
  (** [key.startswith('wrapped_')] *)
  Definition is_wrapped (k : string) : bool := prefix "wrapped_" k.
  (** 96-98, 307-310: the keys [__getstate__] leaves out *)
  Definition left_out (c : pyclass) (k : string) : bool :=
    is_wrapped k || match c with ChainedMinimizer => eqb k "__signature__" | _ => false end.
  (** 100-102 [__setstate__] *)
  Definition setstate (h : heap) (c : pyclass) (state : attrs) : res object :=
    let self := dupdate [] state in
    k <- getattr self "_pickle_kwargs" ;;
    match k with
    | VKwargs kw => d <- init_chain (fun c => make_object 2 h (Concrete c)) h c (mro c) self [] kw ;; Ok (Obj c d)
    | _ => Raise TypeError
    end.
  (** [pickle.loads(pickle.dumps(v))].  The closures cannot be pickled. *)
  Fixpoint copy_value (h : heap) (v : aval) : res aval :=
    match v with
    | VWrapped _ | VScipyCons _ | VSignature _ => Raise TypeError
    | VMin o => o' <- copy h o ;; Ok (VMin o')
    | VMins l => l' <- (fix go l := match l with [] => Ok [] | o :: l => o' <- copy h o ;; r <- go l ;; Ok (o' :: r) end) l ;; Ok (VMins l')
    | VKwargs d => d' <- (fix go d := match d with [] => Ok [] | (k, v) :: d => v' <- copy_value h v ;; r <- go d ;; Ok ((k, v') :: r) end) d ;; Ok (VKwargs d')
    | v => Ok v
    end
  with copy (h : heap) (o : object) : res object :=
    match o with
    | Obj c d =>
        state <- (fix go d := match d with
                              | [] => Ok []
                              | (k, v) :: d => if left_out c k then go d else v' <- copy_value h v ;; r <- go d ;; Ok ((k, v') :: r)
                              end) d ;;
        match c with                                                      (* 309: [del state['__signature__']] *)
        | ChainedMinimizer => if dmem d "__signature__" then setstate h c state else Raise KeyError
        | _ => setstate h c state
        end
    end.

  (** ** What [execute] hands to scipy, read off the attributes *)
  (** 85-90 *)
  Definition guesses (h : heap) (self : attrs) : res (list R) :=
    match dget self "_initial_guesses" with
    | Some (VVector g) => Ok g
    | Some _ => Raise TypeError
    | None => ps <- params_attr self "params" ;; Ok (map (fun p => p_value (h p)) ps)
    end.
  Definition derivative_attr (self : attrs) (n : string) : res dspec :=
    w <- getattr self n ;;
    match w with VNone => Ok DNone | VWrapped f => Ok (DFun f) | _ => Raise TypeError end.
  Definition handed_attr (self : attrs) : res (list handed_con) :=
    w <- getattr self "wrapped_constraints" ;;
    match w with VScipyCons l => Ok l | _ => Raise TypeError end.
  (** 557-575, on the attributes *)
  Definition strategy_attr (self : attrs) : res (dspec * dspec) :=
    j <- getattr self "jacobian" ;; s <- getattr self "hessian" ;;
    Ok (match j, s with
        | VNone, VNone => (DCs, DQuasi)
        | VNone, _ => (DNone, DNone)
        | _, VNone => (DNone, DCs)
        | _, _ => (DNone, DNone)
        end).
  (** 325-349, 394-400, 418-420, 427-433, 455-456, 598-628, 635-645, 706-740 (without minimizer_kwargs), 792-814 *)
  Definition problem_of (h : heap) (o : object) (user_jac user_hess : dspec) : res problem :=
    match o with
    | Obj (Concrete c) self =>
        ps <- params_attr self "params" ;;
        x0 <- guesses h self ;;
        cons <- (if is_constrained c then handed_attr self else Ok []) ;;
        let lower := map (fun p => p_min (h p)) ps in
        let upper := map (fun p => p_max (h p)) ps in
        let lower := if is_bounded c then Some lower else None in
        let upper := if is_bounded c then Some upper else None in
        match c with
        | DifferentialEvolution =>
            Ok {| pb_routine := routine_of c; pb_x0 := None; pb_lower := lower; pb_upper := upper; pb_jac := DNone; pb_hess := DNone; pb_cons := cons |}
        | MINPACK =>
            j <- derivative_attr self "wrapped_jacobian" ;;
            Ok {| pb_routine := routine_of c; pb_x0 := Some x0; pb_lower := lower; pb_upper := upper;
                  pb_jac := or_else (or_else user_jac j) DCs; pb_hess := DNone; pb_cons := cons |}
        | TrustConstr =>
            '(aj, ah) <- strategy_attr self ;;
            j <- derivative_attr self "wrapped_jacobian" ;; s <- derivative_attr self "wrapped_hessian" ;;
            Ok {| pb_routine := routine_of c; pb_x0 := Some x0; pb_lower := lower; pb_upper := upper;
                  pb_jac := or_else (or_else user_jac aj) j; pb_hess := or_else (or_else user_hess ah) s; pb_cons := cons |}
        | _ =>
            j <- (if is_gradient c then derivative_attr self "wrapped_jacobian" else Ok DNone) ;;
            Ok {| pb_routine := routine_of c; pb_x0 := Some x0; pb_lower := lower; pb_upper := upper;
                  pb_jac := if is_gradient c then or_else user_jac j else DNone; pb_hess := DNone; pb_cons := cons |}
        end
    | _ => Raise TypeError
    end.
  (** 259-265: while a chain runs, every minimizer of it gets an initial guess.  [minimizers] is the list that
      [_pickle_kwargs] also refers to. *)
  Definition guess_each (l : list object) (gs : list (option (list R))) : list object :=
    map (fun og => match snd og with Some g => set_guesses (fst og) g | None => fst og end) (combine l gs).
  Definition chain_length (o : object) : nat :=
    match dget (attrs_of o) "minimizers" with Some (VMins l) => List.length l | _ => 0 end.
  Definition chain_guesses (o : object) (gs : list (option (list R))) : object :=
    match o with
    | Obj c d =>
        match dget d "minimizers", dget d "_pickle_kwargs" with
        | Some (VMins l), Some (VKwargs k) =>
            let l' := guess_each l gs in
            Obj c (dset (dset d "minimizers" (VMins l')) "_pickle_kwargs" (VKwargs (dset k "minimizers" (VMins l'))))
        | _, _ => o
        end
    end.
End Objects.
Arguments aval raw : clear implicits.
Arguments object raw : clear implicits.
Arguments attrs raw : clear implicits.
