(** * MinExecSpec: what scipy is called with, given the options of [execute]. *)
From Coq Require Import Reals.
From Verif Require Import PyBase Signature Expr NumPy Model Objective Minimizer MinSpec MinObj MinExec.
Local Open Scope string_scope.
Local Open Scope list_scope.

Section Spec.
  Context {raw U : Type}.

  (** The value of an option; None when it is not given. *)
  Definition given (kw : options U) (n : string) : opt U := match dget kw n with Some v => v | None => ONone end.
  Definition default (kw : options U) (n : string) (d : opt U) : opt U := match dget kw n with Some v => v | None => d end.
  (** A derivative the way scipy takes it *)
  Definition derivative (d : dspec) : opt U := match d with DNone => ONone | DFun f => OFn f | DCs => OText "cs" | DQuasi => OQuasi end.
  (** [user] if it is given (and not None), else [other] *)
  Definition preferred (user other : opt U) : opt U := match user with ONone => other | _ => user end.
  Definition box (pb : problem) : option (list (option R * option R)) :=
    match pb_lower pb, pb_upper pb with Some lo, Some up => Some (combine lo up) | _, _ => None end.

  (** The keywords of [scipy.optimize.minimize]; [pb] is the problem without options. *)
  Definition minimize_keywords (c : mclass) (pb : problem) (kw : options U) (n : string) : option (opt U) :=
    if eqb n "method" then match pb_routine pb with RMinimize m => Some (OText m) | _ => None end
    else if eqb n "bounds" then Some (match box pb with Some b => OBounds b | None => given kw "bounds" end)
    else if eqb n "constraints" then Some (if uses_constraints c then OCons (pb_cons pb) else given kw "constraints")
    else if eqb n "jac" then Some (preferred (given kw "jacobian") (derivative (pb_jac pb)))
    else if eqb n "hess" then Some (preferred (given kw "hessian") (derivative (pb_hess pb)))
    else if eqb n "tol" then Some (default kw "tol" (ONumber (/ 1000000000)))
    else if eqb n "jacobian" || eqb n "hessian" then None
    else dget kw n.
  (** .. of [scipy.optimize.differential_evolution] .. *)
  Definition evolution_keywords (pb : problem) (kw : options U) (n : string) : option (opt U) :=
    if eqb n "bounds" then option_map OBounds (box pb)
    else if eqb n "strategy" then Some (default kw n (OText "rand1bin"))
    else if eqb n "popsize" then Some (default kw n (ONumber 40))
    else if eqb n "mutation" then Some (default kw n (OPair (423 / 1000) (1053 / 1000)))
    else if eqb n "recombination" then Some (default kw n (ONumber (95 / 100)))
    else if eqb n "polish" then Some (default kw n OFalse)
    else if eqb n "init" then Some (default kw n (OText "latinhypercube"))
    else dget kw n.
  (** .. and of [scipy.optimize.least_squares] *)
  Definition least_squares_keywords (pb : problem) (kw : options U) (n : string) : option (opt U) :=
    if eqb n "bounds" then match pb_lower pb, pb_upper pb with Some lo, Some up => Some (OBounds2 lo up) | _, _ => None end
    else if eqb n "jac" then Some (preferred (given kw "jacobian") (derivative (pb_jac pb)))
    else if eqb n "method" then Some (default kw n (OText "trf"))
    else if eqb n "jacobian" then None
    else dget kw n.

  (** The options that are not the user's to give. *)
  Definition reserved (c : mclass) (n : string) : bool :=
    match c with
    | BFGS | NelderMead | Powell => inb n ["fun"; "x0"; "method"; "jac"; "hess"]
    | LBFGSB => inb n ["fun"; "x0"; "method"; "jac"; "hess"; "bounds"]
    | COBYLA => inb n ["fun"; "x0"; "method"; "jac"; "hess"; "constraints"]
    | SLSQP | TrustConstr => inb n ["fun"; "x0"; "method"; "jac"; "hess"; "bounds"; "constraints"]
    | DifferentialEvolution => inb n ["func"; "bounds"]
    | MINPACK => inb n ["fun"; "x0"; "jac"; "bounds"]
    | BasinHopping => inb n ["func"; "x0"]
    end.
  Definition conflicts (c : mclass) (kw : options U) : Prop := exists n, dmem kw n = true /\ reserved c n = true.
  (** What BasinHopping tells scipy about its local minimizer, whose problem is [pb]. *)
  Definition local_keywords (c : mclass) (pb : problem) (n : string) : option (opt U) :=
    if eqb n "method" then match pb_routine pb with RMinimize m => Some (OText m) | _ => None end
    else if eqb n "jac" then if uses_jacobian c then Some (derivative (pb_jac pb)) else None
    else if eqb n "constraints" then if uses_constraints c then Some (OCons (pb_cons pb)) else None
    else if eqb n "bounds" then option_map OBounds (box pb)
    else None.
  Definition plain_local (c : mclass) : bool := match c with BFGS | SLSQP | COBYLA | LBFGSB | NelderMead | Powell => true | _ => false end.
  (** The dictionary an option stands for: the user's, or a new one when the option is not given (or None). *)
  Definition dict_for (st : store U) (o : opt U) (a : nat) (d : options U) : Prop :=
    (o = ONone /\ a = List.length st /\ d = []) \/ (o = ODict a /\ nth_error st a = Some d).
  (** The dictionary [minimizer_kwargs] stands for. *)
  Definition kwargs_for (st : store U) (kw : options U) (a : nat) (d : options U) : Prop :=
    (dget kw "minimizer_kwargs" = None /\ a = List.length st /\ d = []) \/ (dget kw "minimizer_kwargs" = Some (ODict a) /\ nth_error st a = Some d).
  (** [st'] differs from [st] in the dictionary at [a] only. *)
  Definition only_at (st st' : store U) (a : nat) : Prop := forall b, b < List.length st -> b <> a -> nth_error st' b = nth_error st b.
  (** The dictionaries among the values of [kw]. *)
  Definition uses (kw : options U) (a : nat) : Prop := exists n, In (n, ODict a) kw.
  (** The dictionaries of the options of a chain exist; a dictionary inside the options of one minimizer is neither inside those of another
      one, nor itself the options of one. *)
  Definition apart (st : store U) (kw : options U) : Prop :=
    (forall n a, dget kw n = Some (ODict a) -> a < List.length st) /\
    (forall n a d b, dget kw n = Some (ODict a) -> nth_error st a = Some d -> uses d b -> b < List.length st) /\
    (forall n a d b m, dget kw n = Some (ODict a) -> nth_error st a = Some d -> uses d b -> dget kw m = Some (ODict b) -> False) /\
    (forall n1 n2 a1 a2 d1 d2 b, n1 <> n2 -> dget kw n1 = Some (ODict a1) -> nth_error st a1 = Some d1 -> uses d1 b ->
       dget kw n2 = Some (ODict a2) -> nth_error st a2 = Some d2 -> uses d2 b -> False).
End Spec.

(** ** Chains *)
(** Where the minimizer at place [k] of a chain starts: the first one at the guess [first] of the chain, each other one at the parameters (the free ones as found, the
    fixed ones as they are) that the minimizer before reports. *)
Definition starts {raw} (h : heap) (l : list (object raw)) (answers : list answer) (first : list R) (k : nat) (g : list R) : Prop :=
  match k with
  | O => g = first
  | S j => exists m a ps popt, nth_error l j = Some m /\ nth_error answers j = Some a /\ dget (attrs_of m) "parameters" = Some (VParams ps) /\
      pack_output h ps (an_x a) = Ok popt /\ g = map snd (result_params ps popt)
  end.
(** The options given for the minimizer called [name]: the dictionary under its name, empty if there is none. *)
Definition own_options {U} (st : store U) (kw : options U) (name : string) : options U :=
  match dget kw name with Some (ODict a) => match nth_error st a with Some d => d | None => [] end | _ => [] end.
