(** * MinObjSpec: what it means that a pickled minimizer is as good as the original. *)
From Coq Require Import Reals.
From Verif Require Import PyBase Signature Expr NumPy Model Objective Minimizer MinSpec MinObj.
Local Open Scope string_scope.
Local Open Scope list_scope.

Section Spec.
  Context {raw : Type} (wrap : list sym -> raw -> res fn).

  (** In [h] exactly the parameters with [fixed p = true] are fixed (values and bounds may be anything). *)
  Definition fixes (h : heap) (fixed : sym -> bool) : Prop := forall p, p_fixed (h p) = fixed p.

  (** The minimizers a program can hold, as long as [fixed] does not change: created with any arguments, given
      initial guesses, run in a chain, pickled and unpickled. *)
  Inductive reached (fixed : sym -> bool) : object raw -> Prop :=
  | reached_new h c args kw o : fixes h fixed ->
      (forall k m, dget kw k = Some (VMin m) -> reached fixed m) ->
      (forall k l m, dget kw k = Some (VMins l) -> In m l -> reached fixed m) ->
      new wrap h c args kw = Ok o -> (exists cls, c = Concrete cls) \/ c = ChainedMinimizer -> reached fixed o
  | reached_guess o g : reached fixed o -> reached fixed (set_guesses o g)
  | reached_chain o gs : reached fixed o -> List.length gs = chain_length o -> reached fixed (chain_guesses o gs)
  | reached_copy h o o' : fixes h fixed -> reached fixed o -> copy wrap h o = Ok o' -> reached fixed o'.

  (** What the keyword arguments of a minimizer mean: a derivative is an objective's method, or a callable that is wrapped
      like an objective, or None; constraints are a list or None. *)
  Definition function_of (ps : list sym) (v : option (aval raw)) (f : option fn) : Prop :=
    match v with
    | None | Some VNone => f = None
    | Some (VObjective g) => f = Some g
    | Some (VFun r) => exists g, wrap ps r = Ok g /\ f = Some g
    | _ => False
    end.
  Definition constraints_of (v : option (aval raw)) (cs : list con_in) : Prop :=
    match v with None | Some VNone => cs = [] | Some (VCons l) => cs = l | _ => False end.
  (** The keywords that make sense for the algorithm. *)
  Definition supports (c : mclass) (k : string) : Prop :=
    (k = "jacobian" /\ uses_jacobian c = true) \/ (k = "hessian" /\ uses_hessian c = true) \/ (k = "constraints" /\ uses_constraints c = true) \/
    (k = "local_minimizer" /\ c = BasinHopping).

  (** [o] and [o'] hand the same problems to scipy, whatever the values and bounds of the parameters and the derivatives given to
      [execute] are, minimise the same objective, report the same parameters, and consist of such minimizers. *)
  Inductive alike : object raw -> object raw -> Prop :=
  | Alike o o' : class_of o = class_of o' ->
      (forall h uj uh, problem_of h o uj uh = problem_of h o' uj uh) ->
      dget (attrs_of o) "objective" = dget (attrs_of o') "objective" ->
      dget (attrs_of o) "parameters" = dget (attrs_of o') "parameters" ->
      dget (attrs_of o) "_initial_guesses" = dget (attrs_of o') "_initial_guesses" ->
      dget (attrs_of o) "__signature__" = dget (attrs_of o') "__signature__" ->
      alike_value (dget (attrs_of o) "local_minimizer") (dget (attrs_of o') "local_minimizer") ->
      alike_value (dget (attrs_of o) "minimizers") (dget (attrs_of o') "minimizers") ->
      alike o o'
  with alike_value : option (aval raw) -> option (aval raw) -> Prop :=
  | AlikeNone : alike_value None None
  | AlikeMin o o' : alike o o' -> alike_value (Some (VMin o)) (Some (VMin o'))
  | AlikeMins l l' : List.length l = List.length l' ->
      (forall i o o', nth_error l i = Some o -> nth_error l' i = Some o' -> alike o o') -> alike_value (Some (VMins l)) (Some (VMins l')).
  (** The minimizer of Minimizer.v with the initial guesses [g]. *)
  Definition with_guess (mn : minimizer) (g : option (list R)) : minimizer :=
    {| mi_class := mi_class mn; mi_parameters := mi_parameters mn; mi_fixed := mi_fixed mn; mi_params := mi_params mn; mi_guess := g;
       mi_jacobian := mi_jacobian mn; mi_hessian := mi_hessian mn; mi_cons := mi_cons mn |}.
End Spec.
