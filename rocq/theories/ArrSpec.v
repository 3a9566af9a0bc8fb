(** * ArrSpec: fits of symbolic models to arrays, stated without the model's machinery. *)
From Coq Require Import Reals Relations.
From Coquelicot Require Import Coquelicot.
From Verif Require Import PyBase Signature Expr Model ModelSpec Jacobian ExprR NumPy JacAnalysis Objective ObjSpec Cast ArrModel.
Local Open Scope R_scope.

(** sympy evaluates [x**0] to 1: no zero power is left in an expression *)
Fixpoint proper_powers (e : expr) : Prop :=
  match e with
  | ENum _ | ESym _ => True
  | EAdd a b | EMul a b => proper_powers a /\ proper_powers b
  | EPow a n => n <> 0%nat /\ proper_powers a
  | EInv a | EFun _ a => proper_powers a
  end.

(** [m] is the model made from the dict [es] of expressions, as a user writes it. *)
Definition model_of (ord : list sym -> list sym) (es : dict sym expr) (m : amodel) : Prop :=
  set_order ord /\ NoDup (dkeys es) /\ distinct_names (comps (V:=R) es) /\ no_self_reference (comps (V:=R) es) /\ plain_model (comps (V:=R) es) /\
  (forall k e, In (k, e) es -> proper_powers e) /\ init_model ord (comps es) = Ok m.
(** [m] is [m0] with more parameters in its signature, as [as_constraint] makes it:
    [m0] is the model made from [es]. *)
Definition built (ord : list sym -> list sym) (es : dict sym expr) (m0 m : amodel) : Prop :=
  model_of ord es m0 /\ set_params m0 (m_params m) = Ok m /\ NoDup (m_params m) /\
  (forall p, In p (m_params m0) -> In p (m_params m)) /\ (forall p, In p (m_params m) -> is_par p = true) /\
  (forall k p, In k (dkeys es) -> In p (m_params m) -> sname k <> sname p).
(** The names in [X] differ, also from those of the parameters of [m]. *)
Definition names_apart {V} (X : dict sym (comp (V:=V))) (m : amodel) : Prop :=
  distinct_names X /\ forall k p, In k (dkeys X) -> In p (m_params m) -> sname k <> sname p.
(** [sol inp v] is the value of component [v] when the inputs are the numbers [inp]. *)
Definition means (es : dict sym expr) (sol : (sym -> R) -> sym -> R) : Prop :=
  forall inp, solution Ralg (comps es) inp (sol inp).

(** What is used of sympy's [l - r] and [e * -1]. *)
Definition sympy_arithmetic (sub : expr -> expr -> expr) (mulm1 : expr -> expr) : Prop :=
  (forall l r env, eval Ralg env (sub l r) = eval Ralg env l - eval Ralg env r) /\
  (forall e env, eval Ralg env (mulm1 e) = eval Ralg env e * -1) /\
  (forall l r s, mentions (sub l r) s -> mentions l s \/ mentions r s) /\
  (forall e s, mentions (mulm1 e) s <-> mentions e s) /\
  (forall l r, proper_powers l -> proper_powers r -> proper_powers (sub l r)) /\
  (forall e, proper_powers e -> proper_powers (mulm1 e)).
(** A constraint between [l] and [r] is stored under a new variable [w]; all symbols in the model and
    the constraint have different names. *)
Definition constraint_name (es : dict sym expr) (l r : expr) (w : sym) : Prop :=
  (exists n, w = SVar n) /\ ~ symbol_of (comps (V:=R) es) w /\ ~ mentions l w /\ ~ mentions r w /\
  distinct_names ([(w, CExpr (V:=R) (EAdd l r))] ++ comps es) /\ (forall s, mentions l s \/ mentions r s -> is_der s = false).

(** The value of parameter [p] when an objective is called with the vector [xs]. *)
Definition parameter_value (h : heap) (ps : list sym) (xs : list R) (p : sym) : R :=
  if p_fixed (h p) then p_value (h p)
  else match dget (combine (filter (fun q => negb (p_fixed (h q))) ps) xs) p with Some x => x | None => 0 end.
(** The inputs of the model: data and parameter values. *)
Definition inputs (h : heap) (ps : list sym) (data : dict sym (option nd)) (xs : list R) (s : sym) : nd :=
  if is_par s then scalar (parameter_value h ps xs s)
  else match observed data s with Some a => a | None => scalar 0 end.
(** The numbers the model sees at index [i] of the (broadcast) arrays. *)
Definition at_index (inp : sym -> nd) (i : list nat) : sym -> R := fun s => elem (inp s) i.
(** value of component [v] at index [i] *)
Definition predicted (sol : (sym -> R) -> sym -> R) h (ps : list sym) data xs (v : sym) (i : list nat) : R :=
  sol (at_index (inputs h ps data xs) i) v.

(** no axes, or as many as [G] *)
Definition on_grid (G s : list nat) : Prop := fits s G = true /\ (s = [] \/ List.length s = List.length G).
(** All data live on a grid of shape [G] without empty axes: the independent data are
    scalars or arrays with as many axes, the dependent data have shape [G] (or are None). *)
Definition independent_on_grid (G : list nat) (m : amodel) (data : dict sym (option nd)) : Prop :=
  ~ In 0%nat G /\ forall v, In v (m_indep m) -> exists a, dget data v = Some (Some a) /\ on_grid G (shp a).
Definition dependent_on_grid (G : list nat) (m : amodel) (data : dict sym (option nd)) : Prop :=
  G <> [] /\ forall v y, In v (m_dep m) -> observed data v = Some y ->
    shp y = G /\ exists s, observed data (sigma_of v) = Some s /\ fits (shp s) G = true /\ forall i, In i (indices G) -> elem s i <> 0.
(** The vector has one entry for every free parameter. *)
Definition full_vector (h : heap) (m : amodel) (xs : list R) : Prop :=
  List.length xs = List.length (filter (fun q => negb (p_fixed (h q))) (m_params m)).

(** half the sum of the squared weighted residuals *)
Definition half_chi2_at (sol : (sym -> R) -> sym -> R) (h : heap) (m : amodel) (data : dict sym (option nd)) (xs : list R) : R :=
  / 2 * Rsum (map (fun v =>
    match observed data v, observed data (sigma_of v) with
    | Some y, Some s => Rsum (map (fun i => ((predicted sol h (m_params m) data xs v i - val y i) / elem s i) ^ 2) (indices (shp y)))
    | _, _ => 0
    end) (m_dep m)).

(** Every division and logarithm in the model is defined for the vector [xs], at every
    index of the grid .. *)
Definition defined_at (G : list nat) (es : dict sym expr) sol h (m : amodel) data xs : Prop :=
  forall i k e, In i (indices G) -> In (k, e) es -> defined (sol (at_index (inputs h (m_params m) data xs) i)) e.
(** .. and for all parameter values close to those in [xs]. *)
Definition defined_near (G : list nat) (es : dict sym expr) sol h (m : amodel) data xs : Prop :=
  forall i, In i (indices G) -> exists eps, 0 < eps /\ forall inp,
    (forall p, is_par p = true -> Rabs (inp p - at_index (inputs h (m_params m) data xs) i p) < eps) ->
    (forall s, is_par s = false -> inp s = at_index (inputs h (m_params m) data xs) i s) ->
    forall k e, In (k, e) es -> defined (sol inp) e.

(** The Jacobian (Hessian) can be formed, and its components have different names. *)
Definition has_jacobian simp ord (m : amodel) : Prop := exists J, jacobian_items simp ord m = Ok J /\ distinct_names J.
Definition has_hessian simp ord (m : amodel) : Prop := exists H, hessian_items simp ord m = Ok H /\ distinct_names H.
(** A Jacobian or Hessian cannot be mistaken for something of the data's shape (C30). *)
Definition no_shape_clash (G : list nat) (m : amodel) : Prop :=
  G <> [1%nat; List.length (m_params m)] /\ G <> [1%nat; List.length (m_params m); List.length (m_params m)].

(** Every dependent variable refers, directly or through other components, to an
    independent variable whose data fill the grid. *)
Definition covers_grid (G : list nat) (es : dict sym expr) (m : amodel) (data : dict sym (option nd)) : Prop :=
  G <> [] /\ forall v, In v (m_dep m) ->
    exists x a, clos_trans sym (refers (comps (V:=R) es)) v x /\ In x (m_indep m) /\ dget data x = Some (Some a) /\ shp a = G.
(** minus the logarithm of the likelihood: the product of the predicted values over the
    grid and the dependent variables *)
Definition minus_log_likelihood (G : list nat) (sol : (sym -> R) -> sym -> R) h (m : amodel) data xs : R :=
  - Rsum (map (fun v => Rsum (map (fun i => ln (predicted sol h (m_params m) data xs v i)) (indices G))) (m_dep m)).
Definition positive_at (G : list nat) (sol : (sym -> R) -> sym -> R) h (m : amodel) data xs : Prop :=
  forall v i, In v (m_dep m) -> In i (indices G) -> 0 < predicted sol h (m_params m) data xs v i.
(** [p] is the [k]-th parameter of the model and the [j]-th free one: its value is entry [j] of a vector *)
Definition free_parameter (h : heap) (m : amodel) (p : sym) (j k : nat) : Prop :=
  nth_error (m_params m) k = Some p /\ nth_error (filter (fun q => negb (p_fixed (h q))) (m_params m)) j = Some p.
(** [f' = d f / d xs_j], and [f'' = d^2 f / d xs_i d xs_j] *)
Definition partial_derivative (f : list R -> R) (xs : list R) (j : nat) (f' : R) : Prop :=
  is_derive (fun t => f (set_nth xs j t)) (nth j xs 0) f'.
Definition second_partial (f : list R -> R) (xs : list R) (i j : nat) (f'' : R) : Prop :=
  is_derive (fun t => Derive (fun u => f (set_nth (set_nth xs i t) j u)) (nth j (set_nth xs i t) 0)) (nth i xs 0) f''.
