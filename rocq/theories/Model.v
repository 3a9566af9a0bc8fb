(** * Model: symfit/core/models.py, classes BaseModel, BaseNumericalModel,
    BaseCallableModel, CallableModel, CallableNumericalModel, ModelOutput. *)
From Verif Require Import PyBase Toposort Signature Expr.

Section Model.
  Context {V : Type} (A : alg V).

  (** A component is a sympy expression or, for numerical models, a Python
      callable, which takes keyword arguments; [id] is its object identity. *)
  Inductive comp : Type :=
  | CExpr (e : expr)
  | CFun (id : nat) (f : dict string V -> res V).

  (** The attributes set by [_init_from_dict] (models.py:312-349). *)
  Record model := {
    m_dict : dict sym comp;
    m_conn : dict sym (list sym);
    m_indep : list sym;
    m_dep : list sym;
    m_inter : list sym;
    m_params : list sym;
    m_sig : signature
  }.

  (** models.py:322-324: [OrderedDict(sorted(model_dict.items(), key=name))] *)
  Definition sort_items (items : dict sym comp) : dict sym comp :=
    sort_by (fun i => sname (fst i)) items.

  (** models.py:392-403 [connectivity_mapping] of a symbolic model.  Calling
      [seperate_symbols] on a callable is an AttributeError (no free_symbols). *)
  Definition connectivity (ord : list sym -> list sym) (d : dict sym comp)
    : res (dict sym (list sym)) :=
    mapM (fun kc => match snd kc with
                    | CExpr e => Ok (fst kc, expr_deps ord e)
                    | CFun _ _ => Raise AttributeError
                    end) d.

  (** models.py:679-687 [_make_signature] *)
  Definition make_signature (indep params : list sym) : res signature :=
    mk_signature (map (fun s => pos_param (sname s)) (indep ++ params)).

  (** models.py:325-349 and 689-691: classification of the symbols by the layers
      of the toposort.  [ordered.pop] on an empty list is an IndexError.  The
      [params] setter (674-677) builds the signature before the Parameter check. *)
  Definition classify (ord : list sym -> list sym) (d : dict sym comp)
             (conn : dict sym (list sym)) : res model :=
    layers <- toposort conn ;;
    match layers with
    | [] => Raise IndexError
    | l0 :: rest =>
        match rev rest with
        | [] => Raise IndexError
        | top :: mid =>
            let independent := sort_by sname (ord l0) in
            let dep := sort_by sname (ord top) in
            let inter := sort_by sname (flat_map ord (rev mid)) in
            let indep := filter (fun s => negb (is_par s) && negb (dmem d s)) independent in
            let params := filter is_par independent in
            sig <- make_signature indep params ;;
            if existsb is_par dep || existsb is_par inter then Raise ModelError
            else Ok {| m_dict := d; m_conn := conn; m_indep := indep; m_dep := dep;
                       m_inter := inter; m_params := params; m_sig := sig |}
        end
    end.

  (** [CallableModel(model_dict)]: models.py:118-143, 312-349. *)
  Definition init_model (ord : list sym -> list sym) (items : dict sym comp) : res model :=
    let d := sort_items items in
    conn <- connectivity ord d ;;
    classify ord d conn.

  (** [CallableNumericalModel(model_dict, connectivity_mapping=user)]:
      models.py:540-595.  The connectivity of the symbolic part is inferred and
      then updated with the user's mapping; the model for the symbolic part
      (line 586) is built, and may raise, although only its connectivity is used. *)
  Definition init_numerical (ord : list sym -> list sym) (items : dict sym comp)
             (user : dict sym (list sym)) : res model :=
    match user with
    | [] => Raise TypeError
    | _ =>
        let sub := filter (fun kc => match snd kc with CExpr _ => true | _ => false end) items in
        conn <- match sub with
                | [] => Ok user
                | _ => sm <- init_model ord sub ;; Ok (dupdate (m_conn sm) user)
                end ;;
        classify ord (sort_items items) conn
    end.

  (** models.py:406-420 [ordered_symbols]: layers of the toposort, inside each
      layer sorted (stably, on the set's iteration order) by
      [[is Derivative, derivative_count]]. *)
  Definition der_key_leb (s t : sym) : bool :=
    match s, t with
    | SDer _ ps, SDer _ qs => Nat.leb (List.length ps) (List.length qs)
    | SDer _ _, _ => false
    | _, _ => true
    end.
  Definition ordered_symbols (ord : list sym -> list sym) (m : model) : res (list sym) :=
    layers <- toposort (m_conn m) ;;
    Ok (flat_map (fun l => isort der_key_leb (ord l)) layers).

  (** models.py:838-853 and 823-826 [numerical_components]: symbolic components are
      lambdified over exactly the symbols of the connectivity mapping. *)
  Definition numerical_component (m : model) (kc : sym * comp) : sym * (dict string V -> res V) :=
    (fst kc,
     match snd kc with
     | CExpr e => fun kw =>
         deps <- dlook (m_conn m) (fst kc) ;; sympy_to_py A e deps kw
     | CFun _ f => f
     end).

  (** models.py:649-654: body of the evaluation loop. *)
  Definition eval_step (ord : list sym -> list sym) (m : model)
             (components : dict sym (dict string V -> res V))
             (kw : dict string V) (s : sym) : res (dict string V) :=
    if dmem kw (sname s) then Ok kw
    else
      deps <- dlook (m_conn m) s ;;
      dkw <- mapM (fun d => v <- dlook kw (sname d) ;; Ok (sname d, v)) (ord deps) ;;
      f <- dlook components s ;;
      v <- f (dict_of dkw) ;;
      Ok (dset kw (sname s) v).

  (** models.py:640-656 [eval_components], after binding.  [np.atleast_1d] is left
      out: values are elements of an abstract number system. *)
  Definition eval_bound (ord : list sym -> list sym) (m : model) (kw0 : dict string V) : res (list V) :=
    let components := map (numerical_component m) (m_dict m) in
    syms <- ordered_symbols ord m ;;
    kw <- foldM (eval_step ord m components) kw0 syms ;;
    mapM (fun k => dlook kw (sname k)) (dkeys (m_dict m)).

  Definition eval_components (ord : list sym -> list sym) (m : model)
             (args : list V) (kw : dict string V) : res (list V) :=
    kw0 <- sig_bind (m_sig m) args kw ;;
    eval_bound ord m kw0.

  (** *** ModelOutput, models.py:28-101.  [output] has one entry per variable. *)
  Record model_output (W : Type) := { mo_vars : list sym; mo_out : list W }.
  Arguments mo_vars {W} _.
  Arguments mo_out {W} _.

  (** [ans[i]] (88-89) *)
  Definition mo_index {W} (o : model_output W) (i : nat) : res W :=
    of_opt IndexError (nth_error (mo_out o) i).
  (** [OrderedDict(zip(variables, output))] (69) *)
  Definition mo_dict {W} (o : model_output W) : dict sym W := dict_of (combine (mo_vars o) (mo_out o)).
  (** [{var.name: var for var in variables}] (70) *)
  Definition mo_names {W} (o : model_output W) : dict string sym :=
    dict_of (map (fun v => (sname v, v)) (mo_vars o)).
  (** [ans.name] (81-86): KeyError becomes AttributeError; the final lookup may
      still raise KeyError. *)
  Definition mo_attr {W} (o : model_output W) (n : string) : res W :=
    match dget (mo_names o) n with
    | None => Raise AttributeError
    | Some v => dlook (mo_dict o) v
    end.
  (** pickle: [__getnewargs__]/[__getstate__]/[__setstate__] (72-79) *)
  Definition mo_getstate {W} (o : model_output W) := (mo_vars o, mo_out o).
  Definition mo_setstate {W} (st : list sym * list W) : model_output W :=
    {| mo_vars := fst st; mo_out := snd st |}.

  (** models.py:693-706 [__call__] *)
  Definition call (ord : list sym -> list sym) (m : model) (args : list V) (kw : dict string V)
    : res (model_output V) :=
    vals <- eval_components ord m args kw ;;
    Ok {| mo_vars := dkeys (m_dict m); mo_out := vals |}.

  (** *** [__neg__] *)
  (** models.py:302-310.  [mulm1] is sympy's [expr * -1]; multiplying a callable
      by -1 is a TypeError.  The loop is [for var in self.dependent_vars]. *)
  Definition neg_comp (mulm1 : expr -> expr) (c : comp) : res comp :=
    match c with CExpr e => Ok (CExpr (mulm1 e)) | CFun _ _ => Raise TypeError end.
  Definition neg_dict (mulm1 : expr -> expr) (m : model) : res (dict sym comp) :=
    foldM (fun d v => c <- dlook d v ;; c' <- neg_comp mulm1 c ;; Ok (dset d v c'))
          (m_dict m) (m_dep m).
  Definition neg_model (mulm1 : expr -> expr) (ord : list sym -> list sym) (m : model) : res model :=
    d <- neg_dict mulm1 m ;; init_model ord d.

  (** models.py:615-623, numerical models: the loop
      [for key, callable_expr in self.model_dict.values()] unpacks every component
      into two names; neither a callable nor a sympy expression is iterable.  The
      constructor is then called without connectivity_mapping.  (A sympy Matrix
      with two entries is iterable; matrices are not modelled.) *)
  Definition unpack_pair (c : comp) : res (sym * comp) :=
    match c with CExpr _ | CFun _ _ => Raise TypeError end.
  Definition neg_numerical (ord : list sym -> list sym) (m : model) : res model :=
    d <- foldM (fun d c => kc <- unpack_pair c ;; Ok (dset d (fst kc) (snd kc))) [] (map snd (m_dict m)) ;;
    init_numerical ord d [].

  (** *** [__eq__], models.py:280-300.  [expand] is sympy's [expr.expand()];
      callables have no [expand] (AttributeError).  [len(self) is not len(other)]
      compares object identity of two fresh ints: CPython only shares ints up to
      256. *)
  Definition int_is (n k : nat) : bool := Nat.eqb n k && Nat.leb n 256.

  Fixpoint eq_items (expand : expr -> expr) (d1 d2 : dict sym comp) : res bool :=
    match d1, d2 with
    | (v1, c1) :: d1', (v2, c2) :: d2' =>
        if eqb v1 v2 then
          match c1, c2 with
          | CExpr e1, CExpr e2 =>
              if eqb (expand e1) (expand e2) then eq_items expand d1' d2' else Ok false
          | _, _ => Raise AttributeError
          end
        else Ok false
    | _, _ => Ok true
    end.
  Definition model_eq (expand : expr -> expr) (m1 m2 : model) : res bool :=
    if int_is (List.length (m_dict m1)) (List.length (m_dict m2))
    then eq_items expand (m_dict m1) (m_dict m2)
    else Ok false.

  (** *** [with_dependencies], models.py:207-255 *)
  (** Lines 239-247: walk the ordered symbols of the dependency model up to [var]. *)
  Fixpoint add_until (dm : model) (var : sym) (syms : list sym) (d : dict sym comp) : dict sym comp :=
    match syms with
    | [] => d
    | s :: syms' =>
        let d' := match dget (m_dict dm) s with
                  | Some c => if dmem d s then d else dset d s c
                  | None => d
                  end in
        if eqb s var then d' else add_until dm var syms' d'
    end.
  Definition with_dependencies (ord : list sym -> list sym) (items : dict sym comp) (dm : model)
    : res model :=
    m <- init_model ord items ;;
    if existsb (fun v => dmem (m_dict dm) v) (m_indep m) then
      syms <- ordered_symbols ord dm ;;
      let d := fold_left (fun d v => if dmem (m_dict dm) v then add_until dm v syms d else d)
                         (m_indep m) (m_dict m) in
      init_model ord d
    else Ok m.

  (** *** [as_constraint], models.py:146-204 *)
  Inductive rel : Type := REq | RGe | RLe | RGt | RLt | RNe.
  (** What may be passed as constraint: a sympy Relational, or an expression
      (wrapped in a dict under a fresh name by models.py:142) / mapping together with an
      explicit constraint type. *)
  Inductive constr_in : Type :=
  | CRel (r : rel) (lhs rhs : expr)
  | CItems (items : dict sym comp) (ty : option rel).

  Definition set_params (m : model) (ps : list sym) : res model :=
    sig <- make_signature (m_indep m) ps ;;
    Ok {| m_dict := m_dict m; m_conn := m_conn m; m_indep := m_indep m; m_dep := m_dep m;
          m_inter := m_inter m; m_params := ps; m_sig := sig |}.

  (** [fresh] is the variable named after the expression's id (142); [sub] is
      sympy's [lhs - rhs]. *)
  Definition as_constraint (sub : expr -> expr -> expr) (mulm1 : expr -> expr) (fresh : sym)
             (ord : list sym -> list sym) (c : constr_in) (dm : model) : res (model * rel) :=
    let '(items, ty) := match c with
                        | CRel r l h => ([(fresh, CExpr (sub l h))], Some r)
                        | CItems items ty => (items, ty)
                        end in
    inst <- with_dependencies ord items dm ;;
    '(inst, ty) <- match ty with
                   | Some REq => Ok (inst, REq)
                   | Some RGe => Ok (inst, RGe)
                   | Some RLe => n <- neg_model mulm1 ord inst ;; Ok (n, RGe)
                   | _ => Raise ModelError
                   end ;;
    if Nat.eqb (List.length (m_dep inst)) 1 then
      if forallb (fun p => inb p (m_params dm)) (m_params inst)
      then inst' <- set_params inst (m_params dm) ;; Ok (inst', ty)
      else Raise ModelError
    else Raise ModelError.

  (** *** [shared_parameters], models.py:446-462 *)
  Fixpoint shared_loop (ord : list sym -> list sym) (cs : list comp) (thusfar : list sym) : res bool :=
    match cs with
    | [] => Ok false
    | CFun _ _ :: _ => Raise AttributeError
    | CExpr e :: cs' =>
        let params := snd (seperate_symbols ord e) in
        if existsb (fun p => inb p thusfar) params then Ok true
        else shared_loop ord cs' (thusfar ++ params)
    end.
  Definition shared_parameters (ord : list sym -> list sym) (m : model) : res bool :=
    if Nat.eqb (List.length (m_dict m)) 1 then Ok false
    else shared_loop ord (dvals (m_dict m)) [].

End Model.
Arguments mo_vars {W} _.
Arguments mo_out {W} _.
Arguments CExpr {V} e.
Arguments CFun {V} id f.
