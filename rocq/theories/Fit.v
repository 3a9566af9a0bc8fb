(** * Fit: symfit/core/fit.py.

    Data arrives as [datum]s; scipy's answer is an arbitrary vector; numpy's matrix
    inversion is a parameter [inv] of the functions that use it. *)
From Coq Require Import Reals.
From Verif Require Import PyBase Signature Expr NumPy Model Objective Minimizer.
Local Open Scope R_scope.
Local Open Scope string_scope.
Local Open Scope list_scope.

(** What a user passes as data: None, a Python number (no [.shape], no iteration), a
    numpy array, or a list/tuple (on which [** 2] raises TypeError) that
    [np.array] turns into the given array.  Simplification: ragged lists, numpy
    scalars and duck-typed arrays are left out. *)
Inductive datum := DataNone | DNum (r : R) | DArr (a : nd) | DSeq (a : nd).

(** models.py:422-427 [vars] *)
Definition vars_of (om : omodel) : list sym := om_indep om ++ om_dep om ++ map sigma_of (om_dep om).

(** fit.py:128-153 [_make_parameters]: name, and whether the default is None *)
Definition make_parameters (om : omodel) (none_allowed : list sym) : list (string * bool) :=
  map (fun v => (sname v, inb v none_allowed)) (vars_of om).

(** A constraint model (result of [as_constraint], see AsConstraint.v), fit.py:531-560. *)
Record fcon := { fc_rel : rel; fc_om : omodel }.

(** fit.py:408-431 [Fit._make_signature].  [sorted(.., key=lambda p: p.default is None)]
    is stable on a boolean key. *)
Definition fit_parameters (om : omodel) (cons : list fcon) : list (string * bool) :=
  let all := make_parameters om (map sigma_of (om_dep om)) ++
             concat (map (fun c => make_parameters (fc_om c) (om_dep (fc_om c) ++ map sigma_of (om_dep (fc_om c)))) cons) in
  let unique := dedup all in
  filter (fun p => negb (snd p)) unique ++ filter snd unique.
Definition fit_signature (om : omodel) (cons : list fcon) : res signature :=
  mk_signature (map (fun p => {| sp_name := fst p; sp_kwonly := false; sp_default := snd p |}) (fit_parameters om cons)).

(** *** TakesData.__init__, fit.py:32-115 *)
(** [var.name.startswith('var')], argument.py [Variable._argument_name] *)
Definition unnamed (v : sym) : bool := String.prefix "var" (sname v).
(** 57-69: which exception a failed [bind] (a TypeError) becomes *)
Fixpoint bind_error (vs : list sym) : exn :=
  match vs with
  | [] => TypeError
  | v :: vs' => if unnamed v then TypeError else if is_der v then RuntimeWarning else bind_error vs'
  end.
(** 76-81: data is keyed by Variable instead of name ([pop] and insert at the end) *)
Definition rekey (d : dict kwkey datum) (v : sym) : dict kwkey datum :=
  match dget d (KStr (sname v)) with
  | Some x => dset (ddel d (KStr (sname v))) (KSym v) x
  | None => d
  end.
(** 85-90 *)
Definition to_array (x : datum) : datum := match x with DSeq a => DArr a | _ => x end.
(** [iter(x)] succeeds *)
Definition iterable (x : datum) : bool :=
  match x with DArr a | DSeq a => negb (Nat.eqb (List.length (shp a)) 0) | _ => false end.
(** [x.shape] *)
Definition data_shape (x : datum) : res (list nat) :=
  match x with DArr a => Ok (shp a) | _ => Raise AttributeError end.
Definition const_array (s : list nat) (r : R) : nd := {| shp := s; val := fun _ => r |}.
(** 97-102: the new value of a sigma [s] for data [x] *)
Definition spread_sigma (x s : datum) : res datum :=
  if iterable s then Ok s
  else match x, s with
       | DataNone, _ => Ok s
       | _, DataNone => sh <- data_shape x ;; Ok (DArr (np_ones sh))
       | _, DNum r => sh <- data_shape x ;; Ok (DArr (const_array sh r))
       | _, DArr a => sh <- data_shape x ;;                        (* in place: 0-d array *)
                      match sh with [] => Ok s | _ => Raise ValueError end
       | _, DSeq _ => Raise TypeError
       end.
Definition sigma_step (d : dict kwkey datum) (vs : sym * sym) : res (dict kwkey datum) :=
  x <- dlook d (KSym (fst vs)) ;;
  s <- dlook d (KSym (snd vs)) ;;
  s' <- spread_sigma x s ;;
  Ok (dset d (KSym (snd vs)) s').
Record takes := { td_data : dict kwkey datum; td_absolute : bool }.
Definition is_none (x : datum) : bool := match x with DataNone => true | _ => false end.
(** 70-115, after [signature.bind] *)
Definition takes_bound (om : omodel) (s : signature) (absolute : option bool) (b : dict string datum) : res takes :=
  let original := fold_left (fun d p => if dmem d (sp_name p) then d else dset d (sp_name p) DataNone) s b in
  let d0 := map (fun kv => (KStr (fst kv), snd kv)) original in
  let d1 := fold_left rekey (vars_of om) d0 in
  let d2 := map (fun kv => (fst kv, to_array (snd kv))) d1 in
  let deps := filter (fun v => dmem d2 (KSym v)) (om_dep om) in
  let sigs := filter (fun v => dmem d2 (KSym v)) (map sigma_of (om_dep om)) in
  d3 <- foldM sigma_step d2 (combine deps sigs) ;;
  abs <- match absolute with
         | Some a => Ok a
         | None => given <- mapM (fun sg => dlook original (sname sg)) sigs ;;
                   Ok (existsb (fun x => negb (is_none x)) given)
         end ;;
  Ok {| td_data := d3; td_absolute := abs |}.
(** The whole of it, with positional data [args] and keywords [named] *)
Definition takes_data_args (om : omodel) (s : signature) (absolute : option bool) (args : list datum) (named : dict string datum) : res takes :=
  b <- match sig_bind s args named with
       | Ok b => Ok b
       | Raise _ => Raise (bind_error (vars_of om))
       end ;;
  takes_bound om s absolute b.
(** As Fit calls it, fit.py:383-384: keywords only *)
Definition takes_data (om : omodel) (s : signature) (absolute : option bool) (named : dict string datum) : res takes :=
  takes_data_args om s absolute [] named.
(** fit.py:117-126 [TakesData._make_signature]; the sort is stable on a boolean key *)
Definition takes_signature (om : omodel) : res signature :=
  let all := make_parameters om (map sigma_of (om_dep om)) in
  mk_signature (map (fun p => {| sp_name := fst p; sp_kwonly := false; sp_default := snd p |}) (filter (fun p => negb (snd p)) all ++ filter snd all)).

(** *** Choosing objective and minimizer *)
Inductive oclass := OVLS | OLS | OLL | OMM.
(** The [objective] argument of Fit: None, a class, or an initialised objective. *)
Inductive ochoice := ODefault | OClass (c : oclass) | OInst (c : oclass) (ob : obj).
(** The [minimizer] argument: None, a class or instance, or a sequence of them. *)
Inductive mitem := MCls (c : mclass) | MInst (m : minimizer).
Inductive mchoice := MDefault | MItem (i : mitem) | MSeq (l : list mitem).

(** A model with its number of components, [len(model)]. *)
Record fmodel := { fm_om : omodel; fm_len : nat }.

(** models.py:430-443 [bounds]; [toward0] is [np.nextafter(value, 0)] *)
Definition model_bounds (toward0 : R -> R) (h : heap) (om : omodel) : list (option R * option R) :=
  map (fun p => if p_fixed (h p)
                then if Rle_dec 0 (p_value (h p)) then (Some (toward0 (p_value (h p))), Some (p_value (h p)))
                     else (Some (p_value (h p)), Some (toward0 (p_value (h p))))
                else (p_min (h p), p_max (h p))) (om_params om).
Definition is_some {A} (o : option A) : bool := match o with Some _ => true | None => false end.
(** fit.py:433-445 [_determine_minimizer] *)
Definition determine_minimizer (toward0 : R -> R) (h : heap) (om : omodel) (cons : list fcon) : mclass :=
  match cons with
  | _ :: _ => SLSQP
  | [] => if existsb (fun p => is_some (fst p) || is_some (snd p)) (model_bounds toward0 h om) then LBFGSB else BFGS
  end.
(** fit.py:447-491 [_determine_objective].  [model.dependent_vars[0]] on an empty list is an
    IndexError. *)
Definition default_objective (fm : fmodel) (m : mchoice) (b : dict string datum) : res oclass :=
  match m with
  | MItem (MCls MINPACK) => Ok OVLS
  | _ => if Nat.eqb (fm_len fm) 1 && Nat.eqb (List.length (om_indep (fm_om fm))) 0
         then v <- of_opt IndexError (nth_error (om_dep (fm_om fm)) 0) ;;
              Ok (if dmem b (sname v) then OLS else OMM)
         else Ok OLS
  end.
Definition no_data_objective (c : oclass) : bool := match c with OLL | OMM => true | _ => false end.
Definition class_of_choice (fm : fmodel) (o : ochoice) (m : mchoice) (b : dict string datum) : res oclass :=
  match o with ODefault => default_objective fm m b | OClass c => Ok c | OInst c _ => Ok c end.
Definition determine_objective (fm : fmodel) (o : ochoice) (m : mchoice) (b : dict string datum) : res (oclass * dict string datum) :=
  c <- class_of_choice fm o m b ;;
  if no_data_objective c
  then b' <- foldM (fun d v => if dmem d (sname v) then Raise TypeError else Ok (dset d (sname v) DataNone)) b
                   (om_dep (fm_om fm) ++ map sigma_of (om_dep (fm_om fm))) ;;
       Ok (c, b')
  else Ok (c, b).

(** *** Objectives and minimizers of a Fit *)
(** The data an objective sees: entries keyed by a Variable. *)
Definition datum_nd (x : datum) : option nd :=
  match x with DataNone => None | DNum r => Some (scalar r) | DArr a | DSeq a => Some a end.
Definition objective_data (d : dict kwkey datum) : dict sym (option nd) :=
  concat (map (fun kv => match fst kv with KSym v => [(v, datum_nd (snd kv))] | KStr _ => [] end) d).
Definition make_objective (c : oclass) (om : omodel) (data : dict sym (option nd)) : res obj :=
  match c with
  | OVLS | OLS => obj_init false om data
  | OLL => obj_init true om data
  | OMM => mm_init om data
  end.
(** calling the objective, its Jacobian and Hessian with a vector and keywords *)
Definition obj_value (c : oclass) (h : heap) (om : omodel) (ob : obj) (xs : list R) (kw : dict string R) : res nd :=
  match c with
  | OVLS => vls_call true h om ob xs kw
  | OLS => r <- ls_call true h om ob xs kw ;; Ok (scalar r)
  | OLL => r <- ll_call h om ob xs kw ;; Ok (scalar r)
  | OMM => mm_call h om ob xs kw
  end.
Definition obj_jacobian (c : oclass) (h : heap) (om : omodel) (ob : obj) (xs : list R) (kw : dict string R) : res (option nd) :=
  match c with
  | OVLS => r <- vls_jac h om ob xs kw ;; Ok (Some r)
  | OLS => r <- ls_jac h om ob xs kw ;; Ok (Some r)
  | OLL => r <- ll_jac h om ob xs kw ;; Ok (Some r)
  | OMM => mm_jac h om ob xs kw
  end.
(** VectorLeastSquares has no [eval_hessian]. *)
Definition obj_hessian (c : oclass) (h : heap) (om : omodel) (ob : obj) (xs : list R) (kw : dict string R) : res (option nd) :=
  match c with
  | OVLS => Raise AttributeError
  | OLS => r <- ls_hess h om ob xs kw ;; Ok (Some r)
  | OLL => r <- ll_hess h om ob xs kw ;; Ok (Some r)
  | OMM => mm_hess h om ob xs kw
  end.
Definition has_hessian (c : oclass) : bool := match c with OVLS => false | _ => true end.
Definition as_fn (f : list R -> res (option nd)) : fn := fun xs => o <- f xs ;; of_opt TypeError o.

(** A MinimizeModel objective of a constraint, with the shared data, fit.py:530-537 *)
Definition constraint_objective (h : heap) (data : dict sym (option nd)) (c : fcon) : res con :=
  ob <- mm_init (fc_om c) data ;;
  Ok {| c_rel := fc_rel c; c_fun := fun xs => mm_call h (fc_om c) ob xs [];
        c_jac := match om_jac (fc_om c) with Some _ => Some (as_fn (fun xs => mm_jac h (fc_om c) ob xs [])) | None => None end;
        c_hess := match om_hess (fc_om c) with Some _ => Some (as_fn (fun xs => mm_hess h (fc_om c) ob xs [])) | None => None end |}.

(** A minimizer with its BasinHopping local minimizer, or a chain. *)
Inductive fmin := FMin (m : minimizer) (local : option minimizer) | FChain (ps : list sym) (l : list fmin).

Section InitMinimizer.
  Context (toward0 : R -> R) (h : heap) (om : omodel) (cons : list fcon) (data : dict sym (option nd)) (c : oclass) (ob : obj).
  (** fit.py:493-538 [_init_minimizer] for a class other than BasinHopping *)
  Definition init_class (cls : mclass) : res minimizer :=
    let jac := if is_gradient cls then match om_jac om with
                 | Some _ => Some (as_fn (fun xs => obj_jacobian c h om ob xs []))
                 | None => None end else None in
    let hess := if is_hessian cls then match om_hess om with
                  | Some _ => if has_hessian c then Some (as_fn (fun xs => obj_hessian c h om ob xs [])) else None
                  | None => None end else None in
    cs <- (if is_constrained cls then mapM (constraint_objective h data) cons else Ok []) ;;
    minimizer_init h cls (om_params om) jac hess (map CMinimize cs).
  Definition init_item (i : mitem) : res fmin :=
    match i with
    | MInst m => Ok (FMin m None)
    | MCls BasinHopping =>
        local <- init_class (determine_minimizer toward0 h om cons) ;;
        m <- init_class BasinHopping ;; Ok (FMin m (Some local))
    | MCls cls => m <- init_class cls ;; Ok (FMin m None)
    end.
  (** fit.py:398-406 *)
  Definition init_choice (m : mchoice) : res fmin :=
    match m with
    | MDefault => init_item (MCls (determine_minimizer toward0 h om cons))
    | MItem i => init_item i
    | MSeq l => ms <- mapM init_item l ;; Ok (FChain (om_params om) ms)
    end.
End InitMinimizer.

(** *** Fit.__init__, fit.py:336-406 *)
Record fit := { ft_data : dict kwkey datum; ft_absolute : bool; ft_class : oclass; ft_obj : obj; ft_min : fmin }.
Definition fit_data (fm : fmodel) (cons : list fcon) (o : ochoice) (m : mchoice) (absolute : option bool)
           (args : list datum) (kw : dict string datum) : res (oclass * takes) :=
  s <- fit_signature (fm_om fm) cons ;;
  b <- sig_bind_partial s args kw ;;
  '(c, b') <- determine_objective fm o m b ;;
  t <- takes_data (fm_om fm) s absolute b' ;;
  Ok (c, {| td_data := fold_left rekey (concat (map (fun con => vars_of (fc_om con)) cons)) (td_data t); td_absolute := td_absolute t |}).
Definition fit_init (toward0 : R -> R) (h : heap) (fm : fmodel) (cons : list fcon) (o : ochoice) (m : mchoice) (absolute : option bool)
           (args : list datum) (kw : dict string datum) : res fit :=
  '(c, t) <- fit_data fm cons o m absolute args kw ;;
  let data := objective_data (td_data t) in
  ob <- match o with OInst _ ob => Ok ob | _ => make_objective c (fm_om fm) data end ;;
  mn <- init_choice toward0 h (fm_om fm) cons data c ob m ;;
  Ok {| ft_data := td_data t; ft_absolute := td_absolute t; ft_class := c; ft_obj := ob; ft_min := mn |}.

(** *** HasCovarianceMatrix, fit.py:229-304 *)
(** fit.py:193-219 [data_shapes]; [list(set(..))] *)
Definition shapes_of (d : dict kwkey datum) (vs : list sym) : res (list (list nat)) :=
  l <- mapM (fun v => x <- dlook d (KSym v) ;;
                      match x with DataNone => Ok [] | _ => sh <- data_shape x ;; Ok [sh] end) vs ;;
  Ok (dedup (concat l)).
Definition data_shapes (om : omodel) (d : dict kwkey datum) : res (list (list nat) * list (list nat)) :=
  i <- shapes_of d (om_indep om) ;;
  s <- shapes_of d (filter (fun v => dmem d (KSym v)) (om_dep om)) ;;
  Ok (i, s).
(** 262-263 *)
Definition raw_dof (om : omodel) (d : dict kwkey datum) : res nat :=
  '(_, s) <- data_shapes om d ;; Ok (fold_right Nat.add 0%nat (map np_product s)).

Section Covariance.
  Context (inv : nd -> res nd) (h : heap) (om : omodel) (d : dict kwkey datum) (absolute : bool).
  Definition nscale (r : R) (a : nd) : nd := npmap (Rmult r) a.
  (** 239-276 [_covariance_matrix]; [hess] is [objective.eval_hessian(..)],
      [value] the objective itself, [ls]: it is a LeastSquares *)
  Definition cov_of (ls : bool) (hess : res (option nd)) (value : res R) : res (option nd) :=
    match hess with
    | Raise AttributeError => Ok None
    | Raise e => Raise e
    | Ok None => Ok None
    | Ok (Some a) =>
        match inv (atleast_2d (squeeze a)) with
        | Raise LinAlgError => Ok None
        | Raise e => Raise e
        | Ok hi =>
            if ls then
              f <- value ;;
              let rss := 2 * f in
              raw <- raw_dof om d ;;
              let dof := INR raw - INR (List.length (om_params om)) in
              let s2 := if absolute then 1 else rss / dof in
              Ok (Some (nscale s2 hi))
            else Ok (Some hi)
        end
    end.
  (** [objective(key2str(best_fit_params))] for the objectives at hand *)
  Definition named_values (popt : list R) : dict string R := dict_of (combine (map sname (om_params om)) popt).
  Definition cov_first (c : oclass) (ob : obj) (popt : list R) : res (option nd) :=
    cov_of (match c with OLS => true | _ => false end) (obj_hessian c h om ob [] (named_values popt))
           (ls_call true h om ob [] (named_values popt)).
  (** 285-302: once more with [HessApproximation], whose model Hessian is zero *)
  Definition cov_second (c : oclass) (ob : obj) (popt : list R) : res (option nd) :=
    let kw := named_values popt in
    match c with
    | OVLS | OLS =>
        ob' <- obj_init false om (ob_data ob) ;;
        cov_of true (r <- ls_hess_approx h om ob' [] kw ;; Ok (Some r)) (ls_call true h om ob' [] kw)
    | OLL =>
        ob' <- obj_init true om (ob_data ob) ;;
        cov_of false (r <- ll_hess_with (zero_hess h om ob' [] kw) h om ob' [] kw ;; Ok (Some r)) (Raise TypeError)
    | OMM =>
        ob' <- mm_init om (ob_data ob) ;;
        cov_of false (match om_hess om with
                      | None => Ok None
                      | Some _ => hs <- zero_hess h om ob' [] kw ;; a <- first_of hs ;; Ok (Some a)
                      end) (Raise TypeError)
    end.
  (** 278-304 [covariance_matrix] *)
  Definition covariance (c : oclass) (ob : obj) (popt : list R) : res (option nd) :=
    m <- cov_first c ob popt ;;
    match m with Some _ => Ok m | None => cov_second c ob popt end.
End Covariance.

(** fit.py:562-577 [execute] for a minimizer that is not a chain; [x] is scipy's answer. *)
Definition fit_execute (inv : nd -> res nd) (h : heap) (om : omodel) (f : fit) (x : list R) : res (list R * option nd) :=
  popt <- pack_output h (om_params om) x ;;
  cov <- covariance inv h om (ft_data f) (ft_absolute f) (ft_class f) (ft_obj f) popt ;;
  Ok (popt, cov).
