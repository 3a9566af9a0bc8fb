(** * Objective: symfit/core/objectives.py.

    The model an objective wraps is described by its interface [omodel]: lists of
    symbols and the three evaluation functions, as dicts from keyword names to
    arrays.  Objectives never look inside.  [om_of] in ArrModel.v builds such an
    interface from the CallableModel of Model.v. *)
From Coq Require Import Reals.
From Verif Require Import PyBase Expr NumPy.
Local Open Scope R_scope.
Local Open Scope string_scope.

(** Attributes of a Parameter object, symfit/core/argument.py:104-124; the heap maps
    every parameter to its current attributes.  Simplification: there is one
    Parameter object per name (argument.py:126-141 tells apart objects of the same
    name with different attributes). *)
Record pattr := { p_value : R; p_min : option R; p_max : option R; p_fixed : bool }.
Definition heap := sym -> pattr.

Record omodel := {
  om_params : list sym;                            (* model.params *)
  om_indep : list sym;                             (* model.independent_vars *)
  om_dep : list sym;                               (* model.dependent_vars *)
  om_names : list string;                          (* model.__signature__.parameters *)
  om_call : dict string nd -> res (dict sym nd);          (* model(kwargs)._asdict() *)
  om_jac : option (dict string nd -> res (dict sym nd));  (* model.eval_jacobian, if present *)
  om_hess : option (dict string nd -> res (dict sym nd))  (* model.eval_hessian, if present *)
}.

(** models.py:348-349 [sigmas] *)
Definition sigma_of (v : sym) : sym := SVar ("sigma_" ++ sname v).
(** models.py:465-469 [free_params] *)
Definition free_params (h : heap) (om : omodel) : list sym :=
  filter (fun p => negb (p_fixed (h p))) (om_params om).

(** The keys of the [parameters] dict: strings from keyword arguments, symbols from
    zip; a Parameter never equals a string. *)
Inductive kwkey := KStr (s : string) | KSym (s : sym).
#[export] Instance eqdec_kwkey : EqDec kwkey.
Proof. intros x y. pose proof (@eq_dec sym _). decide equality; apply string_dec. Defined.
Definition kwstr (k : kwkey) : string := match k with KStr s => s | KSym s => sname s end.

(** support.py:295-305 [key2str] *)
Definition key2str {X} (d : dict kwkey X) : dict string X := dict_of (map (fun kv => (kwstr (fst kv), snd kv)) d).

(** An objective: its data (values may be None) with the cached properties that
    [_sanity_checking] (171-180) fills on creation, and the cache of
    [_invariant_kwargs]. *)
Record obj := {
  ob_data : dict sym (option nd);
  ob_dep : dict sym (option nd);
  ob_ind : dict sym (option nd);
  ob_sig : dict sym (option nd);
  ob_inv : option (dict kwkey nd)
}.

(** objectives.py:32-78, 171-180 ([independent = false]) and 421-441,
    BaseIndependentObjective ([independent = true]). *)
Definition obj_init (independent : bool) (om : omodel) (data : dict sym (option nd)) : res obj :=
  dep <- (if independent then Ok [] else mapM (fun v => x <- dlook data v ;; Ok (v, x)) (om_dep om)) ;;
  ind <- mapM (fun v => x <- dlook data v ;; Ok (v, x)) (om_indep om) ;;
  sg <- (if independent then Ok [] else
           mapM (fun v => x <- dlook data (sigma_of v) ;; Ok (sigma_of v, x)) (om_dep om)) ;;
  Ok {| ob_data := data; ob_dep := dict_of dep; ob_ind := dict_of ind; ob_sig := dict_of sg; ob_inv := None |}.

(** objectives.py:131-146 [_invariant_kwargs], first evaluation.  Simplification:
    None as data of an independent variable is a TypeError here; the code passes
    None to the model. *)
Definition compute_inv (h : heap) (om : omodel) (ob : obj) : res (dict kwkey nd) :=
  let fixed := map (fun p => (KSym p, scalar (p_value (h p))))
                   (filter (fun p => negb (inb p (free_params h om))) (om_params om)) in
  let by_name := dict_of (map (fun vd => (sname (fst vd), snd vd)) (ob_ind ob)) in
  dat <- mapM (fun n => match dget by_name n with
                        | Some (Some a) => Ok (KStr n, a)
                        | _ => Raise TypeError
                        end) (filter (dmem by_name) (om_names om)) ;;
  Ok (dupdate (dict_of fixed) (dict_of dat)).
(** the cached property: value and the objective afterwards *)
Definition invariant_kwargs (h : heap) (om : omodel) (ob : obj) : res (dict kwkey nd * obj) :=
  match ob_inv ob with
  | Some i => Ok (i, ob)
  | None => i <- compute_inv h om ob ;;
            Ok (i, {| ob_data := ob_data ob; ob_dep := ob_dep ob; ob_ind := ob_ind ob;
                      ob_sig := ob_sig ob; ob_inv := Some i |})
  end.

(** objectives.py:91-93: the keyword arguments the model is called with. *)
Definition prepare (h : heap) (om : omodel) (inv : dict kwkey nd) (xs : list R) (kw : dict string R)
  : dict string nd :=
  let parameters := map (fun kv => (KStr (fst kv), scalar (snd kv))) kw in
  let positional := dict_of (combine (map KSym (free_params h om)) (map scalar xs)) in
  key2str (dupdate (dupdate parameters positional) inv).

(** objectives.py:100-129 [_shape_of_dependent_data] *)
Fixpoint expand_n (k : nat) (a : nd) : nd := match k with 0%nat => a | S k' => expand_n k' (expand_last a) end.
Definition shape_one (np level : nat) (y : nd) (c : nd) : res nd :=
  if list_eq_dec Nat.eq_dec (shp y) (shp c) then Ok c
  else
    let diff := (List.length (shp y) - (List.length (shp c) - level))%nat in
    broadcast_to (expand_n diff c) (shp y ++ repeat np level).
Definition shape_of_dependent_data (om : omodel) (ob : obj) (level : nat) (outs : list nd) : res (list nd) :=
  mapM (fun vc => match dget (ob_dep ob) (fst vc) with
                  | Some (Some y) => shape_one (List.length (om_params om)) level y (snd vc)
                  | _ => Ok (snd vc)
                  end) (combine (om_dep om) outs).

(** objectives.py:81-98 [BaseObjective.__call__], 188-205 [eval_jacobian], 213-230
    [eval_hessian]: evaluate, keep the dependent variables, shape. *)
Definition keep_dep (om : omodel) (r : dict sym nd) : list nd :=
  map snd (filter (fun vc => inb (fst vc) (om_dep om)) r).
Definition base_eval (f : dict string nd -> res (dict sym nd)) (level : nat)
           (h : heap) (om : omodel) (ob : obj) (xs : list R) (kw : dict string R) : res (list nd) :=
  io <- invariant_kwargs h om ob ;;
  r <- f (prepare h om (fst io) xs kw) ;;
  shape_of_dependent_data om ob level (keep_dep om r).
Definition base_call h om ob xs kw := base_eval (om_call om) 0 h om ob xs kw.
Definition base_jac h om ob xs kw :=
  match om_jac om with Some f => base_eval f 1 h om ob xs kw | None => Raise AttributeError end.
Definition base_hess h om ob xs kw :=
  match om_hess om with Some f => base_eval f 2 h om ob xs kw | None => Raise AttributeError end.
(** The objective after an evaluation: its cache is filled. *)
Definition touched h om ob : obj := match invariant_kwargs h om ob with Ok (_, ob') => ob' | Raise _ => ob end.

(** [self.sigma_data[self.model.sigmas[v]]]; arithmetic with None is a TypeError *)
Definition sigma_data (ob : obj) (v : sym) : res nd :=
  s <- dlook (ob_sig ob) (sigma_of v) ;; of_opt TypeError s.
(** [self.dependent_data.get(v, None)] *)
Definition dep_data (ob : obj) (v : sym) : option nd :=
  match dget (ob_dep ob) v with Some (Some y) => Some y | _ => None end.

(** ** LeastSquares, objectives.py:285-385 *)
Definition ls_component (ob : obj) (vf : sym * nd) : res R :=
  match dep_data ob (fst vf) with
  | None => Ok 0
  | Some y =>
      s <- sigma_data ob (fst vf) ;;
      d <- nsub (snd vf) y ;;
      t <- ndiv (nsq d) (nsq s) ;;
      Ok (np_sum t)
  end.
Definition ls_chi2 h om ob xs kw : res (list R) :=
  fs <- base_call h om ob xs kw ;; mapM (ls_component ob) (combine (om_dep om) fs).
(** 298-321 [__call__]; with flatten_components=False line 321 divides a list by 2. *)
Definition ls_call (flatten_components : bool) h om ob xs kw : res R :=
  chi2 <- ls_chi2 h om ob xs kw ;;
  if flatten_components then Ok (Rsum chi2 / 2) else Raise TypeError.

(** 323-349 [eval_jacobian] *)
Definition ls_jac_step (ob : obj) (acc : nd) (vfj : sym * nd * nd) : res nd :=
  let '(v, f, j) := vfj in
  match dep_data ob v with
  | None => Ok acc
  | Some y =>
      s <- sigma_data ob v ;;
      d <- nsub y f ;;
      w <- ndiv d (nsq s) ;;
      pre <- nmul j (newaxis w) ;;
      nsub acc (np_sum_keep 1 pre)
  end.
Definition ls_jac h om ob xs kw : res nd :=
  fs <- base_call h om ob xs kw ;;
  js <- base_jac h om ob xs kw ;;
  r <- foldM (ls_jac_step ob) (scalar 0) (combine (combine (om_dep om) fs) js) ;;
  Ok (atleast_1d (squeeze r)).

(** 351-385 [eval_hessian]; [hs] is the shaped Hessian of the model. *)
Definition ls_hess_step (ob : obj) (acc : nd) (vfjh : sym * nd * nd * nd) : res nd :=
  let '(v, f, j, hc) := vfjh in
  match dep_data ob v with
  | None => Ok acc
  | Some y =>
      s <- sigma_data ob v ;;
      d <- nsub y f ;;
      w <- ndiv d (nsq s) ;;
      p1 <- nmul hc (newaxis (newaxis w)) ;;
      p2 <- ndiv (outer j) (nsq (newaxis (newaxis s))) ;;
      df <- nsub p2 p1 ;;
      nadd acc (np_sum_keep 2 df)
  end.
Definition ls_hess_with (hess : res (list nd)) h om ob xs kw : res nd :=
  fs <- base_call h om ob xs kw ;;
  js <- base_jac h om ob xs kw ;;
  hs <- hess ;;
  r <- foldM (ls_hess_step ob) (scalar 0) (combine (combine (combine (om_dep om) fs) js) hs) ;;
  Ok (atleast_2d (squeeze r)).
Definition ls_hess h om ob xs kw : res nd := ls_hess_with (base_hess h om ob xs kw) h om ob xs kw.

(** HessianObjectiveJacApprox.eval_hessian, objectives.py:388-418: zeros. *)
Definition zero_hess h om ob xs kw : res (list nd) :=
  fs <- base_call h om ob xs kw ;;
  let n := List.length (om_params om) in
  mapM (fun c => broadcast_to (np_zeros_like c) (shp c ++ [n; n])) fs.
(** LeastSquares with that mixin, fit.py:290-300: [super().eval_hessian] in
    LeastSquares.eval_hessian resolves to it. *)
Definition ls_hess_approx h om ob xs kw : res nd := ls_hess_with (zero_hess h om ob xs kw) h om ob xs kw.

(** ** VectorLeastSquares, objectives.py:233-282 *)
Definition vls_terms (flatten_components : bool) (ob : obj) (vf : sym * nd) : res (list nd) :=
  match dep_data ob (fst vf) with
  | None => Ok []
  | Some y =>
      s <- sigma_data ob (fst vf) ;;
      d <- nsub y (snd vf) ;;
      q <- ndiv d s ;;
      Ok [if flatten_components then flatten (nsq q) else nsq q]
  end.
Definition vls_call (flatten_components : bool) h om ob xs kw : res nd :=
  fs <- base_call h om ob xs kw ;;
  ts <- mapM (vls_terms flatten_components ob) (combine (om_dep om) fs) ;;
  t <- foldM nadd (scalar 0) (concat ts) ;;
  Ok (nsqrt t).

(** 261-282 [eval_jacobian]: [acc] is the list with one entry per parameter *)
Fixpoint add_rows (acc : list nd) (rs : list nd) (w : nd) : res (list nd) :=
  match rs with
  | [] => Ok acc
  | r :: rs' =>
      match acc with
      | [] => Raise IndexError
      | a :: acc' => t <- nmul r w ;; a' <- nadd a t ;; rest <- add_rows acc' rs' w ;; Ok (a' :: rest)
      end
  end.
Definition vls_jac_step (ob : obj) (acc : list nd) (vfj : sym * nd * nd) : res (list nd) :=
  let '(v, f, j) := vfj in
  match dep_data ob v with
  | None => Ok acc
  | Some y =>
      s <- sigma_data ob v ;;
      d <- nsub y f ;;
      w <- ndiv d (nsq s) ;;
      add_rows acc (rows j) w
  end.
(** [result *= (1 / chi)]: a list times an array is the stacked array times it;
    [np.nan_to_num] only changes entries that are not finite and is left out. *)
Definition vls_jac h om ob xs kw : res nd :=
  chi <- vls_call false h om ob xs kw ;;
  fs <- base_call h om ob xs kw ;;
  js <- base_jac h om ob xs kw ;;
  acc <- foldM (vls_jac_step ob) (repeat (scalar 0) (List.length (om_params om))) (combine (combine (om_dep om) fs) js) ;;
  st <- np_stack acc ;;
  q <- nmul st (npmap (fun x => 1 / x) chi) ;;
  m <- np_stack (map flatten (rows q)) ;;
  Ok {| shp := rev (shp m); val := fun i => - val m (rev i) |}.      (* - np.array(..).T *)

(** ** LogLikelihood, objectives.py:444-520.  [nansum] is [sum]: there is no NaN. *)
Definition ll_call h om ob xs kw : res R :=
  fs <- base_call h om ob xs kw ;;
  Ok (- Rsum (map (fun c => np_sum (npmap ln c)) fs)).
Definition ll_jac h om ob xs kw : res nd :=
  fs <- base_call h om ob xs kw ;;
  js <- base_jac h om ob xs kw ;;
  comps <- mapM (fun fj => mapM (fun df => q <- ndiv df (fst fj) ;; Ok (- np_sum q)) (rows (snd fj))) (combine fs js) ;;
  total <- match comps with
           | [] => Ok (scalar 0)                                   (* np.sum([], axis=0) *)
           | _ =>
               st <- np_stack (map (fun l => {| shp := [List.length l]; val := fun i => nth (hd 0%nat i) l 0 |}) comps) ;;
               Ok {| shp := removelast (shp st);
                     val := fun i => Rsum (map (fun j => val st (i ++ [j])) (seq 0 (last (shp st) 0%nat))) |}
           end ;;
  Ok (atleast_1d (squeeze total)).
Definition ll_hess_step (acc : nd) (fjh : nd * nd * nd) : res nd :=
  let '(f, j, hc) := fjh in
  let f2 := newaxis (newaxis f) in
  t1 <- ndiv (nneg hc) f2 ;;
  t2 <- nmul (newaxis (newaxis (npmap (fun x => 1 / x ^ 2) f))) (outer j) ;;
  d <- nadd t1 t2 ;;
  nadd acc (np_sum_keep 2 d).
Definition ll_hess_with (hess : res (list nd)) h om ob xs kw : res nd :=
  fs <- base_call h om ob xs kw ;;
  js <- base_jac h om ob xs kw ;;
  hs <- hess ;;
  r <- foldM ll_hess_step (scalar 0) (combine (combine fs js) hs) ;;
  Ok (atleast_2d (squeeze r)).
Definition ll_hess h om ob xs kw : res nd := ll_hess_with (base_hess h om ob xs kw) h om ob xs kw.

(** ** MinimizeModel, objectives.py:523-554 *)
Definition mm_init (om : omodel) (data : dict sym (option nd)) : res obj :=
  if Nat.ltb 1 (List.length (om_dep om)) then Raise TypeError else obj_init true om data.
Definition first_of (l : list nd) : res nd := of_opt IndexError (nth_error l 0).
Definition mm_call h om ob xs kw : res nd := fs <- base_call h om ob xs kw ;; first_of fs.
Definition mm_jac h om ob xs kw : res (option nd) :=
  match om_jac om with
  | None => Ok None
  | Some _ => js <- base_jac h om ob xs kw ;; j <- first_of js ;; Ok (Some j)
  end.
Definition mm_hess h om ob xs kw : res (option nd) :=
  match om_hess om with
  | None => Ok None
  | Some _ => hs <- base_hess h om ob xs kw ;; j <- first_of hs ;; Ok (Some j)
  end.

(** ** BaseObjective.__eq__, objectives.py:148-170 *)
Definition rtol : R := / 100000.          (* np.allclose: rtol=1e-05, atol=1e-08 *)
Definition atol : R := / 100000000.
Definition close (a b : R) : bool := if Rle_dec (Rabs (a - b)) (atol + rtol * Rabs b) then true else false.
(** [np.allclose(a, b)] *)
Definition allclose (a b : nd) : res bool :=
  match bshape (shp a) (shp b) with
  | None => Raise ValueError
  | Some s => Ok (forallb (fun i => close (elem a i) (elem b i)) (indices s))
  end.
(** [not equal] where [equal] is the array of comparisons with None: only for at
    most one element *)
Definition compare_none (a : nd) : res bool :=
  if Nat.leb (List.length (indices (shp a))) 1 then Ok false else Raise ValueError.
(** Lines 163-166 for one key; [o] is [other.data[key]].  [allclose] with None is a
    TypeError, then [==] is used. *)
Definition same_datum (o v : option nd) : res bool :=
  match o, v with
  | None, None => Ok true
  | Some a, Some b => allclose a b
  | Some a, None | None, Some a => compare_none a
  end.
(** The loop; [bound]: an earlier iteration has bound the name [equal] (to True).
    The [finally] clause reads [equal] also when an exception is pending: when the
    lookup or [allclose] raised something else than a TypeError, [equal] has not been
    assigned in this iteration; in the comparison with None it has, and the exception
    is the one of [not equal]. *)
Definition pending (bound : bool) (e : exn) : exn := if bound then e else UnboundLocalError.
Fixpoint eq_loop (bound : bool) (items : dict sym (option nd)) (other : dict sym (option nd)) : res bool :=
  match items with
  | [] => Ok true
  | (k, v) :: items' =>
      match dlook other k with
      | Raise e => Raise (pending bound e)
      | Ok o =>
          match same_datum o v with
          | Ok true => eq_loop true items' other
          | Ok false => Ok false
          | Raise e => Raise (match o, v with Some _, Some _ => pending bound e | _, _ => e end)
          end
      end
  end.
Definition obj_eq (cls1 cls2 : nat) (models_equal : bool) (d1 d2 : dict sym (option nd)) : res bool :=
  if Nat.eqb cls1 cls2 && models_equal then eq_loop false d1 d2 else Ok false.
