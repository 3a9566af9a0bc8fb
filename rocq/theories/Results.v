(** * Results: symfit/core/fit_results.py. *)
From Coq Require Import Reals.
From Verif Require Import PyBase Signature Expr NumPy Model Objective Minimizer Fit.
Local Open Scope R_scope.
Local Open Scope string_scope.
Local Open Scope list_scope.

(** ** Looking up parameters, fit_results.py:119-162.  [ps] is [model.params]. *)
(** [self.model.params.index(param)] *)
Fixpoint param_index (ps : list sym) (p : sym) : res nat :=
  match ps with
  | [] => Raise ValueError
  | q :: ps' => if eq_dec q p then Ok 0%nat else k <- param_index ps' p ;; Ok (S k)
  end.
(** [a[i, j]] for a numpy array: IndexError unless a matrix that has these indices *)
Definition index2 (a : nd) (i j : nat) : res R :=
  match shp a with
  | [n1; n0] => if Nat.ltb i n0 && Nat.ltb j n1 then Ok (val a [j; i]) else Raise IndexError
  | _ => Raise IndexError
  end.
(** 119-126 [value] *)
Definition value (params : dict string R) (p : sym) : res R := dlook params (sname p).
(** 128-140 [variance]; None is Python's None *)
Definition variance (ps : list sym) (cov : option nd) (p : sym) : res (option R) :=
  k <- param_index ps p ;;
  match cov with Some a => r <- index2 a k k ;; Ok (Some r) | None => Ok None end.
(** 106-117 [stdev] *)
Definition stdev (ps : list sym) (cov : option nd) (p : sym) : res (option R) :=
  match variance ps cov p with
  | Ok (Some r) => Ok (Some (sqrt r))
  | Ok None => Ok None                                   (* np.sqrt(None): TypeError *)
  | Raise AttributeError | Raise TypeError => Ok None
  | Raise e => Raise e
  end.
(** 142-152 [covariance] *)
Definition param_covariance (ps : list sym) (cov : option nd) (p q : sym) : res R :=
  k <- param_index ps p ;;
  l <- param_index ps q ;;
  match cov with Some a => index2 a k l | None => Raise TypeError end.

(** ** r_squared, fit_results.py:255-275 *)
(** calling a model with positional and keyword arguments, models.py:671-687 *)
Definition call_with (om : omodel) (args : list nd) (kw : dict string nd) : res (dict sym nd) :=
  b <- sig_bind (map pos_param (om_names om)) args kw ;; om_call om b.
Definition mean (a : nd) : R := np_sum a / INR (List.length (indices (shp a))).
Definition present (data : dict sym (option nd)) (vs : list sym) : list (option nd) :=
  concat (map (fun v => match dget data v with Some x => [x] | None => [] end) vs).
(** one term of SS_res: nothing for None *)
Definition ss_res_term (yf : option nd * nd) : res (list R) :=
  match fst yf with
  | None => Ok []
  | Some y => d <- nsub y (snd yf) ;; Ok [np_sum (nsq d)]
  end.
Definition ss_tot_term (y : option nd) : res (list R) :=
  match y with
  | None => Ok []
  | Some y => d <- nsub y (scalar (mean y)) ;; Ok [np_sum (nsq d)]
  end.
(** None as data of an independent variable is a TypeError here, as in [compute_inv]. *)
Definition r_squared (om : omodel) (params : dict string R) (data : dict sym (option nd)) : res R :=
  let y_is := present data (om_dep om) in
  x_is <- mapM (of_opt TypeError) (present data (om_indep om)) ;;
  f <- call_with om x_is (map (fun kv => (fst kv, scalar (snd kv))) params) ;;
  f_is <- mapM (dlook f) (om_dep om) ;;
  res <- mapM ss_res_term (combine y_is f_is) ;;
  tot <- mapM ss_tot_term y_is ;;
  Ok (1 - Rsum (concat res) / Rsum (concat tot)).

(** ** Goodness of fit, fit_results.py:215-252; [fun] is [minimizer_output['fun']] *)
Definition gof_qualifiers (c : oclass) (om : omodel) (data : dict sym (option nd)) (params : dict string R) (fn_value : nd)
  : res (dict string nd) :=
  let g0 := [("objective_value", fn_value)] in
  g1 <- match c with
        | OLS | OVLS => r <- r_squared om params data ;; Ok (dset g0 "r_squared" (scalar r))
        | _ => Ok g0
        end ;;
  match c with
  | OVLS => Ok (dset g1 "chi_squared" (scalar (np_sum (nsq fn_value))))
  | OLS => Ok (dset g1 "chi_squared" (npmap (Rmult 2) fn_value))
  | OLL => let l := nneg fn_value in Ok (dset (dset g1 "log_likelihood" l) "likelihood" (npmap exp l))
  | OMM => Ok g1
  end.
(** 94-104 [__getattr__], for names that are not attributes of the object *)
Definition get_qualifier (g : dict string nd) (item : string) : res nd := of_opt AttributeError (dget g item).
(** 52-57 [iterations] *)
Definition iterations {V} (minimizer_output : dict string V) : option V := dget minimizer_output "nit".

(** The result of a Fit: minimizers.py:351-386 and fit.py:562-577.  The qualifiers are
    computed when the minimizer packs its output, the covariance matrix later by Fit. *)
Record report := { rp_params : dict string R; rp_popt : list R; rp_cov : option nd; rp_gof : dict string nd }.
Definition fit_report (inv : nd -> res nd) (h : heap) (om : omodel) (f : fit) (x : list R) (fn_value : nd) : res report :=
  popt <- pack_output h (om_params om) x ;;
  g <- gof_qualifiers (ft_class f) om (ob_data (ft_obj f)) (result_params (om_params om) popt) fn_value ;;
  cov <- covariance inv h om (ft_data f) (ft_absolute f) (ft_class f) (ft_obj f) popt ;;
  Ok {| rp_params := result_params (om_params om) popt; rp_popt := popt; rp_cov := cov; rp_gof := g |}.

(** ** Pickling, fit_results.py:185-213.  The class of a minimizer object: *)
Inductive mtype := TMin (c : mclass) | TChain.
Definition type_of (m : fmin) : mtype := match m with FMin m _ => TMin (mi_class m) | FChain _ _ => TChain end.
Definition parameters_of (m : fmin) : list sym := match m with FMin m _ => mi_parameters m | FChain ps _ => ps end.
Inductive mclasses := COne (t : mtype) | CMany (l : list mtype).
(** 185-202: what is stored instead of the minimizer (and its objective) *)
Definition getstate (m : fmin) : mclasses * list sym :=
  (match m with
   | FChain _ l => CMany (TChain :: map type_of l)
   | _ => COne (type_of m)
   end, parameters_of m).
(** [cls(objective, parameters)]: no Jacobian, Hessian or constraints; BasinHopping gets
    BFGS as local minimizer (minimizers.py:680-707); [ChainedMinimizer(objective, parameters)]
    has no minimizers to iterate over (225) *)
Definition construct (h : heap) (ps : list sym) (t : mtype) : res fmin :=
  match t with
  | TMin BasinHopping => m <- minimizer_init h BasinHopping ps None None [] ;;
                         l <- minimizer_init h BFGS ps None None [] ;; Ok (FMin m (Some l))
  | TMin c => m <- minimizer_init h c ps None None [] ;; Ok (FMin m None)
  | TChain => Raise TypeError
  end.
(** 204-213; a TypeError raised while the minimizers of a chain are created is taken for
    "not iterable", then a list is called *)
Definition setstate (h : heap) (s : mclasses * list sym) : res fmin :=
  match fst s with
  | COne t => construct h (snd s) t
  | CMany l =>
      match mapM (construct h (snd s)) (tl l) with
      | Ok ms => match l with TChain :: _ => Ok (FChain (snd s) ms) | _ => Raise TypeError end
      | Raise e => Raise e                               (* for TypeError: TypeError again *)
      end
  end.

(** ** _array_safe_dict_eq, fit_results.py:154-183 *)
(** Values of the attribute dict.  [VObj c t]: any other object, of class number [c], equal to
    itself only.  [VDict true]: OrderedDict. *)
Inductive pyval :=
| VNone | VNum (r : R) | VStr (s : string) | VArr (a : nd) | VObj (c t : nat) | VDict (ordered : bool) (d : list (string * pyval)).
Definition class_of (v : pyval) : nat :=
  match v with VNone => 0 | VNum _ => 1 | VStr _ => 2 | VArr _ => 3 | VDict false _ => 4 | VDict true _ => 5 | VObj c _ => 6 + c end%nat.
Definition Reqb (x y : R) : bool := if Req_EM_T x y then true else false.
(** [bool(a == b)] for arrays: ValueError for more than one element (and for shapes that
    do not match, numpy >= 1.25); False for none *)
Definition array_eq (a b : nd) : res bool :=
  match bshape (shp a) (shp b) with
  | None => Raise ValueError
  | Some s => match indices s with
              | [] => Ok false
              | [i] => Ok (Reqb (elem a i) (elem b i))
              | _ => Raise ValueError
              end
  end.
(** [a == b] of values.  Identity of the objects is not modelled (dict comparison skips
    [==] for identical values). *)
Fixpoint py_eq (v w : pyval) {struct v} : res bool :=
  match v, w with
  | VNone, VNone => Ok true
  | VNum x, VNum y => Ok (Reqb x y)
  | VStr x, VStr y => Ok (eqb x y)
  | VArr a, VArr b => array_eq a b
  | VArr a, VNum y => array_eq a (scalar y)
  | VNum x, VArr b => array_eq (scalar x) b
  | VArr a, _ | _, VArr a => compare_none a
  | VObj c t, VObj c' t' => Ok (Nat.eqb c c' && Nat.eqb t t')
  | VDict o d, VDict o' e =>
      if Nat.eqb (List.length d) (List.length e) && (negb (o && o') || eqb (map fst d) (map fst e)) then
        (fix go (d : list (string * pyval)) : res bool :=
           match d with
           | [] => Ok true
           | (k, v) :: d' => match dget e k with
                             | None => Ok false
                             | Some w => b <- py_eq v w ;; if b then go d' else Ok false
                             end
           end) d
      else Ok false
  | _, _ => Ok false
  end.
(** [np.allclose(v, w)] for non-dict values *)
Definition as_array (v : pyval) : res nd :=
  match v with VArr a => Ok a | VNum r => Ok (scalar r) | _ => Raise TypeError end.
Definition py_allclose (v w : pyval) : res bool := a <- as_array v ;; b <- as_array w ;; allclose a b.
Definition assert_ (r : res bool) : res bool :=
  match r with Ok true => Ok true | Ok false => Raise AssertionError | Raise e => Raise e end.
(** [other[key]] *)
Definition subscript (w : pyval) (k : string) : res pyval :=
  match w with VDict _ e => dlook e k | VArr _ => Raise IndexError | _ => Raise TypeError end.
(** [_array_safe_dict_eq(v, w)]; an AssertionError of the [try] body returns False, one
    raised in the [except ValueError] clause escapes *)
Fixpoint safe_dict_eq (v w : pyval) {struct v} : res bool :=
  match v with
  | VDict _ d =>
      (fix go (d : list (string * pyval)) : res bool :=
         match d with
         | [] => Ok true
         | (k, v) :: d' =>
             if eqb k "minimizer_output" then go d'
             else
             match subscript w k with
             | Raise e => Raise e
             | Ok x =>
                 if eqb k "minimizer" then (if Nat.eqb (class_of v) (class_of x) then go d' else Ok false)
                 else match py_eq v x with
                      | Ok true => go d'
                      | Ok false => Ok false
                      | Raise ValueError =>
                          match assert_ (match v with VDict _ _ => safe_dict_eq v x | _ => py_allclose v x end) with
                          | Ok _ => go d'
                          | Raise e => Raise e
                          end
                      | Raise e => Raise e
                      end
             end
         end) d
  | _ => Raise TypeError
  end.
