(** * Ode: symfit/core/models.py:982-1250, class ODEModel.

    Numbers are reals.  [solve_ivp] of scipy is an oracle [S] behind the argument
    checks scipy makes itself ([solve_ivp] below).  Matrices of solutions are lists
    of columns, one column per time. *)
From Coq Require Import Reals Lra.
From Verif Require Import PyBase Toposort Signature Expr Model ExprR Jacobian.
Local Open Scope R_scope.
Local Open Scope list_scope.

(** Boolean comparisons of numbers. *)
Definition reqb (x y : R) : bool := if Req_EM_T x y then true else false.
Definition rltb (x y : R) : bool := if Rlt_dec x y then true else false.
Definition rleb (x y : R) : bool := if Rle_dec x y then true else false.

(** A key of the dict given to ODEModel: [Derivative(y, v1, v2, ..)]. *)
Record odkey := { od_y : sym; od_vars : list sym }.
#[export] Instance eqdec_odkey : EqDec odkey.
Proof. intros x y. pose proof (@eq_dec sym _) as H. pose proof (list_eq_dec H). decide equality. Defined.

(** An initial value is a number or a Parameter. *)
Inductive oinit : Type := IVal (r : R) | IPar (p : sym).

(** Values of integrator options. *)
Inductive optval : Type := OStr (s : string) | ONum (r : R) | OOther (id : nat).

(** Values in a call: a scalar (Python or numpy), or a one-dimensional array. *)
Inductive oval : Type := VNum (r : R) | VArr (l : list R).

(** Attributes set by [__init__] (models.py:987-1053). *)
Record ode := {
  o_dict : dict odkey expr;
  o_initial : dict sym oinit;
  o_opts : dict string optval;
  o_indep : list sym;
  o_dep : list sym;
  o_model_params : list sym;
  o_initial_params : list sym;
  o_params : list sym;
  o_sig : signature
}.

(** 1000-1007: ['method'] is LSODA unless given; the tolerances of LSODA unless given. *)
Definition lsoda_tol : R := 149012 / 10000000000000.   (* 1.49012e-8 *)
Definition integrator_opts (user : dict string optval) : dict string optval :=
  let o := dupdate [("method", OStr "LSODA")]%string user in
  match dget o "method"%string with
  | Some (OStr "LSODA"%string) =>
      let o := if dmem o "atol"%string then o else dset o "atol"%string (ONum lsoda_tol) in
      if dmem o "rtol"%string then o else dset o "rtol"%string (ONum lsoda_tol)
  | _ => o
  end.

(** 1011: [list(d.free_symbols - set(d.variables))[0]]; the free symbols of
    D(y, ..) are those of y. *)
Definition dep_of (d : odkey) : res sym :=
  if inb (od_y d) (od_vars d) then Raise IndexError else Ok (od_y d).
(** 1016: [d.variables[0]]; sympy derivatives have at least one variable. *)
Definition var_of (d : odkey) : res sym :=
  match od_vars d with v :: _ => Ok v | [] => Raise IndexError end.

Definition init_param (i : oinit) : list sym := match i with IPar p => [p] | IVal _ => [] end.

(** [ODEModel(model_dict, initial, options)] *)
Definition init_ode (ord : list sym -> list sym) (items : dict odkey expr) (initial : dict sym oinit)
           (user : dict string optval) : res ode :=
  deps <- mapM (fun kv => dep_of (fst kv)) items ;;
  vars <- mapM (fun kv => var_of (fst kv)) items ;;
  let indep := sort_by sname (ord (dedup vars)) in
  if Nat.eqb (List.length indep) 1 then
    let model_params := dedup (flat_map (fun kv => snd (seperate_symbols ord (snd kv))) items) in
    let initial_params := dedup (flat_map (fun kv => init_param (snd kv)) initial) in
    let params := sort_by sname (ord (dedup (model_params ++ initial_params))) in
    sig <- make_signature indep params ;;
    Ok {| o_dict := sort_by (fun kv => sname (od_y (fst kv))) items;
          o_initial := initial;
          o_opts := integrator_opts user;
          o_indep := indep;
          o_dep := sort_by sname deps;
          o_model_params := sort_by sname (ord model_params);
          o_initial_params := sort_by sname (ord initial_params);
          o_params := params;
          o_sig := sig |}
  else Raise ModelError.

(** 1071-1082 [__getitem__]: the first equation for that variable, else None. *)
Definition ode_getitem (m : ode) (v : sym) : option expr :=
  option_map snd (find (fun kv => eqb v (od_y (fst kv))) (o_dict m)).

(** 1084-1088 [__iter__]; [keys], [values], [items] and [in] are those of
    collections.abc.Mapping: [k in m] is True unless [m[k]] raises KeyError. *)
Definition ode_keys (m : ode) : list sym := o_dep m.
Definition ode_values (m : ode) : list (option expr) := map (ode_getitem m) (ode_keys m).
Definition ode_len (m : ode) : nat := List.length (o_dict m).
Definition ode_contains (m : ode) (v : sym) : bool :=
  match ode_getitem m v with Some _ => true | None => true end.

(** 1090-1098 [__neg__] *)
Definition ode_neg (mulm1 : expr -> expr) (ord : list sym -> list sym) (m : ode) : res ode :=
  init_ode ord (map (fun kv => (fst kv, mulm1 (snd kv))) (o_dict m)) (o_initial m) [].

(** [sympy_to_py(expr, args)] called positionally (support.py:90-114): duplicate
    argument names are a SyntaxError of lambdify; sympifying None gives a function
    that returns None, reported here as TypeError. *)
Definition call_positional (e : option expr) (args : list sym) (vals : list R) : res R :=
  let names := map sname args in
  match e with
  | None => Raise TypeError
  | Some e => if nodupb names then
                if Nat.eqb (List.length vals) (List.length args)
                then eval_kw Ralg (combine names vals) e
                else Raise TypeError
              else Raise SyntaxError
  end.

Definition ode_args (m : ode) : list sym := o_indep m ++ o_dep m ++ o_model_params m.

(** 1100-1112, 1133-1136 [_ncomponents] and [system] *)
Definition system (m : ode) (t : R) (ys a : list R) : res (list R) :=
  mapM (fun e => call_positional e (ode_args m) (t :: ys ++ a)) (ode_values m).

(** 1114-1131, 1138-1140 [_njacobian] and [diff_system]; [simp] is the automatic
    simplification of sympy.diff.  Derivative symbols inside a right-hand side are
    taken to be constants. *)
Definition dsym (v s : sym) : res expr := Ok (ENum (if eq_dec s v then 1 else 0)%Z).
Definition odiff (simp : expr -> expr) (v : sym) (e : option expr) : res (option expr) :=
  match e with None => Ok None | Some e => d <- diff (dsym v) e ;; Ok (Some (simp d)) end.
Definition diff_system (simp : expr -> expr) (m : ode) (t : R) (ys a : list R) : res (list (list R)) :=
  mapM (fun e => mapM (fun v => d <- odiff simp v e ;; call_positional d (ode_args m) (t :: ys ++ a)) (o_dep m))
       (ode_values m).

(** ** scipy.integrate.solve_ivp *)
Record ivp_result := { r_success : bool; r_y : list (list R) }.
Record ivp := {
  i_sys : R -> list R -> list R -> res (list R);
  i_jac : R -> list R -> list R -> res (list (list R));
  i_span : R * R;
  i_y0 : list R;
  i_eval : list R;
  i_args : list R;
  i_opts : dict string optval
}.

Definition all_ascending (l : list R) : bool :=
  forallb (fun xy => rltb (fst xy) (snd xy)) (combine l (tl l)).
Definition all_descending (l : list R) : bool :=
  forallb (fun xy => rltb (snd xy) (fst xy)) (combine l (tl l)).

(** scipy 1.x, scipy/integrate/_ivp/ivp.py: the checks on [t_eval]: inside the
    span, and strictly monotone in the direction of the span (no check if the span
    is one point). *)
Definition solve_ivp (S : ivp -> res ivp_result) (p : ivp) : res ivp_result :=
  let '(t0, tf) := i_span p in
  if existsb (fun t => rltb t (Rmin t0 tf) || rltb (Rmax t0 tf) t) (i_eval p) then Raise ValueError
  else if (rltb t0 tf && negb (all_ascending (i_eval p))) || (rltb tf t0 && negb (all_descending (i_eval p)))
  then Raise ValueError
  else S p.

(** ** [eval_components], models.py:1142-1233 *)
Definition as_num (v : oval) : res R := match v with VNum r => Ok r | VArr _ => Raise TypeError end.

(** 1176-1188: the part from the initial time upwards, and the part downwards. *)
Definition split_times (t0 : R) (ts : list R) : list R * list R :=
  if existsb (fun t => reqb t t0) ts
  then (filter (fun t => rleb t0 t) ts, rev (filter (fun t => rleb t t0) ts))
  else (t0 :: filter (fun t => rltb t0 t) ts, t0 :: rev (filter (fun t => rltb t t0) ts)).

(** [ans[:, mask]] *)
Fixpoint mask_columns {X} (mask : list bool) (cols : list X) : list X :=
  match mask, cols with
  | b :: mask', c :: cols' => if b then c :: mask_columns mask' cols' else mask_columns mask' cols'
  | _, _ => []
  end.

(** 1196-1217: one call of the integrator, unless there is only one time. *)
Definition integrate (S : ivp -> res ivp_result) (simp : expr -> expr) (m : ode) (y0 args ts : list R)
  : res (option ivp_result) :=
  if Nat.ltb 1 (List.length ts) then
    r <- solve_ivp S {| i_sys := system m; i_jac := diff_system simp m;
                        i_span := (hd 0 ts, last ts 0); i_y0 := y0; i_eval := ts;
                        i_args := args; i_opts := o_opts m |} ;;
    Ok (Some r)
  else Ok None.

Definition check_success (r : ivp_result) : res (list (list R)) :=
  if r_success r then Ok (r_y r) else Raise ODEError.

(** 1219-1233: rejoin. [smaller.y[:, :0:-1]] is the reversed matrix without its last
    column; with both parts missing, [ans_bigger.success] is an AttributeError; a
    boolean index of the wrong length is an IndexError. *)
Definition rejoin (t0 : R) (ts tb tsm : list R) (bigger smaller : option ivp_result)
  : res (list (list R)) :=
  let t_total := removelast (rev tsm) ++ tb in
  ans <- match smaller, bigger with
         | Some s, Some b => ys <- check_success s ;; yb <- check_success b ;; Ok (rev (tl ys) ++ yb)
         | None, Some b => check_success b
         | None, None => Raise AttributeError
         | Some s, None => ys <- check_success s ;; Ok (rev ys)
         end ;;
  if existsb (fun t => reqb t t0) ts then Ok ans
  else if Nat.eqb (List.length t_total) (List.length ans)
       then Ok (mask_columns (map (fun t => negb (reqb t t0)) t_total) ans)
       else Raise IndexError.

(** 1155-1163 *)
Definition initial_value (m : ode) (bound : dict string oval) (i : oinit) : res R :=
  match i with
  | IVal r => Ok r
  | IPar p => if inb p (o_initial_params m) then v <- dlook bound (sname p) ;; as_num v else Raise TypeError
  end.

Definition ode_columns (S : ivp -> res ivp_result) (simp : expr -> expr) (m : ode)
           (args : list oval) (kw : dict string oval) : res (list (list R)) :=
  bound <- sig_bind (o_sig m) args kw ;;
  t <- of_opt IndexError (hd_error (o_indep m)) ;;
  t_like <- dlook bound (sname t) ;;
  init <- mapM (dlook (o_initial m)) (o_dep m) ;;
  y0 <- mapM (initial_value m bound) init ;;
  i0 <- dlook (o_initial m) t ;;
  (* a Parameter as initial time is not replaced by its value: comparing it fails *)
  t0 <- match i0 with IVal r => Ok r | IPar _ => Raise TypeError end ;;
  let at_initial := match t_like with VNum r => reqb r t0 | VArr _ => false end in
  if at_initial then Ok [y0]
  else
    let ts := match t_like with VNum r => [r] | VArr l => l end in
    let '(tb, tsm) := split_times t0 ts in
    margs <- mapM (fun p => v <- dlook bound (sname p) ;; as_num v) (o_model_params m) ;;
    bigger <- integrate S simp m y0 margs tb ;;
    smaller <- integrate S simp m y0 margs tsm ;;
    rejoin t0 ts tb tsm bigger smaller.

(** Row [i] of the matrix with these columns: what [ModelOutput] pairs with the
    i-th key. *)
Definition row (cols : list (list R)) (i : nat) : list R := map (fun c => nth i c 0) cols.
Definition rows (n : nat) (cols : list (list R)) : list (list R) := map (row cols) (seq 0 n).

(** 1235-1250 [__call__]: [ModelOutput(self.keys(), self.eval_components(..))] *)
Definition ode_call (S : ivp -> res ivp_result) (simp : expr -> expr) (m : ode)
           (args : list oval) (kw : dict string oval) : res (model_output (list R)) :=
  cols <- ode_columns S simp m args kw ;;
  Ok {| mo_vars := ode_keys m; mo_out := rows (List.length (o_dep m)) cols |}.
