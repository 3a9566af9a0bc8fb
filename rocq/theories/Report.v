(** * Report: what is printed: symfit/core/fit_results.py:60-93 [FitResults.__str__] and
    symfit/core/models.py:471-495 [BaseModel.__str__].

    How numbers, arrays, expressions and objects look as text is left open: a [printer]. *)
From Coq Require Import Reals Ascii.
From Verif Require Import PyBase Signature Expr NumPy Model Objective Minimizer Fit Results ArrModel ConModel.
Local Open Scope R_scope.
Local Open Scope string_scope.
Local Open Scope list_scope.

(** ['{:e}'.format(x)]; [str(x)] of a number (also a 0-dimensional array), of an array, of a sympy expression, of a callable. *)
Record printer := { pr_e : R -> string; pr_num : R -> string; pr_arr : nd -> string; pr_expr : expr -> string; pr_callable : nat -> string }.
Definition pr_nd (pr : printer) (a : nd) : string := match shp a with [] => pr_num pr (val a []) | _ => pr_arr pr a end.
Definition pr_comp {V} (pr : printer) (c : comp (V:=V)) : string := match c with CExpr e => pr_expr pr e | CFun id _ => pr_callable pr id end.

(** "\n" *)
Definition nl : string := String (ascii_of_nat 10) "".
(** ['{:n}'] and ['{:<n}']: fill up with blanks on the right *)
Fixpoint blanks (n : nat) : string := match n with O => "" | S k => String " " (blanks k) end.
Definition pad (n : nat) (s : string) : string := (s ++ blanks (n - String.length s))%string.
(** [sep.join(l)] *)
Fixpoint join (sep : string) (l : list string) : string :=
  match l with [] => "" | [s] => s | s :: l' => (s ++ sep ++ join sep l')%string end.
Definition cat (l : list string) : string := fold_right append "" l.

(** ** A constraint of the result: a MinimizeModel of a constraint model *)
Record rcon := { rc_rel : rel; rc_comp : res string; rc_call : dict string R -> res nd }.
(** [sympy.Rel.rel_op] *)
Definition rel_op (r : rel) : string :=
  match r with REq => "==" | RNe => "!=" | RGe => ">=" | RGt => ">" | RLe => "<=" | RLt => "<" end.
(** [a[0]] *)
Definition index0 (a : nd) : res nd :=
  match shp a with
  | [] => Raise IndexError
  | _ => if Nat.ltb 0 (last (shp a) 0%nat) then Ok {| shp := removelast (shp a); val := fun i => val a (i ++ [0%nat]) |} else Raise IndexError
  end.

(** ** fit_results.py:60-93 *)
(** 66-70; [np.sqrt] of a negative number is nan *)
Definition stdev_text (pr : printer) (ps : list sym) (cov : option nd) (p : sym) : res string :=
  v <- variance ps cov p ;;
  s <- stdev ps cov p ;;
  Ok (match v, s with
      | Some v, Some s => if Rlt_dec v 0 then "nan" else pr_e pr s
      | _, _ => "None"
      end).
(** 71 *)
Definition param_row (pr : printer) (ps : list sym) (params : dict string R) (cov : option nd) (p : sym) : res string :=
  v <- value params p ;;
  s <- stdev_text pr ps cov p ;;
  Ok (pad 10 (sname p) ++ pr_e pr v ++ " " ++ s ++ nl)%string.
Definition label (n s : string) : string := (pad 22 n ++ " " ++ s)%string.
(** 86-91 *)
Definition con_text (pr : printer) (params : dict string R) (c : rcon) : res string :=
  e <- rc_comp c ;;
  a <- rc_call c params ;;
  v <- index0 a ;;
  Ok ("Question: " ++ e ++ " " ++ rel_op (rc_rel c) ++ " 0?" ++ nl ++
      "Answer:   " ++ pr_nd pr v ++ nl ++ nl)%string.
(** [status]: the message of the minimizer; [nit]: 'nit' of its output; [objective], [minimizer]: [str] of these objects. *)
Definition str_results (pr : printer) (status : string) (nit : option nat) (objective minimizer : string)
           (ps : list sym) (r : report) (cons : list rcon) : res string :=
  rows <- mapM (param_row pr ps (rp_params r) (rp_cov r)) ps ;;
  cs <- mapM (con_text pr (rp_params r)) cons ;;
  Ok (nl ++ "Parameter Value        Standard Deviation" ++ nl ++ cat rows ++
      label "Status message" status ++ nl ++
      label "Number of iterations" (match nit with Some n => string_of_nat n | None => "None" end) ++ nl ++
      label "Objective" objective ++ nl ++
      label "Minimizer" minimizer ++ nl ++
      nl ++ "Goodness of fit qualifiers:" ++ nl ++
      join nl (map (fun kv => label (fst kv) (pr_nd pr (snd kv))) (sort_by fst (rp_gof r))) ++
      match cons with
      | [] => ""
      | _ => nl ++ nl ++ "Constraints:" ++ nl ++ "--------------------" ++ nl ++ cat cs
      end)%string.

(** ** The constraints of the result of a Fit.
    fit.py:553-571: the constraint models *)
Definition constraint_models (sub : expr -> expr -> expr) (mulm1 : expr -> expr) (ord : list sym -> list sym) (m : amodel) (us : list user_con) : res (list (amodel * rel)) :=
  mapM (fun u => as_constraint sub mulm1 (uc_name u) ord (CRel (uc_rel u) (uc_left u) (uc_right u)) m) us.
(** fit.py:526-537: their objectives; [constraint.model[constraint.model.dependent_vars[0]]] *)
Definition result_con (cls : ArrModel.mclass) (simp : expr -> expr) (ord : list sym -> list sym) (h : heap) (data : dict sym (option nd)) (pr : printer)
           (cr : amodel * rel) : res rcon :=
  let om := om_of cls simp ord (fst cr) in
  ob <- mm_init om data ;;
  Ok {| rc_rel := snd cr;
        rc_comp := v <- of_opt IndexError (nth_error (m_dep (fst cr)) 0) ;; c <- dlook (m_dict (fst cr)) v ;; Ok (pr_comp pr c);
        rc_call := fun params => mm_call h om ob [] params |}.
(** minimizers.py:114-122, 500-503 and fit_results.py:38: the minimizers that take constraints pass them on to the
    result; for the others there are none. *)
Definition result_constraints (cls : ArrModel.mclass) (simp : expr -> expr) (sub : expr -> expr -> expr) (mulm1 : expr -> expr) (ord : list sym -> list sym)
           (h : heap) (m : amodel) (us : list user_con) (data : dict sym (option nd)) (pr : printer) (mn : minimizer) : res (list rcon) :=
  if is_constrained (mi_class mn) then crs <- constraint_models sub mulm1 ord m us ;; mapM (result_con cls simp ord h data pr) crs else Ok [].

(** ** models.py:471-495; [sorted] of a set of symbols by name.  The text of a key: its name; a derivative is printed by sympy *)
Definition key_text (pr : printer) (v : sym) : string := if is_der v then pr_expr pr (ESym v) else sname v.
Definition model_part {V} (pr : printer) (ord : list sym -> list sym) (conn : dict sym (list sym)) (vc : sym * comp (V:=V)) : res string :=
  deps <- dlook conn (fst vc) ;;
  let params := sort_by sname (filter is_par (ord deps)) in
  let vars := sort_by sname (filter (fun x => negb (inb x params)) (ord deps)) in
  Ok (key_text pr (fst vc) ++ "(" ++ join ", " (map sname vars) ++ "; " ++ join ", " (map sname params) ++ ") = " ++ pr_comp pr (snd vc))%string.
Definition str_model {V} (pr : printer) (ord : list sym -> list sym) (m : model (V:=V)) : res string :=
  parts <- mapM (model_part pr ord (m_conn m)) (m_dict m) ;;
  Ok ("[" ++ join ("," ++ nl ++ " ") parts ++ "]")%string.
