(** * Jacobian: analytical Jacobians and Hessians.

    symfit/core/models.py:351-389 (vars_as_functions, function_dict), 856-950
    (GradientModel, HessianModel), 1258-1337 (_partial_diff, _partial_subs,
    jacobian_from_model, hessian_from_model). *)
From Verif Require Import PyBase Signature Expr Model.

(** ** Function objects.  models.py:351-376 turns every component [y] into an
    applied undefined function [y(args)]; its arguments are symbols or again
    function objects. *)
Inductive fobj : Type :=
| FSym (s : sym)
| FApp (n : string) (args : list fobj).

(** sympy [f.free_symbols] *)
Fixpoint ffree (f : fobj) : list sym :=
  match f with
  | FSym s => [s]
  | FApp _ args => flat_map ffree args
  end.

(** ** Differentiation *)
(** models.py:1258-1267 [_partial_diff]: D(y, p) and D(D(y, ps), p) = D(y, ps, p). *)
Definition der_of (k : sym) (p : string) : sym :=
  match k with
  | SVar y => SDer y [p]
  | SPar y => SDer y [p]
  | SDer y ps => SDer y (ps ++ [p])
  end.
(** sympy puts the variables of an evaluated Derivative in canonical order. *)
Definition canon (s : sym) : sym :=
  match s with SDer y ps => SDer y (sort_by (fun n => n) ps) | _ => s end.
Definition base (s : sym) : sym := match s with SDer y _ => SVar y | _ => s end.

(** sympy [s.diff(p)] for an atom [s] of a component in which the component names
    have been replaced by function objects ([v2f]).  [f(args).diff(p)] is the sum,
    over the arguments that depend on [p], of [f.fdiff(i) * args[i].diff(p)]
    (sympy Function._eval_derivative, Function.fdiff).
    - No argument depends on p: 0.
    - Only p itself does: Derivative(f(args), p), which becomes D(f, p) when the
      function objects are turned back into variables (models.py:1312).
    - An argument that is a function depends on p: the result contains
      Derivative(f, g) or Subs(..), which are not symbols of the built model (support.py:77-84
      ignores derivatives with respect to variables) and cannot be evaluated.
      Such an expression is outside the expression language; here building the
      Jacobian fails with NameError, where the code fails when the built model is
      evaluated. *)
Definition diff_sym (v2f : dict sym fobj) (p : sym) (s : sym) : res expr :=
  match dget v2f (base s) with
  | Some (FApp _ args) =>
      match filter (fun a => inb p (ffree a)) args with
      | [] => Ok (ENum 0)
      | [FSym _] => Ok (ESym (canon (der_of s (sname p))))
      | _ => Raise NameError
      end
  | _ => Ok (ENum (if eqb s p then 1 else 0))
  end.

(** sympy [expr.diff(p)]: the elementary rules. *)
Fixpoint diff (ds : sym -> res expr) (e : expr) : res expr :=
  match e with
  | ENum _ => Ok (ENum 0)
  | ESym s => ds s
  | EAdd a b => a' <- diff ds a ;; b' <- diff ds b ;; Ok (EAdd a' b')
  | EMul a b => a' <- diff ds a ;; b' <- diff ds b ;; Ok (EAdd (EMul a' b) (EMul a b'))
  | EPow a n => a' <- diff ds a ;;
      Ok (match n with 0 => ENum 0 | S k => EMul (EMul (ENum (Z.of_nat n)) (EPow a k)) a' end)
  | EInv a => a' <- diff ds a ;; Ok (EMul (ENum (-1)) (EMul a' (EPow (EInv a) 2)))
  | EFun f a => a' <- diff ds a ;;
      Ok (match f with
          | Fexp => EMul a' (EFun Fexp a)
          | Flog => EMul a' (EInv a)
          | Fsin => EMul a' (EFun Fcos a)
          | Fcos => EMul (ENum (-1)) (EMul a' (EFun Fsin a))
          end)
  end.

Section Jac.
  Context {V : Type} (A : alg V).
  Notation model := (model (V:=V)).
  Notation comp := (comp (V:=V)).
  (** sympy simplifies what [diff] returns. *)
  Context (simp : expr -> expr).

  (** models.py:351-376 [vars_as_functions]: in topological order every component
      becomes a function of its dependencies, which are replaced by their function
      object if they have one.  The order of the arguments (374) has no
      influence on derivatives and is not modelled. *)
  Definition vaf_step (m : model) (acc : dict sym fobj) (s : sym) : dict sym fobj :=
    match dget (m_conn m) s with
    | Some deps =>
        dset acc s (FApp (sname s)
          (map (fun d => match dget acc d with Some f => f | None => FSym d end) deps))
    | None => acc
    end.
  Definition vars_as_functions (ord : list sym -> list sym) (m : model) : res (dict sym fobj) :=
    syms <- ordered_symbols ord m ;; Ok (fold_left (vaf_step m) syms []).

  (** models.py:1283-1322 [jacobian_from_model], without the construction of the
      CallableModel: one component D(k, p) for every component k and parameter p
      (the loop runs over [function_dict], i.e. in the order of [v2f]), updated
      with the components of the model itself. *)
  Definition jac_rows (v2f : dict sym fobj) (params : list sym) (items : dict sym comp)
    : res (list (sym * comp)) :=
    rows <- mapM (fun kc =>
        mapM (fun p => match snd kc with
                       | CExpr e => e' <- diff (diff_sym v2f p) e ;;
                                    Ok (der_of (fst kc) (sname p), CExpr (simp e'))
                       | CFun _ _ => Raise AttributeError
                       end) params) items ;;
    Ok (concat rows).
  Definition jac_items (v2f : dict sym fobj) (params : list sym) (items : dict sym comp)
    : res (dict sym comp) :=
    rows <- jac_rows v2f params items ;; Ok (dupdate (dict_of rows) items).

  (** models.py:863-867 [jacobian_model]; line 866 sets the parameters. *)
  Definition jacobian_items (ord : list sym -> list sym) (m : model) : res (dict sym comp) :=
    v2f <- vars_as_functions ord m ;; jac_items v2f (m_params m) (m_dict m).
  Definition jacobian_model (ord : list sym -> list sym) (m : model) : res model :=
    d <- jacobian_items ord m ;; jm <- init_model ord d ;; set_params jm (m_params m).

  (** models.py:1324-1336 [hessian_from_model]: the Jacobian of the Jacobian.  The
      intermediate model is built with function objects in place of the component
      names; the function objects that occur in it are those of the model. *)
  Definition hessian_items (ord : list sym -> list sym) (m : model) : res (dict sym comp) :=
    v2f <- vars_as_functions ord m ;;
    j <- jac_items v2f (m_params m) (m_dict m) ;;
    jac_items v2f (m_params m) j.
  Definition hessian_model (ord : list sym -> list sym) (m : model) : res model :=
    d <- hessian_items ord m ;; hm <- init_model ord d ;; set_params hm (m_params m).

  (** models.py:887-905 [eval_jacobian]: 0 for a component that is absent.  The
      broadcasting of the entries to the shape of the component is not modelled:
      values are elements of a number system. *)
  Definition out_or_zero (d : dict sym V) (k : sym) : V :=
    match dget d k with Some v => v | None => a_num A 0 end.
  Definition eval_jacobian (ord : list sym -> list sym) (m : model) (args : list V) (kw : dict string V)
    : res (list (list V)) :=
    jm <- jacobian_model ord m ;;
    o <- call A ord jm args kw ;;
    let d := mo_dict o in
    Ok (map (fun v => map (fun p => out_or_zero d (der_of v (sname p))) (m_params m)) (dkeys (m_dict m))).

  (** models.py:930-950 [eval_hessian] *)
  Definition eval_hessian (ord : list sym -> list sym) (m : model) (args : list V) (kw : dict string V)
    : res (list (list (list V))) :=
    hm <- hessian_model ord m ;;
    o <- call A ord hm args kw ;;
    let d := mo_dict o in
    Ok (map (fun v => map (fun p1 => map (fun p2 =>
          out_or_zero d (der_of (der_of v (sname p1)) (sname p2))) (m_params m)) (m_params m))
        (dkeys (m_dict m))).
End Jac.
