(** * ExprCall: calling an expression, and the function sympy_to_py returns.

    Models symfit/core/operators.py:48-92 and symfit/core/support.py:90-145. *)
From Verif Require Import PyBase Signature Expr.
Local Open Scope string_scope.
Local Open Scope list_scope.

Section Call.
  Context {V : Type} (A : alg V).

  (** symfit/core/operators.py:48-92 [call], installed as [Expr.__call__].  With two
      symbols of the same name lambdify produces 'lambda x, x: ..', a SyntaxError. *)
  Definition expr_call (ord : list sym -> list sym) (e : expr) (args : list V) (kw : dict string V) : res V :=
    let '(vars, params) := seperate_symbols ord e in
    let names := map sname (vars ++ params) in
    if negb (nodupb names) then Raise SyntaxError
    else
      let relevant := filter (fun nv => inb (fst nv) names) kw in
      sig <- mk_signature (map pos_param names) ;;
      bound <- sig_bind sig args relevant ;;
      sympy_to_py A e (vars ++ params) bound.

  (** sympy's [lambdify(args, func, dummify=False)]: a function whose parameters are
      called [dn]; they are the names of the symbols [args], or the names of Dummy symbols
      where sympy had to invent one.  It evaluates the expression with each symbol of
      [args] replaced by the parameter at the same position. *)
  Definition lambdified (e : expr) (args : list sym) (dn : list string) (pos : list V) (kw : dict string V) : res V :=
    b <- sig_bind (map pos_param dn) pos kw ;;
    eval_kw A (combine (map sname args) (dvals b)) e.

  (** A Python function: the names [inspect.signature] shows, and what a call does. *)
  Record pyfun := { f_names : list string; f_call : list V -> dict string V -> res V }.

  (** symfit/core/support.py:90-145 [sympy_to_py], with the renaming of arguments (105-140) *)
  Definition sympy_to_pyfun (e : expr) (args : list sym) (dn : list string) : pyfun :=
    let lam := lambdified e args dn in
    let arg_names := map sname args in
    if forallb (fun p => eqb (fst p) (snd p)) (combine arg_names dn)
    then {| f_names := dn; f_call := lam |}
    else
      let conversion := dict_of (combine arg_names dn) in
      {| f_names := dkeys conversion;
         f_call := fun pos kw =>
           conv <- mapM (fun nv => k <- dlook conversion (fst nv) ;; Ok (k, snd nv)) kw ;;
           lam pos (dict_of conv) |}.
End Call.
Arguments expr_call {V} A ord e args kw.
Arguments lambdified {V} A e args dn pos kw.
Arguments sympy_to_pyfun {V} A e args dn.
Arguments f_names {V} p.
Arguments f_call {V} p _ _.
