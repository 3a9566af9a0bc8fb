(** * Expr: symbols and symbolic expressions.

    Models the part of sympy that symfit builds its models from: Variables and
    Parameters (symfit/core/argument.py:19-149), Derivative symbols D(y, a, ..)
    of a variable with respect to parameters (symfit/core/support.py:308-324),
    and expressions over them.  Simplifications: sympy's automatic term rewriting
    is not modelled here (theorems that need it quantify over every
    meaning-preserving rewriting), relations, matrices and Idx objects are not
    part of the expression language. *)
From Verif Require Import PyBase.

(** ** Symbols.  Variable and Parameter are different sympy classes, so a
    Variable and a Parameter with the same name are different symbols. *)
Inductive sym : Type :=
| SVar (n : string)                      (* symfit.Variable(n) *)
| SPar (n : string)                      (* symfit.Parameter(n) *)
| SDer (y : string) (ps : list string).  (* D(Variable y, Parameter p1, ..) *)

#[export] Instance eqdec_sym : EqDec sym.
Proof. intros x y. pose proof (list_eq_dec string_dec). decide equality; apply string_dec. Defined.

Definition is_par (s : sym) : bool := match s with SPar _ => true | _ => false end.
Definition is_der (s : sym) : bool := match s with SDer _ _ => true | _ => false end.

(** [Derivative.variable_count]: adjacent equal variables are merged. *)
Fixpoint runs (l : list string) : list (string * nat) :=
  match l with
  | [] => []
  | x :: l' =>
      match runs l' with
      | (y, n) :: r => if string_dec x y then (y, S n) :: r else (x, 1) :: (y, n) :: r
      | [] => [(x, 1)]
      end
  end.

Definition count_str (n : nat) : string := if Nat.ltb 1 n then string_of_nat n else "".

(** symfit/core/support.py:313-323 [name], installed as [Derivative.name]
    (symfit/core/support.py:324), and
    [Symbol.name] for the other symbols. *)
Definition sname (s : sym) : string :=
  match s with
  | SVar n => n
  | SPar n => n
  | SDer y ps =>
      ("d" ++ count_str (List.length ps) ++ y ++ "_" ++
       String.concat "" (map (fun vc => "d" ++ fst vc ++ count_str (snd vc)) (runs ps)))%string
  end.

(** ** Expressions *)
Inductive ufun : Type := Fexp | Flog | Fsin | Fcos.
#[export] Instance eqdec_ufun : EqDec ufun.
Proof. intros x y; decide equality. Defined.

Inductive expr : Type :=
| ENum (z : Z)
| ESym (s : sym)
| EAdd (a b : expr)
| EMul (a b : expr)
| EPow (a : expr) (n : nat)
| EInv (a : expr)
| EFun (f : ufun) (a : expr).

#[export] Instance eqdec_expr : EqDec expr.
Proof.
  intros x y.
  pose proof Z.eq_dec. pose proof (@eq_dec sym _). pose proof Nat.eq_dec. pose proof (@eq_dec ufun _).
  decide equality.
Defined.

Definition ENeg (a : expr) : expr := EMul a (ENum (-1)).
Definition ESub (a b : expr) : expr := EAdd a (ENeg b).

(** Number systems expressions are evaluated in: the theorems about derivatives
    use the reals, the examples the integers. *)
Record alg (V : Type) := {
  a_num : Z -> V;
  a_add : V -> V -> V;
  a_mul : V -> V -> V;
  a_inv : V -> V;
  a_fun : ufun -> V -> V
}.
Arguments a_num {V} _ _.
Arguments a_add {V} _ _ _.
Arguments a_mul {V} _ _ _.
Arguments a_inv {V} _ _.
Arguments a_fun {V} _ _ _.

Fixpoint a_pow {V} (A : alg V) (x : V) (n : nat) : V :=
  match n with 0 => a_num A 1 | S n' => a_mul A x (a_pow A x n') end.

(** The meaning of an expression. *)
Fixpoint eval {V} (A : alg V) (env : sym -> V) (e : expr) : V :=
  match e with
  | ENum z => a_num A z
  | ESym s => env s
  | EAdd a b => a_add A (eval A env a) (eval A env b)
  | EMul a b => a_mul A (eval A env a) (eval A env b)
  | EPow a n => a_pow A (eval A env a) n
  | EInv a => a_inv A (eval A env a)
  | EFun f a => a_fun A f (eval A env a)
  end.

(** The symbols occurring in an expression, with repetition. *)
Fixpoint occs (e : expr) : list sym :=
  match e with
  | ENum _ => []
  | ESym s => [s]
  | EAdd a b | EMul a b => occs a ++ occs b
  | EPow a _ | EInv a | EFun _ a => occs a
  end.

(** sympy [expr.free_symbols]: a derivative D(y, a) contributes y only (the
    variables of differentiation of an unevaluated Derivative are bound). *)
Definition free_of (s : sym) : sym := match s with SDer y _ => SVar y | _ => s end.
Definition free_symbols (e : expr) : list sym := dedup (map free_of (occs e)).
(** sympy [expr.atoms(Derivative)] *)
Definition deriv_atoms (e : expr) : list sym := dedup (filter is_der (occs e)).

(** symfit/core/support.py:51-88 [seperate_symbols].  [ord] is the iteration
    order of the Python sets.  Every derivative that can occur is one of a
    variable with respect to Parameters, so the test in line 83 succeeds. *)
Definition seperate_symbols (ord : list sym -> list sym) (e : expr) : list sym * list sym :=
  let free := ord (free_symbols e) in
  let vars := filter (fun s => negb (is_par s)) free ++ ord (deriv_atoms e) in
  let params := filter is_par free in
  (sort_by sname vars, sort_by sname params).

(** symfit/core/models.py:402: [set(vars + params)]. *)
Definition expr_deps (ord : list sym -> list sym) (e : expr) : list sym :=
  let '(vars, params) := seperate_symbols ord e in vars ++ params.

(** symfit/core/support.py:90-114 [sympy_to_py] for the normal case in which
    lambdify keeps the argument names: a function of keyword arguments that
    evaluates the expression with every symbol replaced by the argument of its
    name; derivatives are replaced by a variable of their name first (lines
    100-104).  A missing or surplus keyword is a TypeError; a symbol of the
    expression that is not among the arguments a NameError. *)
Fixpoint eval_kw {V} (A : alg V) (kw : dict string V) (e : expr) : res V :=
  match e with
  | ENum z => Ok (a_num A z)
  | ESym s => of_opt NameError (dget kw (sname s))
  | EAdd a b => x <- eval_kw A kw a ;; y <- eval_kw A kw b ;; Ok (a_add A x y)
  | EMul a b => x <- eval_kw A kw a ;; y <- eval_kw A kw b ;; Ok (a_mul A x y)
  | EPow a n => x <- eval_kw A kw a ;; Ok (a_pow A x n)
  | EInv a => x <- eval_kw A kw a ;; Ok (a_inv A x)
  | EFun f a => x <- eval_kw A kw a ;; Ok (a_fun A f x)
  end.

Definition sympy_to_py {V} (A : alg V) (e : expr) (args : list sym) (kw : dict string V) : res V :=
  let names := map sname args in
  if forallb (fun n => dmem kw n) names && forallb (fun n => inb n names) (dkeys kw)
  then eval_kw A kw e
  else Raise TypeError.
