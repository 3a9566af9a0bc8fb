(** * Printing: the numpy code symfit prints for matrix expressions.

    Models symfit/core/printing.py:41-62 (Inverse, HadamardProduct, HadamardPower) together
    with sympy's NumPyPrinter for the other constructors ("%s + %s" for a sum,
    "(%s).dot(%s)" for a matrix product).  Printed code is a list of tokens in which a
    bracketed group (the argument of a call, the operands of .dot) is one token; [value] is
    the meaning Python gives it: ** binds tighter than *, which binds tighter than +; ** is
    right associative, * and + left associative. *)
From Verif Require Import PyBase.
Local Open Scope string_scope.
Local Open Scope list_scope.

(** Matrix expressions. *)
Inductive mexpr :=
| MSym (n : string)
| MAdd (a b : mexpr)
| MDot (a b : mexpr)                 (* sympy MatMul *)
| MInv (a : mexpr)                   (* sympy Inverse *)
| MHad (a b : mexpr) (rest : list mexpr)   (* HadamardProduct(a, b, *rest) *)
| MHPow (a e : mexpr).               (* HadamardPower(a, e) *)

Inductive tok :=
| TName (n : string)
| TPlus | TStar | TPow
| TInv (l : list tok)                (* numpy.linalg.inv( l ) *)
| TDot (l m : list tok).             (* ( l ).dot( m ) *)

(** printing.py:41-62; [rest] is not printed. *)
Fixpoint print (e : mexpr) : list tok :=
  match e with
  | MSym n => [TName n]
  | MAdd a b => print a ++ [TPlus] ++ print b
  | MDot a b => [TDot (print a) (print b)]
  | MInv a => [TInv (print a)]
  | MHad a b _ => print a ++ [TStar] ++ print b
  | MHPow a e => print a ++ [TPow] ++ print e
  end.

Section Meaning.
  Context {V : Type} (add mul pow dot : V -> V -> V) (inv : V -> V) (env : string -> V).

  (** What an expression means: element-wise product and power of the arguments. *)
  Fixpoint denote (e : mexpr) : V :=
    match e with
    | MSym n => env n
    | MAdd a b => add (denote a) (denote b)
    | MDot a b => dot (denote a) (denote b)
    | MInv a => inv (denote a)
    | MHad a b rest => fold_left mul (map denote rest) (mul (denote a) (denote b))
    | MHPow a e => pow (denote a) (denote e)
    end.

  (** ** The meaning of Python code *)
  Inductive item := IVal (v : V) | IPlus | IStar | IPow | IErr.

  Definition is_plus (t : item) : bool := match t with IPlus => true | _ => false end.
  Definition is_star (t : item) : bool := match t with IStar => true | _ => false end.
  Definition is_pow (t : item) : bool := match t with IPow => true | _ => false end.

  Fixpoint split (p : item -> bool) (l : list item) : list (list item) :=
    match l with
    | [] => [[]]
    | x :: l' =>
        if p x then [] :: split p l'
        else match split p l' with s :: r => (x :: s) :: r | [] => [[x]] end
    end.

  Definition atom (l : list item) : option V := match l with [IVal v] => Some v | _ => None end.
  Fixpoint opts {B} (l : list (option B)) : option (list B) :=
    match l with
    | [] => Some []
    | None :: _ => None
    | Some x :: l' => option_map (cons x) (opts l')
    end.
  (** [a ** b ** c] is a ** (b ** c). *)
  Fixpoint pows (l : list V) : option V :=
    match l with [] => None | [v] => Some v | v :: l' => option_map (pow v) (pows l') end.
  Definition lefts (f : V -> V -> V) (l : list V) : option V :=
    match l with [] => None | v :: l' => Some (fold_left f l' v) end.
  Definition obind {B C} (o : option B) (f : B -> option C) : option C := match o with Some x => f x | None => None end.

  Definition power (l : list item) : option V := obind (opts (map atom (split is_pow l))) pows.
  Definition term (l : list item) : option V := obind (opts (map power (split is_star l))) (lefts mul).
  Definition arith (l : list item) : option V := obind (opts (map term (split is_plus l))) (lefts add).

  Fixpoint interp (t : tok) : item :=
    match t with
    | TName n => IVal (env n)
    | TPlus => IPlus
    | TStar => IStar
    | TPow => IPow
    | TInv l => match arith (map interp l) with Some v => IVal (inv v) | None => IErr end
    | TDot l m => match arith (map interp l), arith (map interp m) with
                  | Some v, Some w => IVal (dot v w) | _, _ => IErr end
    end.

  Definition value (l : list tok) : option V := arith (map interp l).
End Meaning.

(** The expressions whose Hadamard products have two arguments that are not sums, and whose
    Hadamard powers have a symbol, inverse or matrix product as base. *)
Inductive is_atom : mexpr -> Prop :=
| atom_sym n : is_atom (MSym n)
| atom_dot a b : is_atom (MDot a b)
| atom_inv a : is_atom (MInv a).
Inductive is_sum : mexpr -> Prop := sum_add a b : is_sum (MAdd a b).
Inductive is_hpow : mexpr -> Prop := hpow_pow a e : is_hpow (MHPow a e).
Inductive printable : mexpr -> Prop :=
| pr_sym n : printable (MSym n)
| pr_add a b : printable a -> printable b -> printable (MAdd a b)
| pr_dot a b : printable a -> printable b -> printable (MDot a b)
| pr_inv a : printable a -> printable (MInv a)
| pr_had a b : printable a -> printable b -> ~ is_sum a -> ~ is_sum b -> printable (MHad a b [])
| pr_hpow a e : printable a -> printable e -> is_atom a -> is_atom e \/ is_hpow e -> printable (MHPow a e).
