(** * PyBase: the fragment of Python the model is written in.

    Exceptions are values ([res]); a Python dict is an association list in
    insertion order (Python >= 3.7); [sorted(.., key=..)] is a stable insertion
    sort.  Nothing here is specific to symfit; it models the Python language
    constructs the cited functions use. *)
From Coq Require Export String Ascii Bool Arith ZArith Lia List Permutation.
Export ListNotations.
Open Scope string_scope.
Open Scope list_scope.

(** ** Exceptions as values *)
Inductive exn : Type :=
| KeyError | TypeError | ValueError | IndexError | AttributeError
| ModelError | CircularDependencyError | AssertionError | UnboundLocalError
| NotImplementedError | ODEError | NameError | StopIteration | LinAlgError
| RuntimeWarning | ZeroDivisionError | SyntaxError | OutOfFuel.

Inductive res (A : Type) : Type :=
| Ok (a : A)
| Raise (e : exn).
Arguments Ok {A} a.
Arguments Raise {A} e.

Definition bind {A B} (r : res A) (f : A -> res B) : res B :=
  match r with Ok a => f a | Raise e => Raise e end.
Notation "x <- r ;; k" := (bind r (fun x => k))
  (at level 61, r at next level, right associativity).
Notation "' p <- r ;; k" := (bind r (fun x => match x with p => k end))
  (at level 61, p pattern, r at next level, right associativity).

Definition of_opt {A} (e : exn) (o : option A) : res A :=
  match o with Some a => Ok a | None => Raise e end.

(** A list comprehension [[f(x) for x in l]] where [f] may raise. *)
Fixpoint mapM {A B} (f : A -> res B) (l : list A) : res (list B) :=
  match l with
  | [] => Ok []
  | x :: l' => y <- f x ;; ys <- mapM f l' ;; Ok (y :: ys)
  end.

(** A [for x in l: s = f(s, x)] loop whose body may raise. *)
Fixpoint foldM {A S} (f : S -> A -> res S) (s : S) (l : list A) : res S :=
  match l with
  | [] => Ok s
  | x :: l' => s' <- f s x ;; foldM f s' l'
  end.

(** ** Decidable equality *)
Class EqDec (A : Type) := eq_dec : forall x y : A, {x = y} + {x <> y}.
#[export] Instance eqdec_string : EqDec string := String.string_dec.
#[export] Instance eqdec_nat : EqDec nat := Nat.eq_dec.
#[export] Instance eqdec_bool : EqDec bool := Bool.bool_dec.
#[export] Instance eqdec_Z : EqDec Z := Z.eq_dec.
#[export] Instance eqdec_list {A} `{EqDec A} : EqDec (list A) := list_eq_dec eq_dec.
#[export] Instance eqdec_prod {A B} `{EqDec A} `{EqDec B} : EqDec (A * B).
Proof. intros x y. unfold EqDec in *. decide equality. Defined.

Definition eqb {A} `{EqDec A} (x y : A) : bool := if eq_dec x y then true else false.

(** [x in l] *)
Definition inb {A} `{EqDec A} (x : A) (l : list A) : bool :=
  existsb (eqb x) l.
Arguments eqb : simpl never.
Arguments inb : simpl never.

(** A Python [set] built from a list: duplicates removed (first occurrence kept). *)
Fixpoint dedup {A} `{EqDec A} (l : list A) : list A :=
  match l with
  | [] => []
  | x :: l' => x :: filter (fun y => negb (eqb x y)) (dedup l')
  end.

(** Set difference / removal on list-represented sets. *)
Definition diffl {A} `{EqDec A} (l m : list A) : list A :=
  filter (fun x => negb (inb x m)) l.

(** ** dict: association list in insertion order *)
Definition dict (K V : Type) := list (K * V).

Section Dict.
  Context {K V : Type} `{EqDec K}.
  Fixpoint dget (d : dict K V) (k : K) : option V :=
    match d with
    | [] => None
    | (k', v) :: d' => if eq_dec k k' then Some v else dget d' k
    end.
  Definition dmem (d : dict K V) (k : K) : bool :=
    match dget d k with Some _ => true | None => false end.
  (** [d[k] = v]: keeps the position of an existing key, else appends. *)
  Fixpoint dset (d : dict K V) (k : K) (v : V) : dict K V :=
    match d with
    | [] => [(k, v)]
    | (k', v') :: d' => if eq_dec k k' then (k', v) :: d' else (k', v') :: dset d' k v
    end.
  Definition ddel (d : dict K V) (k : K) : dict K V :=
    filter (fun kv => negb (eqb k (fst kv))) d.
  Definition dkeys (d : dict K V) : list K := map fst d.
  Definition dvals (d : dict K V) : list V := map snd d.
  (** [d.update(e)] *)
  Definition dupdate (d e : dict K V) : dict K V :=
    fold_left (fun acc kv => dset acc (fst kv) (snd kv)) e d.
  (** [dict(pairs)] *)
  Definition dict_of (l : list (K * V)) : dict K V := dupdate [] l.
  (** [d[k]], raising KeyError *)
  Definition dlook (d : dict K V) (k : K) : res V := of_opt KeyError (dget d k).
End Dict.

Section Sort.
  Context {A : Type} (leb : A -> A -> bool).
  (** Insert before the first element that is strictly bigger, going from the
      right end: [insert] puts [x], which comes before everything in [l] in the
      original list, in front of elements equal to it: stable. *)
  Fixpoint insert (x : A) (l : list A) : list A :=
    match l with
    | [] => [x]
    | y :: l' => if leb x y then x :: y :: l' else y :: insert x l'
    end.
  Fixpoint isort (l : list A) : list A :=
    match l with
    | [] => []
    | x :: l' => insert x (isort l')
    end.
End Sort.

(** Python's [str] order: by code point. *)
Definition strleb (a b : string) : bool := String.leb a b.

(** [sorted(l, key=key)] for a string valued key. *)
Definition sort_by {A} (key : A -> string) (l : list A) : list A :=
  isort (fun a b => strleb (key a) (key b)) l.

(** Decimal rendering of a natural number, [str(n)]. *)
From Coq Require Import DecimalString DecimalNat.
Definition string_of_nat (n : nat) : string :=
  NilZero.string_of_uint (Nat.to_uint n).
