(** * ModelSpec: what a model means, stated without the model's own machinery.

    A model dict is a system of equations [name = expression].  Its meaning at
    given inputs is the assignment of a value to every symbol that satisfies all
    equations and takes the inputs for the symbols that have no equation. *)
From Verif Require Import PyBase Expr Model.
From Coq Require Import Relations.

(** Iterating over a Python set visits every element once, in some order. *)
Definition set_order (ord : list sym -> list sym) : Prop := forall l, Permutation (ord l) l.

(** A model dict has every key once; all components are symbolic. *)
Definition is_dict {K X} (d : dict K X) : Prop := NoDup (dkeys d).
Definition symbolic {V} (items : dict sym (comp (V:=V))) : Prop :=
  forall k c, In (k, c) items -> exists e, c = CExpr e.

(** [k] refers to [s]: [s] occurs in the expression of [k] (D(y,a) also counts as
    an occurrence of y, as in sympy's [free_symbols] plus [atoms(Derivative)]). *)
Definition mentions (e : expr) (s : sym) : Prop :=
  In s (occs e) \/ exists y ps, In (SDer y ps) (occs e) /\ s = SVar y.
Definition refers {V} (items : dict sym (comp (V:=V))) (k s : sym) : Prop :=
  exists e, In (k, CExpr e) items /\ mentions e s.
Definition symbol_of {V} (items : dict sym (comp (V:=V))) (s : sym) : Prop :=
  In s (dkeys items) \/ exists k, refers items k s.

(** No two different symbols of the model have the same name. *)
Definition distinct_names {V} (items : dict sym (comp (V:=V))) : Prop :=
  forall s t, symbol_of items s -> symbol_of items t -> sname s = sname t -> s = t.

Definition no_self_reference {V} (items : dict sym (comp (V:=V))) : Prop :=
  forall k, ~ refers items k k.

(** [refers_down items s n]: there is a chain of [n] references starting at [s]: [s] refers to another symbol,
    that one (if it is a component) to another, and so on. *)
Inductive refers_down {V} (items : dict sym (comp (V:=V))) : sym -> nat -> Prop :=
| down_0 s : refers_down items s 0
| down_S s t n : refers items s t -> t <> s -> refers_down items t n -> refers_down items s (S n).

(** The solution of the system of equations. *)
Definition solution {V} (A : alg V) (items : dict sym (comp (V:=V))) (inp val : sym -> V) : Prop :=
  (forall k e, In (k, CExpr e) items -> val k = eval A val e) /\
  (forall s, ~ In s (dkeys items) -> val s = inp s).

(** [args] and [kw] together supply the named values [l]: the first ones
    positionally, the rest by keyword in any order. *)
Definition supplies {V} (l : list (string * V)) (args : list V) (kw : dict string V) : Prop :=
  exists k, args = map snd (firstn k l) /\ Permutation kw (skipn k l).

Definition named {V} (inp : sym -> V) (ss : list sym) : list (string * V) :=
  map (fun s => (sname s, inp s)) ss.

(** [inp] with the value of one symbol changed. *)
Definition set_input {V} (inp : sym -> V) (p : sym) (v : V) : sym -> V :=
  fun s => if eq_dec s p then v else inp s.

(** A model as the user writes it: components are named by Variables and their
    expressions contain no derivative symbols. *)
Definition plain_model {V} (items : dict sym (comp (V:=V))) : Prop :=
  (forall k, In k (dkeys items) -> exists n, k = SVar n) /\
  (forall k s, refers items k s -> is_der s = false).
