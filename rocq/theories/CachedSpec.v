(** * CachedSpec: what C54 and C16 say, independently of the implementation of the cache. *)
From Verif Require Import PyBase Cached.

Section Spec.
  Context {V : Type}.
  (** The attributes a program may read. *)
  Inductive may_read : prog (V := V) -> string -> Prop :=
  | MR_here a k : may_read (PGet a k) a
  | MR_later a k r b : may_read (k r) b -> may_read (PGet a k) b.

  (** The properties of a class do not refer to themselves: they can be ranked. *)
  Definition ranked (K : klass (V := V)) (rank : string -> nat) : Prop :=
    forall a body b, dget K a = Some body -> may_read body b -> rank b < rank a.

  (** The value of attribute [a] when nothing at all is cached: a property is computed
      every time it is needed. *)
  Fixpoint run_plain (get : string -> res V) (b : prog (V := V)) : res V :=
    match b with PRet r => r | PGet a k => run_plain get (k (get a)) end.
  Fixpoint plain (K : klass (V := V)) (fuel : nat) (d : dict string V) (a : string) : res V :=
    match fuel with
    | O => Raise OutOfFuel
    | S f => match dget K a with
             | None => of_opt AttributeError (dget d a)
             | Some body => run_plain (plain K f d) body
             end
    end.

  (** [a] is an ordinary attribute name: not a cached property, not a cache slot. *)
  Definition ordinary (K : klass (V := V)) (a : string) : Prop := dget K a = None /\ String.prefix base_str a = false.

  Definition computed (a : string) (l : list string) : nat := count_occ string_dec l a.
End Spec.
