(** * TwinSpec: a numerical model whose callables compute expressions. *)
From Verif Require Import PyBase Expr Model ModelSpec NumSpec.

(** The callable [f] computes the expression [e]: given, as keywords in any order, a value for exactly the symbols of [e], it returns
    the value of [e]. *)
Definition computes {V} (A : alg V) (f : dict string V -> res V) (e : expr) : Prop :=
  forall kw v, NoDup (dkeys kw) -> (forall n a, In (n, a) kw <-> exists s, mentions e s /\ n = sname s /\ a = v s) -> f kw = Ok (eval A v e).
(** The components [items] with connectivity mapping [user] are those of [es], where some are callables instead of expressions, and the
    dependencies are the symbols the expressions contain. *)
Definition callables_for {V} (A : alg V) (es : dict sym expr) (items : dict sym (comp (V:=V))) (user : dict sym (list sym)) : Prop :=
  (forall k, In k (dkeys items) <-> In k (dkeys es)) /\
  (forall k e, In (k, CExpr e) items -> In (k, e) es) /\
  (forall k i f e, In (k, CFun i f) items -> In (k, e) es -> computes A f e) /\
  (forall k s, depends items user k s <-> exists e, In (k, e) es /\ mentions e s).
