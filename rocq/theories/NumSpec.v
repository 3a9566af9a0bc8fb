(** * NumSpec: what a numerical model means. *)
From Verif Require Import PyBase Expr Model ModelSpec.

(** [k] depends on [s]: the given mapping says so; for a component that is not in the
    mapping, its expression contains [s]. *)
Definition depends {V} (items : dict sym (comp (V:=V))) (user : dict sym (list sym)) (k s : sym) : Prop :=
  match dget user k with Some deps => In s deps | None => refers items k s end.
Definition nsymbol {V} (items : dict sym (comp (V:=V))) user (s : sym) : Prop :=
  In s (dkeys items) \/ exists k, depends items user k s.

(** What the documentation asks of the caller: a mapping of sets, for components of the
    model and at least for the callables among them, naming every symbol of the expressions
    it overrides; components are not Parameters, do not depend on themselves, and all
    symbols have different names. *)
Record proper_numerical {V} (items : dict sym (comp (V:=V))) (user : dict sym (list sym)) : Prop := {
  pn_dict : is_dict items;
  pn_user : is_dict user;
  pn_sets : forall k deps, In (k, deps) user -> NoDup deps;
  pn_keys : forall k, In k (dkeys user) -> In k (dkeys items);
  pn_callables : forall k i f, In (k, CFun i f) items -> In k (dkeys user);
  pn_exprs : forall k e deps s, In (k, CExpr e) items -> In (k, deps) user -> In s (occs e) -> In s deps;
  pn_noself : forall k, ~ depends items user k k;
  pn_vars : forall k, In k (dkeys items) -> is_par k = false;
  pn_names : forall s t, nsymbol items user s -> nsymbol items user t -> sname s = sname t -> s = t
}.

(** The values of all symbols: an expression has its value, a callable returns its value when
    it gets exactly the values of its dependencies as keywords, all else is input. *)
Definition nsolution {V} (A : alg V) (items : dict sym (comp (V:=V))) (user : dict sym (list sym)) (inp val : sym -> V) : Prop :=
  (forall k e, In (k, CExpr e) items -> val k = eval A val e) /\
  (forall k i f kw, In (k, CFun i f) items -> NoDup (dkeys kw) ->
     (forall n v, In (n, v) kw <-> exists s, depends items user k s /\ n = sname s /\ v = val s) -> f kw = Ok (val k)) /\
  (forall s, ~ In s (dkeys items) -> val s = inp s).
