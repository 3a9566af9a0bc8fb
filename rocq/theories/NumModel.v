(** * NumModel: models with Python callables as components
    (symfit/core/models.py:540-623 [BaseNumericalModel], 814-853 [CallableNumericalModel]).

    [init_numerical] is in Model.v; here are the two remaining constructors and [__eq__]. *)
From Verif Require Import PyBase Signature Expr Model.

Section Num.
  Context {V : Type}.
  Notation model := (model (V:=V)).
  Notation comp := (comp (V:=V)).

  (** models.py:557-572: the deprecated [independent_vars], [params] form: every component
      depends on all of them. *)
  Definition init_deprecated (ord : list sym -> list sym) (items : dict sym comp)
             (indep params : list sym) : res model :=
    classify ord (sort_items items) (map (fun kc => (fst kc, dedup (indep ++ params))) items).

  (** models.py:605-612 [__eq__].  Dicts of sets are equal when they have the same keys
      with the same elements; two components are equal when both are expressions and
      structurally equal, or both are the same function object.  [other[key]] may be a
      KeyError. *)
  Definition set_eq (l m : list sym) : bool := forallb (fun x => inb x m) l && forallb (fun x => inb x l) m.
  Definition conn_eq (c1 c2 : dict sym (list sym)) : bool :=
    Nat.eqb (List.length c1) (List.length c2) &&
    forallb (fun kd => match dget c2 (fst kd) with Some d => set_eq (snd kd) d | None => false end) c1.
  Definition comp_eq (a b : comp) : bool :=
    match a, b with
    | CExpr e, CExpr e' => eqb e e'
    | CFun i _, CFun j _ => Nat.eqb i j
    | _, _ => false
    end.
  Fixpoint eq_loop (d : dict sym comp) (other : dict sym comp) : res bool :=
    match d with
    | [] => Ok true
    | (k, f) :: d' => g <- dlook other k ;; if comp_eq f g then eq_loop d' other else Ok false
    end.
  Definition num_eq (m1 m2 : model) : res bool :=
    if conn_eq (m_conn m1) (m_conn m2) then eq_loop (m_dict m1) (m_dict m2) else Ok false.
End Num.
