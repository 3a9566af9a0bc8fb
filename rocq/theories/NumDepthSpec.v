(** * NumDepthSpec: chains of dependencies in a numerical model. *)
From Verif Require Import PyBase Expr Model ModelSpec NumSpec.

(** [depends_down items user s n]: there is a chain of [n] dependencies starting at [s]: [s] depends on a symbol, which
    depends on another, and so on. *)
Inductive depends_down {V} (items : dict sym (comp (V:=V))) (user : dict sym (list sym)) : sym -> nat -> Prop :=
| ndown_0 s : depends_down items user s 0
| ndown_S s t n : depends items user s t -> depends_down items user t n -> depends_down items user s (S n).
