(** * ExprR: expressions over the real numbers. *)
From Coq Require Import Reals Lra.
From Verif Require Import PyBase Expr Model.
Local Open Scope R_scope.

(** Floating point arithmetic is idealised to real arithmetic.  [Rinv 0] and
    [ln] of a non-positive number are unspecified/zero here while numpy returns
    inf or nan; theorems that could be affected carry a domain hypothesis. *)
Definition Ralg : alg R := {|
  a_num := IZR;
  a_add := Rplus;
  a_mul := Rmult;
  a_inv := Rinv;
  a_fun := fun f => match f with Fexp => exp | Flog => ln | Fsin => sin | Fcos => cos end
|}.

(** What a relation, and a constraint [g] of a type, mean at given numbers. *)
Definition rel_holds (r : rel) (x y : R) : Prop :=
  match r with
  | REq => x = y | RGe => x >= y | RLe => x <= y | RGt => x > y | RLt => x < y | RNe => x <> y
  end.
Definition constraint_holds (ty : rel) (g : R) : Prop := rel_holds ty g 0.

Lemma eval_ESub env l h : eval Ralg env (ESub l h) = eval Ralg env l - eval Ralg env h.
Proof. unfold ESub, ENeg. simpl. lra. Qed.
