(** * LaterSpec: when a Fit does not mind that parameters were changed after it was made. *)
From Verif Require Import PyBase Expr Model Objective Minimizer Fit FitSpec.

(** The same parameters are fixed. *)
Definition same_fixed (h0 h1 : heap) (om : omodel) : Prop := forall p, In p (om_params om) -> p_fixed (h0 p) = p_fixed (h1 p).
(** The minimizers are given as classes or objects, and none needs a local minimizer from Fit. *)
Definition explicit (m : mchoice) : Prop :=
  match m with MDefault => False | MItem i => i <> MCls BasinHopping | MSeq l => ~ In (MCls BasinHopping) l end.
(** .. or Fit would choose the same one: there are constraints, or in both cases some parameter is bounded or fixed, or in both cases none is. *)
Definition same_choice (h0 h1 : heap) (om : omodel) (cons : list fcon) (m : mchoice) : Prop :=
  explicit m \/ cons <> [] \/ (bounded_or_fixed h0 (om_params om) <-> bounded_or_fixed h1 (om_params om)).
