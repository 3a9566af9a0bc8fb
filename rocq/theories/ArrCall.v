(** * ArrCall: ArrGen when all arrays live on one grid. *)
From Coq Require Import Reals Lra Lia.
From Coquelicot Require Import Coquelicot.
From Verif Require Import PyBase PyFacts Toposort ToposortFacts Signature SignatureFacts Expr Model ModelSpec ModelFacts CallFacts InitFacts ConstraintFacts AsConstraint ModelMisc ExprR Jacobian JacFacts JacAnalysis JacSecond JacLemmas Cast NumPy NumFacts Objective ObjSpec ObjFacts ObjLS ArrModel ArrSpec ArrFacts.
From Verif Require Export ArrGen.
Local Open Scope R_scope.

Section Arr.
  Notation comp := (comp (V:=res nd)).
  Context (simp : expr -> expr) (ord1 ord2 : list sym -> list sym) (items : dict sym comp) (m0 m : amodel) (ps : list sym).
  Hypothesis Hsimp : simp_ok simp.
  Hypothesis Ho1 : set_order ord1.
  Hypothesis Ho2 : set_order ord2.
  Hypothesis Hd : is_dict items.
  Hypothesis Hself : no_self_reference items.
  Hypothesis Hplain : plain_model items.
  Hypothesis Hpow : forall k e, In (k, CExpr e) items -> proper_powers e.
  Hypothesis Hi : init_model ord1 items = Ok m0.
  Hypothesis Hp : set_params m0 ps = Ok m.
  Hypothesis Hps : forall p, In p ps -> is_par p = true.
  Hypothesis Hsub : forall p, In p (m_params m0) -> In p ps.
  Context (G : list nat).
  (** every input is a scalar or has as many axes as the grid [G] *)
  Definition inputs_ok (inp : sym -> nd) : Prop := ArrGen.inputs_ok m (fun _ => on_grid G) inp.
  Definition value_spec sol (inp : sym -> nd) (o : dict sym nd) : Prop := ArrGen.value_spec ord2 items m (fun _ => on_grid G) sol inp o.
  Let Q0 : forall k, In k (dkeys items) -> (fun _ => on_grid G) k [] := fun _ _ => on_grid_nil G.
  Let Q2 : forall k, In k (dkeys items) -> forall s t, (fun _ => on_grid G) k s -> (fun _ => on_grid G) k t -> exists u, bshape s t = Some u /\ (fun _ => on_grid G) k u := fun _ _ => on_grid_lub G.
  Let Qr : forall k s a, refers items k s -> (fun _ => on_grid G) s a -> (fun _ => on_grid G) k a := fun _ _ _ _ H => H.
  Lemma arr_value sol inp : solves_for items sol -> distinct_names items -> (forall k p, In k (dkeys items) -> In p ps -> sname k <> sname p) ->
    inputs_ok inp -> exists o, value_spec sol inp o.
  Proof using Ho1 Ho2 Hd Hself Hplain Hpow Hi Hp Hsub.
    exact (ArrGen.arr_value ord1 ord2 items m0 m ps Ho1 Ho2 Hd Hself Hplain Hpow Hi Hp Hsub _ Q0 Q2 Qr sol inp).
  Qed.
  Lemma arr_jacobian J solJ inp o sol : ps <> [] -> jacobian_items simp ord2 m = Ok J -> distinct_names J ->
    (forall k p, In k (dkeys J) -> In p ps -> sname k <> sname p) ->
    solves_for J solJ -> value_spec sol inp o -> inputs_ok inp -> exists jac, jac_spec simp ord2 items m ps solJ inp o jac.
  Proof using Hsimp Ho1 Ho2 Hd Hself Hplain Hpow Hi Hp Hsub.
    exact (ArrGen.arr_jacobian simp ord1 ord2 items m0 m ps Hsimp Ho1 Ho2 Hd Hself Hplain Hpow Hi Hp Hsub _ Q0 Q2 Qr J solJ inp o sol).
  Qed.
  Lemma arr_hessian H solH inp o sol : ps <> [] -> hessian_items simp ord2 m = Ok H -> distinct_names H ->
    (forall k p, In k (dkeys H) -> In p ps -> sname k <> sname p) ->
    solves_for H solH -> value_spec sol inp o -> inputs_ok inp -> exists hess, hess_spec simp ord2 items m ps solH inp o hess.
  Proof using Hsimp Ho1 Ho2 Hd Hself Hplain Hpow Hi Hp Hsub.
    exact (ArrGen.arr_hessian simp ord1 ord2 items m0 m ps Hsimp Ho1 Ho2 Hd Hself Hplain Hpow Hi Hp Hsub _ Q0 Q2 Qr H solH inp o sol).
  Qed.
  Lemma arr_shapes sol inp inp' o o' : value_spec sol inp o -> value_spec sol inp' o' ->
    (forall s, In s (m_indep m ++ m_params m) -> shp (inp s) = shp (inp' s)) ->
    forall k, In k (dkeys items) -> exists c c', dget o k = Some c /\ dget o' k = Some c' /\ shp c = shp c'.
  Proof using Ho1 Hd Hself Hplain Hi Hp Hsub.
    exact (ArrGen.arr_shapes ord1 ord2 items m0 m ps Ho1 Hd Hself Hplain Hi Hp Hsub (fun _ => on_grid G) sol inp inp' o o').
  Qed.
End Arr.
