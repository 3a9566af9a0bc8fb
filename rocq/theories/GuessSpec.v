(** * GuessSpec: vocabulary for the statements about InteractiveGuess. *)
From Coq Require Import Reals.
From Verif Require Import PyBase Expr NumPy Model ModelSpec Objective ObjSpec Fit FitSpec.
Local Open Scope R_scope.

(** smallest and largest entry of an array *)
Definition least (a : nd) (m : R) : Prop :=
  (exists i, In i (indices (shp a)) /\ val a i = m) /\ forall i, In i (indices (shp a)) -> m <= val a i.
Definition greatest (a : nd) (m : R) : Prop :=
  (exists i, In i (indices (shp a)) /\ val a i = m) /\ forall i, In i (indices (shp a)) -> val a i <= m.

(** Called with one-dimensional arrays of the same length for the independent variables and
    numbers for the parameters, the model returns such an array for every dependent variable, and
    its entries are [f] of the numbers the model gets at that position. *)
Definition feed (X : sym -> nd) (theta : sym -> R) (s : sym) : nd := if is_par s then scalar (theta s) else X s.
Definition pointwise (om : omodel) (f : (sym -> R) -> sym -> R) : Prop :=
  forall N X theta, (0 < N)%nat -> (forall v, In v (om_indep om) -> shp (X v) = [N]) ->
    exists r, (forall d, (forall nm, dget d nm = dget (named (feed X theta) (om_indep om ++ om_params om)) nm) -> om_call om d = Ok r) /\
      NoDup (map sname (dkeys r)) /\
      forall y, In y (om_dep om) -> exists a, dget r y = Some a /\ shp a = [N] /\
        forall i, (i < N)%nat -> val a [i] = f (fun s => elem (feed X theta s) [i]) y.
(** What all models have: different names, parameters are Parameters, variables are not. *)
Definition well_typed (om : omodel) : Prop :=
  interface om /\ (forall p, In p (om_params om) -> is_par p = true) /\ (forall v, In v (om_indep om) -> is_par v = false).

(** The numbers the model gets: current parameter values, and [c] for the independent variables. *)
Definition point (h : heap) (c : dict sym R) (s : sym) : R :=
  if is_par s then p_value (h s) else match dget c s with Some t => t | None => 0 end.
(** The [i]-th of [n] points evenly spaced from [lo] to [hi] *)
Definition spaced (lo hi : R) (n i : nat) : R := lo + INR i * ((hi - lo) / INR (n - 1)).

(** Data a user gives for a variable *)
Definition data_of (om : omodel) (args : list datum) (kw : dict string datum) (v : sym) : option nd := datum_nd (data_for om [] args kw v).
(** Proper data: arrays that are not empty, for every variable. *)
Definition all_data (om : omodel) (args : list datum) (kw : dict string datum) : Prop :=
  FitSpec.well_formed (argument_names om []) args kw /\
  (forall v, In v (om_indep om ++ om_dep om) -> exists a, as_given (data_for om [] args kw v) = DArr a /\ ~ In 0%nat (shp a)) /\
  (forall v, In v (om_dep om) -> spreadable (data_for om [] args kw v) (data_for om [] args kw (sigma_of v))).

(** The last value a slider is moved to, if any. *)
Fixpoint last_move (moves : list (sym * R)) (p : sym) : option R :=
  match moves with
  | [] => None
  | (q, v) :: rest => match last_move rest p with Some w => Some w | None => if eq_dec p q then Some v else None end
  end.
(** A choice of one of [n] plot points per independent variable, with number [j] for variable number [k]. *)
Definition choice (nvars n k j : nat) (c : list nat) : Prop :=
  List.length c = nvars /\ (forall i, In i c -> (i < n)%nat) /\ nth_error c k = Some j.
(** The chosen points: variable number [i], drawn between the limits [xl], gets its point number [c_i]. *)
Definition place (xl : dict sym (R * R)) (n : nat) (c : list nat) : dict sym R :=
  map (fun kc => (fst (fst kc), spaced (fst (snd (fst kc))) (snd (snd (fst kc))) n (snd kc))) (combine xl c).
