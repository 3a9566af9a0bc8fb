(** * ResultsSpec: small vocabulary for the statements about fit results. *)
From Coq Require Import Reals.
From Verif Require Import PyBase Expr NumPy Objective ObjSpec Minimizer Fit FitSpec Results.
Local Open Scope R_scope.
Local Open Scope string_scope.
Local Open Scope list_scope.

(** Sum of the squared residuals, and of the squared deviations from the mean of each
    data set; variables without data are left out. *)
Definition residual_ss (data : dict sym (option nd)) (out : dict sym nd) (dep : list sym) : R :=
  Rsum (map (fun v => match observed data v with
                      | Some y => Rsum (map (fun i => (val y i - at_point (entry out v) y i) ^ 2) (indices (shp y)))
                      | None => 0 end) dep).
Definition average (y : nd) : R := Rsum (map (val y) (indices (shp y))) / INR (List.length (indices (shp y))).
Definition total_ss (data : dict sym (option nd)) (dep : list sym) : R :=
  Rsum (map (fun v => match observed data v with
                      | Some y => Rsum (map (fun i => (val y i - average y) ^ 2) (indices (shp y)))
                      | None => 0 end) dep).
(** The model's answer has a number for every data point, and as many axes as the data (or none). *)
Definition comparable_shapes (om : omodel) (data : dict sym (option nd)) (out : dict sym nd) : Prop :=
  forall v y, In v (om_dep om) -> observed data v = Some y ->
    stretches (entry out v) y /\ (shp (entry out v) = [] \/ List.length (shp (entry out v)) = List.length (shp y)).
(** The model goes through every data point. *)
Definition perfect (om : omodel) (data : dict sym (option nd)) (out : dict sym nd) : Prop :=
  forall v y i, In v (om_dep om) -> observed data v = Some y -> In i (indices (shp y)) -> at_point (entry out v) y i = val y i.
(** Some data set is not constant. *)
Definition varied (om : omodel) (data : dict sym (option nd)) : Prop :=
  exists v y i j, In v (om_dep om) /\ observed data v = Some y /\ In i (indices (shp y)) /\ In j (indices (shp y)) /\ val y i <> val y j.
(** Product of a list of numbers. *)
Fixpoint Rprod (l : list R) : R := match l with [] => 1 | x :: l' => x * Rprod l' end.
(** All values of the dependent variables. *)
Definition all_values (out : dict sym nd) (dep : list sym) : list R :=
  concat (map (fun v => map (val (entry out v)) (indices (shp (entry out v)))) dep).

(** Values without arrays inside, except arrays of one number (such as the 0-dimensional ones numpy returns as numbers). *)
Inductive plain : pyval -> Prop :=
| plain_none : plain VNone
| plain_num r : plain (VNum r)
| plain_one a : List.length (indices (shp a)) = 1%nat -> plain (VArr a)
| plain_str s : plain (VStr s)
| plain_obj c t : plain (VObj c t)
| plain_dict o d : (forall k v, In (k, v) d -> plain v) -> NoDup (map fst d) -> plain (VDict o d).
(** [v] is the number [r], or an array whose only element it is. *)
Definition is_number (v : pyval) (r : R) : Prop := v = VNum r \/ exists a i, v = VArr a /\ indices (shp a) = [i] /\ val a i = r.
(** Equal values: dicts with the same keys (in the same order when both are ordered) and equal values. *)
Inductive same_value : pyval -> pyval -> Prop :=
| same_none : same_value VNone VNone
| same_num v w r : is_number v r -> is_number w r -> same_value v w
| same_str s : same_value (VStr s) (VStr s)
| same_obj c t : same_value (VObj c t) (VObj c t)
| same_dict o o' d e : List.length d = List.length e -> (o = true -> o' = true -> map fst d = map fst e) ->
    (forall k v, In (k, v) d -> In k (map fst e)) ->
    (forall k v w, In (k, v) d -> dget e k = Some w -> same_value v w) -> same_value (VDict o d) (VDict o' e).
(** Arrays of the same shape with at least two elements, up to the tolerances of [np.allclose]. *)
Definition arrays (v w : pyval) (a b : nd) : Prop :=
  v = VArr a /\ w = VArr b /\ shp a = shp b /\ (2 <= List.length (indices (shp a)))%nat.
Definition all_close (a b : nd) : Prop :=
  forall i, In i (indices (shp a)) -> Rabs (val a i - val b i) <= / 100000000 + / 100000 * Rabs (val b i).
(** Entries that count as equal / that differ: [minimizer_output] is ignored, of [minimizer] only
    the class is compared. *)
Definition agrees (k : string) (v w : pyval) : Prop :=
  k = "minimizer_output" \/ (k = "minimizer" /\ class_of v = class_of w) \/
  (k <> "minimizer" /\ k <> "minimizer_output" /\
   ((plain v /\ plain w /\ same_value v w) \/ (exists a b, arrays v w a b /\ all_close a b))).
Definition plain_difference (k : string) (v w : pyval) : Prop :=
  (k = "minimizer" /\ class_of v <> class_of w) \/
  (k <> "minimizer" /\ k <> "minimizer_output" /\ plain v /\ plain w /\ ~ same_value v w).
Definition empty_arrays (v w : pyval) : Prop := exists a b, v = VArr a /\ w = VArr b /\ shp a = shp b /\ indices (shp a) = [].
(** None on one side, an array with two or more elements on the other (a covariance matrix that could be computed only once). *)
Definition none_and_array (v w : pyval) : Prop :=
  exists a, (2 <= List.length (indices (shp a)))%nat /\ ((v = VNone /\ w = VArr a) \/ (v = VArr a /\ w = VNone)).
Definition array_difference (k : string) (v w : pyval) : Prop :=
  k <> "minimizer" /\ k <> "minimizer_output" /\ exists a b, arrays v w a b /\ ~ all_close a b.

(** The minimizers of a chain. *)
Definition sub_minimizers (m : fmin) : list fmin := match m with FChain _ l => l | FMin _ _ => [] end.
Definition is_chain (m : fmin) : bool := match m with FChain _ _ => true | FMin _ _ => false end.
