(** * FiniteDiff: [BaseGradientModel.finite_difference], symfit/core/models.py:709-787.

    The model is seen through its call interface.  To speak about the number of
    evaluations, the program carries the list of parameter vectors the model was
    called with so far. *)
From Coq Require Import Reals.
From Verif Require Import PyBase Signature Expr NumPy.
Local Open Scope R_scope.
Local Open Scope list_scope.

(** What [finite_difference] sees of [self]. *)
Record gmodel := {
  g_indep : list string;                 (* names of self.independent_vars *)
  g_params : list string;                (* names of self.params *)
  g_len : nat;                           (* len(self) *)
  g_call : list nd -> res (list nd)      (* self(positional arguments), as a tuple *)
}.

(** Programs that call the model: the log of parameter vectors, also when an exception is raised. *)
Definition calls := list (list R).
Definition prog (A : Type) := calls -> res A * calls.
Definition ret {A} (r : res A) : prog A := fun l => (r, l).
Definition pbind {A B} (m : prog A) (f : A -> prog B) : prog B :=
  fun l => match m l with (Ok a, l') => f a l' | (Raise e, l') => (Raise e, l') end.
Fixpoint pfold {A S} (f : S -> A -> prog S) (s : S) (l : list A) : prog S :=
  match l with [] => ret (Ok s) | x :: l' => pbind (f s x) (fun s' => pfold f s' l') end.

(** [f = partial(self, *var_vals)] applied to a parameter vector (735, 762-763) *)
Definition pcall (g : gmodel) (vars : list nd) (xs : list R) : prog (list nd) :=
  fun l => (g_call g (vars ++ map scalar xs), l ++ [xs]).

(** [np.array(param_vals, dtype=float)] (734).  Simplification: a parameter given as
    an array of one or more dimensions is a ValueError here (in the code it is one at
    line 760 unless the array has one element). *)
Definition as_float (a : nd) : res R := match shp a with [] => Ok (val a []) | _ => Raise ValueError end.

(** [l[k] = x] *)
Fixpoint list_set {A} (l : list A) (k : nat) (x : A) : list A :=
  match l, k with
  | [], _ => []
  | _ :: l', O => x :: l'
  | y :: l', S k' => y :: list_set l' k' x
  end.
Definition vadd (a b : list R) : list R := map (fun p => fst p + snd p) (combine a b).
Definition vsub (a b : list R) : list R := map (fun p => fst p - snd p) (combine a b).

(** 758-761 *)
Definition big_enough (v : R) : bool := if Rle_dec (/ 10000000) (Rabs v) then true else false.
Definition fd_h (dx v : R) (order : nat) : R :=
  let h := dx * INR order in if big_enough v then h * v else h.
(** 737-738 *)
Definition fd_orders : list (nat * R) := [(1%nat, 3 / 2); (2%nat, - (3 / 5)); (3%nat, 1 / 10)].

(** 774-781: the shape of a component; [len] of a 0-d array is a TypeError *)
Definition fd_shape (u : nd) : list nat := match shp u with [] => [1%nat] | s => s end.
(** 767-783: the output arrays *)
Definition fd_zeros (g : gmodel) (up : list nd) : res (list nd) :=
  mapM (fun c => u <- of_opt IndexError (nth_error up c) ;;
                 Ok {| shp := fd_shape u ++ [List.length (g_params g)]; val := fun _ => 0 |}) (seq 0 (g_len g)).
(** 784-786: [out[comp_idx][param_idx, :] += factor * diff / (2 * h)]; in place, so
    the right hand side must fit the row. *)
Definition fd_add (up down : list nd) (idx : nat) (factor h : R) (co : nat * nd) : res nd :=
  let '(c, o) := co in
  u <- of_opt IndexError (nth_error up c) ;;
  d <- of_opt IndexError (nth_error down c) ;;
  diff <- nsub u d ;;
  if fits (shp diff) (removelast (shp o)) then
    Ok {| shp := shp o;
          val := fun i => if Nat.eqb (last i 0%nat) idx
                          then val o i + factor * elem diff (removelast i) / (2 * h) else val o i |}
  else Raise ValueError.

(** 754-786: the body of the double loop *)
Definition fd_once (g : gmodel) (vars : list nd) (pv : list R) (dx : R) (jv : nat * R)
           (out : option (list nd)) (of : nat * R) : prog (option (list nd)) :=
  let '(idx, v) := jv in let '(order, factor) := of in
  let h := fd_h dx v order in
  let hs := list_set (map (fun _ => 0) (g_params g)) idx h in
  pbind (pcall g vars (vadd pv hs)) (fun up =>
  pbind (pcall g vars (vsub pv hs)) (fun down =>
  pbind (ret (match out with Some o => Ok o | None => fd_zeros g up end)) (fun o =>
  pbind (ret (mapM (fd_add up down idx factor h) (combine (seq 0 (g_len g)) o))) (fun o' =>
  ret (Ok (Some o')))))).

(** 717-787.  [None] is returned for a model without parameters. *)
Definition finite_difference (g : gmodel) (dx : R) (args : list nd) (kw : dict string nd) : prog (option (list nd)) :=
  pbind (ret (sig_bind (map pos_param (g_indep g ++ g_params g)) args kw)) (fun b =>
  pbind (ret (mapM (dlook b) (g_indep g))) (fun vars =>
  pbind (ret (mapM (fun n => a <- dlook b n ;; as_float a) (g_params g))) (fun pv =>
  pfold (fun out jv => pfold (fd_once g vars pv dx jv) out fd_orders) None
        (combine (seq 0 (List.length pv)) pv)))).
