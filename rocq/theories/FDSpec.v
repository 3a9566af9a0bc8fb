(** * FDSpec: what sixth order central differences are, independently of the code. *)
From Coq Require Import Reals.
From Verif Require Import PyBase NumPy FiniteDiff.
Local Open Scope R_scope.

(** The vector [xs] with entry [j] replaced by [t]. *)
Definition with_entry (xs : list R) (j : nat) (t : R) : list R :=
  map (fun k => if Nat.eqb k j then t else nth k xs 0) (seq 0 (List.length xs)).

(** The step used for a parameter of value [v]: relative unless [v] is nearly zero. *)
Definition step_of (dx v : R) : R := if Rle_dec (/ 10000000) (Rabs v) then dx * v else dx.

(** The six point central difference of [f] at [x]. *)
Definition central6 (f : R -> R) (x h : R) : R :=
  3 / 2 * ((f (x + h) - f (x - h)) / (2 * h))
  - 3 / 5 * ((f (x + 2 * h) - f (x - 2 * h)) / (2 * (2 * h)))
  + 1 / 10 * ((f (x + 3 * h) - f (x - 3 * h)) / (2 * (3 * h))).

(** The parameter vectors used: one of the values [pv] moved by one, two or three steps up or down. *)
Definition stencil (dx : R) (pv xs : list R) : Prop :=
  exists j k, (j < List.length pv)%nat /\ (1 <= k <= 3)%nat /\
    let x := nth j pv 0 in let h := step_of dx x in
    (xs = with_entry pv j (x + INR k * h) \/ xs = with_entry pv j (x - INR k * h)).

(** Called with each of these parameter vectors, the model returns the components [F], whose
    shapes do not depend on the parameters. *)
Definition evaluates (g : gmodel) (vars : list nd) (sh : nat -> list nat) (F : list R -> nat -> nd) (dx : R) (pv : list R) : Prop :=
  forall xs, stencil dx pv xs ->
    g_call g (vars ++ map scalar xs) = Ok (map (F xs) (seq 0 (g_len g))) /\
    (forall c, (c < g_len g)%nat -> shp (F xs c) = sh c).
