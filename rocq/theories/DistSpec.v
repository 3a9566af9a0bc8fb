(** * DistSpec: improper integrals. *)
From Coq Require Import Reals.
From Coquelicot Require Import Coquelicot.
Local Open Scope R_scope.

(** [f] is integrable on every interval, and the integral over [[a, b]] gets as close to [l]
    as one likes once [a] is small and [b] is large enough. *)
Definition integrates_to (f : R -> R) (l : R) : Prop :=
  (forall a b, ex_RInt f a b) /\
  forall eps : R, 0 < eps -> exists M : R, forall a b : R, a < - M -> M < b -> Rabs (RInt f a b - l) < eps.

(** The same from [a] upwards. *)
Definition integrates_from (f : R -> R) (a l : R) : Prop :=
  (forall b, ex_RInt f a b) /\
  forall eps : R, 0 < eps -> exists M : R, forall b : R, M < b -> Rabs (RInt f a b - l) < eps.
