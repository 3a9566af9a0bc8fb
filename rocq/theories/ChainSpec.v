(** * ChainSpec: what a sequence of minimizers should do. *)
From Coq Require Import Reals.
From Verif Require Import PyBase Expr NumPy Model Objective Minimizer Fit.
Local Open Scope R_scope.

(** The same fit with another minimizer *)
Definition fit_with (f : fit) (x : fmin) : fit :=
  {| ft_data := ft_data f; ft_absolute := ft_absolute f; ft_class := ft_class f; ft_obj := ft_obj f; ft_min := x |}.
(** The same problem, started at [x] (if it has a start at all) *)
Definition starting_at (pb : problem) (x : list R) : problem :=
  {| pb_routine := pb_routine pb; pb_x0 := match pb_x0 pb with Some _ => Some x | None => None end; pb_lower := pb_lower pb; pb_upper := pb_upper pb;
     pb_jac := pb_jac pb; pb_hess := pb_hess pb; pb_cons := pb_cons pb |}.
(** Where number [k] starts: at [x0], or where the one before it stopped *)
Definition start (x0 : list R) (answers : list answer) (k : nat) : list R :=
  match k with O => x0 | S j => match nth_error answers j with Some a => an_x a | None => [] end end.
(** [scipy] answers with vectors of length [n] .. *)
Definition answers_length (scipy : problem -> option problem -> (list R -> res nd) -> res answer) (n : nat) : Prop :=
  forall pb lp ob a, scipy pb lp ob = Ok a -> List.length (an_x a) = n.
(** .. that are not worse than where it started. *)
Definition never_worse (scipy : problem -> option problem -> (list R -> res nd) -> res answer) : Prop :=
  forall pb lp ob a x0 r r', scipy pb lp ob = Ok a -> pb_x0 pb = Some x0 -> ob x0 = Ok r -> ob (an_x a) = Ok r' -> elem r' [] <= elem r [].
