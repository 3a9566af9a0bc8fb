(** * Distributions: symfit/distributions.py.

    The functions return sympy expressions; what is modelled is the real number such an
    expression has at given arguments. *)
From Coq Require Import Reals.
Local Open Scope R_scope.

(** symfit/distributions.py:16-29 [Gaussian] *)
Definition Gaussian (x mu sig : R) : R :=
  exp (- (x - mu) ^ 2 / (2 * sig ^ 2)) / sqrt (2 * PI * sig ^ 2).

(** symfit/distributions.py:31-52 [BivariateGaussian] *)
Definition BivariateGaussian (x y mu_x mu_y sig_x sig_y rho : R) : R :=
  let exponent := - 1 / (2 * (1 - rho ^ 2)) in
  let exponent := exponent * ((x - mu_x) ^ 2 / sig_x ^ 2 + (y - mu_y) ^ 2 / sig_y ^ 2
                              - 2 * rho * (x - mu_x) * (y - mu_y) / (sig_x * sig_y)) in
  exp exponent / (2 * PI * sig_x * sig_y * sqrt (1 - rho ^ 2)).

(** symfit/distributions.py:54-66 [Exp] *)
Definition Exp (x l : R) : R := l * exp (- l * x).
