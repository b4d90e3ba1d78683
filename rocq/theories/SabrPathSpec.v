(** The SABR model dF = v F^beta dW, dv = nu v dB, d<W, B> = rho dt, and what its
    simulation needs, without reference to the code. *)
From Coquelicot Require Import Coquelicot.
From Coq Require Import Reals List Bool Arith.
From Verif Require Import ExtReal BlackScholesModel BlackScholesSpec.
Import ListNotations.
Open Scope R_scope.

(** The rates of covariance of (F, v) at a positive forward. *)
Definition covariance_rate (beta nu rho f v : R) (i j : nat) : R :=
  match i, j with
  | 0%nat, 0%nat => v ^ 2 * Rpower f beta ^ 2
  | 1%nat, 1%nat => nu ^ 2 * v ^ 2
  | _, _ => rho * nu * v ^ 2 * Rpower f beta
  end.

(** A function of a standard normal variable that is uniform on (0, 1): the
    probability of a value up to y is y. *)
Definition uniform (u : R -> R) : Prop := forall y q, 0 < y < 1 -> (forall z, u z <= y <-> z <= q) -> ncdf q = y.

(** Mean and variance of the noncentral chi-squared distribution with k degrees of
    freedom and noncentrality a. *)
Definition nc_mean (k a : R) : R := k + a.
Definition nc_variance (k a : R) : R := 2 * (k + 2 * a).
(** The degrees of freedom of (F^(1-beta) / (1-beta))^2 per unit of the variance
    that is independent of the volatility: 1 for a normal model, fewer when beta
    pulls the forward to zero. *)
Definition degrees (beta rho : R) : R := 1 - beta / ((1 - beta) * (1 - rho ^ 2)).
(** The first n + 1 terms of its distribution function at x, with noncentrality l:
    a Poisson mixture of chi-squared distribution functions.  [G s y] is the
    regularized lower incomplete gamma function. *)
Definition nc_cdf (G : R -> R -> R) (n : nat) (x k l : R) : R :=
  sum_f_R0 (fun j => exp (- l / 2) * (l / 2) ^ j / INR (fact j) * G (k / 2 + INR j) (x / 2)) n.

(** What is assumed of the incomplete gamma functions and of the root finder: the
    first two compute [G] and its complement, values between 0 and 1, and the last
    returns a number when it starts from a number; NaN gives NaN. *)
Record external (G : R -> R -> R) (igamma igammac : xr -> xr -> xr) (root_finder : (xr -> xr * xr) -> xr -> xr) : Prop := {
  ratio_range : forall s y, 0 < s -> 0 <= y -> 0 <= G s y <= 1;
  lower_ok : forall s y, 0 < s -> 0 <= y -> igamma (Fin s) (Fin y) = Fin (G s y);
  upper_ok : forall s y, 0 < s -> 0 <= y -> igammac (Fin s) (Fin y) = Fin (1 - G s y);
  lower_nan : forall s, igamma s NaN = NaN;
  root_number : forall f c, exists r, root_finder f (Fin c) = Fin r;
  root_nan : forall f, root_finder f NaN = NaN }.
