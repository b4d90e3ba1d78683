(** The Hull-White model without reference to the code.
    r(t) = f(t) + x(t) with dx = (y(t) - k x) dt + sigma(t) dW, x(0) = 0, where f is
    the forward curve at time 0 and y(t) = exp(-2 k t) V(t) the variance of x. *)
From Coquelicot Require Import Coquelicot.
From Coq Require Import Reals List.
From Verif Require Import MvNormalSpec.
Open Scope R_scope.

(** V(t) is the integral of sigma(u)^2 exp(2 k u) from 0 to t. *)
Definition noise_integral (sigma : R -> R) (k : R) (V : R -> R) : Prop :=
  forall t, 0 <= t -> is_RInt (fun u => sigma u ^ 2 * exp (2 * k * u)) 0 t (V t).
(** M(t) is the integral of exp(k u) y(u) = exp(-k u) V(u) from 0 to t. *)
Definition drift_integral (k : R) (V M : R -> R) : Prop :=
  forall t, 0 <= t -> is_RInt (fun u => exp (- k * u) * V u) 0 t (M t).
(** The solution exp(-k t) (M(t) + integral of exp(k u) sigma(u) dW(u)) of the
    equation at grid time number n, where [w j] is the standardised increment of
    the stochastic integral from grid time j to the next. *)
Definition hw_solution (f : R -> R) (k : R) (V M : R -> R) (t : nat -> R) (w : nat -> R) (n : nat) : R :=
  f (t n) + exp (- k * t n) * (M (t n) + sum_to n (fun j => sqrt (V (t (S j)) - V (t j)) * w j)).
