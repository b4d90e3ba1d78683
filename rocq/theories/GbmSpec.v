(** Geometric Brownian motion without reference to the code. *)
From Coquelicot Require Import Coquelicot.
From Coq Require Import Reals List.
From Verif Require Import BlackScholesSpec MvNormalSpec.
Import ListNotations.
Open Scope R_scope.

(** [A i] is the integral of [f] from 0 to the i-th time; time number 0 is 0 and
    number i + 1 is entry i of [times]. *)
Definition integrals (f : R -> R) (times : list R) (A : nat -> R) : Prop :=
  forall i, (i <= length times)%nat -> is_RInt f 0 (nth i (0 :: times) 0) (A i).
(** The solution of dX = mu(t) X dt + sigma(t) X dW at time number i + 1, where
    [A] and [B] are the integrals of mu and sigma^2 and [z] are the standardised
    increments of the stochastic integral. *)
Definition gbm_value (x0 : R) (A B z : nat -> R) (i : nat) : R :=
  x0 * exp (A (S i) - B (S i) / 2 + sum_to (S i) (fun j => sqrt (B (S j) - B j) * z j)).
(** When z 0, ..., z (K - 1) are independent standard normal variables, the
    vector Y 0, ..., Y (P - 1) has the moment generating function of the normal
    distribution with mean [m] and covariance [C]. *)
Definition jointly_normal (K P : nat) (Y : nat -> list R -> R) (m : nat -> R) (C : nat -> nat -> R) : Prop :=
  forall u : nat -> R,
    iid_expectation K (fun z => exp (sum_to P (fun p => u p * Y p z)))
      (exp (sum_to P (fun p => u p * m p) + sum_to P (fun p => sum_to P (fun q => u p * u q * C p q)) / 2)).
(** The solution of dX_a = m_a X_a dt + v_a X_a dW_a at time [t i], where the
    increments of W from one time to the next are L times independent standard
    normal variables [z j b] times the root of the elapsed time. *)
Definition mgbm_value (d : nat) (x0 m v : R) (La : nat -> R) (t : nat -> R) (z : nat -> nat -> R) (i : nat) : R :=
  x0 * exp ((m - v ^ 2 / 2) * t (S i) + v * sum_to (S i) (fun j => sqrt (t (S j) - t j) * sum_to d (fun b => La b * z j b))).
(** The i-th time; number 0 is 0. *)
Definition time_number (times : list R) (i : nat) : R := nth i (0 :: times) 0.
