(** Brownian motion with drift, dX_i = a_i(t) dt + sum over j of S_ij(t) dW_j,
    without reference to the code. *)
From Coquelicot Require Import Coquelicot.
From Coq Require Import Reals List.
From Verif Require Import MvNormalSpec.
Import ListNotations.
Open Scope R_scope.

(** The rate of covariance of coordinates [i] and [j]. *)
Definition covariance_rate (d : nat) (S : R -> nat -> nat -> R) (i j : nat) (t : R) : R := sum_to d (fun k => S t i k * S t j k).
(** [td] and [tc] are the integrals of the drift and of the rate of covariance. *)
Definition integrated_drift (d : nat) (a : R -> nat -> R) (td : R -> R -> nat -> R) : Prop :=
  forall s t i, 0 <= s <= t -> (i < d)%nat -> is_RInt (fun u => a u i) s t (td s t i).
Definition integrated_covariance (d : nat) (S : R -> nat -> nat -> R) (tc : R -> R -> nat -> nat -> R) : Prop :=
  forall s t i j, 0 <= s <= t -> (i < d)%nat -> (j < d)%nat -> is_RInt (covariance_rate d S i j) s t (tc s t i j).
(** [L] is a root of the matrix [C]. *)
Definition root_of (d : nat) (C L : nat -> nat -> R) : Prop :=
  forall i j, (i < d)%nat -> (j < d)%nat -> sum_to d (fun k => L i k * L j k) = C i j.
(** The Euler approximation at the [n]th point of the grid [g], coefficients taken
    at the end of each step; [z i b] are the standardised increments of W_b. *)
Definition euler_value (d : nat) (a : R -> nat -> R) (S : R -> nat -> nat -> R) (g : nat -> R) (z : nat -> nat -> R) (x0 : nat -> R) (n c : nat) : R :=
  x0 c + sum_to n (fun i => (g (i + 1)%nat - g i) * a (g (i + 1)%nat) c) +
  sum_to n (fun i => sqrt (g (i + 1)%nat - g i) * sum_to d (fun b => S (g (i + 1)%nat) c b * z i b)).
(** [g 0], ..., [g n] goes up from 0 in steps of at most [h]. *)
Definition fine_grid (h : R) (n : nat) (g : nat -> R) : Prop :=
  g 0%nat = 0 /\ forall i, (i < n)%nat -> 0 <= g (i + 1)%nat - g i <= h.
(** The matrix [C] is symmetric and positive definite. *)
Definition positive_definite (d : nat) (C : nat -> nat -> R) : Prop :=
  (forall i j, (i < d)%nat -> (j < d)%nat -> C i j = C j i) /\
  forall v, (exists i, (i < d)%nat /\ v i <> 0) -> 0 < sum_to d (fun i => sum_to d (fun j => v i * C i j * v j)).
(** Changes of [f] are at most [K] times the elapsed time. *)
Definition lipschitz (K : R) (f : R -> R) : Prop := forall s t, 0 <= s -> 0 <= t -> Rabs (f s - f t) <= K * Rabs (s - t).
