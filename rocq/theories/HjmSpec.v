(** The Gaussian HJM model without reference to the code.
      dx_i = (sum_j y_ij(t) - k_i x_i) dt + sigma_i(t) dW_i,  r = sum_i x_i + f(0, t),
    where the Brownian motions have the correlations rho_ij. *)
From Coquelicot Require Import Coquelicot.
From Coq Require Import Reals Arith.
From Verif Require Import MvNormalSpec.
Open Scope R_scope.

(** y_ij(t), the covariance of x_i(t) and x_j(t): the integral of
    rho_ij exp(-(k_i + k_j) (t - s)) sigma_i(s) sigma_j(s) over s from 0 to t. *)
Definition covariance_of (rho : R) (si sj : R -> R) (ki kj : R) (y : R -> R) : Prop :=
  forall t, 0 <= t -> is_RInt (fun s => rho * exp (- ((ki + kj) * (t - s))) * (si s * sj s)) 0 t (y t).
(** The bond price given the state: P(0,T)/P(0,t) exp(-sum x_i G_i - sum G_i y_ij G_j / 2). *)
Definition bond_formula (d : nat) (P0 : R -> R) (G : nat -> R -> R -> R) (y : nat -> nat -> R -> R) (x : nat -> R) (t T : R) : R :=
  P0 T / P0 t * exp (- sum_to d (fun i => x i * G i t T) - sum_to d (fun i => sum_to d (fun j => G i t T * y i j t * G j t T)) / 2).
Definition set_at (x : nat -> R) (i : nat) (v : R) : nat -> R := fun j => if Nat.eqb j i then v else x j.
(** A function P(t, x) satisfies, at time t and state x, the pricing equation
      P_t + sum_i drift_i P_i + 1/2 sum_ij (b b^T)_ij P_ij = r P. *)
Definition pricing_equation (d : nat) (drift : nat -> R) (b : nat -> nat -> R) (r : R) (P : R -> (nat -> R) -> R) (t : R) (x : nat -> R) : Prop :=
  exists (Pt : R) (P1 : nat -> (nat -> R) -> R) (P2 : nat -> nat -> R),
    is_derive (fun u => P u x) t Pt /\
    (forall i z, (i < d)%nat -> is_derive (fun v => P t (set_at z i v)) (z i) (P1 i z)) /\
    (forall i j, (i < d)%nat -> (j < d)%nat -> is_derive (fun v => P1 i (set_at x j v)) (x j) (P2 i j)) /\
    Pt + sum_to d (fun i => drift i * P1 i x) + 1 / 2 * sum_to d (fun i => sum_to d (fun j => sum_to d (fun l => b i l * b j l) * P2 i j)) = r * P t x.
(** The states of the Euler scheme on a grid, with the coefficients taken at the
    end of each step; [L] is a factor of the correlation matrix and [z n] are the
    draws of step n. *)
Definition euler_states (d : nat) (k : nat -> R) (sigma : nat -> R -> R) (L : nat -> nat -> R) (y : nat -> nat -> R -> R) (grid : nat -> R) (z : nat -> nat -> R) (X : nat -> nat -> R) : Prop :=
  (forall i, (i < d)%nat -> X 0%nat i = 0) /\
  forall n i, (i < d)%nat -> let dt := grid (S n) - grid n in let t := grid (S n) in
    X (S n) i = X n i + (sum_to d (fun j => y i j t) - k i * X n i) * dt + sigma i t * (sqrt dt * sum_to d (fun l => L i l * z n l)).
(** The product of exp(-r(t_j) (t_(j+1) - t_j)) over j < n. *)
Definition discount_to (rate : nat -> R) (grid : nat -> R) (n : nat) : R :=
  exp (- sum_to n (fun j => rate j * (grid (S j) - grid j))).
