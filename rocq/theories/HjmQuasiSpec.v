(** The quasi-Gaussian HJM model without reference to the code.
      dx_i  = (sum_j y_ij - k_i x_i) dt + sigma_i(t, r) dW_i
      dy_ij = (rho_ij sigma_i(t, r) sigma_j(t, r) - (k_i + k_j) y_ij) dt
      r     = sum_i x_i + f(0, t),
    where the Brownian motions have the correlations rho_ij. *)
From Coq Require Import Reals Arith.
From Verif Require Import MvNormalSpec.
Open Scope R_scope.

(** The coordinates of the state: x_i, then y_ij row by row. *)
Definition x_coord (d i : nat) : nat := i.
Definition y_coord (d i j : nat) : nat := (d + (i * d + j))%nat.
(** The rates of change of the model, as functions of x and y. *)
Definition x_drift (d : nat) (k : nat -> R) (x : nat -> R) (y : nat -> nat -> R) (i : nat) : R := sum_to d (y i) - k i * x i.
Definition y_drift (k sigma : nat -> R) (rho y : nat -> nat -> R) (i j : nat) : R := rho i j * sigma i * sigma j - (k i + k j) * y i j.
(** Euler scheme, with the coefficients taken at the end of each step and at the
    state before it. *)
Definition quasi_states (d : nat) (k : nat -> R) (sigma : R -> R -> nat -> R) (rho L : nat -> nat -> R) (f : R -> R) (grid : nat -> R) (z : nat -> nat -> R)
    (X : nat -> nat -> R) (Y : nat -> nat -> nat -> R) : Prop :=
  (forall i, (i < d)%nat -> X 0%nat i = 0) /\ (forall i j, (i < d)%nat -> (j < d)%nat -> Y 0%nat i j = 0) /\
  forall n, let dt := grid (S n) - grid n in let s := sigma (grid (S n)) (sum_to d (X n) + f (grid (S n))) in
    (forall i, (i < d)%nat -> X (S n) i = X n i + x_drift d k (X n) (Y n) i * dt + s i * (sqrt dt * sum_to d (fun l => L i l * z n l))) /\
    forall i j, (i < d)%nat -> (j < d)%nat -> Y (S n) i j = Y n i j + y_drift k s rho (Y n) i j * dt.
(** The product of exp(-r(t_(j+1)) (t_(j+1) - t_j)) over j < n. *)
Definition discount_after (rate : nat -> R) (grid : nat -> R) (n : nat) : R :=
  exp (- sum_to n (fun j => rate (S j) * (grid (S j) - grid j))).
(** The columns of v are orthonormal eigenvectors of rho with eigenvalues e. *)
Definition eigen_decomposition (d : nat) (e : nat -> R) (v rho : nat -> nat -> R) : Prop :=
  (forall l m, (l < d)%nat -> (m < d)%nat -> sum_to d (fun i => v i l * v i m) = if Nat.eqb l m then 1 else 0) /\
  (forall i j, (i < d)%nat -> (j < d)%nat -> sum_to d (fun l => v i l * v j l) = if Nat.eqb i j then 1 else 0) /\
  forall i j, (i < d)%nat -> (j < d)%nat -> rho i j = sum_to d (fun l => v i l * e l * v j l).
(** L L^T = m *)
Definition factor_of (d : nat) (L m : nat -> nat -> R) : Prop :=
  forall i j, (i < d)%nat -> (j < d)%nat -> sum_to d (fun l => L i l * L j l) = m i j.
