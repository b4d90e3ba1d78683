(** The Euler scheme as documented, and with the coefficients taken at the end
    of each interval. *)
From Coq Require Import Reals List.
From Verif Require Import TensorProofs EulerModel.
Open Scope R_scope.

(** one Euler increment over [t0, t1] with the coefficients at time [t] *)
Definition increment (p : process) (t t0 t1 : R) (z x : samples) : samples :=
  fun s c => x s c + drift_fn p t x s c * (t1 - t0) + rsum (fun k => volatility_fn p t x s c k * (sqrt (t1 - t0) * z s k)) (dim p).

(** the documented scheme: X_(n+1) = X_n + a(t_n, X_n) dt + b(t_n, X_n) dW *)
Fixpoint documented_path (p : process) (grid : nat -> R) (z : nat -> samples) (x0 : samples) (n : nat) : samples :=
  match n with
  | O => x0
  | S m => increment p (grid m) (grid m) (grid (S m)) (z m) (documented_path p grid z x0 m)
  end.
(** the scheme with the coefficients at the end of the interval *)
Fixpoint end_path (p : process) (grid : nat -> R) (z : nat -> samples) (x0 : samples) (n : nat) : samples :=
  match n with
  | O => x0
  | S m => increment p (grid (S m)) (grid m) (grid (S m)) (z m) (end_path p grid z x0 m)
  end.
(** coefficients that do not depend on time *)
Definition time_homogeneous (p : process) : Prop := forall t u x, drift_fn p t x = drift_fn p u x /\ volatility_fn p t x = volatility_fn p u x.
