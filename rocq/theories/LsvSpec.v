(** What the local stochastic volatility model is documented to be
    (local_stochastic_volatility_model.py 33-78):
      dS = (r - d) S dt + sqrt(V) L(t, S) S dW_s
      dV = a(V) dt + b(V) dW_v,   dW_s dW_v = rho dt. *)
From Coq Require Import Reals List.
From Verif Require Import LsvModel.
Import ListNotations.
Open Scope R_scope.

(** Covariance, per unit of time, of the increments [m dW] with independent
    components of dW. *)
Definition covariance (m : nat -> nat -> R) (i j : nat) : R := m i 0%nat * m j 0%nat + m i 1%nat * m j 1%nat.
Definition documented_covariance (leverage : R -> R -> R) (vp : variance_process) (rho t spot variance : R) (i j : nat) : R :=
  let d := fun k : nat => match k with O => sqrt variance * leverage t spot * spot | S _ => vp_volatility vp t variance end in
  d i * d j * (if Nat.eqb i j then 1 else rho).

(** The procedure of the documentation of the calibration: every pass solves the
    equation with the leverage of the pass before. *)
Fixpoint documented_loop ns nv x y x_scale y_scale (solve : (nat -> R) -> R -> density -> density) (local_volatility : R -> R -> R) (dt : R) (p0 : density) (n : nat)
    : density * list (nat -> R) :=
  match n with
  | O => (p0, [fun _ => 1])
  | S m =>
      let '(p, rows) := documented_loop ns nv x y x_scale y_scale solve local_volatility dt p0 m in
      let t := INR m * dt in
      let p' := after_solve ns nv x y (solve (last rows (fun _ => 1)) t p) in
      (p', rows ++ [compute_leverage nv x y x_scale y_scale local_volatility (t + dt) p'])
  end.
