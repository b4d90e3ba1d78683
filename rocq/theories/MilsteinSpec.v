(** The Milstein scheme as documented. *)
From Coquelicot Require Import Coquelicot.
From Coq Require Import Reals List.
From Verif Require Import MvNormalSpec EulerModel.
Open Scope R_scope.

(** One dimension: y + a dt + b dW + b b' (dW^2 - dt) / 2. *)
Definition milstein_increment (a b b' Delta dW y : R) : R := y + a * Delta + b * dW + / 2 * b * b' * (dW ^ 2 - Delta).
(** The path on a grid; the coefficients of step [m] are taken at time [when m]. *)
Fixpoint milstein_path (a b b' : R -> R -> R) (when grid z : nat -> R) (y0 : R) (n : nat) : R :=
  match n with
  | O => y0
  | S m =>
      let y := milstein_path a b b' when grid z y0 m in
      let Delta := grid (S m) - grid m in
      milstein_increment (a (when m) y) (b (when m) y) (b' (when m) y) Delta (sqrt Delta * z m) y
  end.
(** A process of one dimension whose samples do not influence each other. *)
Definition scalar_process (p : process) (a b b' : R -> R -> R) : Prop :=
  dim p = 1%nat /\ (forall t x s, drift_fn p t x s 0%nat = a t (x s 0%nat)) /\
  (forall t x s, volatility_fn p t x s 0%nat 0%nat = b t (x s 0%nat)) /\
  (forall t y, is_derive (b t) y (b' t y)).

(** Several dimensions: [a k], [b k j] are the coefficients, [db i k j] the
    derivative of b k j with respect to coordinate i, [J j1 j2] the double Ito
    integrals. *)
Definition documented_step (d : nat) (a : nat -> R) (b : nat -> nat -> R) (db : nat -> nat -> nat -> R) (Delta : R) (dW : nat -> R)
    (J : nat -> nat -> R) (y : nat -> R) (k : nat) : R :=
  y k + a k * Delta + sum_to d (fun j => b k j * dW j) +
  sum_to d (fun j1 => sum_to d (fun j2 => sum_to d (fun i => b i j1 * db i k j2) * J j1 j2)).
(** What every double Ito integral over an interval of length [Delta] satisfies. *)
Definition double_integrals (d : nat) (Delta : R) (dW : nat -> R) (J : nat -> nat -> R) : Prop :=
  (forall j, (j < d)%nat -> J j j = (dW j ^ 2 - Delta) / 2) /\
  (forall j1 j2, (j1 < d)%nat -> (j2 < d)%nat -> j1 <> j2 -> J j1 j2 + J j2 j1 = dW j1 * dW j2).
