(** Brownian motion by the method of images, without reference to the code. *)
From Coq Require Import Reals ZArith.
Open Scope R_scope.

(** Density at [x] of a normal variable with mean zero and variance [v]. *)
Definition normal (v x : R) : R := exp (- (x ^ 2 / (2 * v))) / sqrt (2 * PI * v).
(** Sum over k = -n, ..., n. *)
Fixpoint symmetric_sum (f : Z -> R) (n : nat) : R :=
  match n with O => f 0%Z | S m => symmetric_sum f m + (f (Z.of_nat (S m)) + f (- Z.of_nat (S m))%Z) end.
(** [x] and [y] lie on the same side of [b], possibly on it. *)
Definition same_side (b x y : R) : Prop := (x <= b /\ y <= b) \/ (b <= x /\ b <= y).
