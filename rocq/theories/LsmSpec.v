(** The value of a stopping rule on sampled paths. *)
From Coq Require Import Reals List Arith.
From Verif Require Import TensorProofs.
Import ListNotations.
Open Scope R_scope.

(** the mean over the samples [first], ..., [first + count - 1] *)
Definition mean_from (first count : nat) (f : nat -> R) : R := rsum (fun k => f (first + k)%nat) count / INR count.
(** the discounted payoff of sample [s] when it is exercised at the [e]-th
    exercise time *)
Definition discounted (df : nat -> nat -> R) (payoff : nat -> nat -> R) (exercise_times : list nat) (e s : nat) : R :=
  df e s * payoff (nth e exercise_times 0%nat) s.
(** the best discounted payoff over the exercise times 0, ..., n *)
Fixpoint best (f : nat -> R) (n : nat) : R :=
  match n with O => f 0%nat | S m => Rmax (best f m) (f (S m)) end.
