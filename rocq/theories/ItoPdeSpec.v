(** What the equations of a process have to do with the process, without
    reference to the code. *)
From Coq Require Import Reals List.
From Verif Require Import TensorProofs.
Open Scope R_scope.

(** the sum of the products of two vectors of values at the inner points of a
    grid of [n] points *)
Definition pairing (n : nat) (v p : list R) : R := rsum (fun i => nth (S i) v 0 * nth (S i) p 0) (n - 2).
(** the points are [h] apart *)
Definition equally_spaced (xs : list R) (h : R) : Prop := forall i, (S i < length xs)%nat -> nth (S i) xs 0 - nth i xs 0 = h.

(** a quadratic function of [d] variables and its derivatives *)
Definition quadratic (d : nat) (c : R) (b : nat -> R) (q : nat -> nat -> R) (y : nat -> R) : R :=
  c + rsum (fun i => b i * y i) d + rsum (fun i => rsum (fun j => q i j * (y i * y j)) d) d.
Definition quadratic_d (d : nat) (b : nat -> R) (q : nat -> nat -> R) (y : nat -> R) (i : nat) : R :=
  b i + rsum (fun j => (q i j + q j i) * y j) d.
Definition quadratic_dd (q : nat -> nat -> R) (i j : nat) : R := q i j + q j i.

(** [num] draws of [d] variables whose sample mean is 0 and whose sample
    covariance is the identity *)
Definition standard_draws (num d : nat) (z : nat -> nat -> R) : Prop :=
  (forall c, (c < d)%nat -> rsum (fun s => z s c) num = 0)
  /\ forall c c', (c < d)%nat -> (c' < d)%nat -> rsum (fun s => z s c * z s c') num = if Nat.eqb c c' then INR num else 0.
Definition average (num : nat) (f : nat -> R) : R := rsum f num / INR num.
