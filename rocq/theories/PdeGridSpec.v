(** What a grid of locations is, without reference to the code. *)
From Coq Require Import Reals List Permutation.
From Verif Require Import TimeGridSpec.
Import ListNotations.
Open Scope R_scope.

(** [n] points from [lo] to [hi], strictly increasing, equally spaced *)
Definition uniform_points (lo hi : R) (n : nat) (l : list R) : Prop :=
  length l = n /\ nth 0 l 0 = lo /\ nth (n - 1) l 0 = hi /\ increasing l
  /\ forall i, (S i < n)%nat -> nth (S i) l 0 - nth i l 0 = (hi - lo) / INR (n - 1).
(** [n] points from [lo] to [hi], strictly increasing, with a constant ratio,
    the (n-1)-th root of hi/lo *)
Definition log_uniform_points (lo hi : R) (n : nat) (l : list R) : Prop :=
  length l = n /\ nth 0 l 0 = lo /\ nth (n - 1) l 0 = hi /\ increasing l
  /\ forall i, (S i < n)%nat -> nth (S i) l 0 = nth i l 0 * Rpower (hi / lo) (/ INR (n - 1)).
(** ascending, equal neighbours allowed *)
Definition ascending (l : list R) : Prop := forall i, (S i < length l)%nat -> nth i l 0 <= nth (S i) l 0.
(** [l] is the grid [base] with the point [x] put in its place *)
Definition with_point (base : list R) (x : R) (l : list R) : Prop := Permutation l (x :: base) /\ ascending l.
