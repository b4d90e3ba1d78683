(** Specification for the monotone convex curve (C37). *)
From Coq Require Import Reals List Arith.
Import ListNotations.
Open Scope R_scope.

(** The curve is divided at 0 and the reference times; [fds] holds the average
    forward rate of each interval. *)
Definition edge (ts : list R) (i : nat) : R := nth i (0 :: ts) 0.
Definition avg (fds : list R) (i : nat) : R := nth i fds 0.
(** Forward rate at an inner edge: the two neighbouring averages interpolated
    linearly in time between the interval midpoints. *)
Definition inner (ts fds : list R) (i : nat) : R :=
  ((edge ts i - edge ts (i - 1)) * avg fds i + (edge ts (S i) - edge ts i) * avg fds (i - 1)) / (edge ts (S i) - edge ts (i - 1)).
(** At the two ends half of the neighbouring slope is continued. *)
Definition boundary (ts fds : list R) (i : nat) : R :=
  let n := length ts in
  if Nat.eqb i 0 then avg fds 0 - (inner ts fds 1 - avg fds 0) / 2
  else if Nat.eqb i n then avg fds (n - 1) - (inner ts fds (n - 1) - avg fds (n - 1)) / 2
  else inner ts fds i.
(** Valid input: at least two intervals, increasing positive times. *)
Definition valid (ts fds : list R) : Prop :=
  (2 <= length ts)%nat /\ length fds = length ts /\ forall i, (i < length ts)%nat -> edge ts i < edge ts (S i).
(** Time [t] belongs to interval [i]: closed on the left, and the last interval
    also on the right. *)
Definition belongs (ts : list R) (i : nat) (t : R) : Prop :=
  (i < length ts)%nat /\ edge ts i <= t /\ (t < edge ts (S i) \/ (S i = length ts /\ t = edge ts (S i))).
(** The interval does not start at its average only to leave it. *)
Definition regular (ts fds : list R) (i : nat) : Prop :=
  boundary ts fds i = avg fds i -> boundary ts fds (S i) = avg fds i.
(** Both ends are within 1.1 spacings of floating point numbers of the average;
    the code then takes the average everywhere. *)
Definition flat (next : R -> R -> R) (ts fds : list R) (i : nat) : Prop :=
  let a := avg fds i in
  let near := fun b => Rabs (b - a) <= Rabs (next a b - a) * (11 / 10) in
  near (boundary ts fds i) /\ near (boundary ts fds (S i)).
