(** How the arguments of a PDE step are read as an equation on a grid. *)
From Coq Require Import Reals List.
From Verif Require Import PdeStepModel PdeStepSpec.
Import ListNotations.
Open Scope R_scope.

(** a vector as a function of the index *)
Definition sq (l : list R) : nat -> R := fun i => nth i l 0.
(** one coefficient per grid point, when present *)
Definition sized (n : nat) (o : option (list R)) : Prop := match o with None => True | Some l => length l = n end.
Definition sized_co (n : nat) (co : coefficients) (t : R) : Prop :=
  sized n (second co t) /\ sized n (first_ co t) /\ sized n (zeroth co t) /\ sized n (inner_second co t) /\ sized n (inner_first co t).
(** the equation at time [t] *)
Definition pde_at (co : coefficients) (t : R) : pde :=
  {| pa := option_map sq (second co t); pb := option_map sq (first_ co t); pc := option_map sq (zeroth co t);
     pA := option_map sq (inner_second co t); pB := option_map sq (inner_first co t) |}.
(** the boundary conditions supplied by the caller hold at time [t]; a default
    condition is no condition on the values *)
Definition lower_at (x : nat -> R) (lower : boundary) (t : R) (f : nat -> R) : Prop :=
  match lower with None => True | Some g => lower_holds (g t) x f end.
Definition upper_at (x : nat -> R) (n : nat) (upper : boundary) (t : R) (f : nat -> R) : Prop :=
  match upper with None => True | Some g => upper_holds (g t) x f n end.
(** the grid points with an equation of their own: all but the ends that have a
    boundary condition; [n] is the number of points *)
Definition unknown (lower upper : boundary) (n p : nat) : Prop :=
  (p < n)%nat /\ (p = 0%nat -> lower = None) /\ (p = (n - 1)%nat -> upper = None).
(** the spacing [h] at an end with the default condition *)
Definition if_default (b : boundary) (h : R) : option R := match b with None => Some h | Some _ => None end.
