(** What the multidimensional PDE stepper is given, in the terms of AdiSpec. *)
From Coq Require Import Reals.
From Verif Require Import AdiModel AdiSpec.
Open Scope R_scope.

(** the equation at the time [t] *)
Definition equation_at (co : coefficient_fns) (t : R) : equation :=
  {| ea := second_fn co t; eb := first_fn co t; ec := zeroth_fn co t; eA := inner_second_fn co t; eB := inner_first_fn co t |}.
(** a boundary condition at the time [t] *)
Definition boundary_at (c : condition) (t : R) : option boundary := at_time c t.
(** an end without a boundary condition *)
Definition open_end (c : condition) : bool := match c with None => true | Some _ => false end.
(** the spacing of the first two points *)
Definition spacing (coord_grid : nat -> nat -> R) (d : nat) : R := coord_grid d 1%nat - coord_grid d 0%nat.
