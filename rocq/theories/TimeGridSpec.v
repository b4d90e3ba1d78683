(** What a simulation time grid is, without reference to the code. *)
From Coq Require Import Reals List Bool.
Import ListNotations.
Open Scope R_scope.

(** strictly increasing vectors, with every gap above [d] *)
Definition gaps_above (d : R) (l : list R) : Prop :=
  forall i, (S i < length l)%nat -> nth i l 0 + d < nth (S i) l 0.
Definition increasing (l : list R) : Prop := gaps_above 0 l.
(** every gap at most [d] *)
Definition gaps_at_most (d : R) (l : list R) : Prop :=
  forall i, (S i < length l)%nat -> nth (S i) l 0 - nth i l 0 <= d.
(** [p] of the grid is the last grid point not after [t] *)
Definition last_not_after (grid : list R) (i : nat) (t : R) : Prop :=
  (i < length grid)%nat /\ nth i grid 0 <= t /\ forall j, (i < j < length grid)%nat -> t < nth j grid 0.
(** no grid point is closer to [t] than the one at [i] *)
Definition is_nearest (grid : list R) (i : nat) (t : R) : Prop :=
  (i < length grid)%nat /\ forall j, (j < length grid)%nat -> Rabs (nth i grid 0 - t) <= Rabs (nth j grid 0 - t).
(** the mask marks exactly the indices in [idx] *)
Definition marks (mask : list bool) (n : nat) (idx : list nat) : Prop :=
  length mask = n /\ (forall i, In i idx -> (i < n)%nat) /\ forall i, (i < n)%nat -> (nth i mask false = true <-> In i idx).
