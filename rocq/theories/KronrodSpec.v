(** Tilings of an interval by pieces, for statements about adaptive quadrature. *)
From Coq Require Import Reals List Permutation.
Import ListNotations.
Open Scope R_scope.

(** Consecutive pieces leading from a to b. *)
Fixpoint chain (a b : R) (l : list (R * R)) : Prop :=
  match l with [] => a = b | (x, y) :: r => x = a /\ chain y b r end.
(** The pieces, in some order, lead from a to b; each is a positive fraction
    of [a, b] with the same orientation, so they cover it exactly once. *)
Definition tiles (a b : R) (pieces : list (R * R)) : Prop :=
  (exists ordered, Permutation ordered pieces /\ chain a b ordered) /\
  Forall (fun p => exists s, 0 < s /\ snd p - fst p = s * (b - a)) pieces.
