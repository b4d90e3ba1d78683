(** Rank-1 tensor primitives used by several modules.  Definitions only.
    A vector of floats is a list of reals. *)
From Coq Require Import Reals List Bool.
Import ListNotations.
Open Scope R_scope.

(** Element [i] of a vector; only used in range. *)
Definition at_ (l : list R) (i : nat) : R := nth i l 0.

(** tf.searchsorted for a sorted vector: side='left' is the number of elements
    before the first one that is not [< x], side='right' the number before the
    first one that is [> x]. *)
Fixpoint searchsorted_left (l : list R) (x : R) : nat :=
  match l with
  | [] => 0
  | a :: r => if Rlt_dec a x then S (searchsorted_left r x) else 0
  end.
Fixpoint searchsorted_right (l : list R) (x : R) : nat :=
  match l with
  | [] => 0
  | a :: r => if Rle_dec a x then S (searchsorted_right r x) else 0
  end.
