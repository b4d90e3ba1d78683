(** What a cubic spline is (C23). *)
From Coq Require Import Reals List.
From Coquelicot Require Import Coquelicot.
From Verif Require Import InterpModel.
Import ListNotations.
Open Scope R_scope.

(** [f] coincides between consecutive knots with cubic polynomials [P k], whose
    first two derivatives [P1 k], [P2 k] agree at the inner knots. *)
Definition cubic_spline (xs : list R) (f : R -> R) (P P1 P2 : nat -> R -> R) : Prop :=
  (forall k, (S k < length xs)%nat ->
     (exists a b c d, forall x, P k x = a + b * x + c * x ^ 2 + d * x ^ 3) /\
     (forall x, is_derive (P k) x (P1 k x)) /\
     (forall x, is_derive (P1 k) x (P2 k x)) /\
     (forall x, nth k xs 0 <= x <= nth (S k) xs 0 -> f x = P k x)) /\
  (forall k, (S (S k) < length xs)%nat ->
     let x := nth (S k) xs 0 in P k x = P (S k) x /\ P1 k x = P1 (S k) x /\ P2 k x = P2 (S k) x).

(** The end conditions. *)
Definition end_conditions (xs : list R) (bc : boundary) (P1 P2 : nat -> R -> R) : Prop :=
  let n := length xs in
  let x0 := nth 0 xs 0 in
  let xn := nth (n - 1) xs 0 in
  match bc with
  | NATURAL => P2 0%nat x0 = 0 /\ P2 (n - 2)%nat xn = 0
  | CLAMPED => P1 0%nat x0 = 0 /\ P1 (n - 2)%nat xn = 0
  | FIXED l r => P1 0%nat x0 = l /\ P1 (n - 2)%nat xn = r
  end.

(** The documented domain: strictly increasing knots, at least two of them. *)
Definition knots (xs ys : list R) : Prop :=
  length ys = length xs /\ (2 <= length xs)%nat /\ forall k, (S k < length xs)%nat -> nth k xs 0 < nth (S k) xs 0.

(** Equal consecutive data values: excluded for prescribed end slopes, except
    when everything to the right is flat as well and the right slope is 0. *)
Definition right_slope (bc : boundary) : R := match bc with FIXED _ r => r | _ => 0 end.
Definition no_flat_piece (ys : list R) (bc : boundary) : Prop :=
  forall i, (S i < length ys)%nat -> nth i ys 0 = nth (S i) ys 0 ->
    ((S (S i) < length ys)%nat -> nth (S i) ys 0 = nth (S (S i)) ys 0) /\
    (S (S i) = length ys -> right_slope bc = 0).
