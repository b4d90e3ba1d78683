(** Partial derivatives, quadratic functions and nearest points, without reference
    to the code. *)
From Coquelicot Require Import Coquelicot.
From Coq Require Import Reals List Permutation.
From Verif Require Import ExtReal MvNormalModel MvNormalSpec.
Import ListNotations.
Open Scope R_scope.

(** [p] moved by [t] along axis [d]. *)
Definition moved (p : list R) (d : nat) (t : R) : list R := map (fun a => nth a p 0 + (if Nat.eqb a d then t else 0)) (seq 0 (length p)).
(** An index of an array with [ndim] axes of length [num]. *)
Definition grid_index (num ndim : nat) (idx : list nat) : Prop := length idx = ndim /\ Forall (fun k => (k < num)%nat) idx.
(** The point of the uniform grid on the unit cube. *)
Definition grid_point (num : nat) (idx : list nat) : list R := map (fun k => INR k / INR (num - 1)) idx.
(** There are points of the grid on both sides along axis [d]. *)
Definition inner (num d : nat) (idx : list nat) : Prop := (0 < nth d idx O)%nat /\ (nth d idx O + 1 < num)%nat.
(** [D k] is the [k]th derivative of [D 0] within [w] of 0, and [D n] is bounded by [M]. *)
Definition smooth (D : nat -> R -> R) (n : nat) (M w : R) : Prop :=
  forall t, - w <= t <= w -> (forall k, (k < n)%nat -> is_derive (D k) t (D (S k) t)) /\ Rabs (D n t) <= M.
(** The quadratic function of the increment [x] with value [v], gradient [g] and Hessian [H]. *)
Definition quadratic (n : nat) (v : R) (g : nat -> R) (H : nat -> nat -> R) (x : nat -> R) : R :=
  v + sum_to n (fun i => g i * x i) + / 2 * sum_to n (fun i => sum_to n (fun j => H i j * x i * x j)).
Definition symmetric (n : nat) (H : nat -> nat -> R) : Prop := forall i j, (i < n)%nat -> (j < n)%nat -> H i j = H j i.
(** The derivative that a list of axes names. *)
Definition named (v : R) (g : nat -> R) (H : nat -> nat -> R) (ds : list nat) : R :=
  match ds with [] => v | [i] => g i | i :: j :: _ => H i j end.
Definition entry (m : list (list R)) (i j : nat) : R := nth j (nth i m []) 0.
Definition square (k : nat) (m : list (list R)) : Prop := length m = k /\ Forall (fun r => length r = k) m.
(** [b] times [c] is the identity matrix. *)
Definition inverse_of (k : nat) (b c : list (list R)) : Prop :=
  forall i j, (i < k)%nat -> (j < k)%nat -> sum_to k (fun m => entry b i m * entry c m j) = if Nat.eqb i j then 1 else 0.
(** What is used of the inversion of matrices (for square matrices an inverse from
    the right is one from the left) and of partial sorting. *)
Definition inverts (inv : list (list R) -> option (list (list R))) : Prop :=
  forall k c, square k c -> (exists b, square k b /\ inverse_of k c b) -> exists b, inv c = Some b /\ square k b /\ inverse_of k b c.
Definition partitions (argpartition : list R -> nat -> list nat) : Prop :=
  forall l k, (k < length l)%nat -> Permutation (argpartition l k) (seq 0 (length l)) /\
    forall a b, (a <= k <= b)%nat -> (b < length l)%nat -> nth (nth a (argpartition l k) O) l 0 <= nth (nth b (argpartition l k) O) l 0.
(** The value of a quadratic function at [p], its expansion being at [target]. *)
Definition expanded (n : nat) (target : list R) (v : R) (g : nat -> R) (H : nat -> nat -> R) (p : list R) : R := quadratic n v g H (fun i => nth i p 0 - nth i target 0).
(** Some quadratic function has the value 1 at any one of the points and 0 at the
    others, so that quadratic functions can have any values at the points. *)
Definition well_placed (n : nat) (target : list R) (points : list (list R)) : Prop :=
  forall m, (m < length points)%nat -> exists v g H, symmetric n H /\
    forall i, (i < length points)%nat -> expanded n target v g H (nth i points []) = if Nat.eqb i m then 1 else 0.
Definition distance2 (n : nat) (p q : list R) : R := sum_to n (fun i => (nth i p 0 - nth i q 0) ^ 2).
(** [near] are [k] of the points, none of the others being closer to [p] than they. *)
Definition nearest (n k : nat) (points : list (list R)) (p : list R) (near : list (list R)) : Prop :=
  exists chosen, NoDup chosen /\ length chosen = k /\ Forall (fun m => (m < length points)%nat) chosen /\ near = map (fun m => nth m points []) chosen /\
  forall a b, In a chosen -> (b < length points)%nat -> ~ In b chosen -> distance2 n (nth a points []) p <= distance2 n (nth b points []) p.
(** The derivatives of a quadratic function, given by its expansion at 0, at [p]. *)
Definition value_at (n : nat) (v : R) (g : nat -> R) (H : nat -> nat -> R) (p : list R) : R := quadratic n v g H (fun i => nth i p 0).
Definition gradient_at (n : nat) (g : nat -> R) (H : nat -> nat -> R) (p : list R) (i : nat) : R := g i + sum_to n (fun j => H i j * nth j p 0).
(** The values of [f] at the points of an array whose last axis numbers the coordinates. *)
Definition evaluate (f : list R -> R) (ndim : nat) (points : tensor R) : tensor xr :=
  Tensor (removelast (shape points)) (fun idx => Fin (f (map (fun a => elt points (idx ++ [a])) (seq 0 ndim)))).
