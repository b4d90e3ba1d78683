(** Multivariate normal draws without reference to the code. *)
From Coq Require Import Reals List Sorting.Permutation.
From Verif Require Import BlackScholesModel BlackScholesSpec MvNormalModel.
Import ListNotations.
Open Scope R_scope.

(** [idx] is an index of a tensor of shape [sh]. *)
Definition within (sh idx : list nat) : Prop := Forall2 lt idx sh.
(** sum of c 0, ..., c (n - 1) *)
Fixpoint sum_to (n : nat) (c : nat -> R) : R := match n with O => 0 | S k => sum_to k c + c k end.

(** The scale matrix that applies to batch element [b]: one matrix for all
    batches or one for each; the identity if there is none. *)
Definition matrix_of (sh : list nat) (values : list nat -> R) (batch : list nat) (d : nat) (b : list nat) (L : nat -> nat -> R) : Prop :=
  (sh = [d; d] /\ forall j l, L j l = values [j; l]) \/ (sh = batch ++ [d; d] /\ forall j l, L j l = values (b ++ [j; l])).
Definition identity_matrix (j l : nat) : R := if Nat.eqb j l then 1 else 0.
(** The matrix that multiplies the draws of a batch element. *)
Definition scale_of (scale : option (tensor R)) (B : list nat) (d : nat) (b : list nat) (L : nat -> nat -> R) : Prop :=
  match scale with None => L = identity_matrix | Some s => matrix_of (shape s) (elt s) B d b L end.
(** The mean of a batch element; no mean is the mean zero. *)
Definition mean_of (mean : option (tensor R)) (B : list nat) (d : nat) (b : list nat) (m : nat -> R) : Prop :=
  match mean with None => forall j, m j = 0 | Some t => shape t = B ++ [d] /\ forall j, m j = elt t (b ++ [j]) end.
(** Coordinate [j] of m + L z. *)
Definition affine (d : nat) (m : R) (L : nat -> nat -> R) (z : nat -> R) (j : nat) : R := m + sum_to d (fun l => L j l * z l).

(** [e] is the expectation of [f z] when z 0, ..., z (d - 1) are independent
    standard normal variables. *)
Fixpoint iid_expectation (d : nat) (f : list R -> R) (e : R) : Prop :=
  match d with
  | O => e = f []
  | S k => exists g : R -> R, (forall x, iid_expectation k (fun l => f (x :: l)) (g x)) /\ expectation g e
  end.
