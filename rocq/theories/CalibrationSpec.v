(** What a calibration promises, without reference to the model of the code. *)
From Coq Require Import Reals List.
From Verif Require Import ExtReal.
Import ListNotations.
Open Scope R_scope.

(** A number between two bounds, ends included. *)
Definition within (lb ub : R) (x : xr) : Prop := exists r, x = Fin r /\ lb <= r <= ub.
Definition inside (lb ub : R) (x : xr) : Prop := exists r, x = Fin r /\ lb < r < ub.
(** Not a number is the only other thing a calibration may report. *)
Definition within_or_nan (lb ub : R) (x : xr) : Prop := x = NaN \/ within lb ub x.

(** The mean of the squared differences of two lists of equal length. *)
Fixpoint sum_squares (a b : list R) : R :=
  match a, b with x :: r, y :: s => (x - y) ^ 2 + sum_squares r s | _, _ => 0 end.
Definition mean_square (a b : list R) : R := sum_squares a b / INR (length a).
(** The same with weights. *)
Fixpoint weighted_squares (w a b : list R) : R :=
  match w, a, b with c :: q, x :: r, y :: s => c * (x - y) ^ 2 + weighted_squares q r s | _, _, _ => 0 end.

(** a <= b, false when either is not a number. *)
Definition at_most (a b : xr) : Prop :=
  match a, b with
  | NaN, _ | _, NaN => False
  | Fin x, Fin y => x <= y
  | Inf true, _ | _, Inf false => True
  | _, _ => False
  end.

(** A correlation matrix of size n: symmetric, ones on the diagonal, and no
    combination of the factors has a negative variance. *)
Definition dot (a b : list R) : R := fold_right Rplus 0 (map (fun '(x, y) => x * y) (combine a b)).
Definition is_correlation (n : nat) (m : list (list R)) : Prop :=
  length m = n /\ Forall (fun r => length r = n) m
  /\ (forall i j, (i < n)%nat -> (j < n)%nat -> nth j (nth i m []) 0 = nth i (nth j m []) 0)
  /\ (forall i, (i < n)%nat -> nth i (nth i m []) 0 = 1)
  /\ (forall i j, (i < n)%nat -> (j < n)%nat -> -1 <= nth j (nth i m []) 0 <= 1)
  /\ (forall w, length w = n -> 0 <= dot w (map (dot w) m)).
