(** The documented statistics of a path, without reference to the code. *)
From Coq Require Import Reals List.
From Verif Require Import TensorProofs.
Import ListNotations.
Open Scope R_scope.

(** point [k] of a path and the time step before point [k + 1] *)
Definition pt (l : list R) (k : nat) : R := nth k l 0.
Definition step_before (times : option (list R)) (k : nat) : R :=
  match times with None => 1 | Some t => pt t (S k) - pt t k end.
(** R_k / dt_k summed over the intervals *)
Definition log_variance (path : list R) (times : option (list R)) : R :=
  rsum (fun k => Rsqr (ln (pt path (S k) / pt path k)) / step_before times k) (length path - 1).
Definition abs_variation (path : list R) (times : option (list R)) : R :=
  rsum (fun k => (Rabs (pt path (S k) - pt path k) / Rabs (pt path k)) / step_before times k) (length path - 1).
Definition factor (c : option R) : R := match c with None => 1 | Some c => c end.

Definition positive_path (path : list R) : Prop := forall x, In x path -> 0 < x.
Definition times_ok (path : list R) (times : option (list R)) : Prop :=
  match times with None => True | Some t => length t = length path /\ forall k, (S k < length t)%nat -> pt t k < pt t (S k) end.
Definition constant_path (path : list R) : Prop := forall x y, In x path -> In y path -> x = y.
