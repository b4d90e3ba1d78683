(** Specification for fitted swap curves (C84).  The value of a swap on given
    curves is [swap_value] of BootstrapSpec: a floating period from s to e pays
    P(s)/P(e) - 1 at e.  Here the price is paid at a settlement time. *)
From Coq Require Import Reals List.
From Verif Require Import BootstrapModel BootstrapSpec.
Import ListNotations.
Open Scope R_scope.

(** a swap with complete periods; the legs may end at different times *)
Definition complete (s : swap) : Prop :=
  length (float_start s) = length (float_end s) /\ (0 < length (float_end s))%nat /\
  length (fixed_cashflows s) = length (fixed_end s) /\ length (fixed_daycount s) = length (fixed_end s) /\ (0 < length (fixed_end s))%nat.
(** value at the settlement time [t] *)
Definition settled_value (P F D : R -> R) (t : R) (s : swap) : R := float_value P F s / F t + fixed_value D s / D t.
(** weighted squared pricing errors; [value k] is the value of swap k *)
Definition errors (value : nat -> R) (weights : list R) (swaps : list swap) : R :=
  total (map (fun k => nth k weights 0 * (value k - nth k (map present_value swaps) 0) ^ 2) (seq 0 (length swaps))).
(** a floating leg without gaps from [a] to [b] *)
Fixpoint adjoining (a b : R) (starts ends : list R) : Prop :=
  match starts, ends with
  | [], [] => a = b
  | s :: ss, e :: es => s = a /\ adjoining e b ss es
  | _, _ => False
  end.
(** [g] is the gradient of [f] where it is differentiable coordinate by coordinate *)
Definition partial_derivative (f : list R -> R) (x : list R) (i : nat) (d : R) : Prop :=
  derivable_pt_lim (fun h => f (firstn i x ++ [nth i x 0 + h] ++ skipn (S i) x)) 0 d.
Definition differentiates (differentiate : (list R -> R) -> list R -> list R) : Prop := forall f x,
  length (differentiate f x) = length x /\
  forall i d, (i < length x)%nat -> partial_derivative f x i d -> nth i (differentiate f x) 0 = d.
