(** What a user expects of a minimizer, and what is assumed of the line search. *)
From Coq Require Import Reals List Bool.
From Verif Require Import TensorProofs CgModel.
Open Scope R_scope.

Definition inner (dim : nat) (x y : vec) : R := rsum (fun i => x i * y i) dim.
(** the point reached from [x] by a step of length [a] along [d] *)
Definition along (x d : vec) (a : R) : vec := fun i => x i + a * d i.
(** every coordinate is at most [c] in absolute value *)
Definition sup_le (dim : nat) (x : vec) (c : R) : Prop := forall i, (i < dim)%nat -> Rabs (x i) <= c.

(** the value and the gradient of the result belong to its position *)
Definition consistent (obj : objective) (s : cg_state) (b : nat) : Prop := obj b (position s b) = (value s b, gradient s b).

(** The contract of the line search (hager_zhang of TensorFlow Probability): a
    member given as converged is returned as converged and not failed; any other
    member is returned at the starting value or at some point where the function
    was evaluated. *)
Definition search_evaluates (search : line_search) : Prop := forall p size func val0 skip step b,
  let r := search p size func val0 skip step in
  (skip b = true -> ls_converged r b = true /\ ls_failed r b = false)
  /\ (skip b = false -> ls_left r b = val0 b \/ exists a, ls_left r b = func b a).
(** the result is not worse than the start by more than eps |phi(0)|, and steps do
    not go backward *)
Definition search_bounded (search : line_search) : Prop := forall p size func val0 skip step b,
  let c := ls_left (search p size func val0 skip step) b in
  0 <= eps p -> skip b = false -> pv_f c <= pv_f (val0 b) + eps p * Rabs (pv_f (val0 b)) /\ pv_x (val0 b) <= pv_x c.
