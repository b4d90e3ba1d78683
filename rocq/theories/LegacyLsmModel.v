(** Model of tf_quant_finance/experimental/lsm_algorithm/{lsm,lsm_v2,payoff}.py
    and models/longstaff_schwartz/payoff_utils.py.  Definitions only.  As in
    LsmModel.v, one element of the batch, and the payoff, the basis and the
    pseudo-inverse are functions; the regression of both versions is the one of
    LsmModel.v ([expected_exercise_fn]: lsm_v2.py 331-386, lsm.py 272-315, where
    the mask is a factor).  [None] is an exception. *)
From Coq Require Import Reals List Bool Arith.
From Verif Require Import TensorProofs BrentModel LsmModel.
Import ListNotations.
Open Scope R_scope.

(** payoff.py 48-91 and payoff_utils.py 59-98: sample [s] of the put on the mean
    of [dim] assets; [paths s t i] is asset [i] of sample [s] at time [t]. *)
Definition put_valuer (paths : nat -> nat -> nat -> R) (dim : nat) (strike : R) (time_index s : nat) : R :=
  Rmax (strike - rsum (fun i => paths s time_index i) dim / INR dim) 0.

Section Lsm.
Variables (num_samples : nat) (exercise_times : list nat)
  (payoff : nat -> nat -> R) (basis_size : nat) (basis : nat -> nat -> nat -> R)
  (pinv : (nat -> nat -> R) -> nat -> nat -> R)
  (discount_factors : option (nat -> nat -> R)).
Let num_times := length exercise_times.
Local Notation padded := (padded discount_factors).

(** Cash flows of a sample: [cashflow j s] at exercise time [j].
    lsm_v2.py 250-260 and lsm.py 211-221: the payoff at the last time. *)
Definition first_cashflow (j s : nat) : R :=
  if Nat.eqb j (num_times - 1) then payoff (nth (num_times - 1) exercise_times 0%nat) s else 0.

(** lsm_v2.py 296-328: masked factors and cash flows. *)
Definition continuation_value_v2 (cashflow : nat -> nat -> R) (exercise_index s : nat) : R :=
  let total_discount_factors := fun e => (if Nat.leb (exercise_index + 1) e then padded e s else 0) / padded exercise_index s in
  let cashflow_masked := fun j => if Nat.leb exercise_index j then cashflow j s else 0 in
  rsum (fun j => cashflow_masked j * total_discount_factors (j + 1)%nat) num_times.
(** lsm_v2.py 389-407 *)
Definition updated_cashflow_v2 (exercise_index : nat) (exercise_value expected_continuation : nat -> R) (cashflow : nat -> nat -> R) (j s : nat) : R :=
  let do_exercise := rlt (expected_continuation s) (exercise_value s) in
  let scaled_do_exercise := if do_exercise then exercise_value s else 0 in
  let cashflow_update := if do_exercise then 0 else cashflow j s in
  if Nat.leb exercise_index j then cashflow_update else scaled_do_exercise.
(** lsm_v2.py 410-436 *)
Definition body_v2 (num_calibration_samples : option nat) (exercise_index : nat) (cashflow : nat -> nat -> R) : nat -> nat -> R :=
  let time_index := nth (exercise_index - 1) exercise_times 0%nat in
  let exercise_value := payoff time_index in
  let continuation_value := continuation_value_v2 cashflow exercise_index in
  let expected_continuation := expected_exercise_fn num_samples basis_size pinv num_calibration_samples (basis time_index) continuation_value exercise_value in
  updated_cashflow_v2 exercise_index exercise_value expected_continuation cashflow.
(** lsm_v2.py 279-281, 290-293 *)
Fixpoint loop_v2 (num_calibration_samples : option nat) (max_iterations exercise_index : nat) (cashflow : nat -> nat -> R) : nat -> nat -> R :=
  match max_iterations with
  | O => cashflow
  | S m => if Nat.ltb 0 exercise_index then loop_v2 num_calibration_samples m (exercise_index - 1) (body_v2 num_calibration_samples exercise_index cashflow) else cashflow
  end.
(** lsm_v2.py 125-287 *)
Definition least_square_mc_v2 (num_calibration_samples : option nat) : option R :=
  let skip := match num_calibration_samples with None => 0%nat | Some m => m end in
  match exercise_times with
  | [] => None
  | _ =>
      let cashflow := loop_v2 num_calibration_samples num_times (num_times - 1) first_cashflow in
      let present_values := continuation_value_v2 cashflow 0 in
      if Nat.leb num_samples skip then None
      else Some (rsum (fun k => present_values (skip + k)%nat) (num_samples - skip) / INR (num_samples - skip))
  end.

(** Broadcasting of two dimensions. *)
Definition broadcast_dim (a b : nat) : option nat :=
  if Nat.eqb a b then Some a else if Nat.eqb a 1 then Some b else if Nat.eqb b 1 then Some a else None.
(** lsm.py 197-205, 264-269: the number of payoffs in the continuation value of
    [payoff_dim] payoffs over [m] times.  Supplied factors have rank 2 by line
    205; the default has rank 1, so that axis 1 of line 269 is its last: its
    times meet the payoffs. *)
Definition continuation_dim (payoff_dim m : nat) : option nat :=
  match discount_factors with Some _ => Some payoff_dim | None => broadcast_dim payoff_dim m end.
(** lsm.py 242-269 *)
Definition continuation_value_v1 (cashflow : nat -> nat -> R) (exercise_index s : nat) : R :=
  rsum (fun i => cashflow (exercise_index + i)%nat s * (padded (exercise_index + 1 + i) s / padded exercise_index s)) (num_times - exercise_index).
(** lsm.py 318-351 *)
Definition updated_cashflow_v1 (exercise_index : nat) (exercise_value expected_continuation : nat -> R) (cashflow : nat -> nat -> R) (j s : nat) : R :=
  let do_exercise := if rlt (expected_continuation s) (exercise_value s) then 1 else 0 in
  let scaled_do_exercise := if rlt (expected_continuation s) (exercise_value s) then exercise_value s else 0 in
  let new_cash := if Nat.eqb j (exercise_index - 1) then scaled_do_exercise else 0 in
  let old_mask := if Nat.ltb j exercise_index then 0 else 1 - do_exercise in
  new_cash + old_mask * cashflow j s.
(** lsm.py 354-380; line 379 refuses a changed number of payoffs. *)
Definition body_v1 (payoff_dim exercise_index : nat) (cashflow : nat -> nat -> R) : option (nat -> nat -> R) :=
  let tick := nth (exercise_index - 1) exercise_times 0%nat in
  let exercise_value := payoff tick in
  match continuation_dim payoff_dim (num_times - exercise_index) with
  | None => None
  | Some dim =>
      if negb (Nat.eqb dim payoff_dim) then None else
      let continuation_value := continuation_value_v1 cashflow exercise_index in
      let expected_continuation := expected_exercise_fn num_samples basis_size pinv None (basis tick) continuation_value exercise_value in
      Some (updated_cashflow_v1 exercise_index exercise_value expected_continuation cashflow)
  end.
(** lsm.py 229-230, 236-239 *)
Fixpoint loop_v1 (payoff_dim max_iterations exercise_index : nat) (cashflow : nat -> nat -> R) : option (nat -> nat -> R) :=
  match max_iterations with
  | O => Some cashflow
  | S m =>
      if Nat.ltb 0 exercise_index
      then match body_v1 payoff_dim exercise_index cashflow with Some c => loop_v1 payoff_dim m (exercise_index - 1) c | None => None end
      else Some cashflow
  end.
(** lsm.py 95-233: the number of values returned for [payoff_dim] payoffs, and
    the value of this payoff. *)
Definition least_square_mc_v1 (payoff_dim : nat) : option (nat * R) :=
  match exercise_times with
  | [] => None
  | _ =>
      match loop_v1 payoff_dim num_times (num_times - 1) first_cashflow, continuation_dim payoff_dim num_times with
      | Some cashflow, Some dim =>
          if Nat.eqb num_samples 0 then None
          else Some (dim, rsum (fun s => continuation_value_v1 cashflow 0 s) num_samples / INR num_samples)
      | _, _ => None
      end
  end.
End Lsm.
