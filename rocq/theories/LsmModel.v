(** Model of tf_quant_finance/models/longstaff_schwartz/lsm.py.  Definitions only.
    One element of the batch: the batch elements do not interact.  Sample [s] of
    the payoff at path time [t] is [payoff t s]; row [b] of the basis is
    [basis t b s].  Both are the user's functions applied to the sample paths.
    The pseudo-inverse (external) is an arbitrary function of the matrix. *)
From Coq Require Import Reals List Bool Arith.
From Verif Require Import TensorProofs BrentModel.
Import ListNotations.
Open Scope R_scope.

Section Lsm.
Variables (num_samples num_path_times : nat) (exercise_times : list nat)
  (payoff : nat -> nat -> R) (basis_size : nat) (basis : nat -> nat -> nat -> R)
  (pinv : (nat -> nat -> R) -> nat -> nat -> R)
  (discount_factors : option (nat -> nat -> R)) (num_calibration_samples : option nat).

(** lsm.py 239-256: [discount_factors e s] is the factor of exercise time [e] for
    sample [s] (constant in [s] when the argument has rank 1; the rank 2 case
    fails in tf.pad and is not modelled); padded with 1 in front *)
Definition padded (e s : nat) : R :=
  match e with
  | O => 1
  | S j => match discount_factors with None => 1 | Some d => d j s end
  end.
(** lsm.py 304-325 *)
Definition apply_discount (values : nat -> R) (exercise_index : nat) : nat -> R :=
  fun s => padded (exercise_index + 1) s / padded exercise_index s * values s.

(** lsm.py 328-383; [rows] are the samples used in the regression *)
Definition calibration_rows : nat := match num_calibration_samples with None => num_samples | Some m => m end.
Definition expected_exercise_fn (design : nat -> nat -> R) (continuation_value exercise_value : nat -> R) : nat -> R :=
  let masked := fun s b => if rlt 0 (exercise_value s) then design b s else 0 in
  let lhs := fun a b => rsum (fun s => masked s a * masked s b) calibration_rows in
  let lhs_pinv := pinv lhs in
  let rhs := fun a => rsum (fun s => masked s a * continuation_value s) calibration_rows in
  let beta := fun a => rsum (fun b => lhs_pinv a b * rhs b) basis_size in
  let continuation := fun s => rsum (fun a => design a s * beta a) basis_size in
  fun s => Rmax (continuation s) 0.

(** lsm.py 386-400 *)
Definition updated_cashflows_and_values (exercise_value expected_continuation current_cashflow option_values : nat -> R) : (nat -> R) * (nat -> R) :=
  (fun s => if rlt (expected_continuation s) (exercise_value s) then exercise_value s else 0,
   fun s => if rlt (expected_continuation s) (exercise_value s) then 0 else current_cashflow s + option_values s).

(** lsm.py 403-436 *)
Definition lsm_loop_body (exercise_index : nat) (cashflow option_values : nat -> R) : (nat -> R) * (nat -> R) :=
  let time_index := nth (exercise_index - 1) exercise_times 0%nat in
  let exercise_value := payoff time_index in
  let continuation_value := apply_discount (fun s => option_values s + cashflow s) exercise_index in
  let expected_continuation := expected_exercise_fn (basis time_index) continuation_value exercise_value in
  let '(updated_cashflow, updated_values) := updated_cashflows_and_values exercise_value expected_continuation cashflow option_values in
  (updated_cashflow, apply_discount updated_values exercise_index).
(** tf.while_loop with the condition exercise_index > 0 (lsm.py 288, 298-301) *)
Fixpoint lsm_loop (fuel exercise_index : nat) (cashflow option_values : nat -> R) : (nat -> R) * (nat -> R) :=
  match fuel with
  | O => (cashflow, option_values)
  | S m =>
      if Nat.ltb 0 exercise_index
      then let '(c, v) := lsm_loop_body exercise_index cashflow option_values in lsm_loop m (exercise_index - 1) c v
      else (cashflow, option_values)
  end.
(** lsm.py 257-292: the present value of every sample *)
Definition lsm_present_values : nat -> R :=
  let num_times := length exercise_times in
  let exercise_value := payoff (nth (num_times - 1) exercise_times 0%nat) in
  let '(cashflow, values) := lsm_loop num_path_times (num_times - 1) exercise_value (fun _ => 0) in
  apply_discount (fun s => cashflow s + values s) 0.
(** lsm.py 292-295: the mean over the samples that were not used to calibrate;
    the mean of an empty tensor and the last of no exercise times are refused *)
Definition least_square_mc : option R :=
  let skip := match num_calibration_samples with None => 0%nat | Some m => m end in
  match exercise_times with
  | [] => None
  | _ =>
      if Nat.leb num_samples skip then None
      else Some (rsum (fun k => lsm_present_values (skip + k)%nat) (num_samples - skip) / INR (num_samples - skip))
  end.
End Lsm.
