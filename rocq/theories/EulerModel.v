(** Model of tf_quant_finance/models/euler_sampling.py.  Definitions only.
    A state holds, for every sample, a vector of [dim] reals: [x s c] is
    component [c] of sample [s].  The drift and the volatility are arbitrary
    functions of time and of the whole state.  [draws i] is the [i]-th slice of
    the normal draws (precomputed, supplied by the user or drawn at the step); a
    supplied tensor with too few slices is not modelled. *)
From Coq Require Import Reals List Bool Arith.
From Verif Require Import TensorModel TensorProofs SegmentModel BrentModel LoopModel TimeGridModel.
Import ListNotations.
Open Scope R_scope.

Definition samples := nat -> nat -> R.
Record process := Process {
  dim : nat;
  drift_fn : R -> samples -> samples;
  volatility_fn : R -> samples -> nat -> nat -> nat -> R
}.

Section Euler.
Variables (p : process) (times : list R) (draws : nat -> samples).

(** euler_sampling.py 354-355 *)
Definition dt : list R := diff 1 true times.
Definition sqrt_dt : list R := map sqrt dt.
Definition steps_num : nat := length dt.

(** euler_sampling.py 519-530 *)
Definition euler_step (i : nat) (x : samples) : samples :=
  let current_time := at_ times (i + 1) in
  let dw := fun s c => draws i s c * at_ sqrt_dt i in
  let dt_inc := fun s c => at_ dt i * drift_fn p current_time x s c in
  let dw_inc := fun s c => rsum (fun k => volatility_fn p current_time x s c k * dw s k) (dim p) in
  fun s c => x s c + dt_inc s c + dw_inc s c.

(** tf.cast(mask[i], tf.int32) *)
Definition flag (mask : list bool) (i : nat) : nat := if nth i mask false then 1 else 0.

(** The loop state of _while_loop: what has been recorded is one state, or a
    TensorArray whose unwritten slots are [None]. *)
Inductive recorded := One (x : samples) | Slots (l : list (option samples)).
Definition record_state (r : recorded) (k : nat) (x : samples) : option recorded :=
  match r with
  | One _ => Some (One x)
  | Slots l => match acc_write l k x with Some l' => Some (Slots l') | None => None end
  end.

(** euler_sampling.py 426-455 with 531-537: [fuel] is maximum_iterations *)
Fixpoint while_euler (keep_mask : list bool) (requested fuel i written : nat) (x : samples) (r : recorded) : option recorded :=
  match fuel with
  | O => Some r
  | S m =>
      if (Nat.ltb i steps_num && Nat.ltb written requested)%bool then
        let next := euler_step i x in
        match record_state r written next with
        | None => None
        | Some r' => while_euler keep_mask requested m (i + 1) (written + flag keep_mask (i + 1)) next r'
        end
      else Some r
  end.
(** euler_sampling.py 405-464, the number of requested times being known
    statically; the result lists the recorded states in the order of the times *)
Definition run_while (keep_mask : list bool) (requested : nat) (x0 : samples) : option (list (option samples)) :=
  let start :=
    if Nat.eqb requested 1 then Some (One x0)
    else record_state (Slots (repeat None requested)) 0 x0 in
  match start with
  | None => None
  | Some r =>
      match while_euler keep_mask requested steps_num 0 (0 + flag keep_mask 0) x0 r with
      | None => None
      | Some (One x) => Some [Some x]
      | Some (Slots l) => Some l
      end
  end.
(** euler_sampling.py 467-510: [num_time_points] is a list, so the number of
    iterations is always the vector of time indices and the loop accumulates *)
Definition run_for (time_indices : list nat) (x0 : samples) : option (list (option samples)) :=
  accumulating_for_loop euler_step x0 time_indices.
End Euler.

(** euler_sampling.py 232-332.  [validate_args] checks the gaps of the times and
    of a given grid; [watch] tells whether watch_params is given. *)
Definition gaps_ok (tolerance : R) (l : list R) : bool := forallb (fun d => rlt tolerance d) (diff 1 true l).
Definition euler_sample (p : process) (times : list R) (time_step : option R) (num_time_steps : option nat) (times_grid : option (list R))
    (tolerance : R) (validate_args watch : bool) (draws : nat -> samples) (x0 : samples) : option (list (option samples)) :=
  let both := match num_time_steps, time_step with Some _, Some _ => true | _, _ => false end in
  if both then None else
  let step :=
    match times_grid with
    | Some _ => Some (match time_step with Some d => d | None => 0 end) (* unused *)
    | None =>
        match time_step, num_time_steps with
        | Some d, _ => Some d
        | None, Some n => Some (last times 0 / INR n)
        | None, None => None
        end
    end in
  match step with
  | None => None
  | Some step =>
      if (validate_args && negb (gaps_ok tolerance times && match times_grid with Some g => gaps_ok tolerance g | None => true end))%bool then None
      else
        match prepare_grid times step tolerance num_time_steps times_grid with
        | None => None
        | Some (grid, keep_mask, time_indices) =>
            if watch then run_for p grid draws time_indices x0
            else run_while p grid draws keep_mask (length times) x0
        end
  end.
