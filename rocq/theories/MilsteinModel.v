(** Model of tf_quant_finance/models/milstein_sampling.py.  Definitions only.
    States, processes and draws as in EulerModel.v.  [draws i s q] is draw number
    [q] of sample [s] in step [i]: first the [dim] Wiener draws, then three
    blocks of dim * stratonovich_order auxiliary draws.  A step is None when it
    produces NaN (a division 0 / 0); a run with such a step is None as a whole. *)
From Coquelicot Require Import Coquelicot.
From Coq Require Import Reals List Bool Arith.
From Verif Require Import TensorModel TensorProofs SegmentModel BrentModel InterpModel LoopModel TimeGridModel EulerModel HullWhiteModel.
Import ListNotations.
Open Scope R_scope.

(** grad_volatility_fn(t, x, direction) *)
Definition gradient_fn := R -> samples -> samples -> nat -> nat -> nat -> R.

Section Milstein.
Variables (p : process) (grad_volatility_fn : option gradient_fn) (order : nat) (times : list R) (draws : nat -> samples).

(** milstein_sampling.py 216-225.  gradient.fwd_gradient (forward differentiation,
    external) is the derivative in the given direction. *)
Definition grad_volatility : gradient_fn :=
  match grad_volatility_fn with
  | Some g => g
  | None => fun t x direction s c k => Derive (fun h => volatility_fn p t (fun s' c' => x s' c' + h * direction s' c') s c k) 0
  end.

(** 565-574 *)
Definition milstein_1d (dw0 : samples) (dt_i sqrt_dt_i : R) (x drift : samples) (vol grad_vol : nat -> nat -> nat -> R) : samples :=
  let dw := fun s c => dw0 s c * sqrt_dt_i in
  let dt_inc := fun s c => dt_i * drift s c in
  let dw_inc := fun s c => rsum (fun k => vol s c k * dw s k) (dim p) in
  let hot_vol := fun s c => vol s c 0%nat * grad_vol s c 0%nat in
  let hot_dw := fun s c => dw s c * dw s c - dt_i in
  let hot_inc := fun s c => hot_vol s c * hot_dw s c / 2 in
  fun s c => x s c + dt_inc s c + dw_inc s c + hot_inc s c.

(** 500-525 for one sample.  Term r of the sums stands for 1-based index r + 1. *)
Definition sqrt_rho_p : R := sqrt (1 / 12 - rsum (fun r => 1 / INR (r + 1) ^ 2) order / 2 / PI ^ 2).
Definition stratonovich_integral (dt_i sqrt_dt_i : R) (dw : nat -> R) (mu zeta eta : nat -> nat -> R) (j1 j2 : nat) : R :=
  let last := (order - 1)%nat in
  let xi := fun c => dw c / sqrt_dt_i in
  let u := fun c r => sqrt 2 * xi c + eta c r in
  dt_i * (dw j1 * dw j2 / 2 + sqrt_rho_p * (mu j1 last * xi j2 - xi j1 * mu j2 last)) +
  dt_i * rsum (fun r => (zeta j1 r * u j2 r - u j1 r * zeta j2 r) * (1 / INR (r + 1))) order / (2 * PI).

(** 528-552 for one sample: [grad_vol a k j] is the derivative of [vol k j] in
    direction [a] *)
Definition milstein_hot (vol : nat -> nat -> R) (grad_vol : nat -> nat -> nat -> R) (integrals : nat -> nat -> R) (dw : nat -> R) (k : nat) : R :=
  let stratonovich_integrals := fun a c => if Nat.eqb a c then dw a * dw a / 2 else integrals a c in
  let stacked_grad_vol := fun a j => grad_vol a k j in
  let lbar := fun a c => rsum (fun j => stacked_grad_vol a j * vol j c) (dim p) in
  rsum (fun a => rsum (fun c => lbar a c * stratonovich_integrals a c) (dim p)) (dim p).

(** 555-562 for one sample: both tensors are flattened to dim * dim entries *)
Definition stratonovich_drift_update (vol : nat -> nat -> R) (grad_vol : nat -> nat -> nat -> R) (k : nat) : R :=
  let flat_vol := fun q => vol (q / dim p)%nat (q mod dim p) in
  let flat_grad := fun q => grad_vol (q / dim p)%nat k (q mod dim p) in
  rsum (fun q => flat_grad q * flat_vol q) (dim p * dim p).

(** 577-593 *)
Definition milstein_nd (dw0 : samples) (dt_i sqrt_dt_i : R) (x drift : samples) (vol : nat -> nat -> nat -> R) (grad_vol : nat -> nat -> nat -> nat -> R)
    (stratonovich_draws : nat -> nat -> nat -> nat -> R) : samples :=
  let dw := fun s c => dw0 s c * sqrt_dt_i in
  fun s k =>
    let dt_inc := dt_i * (drift s k - stratonovich_drift_update (vol s) (fun a => grad_vol a s) k) in
    let dw_inc := rsum (fun j => vol s k j * dw s j) (dim p) in
    let integrals := stratonovich_integral dt_i sqrt_dt_i (dw s) (stratonovich_draws 0%nat s) (stratonovich_draws 1%nat s) (stratonovich_draws 2%nat s) in
    x s k + dt_inc + dw_inc + milstein_hot (vol s) (fun a => grad_vol a s) integrals (dw s) k.

(** 596-672 without the recording; 290-299 for the slices of the draws.  [e a] is
    the unit direction of 228-233. *)
Definition milstein_step (i : nat) (x : samples) : option samples :=
  let current_time := at_ times (i + 1) in
  let dt_i := at_ (dt times) i in
  let sqrt_dt_i := at_ (sqrt_dt times) i in
  let dw := fun s c => draws i s c in
  let stratonovich_draws := fun b s c r => draws i s (dim p + b * (dim p * order) + (c * order + r))%nat in
  let drift := drift_fn p current_time x in
  let vol := volatility_fn p current_time x in
  if Nat.eqb (dim p) 1 then
    Some (milstein_1d dw dt_i sqrt_dt_i x drift vol (grad_volatility current_time x (fun _ _ => 1)))
  else if req sqrt_dt_i 0 then None
  else
    let e := fun a (s c : nat) => if Nat.eqb a c then 1 else 0 in
    Some (milstein_nd dw dt_i sqrt_dt_i x drift vol (fun a => grad_volatility current_time x (e a)) stratonovich_draws).

(** 356-424.  The bound 408-409 on the iterations, int(1 / time_step) plus the
    number of grid points, is never reached before the condition fails. *)
Definition milstein_while (keep_mask : list bool) (requested : nat) (x0 : samples) : option (list samples) :=
  record_run milstein_step (fun _ x => x) keep_mask (length (dt times)) requested x0.
(** 427-473 *)
Definition milstein_for (time_indices : list nat) (x0 : samples) : option (list samples) :=
  let step := fun i (x : option samples) => match x with Some y => milstein_step i y | None => None end in
  if Nat.eqb (length time_indices) 1 then
    option_map (fun x => [x]) (while_loop step 0 (length (dt times)) (Some x0))
  else
    match accumulating_for_loop step (Some x0) time_indices with
    | None => None
    | Some slots => all_some (map (fun o => match o with Some x => x | None => None end) slots)
    end.
End Milstein.

(** 35-255; [tolerance] is the default tolerance of prepare_grid for the dtype *)
Definition milstein_sample (p : process) (times : list R) (time_step : option R) (num_time_steps : option nat) (grad_volatility_fn : option gradient_fn)
    (order : nat) (tolerance : R) (watch : bool) (draws : nat -> samples) (x0 : samples) : option (list samples) :=
  if Nat.eqb order 0 then None else
  let step :=
    match time_step, num_time_steps with
    | Some _, Some _ => None
    | None, None => None
    | Some d, None => Some d
    | None, Some n => Some (last times 0 / INR n)
    end in
  match step with
  | None => None
  | Some step =>
      match prepare_grid times step tolerance num_time_steps None with
      | None => None
      | Some (grid, keep_mask, time_indices) =>
          if watch then milstein_for p grad_volatility_fn order grid draws time_indices x0
          else milstein_while p grad_volatility_fn order grid draws keep_mask (length times) x0
      end
  end.
