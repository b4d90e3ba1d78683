(** Model of tf_quant_finance/models/hjm/quasi_gaussian_hjm.py.  Definitions only.
    Reals are exact; mean reversions are not 0 (the code divides by them); there
    is no batch.  [None] is an exception. *)
From Coq Require Import Reals List Bool Arith.
From Verif Require Import TensorModel TensorProofs SegmentModel BrentModel ExtReal BootstrapModel TimeGridModel EulerModel GbmModel.
Import ListNotations.
Open Scope R_scope.

(** The attributes set by the constructor.  [q_vol t r i] is the volatility of
    factor i at time t when the short rate is r; [q_forward] is
    _instant_forward_rate_fn (170-182), the derivative of rate(t) * t computed by
    automatic differentiation. *)
Record qg := QG {
  q_dim : nat; q_mr : nat -> R; q_vol : R -> R -> nat -> R; q_rho : nat -> nat -> R; q_sqrt_rho : nat -> nat -> R;
  q_rate : R -> R; q_forward : R -> R }.
(** The volatility argument: a tensor or a callable. *)
Inductive qvol_arg := QTensor (v : nat -> R) | QCallable (f : R -> R -> nat -> R).
(** 551-564.  [e] and [v] are the eigenvalues and eigenvectors of tf.linalg.eigh
    (column l of [v] belongs to [e l]); [cholesky] is tf.linalg.cholesky, which
    fails for matrices that are not positive definite.  The square root of a
    diagonal matrix is taken elementwise. *)
Definition valid_sqrt_matrix (d : nat) (cholesky : (nat -> nat -> R) -> option (nat -> nat -> R)) (e : nat -> R) (v rho : nat -> nat -> R) : option (nat -> nat -> R) :=
  if existsb (fun l => if Rlt_dec (e l) (1 / 100000) then true else false) (seq 0 d) then
    let adjusted_e l m := if Nat.eqb l m then Rmax (e l) (1 / 100000) else 0 in
    Some (fun i m => rsum (fun l => v i l * sqrt (adjusted_e l m)) d)
  else cholesky rho.
(** 163-226 *)
Definition qg_make (cholesky : (nat -> nat -> R) -> option (nat -> nat -> R)) (e : nat -> R) (v : nat -> nat -> R) (dim : nat) (mean_reversion : nat -> R) (volatility : qvol_arg)
    (rate forward : R -> R) (corr_matrix : option (nat -> nat -> R)) (validate_args : bool) : option qg :=
  let rho := match corr_matrix with Some c => c | None => fun i j => if Nat.eqb i j then 1 else 0 end in
  match (if validate_args then cholesky rho else valid_sqrt_matrix dim cholesky e v rho) with
  | None => None
  | Some l =>
      Some (QG dim mean_reversion (match volatility with QTensor c => fun _ _ => c | QCallable f => f end) rho l rate forward)
  end.

Section Model.
  Variable h : qg.
  Notation d := (q_dim h).
  (** 167 *)
  Definition q_size : nat := d + d * d.
  (** 232, 253-257 and 495-496: the first entries of the state are x, the rest is
      y, row by row. *)
  Definition xs (z : nat -> R) : nat -> R := z.
  Definition ys (z : nat -> R) (i j : nat) : R := z (d + (i * d + j))%nat.
  (** 234-235, 258-259 *)
  Definition q_short_rate (t : R) (z : nat -> R) : R := q_forward h t + rsum (xs z) d.
  (** 229-248 *)
  Definition q_vol_fn (t : R) (z : nat -> R) (a l : nat) : R :=
    if (Nat.ltb a d && Nat.ltb l d)%bool then q_sqrt_rho h a l * q_vol h t (q_short_rate t z) a else 0.
  (** 251-283 *)
  Definition q_drift (t : R) (z : nat -> R) (a : nat) : R :=
    let sigma := q_vol h t (q_short_rate t z) in
    if Nat.ltb a d then rsum (fun j => ys z a j) d - q_mr h a * xs z a
    else let i := ((a - d) / d)%nat in let j := ((a - d) mod d)%nat in
      q_rho h i j * (sigma i * sigma j) - (q_mr h i + q_mr h j) * ys z i j.
  (** 515-548 *)
  Definition q_reconstitution (t maturity : R) (x : nat -> R) (y : nat -> nat -> R) : R :=
    let p_0_t := exp (- q_rate h t * t) in
    let p_0_t_tau := exp (- q_rate h maturity * maturity) / p_0_t in
    let g_t_tau i := (1 - exp (- q_mr h i * (maturity - t))) / q_mr h i in
    let term1 := rsum (fun i => x i * g_t_tau i) d in
    let term2 := rsum (fun i => g_t_tau i * rsum (fun j => y i j * g_t_tau j) d) d in
    p_0_t_tau * exp (- term1 - 1 / 2 * term2).

  Definition quasi_process : process := Process q_size (fun t x s a => q_drift t (x s) a) (fun t x s a l => q_vol_fn t (x s) a l).
  (** 459-513.  [qo_x] and [qo_y] hold, for each requested time, the two parts of
      the states of the samples. *)
  Record q_outputs := QOutputs { qo_rate : list (nat -> R); qo_discount : list (nat -> xr); qo_x : list samples; qo_y : list (nat -> nat -> nat -> R) }.
  (** 499-502 for sample s *)
  Definition q_rate_path (times : list R) (paths : list samples) (s : nat) : list R :=
    map (fun '(t, x) => rsum (xs (x s)) d + q_forward h t) (combine times paths).
  (** 479, 504-507: each rate is multiplied by the length of the step that ends
      at its time. *)
  Definition q_discount_path (times : list R) (paths : list samples) (s : nat) : list xr :=
    map (fun c => xexp (xopp c)) (cumsum_using_matvec (map (fun '(r, dt) => Fin (r * dt)) (combine (q_rate_path times paths s) (0 :: diff 1 true times)))).
  (** [unwritten] is what stacking a TensorArray gives for a slot that was never
      written: zeros, or an exception ([None]). *)
  Variable unwritten : option samples.
  Definition q_sample_paths (times : list R) (time_step : option R) (num_time_steps : option nat) (tolerance : R) (draws : nat -> samples) : option q_outputs :=
    match times with
    | [] => None
    | _ =>
        let time_step_internal := match num_time_steps with Some n => Some (last times 0 / INR n) | None => time_step end in
        match time_step_internal with
        | None => None
        | Some step =>
            match prepare_grid times step tolerance num_time_steps None with
            | None => None
            | Some (grid, _, time_indices) =>
                match euler_sample quasi_process grid time_step num_time_steps None tolerance false false draws (fun _ _ => 0) with
                | None => None
                | Some recorded =>
                    match all_some (map (fun slot => match slot with Some x => Some x | None => unwritten end) recorded) with
                    | None => None
                    | Some paths =>
                        Some (QOutputs
                          (map (fun i s => nth i (q_rate_path grid paths s) 0) time_indices)
                          (map (fun i s => nth i (q_discount_path grid paths s) NaN) time_indices)
                          (map (fun i s => xs (nth i paths (fun _ _ => 0) s)) time_indices)
                          (map (fun i s => ys (nth i paths (fun _ _ => 0) s)) time_indices))
                    end
                end
            end
        end
    end.
  (** 366-457: entry (sample s, curve time m, time i). *)
  Definition q_sample_discount_curve_paths (times curve_times : list R) (time_step : option R) (num_time_steps : option nat) (tolerance : R) (draws : nat -> samples)
    : option ((nat -> nat -> nat -> R) * list (nat -> R) * list (nat -> xr)) :=
    match q_sample_paths times time_step num_time_steps tolerance draws with
    | None => None
    | Some o =>
        Some (fun s m i => q_reconstitution (at_ times i) (at_ times i + at_ curve_times m) (nth i (qo_x o) (fun _ _ => 0) s) (nth i (qo_y o) (fun _ _ _ => 0) s),
              qo_rate o, qo_discount o)
    end.
End Model.
