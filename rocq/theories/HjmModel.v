(** Model of tf_quant_finance/models/hjm/gaussian_hjm.py and of the parts of
    quasi_gaussian_hjm.py that it inherits.  Definitions only.  Reals are exact;
    sums of mean reversions are not 0 (the code divides by them).  [None] is an
    exception. *)
From Coq Require Import Reals List Bool Arith.
From Verif Require Import TensorModel TensorProofs SegmentModel BrentModel ExtReal TimeGridModel EulerModel PiecewiseModel GbmModel.
Import ListNotations.
Open Scope R_scope.

(** The attributes set by the constructor.  [g_vol i] is row i of the piecewise
    constant volatility; a tensor of jump locations has rows of one length.
    [g_forward] is _instant_forward_rate_fn, the derivative of rate(t) * t
    computed by automatic differentiation (166-179). *)
Record hjm := HJM {
  g_dim : nat; g_mr : nat -> R; g_vol : nat -> pw; g_rho : nat -> nat -> R; g_sqrt_rho : nat -> nat -> R;
  g_rate : R -> R; g_forward : R -> R }.
(** The volatility argument: a tensor, a PiecewiseConstantFunc or another
    callable. *)
Inductive vol_arg := VolTensor (v : nat -> R) | VolPiecewise (f : nat -> pw) | VolCallable (f : R -> nat -> R).
Definition identity (i j : nat) : R := if Nat.eqb i j then 1 else 0.
(** 124-227 with 459-465, which ask the volatility for jump_locations(); other
    callables have no such method.  [cholesky] is tf.linalg.cholesky. *)
Definition hjm_make (cholesky : (nat -> nat -> R) -> option (nat -> nat -> R)) (dim : nat) (mean_reversion : nat -> R) (volatility : vol_arg)
    (rate forward : R -> R) (corr_matrix : option (nat -> nat -> R)) : option hjm :=
  let rho := match corr_matrix with Some c => c | None => identity end in
  match cholesky rho with
  | None => None
  | Some l =>
      match volatility with
      | VolTensor v => Some (HJM dim mean_reversion (fun i => PW [] [v i]) rho l rate forward)
      | VolPiecewise f => Some (HJM dim mean_reversion f rho l rate forward)
      | VolCallable _ => None
      end
  end.

Section Model.
  Variable h : hjm.
  Definition volatility_at (i : nat) (t : R) : R := pw_call (g_vol h i) true t.
  Definition knots (i : nat) : list R := jumps (g_vol h i).
  (** 459-465 *)
  Definition padded (i : nat) : list R := 0 :: removelast (knots i).
  Definition vn (i : nat) : list R := 0 :: knots i.
  Definition mr2 (i j : nat) : R := g_mr h i + g_mr h j.
  (** 334-340.  The limits have the shape (dim, m) and are broadcast against
      (dim, dim, 1): entry (i, j, m) uses row j of the limits. *)
  Definition integrate_vol (i j : nat) (vol_i vol_j l_limit u_limit : R) : R :=
    g_rho h i j * (vol_i * vol_j) / mr2 i j * (exp (mr2 i j * u_limit) - exp (mr2 i j * l_limit)).
  (** 343-347 *)
  Definition between_knots (i j : nat) : list R :=
    map (fun m => integrate_vol i j (volatility_at i (at_ (knots i) m)) (volatility_at j (at_ (knots j) m)) (at_ (padded j) m) (at_ (knots j) m))
      (seq 0 (length (knots j))).
  (** 348-351; models/utils.py 329-336 is a cumulative sum (C61). *)
  Definition at_knots (i j : nat) : list R := 0 :: cumsum false (between_knots i j).
  (** 305-360.  tf.gather with batch_dims=-1 takes row i of time_index and the
      last axis of the table. *)
  Definition state_y (i j : nat) (t : R) : R :=
    let time_index a := searchsorted_left (knots a) t in
    exp (- mr2 i j * t) *
      (integrate_vol i j (volatility_at i t) (volatility_at j t) (at_ (vn j) (time_index j)) t + at_ (at_knots i j) (time_index i)).
  (** 208-214 *)
  Definition vol_fn (t : R) (i l : nat) : R := g_sqrt_rho h i l * volatility_at i t.
  (** 216-223 *)
  Definition drift (t : R) (x : nat -> R) (i : nat) : R := rsum (fun j => state_y i j t) (g_dim h) - g_mr h i * x i.
  (** quasi_gaussian_hjm.py 515-548 *)
  Definition reconstitution (t maturity : R) (x : nat -> R) (y : nat -> nat -> R) : R :=
    let p_0_t := exp (- g_rate h t * t) in
    let p_0_t_tau := exp (- g_rate h maturity * maturity) / p_0_t in
    let g_t_tau i := (1 - exp (- g_mr h i * (maturity - t))) / g_mr h i in
    let term1 := rsum (fun i => x i * g_t_tau i) (g_dim h) in
    let term2 := rsum (fun i => g_t_tau i * rsum (fun j => y i j * g_t_tau j) (g_dim h)) (g_dim h) in
    p_0_t_tau * exp (- term1 - 1 / 2 * term2).
  (** 362-402 for one time and one maturity; the transposition on line 396
      reverses all axes. *)
  Definition discount_bond_price (x : nat -> R) (t maturity : R) : R := reconstitution t maturity x (fun i j => state_y j i t).

  Definition gaussian_process : process := Process (g_dim h) (fun t x s i => drift t (x s) i) (fun t _ _ i l => vol_fn t i l).
  (** 404-457.  The Euler scheme is run on the prepared grid with the original
      step arguments.  [outputs] holds the lists, over the requested times, of
      rates, discount factors, states x and states y. *)
  Record outputs := Outputs { o_rate : list (nat -> R); o_discount : list (nat -> xr); o_x : list samples; o_y : list (nat -> nat -> R) }.
  Definition short_rate (t : R) (x : nat -> R) : R := rsum x (g_dim h) + g_forward h t.
  (** 445-453 for sample s *)
  Definition rate_path (times : list R) (paths : list samples) (s : nat) : list R :=
    map (fun '(t, x) => short_rate t (x s)) (combine times paths).
  Definition discount_path (times : list R) (paths : list samples) (s : nat) : list xr :=
    cumprod_using_matvec (Fin 1 :: map (fun '(r, d) => Fin (exp (- r * d))) (combine (removelast (rate_path times paths s)) (diff 1 true times))).
  (** [unwritten] is what stacking a TensorArray gives for a slot that was never
      written: zeros, or an exception ([None]). *)
  Variable unwritten : option samples.
  Definition sample_paths (times : list R) (time_step : option R) (num_time_steps : option nat) (tolerance : R) (draws : nat -> samples) : option outputs :=
    match times with
    | [] => None
    | _ =>
        let time_step_internal := match num_time_steps with Some n => Some (last times 0 / INR n) | None => time_step end in
        match time_step_internal with
        | None => None
        | Some step =>
            match prepare_grid times step tolerance num_time_steps None with
            | None => None
            | Some (grid, _, time_indices) =>
                match euler_sample gaussian_process grid time_step num_time_steps None tolerance false false draws (fun _ _ => 0) with
                | None => None
                | Some recorded =>
                    match all_some (map (fun slot => match slot with Some x => Some x | None => unwritten end) recorded) with
                    | None => None
                    | Some paths =>
                        Some (Outputs
                          (map (fun i s => nth i (rate_path grid paths s) 0) time_indices)
                          (map (fun i s => nth i (discount_path grid paths s) NaN) time_indices)
                          (map (fun i => nth i paths (fun _ _ => 0)) time_indices)
                          (map (fun i a b => state_y a b (at_ grid i)) time_indices))
                    end
                end
            end
        end
    end.
  (** quasi_gaussian_hjm.py 366-457: entry (sample s, curve time m, time i).  The
      y matrices have been flattened and are reshaped row by row. *)
  Definition sample_discount_curve_paths (times curve_times : list R) (time_step : option R) (num_time_steps : option nat) (tolerance : R) (draws : nat -> samples)
    : option ((nat -> nat -> nat -> R) * list (nat -> R) * list (nat -> xr)) :=
    match sample_paths times time_step num_time_steps tolerance draws with
    | None => None
    | Some o =>
        Some (fun s m i => reconstitution (at_ times i) (at_ times i + at_ curve_times m) (nth i (o_x o) (fun _ _ => 0) s) (nth i (o_y o) (fun _ _ => 0)),
              o_rate o, o_discount o)
    end.
End Model.
