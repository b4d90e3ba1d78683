(** Model of tf_quant_finance/experimental/local_volatility/local_volatility_model.py
    for one underlying and one requested point.  Definitions only.  Numbers are
    exact reals with infinities and NaN.  math.fwd_gradient is the derivative
    (Coquelicot's [Derive]) of the finite values of the function; a surface
    that ignores one of its arguments altogether, for which TensorFlow returns
    the gradient None, is given the derivative 0 here. *)
From Coquelicot Require Import Coquelicot.
From Coq Require Import Reals List Bool Arith ZArith.
From Verif Require Import TensorModel SegmentModel InterpModel BrentModel ExtReal HaganWestModel BootstrapModel BlackScholesModel PiecewiseModel
  TimeGridModel Interp2dModel EulerModel.
Import ListNotations.
Open Scope R_scope.

(** The finite value. *)
Definition real_of (a : xr) : R := match a with Fin x => x | _ => 0 end.
(** math.fwd_gradient of a function with values in the extended numbers. *)
Definition fwd_gradient (f : R -> xr) (x : R) : xr :=
  if is_finite (f x) then Fin (Derive (fun y => real_of (f y)) x) else NaN.
(** tf.nn.relu. *)
Definition relu (a : xr) : xr := xmax a (Fin 0).

Section Dupire.
  (** [implied_volatility_surface t k] is the callable of lines 50-58. *)
  Variables (initial_spot_price dividend_yield : R) (discount_factor_fn : R -> R) (implied_volatility_surface : R -> R -> R).

  (** local_volatility_model.py 811-819. *)
  Definition risk_free_rate_fn (t : R) : xr := fwd_gradient (fun x => xopp (xln (Fin (discount_factor_fn x)))) t.

  (** local_volatility_model.py 75-88: the call price at the implied volatility. *)
  Definition price_args (expiry_time strike : R) : option_args :=
    OptionArgs (implied_volatility_surface expiry_time strike) strike expiry_time (Some initial_spot_price) None None
      (Some dividend_yield) (Some (discount_factor_fn expiry_time)) None false.
  Definition call_price (expiry_time strike : R) : xr :=
    match option_price (price_args expiry_time strike) with Some p => p | None => NaN end.

  (** local_volatility_model.py 37-103. *)
  Definition dupire_prices (time spot_price : R) : xr :=
    let risk_free_rate := risk_free_rate_fn time in
    let q := Fin dividend_yield in
    let k := Fin spot_price in
    let dcdk_fn x := call_price time x in
    let dcdt_fn x := call_price x spot_price in
    let d2cdk2_fn x := fwd_gradient dcdk_fn x in
    let numerator := fwd_gradient dcdt_fn time +x (risk_free_rate -x q) *x k *x fwd_gradient dcdk_fn spot_price +x q *x call_price time spot_price in
    let denominator := fwd_gradient d2cdk2_fn spot_price *x xsquare k in
    xsqrt (relu (Fin 2 *x xdivide_no_nan numerator denominator)).

  (** local_volatility_model.py 118-121, also 280-283 (where the quotient of
      the spots is divide_no_nan, the same for a nonzero spot price). *)
  Definition d1_of (r theta : xr) (time spot_price : R) : xr :=
    xdivide_no_nan
      ((xln (Fin initial_spot_price /x Fin spot_price) +x (r -x Fin dividend_yield +x Fin (1 / 2) *x xsquare theta) *x Fin time) /x theta)
      (xsqrt (Fin time)).
  (** local_volatility_model.py 129-137, also 296-300. *)
  Definition iv_numerator (r theta theta_t theta_k : xr) (time spot_price : R) : xr :=
    xsquare theta +x Fin 2 *x Fin time *x theta *x theta_t
      +x Fin 2 *x (r -x Fin dividend_yield) *x Fin spot_price *x Fin time *x theta *x theta_k.
  Definition iv_denominator (d1 theta theta_k theta_kk : xr) (time spot_price : R) : xr :=
    xsquare (Fin 1 +x Fin spot_price *x d1 *x Fin time *x theta_k)
      +x xsquare (Fin spot_price) *x Fin time *x theta *x (theta_kk -x d1 *x Fin time *x xsquare theta_k).
  (** local_volatility_model.py 106-141. *)
  Definition dupire_iv (time spot_price : R) : xr :=
    let r := risk_free_rate_fn time in
    let theta := Fin (implied_volatility_surface time spot_price) in
    let spot_fn x := Fin (implied_volatility_surface time x) in
    let time_fn t := Fin (implied_volatility_surface t spot_price) in
    let dtheta_dspot x := fwd_gradient spot_fn x in
    let d2theta_dspot2 x := fwd_gradient dtheta_dspot x in
    let numerator := iv_numerator r theta (fwd_gradient time_fn time) (dtheta_dspot spot_price) time spot_price in
    let denominator := iv_denominator (d1_of r theta time spot_price) theta (dtheta_dspot spot_price) (d2theta_dspot2 spot_price) time spot_price in
    xsqrt (relu (xdivide_no_nan numerator denominator)).

  (** local_volatility_model.py 144-304 for one underlying.  The implied
      volatilities and their time derivatives on the two grids (192-216), one
      natural cubic spline in the spot for every time of the grid (221-242),
      chosen by a left-continuous piecewise constant function of the time whose
      jumps are all but the first time of the grid (226-232): [None] when a
      spline cannot be built. *)
  Definition vol_rows (times_grid spot_grid : list R) : list (list R) :=
    map (fun t => map (fun k => implied_volatility_surface t k) spot_grid) times_grid.
  Definition vol_grad_rows (times_grid spot_grid : list R) : list (list R) :=
    map (fun t => map (fun k => real_of (fwd_gradient (fun u => Fin (implied_volatility_surface u k)) t)) spot_grid) times_grid.
  Definition grid_index (times_grid : list R) (time : R) : nat := searchsorted_left (tl times_grid) time.
  Definition dupire_iv_precomputed (times_grid spot_grid : list R) (time spot_price : R) : option xr :=
    match build_rows (map (fun row => (spot_grid, row)) (vol_rows times_grid spot_grid)),
          build_rows (map (fun row => (spot_grid, row)) (vol_grad_rows times_grid spot_grid)) with
    | Some splines, Some grad_splines =>
        match nth_error splines (grid_index times_grid time), nth_error grad_splines (grid_index times_grid time) with
        | Some spline, Some spline_grad =>
            let r := risk_free_rate_fn time in
            let theta_fn s := Fin (cubic_interpolate false spline s) in
            let theta := theta_fn spot_price in
            let grad_spots_fn s := fwd_gradient theta_fn s in
            let grad_times := Fin (cubic_interpolate false spline_grad spot_price) in
            let d1 := d1_of r theta time spot_price in
            Some (xsqrt (relu (iv_numerator r theta grad_times (grad_spots_fn spot_price) time spot_price
              /x iv_denominator d1 theta (grad_spots_fn spot_price) (fwd_gradient grad_spots_fn spot_price) time spot_price)))
        | _, _ => None
        end
    | _, _ => None
    end.
End Dupire.

(** local_volatility_model.py 624-663: the surface of quotes, interpolated in
    the time and the log-moneyness against the rate of the time [t].
    [quotes] pairs the strikes and the implied volatilities of each expiry.
    volatility_surface.py 80-140: the given interpolator is called with the
    expiry times. *)
Definition log_moneyness (spot dividend_yield : R) (rate : R -> R) (t k : R) : R := ln (k / spot) - (rate t - dividend_yield) * t.
Definition market_rows (spot dividend_yield : R) (rate : R -> R) (expiry_times : list R) (quotes : list (list R * list R)) : list (list R * list R) :=
  map (fun '(t, (ks, vs)) => (map (log_moneyness spot dividend_yield rate t) ks, vs)) (combine expiry_times quotes).
Definition market_surface (spot dividend_yield : R) (rate : R -> R) (expiry_times : list R) (quotes : list (list R * list R)) (t k : R) : option R :=
  interpolate_2d expiry_times (market_rows spot dividend_yield rate expiry_times quotes) t (log_moneyness spot dividend_yield rate t k).
(** local_volatility_model.py 626-627: [days] from the valuation date to the
    expiry dates. *)
Definition expiry_times_of (days : list Z) : list R := map (fun d => IZR d / 365) days.

(** local_volatility_model.py 455: [corr_matrix or tf.eye(dim, dim)].  A tensor
    (or a NumPy array) with more than one entry has no truth value; a Python
    list is true when it is not empty. *)
Inductive matrix_arg := NoMatrix | PyList (m : list (list R)) | TfTensor (m : list (list R)).
Definition eye (dim : nat) : list (list R) := map (fun i => map (fun j => if Nat.eqb i j then 1 else 0) (seq 0 dim)) (seq 0 dim).
Definition corr_matrix_of (dim : nat) (a : matrix_arg) : option (list (list R)) :=
  match a with
  | NoMatrix | PyList [] => Some (eye dim)
  | PyList m => Some m
  | TfTensor [[x]] => Some (if req x 0 then eye dim else [[x]])
  | TfTensor _ => None
  end.

(** local_volatility_model.py 460-476: drift and volatility of the logarithm
    of the spots.  [lv t s x c] is the local volatility of the c-th underlying
    when the spots of sample [s] are [x]; [sqrt_rho] is the Cholesky factor. *)
Definition local_vol_process (dim : nat) (domestic_rate foreign_rate : R -> R) (lv : R -> samples -> samples) (sqrt_rho : nat -> nat -> R) : process :=
  Process dim
    (fun t log_spot => let v := lv t (fun s c => exp (log_spot s c)) in
       fun s c => domestic_rate t - foreign_rate t - v s c * v s c / 2)
    (fun t log_spot => let v := lv t (fun s c => exp (log_spot s c)) in
       fun s c k => v s c * sqrt_rho c k).

(** local_volatility_model.py 438-443 and 517-523: the grid handed on to the
    simulation; [None] is a ValueError. *)
Definition constructor_ok (precompute_iv : bool) (times_grid spot_grid : option (list R)) : bool :=
  negb (precompute_iv && (match times_grid with None => true | _ => false end || match spot_grid with None => true | _ => false end)).
Definition sampling_grid (precompute_iv : bool) (model_times_grid : option (list R)) (time_step num_time_steps times_grid_given : bool)
    (times_grid : option (list R)) : option (option (list R)) :=
  if precompute_iv then
    if time_step || num_time_steps || times_grid_given then None else Some model_times_grid
  else Some times_grid.
