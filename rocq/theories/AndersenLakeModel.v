(** Model of tf_quant_finance/experimental/american_option_pricing/{common,
    exercise_boundary,andersen_lake}.py for one option.  Definitions only.
    Simplification: the code prices a batch, whose options share the loops of
    the exercise boundary and of the quadrature; here the batch has one option.
    Numbers are exact reals; [None] is an exception. *)
From Coq Require Import Reals List Bool Arith.
From Verif Require Import InterpModel BrentModel ExtReal HaganWestModel BootstrapModel BlackScholesModel IntegrateModel GaussData KronrodModel.
Import ListNotations.
Open Scope R_scope.

(** The dtype of the arguments. *)
Inductive float_type := Float32 | Float64.

(** common.py 11-19 on float64.  erfc is 1 - erf. *)
Definition normal_cdf (a : R) : R :=
  let x := a / sqrt 2 in
  let z := Rabs x in
  let y1 := 1 / 2 + 1 / 2 * erf x in
  let y2 := 1 / 2 * (1 - erf z) in
  let y3 := 1 - y2 in
  if rlt z (sqrt 2 / 2) then y1 else if rlt 0 x then y3 else y2.
(** common.py 11-19: [z], and so [y2] and [y3], are float64 whatever the dtype
    of [a], but [y1] has the dtype of [a], and tf.where refuses to mix them. *)
Definition standard_normal_cdf (ty : float_type) (a : R) : option R :=
  match ty with Float64 => Some (normal_cdf a) | Float32 => None end.

(** common.py 47-50: machine_eps is [eps] below. *)
(** common.py 22-28, for times which are not negative. *)
Definition d_plus (eps tau z r q sigma : R) : R :=
  (ln (Rmax z eps) + (r - q + 1 / 2 * sigma ^ 2) * tau) / (sigma * sqrt tau + eps).
(** common.py 31-34 *)
Definition d_minus (eps tau z r q sigma : R) : R := d_plus eps tau z r q sigma - sigma * sqrt tau.
(** common.py 37-44; the assertion on [b] is in the callers. *)
Definition safe_divide (eps a b : R) : R := a / (b + eps).

(** gauss_legendre with the tables of gauss_constants.py. *)
Definition legendre := gauss_legendre (get legendre_roots) (get legendre_weights).

(** exercise_boundary.py 88-122 at one time.  The assertion of the division
    (109) holds as the boundary is at least machine_eps. *)
Definition boundary_numerator (eps : R) (b : R -> R) (k r q sigma : R) (points : nat) (tau : R) : option R :=
  let term1 := normal_cdf (d_minus eps tau (b tau / k) r q sigma) in
  let func u :=
    let ratio := safe_divide eps (b tau) (b u) in
    let norm := normal_cdf (d_minus eps (tau - u) ratio r q sigma) in
    exp (r * u) * norm in
  match legendre func 0 tau points with Some i => Some (term1 + r * i) | None => None end.
(** exercise_boundary.py 192-226 at one time. *)
Definition boundary_denominator (eps : R) (b : R -> R) (k r q sigma : R) (points : nat) (tau : R) : option R :=
  let term1 := normal_cdf (d_plus eps tau (b tau / k) r q sigma) in
  let func u :=
    let ratio := safe_divide eps (b tau) (b u) in
    let norm := normal_cdf (d_plus eps (tau - u) ratio r q sigma) in
    exp (q * u) * norm in
  match legendre func 0 tau points with Some i => Some (term1 + q * i) | None => None end.

(** exercise_boundary.py 312-320 *)
Definition start_boundary (eps k r q : R) : R := k * (if rlt (Rabs q) eps then 1 else Rmin 1 (r / q)).
(** build_spline (natural ends) and interpolate, exercise_boundary.py 326-334,
    360-362: at least machine_eps. *)
Definition boundary_function (eps : R) (s : spline) (t : R) : R := Rmax (cubic_interpolate false s t) eps.
(** exercise_boundary.py 336-343 at one time; a negative denominator fails the
    assertion of common.py 41. *)
Definition new_point (eps : R) (b : R -> R) (k r q sigma : R) (points : nat) (tau : R) : option R :=
  match boundary_numerator eps b k r q sigma points tau, boundary_denominator eps b k r q sigma points tau with
  | Some n, Some d => if rlt d 0 then None else Some (safe_divide eps (k * exp (- (r - q) * tau) * n) d)
  | _, _ => None
  end.
(** exercise_boundary.py 344-348 *)
Definition relative_change (eps : R) (new current : list R) : R :=
  reduce_max (vzip (fun n c => Rabs (n - c) / (Rabs n + eps)) new current).
(** exercise_boundary.py 323-350 *)
Definition boundary_body (eps : R) (tau_grid : list R) (k r q sigma tolerance : R) (points : nat) (current : list R) : option (bool * list R) :=
  match spline_build tau_grid current NATURAL with
  | None => None
  | Some s =>
      match all_some (map (new_point eps (boundary_function eps s) k r q sigma points) tau_grid) with
      | None => None
      | Some new => Some (rle (relative_change eps new current) tolerance, new)
      end
  end.
(** exercise_boundary.py 321-322, 351-359: at most [max_iterations] passes. *)
Fixpoint boundary_loop (eps : R) (tau_grid : list R) (k r q sigma tolerance : R) (points max_iterations : nat) (converged : bool) (current : list R) : option (list R) :=
  match max_iterations with
  | O => Some current
  | S m =>
      if negb converged then
        match boundary_body eps tau_grid k r q sigma tolerance points current with
        | None => None
        | Some (c, new) => boundary_loop eps tau_grid k r q sigma tolerance points m c new
        end
      else Some current
  end.
(** exercise_boundary.py 229-364 *)
Definition exercise_boundary (eps : R) (tau_grid : list R) (k r q sigma : R) (max_iterations : nat) (tolerance : R) (points : nat) : option (R -> R) :=
  match boundary_loop eps tau_grid k r q sigma tolerance points max_iterations false (map (fun _ => start_boundary eps k r q) tau_grid) with
  | None => None
  | Some result => match spline_build tau_grid result NATURAL with None => None | Some s => Some (boundary_function eps s) end
  end.

(** The numerical settings of andersen_lake.py 13-33. *)
Record settings := Settings {
  grid_num_points : nat; num_points_kronrod : nat; num_points_legendre : nat;
  max_iterations_boundary : nat; max_depth_kronrod : nat;
  tolerance_boundary : R; tolerance_kronrod : R }.

(** tf.linspace(tau / n, tau, n), andersen_lake.py 256: the points are equally
    spaced, so in exact arithmetic they are tau (i + 1) / n. *)
Definition linspace_to (tau : R) (n : nat) : list R := map (fun i => tau * INR (S i) / INR n) (seq 0 n).
(** andersen_lake.py 261-266 *)
Definition boundary_rate (eps r other : R) : R := if rlt (Rabs r) eps then (if rlt (Rabs other) eps then 1 / 10 else r) else r.
(** andersen_lake.py 292-298 *)
Definition func_1 (eps : R) (b : R -> R) (tau s k r q sigma u : R) : R :=
  let ratio := safe_divide eps s (b u) in
  let norm := normal_cdf (- d_minus eps (tau - u) ratio r q sigma) in
  r * k * exp (- r * (tau - u)) * norm.
(** andersen_lake.py 309-314 *)
Definition func_2 (eps : R) (b : R -> R) (tau s k r q sigma u : R) : R :=
  let ratio := safe_divide eps s (b u) in
  let norm := normal_cdf (- d_plus eps (tau - u) ratio r q sigma) in
  q * s * exp (- q * (tau - u)) * norm.
(** andersen_lake.py 223-324 *)
Definition andersen_lake_core (eps : R) (c : settings) (sigma k_temp tau s_temp r_temp q_temp : R) (is_call : bool) : option xr :=
  match option_price (OptionArgs sigma k_temp tau (Some s_temp) None (Some r_temp) (Some q_temp) None (Some is_call) false) with
  | None => None
  | Some eu_price =>
      let k := if is_call then s_temp else k_temp in
      let s := if is_call then k_temp else s_temp in
      let r := if is_call then q_temp else r_temp in
      let q := if is_call then r_temp else q_temp in
      let tau_grid := linspace_to tau (grid_num_points c) in
      let r_e_b := boundary_rate eps r q in
      let q_e_b := boundary_rate eps q r in
      match exercise_boundary eps tau_grid k r_e_b q_e_b sigma (max_iterations_boundary c) (tolerance_boundary c) (num_points_legendre c) with
      | None => None
      | Some b =>
          match gauss_kronrod (func_1 eps b tau s k r q sigma) [(0, tau)] (tolerance_kronrod c) (num_points_kronrod c) (max_depth_kronrod c),
                gauss_kronrod (func_2 eps b tau s k r q sigma) [(0, tau)] (tolerance_kronrod c) (num_points_kronrod c) (max_depth_kronrod c) with
          | Some [term1], Some [term2] => Some (eu_price +x Fin term1 -x Fin term2)
          | _, _ => None
          end
      end
  end.
(** andersen_lake.py 172-186: the rate of discount.  Simplification: a discount
    factor which is not positive has no finite rate, and is refused here. *)
Definition rate_of (a : option_args) : option R :=
  match discount_rate a, discount_factor a with
  | Some r, _ => Some r
  | None, Some d => if rle d 0 then None else Some (divide_no_nan (- ln d) (expiry a))
  | None, None => Some 0
  end.
(** andersen_lake.py 13-220; [eps ty] is machine_eps.  The normality of the
    volatility is not an argument of this function and is ignored. *)
Definition andersen_lake (eps : float_type -> R) (ty : float_type) (c : settings) (a : option_args) : option xr :=
  if eqb (is_none (spot a)) (is_none (forward a)) then None else
  if negb (is_none (discount_rate a)) && negb (is_none (discount_factor a)) then None else
  match rate_of a with
  | None => None
  | Some r =>
      let q := match dividend_rate a with Some q => q | None => 0 end in
      let s := match forward a, spot a with
               | Some f, _ => f * exp (- (r - q) * expiry a)
               | None, Some s => s
               | None, None => 0
               end in
      let is_call := match is_call_option a with Some c => c | None => true end in
      match standard_normal_cdf ty 0 with
      | None => None (* every price needs the distribution function *)
      | Some _ => andersen_lake_core (eps ty) c (volatility a) (strike a) (expiry a) s r q is_call
      end
  end.
