(** Model of tf_quant_finance/rates/analytics/{cashflows,forwards,swap}.py and
    rates/constant_fwd/constant_fwd_interpolation.py for one batch element.
    Definitions only.  Where the code divides without a guard the model uses
    the division of R; the theorems exclude a zero divisor. *)
From Coq Require Import Reals List Bool ZArith.
From Verif Require Import TensorModel InterpModel IntegrateModel SegmentModel ExtReal.
Import ListNotations.
Open Scope R_scope.

(** cashflows.py 19-68. *)
Definition present_value (cashflows discount_factors : list R) : R := reduce_sum (vzip Rmult cashflows discount_factors).

(** tf.gather of a vector; an index out of range is an error. *)
Fixpoint gather_opt (l : list R) (idx : list nat) : option (list R) :=
  match idx with
  | [] => Some []
  | i :: idx => match nth_error l i, gather_opt l idx with Some v, Some r => Some (v :: r) | _, _ => None end
  end.
(** tf.math.segment_sum: ids must be sorted; the result has one element for
    every id up to the last. *)
Fixpoint sorted_ids (l : list nat) : bool := match l with a :: ((b :: _) as r) => Nat.leb a b && sorted_ids r | _ => true end.
Definition segment_sum (data : list R) (ids : list nat) : option (list R) :=
  if sorted_ids ids
  then Some (map (fun g => reduce_sum (map fst (filter (fun p => Nat.eqb (snd p) g) (combine data ids))))
                 (seq 0 (match ids with [] => 0%nat | _ => S (last ids 0%nat) end)))
  else None.

(** cashflows.py 71-165. *)
Definition discounted (cashflows times cashflow_yields : list R) : list R :=
  vzip Rmult cashflows (vzip (fun t y => exp (- t * y)) times cashflow_yields).
Definition pv_from_yields (cashflows times yields : list R) (groups : option (list nat)) : option (list R) :=
  match groups with
  | Some groups =>
      match gather_opt yields groups with
      | Some cashflow_yields => segment_sum (discounted cashflows times cashflow_yields) groups
      | None => None
      end
  | None =>
      (* a single yield is broadcast *)
      let cashflow_yields := match yields with [y] => map (fun _ => y) times | _ => yields end in
      Some [reduce_sum (discounted cashflows times cashflow_yields)]
  end.

(** cashflows.py 274-279. *)
Definition pv_and_duration (cashflows times : list R) (groups : list nat) (yields : list R) : option (list R * list R) :=
  match gather_opt yields groups with
  | None => None
  | Some cashflow_yields =>
      let d := discounted cashflows times cashflow_yields in
      match segment_sum (vzip Rmult d times) groups, segment_sum d groups with
      | Some durations, Some pvs => Some (pvs, durations)
      | _, _ => None
      end
  end.
(** cashflows.py 287-292; [vzip] of vectors of the same length. *)
Definition yields_body (cashflows times present_values : list R) (groups : list nat) (tolerance : R) (yields : list R) : option (bool * list R) :=
  match pv_and_duration cashflows times groups yields with
  | None => None
  | Some (pvs, durations) =>
      let delta_yields := vzip Rdiv (vzip Rminus pvs present_values) durations in
      let next_should_stop := if Rle_dec (reduce_max (map Rabs delta_yields)) tolerance then true else false in
      Some (next_should_stop, vzip Rplus yields delta_yields)
  end.
(** cashflows.py 283-285, 294-302. *)
Fixpoint yields_loop (max_iterations : nat) (cashflows times present_values : list R) (groups : list nat) (tolerance : R) (should_stop : bool) (yields : list R) : option (list R) :=
  match max_iterations with
  | O => Some yields
  | S n => if negb should_stop
           then match yields_body cashflows times present_values groups tolerance yields with
                | Some (stop, yields) => yields_loop n cashflows times present_values groups tolerance stop yields
                | None => None
                end
           else Some yields
  end.
(** cashflows.py 168-302. *)
Definition yields_from_pv (cashflows times present_values : list R) (groups : option (list nat)) (tolerance : R) (max_iterations : nat) : option (list R) :=
  let groups := match groups with None => map (fun _ => 0%nat) cashflows | Some g => g end in
  yields_loop max_iterations cashflows times present_values groups tolerance false (map (fun _ => 0) present_values).

(** forwards.py 21-70, one element. *)
Definition forward_rate (df_start df_end daycount : R) : R := divide_no_nan (divide_no_nan df_start df_end - 1) daycount.
Definition forward_rates (df_start_dates df_end_dates daycount_fractions : list R) : list R :=
  map (fun '(s, (e, d)) => forward_rate s e d) (combine df_start_dates (combine df_end_dates daycount_fractions)).
(** forwards.py 73-179. *)
Definition forward_rates_from_yields (yields times : list R) (groups : option (list Z)) : list R :=
  let rate_times := vzip Rmult yields times in
  let diff_rate_times := segment_diff rate_times groups 1 false in
  let diff_times := segment_diff times groups 1 false in
  vzip Rdiv diff_rate_times diff_times.
(** forwards.py 182-296. *)
Definition yields_from_forward_rates (discrete_forwards times : list R) (groups : option (list Z)) : list R :=
  let intervals := segment_diff times groups 1 false in
  let x := vzip Rmult intervals discrete_forwards in
  let y := segment_cumsum x groups false in
  vzip divide_no_nan y times.

(** swap.py 30-97. *)
Definition swap_price (pay_leg_cashflows receive_leg_cashflows pay_leg_discount_factors receive_leg_discount_factors : list R) : R :=
  let receive_leg_pv := present_value receive_leg_cashflows receive_leg_discount_factors in
  let pay_leg_pv := present_value pay_leg_cashflows pay_leg_discount_factors in
  receive_leg_pv - pay_leg_pv.
(** swap.py 100-171 with a scalar notional and one dividend per cashflow. *)
Definition equity_leg_cashflows (forward_prices : list R) (spot notional : R) (dividends : list R) : list R :=
  let forward_prices := spot :: forward_prices in
  map (fun '(next, (prev, dividend)) => divide_no_nan (notional * (next - prev) + dividend) prev)
      (combine (tl forward_prices) (combine (removelast forward_prices) dividends)).
(** swap.py 174-222. *)
Definition rate_leg_cashflows (coupon_rates notional daycount_fractions : list R) : list R :=
  vzip Rmult (vzip Rmult notional daycount_fractions) coupon_rates.
(** swap.py 225-333; the first three arguments of rate_leg_cashflows are given
    in the order notional, daycount fractions, coupons. *)
Definition ir_swap_price (pay_coupons receive_coupons pay_notional receive_notional pay_daycounts receive_daycounts pay_dfs receive_dfs : list R) : R :=
  let pay_leg_cashflows := rate_leg_cashflows pay_notional pay_daycounts pay_coupons in
  let receive_leg_cashflows := rate_leg_cashflows receive_notional receive_daycounts receive_coupons in
  swap_price pay_leg_cashflows receive_leg_cashflows pay_dfs receive_dfs.
(** swap.py 336-396. *)
Definition df_of (reference_rate_fn : R -> R) (t : R) : R := exp (- reference_rate_fn t * t).
Definition ir_swap_par_rate_and_annuity (floating_starts floating_ends fixed_times fixed_daycounts : list R) (reference_rate_fn : R -> R) : R * R :=
  let annuity := reduce_sum (vzip Rmult (map (df_of reference_rate_fn) fixed_times) fixed_daycounts) in
  let swap_rate := reduce_sum (vzip Rminus (map (df_of reference_rate_fn) floating_starts) (map (df_of reference_rate_fn) floating_ends)) / annuity in
  (swap_rate, annuity).
(** swap.py 399-539. *)
Definition equity_swap_price (rate_coupons forward_prices : list R) (spot : R) (rate_notional : list R) (equity_notional : R)
    (rate_daycounts rate_dfs equity_dfs dividends : list R) (is_equity_receiver : option bool) : R :=
  let is_equity_receiver := match is_equity_receiver with None => true | Some b => b end in
  let equity_receiver := if is_equity_receiver then 1 else - 1 in
  let equity_cashflows := equity_leg_cashflows forward_prices spot equity_notional dividends in
  let rate_cashflows := rate_leg_cashflows rate_coupons rate_notional rate_daycounts in
  equity_receiver * swap_price rate_cashflows equity_cashflows rate_dfs equity_dfs.

(** constant_fwd_interpolation.py 22-100 at one time; the last division may be
    0/0. *)
Definition constant_fwd_interpolate (reference_times reference_yields : list R) (t : R) : xr :=
  let reference_times_min := reduce_min reference_times in
  let reference_times_max := reduce_max reference_times in
  let t := Rmin reference_times_max (Rmax reference_times_min t) in
  let interpolated_prod := linear_interpolate false reference_times (vzip Rmult reference_times reference_yields) None None t in
  xdiv (Fin interpolated_prod) (Fin t).

(** nelson_seigel_svensson_interpolation.py 118-123. *)
Definition exp_term (x y : R) : R := exp (- divide_no_nan x y).
Definition integrated_exp_term (x y : R) : xr := xdiv (Fin (1 - exp_term x y)) (Fin (divide_no_nan x y)).
(** nelson_seigel_svensson_interpolation.py 25-41. *)
Record svensson := { beta_0 : R; beta_1 : R; beta_2 : R; beta_3 : R; tau_1 : R; tau_2 : R }.
(** nelson_seigel_svensson_interpolation.py 44-115 at one time. *)
Definition svensson_interpolate (t : R) (p : svensson) : xr :=
  let xsub := fun a b => xadd a (xopp b) in
  let yield_part0 := Fin (beta_0 p) in
  let yield_part1 := xmul (Fin (beta_1 p)) (integrated_exp_term t (tau_1 p)) in
  let yield_part2 := xmul (Fin (beta_2 p)) (xsub (integrated_exp_term t (tau_1 p)) (Fin (exp_term t (tau_1 p)))) in
  let yield_part3 := xmul (Fin (beta_3 p)) (xsub (integrated_exp_term t (tau_2 p)) (Fin (exp_term t (tau_2 p)))) in
  xadd (xadd (xadd yield_part0 yield_part1) yield_part2) yield_part3.
