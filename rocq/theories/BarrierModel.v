(** Model of barrier_price in tf_quant_finance/black_scholes/vanilla_prices.py
    for one element of the batch.  Definitions only.  Numbers are exact reals;
    the divisions by zero and logarithms of non-positive numbers that give
    infinities or NaN in the code are not modelled, so the theorems assume a
    positive volatility, expiry, spot, strike and barrier. *)
From Coq Require Import Reals List Bool Arith ZArith.
From Verif Require Import InterpModel BrentModel BlackScholesModel.
Import ListNotations.
Open Scope R_scope.

(** vanilla_prices.py 185-198. *)
Record barrier_args := BarrierArgs {
  b_volatility : R; b_strike : R; b_expiry : R; b_spot : R; b_barrier : R;
  b_rebate : option R; b_rate : option R; b_dividend : option R;
  is_barrier_down : option bool; is_knock_out : option bool; is_call : option bool }.
(** vanilla_prices.py 306-324 and 326-343: zero and true by default. *)
Definition default0 (o : option R) : R := match o with Some x => x | None => 0 end.
Definition flag (o : option bool) : Z := match o with Some false => 0 | _ => 1 end.
(** vanilla_prices.py 347-349. *)
Definition mask_index (a : barrier_args) : Z := (Z.shiftl (flag (is_barrier_down a)) 2 + Z.shiftl (flag (is_knock_out a)) 1 + flag (is_call a))%Z.
(** vanilla_prices.py 356-364. *)
Definition mask_matrix_greater_strike : list (list Z) := [
  [1; 1; -1; -1; 0; 0; 1; 1; 1; 1; 0; 0];
  [1; 1; 0; 0; 0; 0; 0; 0; 1; 1; 0; 0];
  [0; 0; 1; 1; 0; 0; -1; -1; 0; 0; 1; 1];
  [0; 0; 0; 0; 0; 0; 0; 0; 0; 0; 1; 1];
  [0; 0; 1; 1; -1; -1; 1; 1; 0; 0; 1; 1];
  [0; 0; 0; 0; 1; 1; 0; 0; 1; 1; 0; 0];
  [1; 1; -1; -1; 1; 1; -1; -1; 0; 0; 1; 1];
  [1; 1; 0; 0; -1; -1; 0; 0; 0; 0; 1; 1]]%Z.
(** vanilla_prices.py 366-374. *)
Definition mask_matrix_lower_strike : list (list Z) := [
  [0; 0; 0; 0; 1; 1; 0; 0; 1; 1; 0; 0];
  [0; 0; 1; 1; -1; -1; 1; 1; 1; 1; 0; 0];
  [1; 1; 0; 0; -1; -1; 0; 0; 0; 0; 1; 1];
  [1; 1; -1; -1; 1; 1; -1; -1; 0; 0; 1; 1];
  [1; 1; 0; 0; 0; 0; 0; 0; 1; 1; 0; 0];
  [1; 1; -1; -1; 0; 0; 1; 1; 1; 1; 0; 0];
  [0; 0; 0; 0; 0; 0; 0; 0; 0; 0; 1; 1];
  [0; 0; 1; 1; 0; 0; -1; -1; 0; 0; 1; 1]]%Z.
(** vanilla_prices.py 376-382. *)
Definition masks (a : barrier_args) : list R :=
  let row := Z.to_nat (mask_index a) in
  map IZR (if rlt (b_barrier a) (b_strike a) then nth row mask_matrix_greater_strike [] else nth row mask_matrix_lower_strike []).

(** vanilla_prices.py 383-446. *)
Definition barrier_price (a : barrier_args) : R :=
  let '(spots, strikes, barriers) := (b_spot a, b_strike a, b_barrier a) in
  let '(volatilities, expiries) := (b_volatility a, b_expiry a) in
  let '(rebates, discount_rates, dividend_rates) := (default0 (b_rebate a), default0 (b_rate a), default0 (b_dividend a)) in
  let call_or_put := if Z.eqb (flag (is_call a)) 0 then -1 else 1 in
  let below_or_above := if Z.eqb (flag (is_barrier_down a)) 0 then -1 else 1 in
  let sqrt_var := volatilities * sqrt expiries in
  let mu := (discount_rates - dividend_rates) - volatilities ^ 2 / 2 in
  let lamda := 1 + mu / volatilities ^ 2 in
  let x := ln (spots / strikes) / sqrt_var + lamda * sqrt_var in
  let x1 := ln (spots / barriers) / sqrt_var + lamda * sqrt_var in
  let y := ln (barriers ^ 2 / (spots * strikes)) / sqrt_var + lamda * sqrt_var in
  let y1 := ln (barriers / spots) / sqrt_var + lamda * sqrt_var in
  let b := (mu ^ 2 + 2 * volatilities ^ 2 * discount_rates) / volatilities ^ 2 in
  let z := ln (barriers / spots) / sqrt_var + b * sqrt_var in
  let a' := mu / volatilities ^ 2 in
  let discount_factors := exp (- discount_rates * expiries) in
  let barriers_ratio := barriers / spots in
  let spots_term := call_or_put * spots * exp (- dividend_rates * expiries) in
  let strikes_term := call_or_put * strikes * discount_factors in
  let terms_mat := [
    spots_term; - strikes_term; spots_term; - strikes_term;
    spots_term * Rpower barriers_ratio (2 * lamda); - strikes_term * Rpower barriers_ratio (2 * lamda - 2);
    spots_term * Rpower barriers_ratio (2 * lamda); - strikes_term * Rpower barriers_ratio (2 * lamda - 2);
    rebates * discount_factors; - rebates * discount_factors * Rpower barriers_ratio (2 * lamda - 2);
    rebates * Rpower barriers_ratio (a' + b); rebates * Rpower barriers_ratio (a' - b)] in
  let cdf_mat := [
    call_or_put * x; call_or_put * (x - sqrt_var); call_or_put * x1; call_or_put * (x1 - sqrt_var);
    below_or_above * y; below_or_above * (y - sqrt_var); below_or_above * y1; below_or_above * (y1 - sqrt_var);
    below_or_above * (x1 - sqrt_var); below_or_above * (y1 - sqrt_var);
    below_or_above * z; below_or_above * (z - 2 * b * sqrt_var)] in
  fold_right Rplus 0 (map (fun '(m, (t, c)) => m * t * c) (combine (masks a) (combine terms_mat (map ncdf cdf_mat)))).
