(** Model of tf_quant_finance/black_scholes/variance_swaps.py over exact reals.
    Definitions only.  The logarithm of a strike that is not positive (NaN in
    the code) is not modelled; the theorems assume positive strikes. *)
From Coq Require Import Reals List Bool.
From Verif Require Import InterpModel BrentModel ExtReal SegmentModel BlackScholesModel.
Import ListNotations.
Open Scope R_scope.

(** One element of the batch: ordered strikes, reference strike, expiry. *)
Record swap_row := SwapRow { row_strikes : list R; row_reference : R; row_expiry : R }.
(** variance_swaps.py 105-107. *)
Definition log_payoff (reference expiry k : R) : R :=
  let term_lin := (k - reference) / reference in
  let term_log := ln k - ln reference in
  (2 / expiry) * (term_lin - term_log).
(** variance_swaps.py 94 and 105-114 for one row. *)
Definition row_weights (strikes_descending : bool) (r : swap_row) : list R :=
  let strike_diff := diff 1 true (row_strikes r) in
  let payoff := map (log_payoff (row_reference r) (row_expiry r)) (row_strikes r) in
  let payoff_diff := diff 1 true payoff in
  let r_vals := map (fun '(p, k) => divide_no_nan p k) (combine payoff_diff strike_diff) in
  let r_vals_diff := diff 1 true ([0] ++ r_vals) in
  if strikes_descending then map Ropp r_vals_diff else r_vals_diff.
(** variance_swaps.py 83-114 for a batch: [reduce_all] runs over all the rows.
    [None] is the failed assertion. *)
Definition replicating_weights (rows : list swap_row) (validate_args : bool) : option (list (list R)) :=
  let strike_diff := flat_map (fun r => diff 1 true (row_strikes r)) rows in
  let strikes_descending := forallb (fun d => rlt d 0) strike_diff in
  let strikes_ascending := forallb (fun d => rlt 0 d) strike_diff in
  if validate_args && negb (strikes_descending || strikes_ascending) then None
  else Some (map (row_weights strikes_descending) rows).

(** The options of one side, variance_swaps.py 257-272; [None] when a price is
    refused or not finite. *)
Fixpoint all_some {A} (l : list (option A)) : option (list A) :=
  match l with
  | [] => Some []
  | o :: r => match o, all_some r with Some x, Some xs => Some (x :: xs) | _, _ => None end
  end.
Definition finite_price (a : option_args) : option R := match option_price a with Some (Fin p) => Some p | _ => None end.
Definition side_prices (strikes volatilities : list R) (expiry spot rate : R) (call : bool) : option (list R) :=
  all_some (map (fun '(v, k) => finite_price (OptionArgs v k expiry (Some spot) None (Some rate) None None (Some call) false)) (combine (removelast volatilities) (removelast strikes))).
Definition dot (l m : list R) : R := fold_right Rplus 0 (map (fun '(x, y) => x * y) (combine l m)).
(** variance_swaps.py 214-288 for a batch of one element; lengths of strikes and
    volatilities must agree ([None] otherwise: the product of tensors fails). *)
Definition fair_strike (put_strikes put_volatilities call_strikes call_volatilities : list R) (expiry rate spot reference : R) (validate_args : bool) : option R :=
  if negb (Nat.eqb (length put_strikes) (length put_volatilities) && Nat.eqb (length call_strikes) (length call_volatilities)) then None
  else match replicating_weights [SwapRow put_strikes reference expiry] validate_args,
        replicating_weights [SwapRow call_strikes reference expiry] validate_args,
        side_prices put_strikes put_volatilities expiry spot rate false,
        side_prices call_strikes call_volatilities expiry spot rate true with
  | Some [put_weights], Some [call_weights], Some put_prices, Some call_prices =>
      let effective_rate := expiry * rate in
      let discount_factor := exp effective_rate in
      let s_ratio := spot / reference in
      let centrality_term := (2 / expiry) * (effective_rate - discount_factor * s_ratio + 1 + ln s_ratio) in
      let options_value := discount_factor * (dot put_weights put_prices + dot call_weights call_prices) in
      Some (options_value + centrality_term)
  | _, _, _, _ => None
  end.
