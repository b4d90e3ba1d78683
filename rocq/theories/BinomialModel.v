(** Model of tf_quant_finance/black_scholes/crr_binomial_tree.py for one
    element of the batch.  Definitions only.  Numbers are exact reals; [None]
    stands for NaN. *)
From Coq Require Import Reals List Bool Arith.
From Verif Require Import InterpModel BrentModel.
Import ListNotations.
Open Scope R_scope.

(** crr_binomial_tree.py 20-31. *)
Record tree_args := TreeArgs {
  t_volatility : R; t_strike : R; t_expiry : R; t_spot : R;
  t_rate : option R; t_dividend : option R; t_call : option bool; t_american : option bool; t_steps : nat }.
(** crr_binomial_tree.py 121-142: the defaults. *)
Definition or_zero (o : option R) : R := match o with Some x => x | None => 0 end.
Definition or_true (o : option bool) : bool := match o with Some b => b | None => true end.
Definition or_false (o : option bool) : bool := match o with Some b => b | None => false end.

(** crr_binomial_tree.py 203-219. *)
Definition tree_payoff (strikes : R) (is_call : bool) (spots : R) : R :=
  let option_signs := (if is_call then 1 else 0) * 2 - 1 in
  Rmax ((spots - strikes) * option_signs) 0.
(** crr_binomial_tree.py 222-230. *)
Definition value_modifier (is_american : bool) (payoff_fn : R -> R) (value spot : R) : R :=
  if is_american then Rmax (payoff_fn spot) value else value.
(** crr_binomial_tree.py 177-182; the state is the pair of rows. *)
Definition one_step_back (p_up p_dn discount_factor ln_up : R) (value_mod_fn : R -> R -> R) (state : list R * list R) : list R * list R :=
  let (current_values, current_log_spot_grid) := state in
  let next_values := map (fun '(dn, up) => dn * p_dn + up * p_up) (combine (tl current_values) (removelast current_values)) in
  let next_log_spot_grid := map (fun l => l - ln_up) (removelast current_log_spot_grid) in
  let next_values := map (fun '(v, l) => value_mod_fn v (exp l)) (combine next_values next_log_spot_grid) in
  (map (fun v => discount_factor * v) next_values, next_log_spot_grid).
(** crr_binomial_tree.py 113-200.  With zero steps or zero volatility p_up or
    the grid is NaN, which reaches the result when the expiry is positive. *)
Definition option_price_binomial (a : tree_args) : option R :=
  let '(strikes, volatilities, expiries, spots) := (t_strike a, t_volatility a, t_expiry a, t_spot a) in
  let '(discount_rates, dividend_rates) := (or_zero (t_rate a), or_zero (t_dividend a)) in
  let '(is_call, is_american) := (or_true (t_call a), or_false (t_american a)) in
  if rlt 0 expiries then
    let num_steps := INR (t_steps a) in
    let dt := expiries / num_steps in
    let ln_up := volatilities * sqrt dt in
    let ln_dn := - ln_up in
    let log_spot_grid := map (fun j => (ln spots + ln_up * num_steps) + (ln_dn - ln_up) * INR j) (seq 0 (t_steps a + 1)) in
    let payoff_fn := tree_payoff strikes is_call in
    let values_grid := map payoff_fn (map exp log_spot_grid) in
    if req num_steps 0 || req (exp (2 * ln_up) - 1) 0 then None
    else
      let p_up := (exp ((discount_rates - dividend_rates) * dt + ln_up) - 1) / (exp (2 * ln_up) - 1) in
      let p_dn := 1 - p_up in
      let discount_factors := exp (- discount_rates * dt) in
      let (pv, _) := Nat.iter (t_steps a) (one_step_back p_up p_dn discount_factors ln_up (value_modifier is_american payoff_fn)) (values_grid, log_spot_grid) in
      Some (nth 0 pv 0)
  else Some (if is_call then Rmax (spots - strikes) 0 else Rmax (strikes - spots) 0).
