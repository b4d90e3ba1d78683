(** Model of tf_quant_finance/black_scholes/vanilla_prices.py for one element
    of the batch.  Definitions only.  Numbers are exact reals with infinities
    and NaN; [None] is a ValueError. *)
From Coquelicot Require Import Coquelicot.
From Coq Require Import Reals List Bool Arith ZArith.
From Verif Require Import InterpModel BrentModel ExtReal HaganWestModel BootstrapModel.
Import ListNotations.
Open Scope R_scope.

(** tf.math.erf. *)
Definition erf (x : R) : R := 2 / sqrt PI * RInt (fun t => exp (- t ^ 2)) 0 x.
(** vanilla_prices.py 951-955. *)
Definition ncdf (x : R) : R := (erf (x / sqrt 2) + 1) / 2.
(** The same on infinities, where erf is 1 or -1, and NaN. *)
Definition xncdf (a : xr) : xr := match a with Fin x => Fin (ncdf x) | Inf true => Fin 0 | Inf false => Fin 1 | NaN => NaN end.
(** tf.math.sqrt. *)
Definition xsqrt (a : xr) : xr := match a with Fin x => if rlt x 0 then NaN else Fin (sqrt x) | Inf false => Inf false | _ => NaN end.
(** tf.math.divide_no_nan: zero whenever the divisor is. *)
Definition xdivide_no_nan (a b : xr) : xr := if xzero b then Fin 0 else a /x b.

(** The arguments shared by option_price (28-40), binary_price (449-461) and
    asset_or_nothing_price (608-620). *)
Record option_args := OptionArgs {
  volatility : R; strike : R; expiry : R;
  spot : option R; forward : option R;
  discount_rate : option R; dividend_rate : option R; discount_factor : option R;
  is_call_option : option bool; is_normal_volatility : bool }.

(** vanilla_prices.py 124-128, also 549-553 and 707-711. *)
Definition is_none {A} (o : option A) : bool := match o with None => true | Some _ => false end.
Definition args_ok (a : option_args) : bool :=
  negb (eqb (is_none (spot a)) (is_none (forward a))) && negb (negb (is_none (discount_rate a)) && negb (is_none (discount_factor a))).
(** vanilla_prices.py 137-149, also 562-574 and 720-732: rate and factor. *)
Definition discounting_args (a : option_args) : xr * xr :=
  match discount_rate a, discount_factor a with
  | Some r, _ => (Fin r, Fin (exp (- r * expiry a)))
  | None, Some d => (xopp (xln (Fin d)) /x Fin (expiry a), Fin d)
  | None, None => (Fin 0, Fin 1)
  end.
(** vanilla_prices.py 151-153. *)
Definition dividend_args (a : option_args) : xr := match dividend_rate a with None => Fin 0 | Some q => Fin q end.
(** vanilla_prices.py 155-159, also 738-742. *)
Definition forward_args (a : option_args) : xr :=
  match forward a, spot a with
  | Some f, _ => Fin f
  | None, Some s => Fin s *x xexp ((fst (discounting_args a) -x dividend_args a) *x Fin (expiry a))
  | None, None => NaN
  end.
(** vanilla_prices.py 161, 586, 744. *)
Definition sqrt_var (a : option_args) : xr := Fin (volatility a) *x xsqrt (Fin (expiry a)).
(** exp(-0.5 * d**2) / sqrt(2 pi), vanilla_prices.py 173. *)
Definition xdensity (d : xr) : xr := xexp (Fin (- (1 / 2)) *x xsquare d) /x Fin (sqrt (2 * PI)).

(** vanilla_prices.py 161-174. *)
Definition undiscounted_call (a : option_args) : xr :=
  let forwards := forward_args a in
  let strikes := Fin (strike a) in
  let sv := sqrt_var a in
  let intrinsic := xmax (forwards -x strikes) (Fin 0) in
  if negb (is_normal_volatility a) then
    let d1 := xdivide_no_nan (xln (forwards /x strikes)) sv +x sv /x Fin 2 in
    let d2 := d1 -x sv in
    if xlt (Fin 0) sv then forwards *x xncdf d1 -x strikes *x xncdf d2 else intrinsic
  else
    let d1 := xdivide_no_nan (forwards -x strikes) sv in
    if xlt (Fin 0) sv then (forwards -x strikes) *x xncdf d1 +x sv *x xdensity d1 else intrinsic.
(** vanilla_prices.py 28-182; 173 is [sqrt_var * exp(..) / sqrt(2 pi)]. *)
Definition option_price (a : option_args) : option xr :=
  if negb (args_ok a) then None else
  let discount_factors := snd (discounting_args a) in
  let calls := undiscounted_call a in
  Some match is_call_option a with
       | None => discount_factors *x calls
       | Some predicate =>
           let undiscounted_forward := forward_args a -x Fin (strike a) in
           let puts := calls -x undiscounted_forward in
           discount_factors *x (if predicate then calls else puts)
       end.

(** vanilla_prices.py 580-584: the forward of binary_price leaves the dividend
    rate out. *)
Definition binary_forward (a : option_args) : xr :=
  match forward a, spot a with
  | Some f, _ => Fin f
  | None, Some s => Fin s /x snd (discounting_args a)
  | None, None => NaN
  end.
(** vanilla_prices.py 449-605. *)
Definition binary_price (a : option_args) : option xr :=
  if negb (args_ok a) then None else
  let discount_factors := snd (discounting_args a) in
  let forwards := binary_forward a in
  let strikes := Fin (strike a) in
  let sv := sqrt_var a in
  let d2 := if is_normal_volatility a then (forwards -x strikes) /x sv
            else xln (forwards /x strikes) /x sv -x sv /x Fin 2 in
  let zero_volatility_call_payoff := if xlt strikes forwards then Fin 1 else Fin 0 in
  let calls := if xlt (Fin 0) sv then xncdf d2 else zero_volatility_call_payoff in
  Some match is_call_option a with
       | None => discount_factors *x calls
       | Some predicate => discount_factors *x (if predicate then calls else Fin 1 -x calls)
       end.
(** vanilla_prices.py 608-764. *)
Definition asset_or_nothing_price (a : option_args) : option xr :=
  if negb (args_ok a) then None else
  let discount_factors := snd (discounting_args a) in
  let forwards := forward_args a in
  let strikes := Fin (strike a) in
  let sv := sqrt_var a in
  let intrinsic := if xlt strikes forwards then forwards else Fin 0 in
  let calls :=
    if negb (is_normal_volatility a) then
      let d1 := xdivide_no_nan (xln (forwards /x strikes)) sv +x sv /x Fin 2 in
      if xlt (Fin 0) sv then forwards *x xncdf d1 else intrinsic
    else
      let d1 := xdivide_no_nan (forwards -x strikes) sv in
      if xlt (Fin 0) sv then forwards *x xncdf d1 +x sv *x xdensity d1 else intrinsic in
  Some match is_call_option a with
       | None => discount_factors *x calls
       | Some predicate => discount_factors *x (if predicate then calls else forwards -x calls)
       end.

(** vanilla_prices.py 767-948: [notional] None is the documented default,
    which convert_to_tensor refuses. *)
Definition swaption_price (volatility expiry fixed_leg_coupon : R) (fixed_leg_daycount_fractions start_dfs end_dfs payment_dfs : list R)
    (notional : option R) (is_payer_swaption : option bool) (is_normal : bool) : option xr :=
  match notional with
  | None => None
  | Some notional =>
      let is_payer := match is_payer_swaption with None => true | Some b => b end in
      let swap_annuity := fold_right Rplus 0 (map (fun '(a, d) => a * d) (combine fixed_leg_daycount_fractions payment_dfs)) in
      let forward_swap_rate := Fin (fold_right Rplus 0 (map (fun '(s, e) => s - e) (combine start_dfs end_dfs))) /x Fin swap_annuity in
      match forward_swap_rate with
      | Fin f => option_map (fun p => Fin notional *x Fin swap_annuity *x p)
                   (option_price (OptionArgs volatility fixed_leg_coupon expiry None (Some f) None None None (Some is_payer) is_normal))
      | _ => Some NaN (* simplification: an infinite or NaN forward rate is not followed further *)
      end
  end.
