(** What the prices of vanilla_prices.py should be, without reference to the
    code: discounted expectations of payoffs under the two models. *)
From Coquelicot Require Import Coquelicot.
From Coq Require Import Reals.
From Verif Require Import BlackScholesModel.
Open Scope R_scope.

(** The standard normal density. *)
Definition density (z : R) : R := exp (- (z ^ 2 / 2)) / sqrt (2 * PI).
(** [m] is the expectation of [f Z] for a standard normal Z: the integral of
    f times the density over the whole line. *)
Definition expectation (f : R -> R) (m : R) : Prop :=
  is_RInt_gen (V := R_NormedModule) (fun z => f z * density z) (Rbar_locally m_infty) (Rbar_locally p_infty) m.

(** The asset at expiry: forward F, standard deviation s of its logarithm or,
    in the normal model, of itself. *)
Definition asset (normal : bool) (F s z : R) : R := if normal then F + s * z else F * exp (s * z - s ^ 2 / 2).

(** Payoffs at expiry; calls unless told otherwise. *)
Definition calls (a : option_args) : bool := match is_call_option a with Some false => false | _ => true end.
Definition vanilla (call : bool) (K x : R) : R := if call then Rmax (x - K) 0 else Rmax (K - x) 0.
Definition digital (call : bool) (K x : R) : R := if Rlt_dec K x then (if call then 1 else 0) else (if call then 0 else 1).
Definition asset_payoff (call : bool) (K x : R) : R := x * digital call K x.

(** The discount factor D and the forward F that the arguments describe. *)
Definition discounts_to (a : option_args) (D : R) : Prop :=
  match discount_rate a, discount_factor a with
  | Some r, None => D = exp (- (r * expiry a))
  | None, Some d => D = d
  | None, None => D = 1
  | Some _, Some _ => False
  end.
Definition dividend (a : option_args) : R := match dividend_rate a with Some q => q | None => 0 end.
Definition forward_is (a : option_args) (D F : R) : Prop :=
  match spot a, forward a with
  | Some x, None => F = x * exp (- (dividend a * expiry a)) / D
  | None, Some f => F = f
  | _, _ => False
  end.
(** The case in which the code divides the log of the discount factor by a
    zero expiry. *)
Definition degenerate (a : option_args) : Prop := expiry a = 0 /\ discount_factor a <> None /\ spot a <> None.
(** Well-formed arguments with discount factor D and forward F. *)
Definition quoted (a : option_args) (D F : R) : Prop :=
  0 < D /\ discounts_to a D /\ forward_is a D F /\ 0 <= expiry a /\ ~ degenerate a
  /\ (is_normal_volatility a = false -> 0 < F /\ 0 < strike a).
Definition deviation (a : option_args) : R := volatility a * sqrt (expiry a).
(** The same arguments with another option type, volatility or strike. *)
Definition with_type (a : option_args) (c : option bool) : option_args :=
  OptionArgs (volatility a) (strike a) (expiry a) (spot a) (forward a) (discount_rate a) (dividend_rate a) (discount_factor a) c (is_normal_volatility a).
Definition with_volatility (a : option_args) (v : R) : option_args :=
  OptionArgs v (strike a) (expiry a) (spot a) (forward a) (discount_rate a) (dividend_rate a) (discount_factor a) (is_call_option a) (is_normal_volatility a).
Definition with_strike (a : option_args) (k : R) : option_args :=
  OptionArgs (volatility a) k (expiry a) (spot a) (forward a) (discount_rate a) (dividend_rate a) (discount_factor a) (is_call_option a) (is_normal_volatility a).
(** [m] is the undiscounted value of a payoff at expiry: its expectation, or,
    when the deviation is not positive, its value at the forward. *)
Definition fair (a : option_args) (F : R) (payoff : R -> R) (m : R) : Prop :=
  if Rlt_dec 0 (deviation a) then expectation (fun z => payoff (asset (is_normal_volatility a) F (deviation a) z)) m
  else m = payoff F.
