(** Model of tf_quant_finance/models/sabr/approximations/implied_volatility.py and
    european_options.py, for one element of the batch.  Definitions only. *)
From Coq Require Import Reals Bool.
From Verif Require Import ExtReal HaganWestModel BootstrapModel BlackScholesModel ImpliedVolModel.
Open Scope R_scope.

(** implied_volatility.py 33-53 *)
Inductive sabr_volatility_type := NORMAL | LOGNORMAL.
(** The arguments of implied_volatility (56-68) and of option_price; the
    approximation type has one value and is ignored. *)
Record sabr_args := SabrArgs { s_strike : R; s_expiry : R; s_forward : R; s_alpha : R; s_beta : R; s_volvol : R; s_rho : R; s_shift : R }.

(** 225-234; [eps] is 1e-6 for single precision and 1e-10 otherwise (219-222). *)
Definition zeta_by_xhat (eps : R) (zeta : xr) (rho : R) : xr :=
  let zbxh := xdivide_no_nan zeta (xln ((xsqrt (Fin 1 -x Fin (2 * rho) *x zeta +x zeta *x zeta) -x Fin rho +x zeta) /x Fin (1 - rho))) in
  if xlt (Fin eps) (xabs zeta) then zbxh else Fin 1.
(** 237-240 *)
Definition sabr_denom (beta : R) (log_f_by_k : xr) : xr :=
  let s := Fin (1 - beta) *x log_f_by_k in
  let s_squared := s *x s in
  Fin 1 +x s_squared /x Fin 24 +x (s_squared *x s_squared) /x Fin 1920.
(** 153-216 *)
Definition sabr_implied_volatility (eps : R) (vt : sabr_volatility_type) (a : sabr_args) : xr :=
  let strikes := s_strike a + s_shift a in
  let forwards := s_forward a + s_shift a in
  let alpha := s_alpha a in let beta := s_beta a in let volvol := s_volvol a in let rho := s_rho a in let expiries := s_expiry a in
  let moneyness := Fin forwards /x Fin strikes in
  let log_moneyness := xln moneyness in
  let adj_moneyness := xpow moneyness (1 - beta) in
  let sqrt_adj_moneyness := xsqrt adj_moneyness in
  let adj_alpha := Fin alpha *x xpow (Fin strikes) (beta - 1) in
  let zeta := (Fin volvol /x adj_alpha) *x sqrt_adj_moneyness *x log_moneyness in
  let zbx := zeta_by_xhat eps zeta rho in
  let denom := sabr_denom beta log_moneyness in
  let correction_2 := Fin (rho * beta / 4) *x (Fin 1 /x sqrt_adj_moneyness) *x (adj_alpha *x Fin volvol *x Fin expiries) in
  let correction_3 := Fin ((2 - 3 * rho * rho) / 24 * (volvol * volvol * expiries)) in
  match vt with
  | NORMAL =>
      let correction_1 := Fin (- beta * (2 - beta) / 24) *x (Fin 1 /x adj_moneyness) *x (adj_alpha *x adj_alpha *x Fin expiries) in
      let number := sabr_denom 0 log_moneyness in
      adj_alpha *x Fin strikes *x xpow moneyness (beta / 2) *x (number /x denom) *x zbx *x (Fin 1 +x correction_1 +x correction_2 +x correction_3)
  | LOGNORMAL =>
      let correction_1 := Fin ((1 - beta) * (1 - beta) / 24) *x (Fin 1 /x adj_moneyness) *x (adj_alpha *x adj_alpha *x Fin expiries) in
      adj_alpha *x (Fin 1 /x sqrt_adj_moneyness) *x (Fin 1 /x denom) *x zbx *x (Fin 1 +x correction_1 +x correction_2 +x correction_3)
  end.

(** european_options.py 107-161.  vanilla_prices.option_price takes the branch for
    zero volatility when the volatility is NaN or negative infinity, because it is
    not positive.  Simplification: positive infinity is taken as an expiry that is
    not zero, which gives NaN. *)
Definition sabr_option_price (eps : R) (vt : sabr_volatility_type) (is_call : bool) (a : sabr_args) : option xr :=
  let price v := option_price (OptionArgs v (s_strike a + s_shift a) (s_expiry a) None (Some (s_forward a + s_shift a)) None None None (Some is_call)
                   (match vt with NORMAL => true | LOGNORMAL => false end)) in
  match sabr_implied_volatility eps vt a with
  | Fin v => price v
  | Inf false => Some NaN
  | NaN | Inf true => price 0
  end.
