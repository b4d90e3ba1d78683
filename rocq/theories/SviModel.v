(** Model of tf_quant_finance/experimental/svi/parameterizations.py, for one strike
    of one skew.  Definitions only. *)
From Coq Require Import Reals Bool.
From Verif Require Import ExtReal HaganWestModel BootstrapModel BlackScholesModel.
Open Scope R_scope.

(** The five columns of svi_parameters (124-128). *)
Record svi_params := SviParams { svi_a : R; svi_b : R; svi_rho : R; svi_m : R; svi_sigma : R }.
(** 26-131; None when a ValueError is raised (103-108). *)
Definition total_variance_from_raw_svi_parameters (p : svi_params) (log_moneyness forwards strikes : option R) : option xr :=
  if negb (eqb (is_none strikes) (is_none forwards)) then None else
  if eqb (is_none log_moneyness) (is_none forwards) then None else
  let k := match log_moneyness, forwards, strikes with
           | Some k, _, _ => Fin k
           | None, Some f, Some s => xln (Fin s /x Fin f)
           | _, _, _ => NaN
           end in
  let d := k -x Fin (svi_m p) in
  Some (Fin (svi_a p) +x Fin (svi_b p) *x (Fin (svi_rho p) *x d +x xsqrt (xsquare d +x Fin (svi_sigma p * svi_sigma p)))).
(** 134-226; convert_to_tensor fails on a missing expiry. *)
Definition implied_volatility_from_raw_svi_parameters (p : svi_params) (log_moneyness forwards strikes expiries : option R) : option xr :=
  match total_variance_from_raw_svi_parameters p log_moneyness forwards strikes, expiries with
  | Some w, Some t => Some (xsqrt (w /x Fin t))
  | _, _ => None
  end.
