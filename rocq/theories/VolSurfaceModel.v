(** Model of tf_quant_finance/experimental/pricing_platform/framework/market_data/
    volatility_surface.py.  Definitions only.  One surface of the batch and one
    requested point.  [None] is an exception. *)
From Coq Require Import Reals List.
From Verif Require Import DateModel Interp2dModel PlatformModel.
Import ListNotations.
Open Scope R_scope.

(** volatility_surface.py 37-101: what the constructor keeps; [quotes] pairs the
    strikes and the volatilities of each expiry. *)
Record vol_surface := mk_vol_surface {
  valuation_date : date; node_expiries : list date; quotes : list (list R * list R);
  day_count_fn : date -> date -> R; interpolator_fn : R -> R -> option R }.
Definition new_vol_surface (valuation : date) (expiries : list date) (quotes : list (list R * list R))
    (daycount_convention : option day_count) (interpolator : option (R -> R -> R)) : vol_surface :=
  let convention := match daycount_convention with None => DC_ACTUAL_365 | Some c => c end in
  let day_count_fn := get_daycount_fn convention in
  let expiry_times := map (fun e => day_count_fn valuation e) expiries in
  mk_vol_surface valuation expiries quotes day_count_fn
    (match interpolator with
     | None => interpolate_2d expiry_times quotes
     | Some f => fun t x => Some (f t x)
     end).

(** volatility_surface.py 103-143; no date can be made of None (line 135). *)
Definition volatility (s : vol_surface) (strike : R) (expiry_dates : option date) (expiry_times : option R) : option R :=
  match expiry_dates, expiry_times with
  | Some _, Some _ => None
  | None, None => None
  | Some d, None => interpolator_fn s (day_count_fn s (valuation_date s) d) strike
  | None, Some t => interpolator_fn s t strike
  end.
