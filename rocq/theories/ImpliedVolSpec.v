(** Black's formula for any distribution function, Polya's approximation of the
    normal distribution function, and what a market quote says. *)
From Coq Require Import Reals.
From Verif Require Import ExtReal BlackScholesModel ImpliedVolModel.
Open Scope R_scope.

(** [s] is the volatility times the square root of the expiry *)
Definition black (cdf : R -> R) (call : bool) (F K s : R) : R :=
  let d1 := ln (F / K) / s + s / 2 in
  let d2 := ln (F / K) / s - s / 2 in
  if call then F * cdf d1 - K * cdf d2 else K * cdf (- d2) - F * cdf (- d1).
Definition polya_cdf (k x : R) : R :=
  let tail := sqrt (1 - exp (- k * x ^ 2)) in if Rle_dec 0 x then (1 + tail) / 2 else (1 - tail) / 2.

(** A call unless told otherwise. *)
Definition q_call (q : quote) : bool := match q_is_call q with Some false => false | _ => true end.
(** The quote has discount factor D and forward F, and time is left; in the
    lognormal model forward and strike are positive. *)
Definition market (normal : bool) (q : quote) (D F : R) : Prop :=
  0 < D /\ match q_discount q with Some d => D = d | None => D = 1 end
  /\ match q_spot q, q_forward q with Some x, None => F = x / D | None, Some f => F = f | _, _ => False end
  /\ 0 < q_expiry q /\ (normal = false -> 0 < F /\ 0 < q_strike q).
(** The value at expiry without volatility, and the largest possible price. *)
Definition intrinsic (call : bool) (F K : R) : R := Rmax (if call then F - K else K - F) 0.
Definition largest (call : bool) (F K : R) : R := if call then F else K.
(** The price rescaled by the larger of forward and strike. *)
Definition scale (F K : R) : R := let m := Rmax (Rabs F) (Rabs K) in if Req_EM_T m 0 then 1 else m.
(** The price option_price gives for a volatility. *)
Definition reprice (normal : bool) (q : quote) (D F v : R) : option xr :=
  option_price (OptionArgs v (q_strike q) (q_expiry q) None (Some F) None None (Some D) (q_is_call q) normal).
(** What the search looks for a zero of, and its reported derivative. *)
Definition objective (normal : bool) : quote -> xr -> xr * xr := if normal then normal_objective else lognormal_objective.
