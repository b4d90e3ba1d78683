(** The formulas of Hagan et al. (2002), Managing Smile Risk, equations A.59 and
    A.69, without reference to the code. *)
From Coq Require Import Reals.
Open Scope R_scope.

(** x(z) = log ((sqrt(1 - 2 rho z + z^2) - rho + z) / (1 - rho)) and z / x(z),
    which is 1 in the limit z = 0. *)
Definition x_of (rho z : R) : R := ln ((sqrt (1 - 2 * rho * z + z ^ 2) - rho + z) / (1 - rho)).
Definition z_over_x (rho z : R) : R := if Req_EM_T z 0 then 1 else z / x_of rho z.
Definition zeta (F K alpha beta nu : R) : R := nu / alpha * Rpower (F * K) ((1 - beta) / 2) * ln (F / K).
(** 1 + l^2 / 24 + l^4 / 1920 *)
Definition series (l : R) : R := 1 + l ^ 2 / 24 + l ^ 4 / 1920.
(** The volatilities of the lognormal and the normal model, where [r] stands for
    z / x(z). *)
Definition hagan_lognormal (F K T alpha beta nu rho r : R) : R :=
  alpha / (Rpower (F * K) ((1 - beta) / 2) * series ((1 - beta) * ln (F / K))) * r *
  (1 + ((1 - beta) ^ 2 / 24 * (alpha ^ 2 / Rpower (F * K) (1 - beta)) + rho * beta * nu * alpha / (4 * Rpower (F * K) ((1 - beta) / 2)) + (2 - 3 * rho ^ 2) / 24 * nu ^ 2) * T).
Definition hagan_normal (F K T alpha beta nu rho r : R) : R :=
  alpha * Rpower (F * K) (beta / 2) * (series (ln (F / K)) / series ((1 - beta) * ln (F / K))) * r *
  (1 + (- beta * (2 - beta) / 24 * (alpha ^ 2 / Rpower (F * K) (1 - beta)) + rho * beta * nu * alpha / (4 * Rpower (F * K) ((1 - beta) / 2)) + (2 - 3 * rho ^ 2) / 24 * nu ^ 2) * T).
