(** Geometric Asian options without reference to the code: the expectation of a
    payoff over the path of a Brownian motion at the sampling times. *)
From Coq Require Import Reals List.
From Verif Require Import BlackScholesModel BlackScholesSpec.
Import ListNotations.
Open Scope R_scope.

(** [m] is the expectation of [f [W_t1; ...; W_tk]] for a Brownian motion W that
    is at [w] at time [prev], where [times] are t1, ..., tk: each increment is
    normal with the elapsed time as variance, independent of the past. *)
Fixpoint path_expectation (times : list R) (prev w : R) (f : list R -> R) (m : R) : Prop :=
  match times with
  | [] => m = f []
  | t :: rest => exists g : R -> R,
      (forall z, path_expectation rest t (w + sqrt (t - prev) * z) (fun l => f ((w + sqrt (t - prev) * z) :: l)) (g z)) /\ expectation g m
  end.
(** Times in order from [prev] on. *)
Fixpoint in_order (prev : R) (times : list R) : Prop := match times with [] => True | t :: rest => prev <= t /\ in_order t rest end.

(** The asset under the Black-Scholes model with spot S0, drift mu and
    volatility sigma: its price at time t when W_t = w. *)
Definition asset_at (S0 mu sigma t w : R) : R := S0 * exp ((mu - sigma ^ 2 / 2) * t + sigma * w).
Definition asset_path (S0 mu sigma : R) (times ws : list R) : list R := map (fun '(t, w) => asset_at S0 mu sigma t w) (combine times ws).
Definition product (l : list R) : R := fold_right Rmult 1 l.
Definition geometric_mean (l : list R) : R := Rpower (product l) (/ INR (length l)).

(** The market that the arguments describe: discount factor D to expiry, spot
    S0 and drift mu (rate minus dividend rate). *)
Definition market_rate (a : option_args) (D mu : R) : Prop := discounts_to a D /\ mu = - ln D / expiry a - dividend a.
Definition market_spot (a : option_args) (mu S0 : R) : Prop :=
  match spot a, forward a with
  | Some s, None => S0 = s
  | None, Some f => f = S0 * exp (mu * expiry a)
  | _, _ => False
  end.
Definition fixings (p : option (list R)) : list R := match p with Some l => l | None => [] end.
