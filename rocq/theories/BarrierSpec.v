(** Barrier options under continuous monitoring, without reference to the code:
    given its end value, the log-price is a Brownian bridge, and the chance that
    a bridge stays on its side of the barrier is known. *)
From Coquelicot Require Import Coquelicot.
From Coq Require Import Reals.
From Verif Require Import BlackScholesModel BlackScholesSpec BarrierModel.
Open Scope R_scope.

(** Is [x] on the side of the barrier where the option is alive? *)
Definition alive (down : bool) (B x : R) : Prop := if down then B < x else x < B.
(** Probability that the price stays on that side all the way from [S] to [x],
    for variance [v] of the log-price over the whole period. *)
Definition survival (down : bool) (B v S x : R) : R :=
  if down then (if Rlt_dec B x then 1 - exp (- (2 * ln (S / B) * ln (x / B) / v)) else 0)
  else (if Rlt_dec x B then 1 - exp (- (2 * ln (S / B) * ln (x / B) / v)) else 0).

Definition is_true (o : option bool) : bool := match o with Some false => false | _ => true end.
Definition down (a : barrier_args) : bool := is_true (is_barrier_down a).
Definition out (a : barrier_args) : bool := is_true (is_knock_out a).
Definition a_call (a : barrier_args) : bool := is_true (is_call a).
Definition rate (a : barrier_args) : R := default0 (b_rate a).
Definition yield (a : barrier_args) : R := default0 (b_dividend a).
Definition rebate (a : barrier_args) : R := default0 (b_rebate a).
Definition discount_of (a : barrier_args) : R := exp (- (rate a * b_expiry a)).
Definition forward_of (a : barrier_args) : R := b_spot a * exp ((rate a - yield a) * b_expiry a).
Definition deviation_of (a : barrier_args) : R := b_volatility a * sqrt (b_expiry a).
(** The price at expiry and the survival chance, for a standard normal [z]. *)
Definition end_price (a : barrier_args) (z : R) : R := asset false (forward_of a) (deviation_of a) z.
Definition survives (a : barrier_args) (z : R) : R := survival (down a) (b_barrier a) (deviation_of a ^ 2) (b_spot a) (end_price a z).
Definition pays (a : barrier_args) (z : R) : R := vanilla (a_call a) (b_strike a) (end_price a z).
Definition valid_args (a : barrier_args) : Prop :=
  0 < b_volatility a /\ 0 < b_expiry a /\ 0 < b_spot a /\ 0 < b_strike a /\ 0 < b_barrier a.
(** The spot has not crossed the barrier. *)
Definition not_crossed (a : barrier_args) : Prop := if down a then b_barrier a <= b_spot a else b_spot a <= b_barrier a.
(** The vanilla option with the same terms. *)
Definition vanilla_args (a : barrier_args) : option_args :=
  OptionArgs (b_volatility a) (b_strike a) (b_expiry a) (Some (b_spot a)) None (b_rate a) (b_dividend a) None (is_call a) false.
Definition with_out (a : barrier_args) (o : bool) : barrier_args :=
  BarrierArgs (b_volatility a) (b_strike a) (b_expiry a) (b_spot a) (b_barrier a) (b_rebate a) (b_rate a) (b_dividend a) (is_barrier_down a) (Some o) (is_call a).
Definition with_barrier (a : barrier_args) (B : R) : barrier_args :=
  BarrierArgs (b_volatility a) (b_strike a) (b_expiry a) (b_spot a) B (b_rebate a) (b_rate a) (b_dividend a) (is_barrier_down a) (is_knock_out a) (is_call a).
