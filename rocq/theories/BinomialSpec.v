(** The Cox-Ross-Rubinstein model, without reference to the code. *)
From Coq Require Import Reals Lra.
From Verif Require Import BinomialModel.
Open Scope R_scope.

(** Payoff of a vanilla option. *)
Definition exercise (call : bool) (K x : R) : R := if call then Rmax (x - K) 0 else Rmax (K - x) 0.
(** Expectation of [f] of the number of up moves among [n]. *)
Definition binomial_expectation (n : nat) (p : R) (f : nat -> R) : R :=
  sum_f_R0 (fun k => C n k * p ^ k * (1 - p) ^ (n - k) * f k) n.
(** Value of a right to exercise at each of the next [n] steps, with up and down
    factors [u] and [d], up probability [p] and discount factor [D] per step. *)
Fixpoint american_value (payoff : R -> R) (u d p D : R) (n : nat) (x : R) : R :=
  match n with
  | O => payoff x
  | S n => Rmax (payoff x) (D * (p * american_value payoff u d p D n (x * u) + (1 - p) * american_value payoff u d p D n (x * d)))
  end.

Definition step (a : tree_args) : R := t_expiry a / INR (t_steps a).
Definition interest (a : tree_args) : R := match t_rate a with Some r => r | None => 0 end.
Definition payout (a : tree_args) : R := match t_dividend a with Some q => q | None => 0 end.
Definition a_call (a : tree_args) : bool := match t_call a with Some b => b | None => true end.
Definition american (a : tree_args) : bool := match t_american a with Some b => b | None => false end.
Definition up (a : tree_args) : R := exp (t_volatility a * sqrt (step a)).
Definition dn (a : tree_args) : R := / up a.
(** The weight of an up move: the asset grows at the rate less dividends. *)
Definition risk_neutral (a : tree_args) (p : R) : Prop := p * up a + (1 - p) * dn a = exp ((interest a - payout a) * step a).
Definition tree_ok (a : tree_args) : Prop := 0 < t_expiry a /\ 0 < t_spot a /\ t_volatility a <> 0 /\ (0 < t_steps a)%nat.
Definition discount (a : tree_args) : R := exp (- (interest a * t_expiry a)).
Definition step_discount (a : tree_args) : R := exp (- (interest a * step a)).
(** The steps are fine enough for the weights to be probabilities. *)
Definition fine_enough (a : tree_args) : Prop := Rabs (interest a - payout a) * sqrt (step a) <= Rabs (t_volatility a).
Definition with_kind (a : tree_args) (call amer : bool) : tree_args :=
  TreeArgs (t_volatility a) (t_strike a) (t_expiry a) (t_spot a) (t_rate a) (t_dividend a) (Some call) (Some amer) (t_steps a).
