(** Interest rate options without reference to the code. *)
From Coq Require Import Reals List.
From Verif Require Import MvNormalSpec.
Import ListNotations.
Open Scope R_scope.

Definition mean_over (n : nat) (v : nat -> R) : R := sum_to n v / INR n.
(** A call (put) on a bond of price P. *)
Definition option_payoff (call : bool) (K P : R) : R := if call then Rmax (P - K) 0 else Rmax (K - P) 0.
(** The simple rate of a bond of price P that matures after a period of length
    delta. *)
Definition simple_rate (delta P : R) : R := (1 / P - 1) / delta.
(** A caplet (floorlet) pays delta * max(L - K, 0) (or max(K - L, 0)) at the end of
    the period; P is the price of the bond that matures then. *)
Definition caplet_value (cap : bool) (delta K P : R) : R :=
  P * (delta * (if cap then Rmax (simple_rate delta P - K) 0 else Rmax (K - simple_rate delta P) 0)).
