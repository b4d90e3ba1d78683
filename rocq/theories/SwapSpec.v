(** Specification for swap prices (C35). *)
From Coq Require Import Reals List.
Import ListNotations.
Open Scope R_scope.

(** One payment of a rate leg. *)
Record payment := { coupon : R; notional : R; daycount : R; df : R }.
(** Its amount, and the value of a leg. *)
Definition amount (p : payment) : R := coupon p * notional p * daycount p.
Definition leg_value (l : list payment) : R := fold_right (fun p s => amount p * df p + s) 0 l.
(** The payment scaled, and with another coupon. *)
Definition scale (k : R) (p : payment) : payment := {| coupon := coupon p; notional := k * notional p; daycount := daycount p; df := df p |}.
Definition with_coupon (c : R) (p : payment) : payment := {| coupon := c; notional := notional p; daycount := daycount p; df := df p |}.

(** A floating period: accrual from [fstart] to [fend], paid at the end. *)
Record period := { fstart : R; fend : R; fcount : R }.
(** A fixed payment: time and daycount fraction. *)
Record fixing := { ftime : R; xcount : R }.

(** Equity leg without dividends: notional times the return over each period. *)
Fixpoint equity_value (N previous : R) (forwards dfs : list R) : R :=
  match forwards, dfs with
  | s :: forwards, d :: dfs => N * ((s - previous) / previous) * d + equity_value N s forwards dfs
  | _, _ => 0
  end.
