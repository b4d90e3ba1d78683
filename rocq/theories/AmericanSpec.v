(** What the American approximations are compared with. *)
From Coquelicot Require Import Coquelicot.
From Coq Require Import Reals.
From Verif Require Import ExtReal BlackScholesModel BlackScholesSpec.
Open Scope R_scope.

(** An option quoted by spot, discount rate and dividend rate. *)
Definition plain (sigma x t s r d : R) (call : bool) : option_args := OptionArgs sigma x t (Some s) None (Some r) (Some d) None (Some call) false.

(** A gradient that is right where the function is smooth, and not a number at a
    zero price, where the logarithm has none. *)
Definition tf_gradient (gradient : (xr -> xr) -> xr -> xr) : Prop :=
  (forall f F c g, 0 < c -> (forall u, 0 < u -> f (Fin u) = Fin (F u)) -> is_derive F c g -> gradient f (Fin c) = Fin g)
  /\ (forall f, gradient f (Fin 0) = NaN).

(** Exponent of the early exercise premium: the root, above one for calls and below
    zero for puts, of Barone-Adesi and Whaley's quadratic equation. *)
Definition exponent (sigma t r d : R) (call : bool) (q : R) : Prop :=
  q ^ 2 + (2 * (r - d) / sigma ^ 2 - 1) * q - (if Req_EM_T r 0 then 0 else 2 * r / sigma ^ 2 / (1 - exp (- r * t))) = 0
  /\ if call then 1 < q else q < 0.
(** Bound for the slope of the condition on the critical price. *)
Definition steepness (sigma t q : R) : R := Rabs (1 - / q) + / (sigma * sqrt t * Rabs q).

(** The asset price at time [t] with cost of carry [b], for a standard normal [z]. *)
Definition price_at (s b sigma t z : R) : R := s * exp ((b - sigma ^ 2 / 2) * t + sigma * sqrt t * z).
(** The power of the asset price whose discounted value does not drift. *)
Definition perpetual (r b sigma beta : R) : Prop := 1 < beta /\ sigma ^ 2 / 2 * beta * (beta - 1) + b * beta - r = 0.
