(** Local volatility (C92): a volatility surface and a discount curve that can
    be differentiated at the requested point, the textbook forms of Dupire's
    formula and Dupire's forward equation. *)
From Coquelicot Require Import Coquelicot.
From Coq Require Import Reals List.
Import ListNotations.
Open Scope R_scope.

(** [v_t], [v_k], [v_kk] are the derivatives of the surface [sigma] (time,
    strike) at [(t, k)]. *)
Definition surface_at (sigma : R -> R -> R) (t k v_t v_k v_kk : R) : Prop :=
  0 < sigma t k /\
  is_derive (fun u => sigma u k) t v_t /\
  exists slope, locally k (fun y => is_derive (fun z => sigma t z) y (slope y)) /\ slope k = v_k /\ is_derive slope k v_kk.

(** [r] is the instantaneous rate of the discount curve at [t]. *)
Definition curve_at (D : R -> R) (t r : R) : Prop := 0 < D t /\ is_derive D t (- r * D t).

(** The forward of the underlying. *)
Definition forward_of (S q : R) (D : R -> R) (t : R) : R := S * exp (- (q * t)) / D t.

(** Dupire's formula in terms of implied volatilities: the local variance is
    the quotient of these two. *)
Definition d1 (F v t k : R) : R := (ln (F / k) + v ^ 2 / 2 * t) / (v * sqrt t).
Definition calendar (r q v v_t v_k t k : R) : R := v ^ 2 + 2 * t * v * v_t + 2 * (r - q) * k * t * v * v_k.
Definition butterfly (F v v_k v_kk t k : R) : R :=
  (1 + k * d1 F v t k * sqrt t * v_k) ^ 2 + k ^ 2 * t * v * (v_kk - d1 F v t k * sqrt t * v_k ^ 2).

(** Dupire's forward equation for the local volatility [s], the call price [c]
    and its derivatives. *)
Definition forward_equation (r q k s c c_t c_k c_kk : R) : Prop :=
  c_t = s ^ 2 / 2 * k ^ 2 * c_kk - (r - q) * k * c_k - q * c.
