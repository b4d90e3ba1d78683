(** Bond prices in the Hull-White model without reference to the code. *)
From Coquelicot Require Import Coquelicot.
From Coq Require Import Reals.
Open Scope R_scope.

(** y(t), the variance of x(t): the integral of exp(-2 k (t - u)) sigma(u)^2. *)
Definition state_variance (sigma : R -> R) (k : R) (y : R -> R) : Prop :=
  forall t, 0 <= t -> is_RInt (fun u => exp (- (2 * k * (t - u))) * sigma u ^ 2) 0 t (y t).
(** G(t, T), the integral of exp(-k (u - t)) from t to T. *)
Definition loading (k : R) (G : R -> R -> R) : Prop :=
  forall t T, is_RInt (fun u => exp (- (k * (u - t)))) t T (G t T).
(** Given r(t) = r, the integral of the short rate r = f + x from t to T is normal
    with mean [m] and variance [v]: x(s) has the mean exp(-k (s - t)) x(t) + D(s)
    and the integral of its noise is that of sigma(u) G(u, T) dW(u). *)
Definition rate_integral (f sigma : R -> R) (k : R) (y : R -> R) (G : R -> R -> R) (t T r m v : R) : Prop :=
  exists F D A, is_RInt f t T F /\
    (forall s, t <= s <= T -> is_RInt (fun u => exp (- (k * (s - u))) * y u) t s (D s)) /\ is_RInt D t T A /\
    m = F + (r - f t) * G t T + A /\ is_RInt (fun u => sigma u ^ 2 * G u T ^ 2) t T v.
(** The covariance of x(T) and the integral of x from 0 to T, and the mean of
    x(T). *)
Definition integral_covariance (sigma : R -> R) (k : R) (G : R -> R -> R) (T c : R) : Prop :=
  is_RInt (fun u => sigma u ^ 2 * exp (- (k * (T - u))) * G u T) 0 T c.
Definition state_mean (k : R) (y : R -> R) (T m : R) : Prop :=
  is_RInt (fun u => exp (- (k * (T - u))) * y u) 0 T m.
(** The short rate at T and its integral from 0 to T, seen from time 0, are
    f(T) + mx + sqrt(y(T)) Z1 and m + alpha Z1 + beta Z2, with independent
    standard normal Z1 and Z2. *)
Definition rate_and_integral (f sigma : R -> R) (k : R) (y : R -> R) (G : R -> R -> R) (T m mx alpha beta : R) : Prop :=
  exists v c, rate_integral f sigma k y G 0 T (f 0) m v /\ state_mean k y T mx /\ integral_covariance sigma k G T c /\
    alpha * sqrt (y T) = c /\ alpha ^ 2 + beta ^ 2 = v.
