(** American options, without reference to the code. *)
From Coq Require Import Reals List.
From Verif Require Import BlackScholesModel BlackScholesSpec CubicSpec.
Import ListNotations.
Open Scope R_scope.

(** Arguments quoting a spot price S, with strike K, rate of discount r and
    dividend yield q. *)
Definition on_spot (S K r q sigma T : R) (call : bool) : option_args :=
  OptionArgs sigma K T (Some S) None (Some r) (Some q) None (Some call) false.

(** The integral equation of the exercise boundary B of a put, discretised:
    [quad f T] stands for the integral of f over [0, T], Phi for the normal
    distribution function, and quotients are kept finite by a small eps. *)
Section Equation.
  Variables (Phi : R -> R) (quad : (R -> R) -> R -> R) (eps K r q sigma : R) (B : R -> R).
  Definition dp (t z : R) : R := (ln (Rmax z eps) + (r - q + 1 / 2 * sigma ^ 2) * t) / (sigma * sqrt t + eps).
  Definition dm (t z : R) : R := dp t z - sigma * sqrt t.
  Definition top (t : R) : R := Phi (dm t (B t / K)) + r * quad (fun u => exp (r * u) * Phi (dm (t - u) (B t / (B u + eps)))) t.
  Definition bottom (t : R) : R := Phi (dp t (B t / K)) + q * quad (fun u => exp (q * u) * Phi (dp (t - u) (B t / (B u + eps)))) t.
  Definition image (t : R) : R := K * exp (- ((r - q) * t)) * top t / (bottom t + eps).
End Equation.

(** [f] is the natural spline through the points, kept at or above eps. *)
Definition floored_spline (eps : R) (xs ys : list R) (f : R -> R) : Prop :=
  exists g, (forall t, f t = Rmax (g t) eps) /\
    (forall i, (i < length xs)%nat -> g (nth i xs 0) = nth i ys 0) /\
    exists P P1 P2, cubic_spline xs g P P1 P2 /\ end_conditions xs InterpModel.NATURAL P1 P2.
(** Two successive approximations agree at every time up to the tolerance. *)
Definition agree (eps tol : R) (n : nat) (new old : list R) : Prop :=
  forall i, (i < n)%nat -> Rabs (nth i new 0 - nth i old 0) / (Rabs (nth i new 0) + eps) <= tol.
