(** Specification for European options under the Heston model, written without
    the model of the code. *)
From Coquelicot Require Import Coquelicot.
From Coq Require Import Reals List.
Import ListNotations.
Open Scope R_scope.

(** The backward equation of the Heston model
      dX = -V/2 dt + sqrt(V) dW1,  dV = kappa (theta - V) dt + sigma sqrt(V) dW2,
      d<W1,W2> = rho dt
    for X = log(S_t / forward).  [g tau x v] is a candidate for the expectation
    of a payoff of X after the time [tau], started from X = x and V = v. *)
Definition heston_backward (kappa theta sigma rho : R) (g : R -> R -> R -> R) : Prop :=
  exists gt gx gv gxx gxv gvv : R -> R -> R -> R,
    (forall t x v, 0 <= t ->
      is_derive (fun t => g t x v) t (gt t x v) /\
      is_derive (fun x => g t x v) x (gx t x v) /\
      is_derive (fun v => g t x v) v (gv t x v) /\
      is_derive (fun x => gx t x v) x (gxx t x v) /\
      is_derive (fun v => gx t x v) v (gxv t x v) /\
      is_derive (fun v => gv t x v) v (gvv t x v)) /\
    (forall t x v, 0 <= t ->
      gt t x v = - (v / 2) * gx t x v + kappa * (theta - v) * gv t x v
                 + v / 2 * gxx t x v + rho * sigma * v * gxv t x v + sigma ^ 2 * v / 2 * gvv t x v).

(** A law with finitely many values: (probability, value of the logarithm). *)
Definition expect (law : list (R * R)) (f : R -> R) : R := fold_right (fun '(p, x) acc => p * f x + acc) 0 law.
Definition is_law (law : list (R * R)) : Prop := Forall (fun '(p, _) => 0 <= p) law /\ expect law (fun _ => 1) = 1.
(** The logarithm of the ratio of the underlying to its forward: the underlying
    has the forward as its expectation. *)
Definition martingale (law : list (R * R)) : Prop := expect law exp = 1.
(** The characteristic function E(exp(i u X)). *)
Definition characteristic (law : list (R * R)) (u : R) : Complex.C := (expect law (fun x => cos (u * x)), expect law (fun x => sin (u * x))).
