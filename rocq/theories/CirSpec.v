(** The square-root process dX = (a - k X) dt + sigma sqrt X dW, without reference
    to the code. *)
From Coquelicot Require Import Coquelicot.
From Coq Require Import Reals List.
Import ListNotations.
Open Scope R_scope.

(** phi t x = E[exp(- u X(t)) | X(0) = x], the Laplace transform of the law of X(t),
    solves Kolmogorov's backward equation of the process. *)
Definition backward_equation (a k sigma u : R) (phi : R -> R -> R) : Prop :=
  (forall x, phi 0 x = exp (- (u * x))) /\
  exists dphi ddphi : R -> R -> R,
    forall t x, 0 <= t ->
      is_derive (phi t) x (dphi t x) /\ is_derive (dphi t) x (ddphi t x) /\
      is_derive (fun s => phi s x) t ((a - k * x) * dphi t x + sigma ^ 2 * x / 2 * ddphi t x).

(** The first two moments of X(t) given X(0) = x: the equations that follow from
    the dynamics of X and of X^2. *)
Definition cir_moments (a k sigma x : R) (m1 m2 : R -> R) : Prop :=
  m1 0 = x /\ m2 0 = x ^ 2 /\
  (forall t, is_derive m1 t (a - k * m1 t)) /\
  (forall t, is_derive m2 t ((2 * a + sigma ^ 2) * m1 t - 2 * k * m2 t)).

(** t_0 = 0, t_1, t_2, ... do not decrease *)
Definition ordered_times (times : list R) : Prop :=
  forall i, (i < length times)%nat -> nth i (0 :: times) 0 <= nth i times 0.

(** The Laplace transform in closed form: cir_A t u * exp (- cir_B t u * x). *)
Definition integral_decay (k t : R) : R := if Req_EM_T k 0 then t else (1 - exp (- k * t)) / k.
Definition cir_B (k sigma t u : R) : R := u * exp (- k * t) / (1 + u * (sigma ^ 2 / 2 * integral_decay k t)).
Definition cir_A (a k sigma t u : R) : R := Rpower (1 + u * (sigma ^ 2 / 2 * integral_decay k t)) (- (2 * a / sigma ^ 2)).
(** The Laplace transform of the joint law of the Markov process at several times:
    E exp (- u_1 X(t_1) - u_2 X(t_2) - ...) = fst * exp (- snd * x) for X(t_0) = x. *)
Fixpoint joint_transform (a k sigma t0 : R) (times us : list R) : R * R :=
  match times, us with
  | t :: times', u :: us' =>
      let rest := joint_transform a k sigma t times' us' in
      (fst rest * cir_A a k sigma (t - t0) (u + snd rest), cir_B k sigma (t - t0) (u + snd rest))
  | _, _ => (1, 0)
  end.
Fixpoint dot (us xs : list R) : R := match us, xs with u :: us', x :: xs' => u * x + dot us' xs' | _, _ => 0 end.
