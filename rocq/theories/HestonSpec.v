(** The Heston model d ln S = - V / 2 dt + sqrt V dW_X,
    dV = k (theta - V) dt + xi sqrt V dW_V, d<W_X, W_V> = rho dt, without
    reference to the code. *)
From Coquelicot Require Import Coquelicot.
From Coq Require Import Reals List Bool.
From Verif Require Import BlackScholesSpec.
Import ListNotations.
Open Scope R_scope.

(** The first two moments of V(t) given V(0) = v: the equations that follow from
    the dynamics of V and of V^2. *)
Definition variance_moments (k theta xi v : R) (m1 m2 : R -> R) : Prop :=
  m1 0 = v /\ m2 0 = v ^ 2 /\
  (forall t, is_derive m1 t (k * (theta - m1 t))) /\
  (forall t, is_derive m2 t (2 * (k * (theta * m1 t - m2 t)) + xi ^ 2 * m1 t)).
(** The log of the spot after a step of length D that takes the variance from v to
    v': the dynamics integrated, with the integral of V replaced by
    D (v + v') / 2; [noise] is a standard normal variable independent of V. *)
Definition log_spot_increment (k theta xi rho v v' D noise : R) : R :=
  let I := D * (v + v') / 2 in
  - I / 2 + rho / xi * (v' - v - k * theta * D + k * I) + sqrt ((1 - rho ^ 2) * I) * noise.

(** A function of a standard normal variable that is not negative and has the
    first two moments of V(D) given V(0) = v. *)
Definition moment_matched (k theta xi v D : R) (f : R -> R) : Prop :=
  (forall z, 0 <= f z) /\
  forall m1 m2, variance_moments k theta xi v m1 m2 -> expectation f (m1 D) /\ expectation (fun z => f z ^ 2) (m2 D).

(** The points of a simulation: 0, the multiples of [step] before the last
    requested time, the requested times and [jumps], in order; [idx] are the
    positions of the requested times. *)
Definition simulation_grid (step : R) (times jumps grid : list R) (idx : list nat) : Prop :=
  nth 0 grid 0 = 0 /\ (forall i j, (i <= j)%nat -> (j < length grid)%nat -> nth i grid 0 <= nth j grid 0) /\
  (forall t, In t grid <-> (exists i : nat, t = INR i * step /\ t < last times 0) \/ In t times \/ In t jumps) /\
  length idx = length times /\ forall j, (j < length times)%nat -> (nth j idx 0 < length grid)%nat /\ nth (nth j idx 0%nat) grid 0 = nth j times 0.
Definition gap (grid : list R) (i : nat) : R := nth (S i) grid 0 - nth i grid 0.
(** [e] is half of the smallest gap *)
Definition half_gap (grid : list R) (e : R) : Prop :=
  (exists i, (S i < length grid)%nat /\ 2 * e = gap grid i) /\ forall i, (S i < length grid)%nat -> 2 * e <= gap grid i.
(** The path on the grid: steps of length at most [tol] change nothing; in the
    others [F i v] maps the first draw to the new variance and the log of the
    spot follows [log_spot_increment].  [k i], ... are the parameters of step i. *)
Definition heston_path (k theta xi rho : nat -> R) (F : nat -> R -> R -> R) (tol : R) (grid : list R) (z : nat -> R * R) (x v : nat -> R) : Prop :=
  forall i, (S i < length grid)%nat ->
    if Rle_dec (gap grid i) tol then x (S i) = x i /\ v (S i) = v i
    else v (S i) = F i (v i) (fst (z i)) /\
         x (S i) = x i + log_spot_increment (k i) (theta i) (xi i) (rho i) (v i) (v (S i)) (gap grid i) (snd (z i)).
