(** Finite differences on a grid that need not be uniform, without reference to
    the code.  A grid [x] and a function [f] on it are sequences. *)
From Coq Require Import Reals List.
Open Scope R_scope.

Definition slope (x f : nat -> R) (i : nat) : R := (f (S i) - f i) / (x (S i) - x i).
(** the derivatives at x (S i) of the parabola through points i, S i and S (S i) *)
Definition d1 (x f : nat -> R) (i : nat) : R :=
  ((x (S (S i)) - x (S i)) * slope x f i + (x (S i) - x i) * slope x f (S i)) / (x (S (S i)) - x i).
Definition d2 (x f : nat -> R) (i : nat) : R := 2 * (slope x f (S i) - slope x f i) / (x (S (S i)) - x i).
(** the derivative of the same parabola at its first and at its last point *)
Definition d1_first (x f : nat -> R) (i : nat) : R := slope x f i - d2 x f i / 2 * (x (S i) - x i).
Definition d1_last (x f : nat -> R) (i : nat) : R := slope x f (S i) + d2 x f i / 2 * (x (S (S i)) - x (S i)).

(** The coefficients on the grid; a term whose two coefficients are both absent
    vanishes, a single absent coefficient is 1. *)
Definition value (c : option (nat -> R)) (i : nat) : R := match c with Some f => f i | None => 1 end.
Record pde := { pa : option (nat -> R); pb : option (nat -> R); pc : option (nat -> R); pA : option (nat -> R); pB : option (nat -> R) }.
Definition present {A} (x y : option A) : Prop := x <> None \/ y <> None.
Definition second_term (e : pde) (x f : nat -> R) (i : nat) : R :=
  match pa e, pA e with
  | None, None => 0
  | _, _ => value (pa e) (S i) * d2 x (fun k => value (pA e) k * f k) i
  end.
Definition first_term (e : pde) (x f : nat -> R) (i : nat) : R :=
  match pb e, pB e with
  | None, None => 0
  | _, _ => value (pb e) (S i) * d1 x (fun k => value (pB e) k * f k) i
  end.
Definition zeroth_term (e : pde) (f : nat -> R) (i : nat) : R := match pc e with None => 0 | Some c => c i * f i end.
(** a d2(A f) + b d(B f) + c f at the inner point x (S i) *)
Definition space_operator (e : pde) (x f : nat -> R) (i : nat) : R :=
  second_term e x f i + first_term e x f i + zeroth_term e f (S i).
(** b d(B f) + c f at the first point and at the last point [n], with one-sided
    differences over the spacing [h] *)
Definition lower_operator (e : pde) (h : R) (f : nat -> R) : R :=
  match pb e, pB e with
  | None, None => 0
  | _, _ => value (pb e) 0 * ((value (pB e) 1 * f 1%nat - value (pB e) 0 * f 0%nat) / h)
  end + zeroth_term e f 0.
Definition upper_operator (e : pde) (h : R) (f : nat -> R) (n : nat) : R :=
  match pb e, pB e with
  | None, None => 0
  | _, _ => value (pb e) n * ((value (pB e) n * f n - value (pB e) (n - 1) * f (n - 1)%nat) / h)
  end + zeroth_term e f n.

(** alpha f + beta df/dn = gamma, an absent alpha or beta being 0 *)
Definition coef (c : option R) : R := match c with Some c => c | None => 0 end.
Definition robin_holds (abc : option R * option R * R) (f0 normal : R) : Prop :=
  let '(alpha, beta, gamma) := abc in coef alpha * f0 + coef beta * normal = gamma.
Definition lower_holds (abc : option R * option R * R) (x f : nat -> R) : Prop := robin_holds abc (f 0%nat) (- d1_first x f 0).
Definition upper_holds (abc : option R * option R * R) (x f : nat -> R) (n : nat) : Prop :=
  robin_holds abc (f n) (d1_last x f (n - 2)).

(** The operator at grid point [p] of a grid whose last index is [n]: the
    one-sided operators at the ends that have the default condition ([hl], [hu]
    hold their spacing), the inner operator elsewhere. *)
Definition grid_operator (hl hu : option R) (e : pde) (x : nat -> R) (n : nat) (f : nat -> R) (p : nat) : R :=
  match hl, p with
  | Some h, O => lower_operator e h f
  | _, _ =>
      match hu with
      | Some h => if Nat.eqb p n then upper_operator e h f n else space_operator e x f (p - 1)
      | None => space_operator e x f (p - 1)
      end
  end.

(** row [i] of a tridiagonal matrix (subdiagonal, diagonal, superdiagonal)
    applied to the vector [u]; entries outside the matrix do not count *)
Definition tri (m : list R * list R * list R) (u : list R) (i : nat) : R :=
  let '(sub, diag, sup) := m in
  match i with O => 0 | S j => nth i sub 0 * nth j u 0 end + nth i diag 0 * nth i u 0 + nth i sup 0 * nth (S i) u 0.
(** w - v = (t2 - t1) (theta M v + (1 - theta) M w + b) *)
Definition theta_equation (theta t1 t2 : R) (m : list R * list R * list R) (b v w : list R) : Prop :=
  forall i, (i < length v)%nat -> nth i w 0 - nth i v 0 = (t2 - t1) * (theta * tri m v i + (1 - theta) * tri m w i + nth i b 0).
