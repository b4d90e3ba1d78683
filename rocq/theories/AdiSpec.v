(** Finite differences on a rectangular grid in several dimensions and the Douglas
    scheme, without reference to the code.  A function on the grid is a function of
    the position along every dimension. *)
From Coq Require Import Reals List Arith Bool.
From Verif Require Import MvNormalSpec.
Open Scope R_scope.

Definition point := nat -> nat.
Definition move (d v : nat) (p : point) : point := fun e => if Nat.eqb e d then v else p e.
Definition next (d : nat) (p : point) : point := move d (S (p d)) p.
Definition prev (d : nat) (p : point) : point := move d (p d - 1) p.

(** Differences along dimension [d] with the spacing [h] *)
Definition diff1 (h : R) (d : nat) (u : point -> R) (p : point) : R := (u (next d p) - u (prev d p)) / (2 * h).
Definition diff2 (h : R) (d : nat) (u : point -> R) (p : point) : R := (u (next d p) - 2 * u p + u (prev d p)) / (h * h).
Definition diff_forward (h : R) (d : nat) (u : point -> R) (p : point) : R := (u (next d p) - u p) / h.
Definition diff_backward (h : R) (d : nat) (u : point -> R) (p : point) : R := (u p - u (prev d p)) / h.
(** the mixed derivative along [d] and [e] *)
Definition diff_mixed (h h' : R) (d e : nat) (u : point -> R) (p : point) : R :=
  (u (next d (next e p)) - u (next d (prev e p)) - u (prev d (next e p)) + u (prev d (prev e p))) / (4 * h * h').
(** the derivative along the outward normal at the first of three points with the
    spacing [h], of the parabola through them *)
Definition normal_derivative (h u0 u1 u2 : R) : R := (3 * u0 - 4 * u1 + u2) / (2 * h).

(** The equation
      dV/dt + sum a_ij d2(A_ij V)/dx_i dx_j + sum b_i d(B_i V)/dx_i + c V = 0
    at one time; a_ij is symmetric and given for i <= j.  A term whose two
    coefficients are both absent vanishes, a single absent coefficient is 1. *)
Record equation := { ea : nat -> nat -> option (point -> R); eb : nat -> option (point -> R); ec : option (point -> R);
                     eA : nat -> nat -> option (point -> R); eB : nat -> option (point -> R) }.
Definition coef (c : option (point -> R)) (p : point) : R := match c with Some f => f p | None => 1 end.
Definition term (x y : option (point -> R)) (v : R) : R := match x, y with None, None => 0 | _, _ => v end.
Definition times (c : option (point -> R)) (u : point -> R) : point -> R := fun p => coef c p * u p.
(** A boundary condition alpha V + beta V_n = gamma, V_n the derivative along the
    outward normal; an absent alpha or beta is 0.  The coefficients are taken at
    the point with position 0 along the dimension of the boundary. *)
Definition boundary := (option (point -> R) * option (point -> R) * (point -> R))%type.
Definition weight (c : option (point -> R)) (p : point) : R := match c with Some f => f p | None => 0 end.

Section Grid.
  Variable n : nat.                       (* the number of dimensions *)
  Variable size : nat -> nat.             (* the number of points along each *)
  Variable h : nat -> R.                  (* the spacing along each *)
  (** the ends that have no boundary condition: there the second derivatives across
      the end, mixed ones included, are taken to vanish *)
  Variable open_low open_up : nat -> bool.

  (** the points at which the equation is imposed *)
  Definition unknown_at (d j : nat) : Prop := (j < size d)%nat /\ (j = 0%nat -> open_low d = true) /\ (j = (size d - 1)%nat -> open_up d = true).
  Definition unknown (p : point) : Prop := forall d, (d < n)%nat -> unknown_at d (p d).
  Definition inside (d : nat) (p : point) : bool := Nat.ltb 0 (p d) && Nat.ltb (p d) (size d - 1).

  (** the terms of dimension [d], with an equal share of c V *)
  Definition along (e : equation) (d : nat) (u : point -> R) (p : point) : R :=
    (if open_low d && Nat.eqb (p d) 0 then term (eb e d) (eB e d) (coef (eb e d) p * diff_forward (h d) d (times (eB e d) u) p)
     else if open_up d && Nat.eqb (p d) (size d - 1) then term (eb e d) (eB e d) (coef (eb e d) p * diff_backward (h d) d (times (eB e d) u) p)
     else term (ea e d d) (eA e d d) (coef (ea e d d) p * diff2 (h d) d (times (eA e d d) u) p)
          + term (eb e d) (eB e d) (coef (eb e d) p * diff1 (h d) d (times (eB e d) u) p))
    + match ec e with None => 0 | Some c => c p * u p / INR n end.
  (** the mixed terms of dimensions [d] < [d'] *)
  Definition mixed2 (e : equation) (d d' : nat) (u : point -> R) (p : point) : R :=
    if inside d p && inside d' p then term (ea e d d') (eA e d d') (2 * (coef (ea e d d') p * diff_mixed (h d) (h d') d d' (times (eA e d d') u) p)) else 0.
  Definition mixed (e : equation) (u : point -> R) (p : point) : R := sum_to n (fun d => sum_to (n - (d + 1)) (fun j => mixed2 e d (d + 1 + j) u p)).

  (** the discretized boundary condition of dimension [d] on the line through [p] *)
  Definition lower_holds (d : nat) (c : option boundary) (u : point -> R) (p : point) : Prop :=
    match c with
    | None => True
    | Some (alpha, beta, gamma) => weight alpha (move d 0 p) * u (move d 0 p) + weight beta (move d 0 p) * normal_derivative (h d) (u (move d 0 p)) (u (move d 1 p)) (u (move d 2 p)) = gamma (move d 0 p)
    end.
  Definition upper_holds (d : nat) (c : option boundary) (u : point -> R) (p : point) : Prop :=
    match c with
    | None => True
    | Some (alpha, beta, gamma) => weight alpha (move d 0 p) * u (move d (size d - 1) p) + weight beta (move d 0 p) * normal_derivative (h d) (u (move d (size d - 1) p)) (u (move d (size d - 2) p)) (u (move d (size d - 3) p)) = gamma (move d 0 p)
    end.
  (** they determine the boundary value *)
  Definition determined (d : nat) (c : option boundary) : Prop :=
    match c with None => True | Some (alpha, beta, _) => forall p, weight alpha p + weight beta p * (3 / (2 * h d)) <> 0 end.
  (** All boundary conditions.  In a corner the condition of the last of its
      dimensions holds. *)
  Definition boundaries_hold (low up : nat -> option boundary) (u : point -> R) : Prop :=
    forall d, (d < n)%nat -> forall p, (forall e, (e < d)%nat -> (p e < size e)%nat) -> (forall e, (d < e < n)%nat -> unknown_at e (p e)) ->
      lower_holds d (low d) u p /\ upper_holds d (up d) u p.

  (** The Douglas scheme from [u] over the time step [dt]: [e1] and [e2] are the
      equations before and after the step.  Y 0 is the explicit step, Y (S i) treats
      dimension i implicitly. *)
  Definition douglas (theta dt : R) (e1 e2 : equation) (u : point -> R) (Y : nat -> point -> R) : Prop :=
    (forall p, unknown p -> Y 0%nat p = u p - dt * (sum_to n (fun d => along e1 d u p) + mixed e1 u p)) /\
    (forall i, (i < n)%nat -> forall p, unknown p -> Y (S i) p = Y i p - theta * dt * (along e2 i (Y (S i)) p - along e1 i u p)).
End Grid.
