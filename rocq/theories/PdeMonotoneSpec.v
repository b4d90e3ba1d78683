(** When a step of the equation V_t + a V_xx + b V_x + c V = 0 on a grid keeps
    the order of its data.  [x] are the points, [n] their number. *)
From Coq Require Import Reals List.
From Verif Require Import PdeStepModel PdeStepView.
Open Scope R_scope.

(** the coefficient at a grid point; an absent term has the coefficient 0 *)
Definition coef_at (c : option (list R)) (p : nat) : R := match c with Some l => nth p l 0 | None => 0 end.
(** the weights of the two neighbours in the difference equation at point [p]: at
    an inner point those of central differences, at an end with the default
    condition (the equation without its second order term) one-sided, over the
    spacing the code divides by *)
Definition upper_weight (x : nat -> R) (n : nat) (a b : nat -> R) (p : nat) : R :=
  if Nat.eqb p 0 then b 0%nat / (x 2%nat - x 1%nat)
  else if Nat.eqb p (n - 1) then 0
  else (2 * a p + b p * (x p - x (p - 1)%nat)) / ((x (p + 1)%nat - x (p - 1)%nat) * (x (p + 1)%nat - x p)).
Definition lower_weight (x : nat -> R) (n : nat) (a b : nat -> R) (p : nat) : R :=
  if Nat.eqb p 0 then 0
  else if Nat.eqb p (n - 1) then - b p / (x (n - 2)%nat - x (n - 3)%nat)
  else (2 * a p - b p * (x (p + 1)%nat - x p)) / ((x (p + 1)%nat - x (p - 1)%nat) * (x p - x (p - 1)%nat)).
(** the conditions at time [t] for a step of length [dt] with weight [theta] on
    the explicit part: no negative weights, no growth, and an explicit part that
    is not longer than the grid allows *)
Definition monotone_at (xs : list R) (lower upper : boundary) (co : coefficients) (t theta dt : R) : Prop :=
  let n := length xs in
  let a := coef_at (second co t) in let b := coef_at (first_ co t) in let c := coef_at (zeroth co t) in
  inner_second co t = None /\ inner_first co t = None
  /\ forall p, unknown lower upper n p ->
       let up := upper_weight (sq xs) n a b p in let low := lower_weight (sq xs) n a b p in
       0 <= up /\ 0 <= low /\ c p <= 0 /\ theta * dt * (up + low - c p) <= 1.

(** a boundary is the default one, or prescribes a value in [m, M] at time [t] *)
Definition end_within (b : boundary) (t m M : R) : Prop :=
  match b with None => True | Some g => exists v, g t = (Some 1, None, v) /\ m <= v <= M end.
(** two boundaries of the same kind, the first prescribing the smaller value *)
Definition end_le (b b' : boundary) (t : R) : Prop :=
  match b, b' with
  | None, None => True
  | Some g, Some g' => exists v v', g t = (Some 1, None, v) /\ g' t = (Some 1, None, v') /\ v <= v'
  | _, _ => False
  end.
Definition all_within (n : nat) (v : list R) (m M : R) : Prop := forall p, (p < n)%nat -> m <= nth p v 0 <= M.
Definition all_le (n : nat) (v w : list R) : Prop := forall p, (p < n)%nat -> nth p v 0 <= nth p w 0.
