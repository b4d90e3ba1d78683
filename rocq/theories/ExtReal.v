(** Floating-point numbers without rounding: exact reals, the two infinities
    and NaN.  Definitions only.  The sign of zero is not kept, so a nonzero
    number divided by zero is the infinity of the numerator's sign. *)
From Coq Require Import Reals Bool.
From Verif Require Import InterpModel BrentModel.
Open Scope R_scope.

Inductive xr : Type := Fin (r : R) | Inf (neg : bool) | NaN.

Definition xneg (a : xr) : bool := match a with Fin r => rlt r 0 | Inf n => n | NaN => false end.
Definition xzero (a : xr) : bool := match a with Fin r => req r 0 | _ => false end.
Definition is_finite (a : xr) : bool := match a with Fin _ => true | _ => false end.
Definition is_nan (a : xr) : bool := match a with NaN => true | _ => false end.

Definition xopp (a : xr) : xr := match a with Fin r => Fin (- r) | Inf n => Inf (negb n) | NaN => NaN end.
Definition xabs (a : xr) : xr := match a with Fin r => Fin (Rabs r) | Inf _ => Inf false | NaN => NaN end.
Definition xadd (a b : xr) : xr :=
  match a, b with
  | NaN, _ | _, NaN => NaN
  | Fin x, Fin y => Fin (x + y)
  | Inf m, Inf n => if eqb m n then Inf m else NaN
  | Inf m, Fin _ => Inf m
  | Fin _, Inf n => Inf n
  end.
Definition xmul (a b : xr) : xr :=
  match a, b with
  | NaN, _ | _, NaN => NaN
  | Fin x, Fin y => Fin (x * y)
  | _, _ => if xzero a || xzero b then NaN else Inf (xorb (xneg a) (xneg b))
  end.
Definition xdiv (a b : xr) : xr :=
  match a, b with
  | NaN, _ | _, NaN => NaN
  | Inf _, Inf _ => NaN
  | Inf m, Fin y => Inf (xorb m (rlt y 0))
  | Fin _, Inf _ => Fin 0
  | Fin x, Fin y => if req y 0 then (if req x 0 then NaN else Inf (rlt x 0)) else Fin (x / y)
  end.
(** a < b; false when either is NaN. *)
Definition xlt (a b : xr) : bool :=
  match a, b with
  | NaN, _ | _, NaN => false
  | Fin x, Fin y => rlt x y
  | Inf m, Inf n => m && negb n
  | Inf m, Fin _ => m
  | Fin _, Inf n => negb n
  end.
