(** Present value, duration and convexity of a list of (amount, time) cashflows. *)
From Coq Require Import Reals List.
Import ListNotations.
Open Scope R_scope.

Definition cf_sum (g : R * R -> R) (l : list (R * R)) : R := fold_right (fun p s => g p + s) 0 l.
(** Value at a continuously compounded yield. *)
Definition pv (l : list (R * R)) (y : R) : R := cf_sum (fun '(c, t) => c * exp (- t * y)) l.
Definition duration (l : list (R * R)) (y : R) : R := cf_sum (fun '(c, t) => c * t * exp (- t * y)) l.
Definition convexity (l : list (R * R)) (y : R) : R := cf_sum (fun '(c, t) => c * t ^ 2 * exp (- t * y)) l.
(** The cashflows labelled j. *)
Definition members (cashflows times : list R) (groups : list nat) (j : nat) : list (R * R) :=
  map fst (filter (fun p => Nat.eqb (snd p) j) (combine (combine cashflows times) groups)).
(** One Newton step towards the yield at which the value is P. *)
Definition newton_step (l : list (R * R)) (P y : R) : R := y + (pv l y - P) / duration l y.
