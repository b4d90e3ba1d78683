(** Specification for curve bootstrapping (C38): the value of a swap and of a
    bond on given curves. *)
From Coq Require Import Reals List.
From Verif Require Import BootstrapModel.
Import ListNotations.
Open Scope R_scope.

Definition total (l : list R) : R := fold_right Rplus 0 l.
(** [P] projects the floating rates; [F] and [D] discount the floating and the
    fixed leg.  A floating period from s to e pays P(s)/P(e) - 1 at e. *)
Definition float_value (P F : R -> R) (s : swap) : R :=
  total (map (fun '(a, b) => (P a / P b - 1) * F b) (combine (float_start s) (float_end s))).
Definition fixed_value (D : R -> R) (s : swap) : R :=
  total (map (fun '(t, (a, c)) => a * c * D t) (combine (fixed_end s) (combine (fixed_daycount s) (fixed_cashflows s)))).
Definition swap_value (P F D : R -> R) (s : swap) : R := float_value P F s + fixed_value D s.
Definition bond_value (P : R -> R) (b : bond) : R := total (map (fun '(t, c) => c * P t) (combine (cashflow_times b) (cashflows b))).
(** Zero rates of the nodes, and the discount function of a rate function. *)
Definition zero_rates (d times : list R) : list R := map (fun '(d, t) => - ln d / t) (combine d times).
Definition discount (r : R -> R) (t : R) : R := exp (- r t * t).

(** A swap whose periods are complete, ending both legs on its expiry. *)
Definition well_formed (s : swap) : Prop :=
  length (float_start s) = length (float_end s) /\ (0 < length (float_end s))%nat /\
  length (fixed_cashflows s) = length (fixed_end s) /\ length (fixed_daycount s) = length (fixed_end s) /\ (0 < length (fixed_end s))%nat /\
  last (float_end s) 0 = last (fixed_end s) 0 /\ 0 < last (fixed_end s) 0.
Definition bond_formed (b : bond) : Prop :=
  length (cashflows b) = length (cashflow_times b) /\ (0 < length (cashflows b))%nat /\ 0 < last (cashflow_times b) 0.
(** Times at which the curve is used. *)
Definition swap_times (s : swap) : list R := float_start s ++ float_end s ++ fixed_end s.
Definition bond_times (b : bond) : list R := settle_time b :: cashflow_times b.
