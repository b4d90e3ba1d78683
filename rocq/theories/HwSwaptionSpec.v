(** European swaptions without reference to the code. *)
From Coq Require Import Reals List.
From Verif Require Import MvNormalSpec.
Import ListNotations.
Open Scope R_scope.

(** The value, at the start of the swap, of receiving the floating leg and paying
    the fixed leg: the floating leg is worth 1 - P_n, where P_n is the bond that
    matures with the last payment, and the fixed leg pays [c i] at payment date i,
    of which there are [n]. *)
Definition swap_value (n : nat) (c P : nat -> R) : R := 1 - P (n - 1)%nat - sum_to n (fun i => c i * P i).
(** A payer swaption is the right to enter that swap, a receiver swaption the right
    to enter the opposite one. *)
Definition swaption_payoff (payer : bool) (v : R) : R := Rmax (if payer then v else - v) 0.
(** The coupons are all of one sign; if they are negative, the last payment with
    the principal is positive and the latest one. *)
Definition regular_leg (n : nat) (c times : nat -> R) : Prop :=
  (forall i, (i < n)%nat -> 0 <= c i) \/
  ((forall i, (i < n)%nat -> c i <= 0 /\ times i <= times (n - 1)%nat) /\ 0 < 1 + c (n - 1)%nat).
