(** Specification of the rate instruments of the pricing platform (C93, C94): the
    dates of a contract and the value of its coupons. *)
From Coq Require Import String Reals ZArith List Bool Sorted.
From Verif Require Import DateModel DateSpec BoundedCalModel CalSpec CalSetup ScheduleSpec InstrumentModel InstrumentSpec PlatformModel.
Import ListNotations.
Open Scope R_scope.

(** A business day is a day from Monday to Friday. *)
Definition working_day (o : Z) : bool := business [false; false; false; false; false; true; true] [] o.
(** [r] is what the convention makes of [d]; without a convention [d] has to be a
    business day. *)
Definition rolled (conv : convention) (d r : date) : Prop :=
  match conv with
  | NONE => r = d /\ working_day (ordinal d) = true
  | FOLLOWING => following working_day (ordinal d) (ordinal r)
  | PRECEDING => preceding working_day (ordinal d) (ordinal r)
  | MODIFIED_FOLLOWING => modified_following working_day (ordinal d) (ordinal r)
  | MODIFIED_PRECEDING => modified_preceding working_day (ordinal d) (ordinal r)
  end.
(** [s] is [n] business days after the rolled date. *)
Definition settled (conv : convention) (d : date) (n : Z) (s : date) : Prop :=
  exists r, is_date r /\ rolled conv d r /\ is_date s /\ (8 <= ordinal s)%Z /\ nth_business_day working_day (ordinal r) n (ordinal s).

(** The terms of one contract: the dates agreed on, the settlement days and the
    dates after settlement, between which the coupons accrue. *)
Record terms := Terms { x_start : date; x_end : date; x_days : Z; x_from : date; x_to : date; x_freq : Z;
  x_notional : R; x_rate : R; x_spread : R }.
Definition good_terms (conv : convention) (x : terms) : Prop :=
  is_date (x_start x) /\ is_date (x_end x) /\ (15 <= ordinal (x_start x))%Z /\ (15 <= ordinal (x_end x))%Z /\
  settled conv (x_start x) (x_days x) (x_from x) /\ settled conv (x_end x) (x_days x) (x_to x) /\
  (0 < x_freq x)%Z /\ (ordinal (x_from x) <= ordinal (x_to x))%Z.
(** A batch needs one contract that has a coupon. *)
Definition good_batch (conv : convention) (xs : list terms) : Prop :=
  (forall x, In x xs -> good_terms conv x) /\ exists x, In x xs /\ (ordinal (x_from x) < ordinal (x_to x))%Z.

(** What a day count has to be. *)
Definition fair_fraction (tau : date -> date -> R) : Prop :=
  (forall d, is_date d -> tau d d = 0) /\ (forall s e, is_date s -> is_date e -> (ordinal s <= ordinal e)%Z -> 0 <= tau s e).

(** The value of fixed coupons on the dates [l]. *)
Definition fixed_leg_value (valuation : date) (discount : date -> R) (tau : date -> date -> R) (notional rate : R) (l : list date) : R :=
  over_periods (fun s e => value_of valuation discount (notional * rate * tau s e) e) l.
(** The value of the floating coupon from [s] to [e] that pays the rate between
    [s] and [accrual], or the fixing if [s] has passed, and the spread. *)
Definition coupon_value (valuation : date) (discount reference : date -> R) (fixing : R) (tau : date -> date -> R) (notional spread : R) (s e accrual : date) : R :=
  value_of valuation discount (notional * (floating_rate valuation reference fixing (tau s e) s accrual + spread) * tau s e) e.

(** The fixing that holds on a day: that of the first fixing date on or after
    it, the last one after all of them. *)
Definition fixing_on (dates : list date) (rates : list R) (d : date) (r : R) : Prop :=
  exists i, (i < length dates)%nat /\ nth_error rates i = Some r /\
    (forall j, (j < i)%nat -> (ordinal (nth j dates d) < ordinal d)%Z) /\
    ((ordinal d <= ordinal (nth i dates d))%Z \/ S i = length dates).

(** The coupon dates of a contract: every [x_from + k freq] before [x_to] and
    [x_to], or counted back from the end. *)
Definition coupon_schedule (t : period_type) (backward : bool) (x : terms) (r : list date) : Prop :=
  (if backward then backward_dates else forward_dates) (x_from x) (x_to x) (mk_period (x_freq x) t) r.
(** The spread of a coupon that has already been paid. *)
Definition passed_spread (valuation : date) (discount : date -> R) (tau : date -> date -> R) (notional spread : R) (s e : date) : R :=
  if Z.ltb (ordinal e) (ordinal valuation) then notional * tau s e * spread * discount e else 0.
(** The value today of receiving a rate of one on the notional. *)
Definition leg_annuity (discount : date -> R) (tau : date -> date -> R) (l : list date) : R := over_periods (fun s e => tau s e * discount e) l.
(** Time passes between different dates. *)
Definition strict_fraction (tau : date -> date -> R) : Prop := forall s e, is_date s -> is_date e -> (ordinal s < ordinal e)%Z -> 0 < tau s e.
