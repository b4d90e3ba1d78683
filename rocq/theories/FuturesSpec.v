(** Specification of Eurodollar and overnight index futures (C88), from the
    description of the contracts. *)
From Coq Require Import Reals ZArith List Bool.
From Verif Require Import DateModel DateSpec CalSpec CalSetup ScheduleSpec InstrumentModel InstrumentSpec FuturesModel.
Import ListNotations.
Open Scope R_scope.

(** The day after [d]. *)
Definition next_day (d : date) : date := InstrumentSpec.plus d (mk_period 1 DAY).
(** The simple rate from [s] to [e] that a curve implies. *)
Definition implied_rate (curve : date -> R) (c : daycount) (s e : date) : R := (curve s / curve e - 1) / daycount_fraction c s e.
(** The overnight rate of the day [d]. *)
Definition overnight_rate (curve : date -> R) (c : daycount) (d : date) : R := implied_rate curve c d (next_day d).

(** The days on which a rate is set for a contract from [s] to [e]: the first
    day, then every business day up to the last day. *)
Definition rate_days (b : Z -> bool) (s e : date) (l : list date) : Prop :=
  exists r, l = s :: r /\ business_dates b (next_day s) e r.
(** The product of [1 + f T_j T_(j+1)] over consecutive dates. *)
Fixpoint compounded (f : date -> date -> R) (l : list date) : R :=
  match l with a :: ((b :: _) as r) => (1 + f a b) * compounded f r | _ => 1 end.
(** The settlement rate of a contract whose rates are set on the days [l]: every
    rate holds until the next of these days, the last one until the day after
    the end of the contract. *)
Definition settlement_rate (a : average_type) (curve : date -> R) (c : daycount) (e : date) (l : list date) : R :=
  let dates := l ++ [next_day e] in
  let accrued := fun s e => overnight_rate curve c s * daycount_fraction c s e in
  match a with
  | COMPOUNDING => (compounded accrued dates - 1) / over_periods (daycount_fraction c) dates
  | ARITHMETIC_AVERAGE => over_periods accrued dates / over_periods (daycount_fraction c) dates
  end.
(** The calendar function rolls every day of the contract to the next business
    day (for the library's calendars this is C11). *)
Definition rolls (b : Z -> bool) (roll : date -> option date) (s e : date) : Prop :=
  forall d, is_date d -> (ordinal s < ordinal d <= ordinal e)%Z -> exists x, roll d = Some x /\ is_date x /\ following b (ordinal d) (ordinal x).
