(** Specification of the rate instruments (C72): the cash flows of every
    contract on its own dates. *)
From Coq Require Import Reals ZArith List Bool.
From Verif Require Import DateModel DateSpec CalSetup ScheduleSpec InstrumentModel.
Import ListNotations.
Open Scope R_scope.

(** The terms of one contract of a batch.  A fixed stream uses the rate, a
    floating one the basis, the multiplier and the term of the reference rate. *)
Record contract := Contract { k_start : date; k_end : date; k_freq : Z; k_first : date; k_penultimate : date;
  k_notional : R; k_rate : R; k_basis : R; k_multiplier : R; k_term : Z }.
(** Which coupon is irregular. *)
Inductive stub := NoStub | FirstStub | LastStub.

(** The coupon dates T_0, ..., T_n of a contract. *)
Definition contract_dates (b : stub) (t : period_type) (k : contract) (l : list date) : Prop :=
  match b with
  | NoStub => forward_dates (k_start k) (k_end k) (mk_period (k_freq k) t) l
  | FirstStub => exists r, forward_dates (k_first k) (k_end k) (mk_period (k_freq k) t) r /\ l = k_start k :: r
  | LastStub => exists r, backward_dates (k_start k) (k_penultimate k) (mk_period (k_freq k) t) r /\ l = r ++ [k_end k]
  end.
(** The dates between which coupons are regular. *)
Definition regular_range (b : stub) (k : contract) : date * date :=
  match b with NoStub => (k_start k, k_end k) | FirstStub => (k_first k, k_end k) | LastStub => (k_start k, k_penultimate k) end.
Definition ok_batch (b : stub) (t : period_type) (cs : list contract) : Prop :=
  (forall k, In k cs -> is_date (k_start k) /\ is_date (k_end k) /\ is_date (fst (regular_range b k)) /\ is_date (snd (regular_range b k)) /\
     (0 < k_freq k)%Z /\ (ordinal (k_start k) <= ordinal (fst (regular_range b k)) <= ordinal (snd (regular_range b k)))%Z /\
     (ordinal (snd (regular_range b k)) <= ordinal (k_end k))%Z) /\
  (exists k, In k cs /\ (ordinal (fst (regular_range b k)) < ordinal (snd (regular_range b k)))%Z) /\
  (b = LastStub -> t = MONTH \/ t = YEAR \/ exists k, cs = [k]).
Definition first_dates (b : stub) (cs : list contract) : option (list date) := match b with FirstStub => Some (map k_first cs) | _ => None end.
Definition penultimate_dates (b : stub) (cs : list contract) : option (list date) := match b with LastStub => Some (map k_penultimate cs) | _ => None end.

(** The sum of [f T_j T_(j+1)] over consecutive dates. *)
Fixpoint over_periods (f : date -> date -> R) (l : list date) : R :=
  match l with a :: ((b :: _) as r) => f a b + over_periods f r | _ => 0 end.
(** The same when the irregular period has its own function. *)
Definition over_coupons (b : stub) (regular irregular : date -> date -> R) (l : list date) : R :=
  match b with
  | NoStub => over_periods regular l
  | FirstStub => match l with s :: ((e :: _) as r) => irregular s e + over_periods regular r | _ => 0 end
  | LastStub => over_periods regular (removelast l) + match rev l with e :: s :: _ => irregular s e | _ => 0 end
  end.
(** The value of a payment: nothing once its date has passed. *)
Definition value_of (valuation : date) (discount : date -> R) (amount : R) (d : date) : R :=
  if Z.leb (ordinal valuation) (ordinal d) then amount * discount d else 0.

(** The value of fixed coupons. *)
Definition fixed_value (valuation : date) (discount : date -> R) (c : daycount) (k : contract) (l : list date) : R :=
  over_periods (fun s e => value_of valuation discount (k_notional k * k_rate k * daycount_fraction c s e) e) l.
(** The rate of a floating coupon that starts on s: the fixing if s has passed,
    else the forward rate between s and [accrual_end]. *)
Definition floating_rate (valuation : date) (reference : date -> R) (fixing fraction : R) (s accrual_end : date) : R :=
  if Z.ltb (ordinal s) (ordinal valuation) then fixing else (reference s / reference accrual_end - 1) / fraction.
Definition floating_coupon (valuation : date) (discount reference : date -> R) (fixing : R) (c : daycount) (k : contract) (s e accrual_end : date) : R :=
  value_of valuation discount
    (k_notional k * (k_multiplier k * (floating_rate valuation reference fixing (daycount_fraction c s e) s accrual_end + k_basis k)) * daycount_fraction c s e) e.
(** The date [p] after [d] (it exists for the dates used here, C05 and C06). *)
Definition plus (d : date) (p : period) : date := match date_add d p with Some x => x | None => d end.
(** The value of floating coupons: a regular coupon pays the rate for the term of
    the reference rate, an irregular one for its own period. *)
Definition floating_value (b : stub) (valuation : date) (discount reference : date -> R) (fixing : R) (c : daycount) (term_t : period_type) (k : contract) (l : list date) : R :=
  over_coupons b (fun s e => floating_coupon valuation discount reference fixing c k s e (plus s (mk_period (k_term k) term_t)))
                 (fun s e => floating_coupon valuation discount reference fixing c k s e e) l.
Definition fixing_of (libor : option R) : R := match libor with Some r => r | None => 0 end.
