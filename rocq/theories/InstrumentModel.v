(** Model of tf_quant_finance/experimental/instruments/{rates_common, rate_curve,
    cashflow_stream, bond, floating_rate_note, forward_rate_agreement,
    interest_rate_swap}.py.  Definitions only.  A batch is a list with one entry
    per contract; a curve is the function that its [get_discount_factor]
    computes for a date.  Where the code divides without a guard the model uses
    the division of R; the theorems exclude a zero divisor. *)
From Coq Require Import Reals QArith Qreals ZArith List Bool.
From Verif Require Import TensorModel InterpModel IntegrateModel SegmentModel DateModel DayCountModel BoundedCalModel ScheduleModel RatesModel.
Import ListNotations.
Open Scope R_scope.

(** rates_common.py 34-43 *)
Inductive daycount := ACTUAL_360 | ACTUAL_365 | THIRTY_360_ISDA.
(** rates_common.py 172-184 *)
Definition daycount_fraction (c : daycount) (s e : date) : R :=
  Q2R (match c with ACTUAL_365 => actual_365_fixed s e | ACTUAL_360 => actual_360 s e | THIRTY_360_ISDA => thirty_360_isda s e end).

(** ** rate_curve.py *)
(** 137-143 *)
Definition curve_time (valuation d : date) : R := Q2R (actual_365_fixed valuation d).
(** 80-85; [None]: the power of a number that is not positive *)
Definition continuous_rate (compounding : Z) (time rate : R) : option R :=
  if Z.ltb 0 compounding then
    if Rlt_dec 0 time then
      if Rlt_dec 0 (1 + rate / IZR compounding)
      then Some (ln (Rpower (1 + rate / IZR compounding) (IZR compounding * rate)) / time) else None
    else Some rate
  else Some rate.
Record rate_curve := RateCurve { times_ : list R; rates_ : list R; curve_valuation : date }.
(** 24-86, with the default interpolator *)
Definition make_curve (maturities : list date) (rates : list R) (valuation : date) (compounding : option Z) : option rate_curve :=
  let times := map (curve_time valuation) maturities in
  let c := match compounding with None => 0%Z | Some c => c end in
  option_map (fun rs => RateCurve times rs valuation) (map_opt (fun '(t, r) => continuous_rate c t r) (combine times rates)).
(** 88-93 *)
Definition get_rates (c : rate_curve) (d : date) : R :=
  linear_interpolate false (times_ c) (rates_ c) None None (curve_time (curve_valuation c) d).
(** 95-100 *)
Definition get_discount_factor (c : rate_curve) (d : date) : R := exp (- get_rates c d * curve_time (curve_valuation c) d).
(** 102-131 *)
Definition get_forward_rate (curve : date -> R) (s e : date) (fraction : R) : R := (curve s / curve e - 1) / fraction.

(** ** Tensors *)
Definition map2 {A B C} (f : A -> B -> C) (a : list A) (b : list B) : list C := map (fun '(x, y) => f x y) (combine a b).
(** tf.reshape to (b, n) *)
Fixpoint rows_of {A} (b n : nat) (l : list A) : list (list A) :=
  match b with O => [] | S b => firstn n l :: rows_of b n (skipn n l) end.
(** tf.repeat with a scalar number of repetitions *)
Definition tf_repeat {A} (l : list A) (n : nat) : list A := flat_map (fun x => repeat x n) l.
(** broadcasting a vector to length n *)
Definition broadcast (n : nat) (l : list R) : option (list R) :=
  if Nat.eqb (length l) n then Some l else match l with [x] => Some (repeat x n) | _ => None end.
(** static width of a rank-2 tensor *)
Definition width {A} (l : list (list A)) : nat := match l with [] => 0 | r :: _ => length r end.

(** ** cashflow_stream.py *)
(** 24-81.  A calendar is never passed on, so the business day rule has no
    effect (schedules.py 416-418).  The result: coupon dates and, for every
    coupon, whether it is regular. *)
Definition generate_schedule (starts ends : list date) (freq : list Z) (t : period_type) (first penultimate : option (list date))
    : option (list (list date) * list (list bool)) :=
  match first, penultimate with
  | None, None =>
      option_map (fun cpn => (cpn, map (fun l => map (fun _ => true) (removelast l)) cpn))
        (periodic_schedule (map2 (fun '(s, e) q => mk_row s e q) (combine starts ends) freq) t false false None)
  | Some fs, _ =>
      option_map (fun ss => let cpn := map2 cons starts ss in
                            (cpn, map (fun l => false :: map (fun _ => true) (removelast (removelast l))) cpn))
        (periodic_schedule (map2 (fun '(s, e) q => mk_row s e q) (combine fs ends) freq) t false false None)
  | None, Some ps =>
      option_map (fun ss => let cpn := map2 (fun l e => l ++ [e]) ss ends in
                            (cpn, map (fun l => map (fun _ => true) (removelast (removelast l)) ++ [false]) cpn))
        (periodic_schedule (map2 (fun '(s, e) q => mk_row s e q) (combine starts ps) freq) t true false None)
  end.

(** 246-290 and 86-105 of rates_common.py: the coupon specifications of the
    batch, one entry per contract *)
Record fixed_stream := FixedStream { fx_payment_dates : list date; fx_notional : list R; fx_fractions : list R; fx_coupon_rate : list R; fx_contract : list nat;
  fx_batch : nat; fx_count : nat }.
Definition fixed_setup (starts ends : list date) (freq : list Z) (t : period_type) (notional rate : list R) (c : daycount)
    (first penultimate : option (list date)) : option fixed_stream :=
  bind (generate_schedule starts ends freq t first penultimate) (fun '(cpn_dates, _) =>
  let payment_dates := map (@tl date) cpn_dates in
  let fractions := map2 (map2 (daycount_fraction c)) (map (@removelast date) cpn_dates) payment_dates in
  let n := width payment_dates in
  Some (FixedStream (concat payment_dates) (tf_repeat notional n) (concat fractions) (tf_repeat rate n) (tf_repeat (seq 0 (length starts)) n) (length starts) n)).
(** 192-224 *)
Definition fixed_price (f : fixed_stream) (valuation : date) (discount : date -> R) : list R :=
  let future := map (fun d => if date_geb d valuation then 1 else 0) (fx_payment_dates f) in
  let pvs := map2 Rmult (fx_notional f)
    (map2 Rmult (map2 Rmult (map2 Rmult future (fx_fractions f)) (fx_coupon_rate f)) (map discount (fx_payment_dates f))) in
  map reduce_sum (rows_of (fx_batch f) (fx_count f) pvs).

Record float_stream := FloatStream { fl_start : list date; fl_end : list date; fl_accrual_end : list date; fl_notional : list R; fl_fractions : list R;
  fl_basis : list R; fl_multiplier : list R; fl_batch : nat; fl_count : nat }.
(** 463-532 *)
Definition float_setup (starts ends : list date) (freq : list Z) (t : period_type) (term : list Z) (term_t : period_type)
    (notional basis multiplier : list R) (c : daycount) (first penultimate : option (list date)) : option float_stream :=
  bind (generate_schedule starts ends freq t first penultimate) (fun '(cpn_dates, is_regular) =>
  let coupon_start := map (@removelast date) cpn_dates in
  let coupon_end := map (@tl date) cpn_dates in
  bind (map_opt (fun '(l, q) => map_opt (fun d => date_add d (mk_period q term_t)) l) (combine coupon_start term)) (fun accrual_end =>
  let accrual_end := map2 (fun b '(x, y) => map2 (fun (b : bool) '(x, y) => if b then x else y) b (combine x y)) is_regular (combine accrual_end coupon_end) in
  let fractions := map2 (map2 (daycount_fraction c)) coupon_start coupon_end in
  let n := width coupon_end in
  Some (FloatStream (concat coupon_start) (concat coupon_end) (concat accrual_end) (tf_repeat notional n) (concat fractions)
          (tf_repeat basis n) (tf_repeat multiplier n) (length starts) n))).
(** rates_common.py 187-200 with cashflow_stream.py 427-431: the past fixing is a
    scalar, repeated as often as one contract has coupons; without it (or with a
    zero) a vector of zeros for the whole batch *)
Definition libor_rates (libor : option R) (batch n : nat) : list R :=
  match libor with
  | Some r => if Req_EM_T r 0 then tf_repeat (repeat 0 batch) n else repeat r n
  | None => tf_repeat (repeat 0 batch) n
  end.
(** 403-457 *)
Definition float_price (f : float_stream) (valuation : date) (discount reference : date -> R) (libor : option R) : option (list R) :=
  bind (broadcast (length (fl_start f)) (libor_rates libor (fl_batch f) (fl_count f))) (fun libor_rate =>
  let forward := map2 (fun '(s, e) fr => if Rlt_dec 0 fr then get_forward_rate reference s e fr else 0)
                   (combine (fl_start f) (fl_accrual_end f)) (fl_fractions f) in
  let forward := map2 (fun '(s, e) '(l, fw) => if date_ltb e valuation then 0 else if date_ltb s valuation then l else fw)
                   (combine (fl_start f) (fl_end f)) (combine libor_rate forward) in
  let coupon_rate := map2 Rmult (fl_multiplier f) (map2 Rplus forward (fl_basis f)) in
  let pvs := map2 Rmult (fl_notional f) (map2 Rmult (map2 Rmult (fl_fractions f) coupon_rate) (map discount (fl_end f))) in
  Some (map reduce_sum (rows_of (fl_batch f) (fl_count f) pvs))).

(** ** bond.py 156-202 and floating_rate_note.py 154-195 *)
Definition add_principal (coupons : list R) (maturities : list date) (notional : list R) (discount : date -> R) : list R :=
  map2 Rplus coupons (map2 Rmult notional (map discount maturities)).
Definition bond_price (settlements maturities : list date) (start : option (list date)) (freq : list Z) (t : period_type) (notional rate : list R)
    (c : daycount) (first penultimate : option (list date)) (valuation : date) (discount : date -> R) : option (list R) :=
  option_map (fun f => add_principal (fixed_price f valuation discount) maturities notional discount)
    (fixed_setup (match start with None => settlements | Some s => s end) maturities freq t notional rate c first penultimate).
Definition note_price (settlements maturities : list date) (start : option (list date)) (freq : list Z) (t : period_type) (term : list Z) (term_t : period_type)
    (notional basis multiplier : list R) (c : daycount) (first penultimate : option (list date)) (valuation : date) (discount reference : date -> R)
    (libor : option R) : option (list R) :=
  bind (float_setup (match start with None => settlements | Some s => s end) maturities freq t term term_t notional basis multiplier c first penultimate) (fun f =>
  option_map (fun coupons => add_principal coupons maturities notional discount) (float_price f valuation discount reference libor)).

(** ** forward_rate_agreement.py 74-182, one contract *)
Definition fra_accrual_end (settlement : date) (rate_term : option period) (maturity : option date) : option date :=
  match rate_term with None => maturity | Some p => date_add settlement p end.
Definition fra_price (settlement : date) (fixed_rate notional : R) (c : option daycount) (rate_term : option period) (maturity : option date)
    (discount reference : date -> R) : option R :=
  option_map (fun e =>
    let fr := daycount_fraction (match c with None => ACTUAL_360 | Some c => c end) settlement e in
    let fwd := get_forward_rate reference settlement e fr in
    discount settlement * notional * (fwd - fixed_rate) * fr / (1 + fr * fwd)) (fra_accrual_end settlement rate_term maturity).

(** ** interest_rate_swap.py *)
Inductive leg := Fixed (_ : fixed_stream) | Floating (_ : float_stream).
Definition leg_price (l : leg) (valuation : date) (discount reference : date -> R) (libor : option R) : option (list R) :=
  match l with Fixed f => Some (fixed_price f valuation discount) | Floating f => float_price f valuation discount reference libor end.
(** 213-239 *)
Definition swap_price (pay receive : leg) (valuation : date) (discount reference : date -> R) (libor : option R) : option (list R) :=
  bind (leg_price pay valuation discount reference libor) (fun p =>
  option_map (fun r => map2 Rminus r p) (leg_price receive valuation discount reference libor)).
(** 272-286: the last leg of each kind *)
Definition fixed_leg (pay receive : leg) : option fixed_stream :=
  match receive, pay with Fixed f, _ => Some f | _, Fixed f => Some f | _, _ => None end.
Definition floating_leg (pay receive : leg) : option float_stream :=
  match receive, pay with Floating f, _ => Some f | _, Floating f => Some f | _, _ => None end.
(** 288-305 for a swap with a fixed leg; the valuation date is not used *)
Definition annuity (f : fixed_stream) (discount : date -> R) (unit_notional : bool) : option (list R) :=
  let notional := if unit_notional then map (fun _ => 1) (fx_fractions f) else fx_notional f in
  segment_sum (map2 Rmult (map2 Rmult notional (map discount (fx_payment_dates f))) (fx_fractions f)) (fx_contract f).
(** 246-253 *)
Definition par_rate (pay receive : leg) (valuation : date) (discount reference : date -> R) (libor : option R) : option (list R) :=
  match fixed_leg pay receive, floating_leg pay receive with
  | Some f, Some g =>
      bind (annuity f discount false) (fun a =>
      option_map (fun pv => map2 Rdiv pv a) (float_price g valuation discount reference libor))
  | _, _ => None
  end.
