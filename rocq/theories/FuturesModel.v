(** Model of tf_quant_finance/experimental/instruments/eurodollar_futures.py and
    overnight_index_linked_futures.py.  Definitions only.  A curve is the
    function that its [get_discount_factor] computes for a date.  Quotients are
    those of floating-point numbers (infinities and NaN), without rounding. *)
From Coq Require Import Reals ZArith List Bool.
From Verif Require Import InterpModel BrentModel ExtReal BootstrapModel HaganWestModel TensorModel SegmentModel DateModel DayCountModel BoundedCalModel UnboundedCalModel
  ScheduleModel RatesModel InstrumentModel.
Import ListNotations.
Open Scope R_scope.

(** rate_curve.py 102-131 with the quotients of floating-point numbers *)
Definition forward_rate (curve : date -> R) (s e : date) (fraction : R) : xr :=
  xdiv (xsub (xdiv (Fin (curve s)) (Fin (curve e))) (Fin 1)) (Fin fraction).

(** ** eurodollar_futures.py *)
(** 121-151, one contract: start and end of the accrual and its length.
    [None]: ValueError of lines 123-131 or a date that cannot be formed *)
Definition eurodollar (expiry : date) (c : option daycount) (rate_term : option period) (maturity : option date) : option (date * date * R) :=
  match rate_term, maturity with
  | None, None | Some _, Some _ => None
  | _, _ =>
      bind (match rate_term with None => maturity | Some p => date_add expiry p end) (fun e =>
      Some (expiry, e, daycount_fraction (match c with None => ACTUAL_360 | Some c => c end) expiry e))
  end.
(** 153-176; the valuation date and the model are not used *)
Definition eurodollar_price (f : date * date * R) (notional : R) (valuation : date) (reference : date -> R) : xr :=
  let '(s, e, fraction) := f in
  xmul (xmul (Fin 100) (Fin notional)) (xsub (Fin 1) (forward_rate reference s e fraction)).

(** ** overnight_index_linked_futures.py *)
(** rates_common.py 25-31 *)
Inductive average_type := COMPOUNDING | ARITHMETIC_AVERAGE.
Definition one_day : period := mk_period 1 DAY.
(** datetime/constants.py, WeekendMask.SATURDAY_SUNDAY *)
Definition SATURDAY_SUNDAY : list bool := [false; false; false; false; false; true; true].
(** 154-156 and 219: the FOLLOWING roll of the calendar; without an argument the
    unbounded calendar of holiday_calendar_factory.py 100-105 *)
Definition following_roll (calendar : option (date -> option date)) : date -> option date :=
  match calendar with
  | Some f => f
  | None => fun d => u_roll (mk_ucal (Some SATURDAY_SUNDAY) None) d FOLLOWING
  end.
(** 213-231: the dates of one contract, up to the day after its end *)
Definition contract_resets (roll : date -> option date) (start end_ : date) : option (list date) :=
  bind (date_add start one_day) (fun s =>
  bind (periodic_schedule [mk_row s end_ 1] DAY false false (Some roll)) (fun schedule =>
  bind (date_add end_ one_day) (fun past => Some (([start] ++ concat schedule) ++ [past])))).
(** 138-163 and 207-248; [None] also when a contract has no end date *)
Record overnight_futures := OvernightFutures { of_unit : list R; of_average : average_type;
  of_start : list date; of_end : list date; of_accrual : list R; of_fractions : list R; of_contract : list nat }.
Definition overnight_setup (starts ends : list date) (c : option daycount) (average : option average_type) (unit : list R)
    (calendar : option (date -> option date)) : option overnight_futures :=
  let c := match c with None => ACTUAL_360 | Some c => c end in
  if Nat.ltb (length ends) (length starts) then None else
  bind (map_opt (fun '(s, e) => contract_resets (following_roll calendar) s e) (combine starts ends)) (fun resets =>
  let fractions := map (fun l => map2 (daycount_fraction c) (removelast l) (tl l)) resets in
  let dates := concat (map (@removelast date) resets) in
  bind (map_opt (fun d => date_add d one_day) dates) (fun accrual_end =>
  match resets with [] => None | _ =>
  Some (OvernightFutures unit (match average with None => COMPOUNDING | Some a => a end)
          dates accrual_end (map2 (daycount_fraction c) dates accrual_end) (concat fractions)
          (group_ids (@length R) fractions)) end)).
(** tf.math.segment_prod for sorted ids *)
Definition xprod (l : list xr) : xr := fold_right xmul (Fin 1) l.
Definition xsegment_prod (data : list xr) (ids : list nat) : list xr :=
  map (fun g => xprod (map fst (filter (fun p => Nat.eqb (snd p) g) (combine data ids))))
      (seq 0 (match ids with [] => 0%nat | _ => S (last ids 0%nat) end)).
(** 165-205; the valuation date, the model and the contract unit are not used *)
Definition overnight_price (f : overnight_futures) (valuation : date) (reference : date -> R) : list xr :=
  let forward := map (fun '((s, e), fr) => forward_rate reference s e fr) (combine (combine (of_start f) (of_end f)) (of_accrual f)) in
  let total := xsegment_sum (map Fin (of_fractions f)) (of_contract f) in
  let rate := match of_average f with
    | ARITHMETIC_AVERAGE => xzip xdiv (xsegment_sum (xzip xmul forward (map Fin (of_fractions f))) (of_contract f)) total
    | COMPOUNDING => xzip xdiv (map (fun p => xsub p (Fin 1))
        (xsegment_prod (map (xadd (Fin 1)) (xzip xmul forward (map Fin (of_fractions f)))) (of_contract f))) total
    end in
  map (fun r => xmul (Fin 100) (xsub (Fin 1) r)) rate.
