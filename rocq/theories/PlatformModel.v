(** Model of tf_quant_finance/experimental/pricing_platform/framework:
    rate_instruments/cashflow_streams.py, rate_instruments/interest_rate_swap/
    interest_rate_swap_impl.py, rate_instruments/forward_rate_agreement/
    forward_rate_agreement_impl.py, market_data/rate_curve.py and the parts of
    market_data/{utils,market_data_impl}.py they use.  Definitions only.  A batch
    is a list with one entry per contract; the schedules of a batch are a list of
    rows of equal length. *)
From Coq Require Import String Reals QArith Qreals ZArith List Bool.
From Verif Require Import ExtReal TensorModel InterpModel IntegrateModel SegmentModel DateModel DayCountModel BoundedCalModel UnboundedCalModel ScheduleModel RatesModel InstrumentModel.
Import ListNotations.
Open Scope R_scope.

(** ** market_data/utils.py *)
(** 33-41 and 65-79 [get_daycount_fn]: an enumerated convention, or a callable *)
Inductive day_count := DC_ACTUAL_ACTUAL_ISDA | DC_ACTUAL_360 | DC_ACTUAL_365 | DC_30_360 | DC_CALLABLE (f : date -> date -> R).
(** ACTUAL_ACTUAL_ISDA never fails for dates (C09_actual_actual_additive), so the
    second case of the match is not reached *)
Definition get_daycount_fn (c : day_count) (s e : date) : R :=
  match c with
  | DC_ACTUAL_ACTUAL_ISDA => match actual_actual_isda s e with Some q => Q2R q | None => 0 end
  | DC_ACTUAL_360 => Q2R (actual_360 s e)
  | DC_ACTUAL_365 => Q2R (actual_365_fixed s e)
  | DC_30_360 => Q2R (thirty_360_isda s e)
  | DC_CALLABLE f => f s e
  end.
(** 43-62 and 82-90: the rolling convention and whether dates move to the end of
    the month *)
Inductive business_day_rule := BR_NO_ADJUSTMENT | BR_FOLLOWING | BR_MODIFIED_FOLLOWING | BR_PREVIOUS | BR_MODIFIED_PREVIOUS
  | BR_EOM_FOLLOWING | BR_EOM_PREVIOUS | BR_EOM_NO_ADJUSTMENT.
Definition get_business_day_convention (r : business_day_rule) : convention * bool :=
  match r with
  | BR_NO_ADJUSTMENT => (NONE, false) | BR_FOLLOWING => (FOLLOWING, false) | BR_MODIFIED_FOLLOWING => (MODIFIED_FOLLOWING, false)
  | BR_PREVIOUS => (PRECEDING, false) | BR_MODIFIED_PREVIOUS => (MODIFIED_PRECEDING, false)
  | BR_EOM_FOLLOWING => (FOLLOWING, true) | BR_EOM_PREVIOUS => (PRECEDING, true) | BR_EOM_NO_ADJUSTMENT => (NONE, true)
  end.

(** ** cashflow_streams.py: the coupon dates *)
(** 191-192 and 509-510: the calendar of a contract is ignored; Saturday and
    Sunday are the days off *)
Definition weekend_calendar : ucal := mk_ucal (Some [false; false; false; false; false; true; true]) None.
(** 795-797 and 804-806 *)
Definition settle (conv : convention) (dates : list date) (days : list Z) : option (list date) :=
  map_opt (fun '(d, n) => u_add_business_days weekend_calendar d n conv) (combine dates days).
(** 756-819 [_generate_schedule].  A DateTensor is always true as a condition, so
    [first_coupon_date or start_date] is the first date whenever it is given and
    [end_date or penultimate_coupon_date] is the end date.  No calendar is passed
    to PeriodicSchedule. *)
Definition generate_dates (starts ends : list date) (freq : list Z) (t : period_type) (rule : business_day_rule) (settlement : list Z)
    (first penultimate : option (list date)) : option (list (list date)) :=
  let (conv, eom) := get_business_day_convention rule in
  match first, penultimate with
  | Some _, Some _ => None
  | _, _ =>
      bind (settle conv (match first with Some f => f | None => starts end) settlement) (fun ss =>
      let backward := match penultimate with None => false | Some _ => true end in
      bind (settle conv ends settlement) (fun es =>
      option_map (fun cpn => map2 (fun '(s, e) l => s :: l ++ [e]) (combine ss es) cpn)
        (periodic_schedule (map2 (fun '(s, e) q => mk_row s e q) (combine ss es) freq) t backward eom None)))
  end.
(** 115-118 and 182-217, 420-423 and 500-535: the dates come from [schedule], from
    [_generate_schedule] or from a callable, which is only called if there is a
    penultimate date (the variable is undefined otherwise) *)
Definition coupon_dates (schedule : option (list (list date)))
    (schedule_fn : option (list date -> list date -> list Z -> list Z -> option (list date) -> list date -> option (list (list date))))
    (starts ends : option (list date)) (freq : list Z) (t : period_type) (rule : business_day_rule) (settlement : list Z)
    (first penultimate : option (list date)) : option (list (list date)) :=
  match schedule with
  | Some l => Some l
  | None =>
      match starts, ends with
      | Some starts, Some ends =>
          match schedule_fn with
          | None => generate_dates starts ends freq t rule settlement first penultimate
          | Some f => match penultimate with
                      | None => None
                      | Some p => f starts ends freq settlement first p
                      end
          end
      | _, _ => None
      end
  end.

(** broadcasting along the last axis *)
Definition broadcast2 {A B C} (f : A -> B -> C) (a : list A) (b : list B) : option (list C) :=
  if Nat.eqb (length a) (length b) then Some (map2 f a b) else
  match a, b with
  | [x], _ => Some (map (f x) b)
  | _, [y] => Some (map (fun x => f x y) a)
  | _, _ => None
  end.
(** the fractions of a row, 224-226 and 554-556 *)
Definition fractions_of (c : day_count) (l : list date) : list R := map2 (get_daycount_fn c) (removelast l) (tl l).

(** ** Fixed coupons, one contract *)
(** 283-291 *)
Definition fixed_cashflows (c : day_count) (valuation : date) (notional rate : R) (l : list date) : list R :=
  map2 (fun d fr => notional * ((if date_geb d valuation then 1 else 0) * fr * rate)) (tl l) (fractions_of c l).
(** 309-316 *)
Definition fixed_stream_price (c : day_count) (valuation : date) (discount : date -> R) (notional rate : R) (l : list date) : R :=
  reduce_sum (map2 Rmult (fixed_cashflows c valuation notional rate l) (map discount (tl l))).

(** ** Past fixings *)
(** market_data_impl.py 230-257: the data of one index; [None] stands for an
    index without fixings.  A missing "fixing_daycount" raises. *)
Record fixing_data := Fixings { f_dates : list date; f_rates : list R; f_daycount : option day_count }.
Definition fixing_at (f : fixing_data) (d : date) : R :=
  let i := searchsorted_left (map ordinal (f_dates f)) (ordinal d) in
  nth (Z.to_nat (Z.min (Z.max i 0) (Z.of_nat (length (f_dates f)) - 1))) (f_rates f) 0.
Definition fixings (data : option fixing_data) (d : date) : option (R * option day_count) :=
  match data with
  | None => Some (0, None)
  | Some f => match f_daycount f with None => None | Some c => Some (fixing_at f d, Some c) end
  end.
(** cashflow_streams.py 906-914 *)
Definition fixing_of_period (data : option fixing_data) (s e : date) : option R :=
  option_map (fun '(x, c) => x * match c with Some c => get_daycount_fn c s e | None => 0 end) (fixings data s).
(** 880-921 [_get_fixings]: the contracts are split by reference curve, and the
    results are put back in order with an argsort *)
Definition indices_of (mask : list nat) (i : nat) : list nat := filter (fun j => Nat.eqb (nth j mask 0%nat) i) (seq 0 (length mask)).
Fixpoint insert_by (x : nat * nat) (l : list (nat * nat)) : list (nat * nat) :=
  match l with
  | [] => [x]
  | y :: r => if Nat.leb (fst x) (fst y) then x :: y :: r else y :: insert_by x r
  end.
Definition argsort_nat (l : list nat) : list nat := map snd (fold_right insert_by [] (combine l (seq 0 (length l)))).
Definition get_fixings (curves : list (option fixing_data)) (mask : list nat) (periods : list (date * date)) : option (list R) :=
  let dummy := mk_date 0 0 0 0 in
  match curves with
  | [c] => map_opt (fun '(s, e) => fixing_of_period c s e) periods
  | _ =>
      let split := map (indices_of mask) (seq 0 (length curves)) in
      bind (map_opt (fun '(idx, c) => map_opt (fun j => let '(s, e) := nth j periods (dummy, dummy) in fixing_of_period c s e) idx) (combine split curves)) (fun fs =>
      let all := concat fs in
      Some (map (fun j => nth j all 0) (argsort_nat (concat split))))
  end.

(** ** Floating coupons, one contract *)
(** 541-553 *)
Definition accrual_ends (reset : period) (l : list date) : option (list date) :=
  option_map (fun adds => firstn 1 (tl l) ++ removelast (tl adds) ++ skipn (length (tl l) - 1) (tl l))
    (map_opt (fun d => date_add d reset) (removelast l)).
(** 647-666: the period whose fixing is used *)
Definition fixing_period (valuation : date) (l : list date) : date * date :=
  let i := Z.to_nat (Z.max (searchsorted_left (map ordinal (removelast l)) (ordinal valuation) - 1) 0) in
  (nth i (removelast l) valuation, nth i (tl l) valuation).
(** 678-695; rate_curve.py 264-267 is [forward_rate] *)
Definition float_rates (c : day_count) (reset : period) (valuation : date) (reference : date -> R) (past : R) (l : list date) : option (list R) :=
  bind (accrual_ends reset l) (fun ends =>
  bind (broadcast2 (fun s e => (reference s, reference e)) (removelast l) ends) (fun dfs =>
  bind (broadcast2 (fun '(a, b) fr => if Rlt_dec 0 fr then forward_rate a b fr else 0) dfs (fractions_of c l)) (fun fwd =>
  broadcast2 (fun '(s, e) fw => if date_ltb e valuation then 0 else if date_geb s valuation then fw else past) (combine (removelast l) (tl l)) fwd))).
(** 719-728 *)
Definition float_cashflows (c : day_count) (reset : period) (valuation : date) (reference : date -> R) (past notional spread : R) (l : list date) : option (list R) :=
  bind (float_rates c reset valuation reference past l) (fun rates =>
  broadcast2 (fun fr r => notional * (fr * (r + spread))) (fractions_of c l) rates).
(** 747-753 *)
Definition float_stream_price (c : day_count) (reset : period) (valuation : date) (discount reference : date -> R) (past notional spread : R) (l : list date) : option R :=
  bind (float_cashflows c reset valuation reference past notional spread l) (fun cf =>
  option_map reduce_sum (broadcast2 Rmult cf (map discount (tl l)))).
(** 668-677 with 750: the rate of a coupon that was fixed before the valuation
    date *)
Definition past_of (given : option R) (data : option fixing_data) (valuation : date) (l : list date) : option R :=
  match given with
  | Some r => Some r
  | None => let '(s, e) := fixing_period valuation l in fixing_of_period data s e
  end.

(** ** The curves of a batch *)
(** core/curve_types.py and 952-961: a risk free curve, or the curve of an index *)
Inductive curve_type := RiskFreeCurve (currency : string) | RateIndexCurve (currency index : string) (source name : list string).
Definition signature (c : curve_type) : string :=
  match c with
  | RiskFreeCurve cur => cur
  | RateIndexCurve cur i src nm => cur ++ "_" ++ i ++ "_" ++ String.concat "_" src ++ "_" ++ String.concat "_" nm
  end%string.
(** numpy.unique: sorted without repetition *)
Fixpoint insert_unique (x : string) (l : list string) : list string :=
  match l with
  | [] => [x]
  | y :: r => match String.compare x y with Lt => x :: y :: r | Eq => y :: r | Gt => y :: insert_unique x r end
  end.
Definition np_unique (l : list string) : list string := fold_right insert_unique [] l.
(** position of an element, 994-996 *)
Fixpoint index_of (x : string) (l : list string) : nat :=
  match l with [] => 0 | y :: r => if String.eqb x y then 0 else S (index_of x r) end%nat.
(** the last entry of a dictionary built from a list with this key, 966-967 *)
Definition lookup (l : list curve_type) (key : string) : option curve_type := find (fun c => String.eqb (signature c) key) (rev l).
(** 924-972 [process_curve_types] *)
Definition process_curve_types (curves : list curve_type) (mask : option (list nat)) : option (list curve_type * list nat) :=
  match mask with
  | Some m => Some (curves, m)
  | None =>
      let hash := map signature curves in
      let unique := np_unique hash in
      option_map (fun cs => (cs, map (fun h => index_of h unique) hash)) (map_opt (lookup curves) unique)
  end.

(** ** market_data/rate_curve.py *)
Inductive interpolation := LINEAR | CUBIC | CONSTANT_FORWARD.
Record curve := Curve { node_dates : list date; node_discounts : list R; method_ : interpolation; by_rates : bool; curve_daycount : day_count }.
(** 277-282 *)
Definition time_of (c : curve) (valuation d : date) : R := get_daycount_fn (curve_daycount c) valuation d.
Definition node_times (c : curve) (valuation : date) : list R := map (time_of c valuation) (node_dates c).
(** 135-141 *)
Definition rate_nodes (c : curve) (valuation : date) : list R := map2 (fun df t => divide_no_nan (- ln df) t) (node_discounts c) (node_times c valuation).
(** 83-102; the spline of [build_spline] has natural boundary conditions by
    default *)
Definition interpolator (m : interpolation) (x : R) (xs ys : list R) : option R :=
  match m with
  | LINEAR => Some (linear_interpolate false xs ys None None x)
  | CUBIC => option_map (fun s => cubic_interpolate false s x) (spline_build xs ys NATURAL)
  | CONSTANT_FORWARD => match constant_fwd_interpolate xs ys x with ExtReal.Fin r => Some r | _ => None end
  end.
(** 180-202; [None]: an exception, infinity or NaN *)
Definition discount_factor (c : curve) (valuation d : date) : option R :=
  let t := time_of c valuation d in
  if by_rates c then option_map (fun r => exp (- r * t)) (interpolator (method_ c) t (node_times c valuation) (rate_nodes c valuation))
  else interpolator (method_ c) t (node_times c valuation) (node_discounts c).
(** 153-178 *)
Definition discount_rate (c : curve) (valuation d : date) : option R :=
  let t := time_of c valuation d in
  if by_rates c then interpolator (method_ c) t (node_times c valuation) (rate_nodes c valuation)
  else option_map (fun df => - divide_no_nan (ln df) t) (interpolator (method_ c) t (node_times c valuation) (node_discounts c)).
(** market_data_impl.py 160-196: the curves of the market, keyed by currency and
    "risk_free_curve" or the name of the index *)
Definition market := list (string * string * curve).
Definition curve_key (c : curve_type) : string * string :=
  match c with RiskFreeCurve cur => (cur, "risk_free_curve"%string) | RateIndexCurve cur i _ _ => (cur, i) end.
Definition yield_curve (m : market) (c : curve_type) : option curve :=
  let (cur, id) := curve_key c in
  option_map snd (find (fun '(x, y, _) => String.eqb x cur && String.eqb y id) m).
(** cashflow_streams.py 822-877 [get_discount_curve]: the curve of every contract.
    The padded dates are thrown away (866-867), so all curves need as many dates.
    The method is that of the last curve, the day count is the default one. *)
Definition get_discount_curve (m : market) (types : list curve_type) (mask : list nat) : option (list curve) :=
  bind (map_opt (yield_curve m) types) (fun cs =>
  match rev cs with
  | [] => None
  | lastc :: _ =>
      if forallb (fun c => Nat.eqb (length (node_dates c)) (length (node_dates lastc))) cs
      then map_opt (fun i => option_map (fun c => Curve (node_dates c) (node_discounts c) (method_ lastc) (by_rates lastc) DC_ACTUAL_365) (nth_error cs i)) mask
      else None
  end).

(** ** interest_rate_swap_impl.py *)
(** A leg of one contract: coupon dates with the terms *)
Inductive leg :=
| FixedLeg (c : day_count) (notional rate : R) (dates : list date)
| FloatLeg (c : day_count) (reset : period) (notional spread : R) (past : option R) (dates : list date).
Definition leg_price (valuation : date) (discount reference : date -> R) (data : option fixing_data) (x : leg) : option R :=
  match x with
  | FixedLeg c n r l => Some (fixed_stream_price c valuation discount n r l)
  | FloatLeg c p n s past l => bind (past_of past data valuation l) (fun f => float_stream_price c p valuation discount reference f n s l)
  end.
(** 331-335 *)
Definition swap_value (pay receive : leg) (valuation : date) (discount reference : date -> R) (data : option fixing_data) : option R :=
  bind (leg_price valuation discount reference data pay) (fun p =>
  option_map (fun r => r - p) (leg_price valuation discount reference data receive)).
(** what the market is asked for: one curve type, or a list of them *)
Inductive curve_argument := OneCurve (c : curve_type) | CurveList (l : list curve_type).
(** market_data_impl.py 164: a list has no attribute [currency] *)
Definition market_curve (find_curve : curve_type -> option (date -> R)) (a : curve_argument) : option (date -> R) :=
  match a with OneCurve c => find_curve c | CurveList _ => None end.
(** 214-225: for legs given by coupon specifications; [config] maps a currency to
    a discounting curve *)
Definition swap_discount_curves (config : string -> option curve_type) (currencies : list string) : curve_argument :=
  CurveList (map (fun c => match config c with Some x => x | None => RiskFreeCurve c end) currencies).
(** 490-507 *)
Definition swap_annuity (pay receive : leg) (a : curve_argument) (find_curve : curve_type -> option (date -> R)) : option R :=
  match pay, receive with
  | FixedLeg c _ _ l, FloatLeg _ _ _ _ _ _ | FloatLeg _ _ _ _ _ _, FixedLeg c _ _ l =>
      option_map (fun discount => reduce_sum (map2 Rmult (map discount (tl l)) (fractions_of c l))) (market_curve find_curve a)
  | _, _ => None
  end.
(** 341-350 *)
Definition swap_par_rate (pay receive : leg) (a : curve_argument) (find_curve : curve_type -> option (date -> R))
    (valuation : date) (discount reference : date -> R) (data : option fixing_data) : option R :=
  bind (swap_annuity pay receive a find_curve) (fun ann =>
  let floating := match pay with FloatLeg _ _ _ _ _ _ => pay | _ => receive end in
  let notional := match floating with FixedLeg _ n _ _ | FloatLeg _ _ n _ _ _ => n end in
  option_map (fun pv => pv / ann / notional) (leg_price valuation discount reference data floating)).

(** ** forward_rate_agreement_impl.py, one contract *)
(** 203-226: start and end of the accrual *)
Definition fra_dates (fixing : date) (settlement : Z) (rule : business_day_rule) (term : period) : option (date * date) :=
  let (conv, eom) := get_business_day_convention rule in
  bind (u_add_business_days weekend_calendar fixing settlement conv) (fun s =>
  bind (u_add_period_and_roll weekend_calendar s term conv) (fun e =>
  option_map (fun e => (s, e)) (if eom then to_end_of_month e else Some e))).
(** 227-230 and 349-376 *)
Definition fra_value (short_position : bool) (c : day_count) (discount reference : date -> R) (notional fixed_rate : R) (s e : date) : R :=
  let fr := get_daycount_fn c s e in
  let fwd := forward_rate (reference s) (reference e) fr in
  let df := if Rlt_dec 0 fr then discount s else 0 in
  (if short_position then 1 else - (1)) * df * notional * (fwd - fixed_rate) * fr / (1 + fr * fwd).
