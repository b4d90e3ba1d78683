(** Model of the American equity options of
    tf_quant_finance/experimental/pricing_platform/framework/equity_instruments:
    american_option/{proto_utils,utils,american_option_impl}.py, utils.py, and of
    [MarketDataDict.spot] and [MarketDataDict.volatility_surface] in
    market_data/market_data_impl.py.  Definitions only; messages, keys and batches
    as in [BatchModel].  Numbers are exact reals. *)
From Coq Require Import String Reals ZArith List Bool.
From Verif Require Import TensorModel TensorProofs DateModel BoundedCalModel ScheduleModel RatesModel InstrumentModel PlatformModel BrentModel ExtReal BootstrapModel LsmModel BatchModel.
Import ListNotations.
Open Scope R_scope.

(** american_equity_option.proto; [e_holder] is the field short_position *)
Record option_message := OptionMessage { e_holder : bool; e_expiry : Z * Z * Z; e_currency : string; e_equity : string; e_amount : decimal; e_strike : decimal;
  e_rule : Z; e_holidays : Z; e_settlement : Z; e_name : string * string; e_call : bool }.
(** proto_utils.py 30-38 *)
Definition option_key (m : option_message) : key := [KInt (e_holidays m); KInt (e_rule m)].
(** proto_utils.py 83-94 *)
Record option_batch := OptionBatch { eb_holder : list bool; eb_currency : list string; eb_expiry : list (Z * Z * Z); eb_equity : list string; eb_amount : list R;
  eb_rule : Z; eb_calendar : Z; eb_strike : list R; eb_call : list bool; eb_settlement : list Z; eb_names : list (string * string) }.
(** proto_utils.py 57-105 *)
Definition options_from_protos (hasher : key -> string) (l : list option_message) : option (list (string * option_batch)) :=
  batch_loop (fun m => hasher (option_key m))
    (fun m => OptionBatch [e_holder m] [e_currency m] [e_expiry m] [e_equity m] [decimal_to_double (e_amount m)] (e_rule m) (e_holidays m)
       [decimal_to_double (e_strike m)] [e_call m] [e_settlement m] [e_name m])
    (fun b m => Some (OptionBatch (eb_holder b ++ [e_holder m]) (eb_currency b ++ [e_currency m]) (eb_expiry b ++ [e_expiry m]) (eb_equity b ++ [e_equity m])
       (eb_amount b ++ [decimal_to_double (e_amount m)]) (eb_rule b) (eb_calendar b) (eb_strike b ++ [decimal_to_double (e_strike m)])
       (eb_call b ++ [e_call m]) (eb_settlement b ++ [e_settlement m]) (eb_names b ++ [e_name m]))) l [].

(** equity_instruments/utils.py 27-58 without a mask *)
Definition process_equities (equities : list string) : list string * list nat :=
  let unique := np_unique equities in (unique, map (fun s => index_of s unique) equities).
(** The market: spot price and volatility (by expiry and strike) of an equity quoted
    in a currency, None where there is no entry; discount factors; the year
    fraction to a date.  Simplification: volatility surfaces are functions, their
    padding to a common shape is not modelled. *)
Record market := Market { m_spot : string -> string -> option R; m_vol : string -> string -> option (Z * Z * Z -> R -> R);
  m_discount : curve_type -> Z * Z * Z -> option R; m_years : Z * Z * Z -> R }.
(** market_data_impl.py 257-269 and 271-311: entries for zip(currency, asset) *)
Definition quotes {A} (entry : string -> string -> option A) (currencies equities : list string) : option (list A) :=
  map_opt (fun '(c, s) => entry c s) (combine currencies equities).
Definition curve_currency (c : curve_type) : string := match c with RiskFreeCurve cur => cur | RateIndexCurve cur _ _ _ => cur end.

Section Pricing.
  (** [gbm e s]: sample [s] at the time [e] of the process made on lines 101-112;
      the pseudo-inverse of least_square_mc is external, as in [LsmModel] *)
  Variables (gbm : nat -> nat -> R) (pinv : (nat -> nat -> R) -> nat -> nat -> R) (num_samples num_exercise_times : nat) (num_calibration_samples : option nat).
  (** american_option/utils.py 104 *)
  Definition times (e : nat) : R := INR e / INR (num_exercise_times - 1).
  (** 94 *)
  Definition risk_free_rate (discount_factor expiry : R) : xr := xdiv (xopp (xln (Fin discount_factor))) (Fin expiry).
  (** 96 and 113-134 *)
  Definition rescaled (r expiry volatility : R) (e s : nat) : R :=
    let scaled_expiry := volatility * sqrt expiry in
    let x := exp (1 / 2 * times e) * gbm e s in
    let x := Rpower x scaled_expiry in
    let x := x * exp (- times e * expiry * volatility ^ 2 / 2) in
    1 * exp (r * times e * expiry) * x.
  (** 139-147; [strike] is divided by the spot price *)
  Definition option_payoff_fn (samples : nat -> nat -> R) (strike : R) (call : bool) (e s : nat) : R :=
    let payoff := strike - samples e s in
    if call then Rmax (- payoff) 0 else Rmax payoff 0.
  (** longstaff_schwartz/lsm.py 84-125 for one dimension and degree 2: powers of the
      centered sample *)
  Definition polynomial_basis (samples : nat -> nat -> R) (e b s : nat) : R :=
    (samples e s - rsum (samples e) num_samples / INR num_samples) ^ b.
  (** 26-169 for one option; None is NaN: the rate and with it all discount factors
      are not finite numbers, or the square root of the time to expiry is not a
      number *)
  Definition bs_lsm_price (spot expiry strike volatility discount_factor : R) (call : bool) : option R :=
    match risk_free_rate discount_factor expiry with
    | Fin r =>
        if rlt expiry 0 then None else
        let samples := rescaled r expiry volatility in
        let log_samples := fun e s => ln (samples e s) in
        option_map (fun v => v * spot)
          (least_square_mc num_samples num_exercise_times (seq 0 num_exercise_times) (option_payoff_fn samples (strike / spot) call) 3
             (polynomial_basis log_samples) pinv (Some (fun e _ => exp (- r * times e * expiry))) num_calibration_samples)
    | _ => None
    end.
  (** american_option_impl.py 192-212 and 285-318.  The outer None is an exception,
      the inner one NaN; tf.gather refuses an index past the end. *)
  Definition option_prices (config : string -> option curve_type) (mkt : market) (b : option_batch) : option (list (option R)) :=
    bind (process_curve_types (map (discount_type config) (eb_currency b)) None) (fun '(curves, curve_mask) =>
    let '(equities, equity_mask) := process_equities (eb_equity b) in
    let currencies := map curve_currency curves in
    bind (quotes (m_vol mkt) currencies equities) (fun vols =>
    bind (quotes (m_spot mkt) currencies equities) (fun spots =>
    map_opt (fun i =>
      bind (nth_error equity_mask i) (fun k => bind (nth_error spots k) (fun spot => bind (nth_error vols k) (fun vol =>
      bind (nth_error curve_mask i) (fun j => bind (nth_error curves j) (fun curve =>
      bind (nth_error (eb_expiry b) i) (fun expiry => bind (nth_error (eb_strike b) i) (fun strike =>
      bind (nth_error (eb_call b) i) (fun call => bind (nth_error (eb_holder b) i) (fun holder => bind (nth_error (eb_amount b) i) (fun amount =>
      option_map (fun df =>
        option_map (fun price => (if holder then 1 else -1) * amount * price)
          (bs_lsm_price spot (m_years mkt expiry) strike (vol expiry strike) df call)) (m_discount mkt curve expiry))))))))))))
      (seq 0 (length (eb_strike b)))))).
End Pricing.
