(** Model of tf_quant_finance/black_scholes/asian_prices.py for one element of
    the batch.  Definitions only.  Numbers are exact reals with infinities and
    NaN; [None] is an exception (ValueError, NotImplementedError, IndexError). *)
From Coq Require Import Reals List Bool Arith.
From Verif Require Import InterpModel BrentModel ExtReal HaganWestModel BootstrapModel BlackScholesModel ImpliedVolModel.
Import ListNotations.
Open Scope R_scope.

(** asian_prices.py 26-45 *)
Inductive averaging_type := GEOMETRIC | ARITHMETIC.
Inductive averaging_frequency := DISCRETE | CONTINUOUS.

(** asian_prices.py 182-202: the checks in order, true when all pass.
    [sampling_times[-1]] of an empty tensor is an error. *)
Definition asian_args_ok (a : option_args) (sampling_times : option (list R)) (ty : averaging_type) (fr : averaging_frequency) : bool :=
  if eqb (is_none (spot a)) (is_none (forward a)) then false else
  if negb (is_none (discount_rate a)) && negb (is_none (discount_factor a)) then false else
  if is_normal_volatility a && (match ty with GEOMETRIC => true | ARITHMETIC => false end) then false else
  if negb (is_normal_volatility a) && (match ty with ARITHMETIC => true | GEOMETRIC => false end) then false else
  if (match fr with
      | DISCRETE => match sampling_times with
                    | None | Some [] => true
                    | Some (t :: l) => negb (req (Rmax (last (t :: l) 0) (expiry a)) (expiry a))
                    end
      | CONTINUOUS => false
      end) then false else
  match fr with CONTINUOUS => false | DISCRETE => match ty with ARITHMETIC => false | GEOMETRIC => true end end.

(** asian_prices.py 229-234, the spots *)
Definition asian_spot (a : option_args) : xr :=
  match forward a, spot a with
  | Some f, _ => Fin f *x xexp (xopp (fst (discounting_args a) -x dividend_args a) *x Fin (expiry a))
  | None, Some s => Fin s
  | None, None => NaN
  end.
(** tf.reduce_prod *)
Definition xprod (l : list xr) : xr := fold_right xmul (Fin 1) l.
(** asian_prices.py 236-241 *)
Definition running_accumulator (past_fixings : option (list R)) : xr := match past_fixings with None => Fin 1 | Some p => xprod (map Fin p) end.
Definition fixing_count (past_fixings : option (list R)) : nat := match past_fixings with None => 0 | Some p => length p end.
(** asian_prices.py 243 *)
Definition sample_count (sampling_times : list R) (past_fixings : option (list R)) : R := INR (length sampling_times + fixing_count past_fixings).
(** asian_prices.py 244-245 *)
Definition sampling_time_forwards (a : option_args) (sampling_times : list R) : list xr :=
  map (fun t => asian_spot a *x xexp ((fst (discounting_args a) -x dividend_args a) *x Fin t)) sampling_times.
Definition total (l : list R) : R := fold_right Rplus 0 l.
(** asian_prices.py 261 *)
Definition t1 (sampling_times : list R) (n : R) : R := total sampling_times / n.
(** asian_prices.py 262-266 *)
Definition t2 (sampling_times : list R) (n : R) : R := total (map (fun x => total (map (Rmin x) sampling_times)) sampling_times) / n ^ 2.
(** asian_prices.py 268-272 *)
Definition asian_forward (a : option_args) (sampling_times : list R) (past_fixings : option (list R)) : xr :=
  let n := sample_count sampling_times past_fixings in
  xpow (running_accumulator past_fixings *x xprod (sampling_time_forwards a sampling_times)) (1 / n)
    *x xexp (Fin (- (1 / 2)) *x Fin (volatility a) *x Fin (volatility a) *x (Fin (t1 sampling_times n) -x Fin (t2 sampling_times n))).
(** asian_prices.py 274 *)
Definition effective_volatility (a : option_args) (sampling_times : list R) (past_fixings : option (list R)) : xr :=
  Fin (volatility a) *x xsqrt (Fin (t2 sampling_times (sample_count sampling_times past_fixings)) /x Fin (expiry a)).
(** asian_prices.py 48-286.  The effective dividend rate (275-276) is not used
    by option_price when forwards are given.  An effective volatility that is
    not a number (zero expiry) makes option_price choose the intrinsic value,
    as zero volatility does.  Simplification: an infinite or NaN forward is not
    followed further. *)
Definition asian_option_price (a : option_args) (sampling_times past_fixings : option (list R)) (ty : averaging_type) (fr : averaging_frequency) : option xr :=
  if negb (asian_args_ok a sampling_times ty fr) then None else
  match sampling_times, snd (discounting_args a) with
  | Some times, Fin d =>
      match asian_forward a times past_fixings with
      | Fin f =>
          let v := match effective_volatility a times past_fixings with Fin v => v | _ => 0 end in
          option_price (OptionArgs v (strike a) (expiry a) None (Some f) None None (Some d) (is_call_option a) false)
      | _ => Some NaN
      end
  | _, _ => None (* not reached *)
  end.
