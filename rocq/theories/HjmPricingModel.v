(** Model of the valuation by simulation in the quasi-Gaussian HJM model:
    tf_quant_finance/models/hjm/zero_coupon_bond_option.py with
    zero_coupon_bond_option_util.py, cap_floor.py, and swaption_pricing.py with
    swaption_util.py.  Definitions only.  Numbers are exact reals with infinities
    and NaN; [None] is an exception.  There is no batch of models.  Valuation by
    finite differences (swaption_pricing.py 399-541) is not modelled. *)
From Coq Require Import Reals List Bool Arith.
From Verif Require Import TensorModel TensorProofs BrentModel ExtReal HaganWestModel BootstrapModel GbmModel TimeGridModel EulerModel HjmQuasiModel HwSwaptionModel.
Import ListNotations.
Open Scope R_scope.

(** tf.reduce_mean over the samples *)
Definition sample_mean (value : nat -> xr) (num_samples : nat) : xr := xsum (map value (seq 0 num_samples)) /x Fin (INR num_samples).
Definition max_of (l : list R) : R := fold_right Rmax (hd 0 l) (tl l).

(** The arguments of one bond option.  Simplification: strikes, expiries, maturities
    and flags have the same shape. *)
Record bond_opt := BondOpt { bo_strike : R; bo_expiry : R; bo_maturity : R; bo_call : bool }.
(** zero_coupon_bond_option_util.py 106-112: the steps begin with 0.0.  117-119. *)
Definition util_discount (sim_times : list R) (r_t : nat -> R) : list xr :=
  cumprod_using_matvec (map (fun j => Fin (exp (- r_t j * time_step_at sim_times j))) (seq 0 (length sim_times))).

Section Sampler.
  Variable h : qg.
  Variable unwritten : option samples.
  Variable tolerance : R.
  Variable draws : nat -> samples.

  (** zero_coupon_bond_option_util.py 84-153 with zero_coupon_bond_option.py 148-195.
      With no options the maximum is -inf and tf.range fails. *)
  Definition hjm_bond_option_price (options : list bond_opt) (num_samples : nat) (time_step : option R) : option (list xr) :=
    match time_step, options with
    | Some step, _ :: _ =>
        let expiries := nodup Req_EM_T (map bo_expiry options) in
        match step_range step (max_of expiries) step with
        | None => None
        | Some steps =>
            let sim_times := sort (nodup Req_EM_T (expiries ++ steps)) in
            let tau := map (fun o => bo_maturity o - bo_expiry o) options in
            let curve_times := sort (nodup Req_EM_T tau) in
            match q_sample_discount_curve_paths h unwritten sim_times curve_times time_step None tolerance draws with
            | None => None
            | Some (p_t_tau, r_t, _) =>
                Some (map (fun o =>
                  let sim_time_index := searchsorted_left sim_times (bo_expiry o) in
                  let curve_time_index := searchsorted_left curve_times (bo_maturity o - bo_expiry o) in
                  sample_mean (fun s =>
                    let discount_factor := nth sim_time_index (util_discount sim_times (fun j => nth j r_t (fun _ => 0) s)) NaN in
                    let bond_price := p_t_tau s curve_time_index sim_time_index in
                    discount_factor *x Fin (if bo_call o then Rmax (bond_price - bo_strike o) 0 else Rmax (bo_strike o - bond_price) 0)) num_samples) options)
            end
        end
    | _, _ => None
    end.

  (** One caplet or floorlet; the notional and the flag are those of the cap. *)
  Record caplet := Caplet { ca_strike : R; ca_expiry : R; ca_maturity : R; ca_daycount : R }.
  (** cap_floor.py 190-229 *)
  Definition hjm_cap_floor_price (caplets : list caplet) (notional : R) (is_cap : bool) (num_samples : nat) (time_step : option R) : option xr :=
    let gross c := 1 + ca_daycount c * ca_strike c in
    match hjm_bond_option_price (map (fun c => BondOpt (1 / gross c) (ca_expiry c) (ca_maturity c) (negb is_cap)) caplets) num_samples time_step with
    | None => None
    | Some caplet_prices =>
        Some (xsum (map (fun '(c, price) => Fin (notional * gross c) *x (if rlt (ca_expiry c) 0 then Fin 0 else price)) (combine caplets caplet_prices)))
    end.

  (** swaption_pricing.py 256-337 and 342-396 with swaption_util.py 87-170, for one
      swaption with at least one payment ([..., -1, :] fails without); [coefs] are
      the products of the coupons and the day count fractions.  A notional of None is
      refused by tf.convert_to_tensor (269), an index out of range by tf.gather_nd. *)
  Definition hjm_swaption_price (expiry : R) (payments coefs : list R) (notional : option R) (is_payer : option bool) (num_samples : nat)
      (times : option (list R)) (time_step : option R) (num_time_steps : option nat) (curve_times : option (list R)) : option xr :=
    let is_payer := match is_payer with Some b => b | None => true end in
    let sim_times := match times with Some t => t | None => sort (map (fun _ => expiry) payments) end in
    let tau := map (fun t => t - expiry) payments in
    let curve_times := match curve_times with Some c => c | None => sort (nodup Req_EM_T tau) end in
    let sim_time_index := searchsorted_left sim_times expiry in
    match notional, payments with
    | Some notional, _ :: _ =>
        match times, time_step, num_time_steps with
        | None, None, None => None
        | _, _, _ =>
            match q_sample_discount_curve_paths h unwritten sim_times curve_times time_step num_time_steps tolerance draws with
            | None => None
            | Some (p_t_tau, _, discount_factors) =>
                if Nat.ltb sim_time_index (length sim_times) && forallb (fun t => Nat.ltb (searchsorted_left curve_times t) (length curve_times)) tau then
                  Some (Fin notional *x sample_mean (fun s =>
                    let bond_price i := p_t_tau s (searchsorted_left curve_times (at_ tau i)) sim_time_index in
                    let swap := nth sim_time_index discount_factors (fun _ => NaN) s *x Fin (payoff_swap coefs bond_price) in
                    xmax (if is_payer then swap else Fin (- (1)) *x swap) (Fin 0)) num_samples)
                else None
            end
        end
    | _, _ => None
    end.
End Sampler.
