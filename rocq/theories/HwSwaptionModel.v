(** Model of tf_quant_finance/models/hull_white/swaption.py (analytic valuation,
    valuation by simulation and Bermudan swaptions by regression) with
    models/hjm/swaption_util.py.  Definitions only.  The model [h] has dimension 1.
    Numbers are exact reals with infinities and NaN; [None] is an exception.  The
    valuation of Bermudan swaptions by finite differences is not modelled. *)
From Coq Require Import ZArith Reals List Bool Arith.
From Verif Require Import TensorModel TensorProofs BrentModel ExtReal HaganWestModel BootstrapModel BlackScholesModel GbmModel TimeGridModel HullWhiteModel HullWhiteOptionModel LsmModel.
Import ListNotations.
Open Scope R_scope.

(** The arguments for a batch of swaptions of shape [b]: rows of [m] payments.
    Simplification: the day count fractions and the coupons have the shape of the
    payment times; a scalar notional or flag is a list of length 1. *)
Record swaptions := Swaptions {
  expiries : list R; payment_times : list (list R); daycount_fractions : list (list R); fixed_coupons : list (list R);
  notionals : option (list R); is_payer_swaption : list bool }.
Definition entry (rows : list (list R)) (j i : nat) : R := pick 0 (nth j rows []) i.
Definition num_payments (a : swaptions) : nat := length (nth 0 (payment_times a) []).
(** swaption.py 956 *)
Definition coefficient (a : swaptions) (j i : nat) : R := entry (daycount_fractions a) j i * entry (fixed_coupons a) j i.
(** 958-960 *)
Definition jamshidian_coefficient (a : swaptions) (j i : nat) : R :=
  if Nat.eqb (S i) (num_payments a) then - (1) - coefficient a j i else - coefficient a j i.
(** 796-803 *)
Definition zero_fun (h : hw) (a : swaptions) (j : nat) (rate : R) : R :=
  rsum (fun i => jamshidian_coefficient a j i * discount_bond_price h 0 rate (nth j (expiries a) 0) (entry (payment_times a) j i)) (num_payments a) + 1.
(** 805-811 with the defaults of brentq (brent.py 649-660); [rtol] is the default
    relative tolerance of the dtype. *)
Definition break_even (rtol : R) (h : hw) (a : swaptions) : option (list bresult) :=
  brentq (map (zero_fun h a) (seq 0 (length (expiries a)))) (repeat (BInput (- (1)) 1 None None) (length (expiries a)))
    100 (2 / 10000000) rtol (2 / 10000000) reduce_all false.
(** 962-983 for the swaption [j] of the batch; the options of one swaption have the
    length [n], the common length of the payments and of the flags. *)
Definition swaption_value (h : hw) (a : swaptions) (n : nat) (rate : R) (j : nat) : xr :=
  let T := nth j (expiries a) 0 in
  let option_price i :=
    bond_option h (discount_bond_price h 0 rate T (entry (payment_times a) j i)) T (entry (payment_times a) j i) (negb (pick true (is_payer_swaption a) i)) in
  fold_right xadd (Fin 0) (map (fun i => option_price i *x Fin (coefficient a j i)) (seq 0 n)) +x option_price (n - 1)%nat.
(** 36-257 with use_analytic_pricing, and 937-984.  A notional of None is refused by
    tf.convert_to_tensor (232), an empty row by the index -1 (960). *)
Definition swaption_price (rtol : R) (h : hw) (a : swaptions) : option (list xr) :=
  match notionals a with
  | None => None
  | Some notional =>
      let b := length (expiries a) in
      if Nat.eqb (num_payments a) 0 then None
      else match break_even rtol h a with
           | None => None
           | Some results =>
               if sample_with_generic h then None
               else match common_length (num_payments a) (length (is_payer_swaption a)), common_length (length notional) b with
                    | Some n, Some nb =>
                        let values := map (fun j => swaption_value h a n (estimated_root (nth j results (BResult 0 0 0 false))) j) (seq 0 b) in
                        Some (map (fun j => Fin (pick 0 notional j) *x pick NaN values j) (seq 0 nb))
                    | _, _ => None
                    end
           end
  end.

(** ** Valuation by simulation, for one swaption *)
(** tf.range(start, limit, delta) *)
Definition step_range (start limit delta : R) : option (list R) :=
  if Req_EM_T delta 0 then None
  else if rlt 0 delta && rlt limit start then None
  else if rlt delta 0 && rlt start limit then None
  else Some (map (fun i => start + INR i * delta) (seq 0 (Z.to_nat (ceil (Rabs ((limit - start) / delta)))))).
(** swaption_util.py 126-136, the factor of sample [s] at simulation time [i]: the
    list of the time steps begins with 0.0.  Also swaption.py 634-643. *)
Definition time_step_at (sim_times : list R) (j : nat) : R := match j with O => 0 | S i => at_ sim_times j - at_ sim_times i end.
Definition path_discount_factor (sim_times : list R) (r_t : nat -> R) (i : nat) : R :=
  exp (- rsum (fun j => r_t j * time_step_at sim_times j) (S i)).
(** swaption.py 300-307: the swap that receives the floating leg *)
Definition payoff_swap (coefs : list R) (bond_price : nat -> R) : R :=
  let fixed_leg_pv := rsum (fun i => at_ coefs i * bond_price i) (length coefs) in
  let float_leg_pv := 1 - bond_price (length coefs - 1)%nat in
  float_leg_pv - fixed_leg_pv.
(** swaption.py 259-311 and swaption_util.py 87-170; [coefs] are the products of the
    day count fractions and the coupons. *)
Definition swaption_price_mc (cholesky : matrix -> option matrix) (generated : nat -> rates) (h : hw) (expiry : R) (payments coefs : list R)
    (notional : R) (is_payer : bool) (num_samples : nat) (time_step : R) : option R :=
  match step_range time_step expiry time_step with
  | None => None
  | Some steps =>
      let sim_times := sort ([expiry] ++ steps) in
      let tau := map (fun t => t - expiry) payments in
      let curve_times := sort (nodup Req_EM_T tau) in
      match sample_discount_curve_paths cholesky generated h sim_times curve_times None None false with
      | None => None
      | Some (p_t_tau, r_t) =>
          let sim_time_index := searchsorted_left sim_times expiry in
          let payoff s :=
            let bond_price i := p_t_tau s (searchsorted_left curve_times (at_ tau i)) sim_time_index 0%nat in
            let swap := path_discount_factor sim_times (fun j => nth j r_t (fun _ _ => 0) s 0%nat) sim_time_index * payoff_swap coefs bond_price in
            Rmax (if is_payer then swap else - (1) * swap) 0 in
          if Nat.eqb num_samples 0 then None
          else Some (notional * (rsum payoff num_samples / INR num_samples))
      end
  end.
(** ** Bermudan swaptions, for one swaption (swaption.py 547-723).  Simplifications:
    the exercise times are distinct, so that tf.unique leaves them as they are, and
    [design] gives the basis functions at a short rate.  The argument [is_payer] is
    replaced by True in line 562. *)
Definition bermudan_swaption_price (cholesky : matrix -> option matrix) (generated : nat -> rates) (pinv : (nat -> nat -> R) -> nat -> nat -> R)
    (basis_size : nat) (design : nat -> R -> R) (h : hw) (exercise_times : list R) (payments coefs : list (list R))
    (notional : R) (is_payer : bool) (num_samples : nat) (time_step : R) : option R :=
  let is_payer := true in
  match step_range time_step (last exercise_times 0) time_step with
  | None => None
  | Some steps =>
      let sim_times := sort (nodup Req_EM_T (exercise_times ++ steps)) in
      let tau e i := entry payments e i - at_ exercise_times e in
      let curve_times := sort (nodup Req_EM_T (flat_map (fun e => map (tau e) (seq 0 (length (nth e payments [])))) (seq 0 (length exercise_times)))) in
      match sample_discount_curve_paths cholesky generated h sim_times curve_times None None false with
      | None => None
      | Some (p_t_tau, r_t) =>
          let sim_time_index e := searchsorted_left sim_times (at_ exercise_times e) in
          let short_rate e s := nth (sim_time_index e) r_t (fun _ _ => 0) s 0%nat in
          let payoff e s :=
            let swap := payoff_swap (nth e coefs []) (fun i => p_t_tau s (searchsorted_left curve_times (tau e i)) (sim_time_index e) 0%nat) in
            Rmax (if is_payer then swap else - (1) * swap) 0 in
          let discount_factor e s := path_discount_factor sim_times (fun j => nth j r_t (fun _ _ => 0) s 0%nat) (sim_time_index e) in
          option_map (Rmult notional)
            (least_square_mc num_samples (length exercise_times) (seq 0 (length exercise_times)) payoff basis_size (fun e b s => design b (short_rate e s)) pinv (Some discount_factor) None)
      end
  end.
