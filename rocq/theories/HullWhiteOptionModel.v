(** Model of tf_quant_finance/models/hull_white/zero_coupon_bond_option.py
    (analytic valuation) and cap_floor.py.  Definitions only.  The model [h] has
    dimension 1.  Tensors have rank 1 and broadcast by their lengths.  Numbers are
    exact reals with infinities and NaN; [None] is an exception.  Valuation by
    simulation is not modelled. *)
From Coq Require Import Reals List Bool Arith.
From Verif Require Import TensorModel BrentModel ExtReal HaganWestModel BootstrapModel BlackScholesModel GbmModel HullWhiteModel.
Import ListNotations.
Open Scope R_scope.

(** Broadcasting of rank-1 shapes, and an element of a broadcast tensor. *)
Definition common_length (a b : nat) : option nat := if Nat.eqb a b then Some a else if Nat.eqb a 1 then Some b else if Nat.eqb b 1 then Some a else None.
Definition pick {A : Type} (d : A) (l : list A) (i : nat) : A := nth (if Nat.eqb (length l) 1 then 0%nat else i) l d.

(** zero_coupon_bond_option.py 254-306, one element *)
Definition bond_option_variance (h : hw) (option_expiry bond_maturity : R) : R :=
  let mean_reversion := param_at (hw_mr h 0) option_expiry in
  variance_at h 0 option_expiry * (exp (- mean_reversion * option_expiry) - exp (- mean_reversion * bond_maturity)) ^ 2 / mean_reversion ^ 2.
(** 212-251, one element *)
Definition bond_option (h : hw) (strike expiry maturity : R) (is_call_option : bool) : xr :=
  let discount_factor_expiry := Fin (exp (- hw_rate h 0 expiry * expiry)) in
  let variance := Fin (bond_option_variance h expiry maturity) in
  let discount_factor_maturity := Fin (exp (- hw_rate h 0 maturity * maturity)) in
  let forward_bond_price := discount_factor_maturity /x discount_factor_expiry in
  let sqrt_variance := xsqrt variance in
  let log_moneyness := xln (forward_bond_price /x Fin strike) in
  let d1 := xdivide_no_nan (log_moneyness +x Fin (1 / 2) *x variance) sqrt_variance in
  let d2 := d1 -x xsqrt variance in
  let option_value_call := discount_factor_maturity *x xncdf d1 -x Fin strike *x discount_factor_expiry *x xncdf d2 in
  let option_value_put := Fin strike *x discount_factor_expiry *x xncdf (xopp d2) -x discount_factor_maturity *x xncdf (xopp d1) in
  let intrinsic_value := if is_call_option then xmax (forward_bond_price -x Fin strike) (Fin 0) else xmax (Fin strike -x forward_bond_price) (Fin 0) in
  if rlt maturity expiry then Fin 0
  else if xlt (Fin 0) sqrt_variance then (if is_call_option then option_value_call else option_value_put) else intrinsic_value.
(** 41-188 with use_analytic_pricing.  The variance is computed from the expiries
    and the maturities, and reshaped to the common shape with the strikes
    (219-223). *)
Definition bond_option_price (h : hw) (strikes expiries maturities : list R) (is_call_options : list bool) : option (list xr) :=
  match common_length (length strikes) (length expiries), common_length (length expiries) (length maturities) with
  | Some se, Some em =>
      match common_length se (length maturities) with
      | None => None
      | Some input_shape =>
          if sample_with_generic h then None
          else if negb (Nat.eqb em input_shape) then None
          else match common_length (length is_call_options) input_shape with
               | None => None
               | Some n => Some (map (fun i => bond_option h (pick 0 strikes i) (pick 0 expiries i) (pick 0 maturities i) (pick true is_call_options i)) (seq 0 n))
               end
      end
  | _, _ => None
  end.
(** cap_floor.py 195-234 for one cap or floor.  Simplification: the caplets with
    expiry below 0 are set to 0 element by element of the bond option prices. *)
Definition cap_floor_price (h : hw) (strikes expiries maturities daycount_fractions : list R) (notional : R) (is_cap : bool) : option xr :=
  match common_length (length daycount_fractions) (length strikes) with
  | None => None
  | Some n =>
      let gross i := Fin 1 +x Fin (pick 0 daycount_fractions i) *x Fin (pick 0 strikes i) in
      let bond_option_strikes := map (fun i => 1 / (1 + pick 0 daycount_fractions i * pick 0 strikes i)) (seq 0 n) in
      match bond_option_price h bond_option_strikes expiries maturities [negb is_cap] with
      | None => None
      | Some caplet_prices =>
          let caplets := map (fun i => if rlt (pick 0 expiries i) 0 then Fin 0 else nth i caplet_prices NaN) (seq 0 (length caplet_prices)) in
          Some (fold_right xadd (Fin 0) (map (fun i => Fin notional *x gross i *x nth i caplets NaN) (seq 0 (length caplets))))
      end
  end.
