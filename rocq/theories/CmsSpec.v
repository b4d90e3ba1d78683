(** Specification of CMS coupons (C91): every coupon pays the rate that makes the
    swap of the given tenor, starting with the coupon, worth nothing. *)
From Coq Require Import Reals ZArith List Bool.
From Coquelicot Require Import Coquelicot.
From Verif Require Import DateModel DateSpec ScheduleSpec InstrumentModel InstrumentSpec CapFloorSpec.
Import ListNotations.
Open Scope R_scope.

(** The coupons of a contract, with the tenor of its swap rate as [k_term], and the
    legs of that swap, whose dates depend on the coupon. *)
Record cms_contract := CmsContract { c_coupons : contract; c_fixed : contract; c_float : contract }.
Record conventions := Conventions { coupon_type : period_type; tenor_type : period_type; fixed_type : period_type; float_type : period_type; term_type : period_type;
  coupon_count : daycount; fixed_count : daycount; float_count : daycount }.
Definition from_to (k : contract) (s e : date) : contract := Contract s e (k_freq k) s e (k_notional k) (k_rate k) (k_basis k) (k_multiplier k) (k_term k).
Definition at_rate (k : contract) (r : R) : contract :=
  Contract (k_start k) (k_end k) (k_freq k) (k_first k) (k_penultimate k) (k_notional k) r (k_basis k) (k_multiplier k) (k_term k).
(** The end of the swap that starts on s. *)
Definition swap_end (y : conventions) (x : cms_contract) (s : date) : date := plus s (mk_period (k_term (c_coupons x)) (tenor_type y)).
(** r is the fixed rate for which both legs of the swap from s are worth the same. *)
Definition swap_rate (y : conventions) (valuation : date) (discount reference : date -> R) (x : cms_contract) (s : date) (r : R) : Prop :=
  let e := swap_end y x s in
  exists l l', contract_dates NoStub (fixed_type y) (from_to (c_fixed x) s e) l /\ contract_dates NoStub (float_type y) (from_to (c_float x) s e) l' /\
    fixed_value valuation discount (fixed_count y) (at_rate (from_to (c_fixed x) s e) r) l =
    floating_value NoStub valuation discount reference 0 (float_count y) (term_type y) (from_to (c_float x) s e) l'.
(** The value of fixed payments of one unit per year. *)
Definition swap_level (y : conventions) (discount : date -> R) (x : cms_contract) (s : date) (a : R) : Prop :=
  exists l, contract_dates NoStub (fixed_type y) (from_to (c_fixed x) s (swap_end y x s)) l /\
    a = over_periods (fun s e => discount e * daycount_fraction (fixed_count y) s e) l.
Definition cms_amount (valuation : date) (discount : date -> R) (y : conventions) (x : cms_contract) (rate : R) (s e : date) : R :=
  value_of valuation discount (k_notional (c_coupons x) * (k_multiplier (c_coupons x) * (rate + k_basis (c_coupons x))) * daycount_fraction (coupon_count y) s e) e.
(** One coupon: the fixing if the rate is known, else the swap rate. *)
Definition cms_coupon (y : conventions) (valuation : date) (discount reference : date -> R) (fixing : R) (x : cms_contract) (r : R) (s e : date) (v : R) : Prop :=
  ((ordinal valuation <= ordinal s)%Z -> swap_rate y valuation discount reference x s r) /\
  v = cms_amount valuation discount y x (if Z.ltb (ordinal s) (ordinal valuation) then fixing else r) s e.
(** All coupons. *)
Definition cms_value (y : conventions) (valuation : date) (discount reference : date -> R) (fixing : R) (x : cms_contract) (l : list date) (v : R) : Prop :=
  exists rates, (length l <= S (length rates))%nat /\ sum_over (cms_coupon y valuation discount reference fixing x) rates l v.

(** The weight of a swap rate s with n fixed periods of tau years, for a payment
    delta years after the start, and the correction of the mean of the rate for the
    variance of the rate. *)
Definition weight (tau delta n s : R) : R := s / (1 - Rpower (1 + tau * s) (- n)) / Rpower (1 + tau * s) (delta / tau).
Definition correction (tau delta n level df variance s c : R) : Prop := exists d, is_derive (weight tau delta n) s d /\ c = d * level * variance / df.

(** The variance of a lognormal or normal rate with mean r at time T. *)
Definition rate_variance (lognormal : bool) (vol T r : R) : R := if lognormal then r ^ 2 * (exp (vol ^ 2 * T) - 1) else vol ^ 2 * T.
(** Years in a number of months or years. *)
Definition in_years (t : period_type) (q : Z) : R := match t with MONTH => IZR q / 12 | YEAR => IZR q | _ => 0 end.
(** A coupon not yet fixed, with the correction. *)
Definition adjusted_coupon (y : conventions) (valuation : date) (discount reference : date -> R) (lognormal : bool) (vol : R) (x : cms_contract) (r : R) (s e : date) (v : R) : Prop :=
  let tau := in_years (fixed_type y) (k_freq (c_fixed x)) in
  swap_rate y valuation discount reference x s r /\ exists level c, swap_level y discount x s level /\
    correction tau (in_years (coupon_type y) (k_freq (c_coupons x))) (in_years (tenor_type y) (k_term (c_coupons x)) / tau) level (discount e)
      (rate_variance lognormal vol (years valuation s) r) r c /\
    v = cms_amount valuation discount y x (r + c) s e.
Definition adjusted_value (y : conventions) (valuation : date) (discount reference : date -> R) (lognormal : bool) (vol : R) (x : cms_contract) (l : list date) (v : R) : Prop :=
  exists rates, (length l <= S (length rates))%nat /\ sum_over (adjusted_coupon y valuation discount reference lognormal vol x) rates l v.

(** A batch that can be priced. *)
Definition ok_cms (y : conventions) (xs : list cms_contract) : Prop :=
  ok_batch NoStub (coupon_type y) (map c_coupons xs) /\
  forall x, In x xs -> (0 < k_term (c_coupons x))%Z /\ (0 < k_freq (c_fixed x))%Z /\ (0 < k_freq (c_float x))%Z /\ (0 < k_term (c_float x))%Z.
