(** Model of tf_quant_finance/experimental/instruments/cms_swap.py.  Definitions
    only.  A batch is a list with one entry per contract, a vector of all coupons
    lists the coupons of one contract after the other.  [None] is an exception.
    The par rates are divisions in R; the theorems exclude a zero annuity.  The
    replication with smile (196-198 and 218-279) is not modelled. *)
From Coq Require Import Reals ZArith List Bool.
From Verif Require Import InterpModel BrentModel ExtReal HaganWestModel BootstrapModel BlackScholesModel DateModel BoundedCalModel ScheduleModel InstrumentModel CapFloorModel.
Import ListNotations.
Open Scope R_scope.

(** 342-349 *)
Definition term_to_years (t : period_type) (q : Z) : R := match t with MONTH => 1 / 12 | YEAR => 1 | _ => 0 end * IZR q.

(** rates_common.py 136-161, one entry per contract; the types of periods and the
    day counts are those of the last contract (284-301 and 351-352). *)
Record cms_specs := CmsSpecs {
  m_freq : list Z; m_type : period_type; m_tenor : list Z; m_tenor_type : period_type;
  m_notional : list R; m_basis : list R; m_multiplier : list R; m_count : daycount;
  m_fixed_freq : list Z; m_fixed_type : period_type; m_fixed_notional : list R; m_fixed_rate : list R; m_fixed_count : daycount;
  m_float_freq : list Z; m_float_type : period_type; m_float_term : list Z; m_float_term_type : period_type;
  m_float_notional : list R; m_float_basis : list R; m_float_multiplier : list R; m_float_count : daycount }.
Record cms_stream := CmsStream {
  cm_batch : nat; cm_num : nat; cm_start : list date; cm_end : list date; cm_fractions : list R;
  cm_notional : list R; cm_basis : list R; cm_multiplier : list R; cm_contract : list nat;
  cm_fixed : fixed_stream; cm_float : float_stream; cm_delta : list R; cm_tau : list R; cm_periods : list R }.
(** 281-355 *)
Definition cms_setup (starts ends : list date) (m : cms_specs) : option cms_stream :=
  bind (generate_schedule starts ends (m_freq m) (m_type m) None None) (fun '(cpn_dates, _) =>
  let coupon_start := map (@removelast date) cpn_dates in
  let coupon_end := map (@tl date) cpn_dates in
  bind (map_opt (fun '(l, q) => map_opt (fun d => date_add d (mk_period q (m_tenor_type m))) l) (combine coupon_start (m_tenor m))) (fun cms_end =>
  let fractions := map2 (map2 (daycount_fraction (m_count m))) coupon_start coupon_end in
  let n := width coupon_end in
  bind (fixed_setup (concat coupon_start) (concat cms_end) (tf_repeat (m_fixed_freq m) n) (m_fixed_type m)
          (tf_repeat (m_fixed_notional m) n) (tf_repeat (m_fixed_rate m) n) (m_fixed_count m) None None) (fun fixed =>
  bind (float_setup (concat coupon_start) (concat cms_end) (tf_repeat (m_float_freq m) n) (m_float_type m)
          (tf_repeat (m_float_term m) n) (m_float_term_type m) (tf_repeat (m_float_notional m) n) (tf_repeat (m_float_basis m) n)
          (tf_repeat (m_float_multiplier m) n) (m_float_count m) None None) (fun float =>
  let tau := map (term_to_years (m_fixed_type m)) (m_fixed_freq m) in
  Some (CmsStream (length starts) n (concat coupon_start) (concat coupon_end) (concat fractions)
          (tf_repeat (m_notional m) n) (tf_repeat (m_basis m) n) (tf_repeat (m_multiplier m) n) (tf_repeat (seq 0 (length starts)) n)
          fixed float (map (term_to_years (m_type m)) (m_freq m)) tau
          (map2 Rdiv (map (term_to_years (m_tenor_type m)) (m_tenor m)) tau)))))).

(** 357-361, at rates other than zero *)
Definition fs (tau delta periods s : R) : R :=
  / ((1 / s) * (1 - 1 / Rpower (1 + tau * s) periods) * Rpower (1 + tau * s) (delta / tau)).
(** 205-208: the derivative of [fs] as the tape computes it.  At a rate of zero the
    branch of tf.where that is not taken divides by zero, which makes the gradient
    NaN.  A frequency in days or weeks ([tau] zero) and a base 1 + tau s that is not
    positive are taken as NaN too. *)
Definition fs_gradient (tau delta periods s : R) : xr :=
  if req tau 0 then NaN else if req s 0 then NaN else if rlt 0 (1 + tau * s) then
    let u := 1 + tau * s in
    let g := (1 / s) * (1 - 1 / Rpower u periods) in
    let dg := - (1 / s ^ 2) * (1 - 1 / Rpower u periods) + (1 / s) * (periods * tau * Rpower u (- periods - 1)) in
    let h := g * Rpower u (delta / tau) in
    let dh := dg * Rpower u (delta / tau) + g * (delta / tau * tau * Rpower u (delta / tau - 1)) in
    Fin (- dh) /x Fin (h * h)
  else NaN.
Inductive rate_model := LOGNORMAL_RATE | NORMAL_RATE.
(** 210-215 *)
Definition convexity (m : rate_model) (tau delta periods vol level expiry df rate : R) : xr :=
  let dfx := fs_gradient tau delta periods rate in
  Fin rate +x
  match m with
  | LOGNORMAL_RATE => dfx *x Fin level *x Fin (rate ^ 2) *x Fin (exp (vol ^ 2 * expiry) - 1) /x Fin df
  | NORMAL_RATE => dfx *x Fin level *x Fin (vol ^ 2 * expiry) /x Fin df
  end.
(** 189-216.  The parameters [tau], [delta] and [periods] have one entry per
    contract, the rates one per coupon; they must broadcast. *)
Definition adjust_convexity (f : cms_stream) (valuation : date) (discount : date -> R) (model : option (rate_model * list R)) (rates : list R) : option (list xr) :=
  match model with
  | None => Some (map Fin rates)
  | Some (m, vols) =>
      let n := length rates in
      bind (annuity (cm_fixed f) discount true) (fun level =>
      bind (broadcast_to n (cm_tau f)) (fun tau =>
      bind (broadcast_to n (cm_delta f)) (fun delta =>
      bind (broadcast_to n (cm_periods f)) (fun periods =>
      bind (broadcast_to n vols) (fun vols =>
      Some (map2 (fun '(t, d, p) '(v, l, s, e, r) => convexity m t d p v l (curve_time valuation s) (discount e) r)
              (combine (combine tau delta) periods)
              (combine (combine (combine (combine vols level) (cm_start f)) (cm_end f)) rates)))))))
  end.
(** 132-187; the fixing of the swap rate as in cashflow_stream.py *)
Definition cms_price (f : cms_stream) (valuation : date) (discount reference : date -> R) (libor swap_rate : option R)
    (model : option (rate_model * list R)) : option (list xr) :=
  bind (broadcast (length (cm_start f)) (libor_rates swap_rate (cm_batch f) (cm_num f))) (fun past_fixing =>
  bind (par_rate (Fixed (cm_fixed f)) (Floating (cm_float f)) valuation discount reference libor) (fun cms_rates =>
  let cms_rates := map2 (fun fr r => if Rlt_dec 0 fr then r else 0) (cm_fractions f) cms_rates in
  let cms_rates := map2 (fun '(s, e) '(p, r) => if date_ltb e valuation then 0 else if date_ltb s valuation then p else r)
                     (combine (cm_start f) (cm_end f)) (combine past_fixing cms_rates) in
  bind (adjust_convexity f valuation discount model cms_rates) (fun cms_rates =>
  let coupon_rate := xzip xmul (map Fin (cm_multiplier f)) (xzip xadd cms_rates (map Fin (cm_basis f))) in
  let pvs := xzip xmul (map Fin (cm_notional f)) (xzip xmul (xzip xmul (map Fin (cm_fractions f)) coupon_rate) (map Fin (map discount (cm_end f)))) in
  Some (xsegment_sum pvs (cm_contract f))))).

(** 535-583: the legs of a CMS swap and its price *)
Inductive cms_leg := CmsLeg (_ : cms_stream) | PlainLeg (_ : leg).
Definition cms_leg_price (l : cms_leg) (valuation : date) (discount reference : date -> R) (libor swap_rate : option R)
    (model : option (rate_model * list R)) : option (list xr) :=
  match l with
  | CmsLeg f => cms_price f valuation discount reference libor swap_rate model
  | PlainLeg p => option_map (map Fin) (leg_price p valuation discount reference libor)
  end.
Definition cms_swap_price (pay receive : cms_leg) (valuation : date) (discount reference : date -> R) (libor swap_rate : option R)
    (model : option (rate_model * list R)) : option (list xr) :=
  bind (cms_leg_price pay valuation discount reference libor swap_rate model) (fun p =>
  bind (cms_leg_price receive valuation discount reference libor swap_rate model) (fun r => Some (xzip xsub r p))).
