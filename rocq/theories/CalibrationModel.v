(** Model of the calibration procedures: models/sabr/approximations/calibration.py,
    models/heston/approximations/calibration.py, models/hull_white/calibration.py,
    models/hjm/calibration.py and experimental/svi/calibration.py.  Definitions only.
    The optimizer is an argument: any function of the objective and the starting
    position, which may fail.  It also receives the gradient of the objective in the
    code, which is determined by the objective.  Conversions of dtypes are not
    modelled. *)
From Coq Require Import Reals ZArith List Bool.
From Verif Require Import InterpModel BrentModel ExtReal HaganWestModel BootstrapModel BlackScholesModel ImpliedVolModel SabrModel BoundedCalModel.
From Verif Require HestonFourierModel.
Import ListNotations.
Open Scope R_scope.

(** sabr 557-559, heston 552-554, hull_white 806-808, hjm 500-501 *)
Definition scale (x lb ub : xr) : xr := (x -x lb) /x (ub -x lb).
(** sabr 562-565, heston 557-560, hull_white 811-814, hjm 503-505 *)
Definition to_unconstrained (x lb ub : xr) : xr :=
  let x := scale x lb ub in xopp (xln ((Fin 1 -x x) /x x)).
(** sabr 568-571, heston 563-566, hull_white 817-820 *)
Definition to_constrained (x lb ub : xr) : xr :=
  let x := Fin 1 /x (Fin 1 +x xexp (xopp x)) in x *x (ub -x lb) +x lb.
(** hjm 507-509 *)
Definition hjm_to_constrained (x lb ub : xr) : xr :=
  let x := xexp x /x (Fin 1 +x xexp x) in x *x (ub -x lb) +x lb.

(** A parameter with its starting value and its bounds. *)
Record bounded := Bounded { start : xr; low : xr; high : xr }.
Definition encode (b : bounded) : xr := to_unconstrained (start b) (low b) (high b).
Definition decode (b : bounded) (x : xr) : xr := to_constrained x (low b) (high b).
(** sabr 574-584, heston 569-579 *)
Definition assert_parameter_valid (validate_args : bool) (b : bounded) : option bounded :=
  if validate_args then if xle (low b) (start b) && xle (start b) (high b) then Some b else None else Some b.

(** What an optimizer returns. *)
Record optimum (X S : Type) := Optimum { position : X; status : S }.
Arguments Optimum {X S}. Arguments position {X S}. Arguments status {X S}.
Definition optimizer (X V S : Type) := (X -> option V) -> X -> option (optimum X S).
(** The objective, the call of the optimizer and the reading of its result. *)
Definition optimize {X V P S} (read : X -> option P) (value : P -> V) (start : X) (opt : optimizer X V S) : option (P * S) :=
  bind (opt (fun x => option_map value (read x)) start) (fun r => option_map (fun p => (p, status r)) (read (position r))).

(** Reading a batch: one row of the packed arguments for each model. *)
Definition read_rows {B P} (read : B -> list xr -> option P) (rows : list B) (xs : list (list xr)) : option (list P) :=
  if Nat.eqb (length rows) (length xs) then map_opt (fun '(b, x) => read b x) (combine rows xs) else None.
Definition value_rows {B P} (value : B -> P -> xr) (rows : list B) (ps : list P) : list xr :=
  map (fun '(b, p) => value b p) (combine rows ps).

(** tf.math.reduce_mean, tf.math.log1p *)
Definition xmean (l : list xr) : xr := xsum l /x Fin (INR (length l)).
Definition xlog1p (x : xr) : xr := xln (Fin 1 +x x).
Definition squares (a b : list xr) : list xr := xzip (fun x y => xsquare (x -x y)) a b.

(** packed_optimizer_args[..., i] and [..., -1] *)
Definition slot (x : list xr) (i : nat) : option xr := nth_error x i.
Definition last_slot (x : list xr) : option xr := match x with [] => None | _ => Some (last x NaN) end.

(** * SABR *)
Record vanilla := Vanilla { v_price : R; v_strike : R; v_expiry : R; v_forward : R; v_call : bool }.
(** The quotes of one model and the arguments for it; the arguments are broadcast
    to the quotes beforehand.  alpha and its bounds are optional (186-204). *)
Record sabr_row := SabrRow {
  quotes : list vanilla;
  given_alpha : option R; alpha_lower : option R; alpha_upper : option R;
  given_beta : R; beta_lower : R; beta_upper : R;
  given_volvol : R; volvol_lower : R; volvol_upper : R;
  given_rho : R; rho_lower : R; rho_upper : R }.
(** tf.pow; a negative base with an exponent other than 0 and 1 is taken as NaN
    (exact for betas between 0 and 1). *)
Definition xpower (a : xr) (e : R) : xr :=
  match a with
  | Fin r => if rlt 0 r then Fin (exp (e * ln r))
             else if req e 0 then Fin 1 else if req e 1 then Fin r
             else if req r 0 then (if rlt 0 e then Fin 0 else Inf false) else NaN
  | _ => NaN
  end.
(** sabr 307-319; tf.convert_to_tensor(None) fails. *)
Definition sabr_alpha (r : sabr_row) : option bounded :=
  match given_alpha r with
  | None => let alpha := xpower (xmean (map (fun q => Fin (v_forward q)) (quotes r))) (1 - given_beta r) *x Fin (1 / 10) in
            Some (Bounded alpha (alpha *x Fin (1 / 10)) (alpha *x Fin 10))
  | Some alpha => match alpha_lower r, alpha_upper r with Some l, Some u => Some (Bounded (Fin alpha) (Fin l) (Fin u)) | _, _ => None end
  end.
(** sabr 507-519 *)
Record sabr_handler := SabrHandler { h_alpha : bounded; h_volvol : bounded; h_rho : bounded; h_calibrate_beta : bool; h_beta : bounded }.
Record sabr_params := SabrParams { p_alpha : xr; p_beta : xr; p_volvol : xr; p_rho : xr }.
(** sabr 295-355 and 368-378 *)
Definition sabr_prepare (validate_args calibrate_beta : bool) (r : sabr_row) : option sabr_handler :=
  bind (assert_parameter_valid validate_args (Bounded (Fin (given_beta r)) (Fin (beta_lower r)) (Fin (beta_upper r)))) (fun beta =>
  bind (sabr_alpha r) (fun a =>
  bind (assert_parameter_valid validate_args a) (fun alpha =>
  bind (assert_parameter_valid validate_args (Bounded (Fin (given_volvol r)) (Fin (volvol_lower r)) (Fin (volvol_upper r)))) (fun volvol =>
  bind (assert_parameter_valid validate_args (Bounded (Fin (given_rho r)) (Fin (rho_lower r)) (Fin (rho_upper r)))) (fun rho =>
  Some (SabrHandler alpha volvol rho calibrate_beta beta)))))).
(** sabr 358-366 *)
Definition sabr_initial (h : sabr_handler) : list xr :=
  if h_calibrate_beta h then [encode (h_alpha h); encode (h_volvol h); encode (h_rho h); encode (h_beta h)]
  else [encode (h_alpha h); encode (h_volvol h); encode (h_rho h)].
(** sabr 521-554 *)
Definition sabr_read (h : sabr_handler) (x : list xr) : option sabr_params :=
  bind (option_map (decode (h_alpha h)) (slot x 0)) (fun alpha =>
  bind (option_map (decode (h_volvol h)) (slot x 1)) (fun volvol =>
  bind (option_map (decode (h_rho h)) (slot x 2)) (fun rho =>
  bind (if h_calibrate_beta h then option_map (decode (h_beta h)) (last_slot x) else Some (start (h_beta h))) (fun beta =>
  Some (SabrParams alpha beta volvol rho))))).
(** The model's volatility or price of one quote; NaN parameters give NaN. *)
Definition sabr_with (p : sabr_params) (f : R -> R -> R -> R -> xr) : xr :=
  match p_alpha p, p_beta p, p_volvol p, p_rho p with
  | Fin alpha, Fin beta, Fin volvol, Fin rho => f alpha beta volvol rho
  | _, _, _, _ => NaN
  end.
Definition sabr_vol (eps : R) (vt : sabr_volatility_type) (p : sabr_params) (q : vanilla) : xr :=
  sabr_with p (fun alpha beta volvol rho =>
    sabr_implied_volatility eps vt (SabrArgs (v_strike q) (v_expiry q) (v_forward q) alpha beta volvol rho 0)).
Definition sabr_price (eps : R) (vt : sabr_volatility_type) (p : sabr_params) (q : vanilla) : xr :=
  sabr_with p (fun alpha beta volvol rho =>
    match sabr_option_price eps vt (v_call q) (SabrArgs (v_strike q) (v_expiry q) (v_forward q) alpha beta volvol rho 0) with
    | Some v => v | None => NaN end).
(** sabr 435-441; [implied] is black_scholes.implied_vol for the whole batch
    (implied_vol_lib.py, modelled in ImpliedVolModel). *)
Definition implied_quote (q : vanilla) : quote := Quote (v_price q) (v_strike q) (v_expiry q) None (Some (v_forward q)) None (Some (v_call q)).
(** What the objective compares for one model: the numbers computed from the market
    and the ones computed from candidate parameters (423-465 and 468-504). *)
Definition sabr_target (vol_based : bool) (implied : list vanilla -> list xr) (qs : list vanilla) : list xr :=
  if vol_based then implied qs else map (fun q => xlog1p (Fin (v_price q))) qs.
Definition sabr_values (vol_based : bool) (eps : R) (vt : sabr_volatility_type) (qs : list vanilla) (p : sabr_params) : list xr :=
  if vol_based then map (sabr_vol eps vt p) qs else map (fun q => xlog1p (sabr_price eps vt p q)) qs.
(** 463 and 501-502 *)
Definition sabr_loss (vol_based : bool) (implied : list vanilla -> list xr) (eps : R) (vt : sabr_volatility_type) (qs : list vanilla) (p : sabr_params) : xr :=
  if vol_based then xmean (squares (sabr_target true implied qs) (sabr_values true eps vt qs p))
  else xmean (squares (sabr_values false eps vt qs p) (sabr_target false implied qs)).
(** sabr 47-420.  [implied] may depend on the whole batch. *)
Definition sabr_calibration {S} (eps : R) (vt : option sabr_volatility_type) (vol_based calibrate_beta validate_args : bool)
    (implied : list (list vanilla) -> bool -> list vanilla -> list xr) (rows : list sabr_row)
    (opt : optimizer (list (list xr)) (list xr) S) : option (list sabr_params * S) :=
  let vt := match vt with Some t => t | None => LOGNORMAL end in
  let normal := match vt with NORMAL => true | LOGNORMAL => false end in
  bind (map_opt (sabr_prepare validate_args calibrate_beta) rows) (fun hs =>
  optimize (read_rows sabr_read hs)
    (value_rows (fun r => sabr_loss vol_based (implied (map quotes rows) normal) eps vt (quotes r)) rows)
    (map sabr_initial hs) opt).

(** * Heston *)
Record heston_quote := HestonQuote {
  hq_price : R; hq_strike : R; hq_expiry : R; hq_call : bool; hq_spot : option R; hq_forward : option R;
  hq_rate : option R; hq_dividend : option R; hq_factor : option R }.
(** heston 278-282 and 297-320: the discount rate and the forward. *)
Definition heston_market (q : heston_quote) : option (xr * xr) :=
  if eqb (is_none (hq_spot q)) (is_none (hq_forward q)) then None else
  if negb (is_none (hq_rate q)) && negb (is_none (hq_factor q)) then None else
  let rate := match hq_rate q, hq_factor q with
              | Some r, _ => Fin r
              | None, Some d => xopp (xln (Fin d)) /x Fin (hq_expiry q)
              | None, None => Fin 0
              end in
  let dividend := match hq_dividend q with Some d => Fin d | None => Fin 0 end in
  match hq_forward q, hq_spot q with
  | Some f, _ => Some (rate, Fin f)
  | None, Some s => Some (rate, Fin s *x xexp ((rate -x dividend) *x Fin (hq_expiry q)))
  | None, None => None
  end.
Record heston_start := HestonStart { b_variance : bounded; b_theta : bounded; b_volvol : bounded; b_mean_reversion : bounded; b_rho : bounded }.
Record heston_params := HestonParams { p_mean_reversion : xr; p_theta : xr; p_vol : xr; p_corr : xr; p_variance : xr }.
(** heston 328-403 *)
Definition heston_prepare (validate_args : bool) (s : heston_start) : option heston_start :=
  bind (assert_parameter_valid validate_args (b_mean_reversion s)) (fun kappa =>
  bind (assert_parameter_valid validate_args (b_theta s)) (fun theta =>
  bind (assert_parameter_valid validate_args (b_volvol s)) (fun volvol =>
  bind (assert_parameter_valid validate_args (b_variance s)) (fun variance =>
  bind (assert_parameter_valid validate_args (b_rho s)) (fun rho =>
  Some (HestonStart variance theta volvol kappa rho)))))).
(** heston 407-409 *)
Definition heston_initial (s : heston_start) : list xr :=
  [encode (b_variance s); encode (b_theta s); encode (b_volvol s); encode (b_mean_reversion s); encode (b_rho s)].
(** heston 512-549 *)
Definition heston_read (s : heston_start) (x : list xr) : option heston_params :=
  bind (option_map (decode (b_variance s)) (slot x 0)) (fun variance =>
  bind (option_map (decode (b_theta s)) (slot x 1)) (fun theta =>
  bind (option_map (decode (b_volvol s)) (slot x 2)) (fun volvol =>
  bind (option_map (decode (b_mean_reversion s)) (slot x 3)) (fun kappa =>
  bind (option_map (decode (b_rho s)) (last_slot x)) (fun rho =>
  Some (HestonParams kappa theta volvol rho variance)))))).
(** heston 477-489: the price of one quote; the arguments of european_option_price
    are complete here, so that None means NaN. *)
Definition heston_value (roots coefficients : nat -> option (list R)) (p : heston_params) (m : xr * xr) (q : heston_quote) : xr :=
  match p_variance p, p_theta p, p_vol p, p_mean_reversion p, p_corr p, m with
  | Fin variance, Fin theta, Fin volvol, Fin kappa, Fin rho, (Fin rate, Fin forward) =>
      match HestonFourierModel.european_option_price roots coefficients
              {| HestonFourierModel.method := None; HestonFourierModel.lower := None; HestonFourierModel.upper := None; HestonFourierModel.points := None |}
              {| HestonFourierModel.strike := hq_strike q; HestonFourierModel.expiry := hq_expiry q; HestonFourierModel.spot := None;
                 HestonFourierModel.forward := Some forward; HestonFourierModel.is_call := Some (hq_call q);
                 HestonFourierModel.discount_rate := Some rate;
                 HestonFourierModel.dividend_rate := Some (match hq_dividend q with Some d => d | None => 0 end);
                 HestonFourierModel.discount_factor := None;
                 HestonFourierModel.variance := variance; HestonFourierModel.mean_reversion := kappa; HestonFourierModel.theta := theta;
                 HestonFourierModel.volvol := volvol; HestonFourierModel.rho := Some rho |} with
      | Some v => Fin v
      | None => NaN
      end
  | _, _, _, _, _, _ => NaN
  end.
(** heston 458-495 *)
Definition heston_loss (roots coefficients : nat -> option (list R)) (quotes : list (heston_quote * (xr * xr))) (p : heston_params) : xr :=
  xmean (squares (map (fun '(q, m) => xlog1p (heston_value roots coefficients p m q)) quotes)
                 (map (fun '(q, _) => xlog1p (Fin (hq_price q))) quotes)).
(** heston 58-455 *)
Definition heston_calibration {S} (roots coefficients : nat -> option (list R)) (validate_args : bool)
    (rows : list (list heston_quote * heston_start)) (opt : optimizer (list (list xr)) (list xr) S) : option (list heston_params * S) :=
  bind (map_opt (fun '(qs, _) => map_opt (fun q => option_map (pair q) (heston_market q)) qs) rows) (fun quotes =>
  bind (map_opt (fun '(_, s) => heston_prepare validate_args s) rows) (fun starts =>
  optimize (read_rows heston_read starts) (value_rows (heston_loss roots coefficients) quotes) (map heston_initial starts) opt)).

(** * Raw SVI *)
Record raw_svi := RawSvi { s_a : xr; s_b : xr; s_r : xr; s_m : xr; s_s : xr }.
Record svi_row := SviRow {
  svi_forward : R; svi_expiry : R; svi_strikes : list R; svi_vols : list R; svi_weights : option (list R); svi_start : option raw_svi }.
(** svi 167-171 *)
Definition log_moneyness (r : svi_row) : list xr := map (fun k => xln (Fin k /x Fin (svi_forward r))) (svi_strikes r).
Definition total_variance (r : svi_row) : list R := map (fun v => v * v * svi_expiry r) (svi_vols r).
(** tf.argmin: the first of the smallest entries. *)
Fixpoint argmin (l : list R) : nat :=
  match l with
  | [] => 0
  | x :: r => match r with [] => 0 | _ => let i := argmin r in if rlt (nth i r 0) x then S i else 0 end
  end.
Definition xvariance (l : list xr) : xr := xmean (map (fun x => xsquare (x -x xmean l)) l).
(** svi 215-262 *)
Definition estimate_initial_position (r : svi_row) : raw_svi :=
  let k := log_moneyness r in
  let m := nth (argmin (total_variance r)) k NaN in
  let sigma := Fin (1 / 2) in
  let y := map Fin (total_variance r) in
  let x := map (fun k => xsqrt (xsquare (k -x m) +x xsquare sigma)) k in
  let e_x := xmean x in
  let e_y := xmean y in
  let e_xy := xmean (xzip xmul x y) in
  let b := (e_xy -x e_x *x e_y) /x xvariance x in
  let a := e_y -x b *x e_x in
  RawSvi a b (Fin 0) m sigma.
(** svi 265-291 *)
Definition raw_svi_to_unconstrained (p : raw_svi) : list xr :=
  [xln (s_a p +x s_b p *x s_s p *x xsqrt (Fin 1 -x xsquare (s_r p))); xln (s_b p);
   xlog1p (s_r p) -x xlog1p (xopp (s_r p)); s_m p; xln (s_s p)].
(** svi 294-315 *)
Definition unconstrained_to_raw_svi (x : list xr) : option raw_svi :=
  bind (slot x 1) (fun x1 => bind (slot x 2) (fun x2 => bind (slot x 3) (fun x3 => bind (slot x 4) (fun x4 => bind (slot x 0) (fun x0 =>
  let b := xexp x1 in
  let rho := Fin 2 *x (Fin 1 /x (Fin 1 +x xexp (xopp x2))) -x Fin 1 in
  let sigma := xexp x4 in
  let a := xexp x0 -x b *x sigma *x xsqrt (Fin 1 -x xsquare rho) in
  Some (RawSvi a b rho x3 sigma)))))).
(** svi 176-185 *)
Definition svi_initial (r : svi_row) : list xr :=
  map (fun x => if is_nan x then Fin 0 else x)
    (raw_svi_to_unconstrained (match svi_start r with Some p => p | None => estimate_initial_position r end)).
(** parameterizations.py 110-131 on numbers that may be infinite. *)
Definition svi_variance (p : raw_svi) (k : xr) : xr :=
  let d := k -x s_m p in
  s_a p +x s_b p *x (s_r p *x d +x xsqrt (xsquare d +x xsquare (s_s p))).
(** svi 187-199 *)
Definition svi_loss (r : svi_row) (p : raw_svi) : xr :=
  let weights := match svi_weights r with Some w => w | None => map (fun _ => 1) (svi_strikes r) end in
  let vols := map (fun k => xsqrt (svi_variance p k /x Fin (svi_expiry r))) (log_moneyness r) in
  xsum (xzip xmul (map Fin weights) (squares vols (map Fin (svi_vols r)))).
(** svi 30-212 *)
Definition svi_calibration {S} (rows : list svi_row) (opt : optimizer (list (list xr)) (list xr) S) : option (list raw_svi * S) :=
  optimize (read_rows (fun _ x => unconstrained_to_raw_svi x) rows) (value_rows svi_loss rows) (map svi_initial rows) opt.

(** * Hull-White *)
(** What a user may pass for a parameter (209-223): a number, a vector, an object
    with the attribute is_piecewise_constant, or another callable. *)
Inductive hw_param := Scalar (v : R) | Vector (v : list R) | Piecewise (jumps values : list R) | Callable.
(** 345-350: PiecewiseConstantFunc(jump_locations=[], values=...), which needs one
    value more than jumps on an axis of its own (piecewise.py 109-126) and cannot
    convert a callable; the attribute makes the object pass unchanged. *)
Definition as_piecewise (p : hw_param) : option (list R * list R) :=
  match p with
  | Scalar _ | Callable => None
  | Vector v => if Nat.eqb (length v) 1 then Some ([], v) else None
  | Piecewise j v => Some (j, v)
  end.
(** piecewise.py 95-126 for values that may be infinite. *)
Record step_function := StepFunction { step_jumps : list R; step_values : list xr }.
Definition make_step (j : list R) (v : list xr) : option step_function :=
  if Nat.eqb (length v) (S (length j)) then Some (StepFunction j v) else None.
Definition hw_bounds := (R * R)%type.
Definition hw_encode (b : hw_bounds) (v : R) : xr := to_unconstrained (Fin v) (Fin (fst b)) (Fin (snd b)).
Definition hw_decode (b : hw_bounds) (x : xr) : xr := to_constrained x (Fin (fst b)) (Fin (snd b)).
(** 384-394, 434-451, 749-758 and 787-800 *)
Definition hw_read (mr vol : hw_bounds) (n : nat) (jumps : list R) (x : list xr) : option (step_function * step_function) :=
  bind (make_step [] (map (hw_decode mr) (firstn n x))) (fun m =>
  option_map (pair m) (make_step jumps (map (hw_decode vol) (skipn n x)))).
(** tf.math.reduce_max *)
Definition xlargest (l : list xr) : xr := fold_right xmax (Inf true) l.
Definition scaled (target values : list xr) : list xr := map (fun v => scale v (Fin 0) (xlargest target)) values.
(** 430-431 and 778-779 *)
Definition hw_loss (average : bool) (target values : list xr) : xr :=
  let s := squares (scaled target values) (scaled target target) in
  if average then xmean s else xsum s.
(** 323-454 with the pricing of the swaptions [price], and the conversion of prices
    to normal volatilities [to_vol] that is used if [vol_based]. *)
Definition hw_swaptions {S} (vol_based : bool) (price : step_function * step_function -> list xr) (to_vol : list xr -> list xr)
    (prices : list R) (notional : option R) (mean_reversion volatility : hw_param) (mr vol : hw_bounds)
    (opt : optimizer (list xr) xr S) : option (step_function * step_function * S) :=
  bind notional (fun _ =>
  bind (as_piecewise mean_reversion) (fun '(_, m) =>
  bind (as_piecewise volatility) (fun '(jumps, v) =>
  let target := if vol_based then to_vol (map Fin prices) else map Fin prices in
  let values p := if vol_based then map (fun x => if is_nan x then Fin 0 else x) (to_vol (price p)) else price p in
  optimize (hw_read mr vol (length m) jumps) (fun p => hw_loss false target (values p))
    (map (hw_encode mr) m ++ map (hw_encode vol) v) opt))).
(** 709-803 *)
Definition hw_cap_floors {S} (price : step_function * step_function -> list xr)
    (prices : list R) (notional : option R) (mean_reversion volatility : hw_param) (mr vol : hw_bounds)
    (opt : optimizer (list xr) xr S) : option (step_function * step_function * S) :=
  bind notional (fun _ =>
  bind (as_piecewise mean_reversion) (fun '(_, m) =>
  bind (as_piecewise volatility) (fun '(jumps, v) =>
  optimize (hw_read mr vol (length m) jumps) (fun p => hw_loss true (map Fin prices) (price p))
    (map (hw_encode mr) m ++ map (hw_encode vol) v) opt))).

(** * Gaussian HJM *)
Definition xcos (a : xr) : xr := match a with Fin r => Fin (cos r) | _ => NaN end.
Definition xsin (a : xr) : xr := match a with Fin r => Fin (sin r) | _ => NaN end.
(** tf.math.cumprod, starting from [acc]. *)
Fixpoint xcumprod (acc : xr) (l : list xr) : list xr :=
  match l with [] => [] | x :: r => (acc *x x) :: xcumprod (acc *x x) r end.
(** tf.reshape(l, [n, m]) *)
Fixpoint chunks {A} (n m : nat) (l : list A) : list (list A) :=
  match n with O => [] | S n => firstn m l :: chunks n m (skipn m l) end.
(** hjm 87-94 for one row of angles; the columns are counted from 1. *)
Definition hypersphere_row (n : nat) (thetas : list xr) : list xr :=
  let cos_theta := map xcos thetas ++ [Fin 1] in
  let sin_cumprod := Fin 1 :: xcumprod (Fin 1) (map xsin thetas) in
  map (fun '(j, (c, s)) => if Nat.ltb j n then c *x s else s) (combine (seq 1 n) (combine cos_theta sin_cumprod)).
Definition xdot (a b : list xr) : xr := xsum (xzip xmul a b).
(** hjm 57-97 *)
Definition hypersphere (n : nat) (thetas : list xr) : option (list (list xr)) :=
  if Nat.eqb (length thetas) (n * (n - 1)) then
    let rows := map (hypersphere_row n) (chunks n (n - 1) thetas) in
    Some (map (fun a => map (xdot a) rows) rows)
  else None.
(** hjm 535: t + stop_gradient(clip(t) - t) *)
Definition xclip (x lo hi : xr) : xr := xmin (xmax x lo) hi.
Definition clip_preserve (x lo hi : xr) : xr := x +x (xclip x lo hi -x x).
Definition hjm_encode (b : hw_bounds) (v : R) : xr := to_unconstrained (Fin v) (Fin (fst b)) (Fin (snd b)).
Definition hjm_decode (b : hw_bounds) (x : xr) : xr := hjm_to_constrained x (Fin (fst b)) (Fin (snd b)).
(** hjm 100 and 442-443 *)
Definition theta_bounds : hw_bounds := (0, 2 * PI + 1 / 100).
(** hjm 511-513: tf.range(0.1, k + 0.1) / k has the k elements (i + 0.1) / k. *)
Definition initial_angles (n : nat) : list R := map (fun i => (INR i + 1 / 10) / INR (n * (n - 1))) (seq 0 (n * (n - 1))).
Record hjm_params := HjmParams { j_mean_reversion : list xr; j_volatility : list xr; j_corr : option (list (list xr)) }.
(** hjm 526-541 (with the clip) and 585-604 (without) *)
Definition hjm_read (clipped calibrate_correlation : bool) (n : nat) (mr vol : hw_bounds) (x : list xr) : option hjm_params :=
  let m := map (hjm_decode mr) (firstn n x) in
  let v := map (hjm_decode vol) (firstn n (skipn n x)) in
  if calibrate_correlation then
    let thetas := skipn (2 * n) x in
    let thetas := if clipped then map (fun t => clip_preserve t (Fin (-25)) (Fin 25)) thetas else thetas in
    option_map (fun c => HjmParams m v (Some c)) (hypersphere n (map (hjm_decode theta_bounds) thetas))
  else Some (HjmParams m v None).
(** hjm 575-577 *)
Definition hjm_loss (target values : list xr) : xr := xsum (squares (scaled target values) (scaled target target)).
(** hjm 405-606 for one curve and vectors of [n] factors. *)
Definition hjm_swaptions {S} (vol_based calibrate_correlation : bool) (price : hjm_params -> list xr) (to_vol : list xr -> list xr)
    (prices : list R) (notional : option R) (n : nat) (mean_reversion volatility : list R) (mr vol : hw_bounds)
    (opt : optimizer (list xr) xr S) : option (hjm_params * S) :=
  bind notional (fun _ =>
  let target := if vol_based then to_vol (map Fin prices) else map Fin prices in
  if forallb is_finite target then
    let values p := if vol_based then map (fun x => if is_nan x then Fin (1 / 10000000) else x) (to_vol (price p)) else price p in
    let angles := if calibrate_correlation then initial_angles n else [] in
    bind (opt (fun x => option_map (fun p => hjm_loss target (values p)) (hjm_read true calibrate_correlation n mr vol x))
              (map (hjm_encode mr) mean_reversion ++ map (hjm_encode vol) volatility ++ map (hjm_encode theta_bounds) angles)) (fun r =>
    option_map (fun p => (p, status r)) (hjm_read false calibrate_correlation n mr vol (position r)))
  else None).
(** hjm 511-523: the shape of the starting position.  tf.concat on the last axis
    needs tensors of one rank that agree on the other axes. *)
Definition angles_shape (calibrate_correlation : bool) (n : nat) (s : list nat) : list nat :=
  if calibrate_correlation then [n * (n - 1)]%nat else if Nat.ltb 1 (length s) then [length s; 0%nat] else [0%nat].
Definition same_shape (a b : list nat) : bool := if list_eq_dec Nat.eq_dec a b then true else false.
Definition concat_last (a b : list nat) : option (list nat) :=
  if (Nat.eqb (length a) (length b) && negb (Nat.eqb (length a) 0) && same_shape (removelast a) (removelast b))%bool
  then Some (removelast a ++ [last a 0 + last b 0]%nat) else None.
Definition hjm_guess_shape (calibrate_correlation : bool) (n : nat) (s : list nat) : option (list nat) :=
  bind (concat_last s s) (fun t => concat_last t (angles_shape calibrate_correlation n s)).
