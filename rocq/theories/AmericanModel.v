(** Model of tf_quant_finance/black_scholes/approximations/american_option.py for
    one element of the batch.  Definitions only.  Numbers are exact reals with
    infinities and NaN; [None] is a ValueError. *)
From Coquelicot Require Import Coquelicot.
From Coq Require Import Reals List Bool Arith ZArith.
From Verif Require Import InterpModel BrentModel ExtReal HaganWestModel BootstrapModel IntegrateModel BlackScholesModel NewtonModel.
Import ListNotations.
Open Scope R_scope.

(** vanilla_prices.option_price, called with spots and rates.  Simplification: NaN
    at a spot that is not a finite number. *)
Definition european (volatility strike expiry rate dividend : R) (call : bool) (spot : xr) : xr :=
  match spot with
  | Fin s => match option_price (OptionArgs volatility strike expiry (Some s) None (Some rate) (Some dividend) None (Some call) false) with Some v => v | None => NaN end
  | _ => NaN
  end.
(** ** Market arguments, 154-192 and 455-500 *)
(** 165-173 and 467-479 *)
Definition rate_of (a : option_args) : xr :=
  match discount_rate a, discount_factor a with
  | Some r, _ => Fin r
  | None, Some d => xopp (xln (Fin d)) /x Fin (expiry a)
  | None, None => Fin 0
  end.
(** 175-179 and 481-483 *)
Definition dividend_of (a : option_args) : R := match dividend_rate a with None => 0 | Some q => q end.
(** 181-187 and 487-494 *)
Definition spot_of (a : option_args) (r : R) : R :=
  match forward a, spot a with
  | Some f, _ => f * exp (- (r - dividend_of a) * expiry a)
  | None, Some s => s
  | None, None => 0
  end.
(** 188-192 and 496-500 *)
Definition call_of (a : option_args) : bool := match is_call_option a with Some b => b | None => true end.

(** ** Barone-Adesi and Whaley *)
(** 343-345; [b] is r - d *)
Definition calc_d1 (s : xr) (x sigma b t : R) : xr :=
  xdivide_no_nan (xln (s /x Fin x) +x Fin ((b + sigma ^ 2 / 2) * t)) (Fin sigma *x xsqrt (Fin t)).
(** 348-350 *)
Definition calc_q (n m : xr) (sign : R) (k : xr) : xr :=
  ((Fin 1 -x n) +x Fin sign *x xsqrt (xsquare (n -x Fin 1) +x xdivide_no_nan (Fin 4 *x m) k)) /x Fin 2.
(** 292-293 *)
Definition aw_m (sigma r : R) : xr := Fin (2 * r) /x Fin (sigma ^ 2).
Definition aw_n (sigma r d : R) : xr := Fin (2 * (r - d)) /x Fin (sigma ^ 2).
(** 294-295 *)
Definition aw_q (sigma t r d sign : R) : xr := calc_q (aw_n sigma r d) (aw_m sigma r) sign (Fin (1 - exp (- r * t))).
(** 298-309 *)
Definition aw_value (sigma x t r d sign : R) (call : bool) (q s_crit : xr) : xr :=
  european sigma x t r d call s_crit
  +x Fin sign *x (Fin 1 -x Fin (exp (- d * t)) *x xncdf (Fin sign *x calc_d1 s_crit x sigma (r - d) t)) *x xdivide_no_nan s_crit q
  -x Fin sign *x (s_crit -x Fin x).
(** 317-326 *)
Definition aw_seed (sigma x t r d sign : R) (call : bool) : xr :=
  let q_inf := calc_q (aw_n sigma r d) (aw_m sigma r) sign (Fin 1) in
  let s_inf := xdivide_no_nan (Fin x) (Fin 1 -x xdivide_no_nan (Fin 1) q_inf) in
  let h := xopp (Fin (sign * (r - d) * t) +x Fin (2 * sigma) *x xsqrt (Fin t)) *x Fin sign *x xdivide_no_nan (Fin x) (s_inf -x Fin x) in
  if call then Fin x +x (s_inf -x Fin x) *x (Fin 1 -x xexp h) else s_inf +x (Fin x -x s_inf) *x xexp h.
(** 335-338 *)
Definition aw_a (sigma x t r d sign : R) (q s_crit : xr) : xr :=
  Fin sign *x xdivide_no_nan s_crit q *x (Fin 1 -x Fin (exp (- d * t)) *x xncdf (Fin sign *x calc_d1 s_crit x sigma (r - d) t)).
(** tf.pow.  Simplification: NaN unless the exponent is zero or the base is a
    positive finite number with a finite exponent. *)
Definition xpower (a e : xr) : xr :=
  if xzero e then Fin 1 else
  match a, e with Fin x, Fin y => if rlt 0 x then Fin (Rpower x y) else NaN | _, _ => NaN end.
(** 264-269 *)
Definition aw_price (sigma x t r d s : R) (call : bool) (q a s_crit : xr) : xr :=
  let sign := if call then 1 else -1 in
  let condition := if call then xlt (Fin s) s_crit else xlt s_crit (Fin s) in
  if rlt 0 t then
    if condition then european sigma x t r d call (Fin s) +x a *x xpower (Fin s /x s_crit) q else Fin ((s - x) * sign)
  else Fin (if call then Rmax (s - x) 0 else Rmax (x - s) 0).
(** 37-271; [gradient] is the derivative of the objective that TensorFlow computes
    and [rtol] the default relative tolerance of the Newton search. *)
Definition adesi_whaley (gradient : (xr -> xr) -> xr -> xr) (max_iterations : nat) (tolerance rtol : R) (a : option_args) : option (xr * bool * bool) :=
  if negb (args_ok a) then None else
  match rate_of a with
  | Fin r =>
      let '(sigma, x, t, d, s) := (volatility a, strike a, expiry a, dividend_of a, spot_of a r) in
      let call := call_of a in
      let sign := if call then 1 else -1 in
      let q := aw_q sigma t r d sign in
      let f := aw_value sigma x t r d sign call q in
      match root_finder [fun p => (f p, gradient f p)] [aw_seed sigma x t r d sign call] max_iterations tolerance rtol with
      | [(s_crit, converged, failed)] =>
          if call && rle d 0 then Some (european sigma x t r d true (Fin s), true, false)
          else Some (aw_price sigma x t r d s call q (aw_a sigma x t r d sign q s_crit) s_crit, converged, failed)
      | _ => None
      end
  | _ => Some (NaN, false, true) (* simplification: a rate that is not a number is not followed further *)
  end.

(** ** Bjerksund and Stensland *)
(** 546-547 and 646-647 *)
Definition bs_beta (r b sigma : R) : xr :=
  Fin (1 / 2) -x Fin b /x Fin (sigma ^ 2) +x xsqrt (xsquare (Fin b /x Fin (sigma ^ 2) -x Fin (1 / 2)) +x Fin (2 * r) /x Fin (sigma ^ 2)).
(** 603-635 and 692-703: [tau] is t - t1 for the first boundary of the later model, else t *)
Definition bs_boundary (k tau r b sigma : R) (beta : xr) : xr :=
  let b0 := xmax (Fin k) (Fin r /x Fin (r - b) *x Fin k) in
  let binfinity := beta /x (beta -x Fin 1) *x Fin k in
  let ht := xopp (Fin (b * tau) +x Fin (2 * sigma) *x xsqrt (Fin tau)) *x (Fin (k ^ 2) /x ((binfinity -x b0) *x b0)) in
  b0 +x (binfinity -x b0) *x (Fin 1 -x xexp ht).
(** 674-689 *)
Definition bs_phi (s t : R) (gamma h x : xr) (r b sigma : R) : xr :=
  let v := Fin (sigma ^ 2) in
  let kappa := Fin (2 * b) /x v +x (Fin 2 *x gamma -x Fin 1) in
  let drift := (Fin b +x (gamma -x Fin (1 / 2)) *x v) *x Fin t in
  let sv := Fin sigma *x xsqrt (Fin t) in
  let d1 := xopp (xln (Fin s /x h) +x drift) /x sv in
  let d2 := xopp (xln (xsquare x /x (Fin s *x h)) +x drift) /x sv in
  let lambd := Fin (- r) +x gamma *x Fin b +x Fin (1 / 2) *x gamma *x (gamma -x Fin 1) *x v in
  xexp (lambd *x Fin t) *x xpower (Fin s) gamma *x (xncdf d1 -x xpower (x /x Fin s) kappa *x xncdf d2).
(** 657-668: the value below the boundary [X] *)
Definition hold_1993 (s k t r b sigma : R) (beta X : xr) : xr :=
  let alpha := (X -x Fin k) *x xpower X (xopp beta) in
  alpha *x xpower (Fin s) beta -x alpha *x bs_phi s t beta X X r b sigma
  +x bs_phi s t (Fin 1) X X r b sigma -x bs_phi s t (Fin 1) (Fin k) X r b sigma
  -x Fin k *x bs_phi s t (Fin 0) X X r b sigma +x Fin k *x bs_phi s t (Fin 0) (Fin k) X r b sigma.
(** 638-671 *)
Definition call_1993 (s k t r b sigma : R) : xr :=
  let beta := bs_beta r b sigma in
  let X := bs_boundary k t r b sigma beta in
  if xlt (Fin s) X || is_nan X then hold_1993 s k t r b sigma beta X else Fin (s - k).
(** 714-781, with the tables of the integration rule.  Simplification: NaN unless
    both arguments are finite. *)
Definition cbnd (roots coefficients : nat -> option (list R)) (dh dk : xr) (rho : R) : xr :=
  match dh, dk with
  | Fin dh, Fin dk =>
      let h := - dh in
      let k := - dk in
      let hk := h * k in
      let hs := (h * h + k * k) / 2 in
      let asr := asin rho in
      match gauss_legendre roots coefficients (fun x => let sn1 := sin (asr * (1 * x + 1) / 2) in exp ((hk * sn1 - hs) / (1 - sn1 * sn1))) (-1) 1 20 with
      | Some bvn => Fin (bvn * asr / (4 * PI) + ncdf (- h) * ncdf (- k))
      | None => NaN
      end
  | _, _ => NaN
  end.
(** 572-600 *)
Definition bs_psi (roots coefficients : nat -> option (list R)) (s t : R) (gamma h x2 x1 : xr) (t1 r b sigma : R) : xr :=
  let v := Fin (sigma ^ 2) in
  let rate := Fin b +x (gamma -x Fin (1 / 2)) *x v in
  let sv1 := Fin sigma *x xsqrt (Fin t1) in
  let sv := Fin sigma *x xsqrt (Fin t) in
  let d1 := xopp (xln (Fin s /x x1) +x rate *x Fin t1) /x sv1 in
  let d2 := xopp (xln (xsquare x2 /x (Fin s *x x1)) +x rate *x Fin t1) /x sv1 in
  let d3 := xopp (xln (Fin s /x x1) -x rate *x Fin t1) /x sv1 in
  let d4 := xopp (xln (xsquare x2 /x (Fin s *x x1)) -x rate *x Fin t1) /x sv1 in
  let f1 := xopp (xln (Fin s /x h) +x rate *x Fin t) /x sv in
  let f2 := xopp (xln (xsquare x2 /x (Fin s *x h)) +x rate *x Fin t) /x sv in
  let f3 := xopp (xln (xsquare x1 /x (Fin s *x h)) +x rate *x Fin t) /x sv in
  let f4 := xopp (xln (Fin s *x xsquare x1 /x (h *x xsquare x2)) +x rate *x Fin t) /x sv in
  let kappa := Fin (2 * b) /x v +x (Fin 2 *x gamma -x Fin 1) in
  let lambd := Fin (- r) +x gamma *x Fin b +x Fin (1 / 2) *x gamma *x (gamma -x Fin 1) *x v in
  let bnd := cbnd roots coefficients in
  xexp (lambd *x Fin t) *x xpower (Fin s) gamma *x
    (bnd d1 f1 (sqrt (t1 / t)) -x xpower (x2 /x Fin s) kappa *x bnd d2 f2 (sqrt (t1 / t))
     -x xpower (x1 /x Fin s) kappa *x bnd d3 f3 (- sqrt (t1 / t)) +x xpower (x1 /x x2) kappa *x bnd d4 f4 (- sqrt (t1 / t))).
(** 553-566: the value below the boundary [x2] *)
Definition hold_2002 (roots coefficients : nat -> option (list R)) (s k t t1 r b sigma : R) (beta x1 x2 : xr) : xr :=
  let alpha1 := (x1 -x Fin k) *x xpower x1 (xopp beta) in
  let alpha2 := (x2 -x Fin k) *x xpower x2 (xopp beta) in
  let phi gamma h := bs_phi s t1 gamma h x2 r b sigma in
  let psi gamma h := bs_psi roots coefficients s t gamma h x2 x1 t1 r b sigma in
  alpha2 *x xpower (Fin s) beta -x alpha2 *x phi beta x2
  +x phi (Fin 1) x2 -x phi (Fin 1) x1 -x Fin k *x phi (Fin 0) x2 +x Fin k *x phi (Fin 0) x1
  +x alpha1 *x phi beta x1 -x alpha1 *x psi beta x1
  +x psi (Fin 1) x1 -x psi (Fin 1) (Fin k) -x Fin k *x psi (Fin 0) x1 +x Fin k *x psi (Fin 0) (Fin k).
(** 537-569 *)
Definition call_2002 (roots coefficients : nat -> option (list R)) (s k t r b sigma : R) : xr :=
  let t1 := 1 / 2 * (sqrt 5 - 1) * t in
  let beta := bs_beta r b sigma in
  let x1 := bs_boundary k (t - t1) r b sigma beta in
  let x2 := bs_boundary k t r b sigma beta in
  if xlt (Fin s) x2 || is_nan x2 then hold_2002 roots coefficients s k t t1 r b sigma beta x1 x2 else Fin (s - k).
(** 353-534 *)
Definition bjerksund_stensland (roots coefficients : nat -> option (list R)) (modified_boundary : bool) (a : option_args) : option xr :=
  if negb (args_ok a) then None else
  Some match rate_of a with
  | Fin r =>
      let '(sigma, k, t, b, s) := (volatility a, strike a, expiry a, r - dividend_of a, spot_of a r) in
      let model := if modified_boundary then call_2002 roots coefficients else call_1993 in
      if rle r b && call_of a then european sigma k t r (dividend_of a) (call_of a) (Fin s)
      else if call_of a then (if rlt 0 t then model s k t r b sigma else Fin (Rmax (s - k) 0))
      else if rlt 0 t then model k s t (r - b) (- b) sigma else Fin (Rmax (k - s) 0)
  | _ => NaN (* simplification as above *)
  end.
