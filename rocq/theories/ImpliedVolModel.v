(** Model of black_scholes/implied_vol_approximation.py,
    implied_vol_newton_root.py and implied_vol_lib.py.  Definitions only.
    Numbers are exact reals with infinities and NaN; [None] is an error. *)
From Coq Require Import Reals List Bool Arith.
From Verif Require Import InterpModel BrentModel ExtReal HaganWestModel BootstrapModel BlackScholesModel NewtonModel.
Import ListNotations.
Open Scope R_scope.

(** One element of the batch.  In the code the optional arguments are absent for
    the whole batch; here for each element. *)
Record quote := Quote {
  q_price : R; q_strike : R; q_expiry : R; q_spot : option R; q_forward : option R; q_discount : option R; q_is_call : option bool }.

(** implied_vol_approximation.py 121-132, implied_vol_newton_root.py 138-163 *)
Definition q_args_ok (q : quote) : bool := negb (eqb (is_none (q_spot q)) (is_none (q_forward q))).
Definition q_df (q : quote) : xr := match q_discount q with None => Fin 1 | Some d => Fin d end.
Definition q_fwd (q : quote) : xr :=
  match q_forward q, q_spot q with
  | Some f, _ => Fin f
  | None, Some s => Fin s /x q_df q
  | None, None => NaN
  end.

(** tf.math.sign *)
Definition xsign (a : xr) : xr :=
  match a with
  | Fin r => Fin (if rlt r 0 then -1 else if rlt 0 r then 1 else 0)
  | Inf n => Fin (if n then -1 else 1)
  | NaN => NaN
  end.
(** tf.math.expm1 *)
Definition xexpm1 (a : xr) : xr := xexp a -x Fin 1.
(** tf.math.pow; simplification: NaN unless the base is a positive number *)
Definition xpow (a : xr) (e : R) : xr := match a with Fin r => if rlt 0 r then Fin (exp (e * ln r)) else NaN | _ => NaN end.
(** a <= b *)
Definition xle (a b : xr) : bool := match a, b with NaN, _ | _, NaN => false | _, _ => negb (xlt b a) end.

(** implied_vol_approximation.py 266-325: a, b and lnc *)
Definition quadratic_coeffs (prices forwards log_forwards : xr) (option_sign polya : R) : xr * xr * xr :=
  let q1 := forwards -x Fin 1 in
  let q2 := forwards +x Fin 1 in
  let r := Fin 2 *x prices -x Fin option_sign *x q1 in
  let f1 := xpow forwards (- polya) in
  let f2 := Fin 1 /x f1 in
  let g1 := f1 *x forwards in
  let g2 := Fin 1 /x g1 in
  let a := xsquare (g1 -x g2) in
  let h := xsquare forwards in
  let r2 := xsquare r in
  let b := Fin 4 *x (f1 +x f2) -x Fin 2 *x (g1 +x g2) *x (Fin 1 +x h -x r2) /x forwards in
  let lnc1 := xln (Fin 4 *x prices) +x xln (prices -x Fin option_sign *x q1) in
  let lnc2 := xln (q2 -x r) +x xln (q2 +x r) in
  (a, b, lnc1 +x lnc2 -x Fin 2 *x log_forwards).

(** implied_vol_approximation.py 191-263 *)
Definition approx_polya (prices forwards expiries : xr) (is_call : option bool) (polya : R) : xr :=
  let floored := xmax forwards (Fin 1) in
  let capped := xmin forwards (Fin 1) in
  let log_forwards := xln forwards in
  let sign_log := xsign log_forwards in
  let option_sign := match is_call with Some false => -1 | _ => 1 end in
  let signs := Fin option_sign *x sign_log in
  let cdfs := Fin (1 / 2) +x Fin (1 / 2) *x signs *x xsqrt (xopp (xexpm1 (Fin (-2 * polya) *x xabs log_forwards))) in
  let threshold := signs *x (floored *x cdfs -x capped /x Fin 2) in
  let '(a, b, lnc) := quadratic_coeffs prices forwards log_forwards option_sign polya in
  let c := xexp lnc in
  let lnbeta := Fin (ln 2) +x lnc -x xln (b +x xsqrt (b *x b +x Fin 4 *x a *x c)) in
  let gamma := xopp lnbeta /x Fin polya in
  let term1 := xsqrt (gamma +x log_forwards) in
  let term2 := xsqrt (gamma -x log_forwards) in
  let sqrt_var := if xle prices threshold then sign_log *x (term1 -x term2) else term1 +x term2 in
  sqrt_var /x xsqrt expiries.

(** implied_vol_approximation.py 147-188 *)
Definition approx_valid (q : quote) : bool :=
  let epsilon := Fin (1 / 100000000) in
  let put_lower := xmax (Fin (q_strike q) -x q_fwd q) (Fin 0) in
  let call_lower := xmax (q_fwd q -x Fin (q_strike q)) (Fin 0) in
  let '(lower, upper) := match q_is_call q with Some false => (put_lower, Fin (q_strike q)) | _ => (call_lower, q_fwd q) end in
  let undiscounted := Fin (q_price q) /x q_df q in
  xlt (Fin 0) (q_fwd q) && xlt (Fin 0) (Fin (q_strike q)) && xle (Fin 0) (Fin (q_expiry q))
  && xle lower undiscounted && xle undiscounted upper
  && xlt epsilon (xabs (undiscounted -x lower)) && xlt epsilon (xabs (undiscounted -x upper)).
(** implied_vol_approximation.py 20-144 *)
Definition approx_implied_vol (q : quote) (validate_args : bool) (polya : R) : option xr :=
  if negb (q_args_ok q) then None
  else if validate_args && negb (approx_valid q) then None
  else
    let adjusted_strike := Fin (q_strike q) *x q_df q in
    Some (approx_polya (Fin (q_price q) /x adjusted_strike) (q_fwd q /x Fin (q_strike q)) (Fin (q_expiry q)) (q_is_call q) polya).

(** implied_vol_newton_root.py 250-283, for finite forwards *)
Definition normalization (forward strike : xr) : xr :=
  let n := if xle (xabs forward) (xabs strike) then xabs strike else xabs forward in
  if xzero n then Fin 1 else n.
(** implied_vol_newton_root.py 286-364; [_pdf] is [xdensity] *)
Definition lognormal_objective (q : quote) (vol : xr) : xr * xr :=
  let n := normalization (q_fwd q) (Fin (q_strike q)) in
  let price := Fin (q_price q) /x n /x q_df q in
  let norm_forward := q_fwd q /x n in
  let norm_strike := Fin (q_strike q) /x n in
  let lnz := xln (q_fwd q) -x xln (Fin (q_strike q)) in
  let sqrt_t := xsqrt (Fin (q_expiry q)) in
  let vol_t := vol *x sqrt_t in
  let d1 := lnz /x vol_t +x vol_t /x Fin 2 in
  let d2 := d1 -x vol_t in
  let calls := norm_forward *x xncdf d1 -x norm_strike *x xncdf d2 in
  let implied := match q_is_call q with Some false => calls -x norm_forward +x norm_strike | _ => calls end in
  let vega := norm_forward *x xdensity d1 *x sqrt_t /x q_df q in
  (implied -x price, vega).
(** implied_vol_newton_root.py 367-442 *)
Definition normal_objective (q : quote) (vol : xr) : xr * xr :=
  let n := normalization (q_fwd q) (Fin (q_strike q)) in
  let price := Fin (q_price q) /x n /x q_df q in
  let norm_forward := q_fwd q /x n in
  let norm_strike := Fin (q_strike q) /x n in
  let sqrt_t := xsqrt (Fin (q_expiry q)) in
  let vols := vol *x sqrt_t /x n in
  let d1 := (norm_forward -x norm_strike) /x vols in
  let calls := (norm_forward -x norm_strike) *x xncdf d1 +x vols *x xdensity d1 in
  let implied := match q_is_call q with Some false => calls -x norm_forward +x norm_strike | _ => calls end in
  let vega := xdensity d1 *x sqrt_t /x q_df q /x n in
  (implied -x price, vega).
(** implied_vol_newton_root.py 165-179, without initial_volatilities *)
Definition initial_volatility (normal validate_args : bool) (q : quote) : option xr :=
  if normal then Some (Fin (q_price q) /x Fin (1 / sqrt (2 * PI))) else approx_implied_vol q validate_args (2 / PI).
Fixpoint all_ok {A B} (f : A -> option B) (l : list A) : option (list B) :=
  match l with
  | [] => Some []
  | x :: r => match f x, all_ok f r with Some y, Some s => Some (y :: s) | _, _ => None end
  end.
(** implied_vol_newton_root.py 36-247: volatility, converged and failed for each
    quote.  [given] holds the initial volatilities, None for the default. *)
Definition newton_implied_vol (qs : list quote) (normal validate_args : bool) (given : option (list R)) (tol rtol : R) (max_iterations : nat) : option (list (xr * bool * bool)) :=
  if forallb q_args_ok qs then
    let starts := match given with
                  | Some g => Some (map Fin g)
                  | None => all_ok (initial_volatility normal validate_args) qs
                  end in
    match starts with
    | None => None
    | Some starts => Some (root_finder (map (if normal then normal_objective else lognormal_objective) qs) starts max_iterations tol rtol)
    end
  else None.
(** implied_vol_lib.py 24-171 *)
Inductive implied_vol_method := FastApprox | Newton.
Definition implied_vol (qs : list quote) (method : implied_vol_method) (normal validate_args : bool) (given : option (list R)) (tol rtol : R) (max_iterations : nat) : option (list xr) :=
  match method with
  | FastApprox => if normal then None else all_ok (fun q => approx_implied_vol q validate_args (2 / PI)) qs
  | Newton => option_map (map (fun '(v, _, _) => v)) (newton_implied_vol qs normal validate_args given tol rtol max_iterations)
  end.
