(** Model of tf_quant_finance/models/heston/approximations/european_option.py
    (one element of the batch), on exact reals and complex numbers.
    [None] is a raised exception or an undefined value (a division by zero or
    the logarithm of zero, which give NaN or infinity).  Definitions only. *)
From Coq Require Import Reals List Bool ZArith.
From Coquelicot Require Import Complex.
From Verif Require Import IntegrateModel BoundedCalModel.
Import ListNotations.
Open Scope R_scope.

(** tf.math.exp on complex numbers. *)
Definition cexp (z : C) : C := (exp (fst z) * cos (snd z), exp (fst z) * sin (snd z)).
(** The angle of a complex number, in (-pi, pi]. *)
Definition carg (z : C) : R :=
  if Rlt_dec 0 (Cmod z + fst z) then 2 * atan (snd z / (Cmod z + fst z)) else PI.
(** tf.math.log on complex numbers (principal value). *)
Definition clog (z : C) : C := (ln (Cmod z), carg z).
(** tf.math.sqrt on complex numbers (principal value). *)
Definition csqrt (z : C) : C :=
  let p := sqrt ((Cmod z + fst z) / 2) in
  let q := sqrt ((Cmod z - fst z) / 2) in
  (p, if Rlt_dec (snd z) 0 then - q else q).
Definition ceq (a b : C) : bool :=
  (if Req_EM_T (fst a) (fst b) then true else false) && (if Req_EM_T (snd a) (snd b) then true else false).
Definition cdiv (a b : C) : option C := if ceq b 0 then None else Some (Cdiv a b).

(** european_option.py 231-253: [char_fun]. *)
Definition char_fun (mean_reversion theta volvol rho variance expiry : R) (u : R) : option C :=
  let u_real : C := (u, 0) in
  let u_imag : C := (0, u) in
  let kappa : C := (mean_reversion, 0) in
  let sigma : C := (volvol, 0) in
  let t : C := (expiry, 0) in
  let s : C := Cmult (Cmult (rho, 0) sigma) u_imag in
  (* 241-242 *)
  let s_mean_reversion := Cminus (Cmult (Cminus s kappa) s) (Cmult (Cminus s kappa) kappa) in
  (* 243-244 *)
  let d := csqrt (Cminus s_mean_reversion
                    (Cmult (Cmult sigma sigma) (Cminus (Copp u_imag) (Cmult u_real u_real)))) in
  (* 245 *)
  bind (cdiv (Cminus (Cminus kappa s) d) (Cplus (Cminus kappa s) d)) (fun g =>
  let a := Cmult kappa (theta, 0) in
  (* 247-248 *)
  let h := Cmult g (cexp (Cmult (Copp d) t)) in
  bind (cdiv (Cminus 1 h) (Cminus 1 g)) (fun ratio =>
  if ceq ratio 0 then None else
  let m := Cmult 2 (clog ratio) in
  (* 249-250 *)
  bind (cdiv a (Cmult sigma sigma)) (fun a_volvol =>
  let c := Cmult a_volvol (Cminus (Cmult (Cminus (Cminus kappa s) d) t) m) in
  (* 251-252 *)
  let e := Cminus 1 (cexp (Cmult (Copp d) t)) in
  bind (cdiv (Cminus (Cminus kappa s) d) (Cmult sigma sigma)) (fun coefficient =>
  bind (cdiv e (Cminus 1 h)) (fun e_h =>
  let d_new := Cmult coefficient e_h in
  (* 253 *)
  Some (cexp (Cplus c (Cmult d_new (variance, 0))))))))).

(** european_option.py 255-265: [integrand_function] for a characteristic
    function given as an argument. *)
Definition integrand_function (char_fun : R -> option C) (u k : R) : option R :=
  if Req_EM_T u 0 then None else
  bind (char_fun u) (fun z =>
  let a := (fst z + snd z / u) * cos (u * k) in
  let b := (snd z - fst z / u) * sin (u * k) in
  Some ((a + b) / (1 + u * u))).

(** The points at which simpson.py 84-89 and gauss_legendre.py 62-66 evaluate
    the function: an undefined value at one of them makes the sum undefined. *)
Definition nodes (roots : nat -> option (list R)) (method : integration_method) (lower upper : R) (num_points : Z) : list R :=
  match method with
  | COMPOSITE_SIMPSONS_RULE =>
      map (fun i => lower + (upper - lower) / (IZR num_points - 1) * i) (range_float (Z.to_nat num_points))
  | GAUSS_LEGENDRE =>
      match roots (Z.to_nat num_points) with
      | Some r => map (fun root => ((upper - lower) * root + upper + lower) / 2) r
      | None => []
      end
  end.
Definition value_or_zero (o : option R) : R := match o with Some x => x | None => 0 end.
Definition defined {A} (o : option A) : bool := match o with Some _ => true | None => false end.
Definition integrate_defined (roots coefficients : nat -> option (list R)) (f : R -> option R)
    (lower upper : R) (method : integration_method) (num_points : Z) : option R :=
  if forallb (fun u => defined (f u)) (nodes roots method lower upper num_points)
  then integrate roots coefficients (fun u => value_or_zero (f u)) lower upper method (Some num_points)
  else None.

(** The keyword arguments of [integrate] (222-230, 269-273): Simpson's rule on
    1001 points from 1e-9 to 100 unless given otherwise; the Gauss-Legendre rule
    has no default limits here. *)
Record integration_args := { method : option integration_method; lower : option R; upper : option R; points : option Z }.
Definition or_else {A} (o : option A) (a : A) : A := match o with Some x => x | None => a end.
Definition run_integration (roots coefficients : nat -> option (list R)) (args : integration_args) (f : R -> option R) : option R :=
  match or_else (method args) COMPOSITE_SIMPSONS_RULE with
  | COMPOSITE_SIMPSONS_RULE =>
      integrate_defined roots coefficients f (or_else (lower args) (1 / 10 ^ 9)) (or_else (upper args) 100)
        COMPOSITE_SIMPSONS_RULE (or_else (points args) 1001%Z)
  | GAUSS_LEGENDRE =>
      bind (lower args) (fun l => bind (upper args) (fun u =>
      integrate_defined roots coefficients f l u GAUSS_LEGENDRE (or_else (points args) 32%Z)))
  end.

(** european_option.py 267-288, with the characteristic function and the
    integration as arguments. *)
Definition price_from (char_fun : R -> option C) (integral : (R -> option R) -> option R)
    (strike forward discount_factor : R) (is_call : option bool) : option R :=
  if Req_EM_T forward 0 then None else
  if Rle_dec (strike / forward) 0 then None else
  let k := ln (strike / forward) in
  bind (integral (fun u => integrand_function char_fun u k)) (fun i =>
  let undiscounted_call := forward - strike * (1 / 2 + i / PI) in
  match is_call with
  | None => Some (undiscounted_call * discount_factor)
  | Some call =>
      let undiscounted_put := undiscounted_call - forward + strike in
      Some ((if call then undiscounted_call else undiscounted_put) * discount_factor)
  end).

Record heston_option := {
  strike : R; expiry : R; spot : option R; forward : option R; is_call : option bool;
  discount_rate : option R; dividend_rate : option R; discount_factor : option R;
  variance : R; mean_reversion : R; theta : R; volvol : R; rho : option R }.

(** european_option.py 161-204: the discount factor and the forward. *)
Definition market (o : heston_option) : option (R * R) :=
  if Bool.eqb (defined (spot o)) (defined (forward o)) then None else
  if defined (discount_rate o) && defined (discount_factor o) then None else
  (* 182-189 *)
  let rate :=
    match discount_rate o, discount_factor o with
    | Some r, _ => Some r
    | None, Some df => if Rle_dec df 0 then None else if Req_EM_T (expiry o) 0 then None else Some (- ln df / expiry o)
    | None, None => Some 0
    end in
  let dividend := or_else (dividend_rate o) 0 in
  (* 196-197 *)
  bind (match discount_factor o with Some df => Some df | None => bind rate (fun r => Some (exp (- r * expiry o))) end) (fun df =>
  (* 199-204 *)
  bind (match forward o with
        | Some f => Some f
        | None => bind (spot o) (fun s => bind rate (fun r => Some (s * exp ((r - dividend) * expiry o))))
        end) (fun f => Some (df, f))).

(** european_option.py 30-288.  [rho] is declared optional but converted without
    a test (175), so that [None] raises. *)
Definition european_option_price (roots coefficients : nat -> option (list R)) (args : integration_args) (o : heston_option) : option R :=
  bind (market o) (fun '(df, f) =>
  bind (rho o) (fun rho =>
  price_from (char_fun (mean_reversion o) (theta o) (volvol o) rho (variance o) (expiry o))
    (run_integration roots coefficients args) (strike o) f df (is_call o))).
