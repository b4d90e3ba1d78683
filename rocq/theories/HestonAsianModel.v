(** Model of tf_quant_finance/models/heston/approximations/asian_prices.py (one
    element of the batch), on exact reals and complex numbers.  [None] is an
    exception.  Divisions are those of Coquelicot, equal to the code's where the
    divisor is not zero.  Definitions only. *)
From Coq Require Import Reals List Bool ZArith.
From Coquelicot Require Import Complex.
From Verif Require Import IntegrateModel HestonFourierModel.
Import ListNotations.
Open Scope R_scope.

Definition ccosh (z : C) : C := Cdiv (Cplus (cexp z) (cexp (Copp z))) 2.
Definition csinh (z : C) : C := Cdiv (Cminus (cexp z) (cexp (Copp z))) 2.
Definition csum (f : nat -> C) : nat -> C := fix go n := match n with O => RtoC 0 | S m => Cplus (go m) (f m) end.

(** asian_prices.py 400-420: the fields of the handler. *)
Record handler := mk_handler {
  h_spot : R; h_rate : R; h_dividend : R; h_variance : R; h_mean_reversion : R; h_theta : R; h_volvol : R; h_rho : R;
  h_strike : R; h_start : R; h_expiry : R;
  h_sampling_times : list R;   (* [k_star] values of -1, then the sampling times *)
  h_d_tau : list R; h_k_star : nat; h_n : nat }.

Section Handler.
Variable h : handler.
Let c (x : R) : C := RtoC x.
Let volvol2 : C := c (h_volvol h ^ 2).
(** asian_prices.py 422-431 *)
Definition x_root (z1 : C) : C := csqrt (Cminus (c (h_mean_reversion h ^ 2)) (Cmult (Cmult 2 z1) volvol2)).
Definition f_fn (z1 z2 : C) (tau : R) : C :=
  let x := x_root z1 in
  let half := Cmult (Cmult (c (/ 2)) (c tau)) x in
  Cplus (ccosh half) (Cdiv (Cmult (Cminus (c (h_mean_reversion h)) (Cmult z2 volvol2)) (csinh half)) x).
(** 433-442 *)
Definition f_tilde (z1 z2 : C) (tau : R) : C :=
  let x := x_root z1 in
  let half := Cmult (Cmult (c (/ 2)) (c tau)) x in
  Cplus (Cmult (Cmult (c (/ 2)) x) (csinh half))
    (Cmult (c (/ 2)) (Cmult (Cminus (c (h_mean_reversion h)) (Cmult z2 volvol2)) (ccosh half))).
(** 444-463 *)
Definition a_fn (s w : C) : C :=
  let corr_drift := h_rho h * h_mean_reversion h * h_theta h / h_volvol h in
  let mod_drift := h_rate h - h_dividend h - corr_drift in
  let summed_samplings := fold_right Rplus 0 (skipn (h_k_star h) (h_sampling_times h)) in
  let n_c := INR (h_n h) in
  let term_1 := Cmult (Cplus (Cmult s (c ((n_c - INR (h_k_star h)) / n_c))) w)
                  (Cminus (Cminus (clog (c (h_spot h))) (c (h_rho h * h_variance h / h_volvol h))) (c (h_start h * mod_drift))) in
  let term_2 := Cmult (Cplus (Cmult s (c (summed_samplings / n_c))) (Cmult w (c (h_expiry h)))) (c mod_drift) in
  Cplus term_1 term_2.
(** 465-476; [k_tensor] is k_star + 1, ..., n + 1 (329) *)
Definition z_fn (s w : C) (q : nat) : C :=
  let n := INR (h_n h) in
  let k := INR (h_k_star h + 1 + q) in
  let k_s_w := Cplus (Cmult (c (n - k + 1)) s) (Cmult (c n) w) in
  let term_1 := Cdiv (Cmult (c (2 * h_rho h * h_mean_reversion h - h_volvol h)) k_s_w) (c (h_volvol h * n)) in
  let term_2 := Cdiv (Cmult (c (1 - h_rho h ^ 2)) (Cmult k_s_w k_s_w)) (c (n ^ 2)) in
  Cmult (c (/ 2)) (Cplus term_1 term_2).
(** 478-496: rows 0, ..., n - k_star + 1 *)
Definition omega_k (s w : C) (q : nat) : C :=
  if Nat.eqb q 0 then Cmult (c (h_start h)) s
  else if Nat.leb q (h_n h - h_k_star h) then Cmult (c (h_rho h / (h_volvol h * INR (h_n h)))) s
  else Cmult (c (h_rho h / h_volvol h)) w.
(** 498-536: from the last row back; [omega_tilde s w i] is row x0 - i *)
Fixpoint omega_tilde (s w : C) (i : nat) : C :=
  let x0 := (h_n h - h_k_star h + 1)%nat in
  match i with
  | O => omega_k s w x0
  | S j =>
      let q := (x0 - i)%nat in
      let last_row := omega_tilde s w j in
      let d_tau := nth q (h_d_tau h) 0 in
      let z_k := z_fn s w q in
      Cminus (Cplus (omega_k s w q) (c (h_mean_reversion h / h_volvol h ^ 2)))
        (Cdiv (Cmult 2 (f_tilde z_k last_row d_tau)) (Cmult (f_fn z_k last_row d_tau) volvol2))
  end.
(** 538-556 *)
Definition phi (s w : C) : C :=
  let x0 := (h_n h - h_k_star h + 1)%nat in
  let row := fun q => omega_tilde s w (x0 - q) in
  let tte := h_expiry h - h_start h in
  let term_1 := Cplus (a_fn s w) (Cmult (row 0%nat) (c (h_variance h))) in
  let term_2 := h_mean_reversion h ^ 2 * h_theta h * tte / h_volvol h ^ 2 in
  let term_3 := 2 * h_mean_reversion h * h_theta h / h_volvol h ^ 2 in
  let summation := csum (fun q => clog (f_fn (z_fn s w q) (row (q + 1)%nat) (nth q (h_d_tau h) 0))) x0 in
  cexp (Cminus (Cplus term_1 (c term_2)) (Cmult (c term_3) summation)).
(** 558-566 *)
Definition integrand (x : R) : R :=
  let term_1 := Cminus (phi (1, x) 0) (Cmult (c (h_strike h)) (phi (0, x) 0)) in
  let term_2 := Cdiv (cexp (Cmult (Cmult (Copp Ci) (c x)) (clog (c (h_strike h))))) (Cmult (c x) Ci) in
  fst (Cmult term_1 term_2).
End Handler.

(** asian_prices.py 30-51: the arguments that concern one option. *)
Inductive averaging_type := ARITHMETIC | GEOMETRIC.
Inductive averaging_frequency := DISCRETE | CONTINUOUS.
Record asian_args := mk_asian {
  g_variance : R; g_mean_reversion : R; g_theta : R; g_volvol : R; g_rho : R; g_strike : R; g_expiry : R;
  g_spot : option R; g_forward : option R; g_sampling_times : option (list R); g_past_fixings : option (list R);
  g_discount_rate : option R; g_dividend_rate : option R; g_discount_factor : option R; g_is_call : option bool;
  g_type : averaging_type; g_frequency : averaging_frequency }.

(** 242-258 *)
Definition discount_rate_of (g : asian_args) : R :=
  match g_discount_rate g, g_discount_factor g with
  | Some r, _ => r
  | None, Some d => - ln d / g_expiry g
  | None, None => 0
  end.
Definition dividend_rate_of (g : asian_args) : R := match g_dividend_rate g with None => 0 | Some q => q end.
(** 260-265 *)
Definition spot_of (g : asian_args) : R :=
  match g_forward g, g_spot g with
  | Some f, _ => f * exp (- (discount_rate_of g - dividend_rate_of g) * g_expiry g)
  | None, Some s => s
  | None, None => 0
  end.
(** 282-289, 298 *)
Definition fixings_of (g : asian_args) : list R := match g_past_fixings g with None => [] | Some l => l end.
Definition prefactor_of (g : asian_args) (times : list R) : R :=
  Rpower (fold_right Rmult 1 (fixings_of g)) (1 / INR (length times + length (fixings_of g))).
(** 291-358 *)
Definition differences (l : list R) : list R := map (fun k => nth (S k) l 0 - nth k l 0) (seq 0 (length l - 1)).
Definition handler_of (g : asian_args) (times : list R) : handler :=
  let fixing_count := length (fixings_of g) in
  mk_handler (spot_of g) (discount_rate_of g) (dividend_rate_of g) (g_variance g) (g_mean_reversion g) (g_theta g) (g_volvol g) (g_rho g)
    (g_strike g / prefactor_of g times) 0 (g_expiry g) (repeat (-1) fixing_count ++ times) (differences ([0] ++ times ++ [g_expiry g]))
    fixing_count (length times + fixing_count).
(** 180-193, 204-210 *)
Definition accepted (g : asian_args) : option (list R) :=
  match g_spot g, g_forward g with
  | None, None | Some _, Some _ => None
  | _, _ =>
      match g_discount_rate g, g_discount_factor g, g_type g, g_frequency g, g_sampling_times g with
      | Some _, Some _, _, _, _ => None
      | _, _, GEOMETRIC, DISCRETE, Some times =>
          match times with
          | [] => None
          | _ => if Req_EM_T (Rmax (last times 0) (g_expiry g)) (g_expiry g) then Some times else None
          end
      | _, _, _, _, _ => None
      end
  end.
(** 360-397; the limits of the integral are the defaults unless given *)
Definition asian_option_price (roots coefficients : nat -> option (list R)) (method : option integration_method) (num_points : option Z)
    (lower upper : option R) (g : asian_args) : option R :=
  match accepted g with
  | None => None
  | Some times =>
      let h := handler_of g times in
      let prefactor := prefactor_of g times in
      match integrate roots coefficients (integrand h)
              (match lower with None => / 10 ^ 9 | Some l => l end) (match upper with None => 100 | Some u => u end)
              (match method with None => GAUSS_LEGENDRE | Some m => m end) num_points with
      | None => None
      | Some integral =>
          let asian_forward := fst (phi h 1 0) in
          let dcf := exp (- discount_rate_of g * g_expiry g) in
          let call := prefactor * dcf * ((asian_forward - h_strike h) / 2 + integral / PI) in
          let put := prefactor * dcf * ((h_strike h - asian_forward) / 2 + integral / PI) in
          Some (match g_is_call g with Some false => put | _ => call end)
      end
  end.
