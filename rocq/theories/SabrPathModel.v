(** Model of tf_quant_finance/models/sabr/sabr_model.py.  Definitions only.
    Numbers are exact reals with infinities and NaN.  The regularized incomplete
    gamma functions and the root finder are arguments; so are the normal draws
    (C61 is about how they are made).  The initial forward and volatility are
    scalars.  [None] is an exception. *)
From Coq Require Import Reals List Bool Arith ZArith.
From Verif Require Import TensorModel InterpModel BrentModel ExtReal HaganWestModel BootstrapModel BlackScholesModel ImpliedVolModel MvNormalModel EulerModel TimeGridModel.
Import ListNotations.
Open Scope R_scope.

(** A number or a function of time (574-583). *)
Inductive parameter := Number (c : R) | Callable (f : R -> R).
Definition is_callable (p : parameter) : bool := match p with Callable _ => true | Number _ => false end.
Definition value_at (p : parameter) (t : R) : R := match p with Number c => c | Callable f => f t end.

(** The attributes set on lines 165-178. *)
Record sabr := Sabr {
  s_beta : parameter; s_volvol : parameter; s_rho : parameter; s_shift : R;
  s_psi_threshold : R; s_truncation : nat; s_unbiased : bool }.

(** 212-253: the assertions, which sample_paths runs *)
Definition arguments_valid (m : sabr) : bool :=
  match s_beta m with Number b => rle 0 b && rle b 1 | Callable _ => true end &&
  match s_volvol m with Number v => rle 0 v | Callable _ => true end &&
  match s_rho m with Number r => rlt (- (1)) r && rlt r 1 | Callable _ => true end &&
  rle 1 (s_psi_threshold m) && rle (s_psi_threshold m) 2.

(** f ** beta on line 199 where its value is used: f is positive or beta is 0. *)
Definition power (f beta : R) : R := if req beta 0 then 1 else Rpower f beta.
(** 182-210: entry (row, column) of the volatility matrix *)
Definition sabr_vol_fn (m : sabr) (t f v : R) (row column : nat) : R :=
  let beta := value_at (s_beta m) t in
  let volvol := value_at (s_volvol m) t in
  let rho := value_at (s_rho m) t in
  let fb := power f beta in
  if (negb (req beta 0) && rle f 0)%bool then 0 else
  match row, column with
  | 0%nat, 0%nat => v * fb * sqrt (1 - rho ^ 2)
  | 0%nat, 1%nat => v * fb * rho
  | 1%nat, 1%nat => volvol * v
  | _, _ => 0
  end.
(** 180 and 255: the process given to the Euler scheme *)
Definition sabr_process (m : sabr) : process :=
  Process 2 (fun _ _ _ _ => 0) (fun t x s => sabr_vol_fn m t (x s 0%nat) (x s 1%nat)).

(** x ** y with a constant exponent.  Simplification: a negative base gives NaN
    unless the exponent is 1, minus infinity gives NaN. *)
Definition xrpow (a : xr) (y : R) : xr :=
  if req y 0 then Fin 1 else
  match a with
  | Fin x => if rlt 0 x then Fin (Rpower x y) else if req x 0 then (if rlt 0 y then Fin 0 else Inf false) else if req y 1 then Fin x else NaN
  | Inf false => if rlt 0 y then Inf false else Fin 0
  | _ => NaN
  end.
(** x ** j for an int *)
Fixpoint xnpow (a : xr) (j : nat) : xr := match j with O => Fin 1 | S i => a *x xnpow a i end.
Definition xpred_pow (a : xr) (j : nat) : xr := match j with O => Fin 1 /x a | S i => xnpow a i end.

Section External.
  (** tf.math.igamma, tf.math.igammac and the value returned by
      tff.math.root_search.newton_root for an equation and a start *)
  Variables (igamma igammac : xr -> xr -> xr) (root_finder : (xr -> xr * xr) -> xr -> xr).

  (** 562-566: one round of the loop *)
  Definition ncx2_term (x k l : xr) (acc : xr * xr * R) (j : nat) : xr * xr * R :=
    let '(g, dg, factorial) := acc in
    let factorial := factorial * (if Nat.ltb 0 j then INR j else 1) in
    let h := (Fin 1 -x igammac ((k +x Fin (2 * INR j)) /x Fin 2) (x /x Fin 2)) /x Fin factorial in
    (g +x h *x xnpow (l *x Fin (1 / 2)) j, dg +x h *x Fin (1 / 2) *x Fin (INR j) *x xpred_pow (l *x Fin (1 / 2)) j, factorial).
  (** 540-571 *)
  Definition ncx2cdf_and_gradient (x k l : xr) (truncation : nat) : xr * xr :=
    let '(g, dg, _) := fold_left (ncx2_term x k l) (seq 0 (truncation + 1)) (Fin 0, Fin 0, 1) in
    let f := xexp (Fin (- (1 / 2)) *x l) in
    let df := Fin (- (1 / 2)) *x f in
    (f *x g, df *x g +x f *x dg).
  (** 529-537 *)
  Definition root_chi2 (truncation : nat) (a b uniforms : xr) : xr :=
    let equation := fun c_star => let '(p, dpc) := ncx2cdf_and_gradient a b c_star truncation in (Fin 1 -x p -x uniforms, xopp dpc) in
    xmax (root_finder equation a) (Fin 0).

  Section Constants.
    Variables (beta volvol rho psi_threshold : R) (truncation : nat).
    (** 487-489 *)
    Definition sample_next_volatilities (vol dt dwv : R) : R := vol * exp (volvol * dwv * sqrt dt - volvol ^ 2 * dt * (1 / 2)).
    (** 491-492 *)
    Definition sample_integrated_variance (vol next_vol dt : R) : R := (1 - rho ^ 2) * dt * (vol ^ 2 + next_vol ^ 2) / 2.
    (** 496-498 *)
    Definition forward_a (forward : xr) (vol next_vol iv : R) : xr :=
      Fin 1 /x Fin iv *x xsquare (xrpow forward (1 - beta) /x Fin (1 - beta) +x Fin rho /x Fin volvol *x Fin (next_vol - vol)).
    (** 499-500 *)
    Definition forward_b : R := 2 - (1 - 2 * beta - rho ^ 2 * (1 - beta)) / ((1 - beta) * (1 - rho ^ 2)).
    (** 508-517: m, psi and next_forward_cond_1 *)
    Definition quadratic_forward (a : xr) (iv z : R) : xr * xr * xr :=
      let k := Fin (2 - forward_b) in
      let s2 := Fin 2 *x (k +x Fin 2 *x a) in
      let m := k +x a in
      let psi := s2 /x xsquare m in
      let e2 := Fin 2 /x psi -x Fin 1 +x xsqrt (Fin 2 /x psi) *x xsqrt (Fin 2 /x psi -x Fin 1) in
      let e := xsqrt e2 in
      let d := m /x (Fin 1 +x e2) in
      (m, psi, xrpow (Fin ((1 - beta) ^ 2) *x Fin iv *x d *x xsquare (e +x Fin z)) (1 / 2 / (1 - beta))).
    (** 494-527 *)
    Definition sample_forwards (forward : xr) (vol next_vol iv uniforms z : R) : xr :=
      let a := forward_a forward vol next_vol iv in
      let b := Fin forward_b in
      let absorption_prob := Fin 1 -x igamma (b /x Fin 2) (a /x Fin 2) in
      let should_be_zero := (negb (req beta 0) && (xle forward (Fin 0) || xlt (Fin uniforms) absorption_prob))%bool in
      let '(m, psi, next_forward_cond_1) := quadratic_forward a iv z in
      let c_star := root_chi2 truncation a b (Fin uniforms) in
      let next_forward_cond_2 := xrpow (c_star *x Fin ((1 - beta) ^ 2) *x Fin iv) (1 / (2 - 2 * beta)) in
      let next_forward := if (xle (Fin 0) m && xle psi (Fin psi_threshold))%bool then next_forward_cond_1 else next_forward_cond_2 in
      if should_be_zero then Fin 0 else next_forward.
    (** 469 *)
    Definition uniforms_of (draw : R) : R := 1 / 2 * (1 + erf draw).
    (** 456-480 for one path, with the three numbers drawn for the step *)
    Definition step_to (end_time time_step : R) (draw : R * R * R) (current_time : R) (forward : xr) (vol : R) : R * xr * R :=
      let '(dwv, u, z) := draw in
      let uniforms := uniforms_of u in
      let time_to_end := end_time - current_time in
      let dt := if rle time_to_end time_step then time_to_end else time_step in
      let next_vol := sample_next_volatilities vol dt dwv in
      let iv := sample_integrated_variance vol next_vol dt in
      (current_time + dt, sample_forwards forward vol next_vol iv uniforms z, next_vol).
    (** 451-485; [draws] are the slices of the draws for this path, [fuel] is
        maximum_iterations; reading past the last slice is an error *)
    Fixpoint propagate_to_time (draws : list (R * R * R)) (end_time time_step : R) (fuel : nat) (current_time : R) (forward : xr) (vol : R) (index : nat)
      : option (xr * R * nat) :=
      match fuel with
      | O => Some (forward, vol, index)
      | S n =>
          if rlt current_time end_time then
            match nth_error draws index with
            | None => None
            | Some draw =>
                let '(t, f, v) := step_to end_time time_step draw current_time forward vol in
                propagate_to_time draws end_time time_step n t f v (index + 1)
            end
          else Some (forward, vol, index)
      end.
    (** 413-435: the loop over the requested times *)
    Fixpoint sample_times (draws : list (R * R * R)) (time_step : R) (num_time_steps : nat) (times : list R) (current_time : R) (forward : xr) (vol : R) (index : nat)
      : option (list (xr * R)) :=
      match times with
      | [] => Some []
      | t :: rest =>
          match propagate_to_time draws t time_step num_time_steps current_time forward vol index with
          | None => None
          | Some (f, v, i) => option_map (cons (f, v)) (sample_times draws time_step num_time_steps rest t f v i)
          end
      end.
  End Constants.

  (** 396-398 *)
  Definition num_time_steps_of (times : list R) (time_step : R) : nat := Z.to_nat (ceil (last times 0 / time_step) + Z.of_nat (length times)).
  (** 459-470: the three numbers that path [j] uses, from the slice of the draws,
      a tensor of shape [num_samples, 3], reshaped to [3, num_samples] *)
  Definition draws_of_path (num_samples : nat) (slice : nat -> nat -> R) (j : nat) : R * R * R :=
    let t := reshape (Tensor [num_samples; 3%nat] (fun idx => slice (nth 0 idx 0%nat) (nth 1 idx 0%nat))) [3%nat; num_samples] in
    (elt t [0%nat; j], elt t [1%nat; j], elt t [2%nat; j]).
  (** 358-449, path [j].  [precomputed]: precompute_normal_draws or a random type
      for which the draws are made upfront.  Otherwise the name num_time_steps is
      read before it is assigned, which is an error.  [normal_draws n] is the
      result of generate_mc_normal_draws for [n] time steps. *)
  Definition sabr_sample_paths (beta volvol rho psi_threshold : R) (truncation num_samples : nat) (precomputed : bool) (normal_draws : nat -> nat -> nat -> nat -> R)
      (initial_forward initial_volatility : R) (times : list R) (time_step : R) (j : nat) : option (list (xr * R)) :=
    if precomputed then
      let n := num_time_steps_of times time_step in
      sample_times beta volvol rho psi_threshold truncation (map (fun i => draws_of_path num_samples (normal_draws n i) j) (seq 0 n)) time_step n times
        0 (Fin initial_forward) initial_volatility 0
    else None.
  (** 335-337 *)
  Definition uses_unbiased (m : sabr) : bool :=
    s_unbiased m && negb (is_callable (s_beta m) || is_callable (s_volvol m) || is_callable (s_rho m) || match s_beta m with Number b => req b 1 | Callable _ => false end).
  (** 258-356, path [j].  [increasing]: the times are strictly increasing, checked
      if [validate_args].  [euler] is the path that GenericItoProcess.sample_paths
      returns for the given start (C46, C81). *)
  Definition sabr_paths (m : sabr) (num_samples : nat) (precomputed validate_args : bool) (normal_draws : nat -> nat -> nat -> nat -> R)
      (euler : process -> R -> R -> option (list (xr * R))) (initial_forward initial_volatility : R) (times : list R) (time_step : R) (j : nat)
      : option (list (xr * R)) :=
    if (arguments_valid m && (negb validate_args || gaps_ok 0 times))%bool then
      let initial_forward := initial_forward + s_shift m in
      let paths :=
        if uses_unbiased m then
          sabr_sample_paths (value_at (s_beta m) 0) (value_at (s_volvol m) 0) (value_at (s_rho m) 0) (s_psi_threshold m) (s_truncation m) num_samples precomputed
            normal_draws initial_forward initial_volatility times time_step j
        else euler (sabr_process m) initial_forward initial_volatility in
      option_map (map (fun '(f, v) => (f -x Fin (s_shift m), v))) paths
    else None.
End External.
