(** Model of tf_quant_finance/models/heston/heston_model.py for one path.
    Definitions only.  Numbers are exact reals with infinities and NaN.  The
    normal draws are given ([z i] is the pair of draws of step [i]); C61 is about
    how they are made.  [None] is an exception. *)
From Coq Require Import Reals List Bool Arith.
From Verif Require Import TensorModel SegmentModel BrentModel ExtReal HaganWestModel BootstrapModel BlackScholesModel LoopModel TimeGridModel PiecewiseModel MvNormalModel
  GbmModel HullWhiteModel.
Import ListNotations.
Open Scope R_scope.

(** The attributes set on lines 125-141. *)
Record heston := Heston { h_mr : param; h_theta : param; h_volvol : param; h_rho : param }.

(** heston_model.py 143-162: entry (row, column) of the volatility matrix *)
Definition heston_vol_fn (h : heston) (t log_spot variance : R) (row column : nat) : xr :=
  let vol := xsqrt (Fin (Rabs variance)) in
  let rho := param_at (h_rho h) t in
  let volvol := param_at (h_volvol h) t in
  match row, column with
  | 0%nat, 0%nat => vol
  | 1%nat, 0%nat => Fin (volvol * rho) *x vol
  | 1%nat, 1%nat => Fin volvol *x xsqrt (Fin (1 - rho ^ 2)) *x vol
  | _, _ => Fin 0
  end.
(** 164-173 *)
Definition heston_drift_fn (h : heston) (t log_spot variance : R) (row : nat) : R :=
  match row with
  | 0%nat => - variance / 2
  | _ => param_at (h_mr h) t * (param_at (h_theta h) t - variance)
  end.

(** 522-551; psi_c is 1.5 in every call. *)
Definition update_variance (mean_reversion theta volvol : R) (current_vol : xr) (time_step normals : R) : xr :=
  let scaled_time := exp (- mean_reversion * time_step) in
  let volvol_squared := volvol ^ 2 in
  let m := Fin theta +x (current_vol -x Fin theta) *x Fin scaled_time in
  let s_squared :=
    current_vol *x Fin volvol_squared *x Fin scaled_time /x Fin mean_reversion *x Fin (1 - scaled_time)
    +x Fin (theta * volvol_squared / 2) /x Fin mean_reversion *x Fin ((1 - scaled_time) ^ 2) in
  let psi := s_squared /x xsquare m in
  let uniforms := 1 / 2 * (1 + erf (normals / sqrt 2)) in
  let cond := xlt psi (Fin (3 / 2)) in
  let psi_inv := Fin 2 /x psi in
  let b_squared := psi_inv -x Fin 1 +x xsqrt (psi_inv *x (psi_inv -x Fin 1)) in
  let a := m /x (Fin 1 +x b_squared) in
  let next_var_true := a *x xsquare (xsqrt b_squared +x Fin normals) in
  let p := (psi -x Fin 1) /x (psi +x Fin 1) in
  let beta := (Fin 1 -x p) /x m in
  let next_var_false := (if xlt p (Fin uniforms) then xln (Fin 1 -x p) -x xln (Fin (1 - uniforms)) else Fin 0) /x beta in
  if cond then next_var_true else next_var_false.

(** 554-572; gamma_1 and gamma_2 are 0.5 in every call. *)
Definition update_log_spot (mean_reversion theta volvol rho : R) (current_vol next_vol current_log_spot : xr) (time_step normals : R) : xr :=
  let k_0 := Fin (- rho * mean_reversion * theta) /x Fin volvol *x Fin time_step in
  let k_1 := Fin (1 / 2 * time_step) *x (Fin (mean_reversion * rho) /x Fin volvol -x Fin (1 / 2)) -x Fin rho /x Fin volvol in
  let k_2 := Fin (1 / 2 * time_step) *x (Fin (mean_reversion * rho) /x Fin volvol -x Fin (1 / 2)) +x Fin rho /x Fin volvol in
  let k_3 := Fin (1 / 2 * time_step * (1 - rho ^ 2)) in
  let k_4 := Fin (1 / 2 * time_step * (1 - rho ^ 2)) in
  current_log_spot +x k_0 +x k_1 *x current_vol +x k_2 *x next_vol +x xsqrt (k_3 *x current_vol +x k_4 *x next_vol) *x Fin normals.

(** 575-639.  [time_step] is a number or None; the linspace on lines 620-623 is
    not reached, because sample_paths always supplies a time step when there is no
    grid.  times[-1] of an empty vector fails.  On line 634 no tolerance is needed
    for a given grid. *)
Definition additional_times (h : heston) : list R :=
  param_jumps (h_mr h) ++ param_jumps (h_theta h) ++ param_jumps (h_volvol h) ++ param_jumps (h_rho h).
Definition heston_prepare_grid (h : heston) (times : list R) (time_step : R) (times_grid : option (list R)) : option (list R * list bool) :=
  match times_grid with
  | Some g => match prepare_grid times time_step 0 None (Some g) with Some (all_times, mask, _) => Some (all_times, mask) | None => None end
  | None =>
      match times with
      | [] => None
      | _ =>
          match range_from_0 (last times 0) time_step with
          | None => None
          | Some grid =>
              let all_times := grid ++ times ++ additional_times h in
              let mask := repeat false (length grid) ++ repeat true (length times) ++ repeat false (length (additional_times h)) in
              let perm := argsort all_times in
              Some (map (fun i => nth i all_times 0) perm, map (fun i => nth i mask false) perm)
          end
      end
  end.

(** One path: the log of the spot and the variance *)
Definition state := (xr * xr)%type.
Section Sampling.
  Variables (h : heston) (tolerance : R) (z : nat -> R * R) (times : list R).
  (** 337-342.  tf.reduce_min of an empty vector is infinite; no step uses the
      parameters then. *)
  Definition steps_dt : list R := diff 1 true times.
  Definition reduce_min (l : list R) : R := match l with [] => 0 | x :: r => fold_right Rmin x r end.
  Definition parameter (p : param) (i : nat) : R := param_at p (at_ times i + reduce_min steps_dt / 2).
  (** 402-430 *)
  Definition heston_step (i : nat) (x : state) : option state :=
    let '(log_spot, vol) := x in
    let time_step := at_ steps_dt i in
    let next_vol :=
      if rlt tolerance time_step then update_variance (parameter (h_mr h) i) (parameter (h_theta h) i) (parameter (h_volvol h) i) vol time_step (fst (z i)) else vol in
    let next_log_spot :=
      if rlt tolerance time_step then
        update_log_spot (parameter (h_mr h) i) (parameter (h_theta h) i) (parameter (h_volvol h) i) (parameter (h_rho h) i) vol next_vol log_spot time_step (snd (z i))
      else log_spot in
    Some (next_log_spot, next_vol).
  (** 370-460.  The loop starts with written_count 0 (line 445); a slot that is
      never written is [None]. *)
  Definition heston_run (mask : list bool) (requested : nat) (x0 : state) : option (list (option state)) :=
    match (if Nat.eqb requested 1 then Some (Single x0) else write (Slots (repeat None requested)) 0 x0) with
    | None => None
    | Some r =>
        match recording_loop heston_step (fun _ x => x) mask (length steps_dt) requested (S (length steps_dt)) 0 0 x0 r with
        | None => None
        | Some (Single y) => Some [Some y]
        | Some (Slots l) => Some l
        end
    end.
End Sampling.
(** 177-320.  Supplying both or none of time_step and num_time_steps is refused
    when there is no grid. *)
Definition heston_sample_paths (h : heston) (times : list R) (time_step : option R) (num_time_steps : option nat) (times_grid : option (list R))
    (tolerance : R) (z : nat -> R * R) (log_spot variance : R) : option (list (option state)) :=
  let step :=
    match times_grid, time_step, num_time_steps with
    | Some _, _, _ => Some 0
    | None, None, None => None
    | None, None, Some n => Some (last times 0 / INR n)
    | None, Some _, Some _ => None
    | None, Some s, None => Some s
    end in
  match step with
  | None => None
  | Some s =>
      match heston_prepare_grid h times s times_grid with
      | None => None
      | Some (all_times, mask) => heston_run h tolerance z all_times mask (length times) (Fin log_spot, Fin variance)
      end
  end.

(** 462-508 *)
Definition expected_total_variance (h : heston) (future_time initial_var : R) : option xr :=
  match h_mr h, h_theta h with
  | Const mean_reversion, Const theta =>
      let reversion_strength := Fin (1 - exp (- mean_reversion * future_time)) /x Fin mean_reversion in
      Some (Fin (initial_var - theta) *x reversion_strength +x Fin (theta * future_time))
  | _, _ => None
  end.
