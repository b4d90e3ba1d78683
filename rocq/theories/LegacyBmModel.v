(** Model of tf_quant_finance/models/legacy: brownian_motion.py,
    brownian_motion_utils.py and the Euler sampling of ito_process.py.
    Definitions only.  Drift and volatility are functions of one time and of the
    coordinates; a tensor of times is treated elementwise.  [None] is an
    exception. *)
From Coq Require Import Reals QArith ZArith List Bool Arith.
From Verif Require Import ExtReal HaganWestModel BootstrapModel BrentModel TensorModel TensorProofs BoundedCalModel TimeGridModel MvNormalModel.
Import ListNotations.
Open Scope R_scope.

(** The arguments drift and volatility: numbers, vectors, matrices or callables *)
Inductive drift_arg := DScalar (a : R) | DVector (a : nat -> R) | DCallable (f : R -> nat -> R).
Inductive vol_arg := VScalar (v : R) | VVector (v : nat -> R) | VMatrix (m : nat -> nat -> R) | VCallable (f : R -> nat -> nat -> R).
Record process := Process { p_dim : nat; p_drift : R -> nat -> R; p_total_drift : option (R -> R -> nat -> R);
  p_vol : R -> nat -> nat -> R; p_total_covariance : option (R -> R -> nat -> nat -> R) }.
Definition eye (i j : nat) : R := if Nat.eqb i j then 1 else 0.

(** brownian_motion_utils.py 56-98, 162-167 and 185-193.  A total drift without a
    drift (87-92) is refused before. *)
Definition construct_drift_data (drift : option drift_arg) (total : option (R -> R -> nat -> R)) : (R -> nat -> R) * option (R -> R -> nat -> R) :=
  match total, drift with
  | None, None => (fun _ _ => 0, Some (fun _ _ _ => 0))
  | None, Some (DCallable f) => (f, None)
  | None, Some (DScalar a) => (fun _ _ => a, Some (fun t1 t2 _ => (t2 - t1) * a))
  | None, Some (DVector a) => (fun _ i => a i, Some (fun t1 t2 i => (t2 - t1) * a i))
  | Some td, Some (DCallable f) => (f, Some td)
  | Some td, Some (DScalar a) => (fun _ _ => a, Some td)
  | Some td, Some (DVector a) => (fun _ i => a i, Some td)
  | Some td, None => (fun _ _ => 0, Some td)
  end.
(** 211-220 *)
Definition ensure_matrix (v : vol_arg) : R -> nat -> nat -> R :=
  match v with
  | VScalar x => fun _ i j => eye i j * x
  | VVector x => fun _ i j => if Nat.eqb i j then x i else 0
  | VMatrix m => fun _ => m
  | VCallable f => f
  end.
(** 223-229 *)
Definition covar_from_vol (dim : nat) (v : vol_arg) : option (nat -> nat -> R) :=
  match v with
  | VScalar x => Some (fun i j => x * x * eye i j)
  | VVector x => Some (fun i j => if Nat.eqb i j then x i * x i else 0)
  | VMatrix m => Some (fun i j => rsum (fun k => m i k * m j k) dim)
  | VCallable _ => None
  end.
(** 101-159, 196-208 and 232-245.  A total covariance without a volatility
    (143-145) is refused before. *)
Definition construct_vol_data (dim : nat) (volatility : option vol_arg) (total : option (R -> R -> nat -> nat -> R)) :
    (R -> nat -> nat -> R) * option (R -> R -> nat -> nat -> R) :=
  match volatility, total with
  | None, None => (fun _ _ _ => 1, Some (fun t1 t2 i j => (t2 - t1) * eye i j))
  | None, Some tc => (fun _ _ _ => 1, Some tc)
  | Some v, Some tc => (ensure_matrix v, Some tc)
  | Some v, None => (ensure_matrix v, option_map (fun c t1 t2 i j => (t2 - t1) * c i j) (covar_from_vol dim v))
  end.
(** brownian_motion.py 43-199 *)
Definition brownian_motion (dim : nat) (drift : option drift_arg) (volatility : option vol_arg) (total_drift : option (R -> R -> nat -> R))
    (total_covariance : option (R -> R -> nat -> nat -> R)) : option process :=
  if Nat.ltb dim 1 then None else
  match drift, total_drift with
  | None, Some _ => None
  | _, _ =>
      match volatility, total_covariance with
      | None, Some _ => None
      | _, _ =>
          let '(drift_fn, total_drift_fn) := construct_drift_data drift total_drift in
          let '(vol_fn, total_covar_fn) := construct_vol_data dim volatility total_covariance in
          Some (Process dim drift_fn total_drift_fn vol_fn total_covar_fn)
      end
  end.

Inductive float_type := Float32 | Float64.
(** ito_process.py 389-391: the stable argsort of the times and the gathers of
    times and mask, as one stable sort of the pairs *)
Fixpoint insert_time (x : R * bool) (l : list (R * bool)) : list (R * bool) :=
  match l with [] => [x] | y :: r => if Rle_dec (fst x) (fst y) then x :: l else y :: insert_time x r end.
(** 364-392 *)
Definition euler_grid (times : list R) (grid_step : R) : option (list (R * bool)) :=
  match times with
  | [] => None
  | _ => option_map (fun grid => fold_right insert_time [] (map (fun t => (t, false)) grid ++ map (fun t => (t, true)) times)) (range_from_0 (last times 0) grid_step)
  end.

Section Sampling.
  (** [random_normal i]: the generator of pseudo-random numbers when it is used for
      the [i]th time *)
  Variables (random_normal : nat -> option Z -> list nat -> list nat -> R) (stateless_normal : Z -> list nat -> list nat -> R) (cholesky : tensor R -> option (tensor R)).
  (** brownian_motion.py 311-340 *)
  Definition exact_sampling (dim : nat) (total_drift : R -> R -> nat -> R) (total_covariance : R -> R -> nat -> nat -> R) (times : list R) (num_samples : nat)
      (ty : option random_type) (seed : option Z) : option (tensor xr) :=
    let k := length times in
    let start_times := firstn k (0 :: times) in
    let start i := nth i start_times 0 in
    let stop i := nth i times 0 in
    if forallb (fun i => rle (start i) (stop i) && rle 0 (start i)) (seq 0 k) then
      let drifts := Tensor [k; dim] (fun idx => let i := nth 0 idx O in total_drift (start i) (stop i) (nth 1 idx O)) in
      let covars := Tensor [k; dim; dim] (fun idx => let i := nth 0 idx O in total_covariance (start i) (stop i) (nth 1 idx O) (nth 2 idx O)) in
      option_map (fun deltas => Tensor (shape deltas) (fun idx => xsum (map (fun j => elt deltas [nth 0 idx O; j; nth 2 idx O]) (seq 0 (S (nth 1 idx O))))))
        (multivariate_normal (random_normal O) stateless_normal cholesky [num_samples] (Some drifts) (Some covars) None ty seed 0 None)
    else None.

  Section Euler.
    Variables (p : process) (times : list R) (x0 : nat -> R) (dw : nat -> tensor xr).
    (** ito_process.py 324-335 after [n] steps: sample [s], coordinate [a] *)
    Fixpoint euler_state (n s a : nat) : xr :=
      match n with
      | O => Fin (x0 a)
      | S i =>
          let dt := at_ times (S i) - at_ times i in
          let current_time := at_ times (S i) in
          euler_state i s a +x Fin (dt * p_drift p current_time a)
            +x xsum (map (fun b => Fin (p_vol p current_time a b) *x (elt (dw i) [s; b; O] *x Fin (sqrt dt))) (seq 0 (p_dim p)))
      end.
  End Euler.
  (** 158-214 and 312-362.  The results are a tensor of zeros of the type float32,
      into which no other type can be written.  Slot [k] gets the state at the
      [k]th kept time after the start. *)
  Definition euler_sampling (p : process) (times : list R) (num_samples : nat) (x0 : nat -> R) (dtype : float_type) (grid_step : R)
      (ty : option random_type) (seed : option Z) : option (tensor xr) :=
    match euler_grid times grid_step, dtype with
    | Some grid, Float32 =>
        let all_times := map fst grid in
        let keep_mask := map snd grid in
        let steps := (length grid - 1)%nat in
        match map_opt (fun i => multivariate_normal (random_normal i) stateless_normal cholesky [num_samples] (Some (Tensor [p_dim p; 1%nat] (fun _ => 0))) None None ty seed 0 None) (seq 0 steps) with
        | None => None
        | Some dws =>
            let kept := filter (fun i => nth i keep_mask false) (seq 1 steps) in
            let dw := fun i => nth i dws (Tensor [] (fun _ => NaN)) in
            Some (Tensor [num_samples; length times; p_dim p]
              (fun idx => match nth_error kept (nth 1 idx O) with Some i => euler_state p all_times x0 dw i (nth 0 idx O) (nth 2 idx O) | None => Fin 0 end))
        end
    | _, _ => None
    end.
  (** brownian_motion.py 258-318 *)
  Definition sample_paths (p : process) (times : list R) (num_samples : nat) (initial_state : option (nat -> R)) (dtype : float_type) (grid_step : option R)
      (ty : option random_type) (seed : option Z) : option (tensor xr) :=
    let x0 := match initial_state with Some x => x | None => fun _ => 0 end in
    match p_total_drift p, p_total_covariance p with
    | Some td, Some tc => option_map (fun paths => Tensor (shape paths) (fun idx => elt paths idx +x Fin (x0 (nth 2 idx O)))) (exact_sampling (p_dim p) td tc times num_samples ty seed)
    | _, _ => match grid_step with None => None | Some h => euler_sampling p times num_samples x0 dtype h ty seed end
    end.
End Sampling.
