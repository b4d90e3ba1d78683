(** Model of tf_quant_finance/models/hull_white/vector_hull_white.py (and of
    one_factor.py, which is the case of dimension 1).  Definitions only.
    Mean reversion and volatility are constants or piecewise constant functions
    for every coordinate; functions of other kinds are not modelled.  Reals are
    exact; the mean reversion is not 0 (the code divides by it).  [None] is an
    exception. *)
From Coq Require Import Reals List Bool Arith.
From Verif Require Import TensorModel TensorProofs SegmentModel BrentModel LoopModel TimeGridModel PiecewiseModel GbmModel.
Import ListNotations.
Open Scope R_scope.

(** A piecewise constant matrix: piecewise.PiecewiseConstantFunc with matrix
    values, evaluated as on lines 284-311 of piecewise.py. *)
Definition matrix := nat -> nat -> R.
Record pwm := PWM { mjumps : list R; mvalues : list matrix }.
Definition pwm_call (f : pwm) (t : R) : matrix := nth (searchsorted_left (mjumps f) t) (mvalues f) (fun _ _ => 0).

(** The attributes set by the constructor (139-272).  [hw_rate] is
    initial_discount_rate_fn; [hw_forward] is _instant_forward_rate_fn (209-225),
    the derivative of rate(t) * t computed by automatic differentiation. *)
Record hw := HW {
  hw_dim : nat; hw_mr : nat -> param; hw_vol : nat -> param; hw_corr : option pwm;
  hw_rate : nat -> R -> R; hw_forward : nat -> R -> R }.
Definition param_jumps (p : param) : list R := match p with Const _ => [] | Piecewise f => jumps f end.
(** 1052-1055: jumps in the mean reversion require the Euler scheme.
    Simplification: for dimension above 1 the code also asks for it when a
    piecewise constant function without jumps is given. *)
Definition has_jumps (p : param) : bool := match param_jumps p with [] => false | _ => true end.
Definition sample_with_generic (h : hw) : bool := existsb (fun a => has_jumps (hw_mr h a)) (seq 0 (hw_dim h)).

(** ** Integrals between the jumps, for one coordinate *)
(** 951-954, also 909-912 *)
Definition variance_int (t0 t vol k : R) : R := vol * vol / (2 * k) * (exp (2 * k * t) - exp (2 * k * t0)).
(** 914-923 *)
Definition ex_integral (t0 t vol k y_t0 : R) : R :=
  let value := exp (k * t) - exp (k * t0) + exp (2 * k * t0) * (exp (- k * t) - exp (- k * t0)) in
  value * vol ^ 2 / (2 * k * k) + y_t0 * (exp (- k * t0) - exp (- k * t)) / k.
Section Coordinate.
  Variables (h : hw) (a : nat).
  (** 816-855.  Lists of unequal length are cut by [combine], as the empty list of
      jumps is by broadcasting. *)
  Definition corr_jumps : list R := match hw_corr h with None => [] | Some f => mjumps f end.
  Definition jump_locations : list R := sort (param_jumps (hw_vol h a) ++ param_jumps (hw_mr h a) ++ corr_jumps).
  Definition jump_values_vol : list R := map (param_at (hw_vol h a)) jump_locations.
  Definition jump_values_mr : list R := map (param_at (hw_mr h a)) jump_locations.
  Definition padded_knots : list R := 0 :: removelast jump_locations.
  Definition vn : list R := 0 :: jump_locations.
  (** 862-867, 882-889, 929-936; models/utils.py 329-336 is a cumulative sum (C61). *)
  Definition var_between_vol_knots : list R :=
    map (fun '((t0, t), (v, k)) => variance_int t0 t v k) (combine (combine padded_knots jump_locations) (combine jump_values_vol jump_values_mr)).
  Definition var_at_vol_knots : list R := 0 :: cumsum false var_between_vol_knots.
  (** 938-945, 861-873 *)
  Definition variance_at (t : R) : R :=
    let time_index := searchsorted_left jump_locations t in
    variance_int (at_ vn time_index) t (param_at (hw_vol h a) t) (param_at (hw_mr h a) t) + at_ var_at_vol_knots time_index.
  (** 857-874 *)
  Definition compute_yt (t : R) : R := exp (- 2 * param_at (hw_mr h a) t * t) * variance_at t.
  (** 891-904 *)
  Definition ex_between_vol_knots : list R :=
    map (fun '((t0, t), ((v, k), y)) => ex_integral t0 t v k y)
        (combine (combine padded_knots jump_locations) (combine (combine jump_values_vol jump_values_mr) (removelast var_at_vol_knots))).
  Definition ex_at_vol_knots : list R := 0 :: cumsum false ex_between_vol_knots.
  Definition mean_at (t : R) : R :=
    let time_index := searchsorted_left jump_locations t in
    ex_integral (at_ vn time_index) t (param_at (hw_vol h a) t) (param_at (hw_mr h a) t) (at_ var_at_vol_knots time_index) + at_ ex_at_vol_knots time_index.
  (** 905-907 and 947-949: step [i] of the grid [times] *)
  Definition conditional_mean_x (times : list R) (i : nat) : R :=
    (mean_at (at_ times (i + 1)) - mean_at (at_ times i)) * exp (- param_at (hw_mr h a) (at_ times (i + 1)) * at_ times (i + 1)).
  Definition conditional_variance_x (times : list R) (i : nat) : R :=
    (variance_at (at_ times (i + 1)) - variance_at (at_ times i)) * exp (- 2 * param_at (hw_mr h a) (at_ times (i + 1)) * at_ times (i + 1)).
  (** 783-814 *)
  Definition bond_reconstitution (t maturity mr short_rate y_t : R) : R :=
    let f_0_t := hw_forward h a t in
    let x_t := short_rate - f_0_t in
    let p_0_t := exp (- hw_rate h a t * t) in
    let p_0_t_tau := exp (- hw_rate h a maturity * maturity) / p_0_t in
    let g_t_tau := (1 - exp (- mr * (maturity - t))) / mr in
    p_0_t_tau * exp (- (x_t * g_t_tau) - 1 / 2 * (y_t * g_t_tau ^ 2)).
  (** 594-635 *)
  Definition discount_bond_price (short_rate t maturity : R) : R := bond_reconstitution t maturity (param_at (hw_mr h a) t) short_rate (compute_yt t).
  (** 292-305; [fwd_grad] is the derivative of the instantaneous forward rate. *)
  Definition hw_drift_fn (fwd_grad : R -> R) (t x : R) : R :=
    let mean_reversion := param_at (hw_mr h a) t in
    let volatility := param_at (hw_vol h a) t in
    fwd_grad t + mean_reversion * hw_forward h a t + (volatility ^ 2 / 2 / mean_reversion * (1 - exp (- 2 * mean_reversion * t)) - mean_reversion * x).
End Coordinate.

(** 982-1030 *)
Definition hw_prepare_grid (h : hw) (times : list R) (times_grid : option (list R)) : option (list R * list bool) :=
  let grid :=
    match times_grid with
    | None =>
        let additional_times := flat_map (fun a => param_jumps (hw_mr h a)) (seq 0 (hw_dim h)) ++ flat_map (fun a => param_jumps (hw_vol h a)) (seq 0 (hw_dim h)) ++ corr_jumps h in
        let all_times := sort ([0] ++ times ++ additional_times) in
        Some (all_times, map (searchsorted_left all_times) times)
    | Some g => option_map (fun idx => (g, idx)) (all_some (map (nearest_index g) times))
    end in
  match grid with
  | None => None
  | Some (all_times, idx) => option_map (fun mask => (all_times, mask)) (scatter_mask idx (length all_times))
  end.

(** ** A while loop over a grid that records some of the states *)
Section Recording.
  Context {X Y : Type}.
  Variables (step : nat -> X -> option X) (out : nat -> X -> Y).
  (** One recorded value, or a TensorArray whose unwritten slots are [None]. *)
  Inductive tape := Single (y : Y) | Slots (l : list (option Y)).
  Definition write (r : tape) (k : nat) (y : Y) : option tape :=
    match r with Single _ => Some (Single y) | Slots l => option_map Slots (acc_write l k y) end.
  Definition kept (mask : list bool) (i : nat) : nat := if nth i mask false then 1 else 0.
  (** vector_hull_white.py 732-772; [fuel] exceeds the number of steps, so that
      the loop ends by its condition. *)
  Fixpoint recording_loop (mask : list bool) (steps requested fuel i written : nat) (x : X) (r : tape) : option tape :=
    match fuel with
    | O => None
    | S m =>
        if (Nat.ltb i steps && Nat.ltb written requested)%bool then
          match step i x with
          | None => None
          | Some next =>
              match write r written (out (i + 1) next) with
              | None => None
              | Some r' => recording_loop mask steps requested m (i + 1) (written + kept mask (i + 1)) next r'
              end
          end
        else Some r
    end.
  (** 712-730 and 773-781; stacking unwritten slots fails. *)
  Definition record_run (mask : list bool) (steps requested : nat) (x0 : X) : option (list Y) :=
    match (if Nat.eqb requested 1 then Some (Single (out 0 x0)) else write (Slots (repeat None requested)) 0 (out 0 x0)) with
    | None => None
    | Some r =>
        match recording_loop mask steps requested (S steps) 0 (0 + kept mask 0) x0 r with
        | None => None
        | Some (Single y) => Some [y]
        | Some (Slots l) => all_some l
        end
    end.
End Recording.

(** ** Sampling *)
(** For every sample and coordinate. *)
Definition rates := nat -> nat -> R.
Definition reduce_min (l : list R) : R := match l with [] => 0 | x :: r => fold_right Rmin x r end.
(** 641-781 for given draws: [draws i s b] is the draw of step i, sample s and
    coordinate b, and there are [available] steps of them.  [cholesky] is the
    factorisation of tf.linalg.cholesky.  Simplification: a grid of one point is
    given the smallest step 0. *)
Definition hw_sample (cholesky : matrix -> option matrix) (h : hw) (times : list R) (times_grid : option (list R)) (available : nat) (draws : nat -> rates) : option (list rates) :=
  match hw_prepare_grid h times times_grid with
  | None => None
  | Some (grid, keep_mask) =>
      let dt := diff 1 true grid in
      let root := match hw_corr h with
                  | None => Some None
                  | Some c => option_map Some (all_some (map (fun t => cholesky (pwm_call c (t + reduce_min dt / 2))) grid))
                  end in
      match root with
      | None => None
      | Some root =>
          let step i (x : rates) : option rates :=
            if Nat.ltb i available then
              let normals s a := match root with
                                 | Some l => rsum (fun b => nth i l (fun _ _ => 0) a b * draws i s b) (hw_dim h)
                                 | None => draws i s a
                                 end in
              let vol_x a := let v := sqrt (Rmax (conditional_variance_x h a grid i) 0) in if rlt 0 v then v else 0 in
              Some (fun s a => exp (- param_at (hw_mr h a) (at_ grid (i + 1)) * at_ dt i) * x s a + conditional_mean_x h a grid i + vol_x a * normals s a)
            else None in
          record_run step (fun i (x : rates) s a => x s a + hw_forward h a (at_ grid i)) keep_mask (length dt) (length times) (fun _ _ => 0)
      end
  end.
(** 319-449: exact sampling.  Supplied draws have a number of steps and of
    coordinates; otherwise as many draws as steps are generated in advance, or
    each step draws its own (C61).  The Euler scheme (415-433) is C46. *)
Definition hw_sample_paths (cholesky : matrix -> option matrix) (generated : nat -> rates) (h : hw) (times : list R) (times_grid : option (list R))
    (normal_draws : option (nat * nat * (nat -> rates))) (validate_args : bool) : option (list rates) :=
  if sample_with_generic h then None else
  match hw_prepare_grid h times times_grid with
  | None => None
  | Some (grid, _) =>
      let steps_num := (length grid - 1)%nat in
      match normal_draws with
      | None => hw_sample cholesky h times times_grid steps_num generated
      | Some (num, dim, draws) =>
          if negb (Nat.eqb dim (hw_dim h)) then None
          else if (validate_args && negb (Nat.eqb num steps_num))%bool then None
          else hw_sample cholesky h times times_grid num draws
      end
  end.
(** 451-592: bond prices along the paths; entry [m] of the result for simulation
    time [i], sample s and coordinate a is the price of the bond that matures
    curve_times[m] later. *)
Definition sample_discount_curve_paths (cholesky : matrix -> option matrix) (generated : nat -> rates) (h : hw) (times curve_times : list R) (times_grid : option (list R))
    (normal_draws : option (nat * nat * (nat -> rates))) (validate_args : bool) : option ((nat -> nat -> nat -> nat -> R) * list rates) :=
  match hw_sample_paths cholesky generated h times times_grid normal_draws validate_args with
  | None => None
  | Some rate_paths =>
      Some (fun s m i a => bond_reconstitution h a (at_ times i) (at_ times i + at_ curve_times m) (param_at (hw_mr h a) (at_ times i))
                             (nth i rate_paths (fun _ _ => 0) s a) (compute_yt h a (at_ times i)), rate_paths)
  end.
