(** Model of tf_quant_finance/math/optimizer/conjugate_gradient.py.  Definitions
    only.  Exact reals.  A batch of [size] searches in [dim] dimensions: a batch
    of scalars is a function of the member, a point a function of the coordinate.
    The objective is given member by member, as the documentation of batches
    asks.  The line search of TensorFlow Probability is an argument [search]. *)
From Coq Require Import Reals List Bool Arith.
From Verif Require Import TensorProofs.
Import ListNotations.
Open Scope R_scope.

Definition vec := nat -> R.
Definition rleb (a b : R) : bool := if Rle_dec a b then true else false.
Definition rltb (a b : R) : bool := if Rlt_dec a b then true else false.
(** tf.math.divide_no_nan *)
Definition no_nan (a b : R) : R := if Req_EM_T b 0 then 0 else a / b.
(** conjugate_gradient.py 543-560 *)
Definition dot (dim : nat) (x y : vec) : R := rsum (fun i => x i * y i) dim.
Definition norm_sq (dim : nat) (x : vec) : R := rsum (fun i => x i * x i) dim.
Definition norm (dim : nat) (x : vec) : R := sqrt (norm_sq dim x).
Fixpoint norm_inf (dim : nat) (x : vec) : R := match dim with O => 0 | S k => Rmax (norm_inf k x) (Rabs (x k)) end.

(** conjugate_gradient.py 104-115 *)
Record point_value := PV { pv_x : R; pv_f : R; pv_df : R; pv_grad : vec }.
(** conjugate_gradient.py 118-162 *)
Record cg_params := Params { delta : R; sigma : R; eps : R; gamma : R; eta : R; rho : R; psi_1 : R; psi_2 : R; quad_step : bool }.
Definition default_params : cg_params := Params (1 / 10) (9 / 10) (1 / 1000000) (66 / 100) (4 / 10) 5 (2 / 10) 2 true.
(** conjugate_gradient.py 82-99 *)
Record cg_state := State { converged : nat -> bool; failed : nat -> bool; num_iterations : nat; num_evaluations : nat;
  position : nat -> vec; value : nat -> R; gradient : nat -> vec; direction : nat -> vec; prev_step : nat -> R }.
(** conjugate_gradient.py 385-395: what hager_zhang receives and what is read of
    its result: converged, failed, left, func_evals *)
Record search_result := Searched { ls_converged : nat -> bool; ls_failed : nat -> bool; ls_left : nat -> point_value; ls_evals : nat }.
Definition line_search := cg_params -> nat -> (nat -> R -> point_value) -> (nat -> point_value) -> (nat -> bool) -> (nat -> point_value) -> search_result.

(** conjugate_gradient.py 456-470 *)
Record guess := Guess { g_step : nat -> point_value; g_take : nat -> bool; g_stop : nat -> bool; g_evals : nat }.
Definition any (size : nat) (p : nat -> bool) : bool := existsb p (seq 0 size).
Definition all (size : nat) (p : nat -> bool) : bool := forallb p (seq 0 size).
(** conjugate_gradient.py 473-540 *)
Definition init_step (size : nat) (pos : nat -> point_value) (prev : nat -> R) (func : nat -> R -> point_value) (psi1 psi2 : R) (quad : bool) : guess :=
  let step := fun b => func b (psi1 * prev b) in
  let can_take := fun b => rltb (pv_f (pos b)) (pv_f (step b)) in
  let result := Guess step can_take (fun _ => false) 1 in
  let result :=
    if quad then
      let q := fun b => pv_f (step b) - pv_f (pos b) - pv_x (step b) * pv_df (pos b) in
      let success := fun b => rleb (pv_f (step b)) (pv_f (pos b)) && rltb 0 (q b) in
      if any size success then
        let new_x := fun b => if success b then - (1 / 2) * no_nan (pv_df (pos b) * (pv_x (step b) * pv_x (step b))) (q b) else pv_x (g_step result b) in
        Guess (fun b => func b (new_x b)) (fun b => g_take result b || success b) (fun b => g_stop result b || success b) (g_evals result + 1)
      else result
    else result in
  if all size (g_take result) then result
  else
    let new_x := fun b => if can_take b then pv_x (g_step result b) else psi2 * prev b in
    Guess (fun b => func b (new_x b)) (fun _ => true) (g_stop result) (g_evals result + 1).

Definition objective := nat -> vec -> R * vec.
(** conjugate_gradient.py 343-350 *)
Definition ls_func (dim : nat) (obj : objective) (x d : nat -> vec) (b : nat) (alpha : R) : point_value :=
  let pt := fun i => x b i + alpha * d b i in
  PV alpha (fst (obj b pt)) (dot dim (snd (obj b pt)) (d b)) (snd (obj b pt)).
(** conjugate_gradient.py 312-325 *)
Definition cg_initial (dim : nat) (obj : objective) (x0 : nat -> vec) (tolerance : R) : cg_state :=
  let g0 := fun b => snd (obj b (x0 b)) in
  State (fun b => rltb (norm dim (g0 b)) tolerance) (fun _ => false) 0 1 x0 (fun b => fst (obj b (x0 b))) g0 (fun b i => - g0 b i) (fun _ => 1).
(** conjugate_gradient.py 366-381 *)
Definition wolfe (p : cg_params) (phi0 dphi0 c phic dphic : R) : bool :=
  let phi_lim := phi0 + eps p * Rabs phi0 in
  let wolfe1 := rleb (no_nan (phic - phi0) c) (delta p * dphi0) && rleb (sigma p * dphi0) dphic in
  let wolfe2 := rleb dphic ((2 * delta p - 1) * dphi0) && rleb (sigma p * dphi0) dphic && rleb phic phi_lim in
  wolfe1 || wolfe2.
(** conjugate_gradient.py 409-419 *)
Definition next_direction (dim : nat) (eta : R) (d g g' : vec) : vec :=
  let y := fun i => g' i - g i in
  let dy := dot dim d y in
  let b := no_nan (dot dim y g' - no_nan (norm_sq dim y * dot dim g' d) dy) dy in
  let eta_k := no_nan (eta * dot dim d g) (norm_sq dim d) in
  let b := Rmax b eta_k in
  fun i => - g' i + b * d i.
(** conjugate_gradient.py 333-441 *)
Definition cg_body (size dim : nat) (obj : objective) (p : cg_params) (search : line_search) (tolerance x_tolerance f_tolerance : R) (s : cg_state) : cg_state :=
  let func := ls_func dim obj (position s) (direction s) in
  let val0 := fun b => PV 0 (value s b) (dot dim (gradient s b) (direction s b)) (gradient s b) in
  let gs := init_step size val0 (prev_step s) func (psi_1 p) (psi_2 p) (quad_step p) in
  let step := g_step gs in
  let skip := fun b => g_stop gs b && wolfe p (value s b) (pv_df (val0 b)) (pv_x (step b)) (pv_f (step b)) (pv_df (step b)) || failed s b || converged s b in
  let ls := search p size func val0 skip step in
  let chosen := fun b => if skip b then step b else ls_left ls b in
  let a := fun b => pv_x (chosen b) in
  let x' := fun b i => position s b i + a b * direction s b i in
  let f' := fun b => pv_f (chosen b) in
  let g' := fun b => pv_grad (chosen b) in
  let d' := fun b => next_direction dim (eta p) (direction s b) (gradient s b) (g' b) in
  let grad_ok := fun b => rleb (norm_inf dim (g' b)) tolerance in
  let x_ok := fun b => rleb (norm_inf dim (fun i => x' b i - position s b i)) x_tolerance in
  let f_ok := fun b => rleb (Rabs (f' b - value s b)) (f_tolerance * Rabs (value s b)) in
  State (fun b => ls_converged ls b && (grad_ok b || x_ok b || f_ok b)) (ls_failed ls) (num_iterations s + 1) (num_evaluations s + g_evals gs + ls_evals ls)
    (fun b => if converged s b then position s b else x' b) (fun b => if converged s b then value s b else f' b)
    (fun b => if converged s b then gradient s b else g' b) d' a.
(** conjugate_gradient.py 327-331 *)
Definition cg_cond (max_iterations : nat) (stopping : (nat -> bool) -> (nat -> bool) -> bool) (s : cg_state) : bool :=
  Nat.ltb (num_iterations s) max_iterations && negb (stopping (converged s) (failed s)).
(** tfp.optimizer.converged_all: conjugate_gradient.py 296 and its documentation *)
Definition converged_all (size : nat) (c f : nat -> bool) : bool := all size (fun b => c b || f b).
(** tf.while_loop *)
Fixpoint cg_loop (cond : cg_state -> bool) (body : cg_state -> cg_state) (fuel : nat) (s : cg_state) : option cg_state :=
  if cond s then match fuel with O => None | S k => cg_loop cond body k (body s) end else Some s.
(** conjugate_gradient.py 165-453; the result is read from the final state *)
Definition minimize (size dim : nat) (obj : objective) (x0 : nat -> vec) (tolerance x_tolerance f_tolerance : R) (max_iterations : nat)
  (stopping : option ((nat -> bool) -> (nat -> bool) -> bool)) (params : option cg_params) (search : line_search) (fuel : nat) : option cg_state :=
  let p := match params with Some p => p | None => default_params end in
  let stopping := match stopping with Some c => c | None => converged_all size end in
  cg_loop (cg_cond max_iterations stopping) (cg_body size dim obj p search tolerance x_tolerance f_tolerance) fuel (cg_initial dim obj x0 tolerance).
