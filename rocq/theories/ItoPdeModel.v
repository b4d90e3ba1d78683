(** Model of tf_quant_finance/models/generic_ito_process.py: the equations that
    the finite difference solvers receive, and the one-dimensional solvers on
    them; and of tf_quant_finance/math/pde/boundary_conditions.py.  Definitions
    only.  The drift and the volatility are functions of time and of one point;
    batches of values are not modelled. *)
From Coq Require Import Reals List Bool Arith ZArith.
From Verif Require Import TensorProofs EulerModel PdeStepModel PdeSolveModel PdeSolveView.
Import ListNotations.
Open Scope R_scope.

Definition point := nat -> R.
Record generic := Generic { gdim : nat; mu : R -> point -> nat -> R; sg : R -> point -> nat -> nat -> R }.
(** generic_ito_process.py 125-133 *)
Definition generic_make (dim : Z) (drift : option (R -> point -> nat -> R)) (volatility : option (R -> point -> nat -> nat -> R)) : option generic :=
  if (dim <? 1)%Z then None
  else match drift, volatility with
       | Some m, Some s => Some (Generic (Z.to_nat dim) m s)
       | _, _ => None
       end.
(** generic_ito_process.py 297-317: what euler_sampling.sample receives *)
Definition sampled (g : generic) : process := Process (gdim g) (fun t x s => mu g t (x s)) (fun t x s => sg g t (x s)).

(** generic_ito_process.py 882-885: the point at index [k] of the grid whose axis
    [d] is [axes d] *)
Definition mesh (axes : nat -> list R) (k : nat -> nat) : point := fun d => nth (k d) (axes d) 0.
(** generic_ito_process.py 848-858; the result is indexed by the two dimensions
    and then by the grid *)
Definition second_order_coeff (g : generic) (axes : nat -> list R) (t : R) (i j : nat) (k : nat -> nat) : R :=
  let sigma := sg g t (mesh axes k) in rsum (fun l => sigma i l * sigma j l) (gdim g) / 2.
(** generic_ito_process.py 860-870 *)
Definition first_order_coeff (g : generic) (axes : nat -> list R) (t : R) (i : nat) (k : nat -> nat) : R := mu g t (mesh axes k) i.
(** generic_ito_process.py 872-877 *)
Definition zeroth_order_coeff (discounting : option (R -> point -> R)) (axes : nat -> list R) (t : R) : option ((nat -> nat) -> R) :=
  match discounting with None => None | Some r => Some (fun k => - r t (mesh axes k)) end.

(** The coefficients as the one-dimensional stepper reads them:
    parabolic_equation_stepper.py 226-243 *)
Definition on_grid (xs : list R) (c : (nat -> nat) -> R) : list R := map (fun i => c (fun _ => i)) (seq 0 (length xs)).
(** generic_ito_process.py 612-615 and 628-630 *)
Definition backward_coefficients (g : generic) (discounting : option (R -> point -> R)) (xs : list R) : coefficients :=
  let axes := fun _ : nat => xs in
  {| second := fun t => Some (on_grid xs (second_order_coeff g axes t 0 0));
     first_ := fun t => Some (on_grid xs (first_order_coeff g axes t 0));
     zeroth := fun t => option_map (on_grid xs) (zeroth_order_coeff discounting axes t);
     inner_second := fun _ => None; inner_first := fun _ => None |}.
(** generic_ito_process.py 816-825 and 838-840 *)
Definition forward_coefficients (g : generic) (xs : list R) : coefficients :=
  let axes := fun _ : nat => xs in
  {| second := fun _ => None; first_ := fun _ => None;
     zeroth := fun t => option_map (on_grid xs) (zeroth_order_coeff None axes t);
     inner_second := fun t => Some (on_grid xs (fun k => - second_order_coeff g axes t 0 0 k));
     inner_first := fun t => Some (on_grid xs (first_order_coeff g axes t 0)) |}.

(** boundary_conditions.py 68-75 and 130-137 *)
Definition dirichlet (values : R -> R) : R -> option R * option R * R := fun t => (Some 1, None, values t).
Definition neumann (normal_derivative : R -> R) : R -> option R * option R * R := fun t => (None, Some 1, normal_derivative t).

(** fd_solvers.py 652-658 *)
Definition boundaries_or_zero (b : option (boundary * boundary)) : boundary * boundary :=
  match b with Some b => b | None => (Some (dirichlet (fun _ => 0)), Some (dirichlet (fun _ => 0))) end.
(** fd_solvers.py 646-650, for one dimension *)
Definition scheme_fn := nat -> list R -> R -> R -> (R -> option (tridiagonal * list R)) -> option (list R).
Definition scheme_or_default (s : option scheme_fn) : scheme_fn := match s with Some s => s | None => damped_crank_nicolson 1 end.
Definition one_step (scheme : scheme_fn) (xs : list R) (b : boundary * boundary) (co : coefficients) : R -> R -> nat -> option (list R) -> option (list R) :=
  fun time next_time count vs => let? vs := vs in parabolic_step (scheme count) time next_time xs vs (fst b) (snd b) co.

(** generic_ito_process.py 606-632 and 810-842, one dimension, with the solvers
    of fd_solvers.py; the values, the final time and the number of steps *)
Definition fd_solver_backward (g : generic) (start_time end_time : R) (xs vs : list R) (discounting : option (R -> point -> R)) (scheme : option scheme_fn)
  (b : option (boundary * boundary)) (start_step_count : nat) (num_steps : option nat) (time_step : option (time_step_arg R)) (fuel : nat) : option (option (list R) * R * nat) :=
  solve_backward real start_time end_time (Some vs) num_steps start_step_count time_step
    (one_step (scheme_or_default scheme) xs (boundaries_or_zero b) (backward_coefficients g discounting xs)) (fun _ v => v) None fuel.
Definition fd_solver_forward (g : generic) (start_time end_time : R) (xs vs : list R) (scheme : option scheme_fn)
  (b : option (boundary * boundary)) (start_step_count : nat) (num_steps : option nat) (time_step : option (time_step_arg R)) (fuel : nat) : option (option (list R) * R * nat) :=
  solve_forward real start_time end_time (Some vs) num_steps start_step_count time_step
    (one_step (scheme_or_default scheme) xs (boundaries_or_zero b) (forward_coefficients g xs)) (fun _ v => v) None fuel.
