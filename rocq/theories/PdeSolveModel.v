(** Model of the time loop of math/pde/fd_solvers.py.  Times are of any type with
    the operations below: exact reals and binary64 floats are both used. *)
From Coq Require Import List Bool Arith.
Import ListNotations.
Open Scope nat_scope.

Record number (T : Type) := {
  plus_ : T -> T -> T; minus_ : T -> T -> T; over_ : T -> T -> T; abs_ : T -> T;
  minimum : T -> T -> T; maximum : T -> T -> T; ge_ : T -> T -> bool; equal_ : T -> T -> bool;
  zero_ : T; of_nat : nat -> T; ceil_nat : T -> nat }.
Arguments plus_ {T}. Arguments minus_ {T}. Arguments over_ {T}. Arguments abs_ {T}. Arguments minimum {T}. Arguments maximum {T}.
Arguments ge_ {T}. Arguments equal_ {T}. Arguments zero_ {T}. Arguments of_nat {T}. Arguments ceil_nat {T}.

(** the [time_step] argument: a number or a callable *)
Inductive time_step_arg (T : Type) := FixedStep (dt : T) | StepFn (f : T -> T).
Arguments FixedStep {T}. Arguments StepFn {T}.

Section Loop.
  Context {T A : Type} (o : number T).
  (** fd_solvers.py 763-765 *)
  Definition forward_fn (t dt end_time : T) : bool * T :=
    let t_next := minimum o end_time (plus_ o t dt) in (ge_ o t_next end_time, t_next).
  (** fd_solvers.py 768-770 *)
  Definition backward_fn (t dt end_time : T) : bool * T :=
    let t_next := maximum o end_time (minus_ o t dt) in (ge_ o end_time t_next, t_next).
  (** fd_solvers.py 730-760 *)
  Definition time_steps_info (start_time end_time : T) (num_steps : option nat) (time_step : option (time_step_arg T))
    (direction : T -> T -> T -> bool * T) : option ((T -> bool * T) * option nat) :=
    let interval := abs_ o (minus_ o end_time start_time) in
    match num_steps, time_step with
    | Some n, None => let dt := over_ o interval (of_nat o n) in Some (fun t => direction t dt end_time, Some n)
    | None, Some (FixedStep dt) => Some (fun t => direction t dt end_time, Some (ceil_nat o (over_ o interval dt)))
    | None, Some (StepFn f) => Some (fun t => direction t (f t) end_time, None)
    | _, _ => None (* fd_solvers.py 636-638: exactly one of them must be supplied *)
    end.

  Definition loop_state : Type := bool * T * A * nat.
  (** fd_solvers.py 681-702; [A] holds the coordinate grid and the values grid,
      [one_step time next_time num_steps_performed] is the stepper applied to the
      equation and [transform] is [values_transform_fn], the identity if absent *)
  Definition loop_body (time_step_fn : T -> bool * T) (one_step : T -> T -> nat -> A -> A) (transform : T -> A -> A) (st : loop_state) : loop_state :=
    let '(_, time, grid, steps) := st in
    let '(stop, t_next) := time_step_fn time in
    (stop, t_next, transform t_next (one_step time t_next steps grid), S steps).
  (** tf.while_loop with maximum_iterations *)
  Fixpoint bounded_loop (iterations : nat) (body : loop_state -> loop_state) (st : loop_state) : loop_state :=
    let '(stop, _, _, _) := st in
    if stop then st else match iterations with O => st | S i => bounded_loop i body (body st) end.
  (** tf.while_loop without a limit, run for at most [fuel] iterations: None when
      it has not stopped by then *)
  Fixpoint unbounded_loop (fuel : nat) (body : loop_state -> loop_state) (st : loop_state) : option loop_state :=
    let '(stop, _, _, _) := st in
    if stop then Some st else match fuel with O => None | S f => unbounded_loop f body (body st) end.
  (** fd_solvers.py 615-716: the final grid, the final time and the number of
      steps performed *)
  Definition solve (direction : T -> T -> T -> bool * T) (start_time end_time : T) (grid : A) (num_steps : option nat) (start_step_count : nat)
    (time_step : option (time_step_arg T)) (one_step : T -> T -> nat -> A -> A) (transform : T -> A -> A) (maximum_steps : option nat) (fuel : nat) : option (A * T * nat) :=
    match time_steps_info start_time end_time num_steps time_step direction with
    | None => None
    | Some (time_step_fn, est_max_steps) =>
        let est_max_steps := match est_max_steps with None => maximum_steps | _ => est_max_steps end in
        let body := loop_body time_step_fn one_step transform in
        let initial := (equal_ o start_time end_time, start_time, grid, start_step_count) in
        match match est_max_steps with Some n => Some (bounded_loop n body initial) | None => unbounded_loop fuel body initial end with
        | None => None
        | Some (_, final_time, final_grid, steps_performed) => Some (final_grid, final_time, steps_performed)
        end
    end.
  (** fd_solvers.py 350-375 *)
  Definition solve_backward (start_time end_time : T) :=
    let end_time := maximum o (minimum o end_time start_time) (zero_ o) in solve backward_fn start_time end_time.
  (** fd_solvers.py 588-612 *)
  Definition solve_forward (start_time end_time : T) :=
    let end_time := maximum o end_time start_time in solve forward_fn start_time end_time.
End Loop.
