(** Model of tf_quant_finance/math/root_search/brent.py.  Definitions only.
    Floats are exact reals; the objective is a total function, so the
    [is_finite] tests are always true and are left out.  One record models one
    element of the batch; [max_iterations] is the scalar the while loop needs. *)
From Coq Require Import Reals List Bool Arith.
From Verif Require Import InterpModel.
Import ListNotations.
Open Scope R_scope.

Definition rlt (a b : R) : bool := if Rlt_dec a b then true else false.
Definition rle (a b : R) : bool := if Rle_dec a b then true else false.

(** brent.py 63-75, [_BrentSearchState]. *)
Record bstate := BState {
  best_estimate : R; value_at_best_estimate : R;
  last_estimate : R; value_at_last_estimate : R;
  contrapoint : R; value_at_contrapoint : R;
  step_to_best_estimate : R; step_to_last_estimate : R;
  num_iterations : nat; finished : bool }.

(** brent.py 78-86, [_BrentSearchParams]; the stopping policy is an argument of the loop. *)
Record bparams := BParams {
  objective_fn : R -> R; max_iterations : nat;
  absolute_root_tolerance : R; relative_root_tolerance : R; function_tolerance : R }.

(** brent.py 89-100. *)
Definition swap_where (condition : bool) (x y : R) : R * R :=
  (if condition then y else x, if condition then x else y).

(** brent.py 103-126. *)
Definition secant_step (x1 x2 y1 y2 : R) : R :=
  let x_difference := x1 - x2 in
  let y_difference := y1 - y2 in
  - y1 * x_difference / y_difference.

(** brent.py 129-153. *)
Definition quadratic_interpolation_step (x1 x2 x3 y1 y2 y3 : R) : R :=
  let r2 := (x2 - x1) / (y2 - y1) in
  let r3 := (x3 - x1) / (y3 - y1) in
  - x1 * divide_no_nan (x3 * r3 - x2 * r2) (r3 * r2 * (x3 - x2)).

(** brent.py 173-319, [_brent_loop_body]. *)
Definition brent_loop_body (p : bparams) (state : bstate) : bstate :=
  let best := best_estimate state in
  let last := last_estimate state in
  let contra := contrapoint state in
  let v_best := value_at_best_estimate state in
  let v_last := value_at_last_estimate state in
  let v_contra := value_at_contrapoint state in
  let s_best := step_to_best_estimate state in
  let s_last := step_to_last_estimate state in
  let n := num_iterations state in
  let fin := finished state in
  (* 196-209 *)
  let replace_contrapoint := negb fin && rlt (v_last * v_best) 0 in
  let contra := if replace_contrapoint then last else contra in
  let v_contra := if replace_contrapoint then v_last else v_contra in
  let s_last := if replace_contrapoint then best - last else s_last in
  let s_best := if replace_contrapoint then s_last else s_best in
  (* 211-227 *)
  let replace_best := if fin then false else rlt (Rabs v_contra) (Rabs v_best) in
  let last := if replace_best then best else last in
  let best := if replace_best then contra else best in
  let contra := if replace_best then last else contra in
  let v_last := if replace_best then v_best else v_last in
  let v_best := if replace_best then v_contra else v_best in
  let v_contra := if replace_best then v_last else v_contra in
  (* 229-234 *)
  let root_tolerance := / 2 * (absolute_root_tolerance p + relative_root_tolerance p * Rabs best) in
  let bisection_step := / 2 * (contra - best) in
  (* 236-245 *)
  let fin := fin || (Nat.leb (max_iterations p) n || rlt (Rabs bisection_step) root_tolerance
                     || rle (Rabs v_best) (function_tolerance p)) in
  (* 247-273 *)
  let compute_short_step :=
    if fin then false else rlt root_tolerance (Rabs s_last) && rlt (Rabs v_best) (Rabs v_last) in
  let short_step :=
    if compute_short_step then
      if req last contra then secant_step best last v_best v_last
      else quadratic_interpolation_step v_best v_last v_contra best last contra
    else 0 in
  (* 275-283 *)
  let use_short_step :=
    if compute_short_step then rlt (2 * Rabs short_step) (Rmin (3 * Rabs bisection_step - root_tolerance) (Rabs s_last))
    else false in
  (* 285-290 *)
  let s_last := if use_short_step then s_best else bisection_step in
  let s_best := if fin then 0 else if use_short_step then short_step else bisection_step in
  (* 292-305 *)
  let last := if fin then last else best in
  let best := best + (if fin then 0 else
                        if rlt root_tolerance (Rabs s_best) then s_best
                        else if rlt 0 bisection_step then root_tolerance else - root_tolerance) in
  let v_last := if fin then v_last else v_best in
  let v_best := if fin then v_best else objective_fn p best in
  let n := if fin then n else S n in
  BState best v_best last v_last contra v_contra s_best s_last n fin.

(** brent.py 322-488, [_prepare_brent_args]: the initial state. *)
Definition prepare_brent_args (p : bparams) (left_bracket right_bracket : R) (value_at_left value_at_right : option R) : bstate :=
  let v_left := match value_at_left with Some v => v | None => objective_fn p left_bracket end in
  let v_right := match value_at_right with Some v => v | None => objective_fn p right_bracket end in
  let swap_positions := rlt (Rabs v_left) (Rabs v_right) in
  let '(best, last) := swap_where swap_positions right_bracket left_bracket in
  let '(v_best, v_last) := swap_where swap_positions v_right v_left in
  let fin := Nat.leb (max_iterations p) 0 || rle (Rabs v_best) (function_tolerance p) in
  BState best v_best last v_last 0 0 0 0 0 fin.

(** brent.py 629-637: the while loop over the whole batch, at most [fuel] = max_iterations bodies. *)
Fixpoint brent_while (ps : list bparams) (policy : list bool -> bool) (fuel : nat) (states : list bstate) : list bstate :=
  match fuel with
  | O => states
  | S k =>
      if policy (map finished states) then states
      else brent_while ps policy k (map (fun '(p, s) => brent_loop_body p s) (combine ps states))
  end.

(** brent.py 42-52, [BrentResults]. *)
Record bresult := BResult { estimated_root : R; objective_at_estimated_root : R; result_iterations : nat; converged : bool }.

(** brent.py 607-627: the assertions of validate_args for one element; the last
    one holds because the model counts iterations with naturals. *)
Definition brent_valid (p : bparams) (s : bstate) : bool :=
  rle (value_at_last_estimate s * value_at_best_estimate s) 0 && rlt 0 (absolute_root_tolerance p)
  && rlt 0 (relative_root_tolerance p) && rle 0 (function_tolerance p).

Definition brent_result (p : bparams) (s : bstate) : bresult :=
  BResult (best_estimate s) (value_at_best_estimate s) (num_iterations s)
          (rle (Rabs (value_at_best_estimate s)) (function_tolerance p)).

(** One element of the batch: its bracket and the optional values there. *)
Record binput := BInput { left_bracket : R; right_bracket : R; left_value : option R; right_value : option R }.
Definition prepare (p : bparams) (b : binput) : bstate :=
  prepare_brent_args p (left_bracket b) (right_bracket b) (left_value b) (right_value b).

(** brent.py 493-646, [_brent] and 649-844, [brentq]: [fs] are the components
    of an objective acting elementwise; one scalar for each tolerance. *)
Definition brentq (fs : list (R -> R)) (inputs : list binput) (maxit : nat) (atol rtol ftol : R)
    (policy : list bool -> bool) (validate_args : bool) : option (list bresult) :=
  let ps := map (fun f => BParams f maxit atol rtol ftol) fs in
  let states := map (fun '(p, b) => prepare p b) (combine ps inputs) in
  if validate_args && negb (forallb (fun '(p, s) => brent_valid p s) (combine ps states)) then None
  else Some (map (fun '(p, s) => brent_result p s) (combine ps (brent_while ps policy maxit states))).

(** tf.reduce_all and tf.reduce_any, the usual stopping policies. *)
Definition reduce_all (l : list bool) : bool := forallb (fun b => b) l.
Definition reduce_any (l : list bool) : bool := existsb (fun b => b) l.
